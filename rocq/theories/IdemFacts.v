(** Decoding the same text again: acceptance does not depend on what the
    destination holds, and a second decode changes nothing (C56, C57). *)
From Coq Require Import Strings.String Strings.Byte ZArith List Bool Lia Floats.SpecFloat.
From Verif Require Import Base GoTypes Tags Unmarshal Grammar Denote Elements NumFacts TextFacts ScanFacts Complete Typing Safe Api
  CompileFacts UnmFacts StoreFacts StructFacts Again.
Import ListNotations.
Open Scope Z_scope.

Lemma list_ext_nth {A} : forall (a b : list A), (forall i, nth_error a i = nth_error b i) -> a = b.
Proof.
  induction a as [|x a IH]; intros [|y b] H; [reflexivity|specialize (H 0%nat); discriminate|specialize (H 0%nat); discriminate|].
  pose proof (H 0%nat) as H0. injection H0 as ->. f_equal. apply IH. intros i. apply (H (S i)).
Qed.

Lemma F2_length {A B} (R : A -> B -> Prop) a b : Forall2 R a b -> length a = length b.
Proof. induction 1; cbn; congruence. Qed.

(** ** Chains of stores into one place *)
Inductive chain (V : lval -> gval -> gval -> Prop) : list lval -> gval -> gval -> Prop :=
| ch_nil v : chain V [] v v
| ch_cons p ps v v1 v2 : V p v v1 -> chain V ps v1 v2 -> chain V (p :: ps) v v2.

Section Chain.
  Context (V : lval -> gval -> gval -> Prop).
  Lemma chain_nil v w : chain V [] v w <-> w = v.
  Proof. split; [intros H; inversion H; reflexivity|intros ->; constructor]. Qed.
  Lemma chain_cons p ps v w : chain V (p :: ps) v w <-> exists v1, V p v v1 /\ chain V ps v1 w.
  Proof. split; [intros H; inversion H; subst; eauto|intros (v1 & H1 & H2); econstructor; eauto]. Qed.
  Lemma chain_app ps qs v w : chain V (ps ++ qs) v w <-> exists v1, chain V ps v v1 /\ chain V qs v1 w.
  Proof.
    revert v. induction ps as [|p ps IH]; intros v; cbn [app].
    - split; [intros H; exists v; split; [constructor|exact H]|intros (v1 & H1 & H2)]. apply chain_nil in H1 as ->. exact H2.
    - rewrite chain_cons. split.
      + intros (v1 & H1 & H2). apply IH in H2 as (v2 & H2 & H3). exists v2. split; [econstructor; eauto|exact H3].
      + intros (v2 & H1 & H2). apply chain_cons in H1 as (v1 & H1 & H3). exists v1. split; [exact H1|]. apply IH. eauto.
  Qed.
  Lemma chain_one p v w : V p v w -> chain V [p] v w.
  Proof. intros H. econstructor; [exact H|constructor]. Qed.
  Lemma chain_one_inv p v w : chain V [p] v w -> V p v w.
  Proof. intros H. apply chain_cons in H as (v1 & H & H1). apply chain_nil in H1 as ->. exact H. Qed.

  (** every step keeps what is there or puts a constant *)
  Definition flat (P : gval -> Prop) (p : lval) (v w : gval) : Prop :=
    (w = v /\ forall v', P v' -> V p v' v') \/ (P w /\ forall v', P v' -> V p v' w).
  Lemma flat_chain (P : gval -> Prop) ps v w : (forall p v w, In p ps -> P v -> V p v w -> flat P p v w) -> P v -> chain V ps v w ->
    (w = v /\ forall v', P v' -> chain V ps v' v') \/ (P w /\ forall v', P v' -> chain V ps v' w).
  Proof.
    intros HF Hv H. induction H as [v|p ps v v1 v2 Hp Hr IH].
    - left. split; [reflexivity|]. intros v' _. constructor.
    - destruct (HF p v v1 (or_introl eq_refl) Hv Hp) as [[-> H1]|[HP1 H1]];
        (destruct IH as [[-> H2]|[HP2 H2]]; [intros; apply HF; cbn; auto|assumption| |]).
      + left. split; [reflexivity|]. intros v' Hv'. econstructor; eauto.
      + right. split; [exact HP2|]. intros v' Hv'. econstructor; eauto.
      + right. split; [exact HP1|]. intros v' Hv'. econstructor; eauto.
      + right. split; [exact HP2|]. intros v' Hv'. econstructor; eauto.
  Qed.
  Lemma flat_idem (P : gval -> Prop) ps v w : (forall p v w, In p ps -> P v -> V p v w -> flat P p v w) -> P v -> chain V ps v w -> chain V ps w w.
  Proof. intros HF Hv H. destruct (flat_chain P ps v w HF Hv H) as [[-> H1]|[HP H1]]; auto. Qed.
End Chain.

(** ** Maps *)
Definition good_key (k : gval) : Prop := forall k', key_eqb k' k = true <-> k' = k.
Definition sets (kvs : list (gval * gval)) (m : list (gval * gval)) := fold_left (fun m e => map_set (fst e) (snd e) m) kvs m.
Definition has (k : gval) (m : list (gval * gval)) : Prop := In k (map fst m).

Lemma key_eqb_good k : match k with VBool _ | VInt _ | VUint _ | VStr _ => True | _ => False end -> good_key k.
Proof.
  intros H k'. destruct k; try destruct H; destruct k'; cbn; split; intros HH; try discriminate HH;
    try (match goal with o : option _ |- _ => destruct o as [?|]; [try match goal with q : (_ * _)%type |- _ => destruct q end|]; discriminate HH end);
    try (apply Bool.eqb_prop in HH; congruence); try (apply Z.eqb_eq in HH; congruence); try (apply bytes_eqb_eq in HH; congruence);
    try (injection HH as ->); try apply Bool.eqb_reflx; try apply Z.eqb_refl; try (apply bytes_eqb_eq; reflexivity).
Qed.

Lemma map_set_absorb k v v' m : good_key k -> map_set k v (map_set k v' m) = map_set k v m.
Proof.
  intros Hk. induction m as [|[k0 v0] m IH]; cbn.
  - rewrite (proj2 (Hk k) eq_refl). reflexivity.
  - destruct (key_eqb k0 k) eqn:Ee; cbn; rewrite Ee; [reflexivity|]. rewrite IH. reflexivity.
Qed.
Lemma map_set_comm k1 v1 k2 v2 m : good_key k1 -> good_key k2 -> k1 <> k2 -> has k1 m ->
  map_set k1 v1 (map_set k2 v2 m) = map_set k2 v2 (map_set k1 v1 m).
Proof.
  intros H1 H2 Hne. induction m as [|[k0 v0] m IH]; cbn; intros Hh; [destruct Hh|].
  destruct (key_eqb k0 k2) eqn:E2, (key_eqb k0 k1) eqn:E1; cbn; rewrite ?E1, ?E2.
  - exfalso. apply H1 in E1. apply H2 in E2. congruence.
  - reflexivity.
  - reflexivity.
  - rewrite IH; [reflexivity|]. destruct Hh as [Hh|Hh]; [|exact Hh]. exfalso. apply H1 in Hh. cbn in Hh. congruence.
Qed.
Lemma map_set_has k v k0 m : has k0 m -> has k0 (map_set k v m).
Proof.
  unfold has. induction m as [|[k1 v1] m IH]; cbn; intros H; [destruct H|].
  destruct (key_eqb k1 k); cbn; destruct H as [H|H]; auto.
Qed.
Lemma map_set_has_self k v m : good_key k -> has k (map_set k v m).
Proof.
  intros Hk. unfold has. induction m as [|[k1 v1] m IH]; cbn; [auto|].
  destruct (key_eqb k1 k) eqn:Ee; cbn; [|right; exact IH]. left. apply Hk. exact Ee.
Qed.
Lemma sets_has kvs : forall m k, has k m -> has k (sets kvs m).
Proof. induction kvs as [|[k v] kvs IH]; intros m k0 H; [exact H|]. apply IH. apply map_set_has. exact H. Qed.
Lemma sets_has_self kvs : forall m, Forall (fun e => good_key (fst e)) kvs -> Forall (fun e => has (fst e) (sets kvs m)) kvs.
Proof.
  induction kvs as [|[k v] kvs IH]; intros m H; constructor; inversion H; subst.
  - cbn [fst]. cbn. apply sets_has. apply map_set_has_self. assumption.
  - apply IH. assumption.
Qed.
Lemma sets_app a b m : sets (a ++ b) m = sets b (sets a m).
Proof. apply fold_left_app. Qed.
Definition gv_dec (a b : gval) (H : good_key b) : {a = b} + {a <> b}.
Proof. destruct (key_eqb a b) eqn:Ee; [left|right]; [|intros ->]; [apply H; exact Ee|]. rewrite (proj2 (H b) eq_refl) in Ee. discriminate. Defined.

Lemma sets_drop k v l : good_key k -> Forall (fun e => good_key (fst e)) l -> forall M, Forall (fun e => has (fst e) M) l ->
  map_set k v (sets l (map_set k v M)) = map_set k v (sets l M).
Proof.
  intros Hk Hl. induction Hl as [|[k1 v1] l Hk1 Hl IH]; intros M HM; [apply map_set_absorb; exact Hk|].
  inversion HM as [|? ? Hh HM']; subst. cbn [fst] in *. cbn [sets fold_left fst snd].
  change (map_set k v (sets l (map_set k1 v1 (map_set k v M))) = map_set k v (sets l (map_set k1 v1 M))).
  destruct (gv_dec k1 k Hk) as [->|Hne].
  - rewrite map_set_absorb by exact Hk. reflexivity.
  - rewrite map_set_comm by auto. apply IH. eapply Forall_impl; [|exact HM']. intros e He. apply map_set_has. exact He.
Qed.
Lemma sets_idem kvs m : Forall (fun e => good_key (fst e)) kvs -> sets kvs (sets kvs m) = sets kvs m.
Proof.
  induction kvs as [|[k v] l IH] using rev_ind; intros H; [reflexivity|].
  apply Forall_app in H as [Hl Hk]. inversion Hk; subst. cbn [fst] in *. rewrite !sets_app. cbn [sets fold_left fst snd].
  fold (sets l m). change (map_set k v (sets l (map_set k v (sets l m))) = map_set k v (sets l m)).
  rewrite sets_drop; auto; [|apply sets_has_self; exact Hl]. rewrite IH by exact Hl. reflexivity.
Qed.

Lemma map_entries_sets (K V : lval -> gval -> Prop) m es m' : map_entries K V m es m' ->
  exists kvs, m' = sets kvs m /\ Forall (fun e => exists q, K q (fst e)) kvs /\ forall m0, map_entries K V m0 es (sets kvs m0).
Proof.
  induction 1 as [m|m k p es kv vv m' Hk Hp Hh Hr (kvs & -> & Hkv & IH)].
  - exists []. split; [reflexivity|]. split; [constructor|]. intros m0. constructor.
  - exists ((kv, vv) :: kvs). split; [reflexivity|]. split; [constructor; cbn; eauto|]. intros m0. econstructor; eauto.
Qed.

(** ** What a destination must look like for stores to be possible *)
Section Fits.
  Context (X : Ext) (E : env).

  Inductive fits : gty -> gval -> Prop :=
  | fi_unm T v n : has_unmarshal E T = Some n -> fits T v
  | fi_flat T v k : plain E T k -> match k with KPtr _ | KMap _ _ | KStruct _ _ => False | _ => True end -> fits T v
  | fi_nil T t : plain E T (KPtr t) -> fits T (VPtr None)
  | fi_ptr T t v : plain E T (KPtr t) -> fits t v -> fits T (VPtr (Some v))
  | fi_map T k t o : plain E T (KMap k t) -> fits T (VMap o)
  | fi_struct T id fs l : plain E T (KStruct id fs) -> Forall2 (fun f v => fits (f_ty f) v) fs l -> fits T (VStruct l).

  Lemma typed_fits : forall T v, typed E T v -> fits T v.
  Proof.
    fix IH 3. intros T v H. destruct (has_unmarshal E T) as [n|] eqn:Hu; [eapply fi_unm; eauto|].
    destruct H as [T b Hk|T k z Hk Hz|T k z Hk Hz|T f Hk|T f Hk|T s Hk|T t Hk|T t l Hk Hl|T n t l Hk Hn Hl|T k t Hk|T k t m Hk Hm|T t Hk|T t v Hk Hv|T Hk|T t v Hk Hv|T m Hk|T m t v Hk Hv Hne|T id fs l Hk Hl|T Hk];
      try (eapply fi_flat; [split; [exact Hu|exact Hk]|exact I]).
    - eapply fi_map. split; eauto.
    - eapply fi_map. split; eauto.
    - eapply fi_nil. split; eauto.
    - eapply fi_ptr; [split; eauto|]. apply IH. exact Hv.
    - eapply fi_struct; [split; eauto|]. clear Hk. induction Hl as [|f v fs l Hf Hl IHl]; constructor; [apply IH; exact Hf|exact IHl].
  Qed.

  Lemma fits_ptr T t v : plain E T (KPtr t) -> fits T v -> exists o, v = VPtr o /\ forall x, o = Some x -> fits t x.
  Proof.
    intros Hk H. destruct H as [T v n Hu|T v k Hk' Hf|T t' Hk'|T t' v Hk' Hv|T k t' o Hk'|T id fs l Hk' Hl]; kinds.
    - exfalso. replace k with (KPtr t) in Hf by congruence. exact Hf.
    - exists None. split; [reflexivity|discriminate].
    - replace t' with t in * by congruence. exists (Some v). split; [reflexivity|]. intros x [= <-]. exact Hv.
  Qed.
  Lemma fits_map T k t v : plain E T (KMap k t) -> fits T v -> exists o, v = VMap o.
  Proof.
    intros Hk H. destruct H as [T v n Hu|T v k' Hk' Hf|T t' Hk'|T t' v Hk' Hv|T k' t' o Hk'|T id fs l Hk' Hl]; kinds.
    - exfalso. replace k' with (KMap k t) in Hf by congruence. exact Hf.
    - eauto.
  Qed.
  Lemma fits_struct T id fs v : plain E T (KStruct id fs) -> fits T v -> exists l, v = VStruct l /\ Forall2 (fun f v => fits (f_ty f) v) fs l.
  Proof.
    intros Hk H. destruct H as [T v n Hu|T v k' Hk' Hf|T t' Hk'|T t' v Hk' Hv|T k' t' o Hk'|T id' fs' l Hk' Hl]; kinds.
    - exfalso. replace k' with (KStruct id fs) in Hf by congruence. exact Hf.
    - replace fs' with fs in * by congruence. eauto.
  Qed.
  Lemma Forall2_upd fs l i f v : Forall2 (fun f v => fits (f_ty f) v) fs l -> nth_error fs i = Some f -> fits (f_ty f) v ->
    Forall2 (fun f v => fits (f_ty f) v) fs (update l i v).
  Proof.
    intros H. revert i. induction H as [|g x fs l Hg Hl IH]; intros [|i] Hn Hv; cbn in *; try discriminate.
    - injection Hn as ->. constructor; assumption.
    - constructor; auto.
  Qed.
  Lemma Forall2_at fs l i f x : Forall2 (fun f v => fits (f_ty f) v) fs l -> nth_error fs i = Some f -> nth_error l i = Some x -> fits (f_ty f) x.
  Proof.
    intros H. revert i. induction H as [|g y fs l Hg Hl IH]; intros [|i] Hn Hx; cbn in *; try discriminate; [congruence|eauto].
  Qed.
  Lemma Forall2_has fs l i f : Forall2 (fun f v => fits (f_ty f) v) fs l -> nth_error fs i = Some f -> exists x, nth_error l i = Some x.
  Proof.
    intros H. revert i. induction H as [|g y fs l Hg Hl IH]; intros [|i] Hn; cbn in *; try discriminate; [eauto|auto].
  Qed.

  Hypothesis Henv : go_env E.

  Lemma zero_fits T : fits T (zero E T).
  Proof. apply typed_fits, zero_typed. exact Henv. Qed.

  (** quoted fields *)
  Lemma quoted_flat T p v w : fits T v -> store_quoted X E T p v w -> flat (store_quoted X E T) (fits T) p v w.
  Proof.
    intros Hv H. destruct H as [t v Hk|t n s o w Hk Hn Hq|v Hp|n s v w Hp Hn Hq].
    - right. split; [eapply fi_nil; eauto|]. intros v' _. eapply sq_ptr_null; eauto.
    - right. assert (exists b, plain E t b /\ match b with KPtr _ | KMap _ _ | KStruct _ _ => False | _ => True end) as (b & Hb & Hf)
        by (inversion Hq; subst; eexists; (split; [eassumption|exact I])).
      split; [eapply fi_ptr; [eassumption|]; eapply fi_flat; eauto|]. intros v' Hv'.
      destruct (fits_ptr T t v' Hk Hv') as (o' & -> & _). eapply sq_ptr; eauto.
    - left. split; [reflexivity|]. intros v' _. apply sq_null. exact Hp.
    - right. split; [|intros v' _; eapply sq_str; eauto].
      assert (exists b, plain E T b /\ match b with KPtr _ | KMap _ _ | KStruct _ _ => False | _ => True end) as (b & Hb & Hf)
        by (inversion Hq; subst; eexists; (split; [eassumption|exact I])).
      eapply fi_flat; eauto.
  Qed.

  (** stores keep the shape *)
  Lemma store_fits_f : forall n d T p v w, (length (text p) <= n)%nat -> store X E d T p v w -> fits T v -> fits T w.
  Proof.
    induction n as [|n IH]; intros d T p v w HL H Hv; [pose proof (text_pos p); lia|].
    assert (forall d T p v w, (length (text p) <= S n)%nat -> is_ptr E T = false -> store X E d T p v w -> fits T v -> fits T w) as G.
    { clear d T p v w HL H Hv. intros d T p v w HL Hnp H Hv. destruct (has_unmarshal E T) as [u|] eqn:Hu; [eapply fi_unm; eauto|].
      destruct (kind_of E T) eqn:Hk; try (eapply fi_flat; [split; [exact Hu|exact Hk]|exact I]).
      - apply (store_map_inv X E d T _ _ p v w (conj Hu Hk)) in H as (_ & [[_ ->]|(? & ? & ? & ? & _ & _ & _ & _ & -> & _)]);
          eapply fi_map; split; eauto.
      - unfold is_ptr in Hnp. rewrite Hk in Hnp. discriminate.
      - apply (store_struct_inv X E d T _ _ p v w (conj Hu Hk)) in H as (_ & [[_ ->]|(n0 & es & l1 & l' & Hb & _ & -> & -> & H)]); [exact Hv|].
        destruct (fits_struct T _ _ _ (conj Hu Hk) Hv) as (l2 & [= <-] & Hl). eapply fi_struct; [split; eauto|].
        apply body_of_len in Hb.
        assert (length (body es) <= n)%nat as HB by lia. clear - IH H Hl HB Henv.
        revert l1 H Hl. induction es as [|e es IHes]; intros l1 H Hl; [apply struct_entries_nil in H as ->; exact Hl|].
        apply struct_entries_cons in H as (l2 & Hs & H). pose proof (in_body e (e :: es) (or_introl eq_refl)) as He.
        eapply IHes; [|exact H|].
        + destruct e as [ek ep]. rewrite body_len in HB. lia.
        + inversion Hs as [l0 kp k i f p old v Hkt Hf Hn Hv|]; subst; [|exact Hl]. apply lookup_spec in Hf as (Hf & _ & _).
          pose proof (Forall2_at _ _ _ _ _ Hl Hf Hn) as Ho. eapply Forall2_upd; eauto. unfold FV in Hv. destruct (string_tagged X E f).
          * destruct (quoted_flat _ _ _ _ Ho Hv) as [[-> _]|[Hw _]]; assumption.
          * eapply IH; [|exact Hv|exact Ho]. cbn [snd] in He. lia. }
    destruct (is_ptr E T) eqn:Ep; [|eapply G; eauto]. destruct (has_unmarshal E T) as [u|] eqn:Hu; [eapply fi_unm; eauto|].
    unfold is_ptr in Ep. destruct (kind_of E T) eqn:Hk; try discriminate.
    assert (w = VPtr None \/ exists t o x, kind_of E T = KPtr t /\ is_ptr E t = false /\ v = VPtr o /\ w = VPtr (Some x) /\ store X E d t p (match o with Some v => v | None => zero E t end) x) as HH.
    { inversion H; subst; kinds; [left; reflexivity|]. right. do 3 eexists. repeat (split; eauto). }
    destruct HH as [->|(t1 & o & x & Hk' & Hnp & -> & -> & Hs)].
    - eapply fi_nil. split; eauto.
    - eapply fi_ptr; [split; eauto|]. eapply G; eauto. destruct (fits_ptr T t1 (VPtr o) (conj Hu Hk') Hv) as (o' & [= <-] & Hx).
      destruct o as [y|]; [apply Hx; reflexivity|apply zero_fits].
  Qed.
  Lemma store_fits d T p v w : store X E d T p v w -> fits T v -> fits T w.
  Proof. apply (store_fits_f _ d T p v w (le_n _)). Qed.
End Fits.

Section Again.
  Context (X : Ext) (E : env) (T0 : gty).
  Hypothesis Henv : go_env E.
  Hypothesis Hifc : no_ifaces E T0.

  (** everything except pointers, maps and structs *)
  Lemma store_flat d T p v w : inside E T0 T ->
    (has_unmarshal E T <> None \/ match kind_of E T with KPtr _ | KMap _ _ | KStruct _ _ => False | _ => True end) ->
    store X E d T p v w -> flat (store X E d T) (fun _ => True) p v w.
  Proof.
    intros HI HK H. assert (forall m, ~ plain E T (KIface m)) as Hni by (intros m; apply Hifc; exact HI).
    inversion H; subst;
      try (exfalso; eapply Hni; eassumption);
      try (exfalso; match goal with HH : plain _ _ _ |- _ => destruct HH as [Hu Hk]; rewrite Hk in HK; destruct HK as [HK|HK]; [congruence|exact HK] end);
      first [ left; split; [reflexivity|]; intros v' _; solve [econstructor; eauto | eapply sto_bytes_null; eauto | eapply sto_array_null; eauto]
            | right; split; [exact I|]; intros v' _;
              solve [econstructor; eauto | eapply sto_unm; eauto | eapply sto_f64; eauto | eapply sto_f32; eauto | eapply sto_string; eauto
                    | eapply sto_any; eauto | eapply sto_bytes; eauto | eapply sto_slice_null; eauto | eapply sto_slice_empty; eauto
                    | eapply sto_slice; eauto | eapply sto_array_empty; eauto | eapply sto_array; eauto] ].
  Qed.

  Lemma inside_field T id fs i f : inside E T0 T -> plain E T (KStruct id fs) -> nth_error fs i = Some f -> is_ignored f = false -> inside E T0 (f_ty f).
  Proof. intros HI Hk Hn Hi. eapply in_step; [exact HI|]. eapply co_field; eauto. eapply nth_error_In; eauto. Qed.

  (** ** Acceptance does not depend on the old value *)
  Lemma accept_f : forall n d T p v w v', (length (text p) <= n)%nat -> inside E T0 T -> store X E d T p v w -> fits E T v' ->
    exists w', store X E d T p v' w'.
  Proof.
    induction n as [|n IH]; intros d T p v w v' HL HI H Hv'; [pose proof (text_pos p); lia|].
    assert (forall d T p v w v', (length (text p) <= S n)%nat -> inside E T0 T -> is_ptr E T = false -> store X E d T p v w -> fits E T v' ->
      exists w', store X E d T p v' w') as G.
    { clear d T p v w v' HL HI H Hv'. intros d T p v w v' HL HI Hnp H Hv'.
      assert ((has_unmarshal E T <> None \/ match kind_of E T with KPtr _ | KMap _ _ | KStruct _ _ => False | _ => True end) ->
              exists w', store X E d T p v' w') as Hflat.
      { intros HK. destruct (store_flat d T p v w HI HK H) as [[_ Hs]|[_ Hs]]; eauto. }
      destruct (has_unmarshal E T) as [u|] eqn:Hu; [apply Hflat; left; discriminate|].
      destruct (kind_of E T) eqn:Hk; try (apply Hflat; right; exact I).
      - apply (store_map_inv X E d T _ _ p v w (conj Hu Hk)) in H as (Hd & [[-> ->]|(n0 & es & o & m & Hb & Hn & Hn' & -> & -> & He)]).
        + exists (VMap None). eapply sto_map_null; [split; eauto|exact Hd].
        + destruct (fits_map E T _ _ v' (conj Hu Hk) Hv') as (o' & ->). apply map_entries_sets in He as (kvs & -> & _ & He).
          eexists. eapply sto_map; [split; eauto|exact Hd|exact Hb|exact Hn|exact Hn'|apply He].
      - unfold is_ptr in Hnp. rewrite Hk in Hnp. discriminate.
      - apply (store_struct_inv X E d T _ _ p v w (conj Hu Hk)) in H as (Hd & [[-> ->]|(n0 & es & l1 & l' & Hb & Hn & -> & -> & He)]).
        + exists v'. eapply sto_struct_null; [split; eauto|exact Hd].
        + destruct (fits_struct E T _ _ v' (conj Hu Hk) Hv') as (l2 & -> & Hl).
          assert (exists l3, struct_entries X E (d + 1) fs (store X E (d + 1)) l2 es l3) as (l3 & H3).
          { pose proof Hb as HB. apply body_of_len in HB. assert (length (body es) <= n)%nat as HB' by lia. clear HB Hb Hv' Hflat.
            revert l1 l2 He Hl. induction es as [|e es IHes]; intros l1 l2 He Hl; [exists l2; constructor|].
            apply struct_entries_cons in He as (l4 & Hs & He). pose proof (in_body e (e :: es) (or_introl eq_refl)) as Hbe.
            assert (exists l5, step X E (d + 1) fs (store X E (d + 1)) l2 e l5 /\ Forall2 (fun f v => fits E (f_ty f) v) fs l5) as (l5 & Hs5 & Hl5).
            { inversion Hs as [l0 kp k i f p0 old v0 Hkt Hf Hn0 Hv0|l0 kp k p0 Hkt Hf Hst]; subst.
              - pose proof Hf as Hlk. apply lookup_spec in Hf as (Hf & Hig & _). destruct (Forall2_has E _ _ _ _ Hl Hf) as (x & Hx).
                pose proof (Forall2_at E _ _ _ _ _ Hl Hf Hx) as Hfx.
                assert (exists y, FV X E (store X E (d + 1)) f p0 x y /\ fits E (f_ty f) y) as (y & Hy & Hfy).
                { unfold FV in *. destruct (string_tagged X E f) eqn:Eq.
                  - assert (exists y, store_quoted X E (f_ty f) p0 x y) as (y & Hy).
                    { destruct Hv0 as [t v1 Hk1|t nn s o w0 Hk1 Hn1 Hq|v1 Hp1|nn s v1 w0 Hp1 Hn1 Hq].
                      - eexists. eapply sq_ptr_null; eauto.
                      - destruct (fits_ptr E _ _ _ Hk1 Hfx) as (o' & -> & _). eexists. eapply sq_ptr; eauto.
                      - eexists. apply sq_null. exact Hp1.
                      - eexists. eapply sq_str; eauto. }
                    exists y. split; [exact Hy|]. destruct (quoted_flat X E _ _ _ _ Hfx Hy) as [[-> _]|[Hw _]]; assumption.
                  - destruct (IH (d + 1) (f_ty f) p0 old v0 x) as (y & Hy); auto.
                    + cbn [fst snd] in Hbe. lia.
                    + eapply inside_field; eauto. split; eauto.
                    + exists y. split; [exact Hy|]. eapply store_fits; eauto. }
                exists (update l2 i y). split; [eapply step_known; eauto|]. eapply Forall2_upd; eauto.
              - exists l2. split; [eapply step_unknown; eauto|exact Hl]. }
            destruct (IHes ltac:(destruct e as [ek ep]; rewrite body_len in HB'; lia) l4 l5 He Hl5) as (l6 & H6).
            exists l6. apply struct_entries_cons. eauto. }
          exists (VStruct l3). eapply sto_struct; [split; eauto|exact Hd|exact Hb|exact Hn|exact H3]. }
    destruct (is_ptr E T) eqn:Ep; [|eapply G; eauto].
    destruct (has_unmarshal E T) as [u|] eqn:Hu.
    { destruct (store_flat d T p v w HI) as [[_ Hs]|[_ Hs]]; eauto. left. congruence. }
    unfold is_ptr in Ep. destruct (kind_of E T) eqn:Hk; try discriminate. rename t into t0.
    destruct (fits_ptr E T t0 v' (conj Hu Hk) Hv') as (o' & -> & Ho').
    inversion H; subst; kinds.
    - eexists. eapply sto_ptr_null; [split; eauto|assumption].
    - replace t with t0 in * by congruence.
      assert (exists y, store X E d t0 p (match o' with Some y => y | None => zero E t0 end) y) as (y & Hy).
      { eapply G; [exact HL|eapply in_step; [exact HI|]; eapply co_ptr; split; eauto|assumption|eassumption|].
        destruct o' as [y|]; [apply Ho'; reflexivity|apply zero_fits; exact Henv]. }
      eexists. eapply sto_ptr; [split; eauto|assumption|assumption|exact Hy].
  Qed.
  Lemma accept d T p v w v' : inside E T0 T -> store X E d T p v w -> fits E T v' -> exists w', store X E d T p v' w'.
  Proof. apply (accept_f _ d T p v w v' (le_n _)). Qed.
  Lemma accept_chain d T : inside E T0 T -> forall ps v w, chain (store X E d T) ps v w -> forall v', fits E T v' ->
    exists w', chain (store X E d T) ps v' w' /\ fits E T w'.
  Proof.
    intros HI ps v w H. induction H as [v|p ps v v1 v2 Hp Hr IH]; intros v' Hv'; [exists v'; split; [constructor|exact Hv']|].
    destruct (accept d T p v v1 v' HI Hp Hv') as (w1 & H1). destruct (IH w1) as (w2 & H2 & Hf); [eapply store_fits; eauto|].
    exists w2. split; [econstructor; eauto|exact Hf].
  Qed.
  Lemma chain_fits d T ps v w : chain (store X E d T) ps v w -> fits E T v -> fits E T w.
  Proof. intros H. induction H as [v|p ps v v1 v2 Hp Hr IH]; intros Hv; [exact Hv|]. apply IH. eapply store_fits; eauto. Qed.

  (** ** Idempotence *)
  Hypothesis Hkeys : simple_keys E T0.

  Definition size (ps : list lval) : nat := fold_right (fun p n => (length (text p) + n)%nat) 0%nat ps.

  Lemma null_idem d T ps v w : inside E T0 T -> fits E T v ->
    (forall v x v', store X E d T LNull v x -> store X E d T LNull v' x) ->
    In LNull ps -> chain (store X E d T) ps v w -> chain (store X E d T) ps w w.
  Proof.
    intros HI Hv Hc Hin H. pose proof (chain_fits _ _ _ _ _ H Hv) as Hw. apply in_split in Hin as (a & b & ->).
    apply chain_app in H as (v1 & H1 & H2). destruct (accept_chain d T HI _ _ _ H1 w Hw) as (w1 & Hw1 & _).
    apply chain_app. exists w1. split; [exact Hw1|]. apply chain_cons in H2 as (x & Hx & H2). apply chain_cons. eauto.
  Qed.

  (** structs: a chain is one long list of entries *)
  Definition entries (p : lval) : list (lval * lval) := match p with LArr _ es | LObj _ _ _ es => es | _ => [] end.
  Definition sel (fs : list field) (i : nat) (es : list (lval * lval)) : list lval :=
    map snd (filter (fun e => match lookup X fs (entry_key e) with Some (j, _) => Nat.eqb j i | None => false end) es).
  Lemma body_entries p n es : body_of p n es -> entries p = es.
  Proof. intros H. inversion H; reflexivity. Qed.

  Lemma struct_chain d T id fs ps l w : plain E T (KStruct id fs) -> chain (store X E d T) ps (VStruct l) w ->
    exists l', w = VStruct l' /\ struct_entries X E (d + 1) fs (store X E (d + 1)) l (flat_map entries ps) l' /\
      forall a a', struct_entries X E (d + 1) fs (store X E (d + 1)) a (flat_map entries ps) a' -> chain (store X E d T) ps (VStruct a) (VStruct a').
  Proof.
    intros Hk. revert l. induction ps as [|p ps IH]; intros l H.
    - apply chain_nil in H as ->. exists l. split; [reflexivity|]. split; [constructor|]. intros a a' Ha. apply struct_entries_nil in Ha as ->. constructor.
    - apply chain_cons in H as (v1 & Hp & H). pose proof Hp as Hp0.
      apply (store_struct_inv X E d T id fs) in Hp as (Hd & [[-> ->]|(n0 & es & l0 & l1 & Hb & Hn & [= <-] & -> & He)]); [| |exact Hk].
      + destruct (IH l H) as (l' & -> & H1 & H2). exists l'. split; [reflexivity|]. cbn [flat_map entries app]. split; [exact H1|].
        intros a a' Ha. econstructor; [|apply H2; exact Ha]. eapply sto_struct_null; eauto.
      + destruct (IH l1 H) as (l' & -> & H1 & H2). exists l'. split; [reflexivity|]. cbn [flat_map]. rewrite (body_entries _ _ _ Hb).
        split; [apply struct_entries_app; eauto|]. intros a a' Ha. apply struct_entries_app in Ha as (a1 & Ha1 & Ha2).
        econstructor; [|apply H2; exact Ha2]. eapply sto_struct; eauto.
  Qed.

  Section Fields.
    Context (d : Z) (fs : list field) (V : gty -> lval -> gval -> gval -> Prop).
    Lemma entries_chain es : forall l l' i f x, struct_entries X E d fs V l es l' -> nth_error fs i = Some f -> nth_error l i = Some x ->
      exists y, nth_error l' i = Some y /\ chain (FV X E V f) (sel fs i es) x y.
    Proof.
      induction es as [|e es IH]; intros l l' i f x H Hf Hx.
      - apply struct_entries_nil in H as ->. exists x. split; [exact Hx|constructor].
      - apply struct_entries_cons in H as (l1 & Hs & H). unfold sel. cbn [filter].
        inversion Hs as [l0 kp k j g p old v Hkt Hlk Hn Hv|l0 kp k p Hkt Hlk Hst]; subst; rewrite (key_text_entry _ _ _ Hkt), Hlk.
        + destruct (Nat.eqb j i) eqn:Eji.
          * apply Nat.eqb_eq in Eji as ->. apply lookup_spec in Hlk as (Hg & _ & _). assert (g = f) as -> by congruence.
            assert (old = x) as -> by congruence.
            destruct (IH _ _ i f v H Hf) as (y & Hy & Hc); [apply nth_error_update_eq; eapply nth_error_lt; eauto|].
            exists y. split; [exact Hy|]. cbn [map snd]. econstructor; eauto.
          * apply Nat.eqb_neq in Eji. apply (IH _ _ i f x H Hf). rewrite nth_error_update_ne by exact Eji. exact Hx.
        + apply (IH _ _ i f x H Hf Hx).
    Qed.
    Lemma chain_entries es : forall l0 l0' l l', struct_entries X E d fs V l0 es l0' -> length l = length fs -> length l' = length fs ->
      (forall i f x y, nth_error fs i = Some f -> nth_error l i = Some x -> nth_error l' i = Some y -> chain (FV X E V f) (sel fs i es) x y) ->
      struct_entries X E d fs V l es l'.
    Proof.
      induction es as [|e es IH]; intros l0 l0' l l' H0 Hl Hl' Hc.
      - apply struct_entries_nil. apply list_ext_nth. intros i. destruct (nth_error l i) as [x|] eqn:Ex.
        + assert (i < length l)%nat as Hi by (apply nth_error_Some; congruence).
          destruct (nth_error fs i) as [f|] eqn:Ef; [|apply nth_error_None in Ef; lia].
          destruct (nth_error l' i) as [y|] eqn:Ey; [|apply nth_error_None in Ey; lia].
          pose proof (Hc i f x y Ef Ex Ey) as C. apply chain_nil in C. congruence.
        + apply nth_error_None in Ex. apply nth_error_None. lia.
      - apply struct_entries_cons in H0 as (l1 & Hs & H0). apply struct_entries_cons. unfold sel in Hc. cbn [filter] in Hc.
        inversion Hs as [l2 kp k j g p old v Hkt Hlk Hn Hv|l2 kp k p Hkt Hlk Hst]; subst; rewrite (key_text_entry _ _ _ Hkt), Hlk in Hc.
        + pose proof Hlk as Hlk'. apply lookup_spec in Hlk' as (Hg & _ & _). assert (j < length fs)%nat as Hj by (apply nth_error_Some; congruence).
          destruct (nth_error l j) as [x|] eqn:Ex; [|apply nth_error_None in Ex; lia].
          destruct (nth_error l' j) as [y|] eqn:Ey; [|apply nth_error_None in Ey; lia].
          pose proof (Hc j g x y Hg Ex Ey) as C. rewrite Nat.eqb_refl in C. cbn [map snd] in C. apply chain_cons in C as (x1 & Hx1 & C).
          exists (update l j x1). split; [eapply step_known; eauto|]. eapply IH; [exact H0|rewrite upd_length; exact Hl|exact Hl'|].
          intros i f a b Hf Ha Hb. destruct (Nat.eq_dec j i) as [<-|Hne].
          * rewrite nth_error_update_eq in Ha by lia. assert (f = g) as -> by congruence. assert (x1 = a) as -> by congruence. assert (y = b) as -> by congruence. exact C.
          * rewrite nth_error_update_ne in Ha by exact Hne. pose proof (Hc i f a b Hf Ha Hb) as C'.
            apply Nat.eqb_neq in Hne. rewrite Hne in C'. exact C'.
        + exists l. split; [eapply step_unknown; eauto|]. eapply IH; eauto.
    Qed.
  End Fields.

  Lemma size_sel fs i es : (size (sel fs i es) <= length (body es))%nat.
  Proof.
    induction es as [|[k p] es IH]; [cbn; lia|]. unfold sel in *. rewrite body_len. cbn [filter].
    destruct (match lookup X fs (entry_key (k, p)) with Some (j, _) => Nat.eqb j i | None => false end); cbn [map snd size fold_right]; unfold size in *; lia.
  Qed.
  Lemma body_app a b : body (a ++ b) = body a ++ body b.
  Proof. unfold body. apply flat_map_app. Qed.
  Lemma size_entries d T id fs ps v w : plain E T (KStruct id fs) -> chain (store X E d T) ps v w -> ps <> [] ->
    (length (body (flat_map entries ps)) < size ps)%nat.
  Proof.
    intros Hk H. induction H as [v|p ps v v1 v2 Hp Hr IH]; intros Hne; [congruence|].
    cbn [flat_map size fold_right]. fold (size ps). rewrite body_app, app_length.
    assert (length (body (entries p)) < length (text p))%nat.
    { apply (store_struct_inv X E d T id fs) in Hp as (_ & [[-> _]|(n & es & l & l' & Hb & _)]); [cbn; pose proof (text_pos LNull); lia| |exact Hk].
      rewrite (body_entries _ _ _ Hb). apply body_of_len in Hb. lia. }
    destruct ps as [|q ps]; [cbn; lia|]. assert (length (body (flat_map entries (q :: ps))) < size (q :: ps))%nat by (apply IH; discriminate). lia.
  Qed.

  (** maps *)
  Lemma map_chain d T k t ps o w : inside E T0 T -> plain E T (KMap k t) -> ~ In LNull ps -> ps <> [] -> chain (store X E d T) ps (VMap o) w ->
    exists kvs, Forall (fun e => good_key (fst e)) kvs /\
      w = VMap (Some (sets kvs (match o with Some m => m | None => [] end))) /\
      forall m, chain (store X E d T) ps (VMap (Some m)) (VMap (Some (sets kvs m))).
  Proof.
    intros HI Hk. destruct (Hkeys T k t HI Hk) as (kk & Hkk & Hkk').
    assert (forall d q x, store_key X E d k q x -> good_key x) as Hgood.
    { intros d' q x Hx. apply key_eqb_good. inversion Hx as [d0 U p0 w0 Hkd Hs|d0 U t0 Hp Hu Hkd]; subst; [|exfalso; kinds; replace kk with (KPtr t0) in Hkk' by congruence; exact Hkk'].
      pose proof (zero_typed E k Henv) as Hz. assert (match kk with KString | KBool | KInt _ | KUint _ => match zero E k with VBool _ | VInt _ | VUint _ | VStr _ => True | _ => False end | _ => True end) as Hz'.
      { destruct Hkk as [_ Hkk]. destruct kk; try exact I; inversion Hz; subst; try congruence; exact I. }
      destruct kk; try destruct Hkk'; inversion Hs; subst; kinds; try exact I; exact Hz'. }
    revert o. induction ps as [|p ps IH]; intros o Hnn Hne H; [congruence|].
    apply chain_cons in H as (v1 & Hp & H). assert (p <> LNull) as Hp0 by (intros ->; apply Hnn; left; reflexivity).
    apply (store_map_inv X E d T k t) in Hp as (Hd & [[-> _]|(n0 & es & o0 & m & Hb & Hn & Hn' & [= <-] & -> & He)]); [congruence| |exact Hk].
    apply map_entries_sets in He as (kvs & -> & Hkv & He).
    assert (Forall (fun e => good_key (fst e)) kvs) as Hg by (eapply Forall_impl; [|exact Hkv]; intros e (q & Hq); eapply Hgood; eauto).
    destruct ps as [|q ps].
    - apply chain_nil in H as ->. exists kvs. split; [exact Hg|]. split; [reflexivity|]. intros m. apply chain_one.
      apply (sto_map X E d T k t p n0 es (Some m)); auto.
    - destruct (IH (Some (sets kvs (match o with Some m => m | None => [] end)))) as (kvs2 & Hg2 & -> & H2); [intros Hin; apply Hnn; right; exact Hin|discriminate|exact H|].
      exists (kvs ++ kvs2). split; [apply Forall_app; auto|]. rewrite sets_app. split; [reflexivity|]. intros m. rewrite sets_app.
      econstructor; [|apply H2]. apply (sto_map X E d T k t p n0 es (Some m)); auto.
  Qed.

  Lemma has_null (ps : list lval) : In LNull ps \/ ~ In LNull ps.
  Proof. induction ps as [|p ps IH]; [right; auto|]. destruct IH as [IH|IH]; [left; right; exact IH|]. destruct p; try (right; intros [H|H]; [discriminate|contradiction]). left. left. reflexivity. Qed.

  Lemma idem_f : forall n d T ps v w, (size ps <= n)%nat -> inside E T0 T -> fits E T v -> chain (store X E d T) ps v w ->
    chain (store X E d T) ps w w.
  Proof.
    induction n as [|n IH]; intros d T ps v w HL HI Hv H.
    { destruct ps as [|p ps]; [constructor|]. cbn in HL. pose proof (text_pos p). lia. }
    assert (forall d T ps v w, (size ps <= S n)%nat -> inside E T0 T -> is_ptr E T = false -> fits E T v -> chain (store X E d T) ps v w ->
      chain (store X E d T) ps w w) as G.
    { clear d T ps v w HL HI H Hv. intros d T ps v w HL HI Hnp Hv H.
      assert ((has_unmarshal E T <> None \/ match kind_of E T with KPtr _ | KMap _ _ | KStruct _ _ => False | _ => True end) ->
              chain (store X E d T) ps w w) as Hflat.
      { intros HK. apply (flat_idem (store X E d T) (fun _ => True) ps v w); auto. intros p v0 w0 _ _ Hs. apply store_flat; auto. }
      destruct (has_unmarshal E T) as [u|] eqn:Hu; [apply Hflat; left; discriminate|].
      destruct (kind_of E T) eqn:Hk; try (apply Hflat; right; exact I).
      - destruct (has_null ps) as [Hin|Hin].
        + eapply null_idem; eauto. intros a x b Hs. apply (store_map_inv X E d T _ _ _ _ _ (conj Hu Hk)) in Hs as (Hd & [[_ ->]|(? & ? & ? & ? & Hb & _)]);
            [|inversion Hb]. eapply sto_map_null; [split; eauto|exact Hd].
        + destruct (fits_map E T _ _ v (conj Hu Hk) Hv) as (o & ->). destruct ps as [|p ps]; [constructor|].
          destruct (map_chain d T _ _ _ _ _ HI (conj Hu Hk) Hin ltac:(discriminate) H) as (kvs & Hg & -> & Hc).
          pose proof (Hc (sets kvs (match o with Some m => m | None => [] end))) as C. rewrite sets_idem in C by exact Hg. exact C.
      - unfold is_ptr in Hnp. rewrite Hk in Hnp. discriminate.
      - destruct ps as [|p ps]; [constructor|].
        destruct (fits_struct E T _ _ v (conj Hu Hk) Hv) as (l0 & -> & Hl).
        pose proof (size_entries d T _ _ _ _ _ (conj Hu Hk) H ltac:(discriminate)) as HS.
        destruct (struct_chain d T _ _ _ _ _ (conj Hu Hk) H) as (l' & -> & He & Hback). apply Hback.
        pose proof (struct_length _ _ _ _ _ _ _ _ He) as HLen. pose proof (F2_length _ _ _ Hl) as HLen'.
        eapply chain_entries; [exact He|lia|lia|]. intros i f x y Hf Hx Hy. assert (x = y) as -> by congruence.
        assert (i < length l0)%nat as Hi by (rewrite <- HLen'; apply nth_error_Some; congruence).
        destruct (nth_error l0 i) as [a|] eqn:Ea; [|apply nth_error_None in Ea; lia].
        destruct (entries_chain _ _ _ _ _ _ i f a He Hf Ea) as (y' & Hy' & Hc). assert (y' = y) as -> by congruence.
        pose proof (Forall2_at E _ _ _ _ _ Hl Hf Ea) as Hfa.
        destruct (string_tagged X E f) eqn:Eq.
        + unfold FV in *. rewrite Eq in *. eapply (flat_idem _ (fits E (f_ty f))); [|exact Hfa|exact Hc]. intros q a1 b1 _ Ha1 Hs. apply quoted_flat; auto.
        + unfold FV in *. rewrite Eq in *. destruct (is_ignored f) eqn:Eig.
          * assert (sel fs i (flat_map entries (p :: ps)) = []) as ->; [|constructor]. unfold sel.
            assert (forall e, match lookup X fs (entry_key e) with Some (j, _) => Nat.eqb j i | None => false end = false) as Hz.
            { intros e. destruct (lookup X fs (entry_key e)) as [[j g]|] eqn:El; [|reflexivity]. apply Nat.eqb_neq. intros ->.
              apply lookup_spec in El as (Hg & Hig & _). congruence. }
            clear - Hz. induction (flat_map entries (p :: ps)) as [|e es IHe]; [reflexivity|]. cbn [filter]. rewrite Hz. exact IHe.
          * eapply IH; [|eapply inside_field; eauto; split; eauto|exact Hfa|exact Hc].
            pose proof (size_sel fs i (flat_map entries (p :: ps))). lia. }
    destruct (is_ptr E T) eqn:Ep; [|eapply G; eauto].
    destruct (has_unmarshal E T) as [u|] eqn:Hu.
    { apply (flat_idem (store X E d T) (fun _ => True) ps v w); auto. intros p v0 w0 _ _ Hs. apply store_flat; auto. left. congruence. }
    unfold is_ptr in Ep. destruct (kind_of E T) eqn:Hk; try discriminate.
    destruct (has_null ps) as [Hin|Hin].
    - eapply null_idem; eauto. intros a x b Hs. inversion Hs; subst; kinds. eapply sto_ptr_null; [split; eauto|assumption].
    - destruct (fits_ptr E T _ v (conj Hu Hk) Hv) as (o & -> & Ho). destruct ps as [|p ps]; [constructor|].
      assert (forall qs o w, ~ In LNull qs -> qs <> [] -> chain (store X E d T) qs (VPtr o) w ->
        is_ptr E t = false /\ exists x, w = VPtr (Some x) /\ chain (store X E d t) qs (match o with Some y => y | None => zero E t end) x /\
          forall a b, chain (store X E d t) qs a b -> chain (store X E d T) qs (VPtr (Some a)) (VPtr (Some b))) as HP.
      { clear - Hu Hk. induction qs as [|q qs IHq]; intros o w Hnn Hne H; [congruence|]. apply chain_cons in H as (v1 & Hq & H).
        assert (q <> LNull) as Hq0 by (intros ->; apply Hnn; left; reflexivity).
        assert (is_ptr E t = false /\ exists x, v1 = VPtr (Some x) /\ store X E d t q (match o with Some y => y | None => zero E t end) x) as (Hnp & x & -> & Hs).
        { inversion Hq; subst; kinds. replace t0 with t in * by congruence. eauto. }
        assert (forall a b, store X E d t q a b -> store X E d T q (VPtr (Some a)) (VPtr (Some b))) as Hst.
        { intros a b Hab. eapply sto_ptr; [split; eauto|exact Hnp|exact Hq0|exact Hab]. }
        split; [exact Hnp|]. destruct qs as [|q' qs].
        - apply chain_nil in H as ->. exists x. split; [reflexivity|]. split; [apply chain_one; exact Hs|].
          intros a b Hab. apply chain_one_inv in Hab. apply chain_one. auto.
        - destruct (IHq (Some x) w) as (_ & y & -> & Hc & Hb); [intros Hin; apply Hnn; right; exact Hin|discriminate|exact H|].
          exists y. split; [reflexivity|]. split; [econstructor; eauto|]. intros a b Hab. apply chain_cons in Hab as (a1 & Ha1 & Hab).
          econstructor; [apply Hst; exact Ha1|]. apply Hb. exact Hab. }
      destruct (HP _ _ _ Hin ltac:(discriminate) H) as (Hnp & x & -> & Hc & Hb). apply Hb.
      eapply G; [exact HL|eapply in_step; [exact HI|]; eapply co_ptr; split; eauto|exact Hnp| |exact Hc].
      destruct o as [y|]; [apply Ho; reflexivity|apply zero_fits; exact Henv].
  Qed.
  Lemma store_idem d T p v w : inside E T0 T -> fits E T v -> store X E d T p v w -> store X E d T p w w.
  Proof. intros HI Hv H. apply chain_one_inv. eapply idem_f; [apply le_n|exact HI|exact Hv|apply chain_one; exact H]. Qed.
End Again.
