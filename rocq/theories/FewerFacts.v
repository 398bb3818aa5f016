(** What a type accepts is accepted without some of its fields, if the counts are
    true (C86). *)
From Coq Require Import Strings.String Strings.Byte ZArith List Bool Lia Floats.SpecFloat.
From Verif Require Import Base GoTypes GvalInd Tags Unmarshal Grammar Denote NumFacts TextFacts ScanFacts Typing Safe StoreFacts StructFacts
  RoundTripFacts MemFacts Wider WiderFacts Fewer.
Import ListNotations.
Open Scope Z_scope.
Local Notation body := ScanFacts.body.

(** ** Counted data is strictly well formed as far as the limit allows *)
Lemma counted_strict_f : forall n d p, (length (text p) <= n)%nat -> wf p -> counted p -> nest_le d p -> strict d p.
Proof.
  induction n as [|n IH]; intros d p HL Hw Hc Hn; [pose proof (text_pos p); lia|].
  assert (forall es, (length (body es) <= n)%nat -> d + (1 + nest_body es) <= limit ->
    Forall (fun e => wf (fst e) /\ wf (snd e)) es -> Forall (fun e => counted (fst e) /\ counted (snd e)) es ->
    Forall (fun e => strict (d + 1) (fst e) /\ strict (d + 1) (snd e)) es) as B.
  { intros es HB Hd HW HC. apply Forall_forall. intros e He. rewrite Forall_forall in HW, HC. destruct (HW e He), (HC e He).
    pose proof (in_body e es He). destruct (nest_body_in e es He). split; apply IH; auto; try lia; right; lia. }
  destruct Hw as [|b|t z Ht|t Ht Ht'|m s Hm Hs|m es Hm HW|cn cls m es Hcn Hcl Hm HW]; try (econstructor; eauto; fail).
  - inversion Hc; subst. unfold nest_le in Hn. rewrite nesting_arr in Hn. pose proof (nest_body_nonneg es). unfold limit in *. pose proof (arr_len m es).
    apply st_arr; auto; [lia|]. apply B; auto; unfold limit; lia.
  - inversion Hc; subst. unfold nest_le in Hn. rewrite nesting_obj in Hn. pose proof (nest_body_nonneg es). unfold limit in *. pose proof (obj_len cn cls m es).
    apply st_obj; auto; [lia|]. apply B; auto; unfold limit; lia.
Qed.
Lemma counted_strict d p : wf p -> counted p -> nest_le d p -> strict d p.
Proof. apply (counted_strict_f _ d p (le_n _)). Qed.

Lemma strict_body d p n es kp q : body_of p n es -> strict d p -> In (kp, q) es -> strict (d + 1) q.
Proof.
  intros Hb Hs Hi. destruct Hb; inversion Hs as [| | | | |? ? ? ? ? ? HF|? ? ? ? ? ? ? ? ? ? HF]; subst;
    rewrite Forall_forall in HF; exact (proj2 (HF _ Hi)).
Qed.

Section Few.
  Context (X : Ext) (E : env).
  Hypothesis Henv : go_env E.
  Notation fewer := (fewer X E).
  Notation same := (same_data X E).
  Notation all := (fun _ : bytes => True).

  Lemma few_key k k' : same_key E k k' -> wider_key E k k' /\ wider_key E k' k.
  Proof.
    intros [->|(a & Ha & Ha' & Hm)]; [split; left; reflexivity|].
    split; right; exists a, a; (split; [assumption|]; split; [assumption|]); destruct a; try contradiction; try exact I; lia.
  Qed.
  Lemma fewer_wider : forall T T', fewer T T' -> wider X E all T T'.
  Proof.
    cofix CH. intros T T' H. destruct H as [T n Hu|T T' k Hk Hk' Hs|T T' t t' Hk Hk' Hb H|T T' n t t' Hk Hk' H|T T' k k' t t' Hk Hk' HK H|T T' t t' Hk Hk' H|T T' id id' fs fs' Hk Hk' HF].
    - eapply wd_unm. exact Hu.
    - destruct k; try (eapply wd_flat; [exact Hk|exact Hk'|exact Hs]).
      + eapply wd_int; [exact Hk|exact Hk'|apply Z.le_refl].
      + eapply wd_uint; [exact Hk|exact Hk'|apply Z.le_refl].
    - eapply wd_slice; [exact Hk|exact Hk'|exact Hb|]. apply CH. exact H.
    - eapply wd_array; [exact Hk|exact Hk'|]. apply CH. exact H.
    - eapply wd_map; [exact Hk|exact Hk'|exact (proj1 (few_key k k' HK))|]. apply CH. exact H.
    - eapply wd_ptr; [exact Hk|exact Hk'|]. apply CH. exact H.
    - eapply wd_struct; [exact Hk|exact Hk'| |].
      + intros key i f Hl. destruct (HF key i f Hl) as (i' & f' & A & B & C). exists i', f'. split; [exact A|]. split; [exact B|]. apply CH. exact C.
      + intros; exact I.
  Qed.

  (** Scalars *)
  Lemma same_scalar T T' k v v' : plain E T k -> plain E T' k -> match k with KInt _ | KUint _ => True | _ => flat_kind k = true end ->
    same T T' v v' -> v' = v.
  Proof. intros Hk Hk' Hf HS. inversion HS; subst; pk; try discriminate; try reflexivity. Qed.
  Lemma quoted_scalar_few T T' t w' : fewer T T' -> quoted_scalar X E T' t w' -> exists w, quoted_scalar X E T t w /\ same T T' w w'.
  Proof.
    intros HW Hq. destruct HW as [T n Hu|T T' k Hk Hk' Hs| | | | | ]; inversion Hq; subst; pk; try discriminate.
    - exists (VBool b). split; [apply qs_bool; assumption|eapply sa_flat; eauto].
    - exists (VInt z). split; [eapply qs_int; eassumption|eapply sa_int; eauto].
    - exists (VUint (num t)). split; [eapply qs_uint; eassumption|eapply sa_uint; eauto].
    - exists (VF64 f). split; [apply qs_f64; assumption|eapply sa_flat; eauto].
    - exists (VF32 (f32_of_f64 f)). split; [apply qs_f32; assumption|eapply sa_flat; eauto].
  Qed.
  Lemma same_ptr' T T' t t' o v : plain E T (KPtr t) -> plain E T' (KPtr t') -> same T T' v (VPtr o) ->
    (o = None /\ v = VPtr None) \/ exists x x', o = Some x' /\ v = VPtr (Some x) /\ same t t' x x'.
  Proof. intros Hk Hk' H. inversion H; subst; pk; try discriminate; [left; auto|right; eauto 6]. Qed.
  Lemma quoted_few T T' p v v' w' : fewer T T' -> same T T' v v' -> store_quoted X E T' p v' w' ->
    exists w, store_quoted X E T p v w /\ same T T' w w'.
  Proof.
    intros HW HS H. pose proof (wider_is_ptr X E all T T' (fewer_wider T T' HW)) as HP.
    destruct H as [t' v' Hk'|t' n s o w' Hk' Hn Hq|v' Hp|n s v' w' Hp Hn Hq].
    - destruct HW; pk; try discriminate; try (exfalso; contradiction).
      exists (VPtr None). split; [eapply sq_ptr_null; eassumption|eapply sa_ptr_nil; eassumption].
    - destruct HW; pk; try discriminate; try (exfalso; contradiction).
      match goal with HW : Fewer.fewer _ _ ?t ?t', Ha : plain _ _ (KPtr ?t), Hb : plain _ _ (KPtr ?t') |- _ =>
        destruct (quoted_scalar_few t t' s w' HW Hq) as (w & Hw & HR); destruct (same_ptr' _ _ t t' o v Ha Hb HS) as [[-> ->]|(x & x' & -> & -> & _)] end;
        (eexists; split; [eapply sq_ptr; eassumption|eapply sa_ptr; eassumption]).
    - exists v. split; [apply sq_null; rewrite HP; exact Hp|exact HS].
    - destruct (quoted_scalar_few T T' s w' HW Hq) as (w & Hw & HR). exists w. split; [|exact HR].
      apply sq_str; auto. rewrite HP. exact Hp.
  Qed.

  (** ** Structs *)
  Lemma struct_few d fs fs' :
    (forall key i f, lookup X fs key = Some (i, f) ->
       exists i' f', lookup X fs' key = Some (i', f') /\ string_tagged X E f = string_tagged X E f' /\ fewer (f_ty f) (f_ty f')) ->
    forall es l l' w',
    (forall e, In e es -> strict d (snd e)) ->
    (forall e, In e es -> forall t t' v v' x', (exists key i f i' f', lookup X fs' key = Some (i', f') /\ lookup X fs key = Some (i, f) /\ t = f_ty f /\ t' = f_ty f') ->
       fewer t t' -> same t t' v v' -> store X E d t' (snd e) v' x' -> exists x, store X E d t (snd e) v x /\ same t t' x x') ->
    (forall key i f, lookup X fs key = Some (i, f) ->
       exists i' f' x x', lookup X fs' key = Some (i', f') /\ nth_error l i = Some x /\ nth_error l' i' = Some x' /\ same (f_ty f) (f_ty f') x x') ->
    struct_entries X E d fs' (store X E d) l' es w' ->
    exists w, struct_entries X E d fs (store X E d) l es w /\
    (forall key i f, lookup X fs key = Some (i, f) ->
       exists i' f' x x', lookup X fs' key = Some (i', f') /\ nth_error w i = Some x /\ nth_error w' i' = Some x' /\ same (f_ty f) (f_ty f') x x').
  Proof.
    intros HF1. induction es as [|e es IH]; intros l l' w' HN HV Hl H.
    - apply struct_entries_nil in H as ->. exists l. split; [constructor|exact Hl].
    - apply struct_entries_cons in H as (l1' & Hs & H).
      assert (exists l1, step X E d fs (store X E d) l e l1 /\
        (forall key i f, lookup X fs key = Some (i, f) ->
           exists i' f' x x', lookup X fs' key = Some (i', f') /\ nth_error l1 i = Some x /\ nth_error l1' i' = Some x' /\ same (f_ty f) (f_ty f') x x'))
        as (l1 & Hs' & Hl1).
      { inversion Hs as [l0 kp k i' f' p old' v' Hkt Hf' Hn' Hv'|l0 kp k p Hkt Hf' Hst]; subst.
        - destruct (lookup X fs k) as [[i f]|] eqn:Hf.
          + destruct (HF1 k i f Hf) as (i2 & f2 & Hf2 & Hq & HW). rewrite Hf' in Hf2. injection Hf2 as <- <-.
            destruct (Hl k i f Hf) as (i2 & f2 & x & x' & Hf2 & Hx & Hx' & HS).
            rewrite Hf' in Hf2. injection Hf2 as <- <-. rewrite Hn' in Hx'. injection Hx' as <-.
            assert (exists v, FV X E (store X E d) f p x v /\ same (f_ty f) (f_ty f') v v') as (v & Hv & HS').
            { unfold FV in *. rewrite Hq. destruct (string_tagged X E f').
              - eapply quoted_few; eauto.
              - apply (HV (kp, p) (or_introl eq_refl) _ _ x old' v'); auto. exists k, i, f, i', f'. auto. }
            exists (update l i v). split; [eapply step_known; eauto|].
            intros key j g Hg. destruct (Hl key j g Hg) as (j' & g' & y & y' & Hg' & Hy & Hy' & HSy).
            destruct (bytes_eqb key k) eqn:Ek.
            * apply bytes_eqb_eq in Ek as ->. rewrite Hf in Hg. injection Hg as <- <-. rewrite Hf' in Hg'. injection Hg' as <- <-.
              exists i', f', v, v'. split; [exact Hf'|]. split; [apply nth_update_same, nth_error_Some; congruence|].
              split; [apply nth_update_same, nth_error_Some; congruence|exact HS'].
            * assert (key <> k) as Hne by (intros ->; assert (bytes_eqb k k = true) by (apply bytes_eqb_eq; reflexivity); congruence).
              exists j', g', y, y'. split; [exact Hg'|]. split; [|split; [|exact HSy]].
              -- rewrite nth_update_other; [exact Hy|]. intros ->. apply lookup_spec in Hf as (A & _ & B). apply lookup_spec in Hg as (A' & _ & B'). congruence.
              -- rewrite nth_update_other; [exact Hy'|]. intros ->. apply lookup_spec in Hf' as (A & _ & B). apply lookup_spec in Hg' as (A' & _ & B'). congruence.
          + exists l. split; [eapply step_unknown; eauto; exact (HN (kp, p) (or_introl eq_refl))|].
            intros key j g Hg. destruct (Hl key j g Hg) as (j' & g' & y & y' & Hg' & Hy & Hy' & HSy).
            exists j', g', y, y'. split; [exact Hg'|]. split; [exact Hy|]. split; [|exact HSy].
            rewrite nth_update_other; [exact Hy'|]. intros ->. apply lookup_spec in Hf' as (A & _ & B). apply lookup_spec in Hg' as (A' & _ & B'). congruence.
        - exists l. split; [|exact Hl]. eapply step_unknown; eauto.
          destruct (lookup X fs k) as [[i f]|] eqn:Eq; [|reflexivity]. exfalso. destruct (HF1 k i f Eq) as (i' & f' & Q & _). congruence. }
      destruct (IH l1 l1' w') as (w & Hw & Hw'); auto.
      + intros e0 He0. apply HN. right. exact He0.
      + intros e0 He0. apply HV. right. exact He0.
      + exists w. split; [apply struct_entries_cons; eauto|exact Hw'].
  Qed.

  (** ** Everything *)
  Context (T0 : gty) (data : bytes).
  Hypothesis Halloc : allocatable X E T0 data.
  Notation part := (part data).
  Lemma flip_F2 {A B} (R : A -> B -> Prop) l l' : Forall2 (fun b a => R a b) l' l <-> Forall2 R l l'.
  Proof. split; induction 1; constructor; auto. Qed.
  Lemma mrel_flip (R : gval -> gval -> Prop) m m' : Forall2 (mrel (fun b a => R a b)) m' m <-> Forall2 (mrel R) m m'.
  Proof. split; (induction 1 as [|x y ? ? [Hk Hv] ? IH]; constructor; [split; auto|exact IH]). Qed.
  Lemma few_zero t t' : fewer t t' -> same t t' (zero E t) (zero E t').
  Proof. intros H. exact (zero_same X E all Henv _ t t' eq_refl (fewer_wider t t' H)). Qed.

  Lemma few_f : forall n d T T' p v v' w', (length (text p) <= n)%nat -> inside E T0 T -> part (text p) -> strict d p ->
    fewer T T' -> same T T' v v' -> store X E d T' p v' w' -> exists w, store X E d T p v w /\ same T T' w w'.
  Proof.
    induction n as [|n IH]; intros d T T' p v v' w' HL HI HP HN HW HS H; [pose proof (text_pos p); lia|].
    assert (forall d T T' p v v' w', (length (text p) <= S n)%nat -> is_ptr E T = false -> inside E T0 T -> part (text p) -> strict d p ->
      fewer T T' -> same T T' v v' -> store X E d T' p v' w' -> exists w, store X E d T p v w /\ same T T' w w') as G.
    { clear d T T' p v v' w' HL HI HP HN HW HS H. intros d T T' p v v' w' HL Hnp HI HP HN HW HS H.
      assert (forall nn es kp q, body_of p nn es -> In (kp, q) es ->
                (length (text q) <= n)%nat /\ part (text kp) /\ part (text q) /\ strict (d + 1) q) as Hsub.
      { intros nn es kp q Hb Hi. pose proof (in_body (kp, q) es Hi) as Hlen. pose proof (body_of_len p nn es Hb) as HL2. cbn [fst snd] in Hlen.
        destruct (part_body data p nn es Hb HP) as [_ Hp2]. destruct (part_entry data es kp q Hi Hp2) as [Hp3 Hp4].
        split; [lia|]. split; [exact Hp3|]. split; [exact Hp4|]. eapply strict_body; eauto. }
      destruct HW as [T u Hu|T T' k Hk Hk' Hf|T T' t t' Hk Hk' Hb HW|T T' m t t' Hk Hk' HW|T T' k k' t t' Hk Hk' HK HW|T T' t t' Hk Hk' HW|T T' id id' fs fs' Hk Hk' HF1].
      - inversion HS; subst; pk. exists w'. split; [exact H|eapply sa_unm; eauto].
      - pose proof (same_scalar T T' k v v' Hk Hk' Hf HS) as ->.
        exists w'. destruct k; try discriminate Hf; (split;
          [inversion H; subst; pk; try discriminate; try (econstructor; eauto; fail)
          |try (eapply sa_flat; eauto; fail); inversion HS; subst; pk; try discriminate; inversion H; subst; pk; try discriminate; (eapply sa_int + eapply sa_uint); eauto]).
      - assert (inside E T0 t) as HI' by (eapply in_step; [exact HI|]; eapply co_slice; eauto).
        inversion H; subst; pk; try discriminate.
        + exists v. split; [eapply sto_bytes_null; eauto; congruence|exact HS].
        + eexists. split; [eapply sto_bytes; eauto; congruence|]. eapply sa_slice; eauto.
          match goal with |- Forall2 _ (map _ ?x) _ => generalize x end. intros x. induction x as [|c x IHx]; constructor; [|exact IHx].
          eapply byte_same; try congruence. apply fewer_wider. exact HW.
        + eexists. split; [eapply sto_slice_null; eauto; congruence|eapply sa_slice_nil; eauto].
        + eexists. split; [eapply sto_slice_empty; eauto|eapply sa_slice_nil; eauto].
        + match goal with HE : slice_entries _ (zero E ?t') _ [] ?es ?l |- _ =>
            destruct (slice_entries_wide (fun b a => same t t' a b) (store X E (d + 1) t') (store X E (d + 1) t) (x_slots X t') (x_slots X t) (zero E t') (zero E t)
              (few_zero t t' HW) es [] [] l) as (l' & Hl' & HR); auto end.
          * intros [kp q] Hi x x' y Hxx Hy. destruct (Hsub _ _ kp q (body_arr _ _) Hi) as (A & B & C & D). eapply IH; eauto.
          * intros s i q Hi Hs. destruct (Hsub _ _ _ q (body_arr _ _) Hi) as (A & B & C & D). exact (index_ok X E T0 data Halloc T t s i HI Hk Hs B).
          * exists (VSlice (Some l')). split; [|eapply sa_slice; eauto; apply flip_F2; exact HR]. eapply sto_slice; eauto.
            apply (slots_ok X E T0 data Halloc T t _ HI Hk); [assumption|]. eapply part_body; [apply body_arr|exact HP].
      - assert (inside E T0 t) as HI' by (eapply in_step; [exact HI|]; eapply co_array; eauto).
        inversion H; subst; pk; try discriminate.
        + exists v. split; [eapply sto_array_null; eauto|exact HS].
        + eexists. split; [eapply sto_array_empty; eauto|]. eapply sa_array; eauto. apply Forall2_repeat. apply few_zero; auto.
        + match goal with HE : array_entries _ (store _ _ _ ?t') ?l0 ?es ?l, Hq : plain E T (KArray ?m _) |- _ =>
            destruct (array_entries_wide (fun b a => same t t' a b) (store X E (d + 1) t') (store X E (d + 1) t) (d + 1) es l0 (repeat (zero E t) m) l) as (l' & Hl' & HR); auto end.
          * intros [kp q] Hi x x' y Hxx Hy. destruct (Hsub _ _ kp q (body_arr _ _) Hi) as (A & B & C & D). eapply IH; eauto.
          * apply Forall2_repeat. apply few_zero; auto.
          * exists (VArr l'). split; [|eapply sa_array; eauto; apply flip_F2; exact HR]. eapply sto_array; eauto.
      - assert (inside E T0 t) as HI' by (eapply in_step; [exact HI|]; eapply co_val; eauto).
        apply (store_map_inv X E d T' k' t' p v' w' Hk') in H as (Hd & [[-> ->]|(nn & es & o & m & Hbo & Hn & Hm & -> & -> & He)]).
        + eexists. split; [eapply sto_map_null; eauto|eapply sa_map_nil; eauto].
        + assert (exists o', v = VMap o' /\ Forall2 (mrel (same t t')) (match o' with Some m0 => m0 | None => [] end) (match o with Some m0 => m0 | None => [] end))
            as (o' & -> & Ho).
          { inversion HS; subst; pk; try discriminate; [exists None; split; [reflexivity|constructor]|]. eexists (Some _). split; [reflexivity|]. eassumption. }
          destruct (map_entries_wide (fun b a => same t t' a b) (store_key X E (d + 1) k') (store_key X E (d + 1) k) (fun q w => store X E (d + 1) t' q (zero E t') w)
            (fun q w => store X E (d + 1) t q (zero E t) w) es (match o with Some m0 => m0 | None => [] end) (match o' with Some m0 => m0 | None => [] end) m) as (m' & Hm' & HR); auto.
          * intros e _ x. apply key_wide. exact (proj2 (few_key k k' HK)).
          * intros [kp q] Hi x Hx. destruct (Hsub _ _ kp q Hbo Hi) as (A & B & C & D). eapply IH; eauto. apply few_zero; auto.
          * apply mrel_flip. exact Ho.
          * exists (VMap (Some m')). split; [eapply sto_map; eauto|eapply sa_map; eauto]. apply mrel_flip in HR. exact HR.
      - exfalso. unfold is_ptr in Hnp. destruct Hk as [_ Hk]. rewrite Hk in Hnp. discriminate.
      - apply (store_struct_inv X E d T' id' fs' p v' w' Hk') in H as (Hd & [[-> ->]|(nn & es & l' & l1 & Hbo & Hn & -> & -> & He)]).
        + exists v. split; [eapply sto_struct_null; eauto|exact HS].
        + assert (exists l, v = VStruct l /\ forall key i f, lookup X fs key = Some (i, f) ->
             exists i' f' x x', lookup X fs' key = Some (i', f') /\ nth_error l i = Some x /\ nth_error l' i' = Some x' /\ same (f_ty f) (f_ty f') x x')
            as (l & -> & Hl) by (inversion HS; subst; pk; try discriminate; eauto).
          destruct (struct_few (d + 1) fs fs' HF1 es l l' l1) as (w & Hw & HR); auto.
          * intros [kp q] Hi. exact (proj2 (proj2 (proj2 (Hsub _ _ kp q Hbo Hi)))).
          * intros [kp q] Hi t t' x x' y (key & i & f & i' & f' & Hf' & Hf & -> & ->) HW Hxx Hy.
            destruct (Hsub _ _ kp q Hbo Hi) as (A & B & C & D). eapply IH; eauto.
            eapply in_step; [exact HI|]. apply lookup_spec in Hf as (Hn' & Hig & _). eapply co_field; eauto. eapply nth_error_In; eauto.
          * exists (VStruct w). split; [eapply sto_struct; eauto|eapply sa_struct; eauto]. }
    destruct (is_ptr E T) eqn:Ep; [|eapply G; eauto].
    destruct HW as [T u Hu|T T' k Hk Hk' Hf|T T' t t' Hk Hk' Hb HW|T T' m t t' Hk Hk' HW|T T' k k' t t' Hk Hk' HK HW|T T' t t' Hk Hk' HW|T T' id id' fs fs' Hk Hk' HF1];
      try (exfalso; unfold is_ptr in Ep; rewrite (proj2 Hk) in Ep; try discriminate Ep; destruct k; discriminate).
    - inversion HS; subst; pk. exists w'. split; [exact H|eapply sa_unm; eauto].
    - pose proof (wider_is_ptr X E all t t' (fewer_wider t t' HW)) as HQ. inversion H; subst; pk; try discriminate.
      + eexists. split; [eapply sto_ptr_null; eauto|eapply sa_ptr_nil; eauto]. all: rewrite HQ; assumption.
      + match type of HW with Fewer.fewer _ _ _ ?t' => assert (exists o', v = VPtr o' /\ same t t' (match o' with Some x => x | None => zero E t end) (match o with Some x => x | None => zero E t' end)) as (o' & -> & Ho) end.
        { destruct (same_ptr' T T' t _ o v Hk Hk' HS) as [[-> ->]|(x & x' & -> & -> & Hx)]; [exists None|exists (Some x)]; (split; [reflexivity|]); auto.
          apply few_zero; auto. }
        match goal with HX : Fewer.fewer _ _ t ?t', Hs : store _ _ _ ?t' _ _ ?w0 |- _ =>
          destruct (G d t t' p (match o' with Some x => x | None => zero E t end) (match o with Some x => x | None => zero E t' end) w0) as (x & Hx & HR); auto end.
        { rewrite HQ. assumption. }
        { eapply in_step; [exact HI|]. eapply co_ptr; eauto. }
        eexists. split; [eapply sto_ptr; eauto|eapply sa_ptr; eauto]. all: rewrite HQ; assumption.
  Qed.
  Lemma few d T T' p v v' w' : inside E T0 T -> part (text p) -> strict d p ->
    fewer T T' -> same T T' v v' -> store X E d T' p v' w' -> exists w, store X E d T p v w /\ same T T' w w'.
  Proof. intros. eapply few_f; eauto. Qed.
End Few.
