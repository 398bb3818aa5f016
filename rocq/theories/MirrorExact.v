(** The converse: data that a trip through Go leaves as it is has a mirror. *)
From Coq Require Import Strings.String Strings.Byte ZArith List Bool Lia Floats.SpecFloat Permutation.
From Verif Require Import Base GoTypes Tags Grammar Denote Typing Api NumFacts CompileFacts UnmFacts StructFacts Memory
  EncCompile Php Repr EncApi NumEnc ReprFacts PhpFacts MarshalFacts RoundTrip RoundTripFacts SettleFacts WiderFacts Mirror MirrorFacts.
Import ListNotations.
Open Scope Z_scope.

(** ** Entries *)

Fixpoint counted (i : Z) (ps : list (php * php)) : Prop :=
  match ps with [] => True | e :: ps' => fst e = PInt i /\ counted (i + 1) ps' end.

Lemma slice_unbuild slots zv (V : lval -> gval -> gval -> Prop) ps : forall acc W,
  counted (Z.of_nat (length acc)) ps -> slice_entries slots zv V acc (map syn ps) W ->
  exists ws, W = acc ++ ws /\ Forall2 (fun e w => V (syntax (snd e)) zv w) ps ws.
Proof.
  induction ps as [|[k p] ps IH]; intros acc W Hc Hs; cbn [map] in Hs.
  - inversion Hs; subst. exists []. rewrite app_nil_r. split; [reflexivity|constructor].
  - destruct Hc as [Hk Hc]. cbn [fst] in Hk. subst k. unfold syn in Hs at 1. cbn [fst snd syntax] in Hs.
    inversion Hs as [|l t i p0 es old v l' [Hi _] Hn Hv Hr|l t i p0 es v l' [Hi _] Hle _ _ Hv Hr]; subst.
    + apply (int_text_det _ _ _ (decimal_int_text _)) in Hi. apply Nat2Z.inj in Hi. subst i.
      assert (nth_error acc (length acc) = None) by (apply nth_error_None; lia). congruence.
    + apply (int_text_det _ _ _ (decimal_int_text _)) in Hi. apply Nat2Z.inj in Hi. subst i. rewrite Nat.sub_diag in Hr. cbn [repeat app] in Hr.
      destruct (IH (acc ++ [v]) W) as (ws & -> & F); [|exact Hr|].
      { rewrite app_length. cbn [length]. replace (Z.of_nat (length acc + 1)) with (Z.of_nat (length acc) + 1) by lia. exact Hc. }
      exists (v :: ws). rewrite <- app_assoc. split; [reflexivity|]. constructor; assumption.
Qed.

Lemma array_unbuild d zv (V : lval -> gval -> gval -> Prop) ps : forall acc W,
  counted (Z.of_nat (length acc)) ps -> array_entries d V (acc ++ repeat zv (length ps)) (map syn ps) W ->
  exists ws, W = acc ++ ws /\ Forall2 (fun e w => V (syntax (snd e)) zv w) ps ws.
Proof.
  induction ps as [|[k p] ps IH]; intros acc W Hc Hs; cbn [map length repeat] in Hs.
  - inversion Hs; subst. exists []. split; [reflexivity|constructor].
  - destruct Hc as [Hk Hc]. cbn [fst] in Hk. subst k. unfold syn in Hs at 1. cbn [fst snd syntax] in Hs.
    inversion Hs as [|l t i p0 es old v l' [Hi _] Hn Hv Hr|l t z p0 es l' Hi Hle _ Hr]; subst.
    + apply (int_text_det _ _ _ (decimal_int_text _)) in Hi. apply Nat2Z.inj in Hi. subst i. rewrite nth_mid in Hn. injection Hn as <-.
      rewrite update_mid in Hr. destruct (IH (acc ++ [v]) W) as (ws & -> & F).
      { rewrite app_length. cbn [length]. replace (Z.of_nat (length acc + 1)) with (Z.of_nat (length acc) + 1) by lia. exact Hc. }
      { rewrite <- app_assoc. exact Hr. }
      exists (v :: ws). rewrite <- app_assoc. split; [reflexivity|]. constructor; assumption.
    + apply (int_text_det _ _ _ (decimal_int_text _)) in Hi. subst z. unfold blen in Hle. rewrite app_length in Hle. cbn [length] in Hle. lia.
Qed.

Lemma map_unbuild (K V : lval -> gval -> Prop) ps lw :
  Forall2 (fun e x => simple_key (fst x) = true /\ forall kw, K (syntax (fst e)) kw -> kw = fst x) ps lw -> forall acc W,
  Forall (fun e : gval * gval => simple_key (fst e) = true) acc -> NoDup (map fst (acc ++ lw)) -> map_entries K V acc (map syn ps) W ->
  exists ws, W = acc ++ ws /\ map fst ws = map fst lw /\ Forall2 (fun e x => V (syntax (snd e)) (snd x)) ps ws.
Proof.
  induction 1 as [|[kp p] [k x] ps lw [Hs Hk] F IH]; intros acc W Ha Hn Hm; cbn [map] in Hm.
  - inversion Hm; subst. exists []. rewrite app_nil_r. split; [reflexivity|]. split; [reflexivity|constructor].
  - unfold syn in Hm at 1. cbn [fst snd] in *. inversion Hm as [|m k0 p0 es kv vv m' HK HV _ Hr]; subst. apply Hk in HK. subst kv.
    rewrite map_set_new in Hr; [|exact Hs|exact Ha|].
    + destruct (IH (acc ++ [(k, vv)]) W) as (ws & -> & Q & G); [| |exact Hr|].
      { apply Forall_app. split; [exact Ha|]. constructor; [exact Hs|constructor]. }
      { rewrite <- app_assoc. cbn [app]. rewrite map_app in *. exact Hn. }
      exists ((k, vv) :: ws). rewrite <- app_assoc. split; [reflexivity|]. split; [cbn [map fst]; rewrite Q; reflexivity|]. constructor; assumption.
    + rewrite map_app in Hn. cbn [map fst] in Hn. apply NoDup_remove_2 in Hn. intros Q. apply Hn. apply in_or_app. left. exact Q.
Qed.

Lemma same_keys {A B} (a b : list (A * B)) : NoDup (map fst a) -> Permutation a b -> map fst a = map fst b -> a = b.
Proof.
  intros Hn Hp Hf. assert (incl b a) as Hi by (intros x Hx; eapply Permutation_in; [symmetry; exact Hp|exact Hx]). clear Hp.
  revert b Hf Hi. induction a as [|[k v] a IH]; intros [|[k' v'] b] Hf Hi; try discriminate Hf; [reflexivity|].
  cbn [map fst] in Hf, Hn. injection Hf as <- Hf. inversion Hn as [|? ? Hk Hn']; subst.
  assert (v' = v) as ->.
  { destruct (Hi (k, v') (or_introl eq_refl)) as [Q|Q]; [congruence|]. exfalso. apply Hk. apply in_map_iff. exists (k, v'). split; [reflexivity|exact Q]. }
  f_equal. apply IH; [exact Hn'|exact Hf|]. intros x Hx. destruct (Hi x (or_intror Hx)) as [<-|Q]; [|exact Q].
  exfalso. apply Hk. rewrite Hf. apply in_map_iff. exists (k, v). split; [reflexivity|exact Hx].
Qed.

(** ** The induction *)

Section Exact.
  Context (X : Ext) (E : env) (H : heap) (T0 : gty).
  Hypothesis Hgo : go_env E.
  Hypothesis Hsup : supported X E T0.
  Hypothesis Hfree : forall U, inside E T0 U -> has_unmarshal E U = None /\ marshaler E U = false.

  Notation ok T := (inside E T0 T).
  Lemma ok_simple T k : ok T -> kind_of E T = k -> simple E T k.
  Proof. intros HI K. destruct (Hfree T HI). split; [assumption|split; assumption]. Qed.

  Definition EV (T : gty) (v : hval) (p : php) : Prop :=
    forall d w, ok T -> holds H v w -> store X E d T (syntax p) (zero E T) w -> mirrors X E T p w.
  Definition EL (t : gty) (i : Z) (l : list hval) (ps : list (php * php)) : Prop :=
    counted i ps /\ length l = length ps /\
    forall d ws, ok t -> Forall2 (holds H) l ws -> Forall2 (fun e w => store X E d t (syntax (snd e)) (zero E t) w) ps ws -> mirrors_list X E t i ps ws.
  Definition EM (k : kind) (t : gty) (l : list (hval * hval)) (ps : list (php * php)) : Prop :=
    forall d kt ws, simple E kt k -> ok t -> Forall2 (fun e x => holds H (fst e) (fst x) /\ holds H (snd e) (snd x)) l ws ->
    Forall2 (fun e x => store X E d t (syntax (snd e)) (zero E t) (snd x)) ps ws -> mirrors_map X E kt t ps ws.
  Definition EF (fs : list field) (l : list hval) (ps : list (php * php)) : Prop :=
    forall T id pre d done W, kind_of E T = KStruct id (pre ++ fs) -> ok T -> length done = length pre ->
    struct_entries X E d (pre ++ fs) (store X E d) (done ++ map (fun f => zero E (f_ty f)) fs) (map syn ps) W ->
    exists ws, W = done ++ ws /\ (Forall2 (holds H) l ws -> mirrors_fields X E fs ps ws).
  Definition EFv (f : field) (v : hval) (p : php) : Prop :=
    forall d w, ok (f_ty f) -> (string_tagged X E f = true -> ~ ~ Typing.quotable E (f_ty f)) -> holds H v w ->
    FV X E (store X E d) f (syntax p) (zero E (f_ty f)) w -> mirrors_field X E f p w.

  Ltac inv Hst := inversion Hst; subst; pk; try discriminate; try congruence.

  Lemma scalar_exact d T v p w : ok T -> scalar_repr X (kind_of E T) v p -> holds H v w -> store X E d T (syntax p) (zero E T) w -> mirrors X E T p w.
  Proof.
    intros HI Sr Hh Hst. remember (kind_of E T) as k eqn:K. symmetry in K. pose proof (ok_simple T k HI K) as S. pose proof (simple_plain E T k S) as P.
    destruct Sr as [b|k z Hz|k z Hne Hz|f|f|s]; inversion Hh; subst; cbn [syntax] in Hst.
    - apply mi_bool. exact S.
    - eapply mi_int; eassumption.
    - eapply mi_uint; eassumption.
    - inv Hst; eapply mi_f32; try eassumption; reflexivity.
    - inv Hst; eapply mi_f64; try eassumption; reflexivity.
    - apply mi_str. exact S.
  Qed.

  Lemma any_exact d s T v p w : ok T -> iface_kind (kind_of E T) = true -> inner X E H anything s T v p -> holds H v w ->
    store X E d T (syntax p) (zero E T) w -> mirrors X E T p w.
  Proof.
    intros HI Hi Hin Hh Hst. pose proof (ok_simple T _ HI eq_refl) as S. pose proof (simple_plain E T _ S) as P. pose proof (zero_iface E T _ eq_refl Hi) as Hz.
    inversion Hin; subst; kinds E; try discriminate Hi.
    - inversion Hh; subst. eapply mi_iface_null; eassumption.
    - inversion Hh as [| | | | | | | | | | | | | |t1 v1 w1 Hw| |]; subst. rewrite Hz in Hst.
      destruct (kind_of E T) as [| | | | | | | | | | |lists| |] eqn:K; try discriminate Hi.
      + assert (any_val X d (syntax p) (VIface (Some (t', w1)))) as A by (inversion Hst; subst; pk; try discriminate; assumption).
        assert (In t' [TBool; TInt I64; TF64; TString]) as Ht.
        { inversion A; subst; cbn; auto; [|destruct p; discriminate]. exfalso.
          match goal with Q : inner _ _ _ _ _ (TMap TAny TAny) _ _ |- _ => inversion Q; subst; try discriminate end;
            try (match goal with Q : kind_of E (TMap _ _) = _ |- _ => injection Q; intros; subst; discriminate end).
          match goal with Q : scalar_repr _ _ _ _ |- _ => inversion Q end. }
        eapply mi_any; [exact S|exact Ht|].
        match goal with Q : inner _ _ _ _ _ t' _ _ |- _ => apply inner_scalar in Q; [|exact Ht]; rename Q into Sr end.
        assert (forall k, kind_of E t' = k -> simple E t' k) as Ss by (intros k Kk; destruct Ht as [<-|[<-|[<-|[<-|[]]]]]; split; try reflexivity; split; try reflexivity; exact Kk).
        destruct Ht as [<-|[<-|[<-|[<-|[]]]]]; cbn [kind_of kind0] in Sr; inversion Sr; subst; inversion Hw; subst.
        * apply mi_bool. apply Ss. reflexivity.
        * eapply mi_int; [apply Ss; reflexivity|assumption].
        * cbn [syntax] in A. inversion A; subst. eapply mi_f64; [apply Ss; reflexivity|assumption|reflexivity].
        * apply mi_str. apply Ss. reflexivity.
      + exfalso. inversion Hst; subst; pk; try discriminate.
    - exfalso. match goal with Q : scalar_repr _ _ _ _ |- _ => apply scalar_shape in Q; apply plain_not_iface in Q; congruence end.
  Qed.

  Lemma ptr_exact d T t v o i c p w : ok T -> kind_of E T = KPtr t -> v = HPtr (Some (o, i)) -> cell H o i = Some c -> holds H v w ->
    (forall w', holds H c w' -> store X E d t (syntax p) (zero E t) w' -> mirrors X E t p w') ->
    store X E d T (syntax p) (zero E T) w -> mirrors X E T p w.
  Proof.
    intros HI K -> Hc Hh IH Hst. pose proof (ok_simple T _ HI K) as S. pose proof (simple_plain E T _ S) as P.
    inversion Hh as [| | | | | | | | | | | |? ? c' w0 Hc' Hw| | | |]; subst. replace c' with c in * by congruence. rewrite (zero_ptr E T t K) in Hst.
    inversion Hst; subst; pk; try discriminate.
    eapply mi_ptr; [exact S| |apply IH; assumption]. intros ->. cbn [syntax] in *. congruence.
  Qed.

  Lemma key_exact d kt kv kp kw : has_unmarshal E kt = None -> key_repr X (kind_of E kt) kv kp -> holds H kv kw ->
    simple_key kw = true /\ (forall kw', store_key X E d kt (syntax kp) kw' -> kw' = kw) /\ (marshaler E kt = false -> mirrors X E kt kp kw).
  Proof.
    intros Hu [Hk Sr] Hh. remember (kind_of E kt) as k eqn:K. symmetry in K. assert (plain E kt k) as P by (split; assumption).
    destruct Sr as [b|k z Hz|k z Hne Hz|f|f|s]; try discriminate Hk; inversion Hh; subst; cbn [syntax]; (split; [reflexivity|]); split.
    - intros kw' Hst. inversion Hst; subst; pk; try discriminate. match goal with Q : store _ _ _ _ _ _ _ |- _ => inversion Q; subst; pk; try discriminate end.
      f_equal. match goal with Q : int_text _ _ |- _ => apply (int_text_det _ _ _ (decimal_int_text _)) in Q end. congruence.
    - intros Hm. eapply mi_int; [split; [exact Hu|split; eassumption]|exact Hz].
    - intros kw' Hst. inversion Hst; subst; pk; try discriminate. match goal with Q : store _ _ _ _ _ _ _ |- _ => inversion Q; subst; pk; try discriminate end.
      f_equal. apply decimal_numeral. unfold uint_range in Hz. lia.
    - intros Hm. eapply mi_uint; [split; [exact Hu|split; eassumption]|exact Hne|exact Hz].
    - intros kw' Hst. inversion Hst; subst; pk; try discriminate. match goal with Q : store _ _ _ _ _ _ _ |- _ => inversion Q; subst; pk; try discriminate end. reflexivity.
    - intros Hm. eapply mi_str. split; [exact Hu|split; eassumption].
  Qed.

  Lemma text_exact t v p w s : has_unmarshal E t = None -> marshaler E t = false -> quoted_repr X E H t v p -> p = PStr s -> holds H v w -> quoted_scalar X E t s w ->
    mirrors_text X E t p w.
  Proof.
    intros Hu Hm Hr Hp Hh Hq. assert (forall k, kind_of E t = k -> simple E t k) as Ss by (intros k Kk; split; [exact Hu|split; [exact Hm|exact Kk]]).
    assert (forall k, kind_of E t = k -> plain E t k) as Ps by (intros k Kk; split; [exact Hu|exact Kk]).
    destruct Hr as [b Hk|k z Hk Hz|k z Hk Hz|f Hk|f Hk|s0 Hk|v p Hk Hqa].
    - inversion Hh; subst. apply mt_bool. apply Ss. exact Hk.
    - inversion Hh; subst. eapply mt_int; [apply Ss; exact Hk|exact Hz].
    - inversion Hh; subst. eapply mt_uint; [apply Ss; exact Hk|exact Hz].
    - pose proof (Ps _ Hk). injection Hp as <-. inversion Hh; subst. inversion Hq; subst; pk; try discriminate. eapply mt_f32; try eassumption; [apply Ss; exact Hk|reflexivity].
    - pose proof (Ps _ Hk). injection Hp as <-. inversion Hh; subst. inversion Hq; subst; pk; try discriminate. eapply mt_f64; try eassumption; [apply Ss; exact Hk|reflexivity].
    - pose proof (Ps _ Hk). inversion Hq; subst; pk.
    - exfalso. pose proof (Ps _ eq_refl) as P. inversion Hq; subst; match goal with Q : plain E t _ |- _ => destruct Q as [_ Q]; rewrite Q in Hk; discriminate Hk end.
  Qed.

  Theorem exact :
    (forall s t v p, repr X E H anything s t v p -> EV t v p) /\
    (forall s t v p, shape X E H anything s t v p -> bytes_type t = false -> EV t v p) /\
    (forall s t v p, inner X E H anything s t v p -> True) /\
    (forall s b t i l ps, elems X E H anything s b t i l ps -> b = false -> EL t i l ps) /\
    (forall s b k t l ps, pairs X E H anything s b k t l ps -> b = false -> EM k t l ps) /\
    (forall s fs l ps, fields X E H anything s fs l ps -> EF fs l ps) /\
    (forall s f v p, field_val X E H anything s f v p -> EFv f v p).
  Proof.
    assert (forall t t', kind_of E t = KPtr t' -> ok t -> ok t') as Hel.
    { intros t t' K HI. eapply in_step; [exact HI|]. eapply co_ptr. apply simple_plain. apply ok_simple; assumption. }
    apply repr_ind7; try (intros; exact I).
    - intros s t v b Hm Hs d w HI. exfalso. destruct (Hfree t HI). congruence.
    - intros s t v b Hm Hb Hv d w HI Hh Hst. apply bytes_is in Hb as Hb'. subst t. cbn [syntax] in Hst. inversion Hst; subst;
        repeat match goal with Q : plain E _ _ |- _ => destruct Q as [_ Q]; cbn in Q; try discriminate Q end;
        try (match goal with Q : has_unmarshal E _ = Some _ |- _ => discriminate Q end). apply mi_bytes. reflexivity.
    - intros s t v p Hm Hb _ IH. exact (IH Hb).
    - intros s t v p Sr Hb d w HI Hh Hst. eapply scalar_exact; eassumption.
    - (* struct *) intros s t id fs l ps K _ IH Hb d w HI Hh Hst. pose proof (ok_simple t _ HI K) as S. pose proof (simple_plain E t _ S) as P.
      rewrite (zero_struct E t id fs Hgo K) in Hst. cbn [syntax] in Hst. inversion Hst; subst; pk; try discriminate.
      match goal with Q : body_of _ _ _ |- _ => inversion Q; subst end. match goal with Q : struct_entries _ _ _ _ _ _ _ _ |- _ => rename Q into Hse end. inversion Hh as [| | | | | | | | | | | | | | |? ws Hws|]; subst.
      destruct (IH t _ [] (d + 1) [] l' K HI eq_refl Hse) as (ws & Hw & HF). cbn [app] in Hw. subst ws. eapply mi_struct; [exact S|]. apply HF. exact Hws.
    - (* array *) intros s t n t' l ps K Hn _ IH Hb d w HI Hh Hst. pose proof (ok_simple t _ HI K) as S. pose proof (simple_plain E t _ S) as P.
      destruct (IH eq_refl) as (Hcnt & Hlen & IHl). inversion Hh as [| | | | | | | |? ws Hws| | | | | | | |]; subst. cbn [syntax] in Hst. fold syn in Hst.
      assert (Forall2 (fun e w => store X E (d + 1) t' (syntax (snd e)) (zero E t') w) ps ws) as F.
      { inversion Hst; subst; pk; try discriminate.
        - destruct ps; [|discriminate]. destruct l; [|discriminate]. constructor.
        - match goal with Q : array_entries _ _ _ _ _ |- _ => rewrite Hlen in Q; destruct (array_unbuild _ _ _ ps [] _ Hcnt Q) as (ws0 & Q1 & Q2) end.
          cbn [app] in Q1. subst. exact Q2. }
      eapply mi_array; [exact S|symmetry; exact Hlen|]. eapply IHl; [eapply in_step; [exact HI|eapply co_array; exact P]|exact Hws|exact F].
    - (* nil slice *) intros s t t' K Hb d w HI Hh Hst. inversion Hh; subst. eapply mi_slice_null; [apply ok_simple; eassumption|exact Hb].
    - (* slice *) intros s s' t t' o i n l ps K Hc _ _ IH Hb d w HI Hh Hst. pose proof (ok_simple t _ HI K) as S. pose proof (simple_plain E t _ S) as P.
      destruct (IH eq_refl) as (Hcnt & Hlen & IHl). inversion Hh as [| | | | | | |? ? ? l' ws Hc' Hws| | | | | | | | |]; subst. replace l' with l in * by congruence.
      cbn [syntax] in Hst. fold syn in Hst. inversion Hst; subst; pk; try discriminate.
      match goal with Q : slice_entries _ _ _ _ _ _ |- _ => destruct (slice_unbuild _ _ _ ps [] _ Hcnt Q) as (ws0 & Q1 & Q2) end.
      cbn [app] in Q1. subst. eapply mi_slice; [exact S|exact Hb|intros ->; match goal with Q : map _ [] <> [] |- _ => apply Q; reflexivity end|]. eapply IHl; [eapply in_step; [exact HI|eapply co_slice; exact P]|exact Hws|exact Q2].
    - (* nil map *) intros s t k t' K Hb d w HI Hh Hst. inversion Hh; subst. eapply mi_map_null. apply ok_simple; eassumption.
    - (* map *) intros s s' t k t' o m l ps K Hm Hperm _ Hpa IH Hb d w HI Hh Hst. pose proof (ok_simple t _ HI K) as S. pose proof (simple_plain E t _ S) as P.
      inversion Hh as [| | | | | | | | | |? m' ws Hm' Hdist Hws| | | | | |]; subst. replace m' with m in * by congruence.
      assert (ok k) as HIk by (eapply in_step; [exact HI|eapply co_key; exact P]). assert (ok t') as HIt by (eapply in_step; [exact HI|eapply co_val; exact P]).
      rewrite (zero_map E t k t' K) in Hst. cbn [syntax] in Hst. fold syn in Hst.
      assert (map_entries (store_key X E (d + 1) k) (fun q w => store X E (d + 1) t' q (zero E t') w) [] (map syn ps) ws) as Hme.
      { inversion Hst; subst; pk; try discriminate. match goal with Q : body_of _ _ _ |- _ => inversion Q; subst end. assumption. }
      destruct (Permutation_Forall2 (P := fun e x => holds H (fst e) (fst x) /\ holds H (snd e) (snd x)) Hperm Hws) as (lw & Hpw & Hlw).
      pose proof (pairs_forall2 X E H anything _ _ _ _ _ _ Hpa) as Hpf.
      assert (Forall2 (fun e x => simple_key (fst x) = true /\ forall kw, store_key X E (d + 1) k (syntax (fst e)) kw -> kw = fst x) ps lw) as HK.
      { clear - Hpf Hlw Hfree HIk. revert lw Hlw. induction Hpf as [|[kv v] [kp p] l ps [Hkr _] F IHF]; intros lw Hlw; inversion Hlw as [|? [kw w] ? lw' [Hh1 _] Hlw']; subst; constructor; [|apply IHF; assumption].
        cbn [fst snd] in *. destruct (key_exact (d + 1) k kv kp kw (proj1 (Hfree k HIk)) Hkr Hh1) as (Q1 & Q2 & _). split; assumption. }
      assert (Forall (fun e : gval * gval => simple_key (fst e) = true) lw) as Hsk by (clear - HK; induction HK as [|e x ps lw [Q _] HK IHK]; constructor; assumption).
      assert (NoDup (map fst ws)) as Hnd by (apply distinct_nodup; [apply (Permutation_Forall (Permutation_sym Hpw)); exact Hsk|exact Hdist]).
      destruct (map_unbuild _ _ ps lw HK [] _ (Forall_nil _) (Permutation_NoDup (Permutation_map fst Hpw) Hnd) Hme) as (ws0 & Q1 & Q2 & Q3). cbn [app] in Q1. subst ws0.
      pose proof (same_keys ws lw Hnd Hpw Q2) as Q4. subst lw. eapply mi_map; [exact S|exact Hdist|].
      eapply (IH eq_refl (d + 1)); [apply ok_simple; [exact HIk|reflexivity]|exact HIt|exact Hlw|exact Q3].
    - (* iface *) intros s t v p Hi Hin _ Hb d w HI Hh Hst. eapply any_exact; eassumption.
    - (* ptr iface *) intros s t t' v p K Hi Hin _ Hb d w HI Hh Hst. pose proof (ok_simple t _ HI K) as S. inversion Hin; subst; kinds E; try discriminate;
        try (exfalso; match goal with Q : scalar_repr _ _ _ _ |- _ => inversion Q end; fail).
      + inversion Hh; subst. eapply mi_ptr_null. exact S.
      + match goal with Q : KPtr _ = KPtr _ |- _ => injection Q as <- end. eapply ptr_exact; [exact HI|exact K|reflexivity|eassumption|exact Hh| |exact Hst].
        intros w' Hw' Hst'. eapply any_exact; [apply (Hel t); assumption|exact Hi|eassumption|exact Hw'|exact Hst'].
    - (* nil ptr *) intros s t t' K Hi Hb d w HI Hh Hst. inversion Hh; subst. eapply mi_ptr_null. apply ok_simple; eassumption.
    - intros s s' t t' o i c p K Hsk Hc _ _ IH Hb d w HI Hh Hst. eapply ptr_exact; [exact HI|exact K|reflexivity|exact Hc|exact Hh| |exact Hst].
      intros w' Hw' Hst'. eapply IH; [|apply (Hel t); assumption|exact Hw'|exact Hst']. destruct (kind_of E t') eqn:Kt; try discriminate; (eapply not_bytes; [exact Kt|discriminate]).
    - intros s t t' o i c p K Hsk Hbs Hc _ IH Hb d w HI Hh Hst. eapply ptr_exact; [exact HI|exact K|reflexivity|exact Hc|exact Hh| |exact Hst].
      intros w' Hw' Hst'. eapply IH; [|apply (Hel t); assumption|exact Hw'|exact Hst']. destruct (kind_of E t') eqn:Kt; try discriminate; (eapply not_bytes; [exact Kt|discriminate]).
    - intros s t t' o i c p K Hbs Hi Hc _ IH Hb d w HI Hh Hst. eapply ptr_exact; [exact HI|exact K|reflexivity|exact Hc|exact Hh| |exact Hst].
      intros w' Hw' Hst'. eapply IH; [apply (Hel t); assumption|exact Hw'|exact Hst'].
    - (* elems *) intros s b t i _. split; [exact I|]. split; [reflexivity|]. intros d ws HI F1 F2. inversion F1; subst. constructor.
    - intros s t i v l p ps _ IHv _ IHl _. destruct (IHl eq_refl) as (Hcnt & Hlen & IHl'). split; [split; [reflexivity|exact Hcnt]|]. split; [cbn [length]; congruence|].
      intros d ws HI F1 F2. inversion F1 as [|? w ? ws0 Hw Hws]; subst. inversion F2; subst. constructor; [eapply IHv; eassumption|eapply IHl'; eassumption].
    - intros; discriminate.
    - (* pairs *) intros s b k t _ d kt ws S HI F1 F2. inversion F1; subst. constructor.
    - intros s k t kv v l kp p ps Hkr _ IHv _ IHl _ d kt ws S HI F1 F2. inversion F1 as [|? [kw w] ? ws0 [Hkw Hw] Hws]; subst. inversion F2; subst. cbn [fst snd] in *.
      pose proof S as (Hu & Hm & K). rewrite <- K in Hkr. destruct (key_exact d kt kv kp kw Hu Hkr Hkw) as (_ & _ & Q).
      constructor; [apply Hkr|apply Q; exact Hm|eapply IHv; eassumption|eapply (IHl eq_refl); eassumption].
    - intros; discriminate.
    - (* fields *) intros s T id pre d done W K HI Hlen Hse. inversion Hse; subst. exists []. split; [reflexivity|]. intros F. constructor.
    - intros s f fs v l ps Hwf _ IH T id pre d done W K HI Hlen Hse.
      replace (pre ++ f :: fs) with ((pre ++ [f]) ++ fs) in K, Hse by (rewrite <- app_assoc; reflexivity). cbn [map] in Hse.
      destruct (IH T id (pre ++ [f]) d (done ++ [zero E (f_ty f)]) W K HI) as (ws & -> & HF).
      { rewrite !app_length, Hlen. reflexivity. }
      { rewrite <- !app_assoc in *. exact Hse. }
      exists (zero E (f_ty f) :: ws). rewrite <- app_assoc. split; [reflexivity|]. intros F. inversion F; subst. apply mf_skip; [exact Hwf|]. apply HF. assumption.
    - intros s f fs v l ps Hwf Hom Hz _ IH T id pre d done W K HI Hlen Hse.
      replace (pre ++ f :: fs) with ((pre ++ [f]) ++ fs) in K, Hse by (rewrite <- app_assoc; reflexivity). cbn [map] in Hse.
      destruct (IH T id (pre ++ [f]) d (done ++ [zero E (f_ty f)]) W K HI) as (ws & -> & HF).
      { rewrite !app_length, Hlen. reflexivity. }
      { rewrite <- !app_assoc in *. exact Hse. }
      exists (zero E (f_ty f) :: ws). rewrite <- app_assoc. split; [reflexivity|]. intros F. inversion F; subst. apply mf_omit; [exact Hwf|exact Hom|]. apply HF. assumption.
    - intros s f fs v l p ps Hwf Hnz _ IHv _ IH T id pre d done W K HI Hlen Hse.
      pose proof (simple_plain E T _ (ok_simple T _ HI K)) as P. pose proof (written_not_ignored _ _ Hwf) as Hig.
      assert (In f (pre ++ f :: fs)) as Hin by (apply in_or_app; right; left; reflexivity).
      assert (ok (f_ty f)) as HIf by (eapply in_step; [exact HI|eapply co_field; eassumption]).
      assert (string_tagged X E f = true -> ~ ~ Typing.quotable E (f_ty f)) as Hqt by (intros Q1 Q2; apply (proj1 Hsup T HI); eapply us_string; eassumption).
      assert (lookup X (pre ++ f :: fs) (field_key X f) = Some (length pre, f)) as Hlook.
      { eapply lookup_unique; [exact P| |apply nth_mid|exact Hig]. eapply supported_inside; [exact Hsup|exact HI]. }
      rewrite <- Hlen in Hlook. cbn [map] in Hse. unfold syn in Hse at 1. cbn [fst snd syntax] in Hse.
      assert (exists w, FV X E (store X E d) f (syntax p) (zero E (f_ty f)) w /\
                struct_entries X E d (pre ++ f :: fs) (store X E d) (done ++ w :: map (fun f => zero E (f_ty f)) fs) (map syn ps) W) as (w & Hfv & Hse').
      { unfold FV. inversion Hse; subst; match goal with Q : key_text _ _ |- _ => inversion Q; subst end;
          match goal with Q : lookup X _ _ = _ |- _ => rewrite Hlook in Q; try discriminate Q; injection Q; intros; subst end;
          match goal with Q : nth_error _ _ = Some _ |- _ => rewrite nth_mid in Q; injection Q; intros; subst end;
          match goal with Q : struct_entries _ _ _ _ _ (update _ _ _) _ _ |- _ => rewrite update_mid in Q end;
          match goal with Q : string_tagged _ _ _ = _ |- _ => rewrite Q end; eauto. }
      replace (pre ++ f :: fs) with ((pre ++ [f]) ++ fs) in K, Hse' by (rewrite <- app_assoc; reflexivity).
      destruct (IH T id (pre ++ [f]) d (done ++ [w]) W K HI) as (ws & -> & HF).
      { rewrite !app_length, Hlen. reflexivity. }
      { rewrite <- !app_assoc in *. exact Hse'. }
      exists (w :: ws). rewrite <- app_assoc. split; [reflexivity|]. intros F. inversion F as [|? ? ? ? Hw Hws]; subst. apply mf_write; [exact Hwf| |eapply IHv; eassumption|apply HF; assumption].
      intros Q1 Q2. apply (Hnz Q1). eapply holds_blank; eassumption.
    - (* nil pointer field *) intros s f t' K d w HI Hqt Hh Hfv. inversion Hh; subst. pose proof (ok_simple _ _ HI K) as S.
      destruct (tag_string (tag_of X f)) eqn:Ht; [eapply mv_text_null; eassumption|apply mv_plain; [exact Ht|eapply mi_ptr_null; exact S]].
    - intros s s' f t' o i c p K Ht Hsk Hc _ _ IH d w HI Hqt Hh Hfv. unfold FV, string_tagged in Hfv. rewrite Ht in Hfv. cbn [andb] in Hfv. apply mv_plain; [exact Ht|].
      eapply ptr_exact; [exact HI|exact K|reflexivity|exact Hc|exact Hh| |exact Hfv]. intros w' Hw' Hst'. eapply IH; [apply (Hel (f_ty f)); assumption|exact Hw'|exact Hst'].
    - intros s f t' o i c p K Ht Hsk Hc _ IH d w HI Hqt Hh Hfv. unfold FV, string_tagged in Hfv. rewrite Ht in Hfv. cbn [andb] in Hfv. apply mv_plain; [exact Ht|].
      eapply ptr_exact; [exact HI|exact K|reflexivity|exact Hc|exact Hh| |exact Hfv]. intros w' Hw' Hst'. eapply IH; [apply (Hel (f_ty f)); assumption|exact Hw'|exact Hst'].
    - intros s f v p Hnp Ht _ IH d w HI Hqt Hh Hfv. unfold FV, string_tagged in Hfv. rewrite Ht in Hfv. cbn [andb] in Hfv. apply mv_plain; [exact Ht|]. eapply IH; eassumption.
    - intros s f t' o i c p K Ht Hc Hr d w HI Hqt Hh Hfv. pose proof (ok_simple _ _ HI K) as S. pose proof (Hel _ _ K HI) as HI'.
      unfold FV in Hfv. rewrite (string_tag X E f _ Ht S eq_refl), (zero_ptr E _ _ K) in Hfv. pose proof (simple_plain E _ _ S) as P.
      inversion Hh as [| | | | | | | | | | | |? ? c' w0 Hc' Hw| | | |]; subst. replace c' with c in * by congruence.
      inversion Hfv as [? ? P'|? n0 s0 ? w1 P' Hs Hq| |? ? ? ? Hip]; subst; pk; [|unfold is_ptr in Hip; rewrite K in Hip; discriminate].
      eapply mv_text_ptr; [exact Ht|exact S|]. destruct (Hfree _ HI') as [Hu' Hm']. eapply text_exact; [exact Hu'|exact Hm'|exact Hr| |exact Hw|exact Hq].
      destruct p; try discriminate. cbn [syntax] in *. congruence.
    - intros s f v p Hnp Ht Hr d w HI Hqt Hh Hfv. destruct (Hfree _ HI) as [Hu Hm].
      destruct (iface_kind (kind_of E (f_ty f))) eqn:Hi.
      + pose proof (ok_simple _ _ HI eq_refl) as S. unfold FV, string_tagged in Hfv. rewrite Ht, Hu in Hfv. cbn [andb] in Hfv.
        assert (store X E d (f_ty f) (syntax p) (VIface None) w) as Hst by (rewrite <- (zero_iface E _ _ eq_refl Hi); destruct (kind_of E (f_ty f)); try discriminate Hi; exact Hfv). clear Hfv.
        inversion Hr; subst; try (match goal with Q : kind_of E _ = _ |- _ => rewrite Q in Hi; discriminate Hi end).
        match goal with Q : quoted_any _ _ _ _ _ _ |- _ => inversion Q; subst; kinds E; try discriminate end;
          try (exfalso; match goal with Q : _ = f_ty f |- _ => rewrite <- Q in Hi; discriminate Hi end).
        * inversion Hh; subst. eapply mv_text_nil; eassumption.
        * exfalso. inversion Hh as [| | | | | | | | | | | | | |t1 v1 w1 Hw| |]; subst. pose proof (simple_plain E _ _ S) as P.
          destruct (kind_of E (f_ty f)) as [| | | | | | | | | | |lists| |] eqn:K; try discriminate Hi; inversion Hst; subst; pk; try discriminate.
          match goal with Q : any_val _ _ _ _, R : quoted_any _ _ _ t' _ _ |- _ => inversion Q; subst; inversion R; subst; try discriminate end; try (destruct p; discriminate).
      + assert (forall k, kind_of E (f_ty f) = k -> plain E (f_ty f) k) as Ps by (intros k Kk; split; assumption).
        assert (string_tagged X E f = true) as Htag.
        { unfold string_tagged. rewrite Ht, Hu. cbn [andb]. inversion Hr; subst; try (match goal with Q : kind_of E _ = _ |- _ => rewrite Q; reflexivity end). congruence. }
        unfold FV in Hfv. rewrite Htag in Hfv. assert (exists s0, p = PStr s0) as (s0 & ->) by (inversion Hr; subst; eauto; congruence). cbn [syntax] in Hfv.
        apply mv_text; [exact Ht|]. inversion Hfv as [|? n0 s1 ? w1 P'| |]; subst; [destruct P' as [_ P']; rewrite P' in Hnp; discriminate|].
        eapply text_exact; [exact Hu|exact Hm|exact Hr|reflexivity|exact Hh|assumption].
  Qed.
End Exact.
