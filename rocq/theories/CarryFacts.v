(** Whether a value may be entered does not depend on the order of map entries:
    if it may be read in one order, then in every. *)
From Coq Require Import Strings.String Strings.Byte ZArith List Bool Lia Floats.SpecFloat Permutation.
From Verif Require Import Base GoTypes Strconv Tags Grammar Denote Memory EncCompile Php Repr ReprFacts.
Import ListNotations.
Open Scope Z_scope.

Section Carry.
  Context (X : Ext) (E : env) (H : heap) {S1 S2 : Type}.
  Context (en1 : S1 -> bool -> addr -> S1 -> Prop) (en2 : S2 -> bool -> addr -> S2 -> Prop).
  Definition carries (P : S2 -> php -> Prop) (p : php) : Prop := forall s q, P s q -> P s p.
  Notation sub2 := (sub X E H en2).

  Lemma pairs_carry b k t l l' ps ps' s :
    Forall2 (fun e x => key_repr X k (fst e) (fst x) /\ carries (fun s => sub2 b s t (snd e)) (snd x)) l ps ->
    Permutation l l' -> pairs X E H en2 s b k t l' ps' -> pairs X E H en2 s b k t l ps.
  Proof.
    intros H1 Hp H2. apply pairs_forall2 in H2.
    assert (forall e, In e l -> exists q, sub2 b s t (snd e) q) as Q.
    { intros e He. apply (Permutation_in e Hp) in He. clear H1 Hp. induction H2 as [|e' x l' ps' [_ Hs] _ IH]; [destruct He|].
      destruct He as [->|He]; [exists (snd x); exact Hs|exact (IH He)]. }
    clear Hp H2. induction H1 as [|[kv v] [kp p] l ps [Hk Hc] _ IH]; [apply pa_nil|]. cbn [fst snd] in *.
    destruct (Q (kv, v) (or_introl eq_refl)) as (q & Hq). cbn [snd] in Hq. apply Hc in Hq.
    assert (pairs X E H en2 s b k t l ps) as R by (apply IH; intros e He; apply Q; right; exact He).
    destruct b; [apply pa_cons_in|apply pa_cons]; assumption.
  Qed.

  Ltac scal := exfalso; match goal with Q : scalar_repr _ ?k _ _ |- _ =>
    apply scalar_shape in Q; try discriminate Q; apply plain_not_iface in Q; congruence end.
  Theorem repr_carry :
    (forall s t v p, repr X E H en1 s t v p -> carries (fun s => repr X E H en2 s t v) p) /\
    (forall s t v p, shape X E H en1 s t v p -> carries (fun s => shape X E H en2 s t v) p) /\
    (forall s t v p, inner X E H en1 s t v p -> carries (fun s => inner X E H en2 s t v) p) /\
    (forall s b t i l ps, elems X E H en1 s b t i l ps -> forall s2 ps', elems X E H en2 s2 b t i l ps' -> elems X E H en2 s2 b t i l ps) /\
    (forall s b k t l ps, pairs X E H en1 s b k t l ps ->
       Forall2 (fun e x => key_repr X k (fst e) (fst x) /\ carries (fun s => sub2 b s t (snd e)) (snd x)) l ps) /\
    (forall s fs l ps, fields X E H en1 s fs l ps -> forall s2 ps', fields X E H en2 s2 fs l ps' -> fields X E H en2 s2 fs l ps) /\
    (forall s g v p, field_val X E H en1 s g v p -> carries (fun s => field_val X E H en2 s g v) p).
  Proof.
    apply repr_ind7; unfold carries.
    - (* repr *) intros s t v b Hi Hs s2 q Hq. apply rp_marshaler; assumption.
    - intros s t v b Hi Hb Hv s2 q Hq. apply rp_bytes; assumption.
    - intros s t v p Hi Hb Hs IH s2 q Hq. inversion Hq; subst; try congruence. apply rp_shape; try assumption. eapply IH; eassumption.
    - (* shape *)
      intros s t v p Hs s2 q Hq. apply sh_scalar. exact Hs.
    - intros s t id fs l ps Hk Hf IH s2 q Hq. inversion Hq; subst; kinds E; try discriminate.
      + scal.
      + replace fs0 with fs in * by congruence. eapply sh_struct; [eassumption|]. eapply IH; eassumption.
    - intros s t n t' l ps Hk Hl He IH s2 q Hq. inversion Hq; subst; kinds E; try discriminate.
      + scal.
      + replace t'0 with t' in * by congruence. eapply sh_array; [eassumption|reflexivity|]. eapply IH; eassumption.
    - intros s t t' Hk s2 q Hq. eapply sh_slice_nil; eassumption.
    - intros s s' t t' o i n l ps Hk Hc En He IH s2 q Hq. inversion Hq; subst; kinds E; try discriminate.
      + scal.
      + replace t'0 with t' in * by congruence. replace l0 with l in * by congruence. eapply sh_slice; [eassumption|eassumption|eassumption|]. eapply IH; eassumption.
    - intros s t k t' Hk s2 q Hq. eapply sh_map_nil; eassumption.
    - intros s s' t k t' o m l ps Hk Hm Hp En Hpa IH s2 q Hq. inversion Hq; subst; kinds E; try discriminate.
      + scal.
      + replace t'0 with t' in * by congruence. replace k0 with k in * by congruence. replace m0 with m in * by congruence.
        eapply sh_map; [eassumption|eassumption|exact Hp|eassumption|]. eapply pairs_carry; [exact IH| |eassumption]. rewrite <- Hp. assumption.
    - intros s t v p Hk Hi IH s2 q Hq. apply sh_iface; [exact Hk|]. inversion Hq; subst; kinds E; try discriminate; try (eapply IH; eassumption).
      scal.
    - intros s t t' v p Hk Hk' Hi IH s2 q Hq. eapply sh_ptr_iface; [eassumption|exact Hk'|]. inversion Hq; subst; kinds E; try discriminate; try (eapply IH; eassumption).
      + scal.
      + replace t'0 with t' in * by congruence. congruence.
      + replace t'0 with t' in * by congruence. destruct (kind_of E t'); discriminate.
      + replace t'0 with t' in * by congruence. destruct (kind_of E t'); discriminate.
      + replace t'0 with t' in * by congruence. congruence.
    - intros s t t' Hk Hk' s2 q Hq. eapply sh_ptr_nil; eassumption.
    - intros s s' t t' o i c p Hk Hsk Hc En Hs IH s2 q Hq.
      assert (iface_kind (kind_of E t') = false) as Hif by (destruct (kind_of E t'); try discriminate; reflexivity).
      assert (by_structure (kind_of E t') = true) as Hbs by (destruct (kind_of E t'); try discriminate; reflexivity).
      inversion Hq; subst; kinds E; try discriminate; try scal;
        replace t'0 with t' in * by congruence; try congruence.
      replace c0 with c in * by congruence. eapply sh_ptr_struct; [eassumption|eassumption|eassumption|eassumption|]. eapply IH; eassumption.
    - intros s t t' o i c p Hk Hsk Hbs Hc Hs IH s2 q Hq.
      assert (iface_kind (kind_of E t') = false) as Hif by (destruct (kind_of E t'); try discriminate; reflexivity).
      inversion Hq; subst; kinds E; try discriminate; try scal;
        replace t'0 with t' in * by congruence; try congruence.
      replace c0 with c in * by congruence. eapply sh_ptr_direct; [eassumption|eassumption|eassumption|eassumption|]. eapply IH; eassumption.
    - intros s t t' o i c p Hk Hbs Hif Hc Hs IH s2 q Hq.
      assert (struct_kind (kind_of E t') = false) as Hsk by (destruct (kind_of E t'); try discriminate; reflexivity).
      inversion Hq; subst; kinds E; try discriminate; try scal;
        replace t'0 with t' in * by congruence; try congruence.
      replace c0 with c in * by congruence. eapply sh_ptr; [eassumption|eassumption|eassumption|eassumption|]. eapply IH; eassumption.
    - (* inner *)
      intros s t t' Hk s2 q Hq. eapply in_ptr_nil; eassumption.
    - intros s t t' o i c p Hk Hc Hs IH s2 q Hq. inversion Hq; subst; kinds E; try discriminate; try scal.
      replace t'0 with t' in * by congruence. replace c0 with c in * by congruence. eapply in_ptr; [eassumption|eassumption|]. eapply IH; eassumption.
    - intros s t Hk s2 q Hq. apply in_nil. exact Hk.
    - intros s t t' v p Hk Hs IH s2 q Hq. inversion Hq; subst; kinds E; try discriminate; try scal.
      apply in_iface; [exact Hk|]. eapply IH; eassumption.
    - intros s t v p Hs s2 q Hq. apply in_scalar. exact Hs.
    - intros s t t' Hk Hi s2 q Hq. eapply in_slice_nil; eassumption.
    - intros s s' t t' o i n l ps Hk Hi Hc En He IH s2 q Hq. inversion Hq; subst; kinds E; try discriminate; try scal.
      + replace t'0 with t' in * by congruence. replace l0 with l in * by congruence. eapply in_slice; [eassumption|eassumption|eassumption|eassumption|]. eapply IH; eassumption.
      + replace t'0 with t' in * by congruence. congruence.
    - intros s t t' p Hk Hi He Hr IH s2 q Hq. inversion Hq; subst; kinds E; try discriminate; try scal.
      + replace t'0 with t' in * by congruence. congruence.
      + eapply in_slice_typed_nil; [eassumption|exact Hi|exact He|]. eapply IH; eassumption.
    - intros s s' t t' o i n p Hk Hi He En Hr IH s2 q Hq. inversion Hq; subst; kinds E; try discriminate; try scal.
      + replace t'0 with t' in * by congruence. congruence.
      + eapply in_slice_typed; [eassumption|exact Hi|exact He|eassumption|]. eapply IH; eassumption.
    - intros s t k t' Hk Hkk s2 q Hq. eapply in_map_nil; eassumption.
    - intros s s' t k t' o Hk Hkk Hm En s2 q Hq. inversion Hq; subst; kinds E; try discriminate; try scal.
      + assumption.
      + exfalso. congruence.
    - intros s s' t k t' o m l ps Hk Hkk Hm Hne Henc Hp En Hpa IH s2 q Hq. inversion Hq; subst; kinds E; try discriminate; try scal.
      + exfalso. congruence.
      + replace t'0 with t' in * by congruence. replace k0 with k in * by congruence. replace m0 with m in * by congruence.
        eapply in_map; [eassumption|eassumption|eassumption|eassumption|exact Henc|exact Hp|eassumption|]. eapply pairs_carry; [exact IH| |eassumption]. rewrite <- Hp. assumption.
    - intros s t id fs v p Hk He Hr IH s2 q Hq. inversion Hq; subst; kinds E; try discriminate; try scal.
      eapply in_struct; [eassumption|exact He|]. eapply IH; eassumption.
    - (* elems *)
      intros s b t i s2 ps' Hq. apply el_nil.
    - intros s t i v l p ps _ IHv _ IHl s2 ps' Hq. inversion Hq; subst. apply el_cons; [eapply IHv; eassumption|eapply IHl; eassumption].
    - intros s t i v l p ps _ IHv _ IHl s2 ps' Hq. inversion Hq; subst. apply el_cons_in; [eapply IHv; eassumption|eapply IHl; eassumption].
    - (* pairs *)
      intros s b k t. constructor.
    - intros s k t kv v l kp p ps Hs _ IHv _ IHl. constructor; [split; [exact Hs|exact IHv]|exact IHl].
    - intros s k t kv v l kp p ps Hs _ IHv _ IHl. constructor; [split; [exact Hs|exact IHv]|exact IHl].
    - (* fields *)
      intros s s2 ps' Hq. apply fl_nil.
    - intros s f fs v l ps Hw _ IH s2 ps' Hq. apply fl_skip; [exact Hw|]. inversion Hq; subst; try congruence. eapply IH; eassumption.
    - intros s f fs v l ps Hw Ho Hz _ IH s2 ps' Hq. apply fl_omit; try assumption. inversion Hq; subst; try congruence.
      + eapply IH; eassumption.
      + exfalso. match goal with Q : _ -> ~ zero_value v |- _ => exact (Q Ho Hz) end.
    - intros s f fs v l p ps Hw Ho _ IHv _ IHl s2 ps' Hq. inversion Hq; subst; try congruence.
      + exfalso. match goal with Q : zero_value v, Q' : tag_omitempty _ = true |- _ => exact (Ho Q' Q) end.
      + apply fl_write; try assumption; [eapply IHv; eassumption|eapply IHl; eassumption].
    - (* field values *)
      intros s f t' Hk s2 q Hq. eapply fv_nil; eassumption.
    - intros s s' f t' o i c p Hk Hst Hsk Hc En Hr IH s2 q Hq. inversion Hq; subst; kinds E; try discriminate; try congruence;
        replace t'0 with t' in * by congruence; try congruence.
      replace c0 with c in * by congruence. eapply fv_ptr_struct; [eassumption|eassumption|eassumption|eassumption|eassumption|]. eapply IH; eassumption.
    - intros s f t' o i c p Hk Hst Hsk Hc Hr IH s2 q Hq. inversion Hq; subst; kinds E; try discriminate; try congruence;
        replace t'0 with t' in * by congruence; try congruence.
      replace c0 with c in * by congruence. eapply fv_ptr; [eassumption|eassumption|eassumption|eassumption|]. eapply IH; eassumption.
    - intros s f v p Hk Hst Hr IH s2 q Hq. inversion Hq; subst; kinds E; try discriminate; try congruence. apply fv_plain; try assumption. eapply IH; eassumption.
    - intros s f t' o i c p Hk Hst Hc Hr s2 q Hq. eapply fv_ptr_quoted; eassumption.
    - intros s f v p Hk Hst Hr s2 q Hq. apply fv_quoted; assumption.
  Qed.
End Carry.
