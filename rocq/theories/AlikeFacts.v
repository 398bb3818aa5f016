(** Values that are alike represent the same. *)
From Coq Require Import Strings.String Strings.Byte ZArith List Bool Lia Arith Floats.SpecFloat Permutation.
From Verif Require Import Base GoTypes Tags Denote Memory EncCompile Php Repr EncApi ReprFacts MarshalFacts RoundTrip Alike.
Import ListNotations.
Open Scope Z_scope.

Section Alike.
  Context (X : Ext) (E : env) (H H' : heap).
  Hypothesis HM : methods_alike X H H'.
  Notation ak := (alike H H').

  Lemma zero_alike : forall v, zero_value v -> forall v', ak v v' -> zero_value v'.
  Proof.
    fix IH 2. intros v Z. destruct Z as [| | |s|s| | | | | |l F|l F|]; intros v' A; inversion A; subst; try constructor.
    - match goal with Q : Forall2 _ _ _ |- _ => rename Q into G end. clear A. revert l' G. induction F as [|x l Zx F IHF]; intros l' G; inversion G; subst; constructor; [eapply IH; eassumption|apply IHF; assumption].
    - match goal with Q : Forall2 _ _ _ |- _ => rename Q into G end. clear A. revert l' G. induction F as [|x l Zx F IHF]; intros l' G; inversion G; subst; constructor; [eapply IH; eassumption|apply IHF; assumption].
  Qed.
  Lemma zero_alike_back : forall v', zero_value v' -> forall v, ak v v' -> zero_value v.
  Proof.
    fix IH 2. intros v Z. destruct Z as [| | |s|s| | | | | |l F|l F|]; intros v' A; inversion A; subst; try constructor.
    - match goal with Q : Forall2 _ _ _ |- _ => rename Q into G end. clear A. revert l0 G. induction F as [|x l Zx F IHF]; intros l' G; inversion G; subst; constructor; [eapply IH; eassumption|apply IHF; assumption].
    - match goal with Q : Forall2 _ _ _ |- _ => rename Q into G end. clear A. revert l0 G. induction F as [|x l Zx F IHF]; intros l' G; inversion G; subst; constructor; [eapply IH; eassumption|apply IHF; assumption].
  Qed.
  Lemma bytes_alike l l' : Forall2 ak l l' -> bytes_of_cells l' = bytes_of_cells l.
  Proof.
    induction 1 as [|x y l l' A F IH]; [reflexivity|]. destruct A; try reflexivity. cbn [bytes_of_cells]. rewrite IH. reflexivity.
  Qed.
  Lemma byte_slice_alike v v' b : ak v v' -> byte_slice H v = Some b -> byte_slice H' v' = Some b.
  Proof.
    intros A Q. destruct A as [| | | | | | |o i o' i' n l l' C C' F| | | | | | | | |]; try discriminate; [exact Q|].
    cbn [byte_slice] in *. rewrite C in Q. rewrite C', (bytes_alike _ _ F). exact Q.
  Qed.
  Lemma says_alike t v b : says X E H t v b -> forall v', ak v v' -> says X E H' t v' b.
  Proof.
    induction 1 as [n v b Hx Hi|n d p b Hd Hr Hx|n d o i x b Hd Hr Hc Hx|t t' v b Hi Hi' Hs IH]; intros v' A.
    - apply sy_value; [rewrite (HM n false v v' A)|]; assumption.
    - assert (exists p', v' = HPtr p') as [p' ->] by (inversion A; subst; eauto).
      apply (sy_pointer X E H' n d p' b Hd Hr). rewrite (HM n true _ _ A). exact Hx.
    - inversion A; subst. match goal with Q : cell H o i = Some ?c, Q' : cell H' _ _ = Some ?c', Q'' : ak ?c ?c' |- _ =>
        rewrite Hc in Q; injection Q as ->; apply (sy_pointee X E H' n d _ _ _ b Hd Hr Q'); rewrite (HM n false _ _ Q''); exact Hx end.
    - inversion A; subst. apply (sy_iface X E H' t t' _ b Hi Hi'). apply IH. assumption.
  Qed.
  Lemma scalar_alike k v p v' : scalar_repr X k v p -> ak v v' -> scalar_repr X k v' p.
  Proof. intros Q A. destruct Q; inversion A; subst; constructor; assumption. Qed.
  Lemma key_alike k v p v' : key_repr X k v p -> ak v v' -> key_repr X k v' p.
  Proof. intros [K Q] A. split; [exact K|]. exact (scalar_alike _ v p v' Q A). Qed.
  Lemma quoted_any_alike t v p : quoted_any X E H t v p -> forall v', ak v v' -> quoted_any X E H' t v' p.
  Proof.
    induction 1 as [t t' K|t t' o i c p K C Q IH|t K|t t' v p K Q IH|b|k z R|k z N R|f|f]; intros v' A; inversion A; subst.
    - exact (qa_ptr_nil X E H' t t' K).
    - match goal with Q1 : cell H o i = Some ?x, Q2 : cell H' _ _ = Some ?y |- _ => rewrite C in Q1; injection Q1 as <-; eapply (qa_ptr X E H' t t' _ _ y p K Q2), IH; assumption end.
    - exact (qa_nil X E H' t K).
    - apply (qa_iface X E H' t t' _ p K), IH. assumption.
    - apply qa_bool.
    - apply qa_int; assumption.
    - apply qa_uint; assumption.
    - apply qa_f32.
    - apply qa_f64.
  Qed.
  Lemma quoted_alike t v p v' : quoted_repr X E H t v p -> ak v v' -> quoted_repr X E H' t v' p.
  Proof.
    intros Q A. destruct Q as [b K|k z K R|k z K R|f K|f K|s K|v p K Q]; try (inversion A; subst; econstructor; eassumption).
    apply qr_iface; [exact K|]. exact (quoted_any_alike t v p Q v' A).
  Qed.

  Lemma ak_length l l' : Forall2 ak l l' -> length l' = length l.
  Proof. induction 1 as [|x y l l' A F IH]; [reflexivity|]. cbn [length]. rewrite IH. reflexivity. Qed.
  Definition ak_entry (e e' : hval * hval) : Prop := ak (fst e) (fst e') /\ ak (snd e) (snd e').

  Context {S : Type} (en : S -> bool -> addr -> S -> Prop).
  Notation any' := (@anything).
  Ltac same C := match goal with Q : _ = Some _ |- _ => rewrite C in Q; injection Q as <- end.

  Theorem repr_alike :
    (forall s t v p, repr X E H en s t v p -> forall v', ak v v' -> repr X E H' anything tt t v' p) /\
    (forall s t v p, shape X E H en s t v p -> forall v', ak v v' -> shape X E H' anything tt t v' p) /\
    (forall s t v p, inner X E H en s t v p -> forall v', ak v v' -> inner X E H' anything tt t v' p) /\
    (forall s b t i l ps, elems X E H en s b t i l ps -> forall l', Forall2 ak l l' -> elems X E H' anything tt b t i l' ps) /\
    (forall s b k t l ps, pairs X E H en s b k t l ps -> forall l', Forall2 ak_entry l l' -> pairs X E H' anything tt b k t l' ps) /\
    (forall s fs l ps, fields X E H en s fs l ps -> forall l', Forall2 ak l l' -> fields X E H' anything tt fs l' ps) /\
    (forall s g v p, field_val X E H en s g v p -> forall v', ak v v' -> field_val X E H' anything tt g v' p).
  Proof.
    apply repr_ind7.
    - intros s t v b Hm Hs v' A. apply rp_marshaler; [exact Hm|]. exact (says_alike t v b Hs v' A).
    - intros s t v b Hm Hb Q v' A. apply rp_bytes; [exact Hm|exact Hb|]. exact (byte_slice_alike v v' b A Q).
    - intros s t v p Hm Hb _ IH v' A. apply rp_shape; [exact Hm|exact Hb|]. exact (IH v' A).
    - (* shape *)
      intros s t v p Q v' A. apply sh_scalar. exact (scalar_alike _ v p v' Q A).
    - intros s t id fs l ps K _ IH v' A. inversion A; subst. eapply sh_struct; [exact K|]. apply IH. assumption.
    - intros s t n t' l ps K L _ IH v' A. inversion A as [| | | | | | | |l1 l' F| | | | | | | |]; subst.
      eapply sh_array; [exact K|exact (ak_length _ _ F)|]. apply IH. exact F.
    - intros s t t' K v' A. inversion A; subst. eapply sh_slice_nil; exact K.
    - intros s s' t t' o i n l ps K C _ _ IH v' A. inversion A as [| | | | | | |o1 i1 o' i' n1 l1 l' C1 C' F| | | | | | | | |]; subst.
      rewrite C in C1. injection C1 as <-. eapply (sh_slice X E H' anything tt tt); [exact K|exact C'|exact I|]. apply IH. exact F.
    - intros s t k t' K v' A. inversion A; subst. eapply sh_map_nil; exact K.
    - intros s s' t k t' o m l ps K En P _ _ IH v' A. inversion A as [| | | | | | | | | |o1 o' m1 m2 m' En1 En' P' F| | | | | |]; subst.
      rewrite En in En1. injection En1 as <-.
      destruct (Permutation_Forall2 P F) as (l2 & P2 & F2).
      eapply (sh_map X E H' anything tt tt); [exact K|exact En'| |exact I|apply IH; exact F2].
      rewrite <- P'. exact P2.
    - intros s t v p K _ IH v' A. apply sh_iface; [exact K|]. exact (IH v' A).
    - intros s t t' v p K K' _ IH v' A. eapply sh_ptr_iface; [exact K|exact K'|]. exact (IH v' A).
    - intros s t t' K K' v' A. inversion A; subst. eapply sh_ptr_nil; [exact K|exact K'].
    - intros s s' t t' o i c p K K' C _ _ IH v' A. inversion A as [| | | | | | | | | | | |o1 i1 o' i' c1 c' C1 C' Ac| | | |]; subst.
      rewrite C in C1. injection C1 as <-. eapply (sh_ptr_struct X E H' anything tt tt); [exact K|exact K'|exact C'|exact I|]. exact (IH c' Ac).
    - intros s t t' o i c p K K' B C _ IH v' A. inversion A as [| | | | | | | | | | | |o1 i1 o' i' c1 c' C1 C' Ac| | | |]; subst.
      rewrite C in C1. injection C1 as <-. eapply sh_ptr_direct; [exact K|exact K'|exact B|exact C'|]. exact (IH c' Ac).
    - intros s t t' o i c p K B K' C _ IH v' A. inversion A as [| | | | | | | | | | | |o1 i1 o' i' c1 c' C1 C' Ac| | | |]; subst.
      rewrite C in C1. injection C1 as <-. eapply sh_ptr; [exact K|exact B|exact K'|exact C'|]. exact (IH c' Ac).
    - (* inner *)
      intros s t t' K v' A. inversion A; subst. eapply in_ptr_nil; exact K.
    - intros s t t' o i c p K C _ IH v' A. inversion A as [| | | | | | | | | | | |o1 i1 o' i' c1 c' C1 C' Ac| | | |]; subst.
      rewrite C in C1. injection C1 as <-. eapply in_ptr; [exact K|exact C'|]. exact (IH c' Ac).
    - intros s t K v' A. inversion A; subst. apply in_nil; exact K.
    - intros s t t' v p K _ IH v' A. inversion A; subst. apply in_iface; [exact K|]. apply IH. assumption.
    - intros s t v p Q v' A. apply in_scalar. exact (scalar_alike _ v p v' Q A).
    - intros s t t' K K' v' A. inversion A; subst. eapply in_slice_nil; [exact K|exact K'].
    - intros s s' t t' o i n l ps K K' C _ _ IH v' A. inversion A as [| | | | | | |o1 i1 o' i' n1 l1 l' C1 C' F| | | | | | | | |]; subst.
      rewrite C in C1. injection C1 as <-. eapply (in_slice X E H' anything tt tt); [exact K|exact K'|exact C'|exact I|]. apply IH. exact F.
    - intros s t t' p K K' He _ IH v' A. inversion A; subst. eapply in_slice_typed_nil; [exact K|exact K'|exact He|]. apply IH. exact A.
    - intros s s' t t' o i n p K K' He _ _ IH v' A. pose proof (IH v' A) as Q. inversion A as [| | | | | | |o1 i1 o' i' n1 l1 l' C1 C' F| | | | | | | | |]; subst.
      eapply (in_slice_typed X E H' anything tt tt); [exact K|exact K'|exact He|exact I|exact Q].
    - intros s t k t' K Kk v' A. inversion A; subst. eapply in_map_nil; [exact K|exact Kk].
    - intros s s' t k t' o K Kk En _ v' A. inversion A as [| | | | | | | | | |o1 o' m1 m2 m' En1 En' P' F| | | | | |]; subst.
      rewrite En in En1. injection En1 as <-. inversion F; subst. apply Permutation_nil in P'. subst m'.
      eapply (in_map_empty X E H' anything tt tt); [exact K|exact Kk|exact En'|exact I].
    - intros s s' t k t' o m l ps K Kk En Hne He P _ _ IH v' A. inversion A as [| | | | | | | | | |o1 o' m1 m2 m' En1 En' P' F| | | | | |]; subst.
      rewrite En in En1. injection En1 as <-.
      destruct (Permutation_Forall2 P F) as (l2 & P2 & F2).
      eapply (in_map X E H' anything tt tt); [exact K|exact Kk|exact En'| |exact He| |exact I|apply IH; exact F2].
      + intros ->. apply Permutation_sym, Permutation_nil in P'. subst m2. inversion F; subst. exact (Hne eq_refl).
      + rewrite <- P'. exact P2.
    - intros s t id fs v p K He _ IH v' A. eapply in_struct; [exact K|exact He|]. exact (IH v' A).
    - (* elems *)
      intros s b t i l' F. inversion F; subst. apply el_nil.
    - intros s t i v l p ps _ IHv _ IHl l' F. inversion F; subst. apply el_cons; [apply IHv; assumption|apply IHl; assumption].
    - intros s t i v l p ps _ IHv _ IHl l' F. inversion F; subst. apply el_cons_in; [apply IHv; assumption|apply IHl; assumption].
    - (* pairs *)
      intros s b k t l' F. inversion F; subst. apply pa_nil.
    - intros s k t kv v l kp p ps Q _ IHv _ IHl l' F. inversion F as [|e e' l0 l1 [Ek Ev] F']; subst. destruct e' as [k' w]. cbn [fst snd] in *.
      apply pa_cons; [exact (key_alike _ _ _ _ Q Ek)|apply IHv; assumption|apply IHl; assumption].
    - intros s k t kv v l kp p ps Q _ IHv _ IHl l' F. inversion F as [|e e' l0 l1 [Ek Ev] F']; subst. destruct e' as [k' w]. cbn [fst snd] in *.
      apply pa_cons_in; [exact (key_alike _ _ _ _ Q Ek)|apply IHv; assumption|apply IHl; assumption].
    - (* fields *)
      intros s l' F. inversion F; subst. apply fl_nil.
    - intros s f fs v l ps W _ IH l' F. inversion F; subst. apply fl_skip; [exact W|]. apply IH. assumption.
    - intros s f fs v l ps W O Z _ IH l' F. inversion F; subst. apply fl_omit; [exact W|exact O|eapply zero_alike; eassumption|]. apply IH. assumption.
    - intros s f fs v l p ps W O _ IHv _ IHl l' F. inversion F; subst. apply fl_write; [exact W| |apply IHv; assumption|apply IHl; assumption].
      intros Q Z. apply (O Q). eapply zero_alike_back; eassumption.
    - (* field values *)
      intros s f t' K v' A. inversion A; subst. eapply fv_nil; exact K.
    - intros s s' f t' o i c p K T K' C _ _ IH v' A. inversion A as [| | | | | | | | | | | |o1 i1 o' i' c1 c' C1 C' Ac| | | |]; subst.
      rewrite C in C1. injection C1 as <-. eapply (fv_ptr_struct X E H' anything tt tt); [exact K|exact T|exact K'|exact C'|exact I|]. exact (IH c' Ac).
    - intros s f t' o i c p K T K' C _ IH v' A. inversion A as [| | | | | | | | | | | |o1 i1 o' i' c1 c' C1 C' Ac| | | |]; subst.
      rewrite C in C1. injection C1 as <-. eapply fv_ptr; [exact K|exact T|exact K'|exact C'|]. exact (IH c' Ac).
    - intros s f v p K T _ IH v' A. apply fv_plain; [exact K|exact T|]. exact (IH v' A).
    - intros s f t' o i c p K T C Q v' A. inversion A as [| | | | | | | | | | | |o1 i1 o' i' c1 c' C1 C' Ac| | | |]; subst.
      rewrite C in C1. injection C1 as <-. eapply fv_ptr_quoted; [exact K|exact T|exact C'|]. exact (quoted_alike t' c p c' Q Ac).
    - intros s f v p K T Q v' A. apply fv_quoted; [exact K|exact T|]. exact (quoted_alike _ v p v' Q A).
  Qed.
End Alike.

(** With at most one entry in every map there is nothing to choose. *)
Section Only.
  Context (X : Ext) (E : env) (H : heap) {S1 S2 : Type}.
  Context (en1 : S1 -> bool -> addr -> S1 -> Prop) (en2 : S2 -> bool -> addr -> S2 -> Prop).
  Hypothesis HN : no_order H.

  Definition agree1 (P : S2 -> php -> Prop) (p : php) : Prop := forall s q, P s q -> p = q.
  Lemma one_order o m l : entries H o = Some m -> Permutation m l -> l = m.
  Proof.
    intros Q P. pose proof (HN o m Q) as L. destruct m as [|x [|y m]].
    - symmetry in P. apply Permutation_sym, Permutation_nil in P. exact P.
    - apply Permutation_length_1_inv in P. exact P.
    - cbn [length] in L. lia.
  Qed.
  Lemma pairs_agree1 o b k t m l l' ps ps' s :
    entries H o = Some m -> Permutation m l ->
    Forall2 (fun e x => key_repr X k (fst e) (fst x) /\ agree1 (fun s => sub X E H en2 b s t (snd e)) (snd x)) l ps ->
    Permutation m l' -> pairs X E H en2 s b k t l' ps' -> PArr ps = PArr ps'.
  Proof.
    intros Hm P F P' Q. apply (one_order o m l Hm) in P. apply (one_order o m l' Hm) in P'. subst l l'. apply pairs_forall2 in Q. f_equal.
    clear Hm. revert ps' Q. induction F as [|e x l ps [Hs Ha] _ IH] in |- *; intros ps' Q; inversion Q as [|e' y l0 ps0 [Hs' Hr] Q']; subst; [reflexivity|].
    f_equal; [|apply IH; assumption]. destruct x as [x1 x2], y as [y1 y2]. cbn [fst snd] in *. f_equal; [eapply key_det; eassumption|exact (Ha _ _ Hr)].
  Qed.

  Ltac scal := exfalso; match goal with Q : scalar_repr _ ?k _ _ |- _ =>
    apply scalar_shape in Q; try discriminate Q; apply plain_not_iface in Q; congruence end.
  Theorem repr_only :
    (forall s t v p, repr X E H en1 s t v p -> agree1 (fun s => repr X E H en2 s t v) p) /\
    (forall s t v p, shape X E H en1 s t v p -> agree1 (fun s => shape X E H en2 s t v) p) /\
    (forall s t v p, inner X E H en1 s t v p -> agree1 (fun s => inner X E H en2 s t v) p) /\
    (forall s b t i l ps, elems X E H en1 s b t i l ps -> forall s2 ps', elems X E H en2 s2 b t i l ps' -> ps = ps') /\
    (forall s b k t l ps, pairs X E H en1 s b k t l ps ->
       Forall2 (fun e x => key_repr X k (fst e) (fst x) /\ agree1 (fun s => sub X E H en2 b s t (snd e)) (snd x)) l ps) /\
    (forall s fs l ps, fields X E H en1 s fs l ps -> forall s2 ps', fields X E H en2 s2 fs l ps' -> ps = ps') /\
    (forall s g v p, field_val X E H en1 s g v p -> agree1 (fun s => field_val X E H en2 s g v) p).
  Proof.
    apply repr_ind7; unfold agree1.
    - (* repr *) intros s t v b Hi Hs s2 q Hq. inversion Hq; subst; try congruence. rewrite (says_det X E H _ _ _ _ Hs H1). try reflexivity.
    - intros s t v b Hi Hb Hv s2 q Hq. inversion Hq; subst; try congruence.
    - intros s t v p Hi Hb Hs IH s2 q Hq. inversion Hq; subst; try congruence. eapply IH; eassumption.
    - (* shape *)
      intros s t v p Hs s2 q Hq. pose proof (scalar_shape X _ _ _ Hs) as Hk. inversion Hq; subst; kinds E; try discriminate.
      + match goal with Q : scalar_repr _ _ _ q |- _ => rewrite (scalar_det X _ _ _ _ Hs Q) end. try reflexivity.
      + scal.
    - intros s t id fs l ps Hk Hf IH s2 q Hq. inversion Hq; subst; kinds E; try discriminate.
      + scal.
      + f_equal. replace fs0 with fs in * by congruence. eapply IH; eassumption.
    - intros s t n t' l ps Hk Hl He IH s2 q Hq. inversion Hq; subst; kinds E; try discriminate.
      + scal.
      + f_equal. replace t'0 with t' in * by congruence. eapply IH; eassumption.
    - intros s t t' Hk s2 q Hq. inversion Hq; subst; kinds E; try discriminate; try (reflexivity).
      scal.
    - intros s s' t t' o i n l ps Hk Hc En He IH s2 q Hq. inversion Hq; subst; kinds E; try discriminate.
      + scal.
      + f_equal. replace t'0 with t' in * by congruence. replace l0 with l in * by congruence. eapply IH; eassumption.
    - intros s t k t' Hk s2 q Hq. inversion Hq; subst; kinds E; try discriminate; try (reflexivity).
      scal.
    - intros s s' t k t' o m l ps Hk Hm Hp En Hpa IH s2 q Hq. inversion Hq; subst; kinds E; try discriminate.
      + scal.
      + replace t'0 with t' in * by congruence. replace k0 with k in * by congruence. replace m0 with m in * by congruence.
        eapply pairs_agree1; [eassumption|exact Hp|exact IH| |eassumption]. assumption.
    - intros s t v p Hk Hi IH s2 q Hq. inversion Hq; subst; kinds E; try discriminate; try (eapply IH; eassumption).
      scal.
    - intros s t t' v p Hk Hk' Hi IH s2 q Hq. inversion Hq; subst; kinds E; try discriminate; try (eapply IH; eassumption); try (eapply IH; eassumption).
      + scal.
      + replace t'0 with t' in * by congruence. congruence.
      + replace t'0 with t' in * by congruence. destruct (kind_of E t'); discriminate.
      + replace t'0 with t' in * by congruence. destruct (kind_of E t'); discriminate.
      + replace t'0 with t' in * by congruence. congruence.
    - intros s t t' Hk Hk' s2 q Hq. inversion Hq; subst; kinds E; try discriminate; try (reflexivity).
      + scal.
      + replace t'0 with t' in * by congruence. congruence.
    - intros s s' t t' o i c p Hk Hsk Hc En Hs IH s2 q Hq.
      assert (iface_kind (kind_of E t') = false) as Hif by (destruct (kind_of E t'); try discriminate; reflexivity).
      assert (by_structure (kind_of E t') = true) as Hbs by (destruct (kind_of E t'); try discriminate; reflexivity).
      inversion Hq; subst; kinds E; try discriminate; try scal;
        replace t'0 with t' in * by congruence; try congruence.
      replace c0 with c in * by congruence. eapply IH; eassumption.
    - intros s t t' o i c p Hk Hsk Hbs Hc Hs IH s2 q Hq.
      assert (iface_kind (kind_of E t') = false) as Hif by (destruct (kind_of E t'); try discriminate; reflexivity).
      inversion Hq; subst; kinds E; try discriminate; try scal;
        replace t'0 with t' in * by congruence; try congruence.
      replace c0 with c in * by congruence. eapply IH; eassumption.
    - intros s t t' o i c p Hk Hbs Hif Hc Hs IH s2 q Hq.
      assert (struct_kind (kind_of E t') = false) as Hsk by (destruct (kind_of E t'); try discriminate; reflexivity).
      inversion Hq; subst; kinds E; try discriminate; try scal;
        replace t'0 with t' in * by congruence; try congruence.
      replace c0 with c in * by congruence. eapply IH; eassumption.
    - (* inner *)
      intros s t t' Hk s2 q Hq. inversion Hq; subst; kinds E; try discriminate; try (reflexivity); scal.
    - intros s t t' o i c p Hk Hc Hs IH s2 q Hq. inversion Hq; subst; kinds E; try discriminate; try scal.
      replace t'0 with t' in * by congruence. replace c0 with c in * by congruence. eapply IH; eassumption.
    - intros s t Hk s2 q Hq. inversion Hq; subst; kinds E; try discriminate; try (reflexivity); scal.
    - intros s t t' v p Hk Hs IH s2 q Hq. inversion Hq; subst; kinds E; try discriminate; try scal.
      eapply IH; eassumption.
    - intros s t v p Hs s2 q Hq. pose proof (scalar_shape X _ _ _ Hs) as Hk. inversion Hq; subst; kinds E; try discriminate; try (exfalso; apply plain_not_iface in Hk; congruence).
      match goal with Q : scalar_repr _ _ _ q |- _ => rewrite (scalar_det X _ _ _ _ Hs Q) end. try reflexivity.
    - intros s t t' Hk Hi s2 q Hq. inversion Hq; subst; kinds E; try discriminate; try (reflexivity); try scal.
      replace t'0 with t' in * by congruence. congruence.
    - intros s s' t t' o i n l ps Hk Hi Hc En He IH s2 q Hq. inversion Hq; subst; kinds E; try discriminate; try scal.
      + f_equal. replace t'0 with t' in * by congruence. replace l0 with l in * by congruence. eapply IH; eassumption.
      + replace t'0 with t' in * by congruence. congruence.
    - intros s t t' p Hk Hi He Hr IH s2 q Hq. inversion Hq; subst; kinds E; try discriminate; try scal.
      + replace t'0 with t' in * by congruence. congruence.
      + eapply IH; eassumption.
    - intros s s' t t' o i n p Hk Hi He En Hr IH s2 q Hq. inversion Hq; subst; kinds E; try discriminate; try scal.
      + replace t'0 with t' in * by congruence. congruence.
      + eapply IH; eassumption.
    - intros s t k t' Hk Hkk s2 q Hq. inversion Hq; subst; kinds E; try discriminate; try (reflexivity); scal.
    - intros s s' t k t' o Hk Hkk Hm En s2 q Hq. inversion Hq; subst; kinds E; try discriminate; try (reflexivity); try scal.
      exfalso. congruence.
    - intros s s' t k t' o m l ps Hk Hkk Hm Hne Henc Hp En Hpa IH s2 q Hq. inversion Hq; subst; kinds E; try discriminate; try scal.
      + exfalso. congruence.
      + replace t'0 with t' in * by congruence. replace k0 with k in * by congruence. replace m0 with m in * by congruence.
        eapply pairs_agree1; [eassumption|exact Hp|exact IH| |eassumption]. assumption.
    - intros s t id fs v p Hk He Hr IH s2 q Hq. inversion Hq; subst; kinds E; try discriminate; try scal.
      eapply IH; eassumption.
    - (* elems *)
      intros s b t i s2 ps' Hq. inversion Hq. try reflexivity.
    - intros s t i v l p ps _ IHv _ IHl s2 ps' Hq. inversion Hq; subst. f_equal; [f_equal; eapply IHv; eassumption|eapply IHl; eassumption].
    - intros s t i v l p ps _ IHv _ IHl s2 ps' Hq. inversion Hq; subst. f_equal; [f_equal; eapply IHv; eassumption|eapply IHl; eassumption].
    - (* pairs *)
      intros s b k t. constructor.
    - intros s k t kv v l kp p ps Hs _ IHv _ IHl. constructor; [split; [exact Hs|exact IHv]|exact IHl].
    - intros s k t kv v l kp p ps Hs _ IHv _ IHl. constructor; [split; [exact Hs|exact IHv]|exact IHl].
    - (* fields *)
      intros s s2 ps' Hq. inversion Hq. try reflexivity.
    - intros s f fs v l ps Hw _ IH s2 ps' Hq. inversion Hq; subst; try congruence. eapply IH; eassumption.
    - intros s f fs v l ps Hw Ho Hz _ IH s2 ps' Hq. inversion Hq; subst; try congruence.
      + eapply IH; eassumption.
      + exfalso. match goal with Q : _ -> ~ zero_value v |- _ => exact (Q Ho Hz) end.
    - intros s f fs v l p ps Hw Ho _ IHv _ IHl s2 ps' Hq. inversion Hq; subst; try congruence.
      + exfalso. match goal with Q : zero_value v, Q' : tag_omitempty _ = true |- _ => exact (Ho Q' Q) end.
      + f_equal; [f_equal; eapply IHv; eassumption|eapply IHl; eassumption].
    - (* field values *)
      intros s f t' Hk s2 q Hq. inversion Hq; subst; kinds E; try discriminate; try reflexivity.
    - intros s s' f t' o i c p Hk Hst Hsk Hc En Hr IH s2 q Hq. inversion Hq; subst; kinds E; try discriminate; try congruence;
        replace t'0 with t' in * by congruence; try congruence.
      replace c0 with c in * by congruence. eapply IH; eassumption.
    - intros s f t' o i c p Hk Hst Hsk Hc Hr IH s2 q Hq. inversion Hq; subst; kinds E; try discriminate; try congruence;
        replace t'0 with t' in * by congruence; try congruence.
      replace c0 with c in * by congruence. eapply IH; eassumption.
    - intros s f v p Hk Hst Hr IH s2 q Hq. inversion Hq; subst; kinds E; try discriminate; try congruence. eapply IH; eassumption.
    - intros s f t' o i c p Hk Hst Hc Hr s2 q Hq. inversion Hq; subst; kinds E; try discriminate; try congruence.
      replace t'0 with t' in * by congruence. replace c0 with c in * by congruence. erewrite quoted_det; [reflexivity|eassumption|eassumption].
    - intros s f v p Hk Hst Hr s2 q Hq. inversion Hq; subst; kinds E; try discriminate; try congruence.
      erewrite quoted_det; [reflexivity|eassumption|eassumption].
  Qed.
End Only.

(** Two memories that hold the same tree are alike. *)
Section Trees.
  Context (H H' : heap).
  Lemma cells_length h o i n l : cells h o i n = Some l -> length l = n.
  Proof.
    unfold cells. destruct (nth_error h o) as [[l0|m]|]; try discriminate. destruct (Nat.leb (i + n) (length l0)) eqn:Q; [|discriminate].
    intros A. injection A as <-. apply Nat.leb_le in Q. rewrite firstn_length, skipn_length. lia.
  Qed.
  Lemma all2_length {A B} (R : A -> B -> Prop) l l' : Forall2 R l l' -> length l = length l'.
  Proof. induction 1 as [|x y l l' A0 F IH]; [reflexivity|]. cbn [length]. rewrite IH. reflexivity. Qed.
  Lemma holds_alike : forall v w, holds H v w -> forall v', holds H' v' w -> alike H H' v v'.
  Proof.
    fix IH 3. intros v w Q.
    destruct Q as [b|z|z|f|f|s| |o i n l ws C F|l ws F| |o m ws En D F| |o i c w C Q| |t v w Q|l ws F|]; intros v' Q'; inversion Q'; subst; try constructor.
    - match goal with C' : cells H' _ _ ?n' = Some ?l', F' : Forall2 (holds H') ?l' ws |- _ =>
        assert (n' = n) as -> by (apply all2_length in F; apply all2_length in F'; apply cells_length in C; apply cells_length in C'; congruence);
        eapply ak_slice; [exact C|exact C'|]; clear - F F' IH; revert l' F'; induction F as [|x w l ws Q F IHF]; intros l' F'; inversion F'; subst; constructor; [eapply IH; eassumption|apply IHF; assumption] end.
    - match goal with F' : Forall2 (holds H') ?l' ws |- _ => clear - F F' IH; revert l' F'; induction F as [|x w l ws Q F IHF]; intros l' F'; inversion F'; subst; constructor; [eapply IH; eassumption|apply IHF; assumption] end.
    - match goal with C' : entries H' _ = Some ?m', F' : Forall2 _ ?m' ws |- _ => eapply ak_map; [exact En|exact C'|apply Permutation_refl|];
        clear - F F' IH; revert m' F'; induction F as [|x w l ws Q F IHF]; intros l' F'; inversion F' as [|y w' l1 ws' Q2 F2]; subst; constructor;
        [destruct Q as [Q Qs], Q2 as [Q2 Q2s]; split; [exact (IH _ _ Q _ Q2)|exact (IH _ _ Qs _ Q2s)]|apply IHF; assumption] end.
    - match goal with C' : cell H' _ _ = Some _ |- _ => eapply ak_ptr; [exact C|exact C'|eapply IH; eassumption] end.
    - eapply IH; eassumption.
    - match goal with F' : Forall2 (holds H') ?l' ws |- _ => clear - F F' IH; revert l' F'; induction F as [|x w l ws Q F IHF]; intros l' F'; inversion F'; subst; constructor; [eapply IH; eassumption|apply IHF; assumption] end.
  Qed.
End Trees.
