(** Facts about the specification of the encoder: policies can be compared, a
    value represents one PHP value up to the order of entries, and serialized
    forms determine the PHP value. *)
From Coq Require Import Strings.String Strings.Byte ZArith List Bool Lia Floats.SpecFloat Permutation.
From Verif Require Import Base GoTypes Strconv Tags Grammar Denote TextFacts Memory EncCompile Php Repr NumEnc.
Import ListNotations.
Open Scope Z_scope.

(** ** A more permissive policy represents more *)
Section Sim.
  Context (X : Ext) (E : env) (H : heap) {S1 S2 : Type}.
  Context (en1 : S1 -> bool -> addr -> S1 -> Prop) (en2 : S2 -> bool -> addr -> S2 -> Prop) (R : S1 -> S2 -> Prop).
  Hypothesis Hsim : forall s1 s2 b a s1', R s1 s2 -> en1 s1 b a s1' -> exists s2', en2 s2 b a s2' /\ R s1' s2'.

  Theorem repr_sim :
    (forall s t v p, repr X E H en1 s t v p -> forall s2, R s s2 -> repr X E H en2 s2 t v p) /\
    (forall s t v p, shape X E H en1 s t v p -> forall s2, R s s2 -> shape X E H en2 s2 t v p) /\
    (forall s t v p, inner X E H en1 s t v p -> forall s2, R s s2 -> inner X E H en2 s2 t v p) /\
    (forall s b t i l ps, elems X E H en1 s b t i l ps -> forall s2, R s s2 -> elems X E H en2 s2 b t i l ps) /\
    (forall s b k t l ps, pairs X E H en1 s b k t l ps -> forall s2, R s s2 -> pairs X E H en2 s2 b k t l ps) /\
    (forall s fs l ps, fields X E H en1 s fs l ps -> forall s2, R s s2 -> fields X E H en2 s2 fs l ps) /\
    (forall s g v p, field_val X E H en1 s g v p -> forall s2, R s s2 -> field_val X E H en2 s2 g v p).
  Proof.
    apply repr_ind7; intros;
      try (match goal with En : en1 ?s ?b ?a ?s', Q : R ?s _ |- _ => destruct (Hsim _ _ _ _ _ Q En) as (s2' & En2 & R2) end).
    - apply rp_marshaler; assumption.
    - apply rp_bytes; assumption.
    - apply rp_shape; auto.
    - apply sh_scalar; assumption.
    - eapply sh_struct; eauto.
    - eapply sh_array; eauto.
    - eapply sh_slice_nil; eauto.
    - eapply sh_slice; eauto.
    - eapply sh_map_nil; eauto.
    - eapply sh_map; eauto.
    - apply sh_iface; auto.
    - eapply sh_ptr_iface; eauto.
    - eapply sh_ptr_nil; eauto.
    - eapply sh_ptr_struct; eauto.
    - eapply sh_ptr_direct; eauto.
    - eapply sh_ptr; eauto.
    - eapply in_ptr_nil; eauto.
    - eapply in_ptr; eauto.
    - apply in_nil; assumption.
    - apply in_iface; auto.
    - apply in_scalar; assumption.
    - eapply in_slice_nil; eauto.
    - eapply in_slice; eauto.
    - eapply in_slice_typed_nil; eauto.
    - eapply in_slice_typed; eauto.
    - eapply in_map_nil; eauto.
    - eapply in_map_empty; eauto.
    - eapply in_map; eauto.
    - eapply in_struct; eauto.
    - apply el_nil.
    - apply el_cons; auto.
    - apply el_cons_in; auto.
    - apply pa_nil.
    - apply pa_cons; auto.
    - apply pa_cons_in; auto.
    - apply fl_nil.
    - apply fl_skip; auto.
    - apply fl_omit; auto.
    - apply fl_write; auto.
    - eapply fv_nil; eauto.
    - eapply fv_ptr_struct; eauto.
    - eapply fv_ptr; eauto.
    - apply fv_plain; auto.
    - eapply fv_ptr_quoted; eauto.
    - apply fv_quoted; auto.
  Qed.
End Sim.

Lemma repr_represents X E H {S} (en : S -> bool -> addr -> S -> Prop) s t v p : repr X E H en s t v p -> Represents X E H t v p.
Proof.
  intros Hr. unfold Represents. eapply (proj1 (repr_sim X E H en anything (fun _ _ => True) (fun _ _ _ _ _ _ _ => ex_intro _ tt (conj I I)))); [exact Hr|exact I].
Qed.

(** ** Determinacy, up to the order of array entries *)
Inductive psame : php -> php -> Prop :=
| ps_refl p : psame p p
| ps_arr es es' es'' : Permutation es' es'' ->
    Forall2 (fun a b => fst a = fst b /\ psame (snd a) (snd b)) es es'' -> psame (PArr es) (PArr es').

Ltac kinds E := repeat match goal with
  | A : kind_of E ?t = _, B : context [kind_of E ?t] |- _ => rewrite A in B end.

Section Det.
  Context (X : Ext) (E : env) (H : heap) {S1 S2 : Type}.
  Context (en1 : S1 -> bool -> addr -> S1 -> Prop) (en2 : S2 -> bool -> addr -> S2 -> Prop).

  Lemma scalar_det k v p q : scalar_repr X k v p -> scalar_repr X k v q -> p = q.
  Proof. intros Hp Hq. destruct Hp; inversion Hq; subst; reflexivity. Qed.
  Lemma key_det k v p q : key_repr X k v p -> key_repr X k v q -> p = q.
  Proof. intros [_ Ha] [_ Hb]. exact (scalar_det _ _ _ _ Ha Hb). Qed.
  Lemma scalar_shape k v p : scalar_repr X k v p -> plain_kind k = true.
  Proof. intros Hp. destruct Hp as [| |k z Hk| | |]; try reflexivity. destruct k; try reflexivity. congruence. Qed.
  Lemma plain_not_iface k : plain_kind k = true -> iface_kind k = false.
  Proof. destruct k; try discriminate; reflexivity. Qed.
  Lemma quoted_any_det t v p q : quoted_any X E H t v p -> quoted_any X E H t v q -> p = q.
  Proof.
    intros Hp. revert q. induction Hp; intros q Hq; inversion Hq; subst; kinds E; try discriminate; try reflexivity; try (apply IHHp; congruence).
  Qed.
  Lemma quoted_det t v p q : quoted_repr X E H t v p -> quoted_repr X E H t v q -> p = q.
  Proof.
    intros Hp Hq. destruct Hp; inversion Hq; subst; kinds E; try discriminate; try reflexivity; try congruence.
    eapply quoted_any_det; eassumption.
  Qed.
  Lemma says_det t v b c : says X E H t v b -> says X E H t v c -> b = c.
  Proof.
    intros Hb. revert c. induction Hb as [n v b Hx Hi|n d p b Hd Hr Hx|n d o i x b Hd Hr Hc Hx|t t' v b Hi Hi' Hs IH]; intros c Hq; inversion Hq; subst; try congruence.
    apply IH. assumption.
  Qed.

  Notation same_entry := (fun a b : php * php => fst a = fst b /\ psame (snd a) (snd b)).
  Definition agree (P : S2 -> php -> Prop) (p : php) : Prop := forall s q, P s q -> psame p q.
  Definition sub (b : bool) (s : S2) (t : gty) (v : hval) (p : php) : Prop :=
    if b then inner X E H en2 s t v p else repr X E H en2 s t v p.

  Lemma pairs_forall2 s b k t l ps : pairs X E H en2 s b k t l ps ->
    Forall2 (fun e x => key_repr X k (fst e) (fst x) /\ sub b s t (snd e) (snd x)) l ps.
  Proof.
    revert b. induction l as [|[kv v] l IH] in ps |- *; intros b Hp; inversion Hp; subst.
    - apply Forall2_nil.
    - apply Forall2_cons; [split; assumption|]. apply IH; assumption.
    - apply Forall2_cons; [split; assumption|]. apply IH; assumption.
  Qed.
  Lemma pairs_agree b k t l l' ps ps' s :
    Forall2 (fun e x => key_repr X k (fst e) (fst x) /\ agree (fun s => sub b s t (snd e)) (snd x)) l ps ->
    Permutation l l' -> pairs X E H en2 s b k t l' ps' ->
    psame (PArr ps) (PArr ps').
  Proof.
    intros H1 Hp H2. apply pairs_forall2 in H2.
    destruct (Permutation_Forall2 (Permutation_sym Hp) H2) as (ps'' & Hp' & H3). apply ps_arr with ps''; [exact Hp'|].
    clear H2 Hp Hp'. revert ps'' H3. induction H1 as [|e x l ps [Hs Ha] _ IH]; intros ps'' H3; inversion H3 as [|e' y l0 ps0 [Hs' Hr] H4]; subst; constructor; [|apply IH; assumption].
    split; [eapply key_det; eassumption|exact (Ha _ _ Hr)].
  Qed.
  Lemma same_arr ps ps' : Forall2 same_entry ps ps' -> psame (PArr ps) (PArr ps').
  Proof. intros Hf. apply ps_arr with ps'; [reflexivity|exact Hf]. Qed.

  Ltac scal := exfalso; match goal with Q : scalar_repr _ ?k _ _ |- _ =>
    apply scalar_shape in Q; try discriminate Q; apply plain_not_iface in Q; congruence end.
  Theorem repr_det :
    (forall s t v p, repr X E H en1 s t v p -> agree (fun s => repr X E H en2 s t v) p) /\
    (forall s t v p, shape X E H en1 s t v p -> agree (fun s => shape X E H en2 s t v) p) /\
    (forall s t v p, inner X E H en1 s t v p -> agree (fun s => inner X E H en2 s t v) p) /\
    (forall s b t i l ps, elems X E H en1 s b t i l ps -> forall s2 ps', elems X E H en2 s2 b t i l ps' -> Forall2 same_entry ps ps') /\
    (forall s b k t l ps, pairs X E H en1 s b k t l ps ->
       Forall2 (fun e x => key_repr X k (fst e) (fst x) /\ agree (fun s => sub b s t (snd e)) (snd x)) l ps) /\
    (forall s fs l ps, fields X E H en1 s fs l ps -> forall s2 ps', fields X E H en2 s2 fs l ps' -> Forall2 same_entry ps ps') /\
    (forall s g v p, field_val X E H en1 s g v p -> agree (fun s => field_val X E H en2 s g v) p).
  Proof.
    apply repr_ind7; unfold agree.
    - (* repr *) intros s t v b Hi Hs s2 q Hq. inversion Hq; subst; try congruence. rewrite (says_det _ _ _ _ Hs H1). apply ps_refl.
    - intros s t v b Hi Hb Hv s2 q Hq. inversion Hq; subst; try congruence. replace b0 with b by congruence. apply ps_refl.
    - intros s t v p Hi Hb Hs IH s2 q Hq. inversion Hq; subst; try congruence. eapply IH; eassumption.
    - (* shape *)
      intros s t v p Hs s2 q Hq. pose proof (scalar_shape _ _ _ Hs) as Hk. inversion Hq; subst; kinds E; try discriminate.
      + match goal with Q : scalar_repr _ _ _ q |- _ => rewrite (scalar_det _ _ _ _ Hs Q) end. apply ps_refl.
      + scal.
    - intros s t id fs l ps Hk Hf IH s2 q Hq. inversion Hq; subst; kinds E; try discriminate.
      + scal.
      + apply same_arr. replace fs0 with fs in * by congruence. eapply IH; eassumption.
    - intros s t n t' l ps Hk Hl He IH s2 q Hq. inversion Hq; subst; kinds E; try discriminate.
      + scal.
      + apply same_arr. replace t'0 with t' in * by congruence. eapply IH; eassumption.
    - intros s t t' Hk s2 q Hq. inversion Hq; subst; kinds E; try discriminate; try (apply ps_refl).
      scal.
    - intros s s' t t' o i n l ps Hk Hc En He IH s2 q Hq. inversion Hq; subst; kinds E; try discriminate.
      + scal.
      + apply same_arr. replace t'0 with t' in * by congruence. replace l0 with l in * by congruence. eapply IH; eassumption.
    - intros s t k t' Hk s2 q Hq. inversion Hq; subst; kinds E; try discriminate; try (apply ps_refl).
      scal.
    - intros s s' t k t' o m l ps Hk Hm Hp En Hpa IH s2 q Hq. inversion Hq; subst; kinds E; try discriminate.
      + scal.
      + replace t'0 with t' in * by congruence. replace k0 with k in * by congruence. replace m0 with m in * by congruence.
        eapply pairs_agree; [exact IH| |eassumption]. rewrite <- Hp. assumption.
    - intros s t v p Hk Hi IH s2 q Hq. inversion Hq; subst; kinds E; try discriminate; try (eapply IH; eassumption).
      scal.
    - intros s t t' v p Hk Hk' Hi IH s2 q Hq. inversion Hq; subst; kinds E; try discriminate; try (eapply IH; eassumption); try (eapply IH; eassumption).
      + scal.
      + replace t'0 with t' in * by congruence. congruence.
      + replace t'0 with t' in * by congruence. destruct (kind_of E t'); discriminate.
      + replace t'0 with t' in * by congruence. destruct (kind_of E t'); discriminate.
      + replace t'0 with t' in * by congruence. congruence.
    - intros s t t' Hk Hk' s2 q Hq. inversion Hq; subst; kinds E; try discriminate; try (apply ps_refl).
      + scal.
      + replace t'0 with t' in * by congruence. congruence.
    - intros s s' t t' o i c p Hk Hsk Hc En Hs IH s2 q Hq.
      assert (iface_kind (kind_of E t') = false) as Hif by (destruct (kind_of E t'); try discriminate; reflexivity).
      assert (by_structure (kind_of E t') = true) as Hbs by (destruct (kind_of E t'); try discriminate; reflexivity).
      inversion Hq; subst; kinds E; try discriminate; try scal;
        replace t'0 with t' in * by congruence; try congruence.
      replace c0 with c in * by congruence. eapply IH; eassumption.
    - intros s t t' o i c p Hk Hsk Hbs Hc Hs IH s2 q Hq.
      assert (iface_kind (kind_of E t') = false) as Hif by (destruct (kind_of E t'); try discriminate; reflexivity).
      inversion Hq; subst; kinds E; try discriminate; try scal;
        replace t'0 with t' in * by congruence; try congruence.
      replace c0 with c in * by congruence. eapply IH; eassumption.
    - intros s t t' o i c p Hk Hbs Hif Hc Hs IH s2 q Hq.
      assert (struct_kind (kind_of E t') = false) as Hsk by (destruct (kind_of E t'); try discriminate; reflexivity).
      inversion Hq; subst; kinds E; try discriminate; try scal;
        replace t'0 with t' in * by congruence; try congruence.
      replace c0 with c in * by congruence. eapply IH; eassumption.
    - (* inner *)
      intros s t t' Hk s2 q Hq. inversion Hq; subst; kinds E; try discriminate; try (apply ps_refl); scal.
    - intros s t t' o i c p Hk Hc Hs IH s2 q Hq. inversion Hq; subst; kinds E; try discriminate; try scal.
      replace t'0 with t' in * by congruence. replace c0 with c in * by congruence. eapply IH; eassumption.
    - intros s t Hk s2 q Hq. inversion Hq; subst; kinds E; try discriminate; try (apply ps_refl); scal.
    - intros s t t' v p Hk Hs IH s2 q Hq. inversion Hq; subst; kinds E; try discriminate; try scal.
      eapply IH; eassumption.
    - intros s t v p Hs s2 q Hq. pose proof (scalar_shape _ _ _ Hs) as Hk. inversion Hq; subst; kinds E; try discriminate; try (exfalso; apply plain_not_iface in Hk; congruence).
      match goal with Q : scalar_repr _ _ _ q |- _ => rewrite (scalar_det _ _ _ _ Hs Q) end. apply ps_refl.
    - intros s t t' Hk Hi s2 q Hq. inversion Hq; subst; kinds E; try discriminate; try (apply ps_refl); try scal.
      replace t'0 with t' in * by congruence. congruence.
    - intros s s' t t' o i n l ps Hk Hi Hc En He IH s2 q Hq. inversion Hq; subst; kinds E; try discriminate; try scal.
      + apply same_arr. replace t'0 with t' in * by congruence. replace l0 with l in * by congruence. eapply IH; eassumption.
      + replace t'0 with t' in * by congruence. congruence.
    - intros s t t' p Hk Hi He Hr IH s2 q Hq. inversion Hq; subst; kinds E; try discriminate; try scal.
      + replace t'0 with t' in * by congruence. congruence.
      + eapply IH; eassumption.
    - intros s s' t t' o i n p Hk Hi He En Hr IH s2 q Hq. inversion Hq; subst; kinds E; try discriminate; try scal.
      + replace t'0 with t' in * by congruence. congruence.
      + eapply IH; eassumption.
    - intros s t k t' Hk Hkk s2 q Hq. inversion Hq; subst; kinds E; try discriminate; try (apply ps_refl); scal.
    - intros s s' t k t' o Hk Hkk Hm En s2 q Hq. inversion Hq; subst; kinds E; try discriminate; try (apply ps_refl); try scal.
      exfalso. congruence.
    - intros s s' t k t' o m l ps Hk Hkk Hm Hne Henc Hp En Hpa IH s2 q Hq. inversion Hq; subst; kinds E; try discriminate; try scal.
      + exfalso. congruence.
      + replace t'0 with t' in * by congruence. replace k0 with k in * by congruence. replace m0 with m in * by congruence.
        eapply pairs_agree; [exact IH| |eassumption]. rewrite <- Hp. assumption.
    - intros s t id fs v p Hk He Hr IH s2 q Hq. inversion Hq; subst; kinds E; try discriminate; try scal.
      eapply IH; eassumption.
    - (* elems *)
      intros s b t i s2 ps' Hq. inversion Hq. constructor.
    - intros s t i v l p ps _ IHv _ IHl s2 ps' Hq. inversion Hq; subst. constructor; [split; [reflexivity|eapply IHv; eassumption]|eapply IHl; eassumption].
    - intros s t i v l p ps _ IHv _ IHl s2 ps' Hq. inversion Hq; subst. constructor; [split; [reflexivity|eapply IHv; eassumption]|eapply IHl; eassumption].
    - (* pairs *)
      intros s b k t. constructor.
    - intros s k t kv v l kp p ps Hs _ IHv _ IHl. constructor; [split; [exact Hs|exact IHv]|exact IHl].
    - intros s k t kv v l kp p ps Hs _ IHv _ IHl. constructor; [split; [exact Hs|exact IHv]|exact IHl].
    - (* fields *)
      intros s s2 ps' Hq. inversion Hq. constructor.
    - intros s f fs v l ps Hw _ IH s2 ps' Hq. inversion Hq; subst; try congruence. eapply IH; eassumption.
    - intros s f fs v l ps Hw Ho Hz _ IH s2 ps' Hq. inversion Hq; subst; try congruence.
      + eapply IH; eassumption.
      + exfalso. match goal with Q : _ -> ~ zero_value v |- _ => exact (Q Ho Hz) end.
    - intros s f fs v l p ps Hw Ho _ IHv _ IHl s2 ps' Hq. inversion Hq; subst; try congruence.
      + exfalso. match goal with Q : zero_value v, Q' : tag_omitempty _ = true |- _ => exact (Ho Q' Q) end.
      + constructor; [split; [reflexivity|eapply IHv; eassumption]|eapply IHl; eassumption].
    - (* field values *)
      intros s f t' Hk s2 q Hq. inversion Hq; subst; kinds E; try discriminate; apply ps_refl.
    - intros s s' f t' o i c p Hk Hst Hsk Hc En Hr IH s2 q Hq. inversion Hq; subst; kinds E; try discriminate; try congruence;
        replace t'0 with t' in * by congruence; try congruence.
      replace c0 with c in * by congruence. eapply IH; eassumption.
    - intros s f t' o i c p Hk Hst Hsk Hc Hr IH s2 q Hq. inversion Hq; subst; kinds E; try discriminate; try congruence;
        replace t'0 with t' in * by congruence; try congruence.
      replace c0 with c in * by congruence. eapply IH; eassumption.
    - intros s f v p Hk Hst Hr IH s2 q Hq. inversion Hq; subst; kinds E; try discriminate; try congruence. eapply IH; eassumption.
    - intros s f t' o i c p Hk Hst Hc Hr s2 q Hq. inversion Hq; subst; kinds E; try discriminate; try congruence.
      replace t'0 with t' in * by congruence. replace c0 with c in * by congruence. erewrite quoted_det; [apply ps_refl|eassumption|eassumption].
    - intros s f v p Hk Hst Hr s2 q Hq. inversion Hq; subst; kinds E; try discriminate; try congruence.
      erewrite quoted_det; [apply ps_refl|eassumption|eassumption].
  Qed.
End Det.

Fixpoint psize (p : php) : nat :=
  match p with
  | PArr es => S (fold_right (fun e n => psize (fst e) + psize (snd e) + n)%nat 0%nat es)
  | _ => 1%nat
  end.
Lemma psame_raw_free : forall n p q, (psize p <= n)%nat -> psame p q -> raw_free p = true -> raw_free q = true.
Proof.
  induction n as [|n IH]; intros p q Hn Hs Hr; [destruct p; cbn in Hn; lia|].
  destruct Hs as [p|es es' es'' Hp Hf]; [exact Hr|].
  cbn [raw_free] in *. rewrite forallb_forall in *. intros e He.
  apply (Permutation_in _ Hp) in He. clear es' Hp. cbn [psize] in Hn.
  induction Hf as [|a b es es'' [H1 H2] Hf IHf]; [destruct He|]. cbn [fold_right] in Hn. destruct He as [->|He].
  - specialize (Hr a (or_introl eq_refl)). apply andb_true_iff in Hr. destruct Hr as [R1 R2]. rewrite <- H1, R1. cbn.
    apply (IH (snd a)); [lia|exact H2|exact R2].
  - apply IHf; [lia| |exact He]. intros x Hx. apply Hr. right. exact Hx.
Qed.
