(** Proofs for C85: what Marshal writes for one value in two orders is one input
    in two orders. *)
From Coq Require Import Strings.String Strings.Byte ZArith List Bool Lia Permutation.
From Verif Require Import Base GoTypes Tags Grammar Denote Typing Api NumFacts Memory EncCompile Php Repr Values NumEnc PhpFacts
  RoundTripFacts ReprFacts AnyTrip AnyTripFacts PhpKeys PhpKeyFacts MapSpec Reorder ReorderFacts.
Import ListNotations.
Open Scope Z_scope.

(** Keys *)
Inductive key_form : php -> Prop := kf_int z : key_form (PInt z) | kf_str s : key_form (PStr s).
Lemma key_repr_inj X k a b p : key_repr X k a p -> key_repr X k b p -> a = b.
Proof. intros [K A] [_ B]. destruct A; inversion B; subst; try reflexivity; discriminate K. Qed.
Lemma key_repr_form X k a p : key_repr X k a p -> key_form p.
Proof. intros [K A]. destruct A; try discriminate K; constructor. Qed.
Lemma map_keys_apart X k (l : list (hval * hval)) (ps : list (php * php)) :
  Forall2 (fun e e' => key_repr X k (fst e) (fst e')) l ps -> NoDup (map fst l) -> NoDup (map fst ps) /\ Forall (fun e => key_form (fst e)) ps.
Proof.
  induction 1 as [|e e' l ps R F IH]; intros N; [split; constructor|]. cbn [map] in *. inversion N as [|? ? Ni Nr]; subst. destruct (IH Nr) as [A B].
  split; [|constructor; [eapply key_repr_form; exact R|exact B]]. constructor; [|exact A]. intros J. apply Ni. clear - R F J.
  induction F as [|x x' l ps Rx F IH]; [destruct J|]. cbn [map In] in *. destruct J as [J|J]; [left; rewrite J in Rx; eapply key_repr_inj; eassumption|right; apply IH, J].
Qed.

(** From entries to entries *)
Definition syn2 (e : php * php) : lval * lval := (syntax (fst e), syntax (snd e)).
Lemma reordered_refl p : reordered p p.
Proof.
  revert p. fix IH 1. intros p.
  assert (forall es, shuffled reordered es es) as G.
  { fix go 1. intros [|[k q] es]; [constructor|]. constructor; [apply IH|apply go]. }
  destruct p as [|b|t|t|n s|n es|cn cls n es]; constructor; apply G.
Qed.
Lemma key_form_is k : key_form k -> exists x, key_is (syntax k) x /\ match k with PInt z => x = inl z | PStr s => x = inr s | _ => False end.
Proof.
  intros [z|s]; cbn [syntax]; eexists; (split; [|reflexivity]); constructor; [apply decimal_int_text|].
  destruct (decimal_numeral (blen s)) as [Hn Hv]; [unfold blen; lia|]. split; assumption.
Qed.
Lemma forms_different a b : key_form a -> key_form b -> a <> b -> different (syntax a) (syntax b).
Proof.
  intros Fa Fb N. destruct (key_form_is a Fa) as (x & Kx & Qx). destruct (key_form_is b Fb) as (y & Ky & Qy). exists x, y. split; [exact Kx|]. split; [exact Ky|].
  destruct Fa, Fb; subst; congruence.
Qed.
Lemma permuted es es' : Permutation es es' -> NoDup (map fst es) -> Forall (fun e => key_form (fst e)) es -> shuffled reordered (map syn2 es) (map syn2 es').
Proof.
  induction 1 as [|x es es' P IH|x y es|a b c P1 IH1 P2 IH2]; intros N F.
  - constructor.
  - cbn [map] in *. inversion N; subst. inversion F; subst. unfold syn2 at 1 3. constructor; [apply reordered_refl|apply IH; assumption].
  - cbn [map] in *. inversion N as [|? ? N1 N2]; subst. inversion F as [|? ? F1 F2]; subst. inversion F2 as [|? ? F3 F4]; subst.
    unfold syn2 at 1 2 4 5. apply shu_swap; [|apply reordered_refl|apply reordered_refl|].
    + apply forms_different; [exact F1|exact F3|]. intros Q. apply N1. left. symmetry. exact Q.
    + clear. induction es as [|e es IH]; [constructor|]. cbn [map]. unfold syn2 at 1 3. constructor; [apply reordered_refl|exact IH].
  - eapply shu_trans; [apply IH1; assumption|]. apply IH2.
    + eapply Permutation_NoDup; [apply Permutation_map, P1|exact N].
    + eapply Permutation_Forall; eassumption.
Qed.

Ltac kinds E := repeat match goal with
  | A : kind_of E ?t = _, B : context [kind_of E ?t] |- _ => rewrite A in B end.

Section Det.
  Context (X : Ext) (E : env) (H : heap) (Hmk : maps_keyed H) {S1 S2 : Type}.
  Context (en1 : S1 -> bool -> addr -> S1 -> Prop) (en2 : S2 -> bool -> addr -> S2 -> Prop).
  Notation same_entry := (fun a b : php * php => fst a = fst b /\ reordered (syntax (snd a)) (syntax (snd b))).
  Definition agree (P : S2 -> php -> Prop) (p : php) : Prop := forall s q, P s q -> reordered (syntax p) (syntax q).
  Definition sub (b : bool) (s : S2) (t : gty) (v : hval) (p : php) : Prop :=
    if b then inner X E H en2 s t v p else repr X E H en2 s t v p.

  Lemma pairs_forall2 s b k t l ps : pairs X E H en2 s b k t l ps ->
    Forall2 (fun e x => key_repr X k (fst e) (fst x) /\ sub b s t (snd e) (snd x)) l ps.
  Proof.
    revert b. induction l as [|[kv v] l IH] in ps |- *; intros b Hp; inversion Hp; subst.
    - apply Forall2_nil.
    - apply Forall2_cons; [split; assumption|]. apply IH; assumption.
    - apply Forall2_cons; [split; assumption|]. apply IH; assumption.
  Qed.
  Lemma shuffled_entries ps ps' : Forall2 same_entry ps ps' -> shuffled reordered (map syn2 ps) (map syn2 ps').
  Proof. induction 1 as [|a b l l' [R1 R2] _ I]; [constructor|]. cbn [map]. unfold syn2 at 1 3. rewrite R1. constructor; assumption. Qed.
  Lemma shuffled_arr ps ps' : shuffled reordered (map syn2 ps) (map syn2 ps') -> reordered (syntax (PArr ps)) (syntax (PArr ps')).
  Proof.
    intros S. pose proof (shuffled_len _ _ _ S) as L. rewrite !map_length in L. cbn [syntax]. unfold blen. rewrite L. apply reo_arr. exact S.
  Qed.
  Lemma pairs_agree b k t l l' ps ps' s :
    Forall2 (fun e x => key_repr X k (fst e) (fst x) /\ agree (fun s => sub b s t (snd e)) (snd x)) l ps ->
    Permutation l l' -> NoDup (map fst l) -> pairs X E H en2 s b k t l' ps' ->
    reordered (syntax (PArr ps)) (syntax (PArr ps')).
  Proof.
    intros H1 Hp Hn H2. apply pairs_forall2 in H2.
    destruct (Permutation_Forall2 (Permutation_sym Hp) H2) as (ps'' & Hp' & H3). apply shuffled_arr. eapply shu_trans with (b := map syn2 ps'').
    - apply shuffled_entries. clear H2 Hp Hp' Hn. revert ps'' H3. induction H1 as [|e x l ps [Hs Ha] _ IH]; intros ps'' H3; inversion H3 as [|e' y l0 ps0 [Hs' Hr] H4]; subst; constructor; [|apply IH; assumption].
      split; [eapply key_det; eassumption|exact (Ha _ _ Hr)].
    - destruct (map_keys_apart X k l ps'') as [A B]; [|exact Hn|apply permuted; [apply Permutation_sym, Hp'|exact A|exact B]].
      clear - H3. induction H3 as [|e x l ps [Hs _] _ I]; constructor; assumption.
  Qed.
  Lemma same_arr ps ps' : Forall2 same_entry ps ps' -> reordered (syntax (PArr ps)) (syntax (PArr ps')).
  Proof. intros Hf. apply shuffled_arr, shuffled_entries, Hf. Qed.

  Ltac scal := exfalso; match goal with Q : scalar_repr _ ?k _ _ |- _ =>
    apply scalar_shape in Q; try discriminate Q; apply plain_not_iface in Q; congruence end.
  Theorem repr_reordered :
    (forall s t v p, repr X E H en1 s t v p -> agree (fun s => repr X E H en2 s t v) p) /\
    (forall s t v p, shape X E H en1 s t v p -> agree (fun s => shape X E H en2 s t v) p) /\
    (forall s t v p, inner X E H en1 s t v p -> agree (fun s => inner X E H en2 s t v) p) /\
    (forall s b t i l ps, elems X E H en1 s b t i l ps -> forall s2 ps', elems X E H en2 s2 b t i l ps' -> Forall2 same_entry ps ps') /\
    (forall s b k t l ps, pairs X E H en1 s b k t l ps ->
       Forall2 (fun e x => key_repr X k (fst e) (fst x) /\ agree (fun s => sub b s t (snd e)) (snd x)) l ps) /\
    (forall s fs l ps, fields X E H en1 s fs l ps -> forall s2 ps', fields X E H en2 s2 fs l ps' -> Forall2 same_entry ps ps') /\
    (forall s g v p, field_val X E H en1 s g v p -> agree (fun s => field_val X E H en2 s g v) p).
  Proof.
    apply repr_ind7; unfold agree.
    - (* repr *) intros s t v b Hi Hs s2 q Hq. inversion Hq; subst; try congruence. rewrite (says_det X E H _ _ _ _ Hs H1). apply reordered_refl.
    - intros s t v b Hi Hb Hv s2 q Hq. inversion Hq; subst; try congruence. replace b0 with b by congruence. apply reordered_refl.
    - intros s t v p Hi Hb Hs IH s2 q Hq. inversion Hq; subst; try congruence. eapply IH; eassumption.
    - (* shape *)
      intros s t v p Hs s2 q Hq. pose proof (scalar_shape X _ _ _ Hs) as Hk. inversion Hq; subst; kinds E; try discriminate.
      + match goal with Q : scalar_repr _ _ _ q |- _ => rewrite (scalar_det X _ _ _ _ Hs Q) end. apply reordered_refl.
      + scal.
    - intros s t id fs l ps Hk Hf IH s2 q Hq. inversion Hq; subst; kinds E; try discriminate.
      + scal.
      + apply same_arr. replace fs0 with fs in * by congruence. eapply IH; eassumption.
    - intros s t n t' l ps Hk Hl He IH s2 q Hq. inversion Hq; subst; kinds E; try discriminate.
      + scal.
      + apply same_arr. replace t'0 with t' in * by congruence. eapply IH; eassumption.
    - intros s t t' Hk s2 q Hq. inversion Hq; subst; kinds E; try discriminate; try (apply reordered_refl).
      scal.
    - intros s s' t t' o i n l ps Hk Hc En He IH s2 q Hq. inversion Hq; subst; kinds E; try discriminate.
      + scal.
      + apply same_arr. replace t'0 with t' in * by congruence. replace l0 with l in * by congruence. eapply IH; eassumption.
    - intros s t k t' Hk s2 q Hq. inversion Hq; subst; kinds E; try discriminate; try (apply reordered_refl).
      scal.
    - intros s s' t k t' o m l ps Hk Hm Hp En Hpa IH s2 q Hq. inversion Hq; subst; kinds E; try discriminate.
      + scal.
      + replace t'0 with t' in * by congruence. replace k0 with k in * by congruence. replace m0 with m in * by congruence.
        eapply pairs_agree; [exact IH| | |eassumption]; [rewrite <- Hp; assumption|]. eapply Permutation_NoDup; [apply Permutation_map, Hp|exact (Hmk o m Hm)].
    - intros s t v p Hk Hi IH s2 q Hq. inversion Hq; subst; kinds E; try discriminate; try (eapply IH; eassumption).
      scal.
    - intros s t t' v p Hk Hk' Hi IH s2 q Hq. inversion Hq; subst; kinds E; try discriminate; try (eapply IH; eassumption); try (eapply IH; eassumption).
      + scal.
      + replace t'0 with t' in * by congruence. congruence.
      + replace t'0 with t' in * by congruence. destruct (kind_of E t'); discriminate.
      + replace t'0 with t' in * by congruence. destruct (kind_of E t'); discriminate.
      + replace t'0 with t' in * by congruence. congruence.
    - intros s t t' Hk Hk' s2 q Hq. inversion Hq; subst; kinds E; try discriminate; try (apply reordered_refl).
      + scal.
      + replace t'0 with t' in * by congruence. congruence.
    - intros s s' t t' o i c p Hk Hsk Hc En Hs IH s2 q Hq.
      assert (iface_kind (kind_of E t') = false) as Hif by (destruct (kind_of E t'); try discriminate; reflexivity).
      assert (by_structure (kind_of E t') = true) as Hbs by (destruct (kind_of E t'); try discriminate; reflexivity).
      inversion Hq; subst; kinds E; try discriminate; try scal;
        replace t'0 with t' in * by congruence; try congruence.
      replace c0 with c in * by congruence. eapply IH; eassumption.
    - intros s t t' o i c p Hk Hsk Hbs Hc Hs IH s2 q Hq.
      assert (iface_kind (kind_of E t') = false) as Hif by (destruct (kind_of E t'); try discriminate; reflexivity).
      inversion Hq; subst; kinds E; try discriminate; try scal;
        replace t'0 with t' in * by congruence; try congruence.
      replace c0 with c in * by congruence. eapply IH; eassumption.
    - intros s t t' o i c p Hk Hbs Hif Hc Hs IH s2 q Hq.
      assert (struct_kind (kind_of E t') = false) as Hsk by (destruct (kind_of E t'); try discriminate; reflexivity).
      inversion Hq; subst; kinds E; try discriminate; try scal;
        replace t'0 with t' in * by congruence; try congruence.
      replace c0 with c in * by congruence. eapply IH; eassumption.
    - (* inner *)
      intros s t t' Hk s2 q Hq. inversion Hq; subst; kinds E; try discriminate; try (apply reordered_refl); scal.
    - intros s t t' o i c p Hk Hc Hs IH s2 q Hq. inversion Hq; subst; kinds E; try discriminate; try scal.
      replace t'0 with t' in * by congruence. replace c0 with c in * by congruence. eapply IH; eassumption.
    - intros s t Hk s2 q Hq. inversion Hq; subst; kinds E; try discriminate; try (apply reordered_refl); scal.
    - intros s t t' v p Hk Hs IH s2 q Hq. inversion Hq; subst; kinds E; try discriminate; try scal.
      eapply IH; eassumption.
    - intros s t v p Hs s2 q Hq. pose proof (scalar_shape X _ _ _ Hs) as Hk. inversion Hq; subst; kinds E; try discriminate; try (exfalso; apply plain_not_iface in Hk; congruence).
      match goal with Q : scalar_repr _ _ _ q |- _ => rewrite (scalar_det X _ _ _ _ Hs Q) end. apply reordered_refl.
    - intros s t t' Hk Hi s2 q Hq. inversion Hq; subst; kinds E; try discriminate; try (apply reordered_refl); try scal.
      replace t'0 with t' in * by congruence. congruence.
    - intros s s' t t' o i n l ps Hk Hi Hc En He IH s2 q Hq. inversion Hq; subst; kinds E; try discriminate; try scal.
      + apply same_arr. replace t'0 with t' in * by congruence. replace l0 with l in * by congruence. eapply IH; eassumption.
      + replace t'0 with t' in * by congruence. congruence.
    - intros s t t' p Hk Hi He Hr IH s2 q Hq. inversion Hq; subst; kinds E; try discriminate; try scal.
      + replace t'0 with t' in * by congruence. congruence.
      + eapply IH; eassumption.
    - intros s s' t t' o i n p Hk Hi He En Hr IH s2 q Hq. inversion Hq; subst; kinds E; try discriminate; try scal.
      + replace t'0 with t' in * by congruence. congruence.
      + eapply IH; eassumption.
    - intros s t k t' Hk Hkk s2 q Hq. inversion Hq; subst; kinds E; try discriminate; try (apply reordered_refl); scal.
    - intros s s' t k t' o Hk Hkk Hm En s2 q Hq. inversion Hq; subst; kinds E; try discriminate; try (apply reordered_refl); try scal.
      exfalso. congruence.
    - intros s s' t k t' o m l ps Hk Hkk Hm Hne Henc Hp En Hpa IH s2 q Hq. inversion Hq; subst; kinds E; try discriminate; try scal.
      + exfalso. congruence.
      + replace t'0 with t' in * by congruence. replace k0 with k in * by congruence. replace m0 with m in * by congruence.
        eapply pairs_agree; [exact IH| | |eassumption]; [rewrite <- Hp; assumption|]. eapply Permutation_NoDup; [apply Permutation_map, Hp|exact (Hmk o m Hm)].
    - intros s t id fs v p Hk He Hr IH s2 q Hq. inversion Hq; subst; kinds E; try discriminate; try scal.
      eapply IH; eassumption.
    - (* elems *)
      intros s b t i s2 ps' Hq. inversion Hq. constructor.
    - intros s t i v l p ps _ IHv _ IHl s2 ps' Hq. inversion Hq; subst. constructor; [split; [reflexivity|eapply IHv; eassumption]|eapply IHl; eassumption].
    - intros s t i v l p ps _ IHv _ IHl s2 ps' Hq. inversion Hq; subst. constructor; [split; [reflexivity|eapply IHv; eassumption]|eapply IHl; eassumption].
    - (* pairs *)
      intros s b k t. constructor.
    - intros s k t kv v l kp p ps Hs _ IHv _ IHl. constructor; [split; [exact Hs|exact IHv]|exact IHl].
    - intros s k t kv v l kp p ps Hs _ IHv _ IHl. constructor; [split; [exact Hs|exact IHv]|exact IHl].
    - (* fields *)
      intros s s2 ps' Hq. inversion Hq. constructor.
    - intros s f fs v l ps Hw _ IH s2 ps' Hq. inversion Hq; subst; try congruence. eapply IH; eassumption.
    - intros s f fs v l ps Hw Ho Hz _ IH s2 ps' Hq. inversion Hq; subst; try congruence.
      + eapply IH; eassumption.
      + exfalso. match goal with Q : _ -> ~ zero_value v |- _ => exact (Q Ho Hz) end.
    - intros s f fs v l p ps Hw Ho _ IHv _ IHl s2 ps' Hq. inversion Hq; subst; try congruence.
      + exfalso. match goal with Q : zero_value v, Q' : tag_omitempty _ = true |- _ => exact (Ho Q' Q) end.
      + constructor; [split; [reflexivity|eapply IHv; eassumption]|eapply IHl; eassumption].
    - (* field values *)
      intros s f t' Hk s2 q Hq. inversion Hq; subst; kinds E; try discriminate; apply reordered_refl.
    - intros s s' f t' o i c p Hk Hst Hsk Hc En Hr IH s2 q Hq. inversion Hq; subst; kinds E; try discriminate; try congruence;
        replace t'0 with t' in * by congruence; try congruence.
      replace c0 with c in * by congruence. eapply IH; eassumption.
    - intros s f t' o i c p Hk Hst Hsk Hc Hr IH s2 q Hq. inversion Hq; subst; kinds E; try discriminate; try congruence;
        replace t'0 with t' in * by congruence; try congruence.
      replace c0 with c in * by congruence. eapply IH; eassumption.
    - intros s f v p Hk Hst Hr IH s2 q Hq. inversion Hq; subst; kinds E; try discriminate; try congruence. eapply IH; eassumption.
    - intros s f t' o i c p Hk Hst Hc Hr s2 q Hq. inversion Hq; subst; kinds E; try discriminate; try congruence.
      replace t'0 with t' in * by congruence. replace c0 with c in * by congruence. match goal with Q : quoted_repr _ _ _ _ _ q |- _ => rewrite (quoted_det X E H _ _ _ _ Hr Q) end; apply reordered_refl.
    - intros s f v p Hk Hst Hr s2 q Hq. inversion Hq; subst; kinds E; try discriminate; try congruence.
      match goal with Q : quoted_repr _ _ _ _ _ q |- _ => rewrite (quoted_det X E H _ _ _ _ Hr Q) end; apply reordered_refl.
  Qed.
End Det.
