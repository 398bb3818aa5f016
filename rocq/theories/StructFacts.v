(** Struct destinations: unknown keys, order of entries, untouched fields
    (C14-C16), and null (C17). *)
From Coq Require Import Strings.String Strings.Byte ZArith List Bool Lia Permutation Floats.SpecFloat.
From Verif Require Import Base GoTypes Tags Unmarshal Grammar Denote Elements NumFacts TextFacts ScanFacts Complete Typing Safe Api CompileFacts UnmFacts StoreFacts.
Import ListNotations.
Open Scope Z_scope.

Section Lists.
  Context {A : Type}.
  Lemma nth_error_update_eq (l : list A) i a : (i < length l)%nat -> nth_error (update l i a) i = Some a.
  Proof. revert i. induction l as [|x l IH]; intros [|i] H; cbn in *; try lia; auto. apply IH. lia. Qed.
  Lemma nth_error_update_ne (l : list A) i j a : i <> j -> nth_error (update l i a) j = nth_error l j.
  Proof. revert i j. induction l as [|x l IH]; intros [|i] [|j] H; cbn; auto; try congruence. Qed.
  Lemma update_comm (l : list A) i j a b : i <> j -> update (update l i a) j b = update (update l j b) i a.
  Proof. revert i j. induction l as [|x l IH]; intros [|i] [|j] H; cbn; auto; try congruence. rewrite IH; auto. Qed.
  Lemma nth_error_lt (l : list A) i a : nth_error l i = Some a -> (i < length l)%nat.
  Proof. intros H. apply nth_error_Some. congruence. Qed.
  Lemma upd_length (l : list A) i a : length (update l i a) = length l.
  Proof. revert i. induction l as [|x l IH]; intros [|i]; cbn; auto. Qed.
End Lists.

Lemma key_text_entry kp k p : key_text kp k -> entry_key (kp, p) = k.
Proof. intros H. inversion H; reflexivity. Qed.

Section Lookup.
  Context (X : Ext) (E : env).
  Lemma lookup_spec fs k i f : lookup X fs k = Some (i, f) ->
    nth_error fs i = Some f /\ is_ignored f = false /\ field_key X f = k.
  Proof. intros H. apply lookup_from_spec in H as (j & -> & H). exact H. Qed.
  Lemma lookup_none fs k : (forall f, In f fs -> is_ignored f = false -> field_key X f <> k) -> lookup X fs k = None.
  Proof.
    intros H. destruct (lookup X fs k) as [[i f]|] eqn:El; [|reflexivity]. apply lookup_spec in El as (Hn & Hi & Hk).
    exfalso. apply (H f); auto. eapply nth_error_In; eauto.
  Qed.
  Lemma lookup_none_inv fs k : lookup X fs k = None -> forall f, In f fs -> is_ignored f = false -> field_key X f <> k.
  Proof.
    unfold lookup. generalize 0%nat as i. induction fs as [|g fs IH]; intros i H f Hin Hi Hk; [destruct Hin|]; cbn in H; destruct Hin as [->|Hin].
    - rewrite Hi in H. cbn [negb andb] in H. destruct (bytes_eqb (field_key X f) k) eqn:Eb; [discriminate|].
      apply bytes_eqb_neq in Eb. congruence.
    - destruct (negb (is_ignored g) && bytes_eqb (field_key X g) k); [discriminate|]. eapply IH; eauto.
  Qed.
  (** in a supported struct the field a key names is unique *)
  Lemma lookup_unique T id fs i f : plain E T (KStruct id fs) -> supported X E T -> nth_error fs i = Some f ->
    is_ignored f = false -> lookup X fs (field_key X f) = Some (i, f).
  Proof.
    intros Hk Hs Hn Hi. destruct (lookup X fs (field_key X f)) as [[j g]|] eqn:El.
    - apply lookup_spec in El as (Hn' & Hi' & Hk'). destruct (Nat.eq_dec i j) as [<-|Hne]; [congruence|].
      exfalso. apply (proj1 Hs T); [apply in_refl|]. apply (us_dup X E T id fs f g i j); auto.
    - exfalso. eapply lookup_none_inv; eauto. eapply nth_error_In; eauto.
  Qed.
End Lookup.

Section Steps.
  Context (X : Ext) (E : env) (d : Z) (fs : list field) (V : gty -> lval -> gval -> gval -> Prop).

  Definition FV (f : field) (p : lval) (old v : gval) : Prop :=
    if string_tagged X E f then store_quoted X E (f_ty f) p old v else V (f_ty f) p old v.
  Inductive step : list gval -> lval * lval -> list gval -> Prop :=
  | step_known l kp k i f p old v : key_text kp k -> lookup X fs k = Some (i, f) -> nth_error l i = Some old ->
      FV f p old v -> step l (kp, p) (update l i v)
  | step_unknown l kp k p : key_text kp k -> lookup X fs k = None -> strict d p -> step l (kp, p) l.

  Lemma struct_entries_cons l e es l' :
    struct_entries X E d fs V l (e :: es) l' <-> exists l1, step l e l1 /\ struct_entries X E d fs V l1 es l'.
  Proof.
    split.
    - intros H. inversion H as [|l0 kp k i f p es0 old v l1 Hk Hf Hn Hq Hv Hr|l0 kp k i f p es0 old v l1 Hk Hf Hn Hq Hv Hr|l0 kp k p es0 l1 Hk Hf Hs Hr]; subst.
      + exists (update l i v). split; [|exact Hr]. eapply step_known; eauto. unfold FV. rewrite Hq. exact Hv.
      + exists (update l i v). split; [|exact Hr]. eapply step_known; eauto. unfold FV. rewrite Hq. exact Hv.
      + exists l. split; [|exact Hr]. eapply step_unknown; eauto.
    - intros (l1 & Hs & Hr). inversion Hs as [l0 kp k i f p old v Hk Hf Hn Hv|l0 kp k p Hk Hf Hst]; subst.
      + unfold FV in Hv. destruct (string_tagged X E f) eqn:Eq; [eapply ste_quoted|eapply ste_known]; eauto.
      + eapply ste_unknown; eauto.
  Qed.
  Lemma struct_entries_nil l l' : struct_entries X E d fs V l [] l' <-> l' = l.
  Proof. split; [intros H; inversion H; reflexivity|intros ->; constructor]. Qed.
  Lemma struct_entries_app l es1 es2 l' :
    struct_entries X E d fs V l (es1 ++ es2) l' <->
    exists l1, struct_entries X E d fs V l es1 l1 /\ struct_entries X E d fs V l1 es2 l'.
  Proof.
    revert l. induction es1 as [|e es1 IH]; intros l; cbn [app].
    - split; [intros H; exists l; split; [constructor|exact H]|]. intros (l1 & H1 & H2). apply struct_entries_nil in H1 as ->. exact H2.
    - rewrite struct_entries_cons. split.
      + intros (l1 & Hs & H). apply IH in H as (l2 & H1 & H2). exists l2. split; [|exact H2]. apply struct_entries_cons. eauto.
      + intros (l2 & H1 & H2). apply struct_entries_cons in H1 as (l1 & Hs & H1). exists l1. split; [exact Hs|]. apply IH. eauto.
  Qed.

  Lemma drop_unknown l es1 es2 l' kp k u : key_text kp k -> lookup X fs k = None -> strict d u ->
    struct_entries X E d fs V l (es1 ++ (kp, u) :: es2) l' <-> struct_entries X E d fs V l (es1 ++ es2) l'.
  Proof.
    intros Hk Hl Hu. rewrite !struct_entries_app. split; intros (l1 & H1 & H2); exists l1; (split; [exact H1|]).
    - apply struct_entries_cons in H2 as (l2 & Hs & H2). inversion Hs as [l0 kp' k' i f p old v Hk' Hf Hn Hv|]; subst; [|exact H2].
      exfalso. assert (k' = k) as -> by (rewrite <- (key_text_entry _ _ u Hk), <- (key_text_entry _ _ u Hk'); reflexivity). congruence.
    - apply struct_entries_cons. exists l1. split; [|exact H2]. eapply step_unknown; eauto.
  Qed.

  Lemma step_swap l e1 e2 l1 l2 : entry_key e1 <> entry_key e2 -> step l e1 l1 -> step l1 e2 l2 ->
    exists l1', step l e2 l1' /\ step l1' e1 l2.
  Proof.
    intros Hne H1 H2.
    inversion H1 as [l0 kp k i f p old v Hk Hf Hn Hv|l0 kp k p Hk Hf Hst]; subst;
    inversion H2 as [l0 kp' k' i' f' p' old' v' Hk' Hf' Hn' Hv'|l0 kp' k' p' Hk' Hf' Hst']; subst.
    - rewrite (key_text_entry _ _ _ Hk), (key_text_entry _ _ _ Hk') in Hne.
      assert (i <> i') as Hi.
      { intros ->. apply lookup_spec in Hf as (Hf & _ & Ek). apply lookup_spec in Hf' as (Hf' & _ & Ek'). congruence. }
      rewrite nth_error_update_ne in Hn' by exact Hi.
      exists (update l i' v'). split; [eapply step_known; eauto|]. rewrite update_comm by exact Hi. eapply step_known; eauto.
      rewrite nth_error_update_ne by congruence. exact Hn.
    - exists l. split; [eapply step_unknown; eauto|eapply step_known; eauto].
    - exists (update l1 i' v'). split; [eapply step_known; eauto|eapply step_unknown; eauto].
    - exists l2. split; eapply step_unknown; eauto.
  Qed.
  Lemma struct_perm es es' : Permutation es es' -> NoDup (map entry_key es) -> forall l l',
    struct_entries X E d fs V l es l' -> struct_entries X E d fs V l es' l'.
  Proof.
    induction 1 as [|e es es' HP IH|e1 e2 es|es es1 es2 HP1 IH1 HP2 IH2]; intros Hnd l l' H.
    - exact H.
    - cbn in Hnd. inversion Hnd; subst. apply struct_entries_cons in H as (l1 & Hs & H). apply struct_entries_cons. exists l1. auto.
    - cbn in Hnd. inversion Hnd as [|? ? Hnin]; subst.
      apply struct_entries_cons in H as (l1 & Hs1 & H). apply struct_entries_cons in H as (l2 & Hs2 & H).
      destruct (step_swap l e2 e1 l1 l2) as (l1' & Ha & Hb); auto.
      { intros Heq. apply Hnin. rewrite Heq. left. reflexivity. }
      apply struct_entries_cons. exists l1'. split; [exact Ha|]. apply struct_entries_cons. eauto.
    - apply IH2; [|apply IH1; auto]. eapply Permutation_NoDup; [|exact Hnd]. apply Permutation_map. exact HP1.
  Qed.

  (** what happens to each field *)
  Lemma step_length l e l1 : step l e l1 -> length l1 = length l.
  Proof. intros H. inversion H; subst; [apply upd_length|reflexivity]. Qed.
  Lemma struct_length l es l' : struct_entries X E d fs V l es l' -> length l' = length l.
  Proof.
    revert l. induction es as [|e es IH]; intros l H; [apply struct_entries_nil in H as ->; reflexivity|].
    apply struct_entries_cons in H as (l1 & Hs & H). rewrite (IH _ H). eapply step_length; eauto.
  Qed.
  Lemma step_untouched l e l1 i f : step l e l1 -> nth_error fs i = Some f ->
    (is_ignored f = true \/ entry_key e <> field_key X f) -> nth_error l1 i = nth_error l i.
  Proof.
    intros H Hn Hi. inversion H as [l0 kp k j g p old v Hk Hf Hn' Hv|]; subst; [|reflexivity].
    rewrite (key_text_entry _ _ _ Hk) in Hi. apply lookup_spec in Hf as (Hg & Hig & Hkg).
    apply nth_error_update_ne. intros ->. assert (g = f) as -> by congruence. destruct Hi; congruence.
  Qed.
  Lemma struct_untouched l es l' i f : struct_entries X E d fs V l es l' -> nth_error fs i = Some f ->
    (is_ignored f = true \/ ~ In (field_key X f) (map entry_key es)) -> nth_error l' i = nth_error l i.
  Proof.
    revert l. induction es as [|e es IH]; intros l H Hn Hi; [apply struct_entries_nil in H as ->; reflexivity|].
    apply struct_entries_cons in H as (l1 & Hs & H). rewrite (IH _ H Hn).
    - eapply step_untouched; eauto. destruct Hi as [Hi|Hi]; [auto|right]. intros He. apply Hi. left. exact He.
    - destruct Hi as [Hi|Hi]; [auto|right]. intros He. apply Hi. right. exact He.
  Qed.
  (** a field named once gets the value of its entry *)
  Lemma struct_field l es l' i f kp p : struct_entries X E d fs V l es l' -> NoDup (map entry_key es) ->
    nth_error fs i = Some f -> is_ignored f = false -> lookup X fs (field_key X f) = Some (i, f) ->
    In (kp, p) es -> key_text kp (field_key X f) ->
    exists old v, nth_error l i = Some old /\ nth_error l' i = Some v /\ FV f p old v.
  Proof.
    intros H Hnd Hn Hi Hl Hin Hk. apply in_split in Hin as (es1 & es2 & ->).
    assert (Permutation (es1 ++ (kp, p) :: es2) ((kp, p) :: es1 ++ es2)) as HP by (symmetry; apply Permutation_middle).
    apply (struct_perm _ _ HP Hnd) in H. apply struct_entries_cons in H as (l1 & Hs & H).
    assert (~ In (field_key X f) (map entry_key (es1 ++ es2))) as Hnin.
    { eapply Permutation_NoDup in Hnd; [|apply (Permutation_map entry_key), HP]. cbn in Hnd. inversion Hnd; subst.
      rewrite (key_text_entry _ _ p Hk) in *. assumption. }
    inversion Hs as [l0 kp' k' j g p' old v Hk' Hf Hn' Hv|l0 kp' k' p' Hk' Hf Hst]; subst;
      (assert (k' = field_key X f) as -> by (rewrite <- (key_text_entry _ _ p Hk), <- (key_text_entry _ _ p Hk'); reflexivity)); [|congruence].
    rewrite Hl in Hf. injection Hf as <- <-. exists old, v. split; [exact Hn'|]. split; [|exact Hv].
    rewrite (struct_untouched _ _ _ i f H Hn (or_intror Hnin)). apply nth_error_update_eq. eapply nth_error_lt; eauto.
  Qed.
End Steps.

(** ** As seen by the caller *)
Section Caller.
  Context (X : Ext) (E : env).

  Lemma supported_component T U : supported X E T -> component E T U -> supported X E U.
  Proof. intros H HC. eapply supported_inside; eauto. eapply in_step; [apply in_refl|exact HC]. Qed.

  Lemma body_not_null p n es : body_of p n es -> p <> LNull.
  Proof. intros H. inversion H; discriminate. Qed.
  Lemma body_of_inj p n es n' es' : body_of p n es -> body_of p n' es' -> n = n' /\ es = es'.
  Proof. intros H H'. inversion H; subst; inversion H'; subst; auto. Qed.
  Lemma store_struct_iff d T id fs p n es v w : plain E T (KStruct id fs) -> body_of p n es -> numeral n -> d < limit ->
    store X E d T p v w <-> exists l l', v = VStruct l /\ w = VStruct l' /\ struct_entries X E (d + 1) fs (store X E (d + 1)) l es l'.
  Proof.
    intros Hk Hb Hn Hd. split.
    - intros H. apply (store_struct_inv X E d T id fs) in H as (_ & [[-> _]|(n' & es' & l & l' & Hb' & _ & -> & -> & H)]); [| |exact Hk].
      + exfalso. eapply body_not_null; eauto.
      + destruct (body_of_inj _ _ _ _ _ Hb Hb') as [<- <-]. eauto.
    - intros (l & l' & -> & -> & H). eapply sto_struct; eauto.
  Qed.
  Lemma wf_body_numeral p n es : wf p -> body_of p n es -> numeral n.
  Proof. intros Hw Hb. inversion Hb; subst; inversion Hw; assumption. Qed.

  (** the entries decode in the same way: for struct destinations only the entries matter *)
  Lemma decodes_struct T id fs p n es v w : small (text p) -> wf p -> supported X E T ->
    plain E T (KStruct id fs) -> body_of p n es ->
    Decodes X E (text p) T v w <->
    exists l l', v = VStruct l /\ w = VStruct l' /\ struct_entries X E 1 fs (store X E 1) l es l'.
  Proof.
    intros Hsm Hw Hs Hk Hb. rewrite decodes_text by assumption.
    rewrite (store_struct_iff 0 T id fs p n es v w Hk Hb (wf_body_numeral _ _ _ Hw Hb)) by reflexivity. reflexivity.
  Qed.

  Lemma unknown_key_skipped T id fs p n p' n' es1 es2 kp k u v w :
    small (text p) -> small (text p') -> wf p -> wf p' -> supported X E T -> plain E T (KStruct id fs) ->
    body_of p n (es1 ++ (kp, u) :: es2) -> body_of p' n' (es1 ++ es2) ->
    key_text kp k -> (forall f, In f fs -> is_ignored f = false -> field_key X f <> k) -> strict 1 u ->
    Decodes X E (text p) T v w <-> Decodes X E (text p') T v w.
  Proof.
    intros Hsm Hsm' Hw Hw' Hs Hk Hb Hb' Hkt Hf Hu. apply lookup_none in Hf.
    rewrite (decodes_struct T id fs p n _ v w Hsm Hw Hs Hk Hb), (decodes_struct T id fs p' n' _ v w Hsm' Hw' Hs Hk Hb').
    split; intros (l & l' & -> & -> & H); exists l, l'; (split; [reflexivity|split; [reflexivity|]]); eapply drop_unknown; eauto.
  Qed.
  (** an unknown key whose value is not strictly well formed spoils the input *)
  Lemma unknown_key_strict T id fs p n es kp k u v w :
    small (text p) -> wf p -> plain E T (KStruct id fs) -> body_of p n es -> In (kp, u) es ->
    key_text kp k -> (forall f, In f fs -> is_ignored f = false -> field_key X f <> k) ->
    Decodes X E (text p) T v w -> strict 1 u.
  Proof.
    intros Hsm Hw Hk Hb Hin Hkt Hf H. apply lookup_none in Hf.
    apply decodes_inv in H as (Hs & q & Ht & Hst); [|exact Hsm].
    assert (q = p) as -> by (destruct (text_inj q p [] [] (store_wf _ _ _ _ _ _ _ Hst) Hw) as [-> _]; [rewrite !app_nil_r; auto|reflexivity]).
    apply (store_struct_iff 0 T id fs p n es v w Hk Hb (wf_body_numeral _ _ _ Hw Hb)) in Hst as (l & l' & -> & -> & He); [|reflexivity].
    clear Hb. revert l He. induction es as [|e es IH]; intros l He; [destruct Hin|].
    apply struct_entries_cons in He as (l1 & Hstep & He). destruct Hin as [->|Hin]; [|eapply IH; eauto].
    inversion Hstep as [l0 kp' k' j g p' old v Hk' Hf' Hn' Hv|l0 kp' k' p' Hk' Hf' Hst']; subst; [|exact Hst'].
    assert (k' = k) as -> by (rewrite <- (key_text_entry _ _ u Hkt), <- (key_text_entry _ _ u Hk'); reflexivity). congruence.
  Qed.

  Lemma field_order_irrelevant T id fs p n p' n' es es' v w :
    small (text p) -> small (text p') -> wf p -> wf p' -> supported X E T -> plain E T (KStruct id fs) ->
    body_of p n es -> body_of p' n' es' -> Permutation es es' -> NoDup (map entry_key es) ->
    Decodes X E (text p) T v w <-> Decodes X E (text p') T v w.
  Proof.
    intros Hsm Hsm' Hw Hw' Hs Hk Hb Hb' HP Hnd.
    rewrite (decodes_struct T id fs p n _ v w Hsm Hw Hs Hk Hb), (decodes_struct T id fs p' n' _ v w Hsm' Hw' Hs Hk Hb').
    split; intros (l & l' & -> & -> & H); exists l, l'; (split; [reflexivity|split; [reflexivity|]]).
    - eapply struct_perm; eauto.
    - eapply struct_perm; [symmetry; exact HP| |exact H]. eapply Permutation_NoDup; [|exact Hnd]. apply Permutation_map. exact HP.
  Qed.

  Lemma in_small (p : lval) n es e : body_of p n es -> In e es -> small (text p) -> small (text (snd e)).
  Proof. intros Hb Hin. apply small_le. apply body_of_len in Hb. pose proof (in_body e es Hin). lia. Qed.
  Lemma in_wf (p : lval) n es e : body_of p n es -> In e es -> wf p -> wf (fst e) /\ wf (snd e).
  Proof.
    intros Hb Hin Hw. inversion Hb; subst; inversion Hw; subst;
      match goal with H : Forall _ es |- _ => rewrite Forall_forall in H; apply H; exact Hin end.
  Qed.
  (** a value stored one level down is what decoding it on its own stores *)
  Lemma decodes_inner T p v w : small (text p) -> wf p -> supported X E T -> store X E 1 T p v w -> Decodes X E (text p) T v w.
  Proof.
    intros Hsm Hw Hs H. apply decodes_text; auto. eapply store_shift; [|exact H].
    apply store_nest in H. unfold nest_le, limit in *. pose proof (nesting_nonneg p). lia.
  Qed.
  Lemma inner_decodes T p v w : small (text p) -> wf p -> supported X E T -> 1 + nesting p < limit ->
    Decodes X E (text p) T v w -> store X E 1 T p v w.
  Proof. intros Hsm Hw Hs Hn H. apply decodes_text in H; auto. eapply store_shift; [|exact H]. exact Hn. Qed.

  Lemma fields_after T id fs p n es l w : small (text p) -> wf p -> plain E T (KStruct id fs) ->
    body_of p n es -> Decodes X E (text p) T (VStruct l) w ->
    exists l', w = VStruct l' /\ length l' = length l /\
    (forall i f, nth_error fs i = Some f -> is_ignored f = true \/ ~ In (field_key X f) (map entry_key es) ->
       nth_error l' i = nth_error l i) /\
    (NoDup (map entry_key es) -> forall i f kp u, nth_error fs i = Some f -> is_ignored f = false -> string_tagged X E f = false ->
       In (kp, u) es -> key_text kp (field_key X f) ->
       exists old new, nth_error l i = Some old /\ nth_error l' i = Some new /\ Decodes X E (text u) (f_ty f) old new).
  Proof.
    intros Hsm Hw Hk Hb H. pose proof H as Hs. apply decodes_inv in Hs as [Hs _]; [|exact Hsm].
    apply (decodes_struct T id fs p n es _ w Hsm Hw Hs Hk Hb) in H as (l0 & l' & Hl & -> & H). injection Hl as <-.
    exists l'. split; [reflexivity|]. split; [eapply struct_length; eauto|]. split.
    - intros i f Hn Hi. eapply struct_untouched; eauto.
    - intros Hnd i f kp u Hn Hi Hst Hin Hkt.
      pose proof (lookup_unique X E T id fs i f Hk Hs Hn Hi) as Hlu.
      destruct (struct_field X E 1 fs (store X E 1) l es l' i f kp u H Hnd Hn Hi Hlu Hin Hkt) as (old & new & Ho & Hnew & HV).
      exists old, new. split; [exact Ho|]. split; [exact Hnew|]. unfold FV in HV. rewrite Hst in HV.
      destruct (in_wf _ _ _ _ Hb Hin Hw). eapply decodes_inner; eauto.
      + eapply (in_small p n es (kp, u)); eauto.
      + eapply supported_component; eauto. eapply co_field; eauto. eapply nth_error_In; eauto.
  Qed.

  (** ** C17: null *)
  Lemma null_store T v w : (forall t, plain E T (KPtr t) -> is_ptr E t = false) -> store X E 0 T LNull v w <-> null_result E T v w.
  Proof.
    intros Hp. unfold null_result. split.
    - intros H. inversion H; subst; try (match goal with HH : plain _ _ _ |- _ => destruct HH as [Hu Hk]; rewrite Hu, ?Hk end);
        try match goal with HH : has_unmarshal _ _ = Some _, HT : has_unmarshal _ T = Some _ |- _ => rewrite HT end;
        try reflexivity; try congruence.
      + rewrite H0. reflexivity.
      + destruct k; try discriminate; reflexivity.
      + match goal with HH : any_val _ _ _ _ |- _ => inversion HH; reflexivity end.
      + match goal with HH : is_byte _ _ = _ |- _ => rewrite HH; reflexivity end.
      + match goal with HH : is_byte _ _ = _ |- _ => rewrite HH; reflexivity end.
      + match goal with HB : body_of LNull _ _ |- _ => inversion HB end.
      + match goal with HB : body_of LNull _ _ |- _ => inversion HB end.
    - assert (0 < limit) as HL by reflexivity.
      destruct (has_unmarshal E T) as [n|] eqn:Hu; [intros ->; eapply sto_unm_null; eauto|].
      destruct (kind_of E T) eqn:Hk; intros H; try contradiction; try (subst w; eapply sto_scalar_null; [split; eassumption|reflexivity]).
      + destruct (is_byte E t) eqn:Hb; subst w; [eapply sto_bytes_null|eapply sto_slice_null]; try (split; eassumption); auto.
      + subst w. eapply sto_array_null; [split; eassumption|auto].
      + subst w. eapply sto_map_null; [split; eassumption|auto].
      + subst w. eapply sto_ptr_null; [split; eassumption|apply Hp; split; auto].
      + subst w. eapply sto_any; [split; eassumption|constructor].
      + subst w.
        destruct v as [| | | | | | | | | |[[ty vv]|]| |]; try (eapply sto_iface_null; [split; eassumption|intros; discriminate]).
        destruct ty as [| | | | | | | | |t| | | |]; try (eapply sto_iface_null; [split; eassumption|intros; discriminate]).
        destruct vv as [| | | | | | | | |o| | |]; try (eapply sto_iface_null; [split; eassumption|intros; discriminate]).
        destruct (has_unmarshal E t) as [n|] eqn:Hu'.
        * eapply sto_iface_unm_null; [split; eassumption|reflexivity|exact Hu'].
        * eapply sto_iface_null; [split; eassumption|]. intros t0 n p He. injection He as <- <-. congruence.
      + subst w. eapply sto_struct_null; [split; eassumption|auto].
  Qed.
  Lemma null_decodes T v w : supported X E T ->
    Decodes X E (bs "N;") T v w <-> null_result E T v w.
  Proof.
    intros Hs. change (bs "N;") with (text LNull). rewrite decodes_text; [apply null_store|reflexivity|constructor|exact Hs].
    intros t Hk. destruct (is_ptr E t) eqn:Ep; [|reflexivity]. exfalso. apply (proj1 Hs T); [apply in_refl|]. eapply us_ptr; eauto.
  Qed.
End Caller.
