(** Proofs for C84: the order of entries does not matter to Unmarshal. *)
From Coq Require Import Strings.String Strings.Byte ZArith List Bool Lia Permutation.
From Verif Require Import Base GoTypes Tags Unmarshal Grammar Denote Elements NumFacts TextFacts Typing Api CompileFacts UnmFacts StoreFacts StructFacts SeqFacts MapSpec MapFacts Reorder.
Import ListNotations.
Open Scope Z_scope.

(** ** Looking the same *)
Definition both {A} (R : A -> A -> Prop) (a b : option A) : Prop :=
  match a, b with Some x, Some y => R x y | None, None => True | _, _ => False end.
Lemma looks_refl v : looks_same v v. Proof. intros p. reflexivity. Qed.
Lemma looks_sym v w : looks_same v w -> looks_same w v. Proof. intros A p. symmetry. apply A. Qed.
Lemma looks_trans u v w : looks_same u v -> looks_same v w -> looks_same u w.
Proof. intros A B p. rewrite (A p). apply B. Qed.
Lemma looks_face v w : looks_same v w -> face v = face w.
Proof. intros A. specialize (A []). cbn in A. congruence. Qed.
Lemma looks_into s v w : looks_same v w -> both looks_same (into s v) (into s w).
Proof.
  intros A. pose proof (A [s]) as A1. cbn [walk] in A1.
  destruct (into s v) as [x|] eqn:Q, (into s w) as [y|] eqn:Q'; cbn in A1; try discriminate A1; cbn; [|exact I].
  intros p. specialize (A (s :: p)). cbn [walk] in A. rewrite Q, Q' in A. exact A.
Qed.
Lemma looks_intro v w : face v = face w -> (forall s, both looks_same (into s v) (into s w)) -> looks_same v w.
Proof.
  intros F A [|s p]; cbn [walk]; [cbn; congruence|]. specialize (A s). destruct (into s v), (into s w); cbn in A; try contradiction; [apply A|reflexivity].
Qed.
Lemma blank_length l l' : blank l = blank l' -> length l = length l'.
Proof. intros Q. apply (f_equal (@length _)) in Q. unfold blank in Q. rewrite !map_length in Q. exact Q. Qed.
Lemma length_blank l l' : length l = length l' -> blank l = blank l'.
Proof. revert l'. induction l as [|x l IH]; intros [|y l'] Q; try discriminate; [reflexivity|]. cbn. f_equal. apply IH. injection Q as Q. exact Q. Qed.
Lemma nth_forall2 (l l' : list gval) : length l = length l' -> (forall i, both looks_same (nth_error l i) (nth_error l' i)) -> Forall2 looks_same l l'.
Proof.
  revert l'. induction l as [|x l IH]; intros [|y l'] Q A; try discriminate; constructor; [exact (A 0%nat)|].
  apply IH; [injection Q as Q; exact Q|]. intros i. exact (A (S i)).
Qed.
Lemma forall2_nth l l' : Forall2 looks_same l l' -> forall i, both looks_same (nth_error l i) (nth_error l' i).
Proof. induction 1 as [|x y l l' A _ IH]; intros [|i]; cbn; auto. Qed.
Lemma forall2_len {A B} (R : A -> B -> Prop) l l' : Forall2 R l l' -> length l = length l'.
Proof. induction 1; cbn; congruence. Qed.
Lemma forall2_same l : Forall2 looks_same l l.
Proof. induction l; constructor; [apply looks_refl|assumption]. Qed.
Lemma forall2_trans a b c : Forall2 looks_same a b -> Forall2 looks_same b c -> Forall2 looks_same a c.
Proof.
  intros A. revert c. induction A as [|x y l l' R _ IH]; intros c B; inversion B as [|? z ? c' R' B']; subst; constructor; [eapply looks_trans; eassumption|apply IH, B'].
Qed.
Lemma same_slice l l' : looks_same (VSlice (Some l)) (VSlice (Some l')) <-> Forall2 looks_same l l'.
Proof.
  split.
  - intros A. apply nth_forall2; [|intros i; exact (looks_into (Element i) _ _ A)]. pose proof (looks_face _ _ A) as F. cbn in F. injection F as F. apply blank_length, F.
  - intros A. apply looks_intro; [cbn; do 2 f_equal; apply length_blank, (forall2_len _ _ _ A)|]. intros [i|q|]; cbn; [exact (forall2_nth _ _ A i)|exact I|exact I].
Qed.
Lemma same_array l l' : looks_same (VArr l) (VArr l') <-> Forall2 looks_same l l'.
Proof.
  split.
  - intros A. apply nth_forall2; [|intros i; exact (looks_into (Element i) _ _ A)]. pose proof (looks_face _ _ A) as F. cbn in F. injection F as F. apply blank_length, F.
  - intros A. apply looks_intro; [cbn; f_equal; apply length_blank, (forall2_len _ _ _ A)|]. intros [i|q|]; cbn; [exact (forall2_nth _ _ A i)|exact I|exact I].
Qed.
Lemma same_struct l l' : looks_same (VStruct l) (VStruct l') <-> Forall2 looks_same l l'.
Proof.
  split.
  - intros A. apply nth_forall2; [|intros i; exact (looks_into (Element i) _ _ A)]. pose proof (looks_face _ _ A) as F. cbn in F. injection F as F. apply blank_length, F.
  - intros A. apply looks_intro; [cbn; f_equal; apply length_blank, (forall2_len _ _ _ A)|]. intros [i|q|]; cbn; [exact (forall2_nth _ _ A i)|exact I|exact I].
Qed.
Definition maps_same (m m' : list (gval * gval)) : Prop := forall q, both looks_same (at_key q m) (at_key q m').
Lemma same_map m m' : looks_same (VMap (Some m)) (VMap (Some m')) <-> maps_same m m'.
Proof.
  split; [intros A q; exact (looks_into (Key q) _ _ A)|]. intros A. apply looks_intro; [reflexivity|]. intros [i|q|]; cbn; [exact I|exact (A q)|exact I].
Qed.
Lemma maps_refl m : maps_same m m. Proof. intros q. destruct (at_key q m); cbn; [apply looks_refl|exact I]. Qed.
Lemma maps_trans a b c : maps_same a b -> maps_same b c -> maps_same a c.
Proof.
  intros A B q. specialize (A q). specialize (B q). destruct (at_key q a), (at_key q b), (at_key q c); cbn in *; try contradiction; [eapply looks_trans; eassumption|exact I].
Qed.
Lemma same_ptr v v' : looks_same (VPtr (Some v)) (VPtr (Some v')) <-> looks_same v v'.
Proof.
  split; [intros A; exact (looks_into Follow _ _ A)|]. intros A. apply looks_intro; [reflexivity|]. intros [i|q|]; cbn; [exact I|exact I|exact A].
Qed.
Lemma same_iface t v v' : looks_same v v' -> looks_same (VIface (Some (t, v))) (VIface (Some (t, v'))).
Proof. intros A. apply looks_intro; [reflexivity|]. intros [i|q|]; cbn; [exact I|exact I|exact A]. Qed.
(** what looks like a struct, a map, a pointer is one *)
Lemma like_struct l v : looks_same (VStruct l) v -> exists l', v = VStruct l' /\ Forall2 looks_same l l'.
Proof.
  intros A. pose proof (looks_face _ _ A) as F. destruct v as [| | | | | |[]| |[]|[]|[[]|]|l'|]; cbn in F; try discriminate F.
  exists l'. split; [reflexivity|]. apply same_struct, A.
Qed.
Lemma like_map o v : looks_same (VMap o) v -> exists o', v = VMap o' /\ maps_same (held o) (held o').
Proof.
  intros A. pose proof (looks_face _ _ A) as F. destruct o as [m|], v as [| | | | | |[]| |[m'|]|[]|[[]|]|l'|]; cbn in F; try discriminate F.
  - exists (Some m'). split; [reflexivity|]. apply same_map, A.
  - exists None. split; [reflexivity|]. apply maps_refl.
Qed.
Lemma like_ptr o v : looks_same (VPtr o) v -> exists o', v = VPtr o' /\ both looks_same o o'.
Proof.
  intros A. pose proof (looks_face _ _ A) as F. destruct o as [u|], v as [| | | | | |[]| |[]|[u'|]|[[]|]|l'|]; cbn in F; try discriminate F.
  - exists (Some u'). split; [reflexivity|]. apply same_ptr, A.
  - exists None. split; [reflexivity|exact I].
Qed.

(** ** Induction *)
Lemma reordered_ind' (P : lval -> lval -> Prop) :
  P LNull LNull -> (forall b, P (LBool b) (LBool b)) -> (forall t, P (LInt t) (LInt t)) -> (forall t, P (LFloat t) (LFloat t)) ->
  (forall n s, P (LStr n s) (LStr n s)) ->
  (forall n es es', shuffled P es es' -> P (LArr n es) (LArr n es')) ->
  (forall cn cls n es es', shuffled P es es' -> P (LObj cn cls n es) (LObj cn cls n es')) ->
  forall p q, reordered p q -> P p q.
Proof.
  intros H1 H2 H3 H4 H5 H6 H7. fix IH 3. intros p q A.
  assert (forall es es', shuffled reordered es es' -> shuffled P es es') as G.
  { fix go 3. intros es es' S. destruct S as [|k p0 q0 es es' A0 S|k1 p1 q1 k2 p2 q2 es es' D A1 A2 S|a b c S1 S2].
    - constructor.
    - constructor; [exact (IH _ _ A0)|exact (go _ _ S)].
    - constructor; [exact D|exact (IH _ _ A1)|exact (IH _ _ A2)|exact (go _ _ S)].
    - exact (shu_trans _ _ _ _ (go _ _ S1) (go _ _ S2)). }
  destruct A as [|b|t|t|n s|n es es' S|cn cls n es es' S]; [exact H1|apply H2|apply H3|apply H4|apply H5|apply H6, G, S|apply H7, G, S].
Qed.
Lemma shuffled_mono (R R' : lval -> lval -> Prop) es es' : (forall p q, R p q -> R' p q) -> shuffled R es es' -> shuffled R' es es'.
Proof. intros HR S. induction S; [constructor|constructor; auto|constructor; auto|eapply shu_trans; eassumption]. Qed.
Lemma shuffled_len R es es' : shuffled R es es' -> length es = length es'.
Proof. induction 1; cbn [length]; congruence. Qed.

(** ** Lists of entries *)
Lemma key_is_det k a b : key_is k a -> key_is k b -> a = b.
Proof.
  intros A B. inversion A as [t z Ht|n s Hs]; subst; inversion B as [t' z' Ht'|n' s' Hs']; subst; [|reflexivity].
  f_equal. eapply NumFacts.int_text_det; eassumption.
Qed.
Lemma different_sym k1 k2 : different k1 k2 -> different k2 k1.
Proof. intros (a & b & A & B & N). exists b, a. auto. Qed.

(** [V'] does for [q] what [V] does for [p], up to the look of things *)
Definition follows (V V' : lval -> gval -> gval -> Prop) (p q : lval) : Prop :=
  forall v v' w, looks_same v v' -> V p v w -> exists w', V' q v' w' /\ looks_same w w'.

Section Slices.
  Context (slots : Z -> bool) (zv : gval) (V : lval -> gval -> gval -> Prop).
  Hypothesis Hmono : forall m n, 0 <= m <= n -> slots n = true -> slots m = true.

  Definition put (l : list gval) (i : nat) (v : gval) : list gval :=
    if Nat.ltb i (length l) then update l i v else l ++ repeat zv (i - length l) ++ [v].
  Lemma put_length l i v : length (put l i v) = Nat.max (length l) (S i).
  Proof.
    unfold put. destruct (Nat.ltb_spec i (length l)); [rewrite upd_length; lia|]. rewrite !app_length, repeat_length. cbn [length]. lia.
  Qed.
  Lemma put_nth l i v j : nth j (put l i v) zv = if Nat.eqb j i then v else nth j l zv.
  Proof.
    unfold put. destruct (Nat.ltb_spec i (length l)) as [Hi|Hi].
    - rewrite nth_update_z by exact Hi. reflexivity.
    - destruct (Nat.eqb_spec j i) as [->|Hne].
      + rewrite app_nth2 by exact Hi. rewrite app_nth2 by (rewrite repeat_length; lia). rewrite repeat_length, Nat.sub_diag. reflexivity.
      + destruct (Nat.ltb_spec j (length l)) as [Hj|Hj]; [rewrite app_nth1 by exact Hj; reflexivity|].
        rewrite app_nth2 by exact Hj. rewrite (nth_overflow l) by exact Hj.
        destruct (Nat.ltb_spec (j - length l) (i - length l)) as [Hk|Hk].
        * rewrite app_nth1 by (rewrite repeat_length; exact Hk). apply nth_repeat.
        * rewrite app_nth2 by (rewrite repeat_length; exact Hk). rewrite repeat_length.
          destruct (j - length l - (i - length l))%nat as [|[|n]] eqn:Q; [lia|reflexivity|reflexivity].
  Qed.
  Lemma put_comm l i j a b : i <> j -> put (put l i a) j b = put (put l j b) i a.
  Proof.
    intros N. apply (nth_ext _ _ zv zv); [rewrite !put_length; lia|]. intros k _. rewrite !put_nth.
    destruct (Nat.eqb_spec k i), (Nat.eqb_spec k j); subst; try reflexivity. congruence.
  Qed.
  (** one entry *)
  Lemma slice_cons l k p es l' : slice_entries slots zv V l ((k, p) :: es) l' <->
    exists t i v, k = LInt t /\ index_text t i /\ ((length l <= i)%nat -> Z.of_nat i < max_int64 /\ slots (Z.of_nat i + 1) = true) /\
      V p (nth i l zv) v /\ slice_entries slots zv V (put l i v) es l'.
  Proof.
    unfold put. split.
    - intros H. inversion H as [|? t i ? ? old v ? Hi Hn Hv Hr|? t i ? ? v ? Hi Hl Hm Hs Hv Hr]; subst; exists t, i, v; (split; [reflexivity|]); (split; [exact Hi|]).
      + pose proof (nth_error_lt _ _ _ Hn) as Lt. split; [lia|]. rewrite (nth_error_nth _ _ zv Hn). split; [exact Hv|].
        destruct (Nat.ltb_spec i (length l)); [exact Hr|lia].
      + split; [auto|]. rewrite nth_overflow by exact Hl. split; [exact Hv|]. destruct (Nat.ltb_spec i (length l)); [lia|exact Hr].
    - intros (t & i & v & -> & Hi & Hs & Hv & Hr). destruct (Nat.ltb_spec i (length l)) as [Lt|Ge].
      + eapply se_in; [exact Hi|exact (nth_error_nth' l zv Lt)|exact Hv|exact Hr].
      + destruct (Hs Ge) as [Hm Hsl]. rewrite nth_overflow in Hv by exact Ge. eapply se_grow; eassumption.
  Qed.
  Lemma same_nth l l' i : Forall2 looks_same l l' -> looks_same (nth i l zv) (nth i l' zv).
  Proof. intros A. revert i. induction A as [|x y l l' R _ IH]; intros [|i]; cbn; try apply looks_refl; [exact R|apply IH]. Qed.
  Lemma same_put l l' i v v' : Forall2 looks_same l l' -> looks_same v v' -> Forall2 looks_same (put l i v) (put l' i v').
  Proof.
    intros A B. apply nth_forall2; [rewrite !put_length, (forall2_len _ _ _ A); reflexivity|]. intros j.
    pose proof (put_length l i v) as L1. pose proof (put_length l' i v') as L2. pose proof (forall2_len _ _ _ A) as L.
    destruct (Nat.ltb_spec j (length (put l i v))) as [Lt|Ge].
    - rewrite (nth_error_nth' _ zv Lt). rewrite (nth_error_nth' (put l' i v') zv) by lia. cbn. rewrite !put_nth.
      destruct (Nat.eqb j i); [exact B|apply same_nth, A].
    - rewrite (proj2 (nth_error_None _ _) Ge). assert (length (put l' i v') <= j)%nat as Ge' by lia. rewrite (proj2 (nth_error_None _ _) Ge'). exact I.
  Qed.

  Lemma slice_sim es es' : shuffled (follows V V) es es' -> forall l l' r, Forall2 looks_same l l' ->
    slice_entries slots zv V l es r -> exists r', slice_entries slots zv V l' es' r' /\ Forall2 looks_same r r'.
  Proof.
    induction 1 as [|k p q es es' F _ IH|k1 p1 q1 k2 p2 q2 es es' D F1 F2 _ IH|a b c _ IH1 _ IH2]; intros l l' r A H.
    - inversion H; subst. exists l'. split; [constructor|exact A].
    - apply slice_cons in H as (t & i & v & -> & Hi & Hs & Hv & H). rewrite (forall2_len _ _ _ A) in Hs.
      destruct (F _ _ _ (same_nth _ _ i A) Hv) as (v' & Hv' & B). destruct (IH _ _ _ (same_put _ _ i _ _ A B) H) as (r' & H' & C).
      exists r'. split; [|exact C]. apply slice_cons. exists t, i, v'. auto.
    - apply slice_cons in H as (t1 & i & v1 & -> & Hi & Hs1 & Hv1 & H). apply slice_cons in H as (t2 & j & v2 & -> & Hj & Hs2 & Hv2 & H).
      pose proof (forall2_len _ _ _ A) as L. rewrite put_length in Hs2.
      assert (i <> j) as N.
      { intros <-. destruct D as (a & b & Ka & Kb & Nab). apply Nab.
        rewrite (key_is_det _ _ _ Ka (ki_int _ _ (proj1 Hi))), (key_is_det _ _ _ Kb (ki_int _ _ (proj1 Hj))). reflexivity. }
      rewrite put_nth in Hv2. destruct (Nat.eqb_spec j i) as [Q|_]; [congruence|].
      destruct (F1 _ _ _ (same_nth _ _ i A) Hv1) as (w1 & Hw1 & B1). destruct (F2 _ _ _ (same_nth _ _ j A) Hv2) as (w2 & Hw2 & B2).
      destruct (IH _ _ _ (same_put _ _ j _ _ (same_put _ _ i _ _ A B1) B2) H) as (r' & H' & C).
      exists r'. split; [|exact C]. apply slice_cons. exists t2, j, w2. split; [reflexivity|]. split; [exact Hj|].
      split; [|split; [exact Hw2|]].
      + intros Ge. rewrite <- L in Ge. destruct (Nat.leb_spec (Nat.max (length l) (S i)) j) as [Le|Lt]; [exact (Hs2 Le)|].
        assert (length l <= i)%nat as Gi by lia. destruct (Hs1 Gi) as [Hm Hsl]. split; [lia|]. apply (Hmono _ (Z.of_nat i + 1)); [lia|exact Hsl].
      + apply slice_cons. exists t1, i, w1. split; [reflexivity|]. split; [exact Hi|]. rewrite put_length, put_nth.
        destruct (Nat.eqb_spec i j) as [Q|_]; [congruence|]. split; [|split; [exact Hw1|rewrite put_comm by congruence; exact H']].
        intros Ge. apply Hs1. lia.
    - destruct (IH1 _ _ _ A H) as (r1 & H1 & B1). destruct (IH2 _ _ _ (forall2_same _) H1) as (r2 & H2 & B2).
      exists r2. split; [exact H2|]. eapply forall2_trans; eassumption.
  Qed.
End Slices.

(** Maps *)
Section Maps.
  Context (K : lval -> gval -> Prop) (V : lval -> gval -> Prop).
  Hypothesis Hkeys : forall k1 k2 a b, different k1 k2 -> K k1 a -> K k2 b -> key_eqb a b = false.
  Definition follows1 (p q : lval) : Prop := forall w, V p w -> exists w', V q w' /\ looks_same w w'.
  Lemma maps_set k v v' m m' : maps_same m m' -> looks_same v v' -> maps_same (map_set k v m) (map_set k v' m').
  Proof. intros A B q. rewrite !at_key_set. destruct (key_eqb k q); [exact B|apply A]. Qed.
  Lemma maps_swap k1 k2 v1 v2 m : key_eqb k1 k2 = false -> maps_same (map_set k2 v2 (map_set k1 v1 m)) (map_set k1 v1 (map_set k2 v2 m)).
  Proof.
    intros N q. rewrite !at_key_set. destruct (key_eqb k2 q) eqn:Q2, (key_eqb k1 q) eqn:Q1; try (destruct (at_key q m)); cbn; try exact I; try apply looks_refl.
    - rewrite (key_eqb_trans k1 q k2 Q1 (key_eqb_sym _ _ Q2)) in N. discriminate.
    - rewrite (key_eqb_trans k1 q k2 Q1 (key_eqb_sym _ _ Q2)) in N. discriminate.
  Qed.
  Lemma map_sim es es' : shuffled follows1 es es' -> forall m m' r, maps_same m m' -> map_entries K V m es r ->
    exists r', map_entries K V m' es' r' /\ maps_same r r'.
  Proof.
    induction 1 as [|k p q es es' F _ IH|k1 p1 q1 k2 p2 q2 es es' D F1 F2 _ IH|a b c _ IH1 _ IH2]; intros m m' r A H.
    - inversion H; subst. exists m'. split; [constructor|exact A].
    - inversion H as [|? ? ? ? kv vv ? Hk Hv Hh Hr]; subst. destruct (F _ Hv) as (v' & Hv' & B).
      destruct (IH _ _ _ (maps_set kv _ _ _ _ A B) Hr) as (r' & H' & C). exists r'. split; [|exact C]. eapply me_cons; eassumption.
    - inversion H as [|? ? ? ? kv1 vv1 ? Hk1 Hv1 Hh1 Hr1]; subst. inversion Hr1 as [|? ? ? ? kv2 vv2 ? Hk2 Hv2 Hh2 Hr2]; subst.
      destruct (F1 _ Hv1) as (w1 & Hw1 & B1). destruct (F2 _ Hv2) as (w2 & Hw2 & B2). pose proof (Hkeys _ _ _ _ D Hk1 Hk2) as N.
      assert (maps_same (map_set kv2 vv2 (map_set kv1 vv1 m)) (map_set kv1 w1 (map_set kv2 w2 m'))) as A2.
      { eapply maps_trans; [apply maps_swap, N|]. apply maps_set; [apply maps_set; [exact A|exact B2]|exact B1]. }
      destruct (IH _ _ _ A2 Hr2) as (r' & H' & C). exists r'. split; [|exact C].
      eapply me_cons; [exact Hk2|exact Hw2|exact Hh2|]. eapply me_cons; eassumption.
    - destruct (IH1 _ _ _ A H) as (r1 & H1 & B1). destruct (IH2 _ _ _ (maps_refl _) H1) as (r2 & H2 & B2).
      exists r2. split; [exact H2|]. eapply maps_trans; eassumption.
  Qed.
End Maps.

(** Steps that set one cell of a list of a fixed length, or none: arrays and
    structs *)
Lemma same_update l l' i v v' : Forall2 looks_same l l' -> looks_same v v' -> Forall2 looks_same (update l i v) (update l' i v').
Proof.
  intros A. revert i. induction A as [|x y l l' R A IH]; intros [|i] B; cbn [update]; try constructor; auto.
Qed.
Section Cells.
  (** the entry does nothing (to a list of this length), or sets a cell *)
  Context (none : nat -> lval -> lval -> Prop) (one : lval -> lval -> nat -> gval -> gval -> Prop).
  Hypothesis Hdiff : forall k1 k2 p q i j a b c d, different k1 k2 -> one k1 p i a b -> one k2 q j c d -> i <> j.
  Definition set_step (l : list gval) (e : lval * lval) (l1 : list gval) : Prop :=
    (none (length l) (fst e) (snd e) /\ l1 = l) \/
    exists i old v, nth_error l i = Some old /\ one (fst e) (snd e) i old v /\ l1 = update l i v.
  Inductive set_steps : list gval -> list (lval * lval) -> list gval -> Prop :=
  | sss_nil l : set_steps l [] l
  | sss_cons l e es l1 l2 : set_step l e l1 -> set_steps l1 es l2 -> set_steps l (e :: es) l2.
  Definition acts_alike (p q : lval) : Prop :=
    (forall n k, none n k p -> none n k q) /\
    (forall k i old old' v, looks_same old old' -> one k p i old v -> exists v', one k q i old' v' /\ looks_same v v').

  Lemma same_some l l' i x : Forall2 looks_same l l' -> nth_error l i = Some x -> exists x', nth_error l' i = Some x' /\ looks_same x x'.
  Proof. intros A Q. pose proof (forall2_nth _ _ A i) as B. rewrite Q in B. destruct (nth_error l' i) as [y|]; cbn in B; [eauto|contradiction]. Qed.
  Lemma step_sim k p q l l' l1 : acts_alike p q -> Forall2 looks_same l l' -> set_step l (k, p) l1 ->
    exists l1', set_step l' (k, q) l1' /\ Forall2 looks_same l1 l1'.
  Proof.
    intros [Fn Fo] A [[N ->]|(i & old & v & Q & O & ->)].
    - exists l'. split; [|exact A]. left. cbn [fst snd] in *. rewrite <- (forall2_len _ _ _ A). auto.
    - cbn [fst snd] in O. destruct (same_some _ _ _ _ A Q) as (old' & Q' & B). destruct (Fo _ _ _ _ _ B O) as (v' & O' & C).
      exists (update l' i v'). split; [|apply same_update; assumption]. right. exists i, old', v'. auto.
  Qed.
  Lemma step_len l e l1 : set_step l e l1 -> length l1 = length l.
  Proof. intros [[_ ->]|(i & old & v & _ & _ & ->)]; [reflexivity|apply upd_length]. Qed.
  Lemma step_swap k1 p1 k2 p2 l l1 l2 : different k1 k2 -> set_step l (k1, p1) l1 -> set_step l1 (k2, p2) l2 ->
    exists l1', set_step l (k2, p2) l1' /\ set_step l1' (k1, p1) l2.
  Proof.
    intros D S1 S2. pose proof (step_len _ _ _ S1) as L1.
    destruct S1 as [[N1 ->]|(i & x & v & Q1 & O1 & ->)].
    - exists l2. split; [exact S2|]. left. rewrite (step_len _ _ _ S2). auto.
    - destruct S2 as [[N2 ->]|(j & y & w & Q2 & O2 & ->)].
      + exists l. split; [left; rewrite <- L1; auto|]. right. exists i, x, v. auto.
      + cbn [fst snd] in *. pose proof (Hdiff _ _ _ _ _ _ _ _ _ _ D O1 O2) as N. rewrite nth_error_update_ne in Q2 by exact N.
        exists (update l j w). split; [right; exists j, y, w; auto|]. right. exists i, x, v. cbn [fst snd].
        rewrite nth_error_update_ne by congruence. split; [exact Q1|]. split; [exact O1|]. apply update_comm. exact N.
  Qed.
  Lemma steps_sim es es' : shuffled acts_alike es es' -> forall l l' r, Forall2 looks_same l l' -> set_steps l es r ->
    exists r', set_steps l' es' r' /\ Forall2 looks_same r r'.
  Proof.
    induction 1 as [|k p q es es' F _ IH|k1 p1 q1 k2 p2 q2 es es' D F1 F2 _ IH|a b c _ IH1 _ IH2]; intros l l' r A H.
    - inversion H; subst. exists l'. split; [constructor|exact A].
    - inversion H as [|? ? ? l1 ? S H1]; subst. destruct (step_sim _ _ _ _ _ _ F A S) as (l1' & S' & B).
      destruct (IH _ _ _ B H1) as (r' & H' & C). exists r'. split; [eapply sss_cons; eassumption|exact C].
    - inversion H as [|? ? ? l1 ? S1 H1]; subst. inversion H1 as [|? ? ? l2 ? S2 H2]; subst.
      destruct (step_swap _ _ _ _ _ _ _ D S1 S2) as (m1 & T1 & T2).
      destruct (step_sim _ _ _ _ _ _ F2 A T1) as (m1' & T1' & B1). destruct (step_sim _ _ _ _ _ _ F1 B1 T2) as (m2' & T2' & B2).
      destruct (IH _ _ _ B2 H2) as (r' & H' & C). exists r'. split; [|exact C]. eapply sss_cons; [exact T1'|]. eapply sss_cons; eassumption.
    - destruct (IH1 _ _ _ A H) as (r1 & H1 & B1). destruct (IH2 _ _ _ (forall2_same _) H1) as (r2 & H2 & B2).
      exists r2. split; [exact H2|]. eapply forall2_trans; eassumption.
  Qed.
End Cells.

Definition arr_none (d : Z) (n : nat) (k p : lval) : Prop :=
  exists t z, k = LInt t /\ int_text t z /\ Z.of_nat n <= z <= max_int64 /\ strict d p.
Definition arr_one (V : lval -> gval -> gval -> Prop) (k p : lval) (i : nat) (old v : gval) : Prop :=
  exists t, k = LInt t /\ index_text t i /\ V p old v.
Lemma array_steps d V l es l' : array_entries d V l es l' <-> set_steps (arr_none d) (arr_one V) l es l'.
Proof.
  split.
  - induction 1 as [l|l t i p es old v l' Hi Hn Hv _ IH|l t z p es l' Ht Hz Hs _ IH]; [constructor| |].
    + eapply sss_cons; [|exact IH]. right. exists i, old, v. split; [exact Hn|]. split; [exists t; auto|reflexivity].
    + eapply sss_cons; [|exact IH]. left. split; [|reflexivity]. exists t, z. cbn [fst snd]. unfold blen in Hz. auto.
  - induction 1 as [l|l [k p] es l1 l2 S _ IH]; [constructor|].
    destruct S as [[(t & z & Q & Ht & Hz & Hs) ->]|(i & old & v & Hn & (t & Q & Hi & Hv) & ->)]; cbn [fst snd] in *; subst k.
    + eapply ae_out; [exact Ht|exact Hz|exact Hs|exact IH].
    + eapply ae_in; eassumption.
Qed.
Lemma arr_diff V k1 k2 p q i j a b c d : different k1 k2 -> arr_one V k1 p i a b -> arr_one V k2 q j c d -> i <> j.
Proof.
  intros (x & y & Kx & Ky & N) (t & -> & Hi & _) (u & -> & Hj & _) <-. apply N.
  rewrite (key_is_det _ _ _ Kx (ki_int _ _ (proj1 Hi))), (key_is_det _ _ _ Ky (ki_int _ _ (proj1 Hj))). reflexivity.
Qed.

Definition str_none (X : Ext) (d : Z) (fs : list field) (n : nat) (k p : lval) : Prop :=
  exists name, key_text k name /\ lookup X fs name = None /\ strict d p.
Definition str_one (X : Ext) (E : env) (fs : list field) (V : gty -> lval -> gval -> gval -> Prop) (k p : lval) (i : nat) (old v : gval) : Prop :=
  exists name f, key_text k name /\ lookup X fs name = Some (i, f) /\ FV X E V f p old v.
Lemma struct_steps X E d fs V l es l' : struct_entries X E d fs V l es l' <-> set_steps (str_none X d fs) (str_one X E fs V) l es l'.
Proof.
  revert l. induction es as [|[k p] es IH]; intros l.
  - rewrite struct_entries_nil. split; [intros ->; constructor|intros H; inversion H; reflexivity].
  - rewrite struct_entries_cons. split.
    + intros (l1 & S & H). apply IH in H. eapply sss_cons; [|exact H].
      inversion S as [l0 kp k0 i f p0 old v Hk Hf Hn Hv|l0 kp k0 p0 Hk Hf Hst]; subst.
      * right. exists i, old, v. split; [exact Hn|]. split; [exists k0, f; auto|reflexivity].
      * left. split; [exists k0; auto|reflexivity].
    + intros H. inversion H as [|? ? ? l1 ? S H1]; subst. exists l1. split; [|apply IH, H1].
      destruct S as [[(name & Hk & Hl & Hs) ->]|(i & old & v & Hn & (name & f & Hk & Hl & Hv) & ->)]; cbn [fst snd] in *.
      * eapply step_unknown; eassumption.
      * eapply step_known; eassumption.
Qed.
Lemma str_diff X E fs V k1 k2 p q i j a b c d : different k1 k2 -> str_one X E fs V k1 p i a b -> str_one X E fs V k2 q j c d -> i <> j.
Proof.
  intros (x & y & Kx & Ky & N) (s & f & Hs & Lf & _) (u & g & Hu & Lg & _) <-. apply N.
  destruct (lookup_spec _ _ _ _ _ Lf) as (Nf & _ & Qf). destruct (lookup_spec _ _ _ _ _ Lg) as (Ng & _ & Qg).
  assert (g = f) as -> by congruence. assert (u = s) as -> by congruence.
  inversion Hs; subst; inversion Kx; subst. inversion Hu; subst; inversion Ky; subst. reflexivity.
Qed.

(** ** Everything stored *)
Lemma bytes_eqb_ne a b : a <> b -> bytes_eqb a b = false.
Proof. intros N. destruct (bytes_eqb a b) eqn:Q; [|reflexivity]. apply bytes_eqb_eq in Q. contradiction. Qed.
Lemma any_keys k1 k2 a b : different k1 k2 -> any_key k1 a -> any_key k2 b -> key_eqb a b = false.
Proof.
  intros (x & y & Kx & Ky & N) A B. inversion A as [n s Hs|t z Ht Hz]; subst; inversion B as [m u Hu|t' z' Ht' Hz']; subst; cbn; try reflexivity.
  - inversion Kx; subst. inversion Ky; subst. apply bytes_eqb_ne. congruence.
  - pose proof (key_is_det _ _ _ Kx (ki_int _ _ Ht)). pose proof (key_is_det _ _ _ Ky (ki_int _ _ Ht')). apply Z.eqb_neq. congruence.
Qed.
Lemma obj_keys k1 k2 a b : different k1 k2 -> obj_key k1 a -> obj_key k2 b -> key_eqb a b = false.
Proof.
  intros (x & y & Kx & Ky & N) A B. inversion A as [n s Hs|]; subst; inversion Kx; subst. inversion B as [m u Hu|]; subst; inversion Ky; subst.
  cbn. apply bytes_eqb_ne. congruence.
Qed.
Lemma stored_keys X E d T k1 k2 a b : has_unmarshal E T = None -> (forall m, kind_of E T <> KIface m) ->
  different k1 k2 -> store_key X E d T k1 a -> store_key X E d T k2 b -> key_eqb a b = false.
Proof.
  intros Hu Hi D A B. pose proof D as (x & y & Kx & Ky & N).
  inversion A as [? ? ? ? Hk Ha|? ? ? _ _ _]; subst; [|inversion Kx]. inversion B as [? ? ? ? _ Hb|? ? ? _ _ _]; subst; [|inversion Ky].
  destruct Hk as [Hk|Hk]; [congruence|]. destruct (kind_of E T) eqn:Q; try contradiction.
  - inversion Kx; subst; inversion Ha; subst; kinds.
  - inversion Kx as [t z Ht|]; subst; inversion Ha; subst; kinds. inversion Ky as [t' z' Ht'|]; subst; inversion Hb; subst; kinds.
    cbn. apply Z.eqb_neq. intros Qz. apply N.
    match goal with A : int_text t z0, B : int_text t' z1 |- _ => rewrite (key_is_det _ _ _ Kx (ki_int _ _ A)), (key_is_det _ _ _ Ky (ki_int _ _ B)), Qz end. reflexivity.
  - inversion Kx as [t z Ht|]; subst; inversion Ha; subst; kinds. inversion Ky as [t' z' Ht'|]; subst; inversion Hb; subst; kinds.
    cbn. apply Z.eqb_neq. intros Qz. apply N.
    match goal with A : numeral t, B : numeral t' |- _ => rewrite (key_is_det _ _ _ Kx (ki_int _ _ (it_pos _ A))), (key_is_det _ _ _ Ky (ki_int _ _ (it_pos _ B))), Qz end. reflexivity.
  - inversion Kx; subst; inversion Ha; subst; kinds. inversion Ky; subst; inversion Hb; subst; kinds. cbn. apply bytes_eqb_ne. congruence.
  - apply store_any_inv in Ha; [|split; assumption]. apply store_any_inv in Hb; [|split; assumption].
    apply (any_keys k1 k2); [exact D| |].
    + inversion Kx; subst; inversion Ha; subst; constructor; assumption.
    + inversion Ky; subst; inversion Hb; subst; constructor; assumption.
  - destruct (Hi _ eq_refl).
Qed.

Section Main.
  Context (X : Ext) (E : env).
  Hypothesis Hfit : shorter_fits X.

  Definition free (U : gty) : Prop := no_methods E U.
  Lemma free_in T U : free T -> component E T U -> free U.
  Proof.
    intros F C V I. apply F. clear F. induction I as [|V W I IH C']; [eapply in_step; [apply in_refl|exact C]|]. eapply in_step; eassumption.
  Qed.
  Definition Sim (p q : lval) : Prop :=
    (p = LNull <-> q = LNull) /\ (forall n s, p = LStr n s -> q = p) /\
    (forall d, strict d p -> strict d q) /\
    (forall d w, any_val X d p w -> exists w', any_val X d q w' /\ looks_same w w') /\
    (forall d T, free T -> is_ptr E T = false -> follows (store X E d T) (store X E d T) p q).

  Lemma sim_store p q d T : Sim p q -> free T -> follows (store X E d T) (store X E d T) p q.
  Proof.
    intros S F. destruct (is_ptr E T) eqn:Q; [|apply S; assumption]. assert (exists elem, kind_of E T = KPtr elem) as [elem K] by (unfold is_ptr in Q; destruct (kind_of E T); try discriminate Q; eauto). clear Q.
    destruct (F T (in_refl _ _)) as [Hu _]. intros v v' w A H. inversion H; subst; kinds.
    - exists (VPtr None). assert (q = LNull) as -> by (apply S; reflexivity). split; [|apply looks_refl]. eapply sto_ptr_null; [split; eassumption|assumption].
    - replace t with elem in * by congruence. apply like_ptr in A as (o' & -> & A).
      assert (free elem) as Fe by (eapply free_in; [exact F|apply co_ptr; split; assumption]).
      assert (looks_same (match o with Some v => v | None => zero E elem end) (match o' with Some v => v | None => zero E elem end)) as B.
      { destruct o, o'; cbn in A; try contradiction; [exact A|apply looks_refl]. }
      destruct S as (S1 & _ & _ & _ & S5). match goal with G : store _ _ _ elem _ _ _ |- _ => destruct (S5 d elem Fe ltac:(assumption) _ _ _ B G) as (w' & G' & C) end.
      exists (VPtr (Some w')). split; [|apply same_ptr, C]. eapply sto_ptr; [split; eassumption|assumption| |exact G'].
      intros ->. tauto.
  Qed.
  Lemma leaf d T p : (forall n es, ~ body_of p n es) -> (forall n es, p <> LArr n es) -> free T -> is_ptr E T = false -> follows (store X E d T) (store X E d T) p p.
  Proof.
    intros Nb Na F Np v v' w A H. destruct (F T (in_refl _ _)) as [Hu Hi].
    inversion H; subst; try congruence; try (exfalso; eapply Nb; eassumption); try (exfalso; eapply Na; reflexivity);
      try (kinds; fail); try (eexists; split; [econstructor; eassumption|first [exact A|apply looks_refl]]).
    exfalso. unfold is_ptr in Np. match goal with G : plain E T (KPtr _) |- _ => destruct G as [_ Q]; rewrite Q in Np end. discriminate Np.
  Qed.

  (** the body of an array or object *)
  Lemma sim_strict d es es' : shuffled Sim es es' -> Forall (fun e => strict d (fst e) /\ strict d (snd e)) es ->
    Forall (fun e => strict d (fst e) /\ strict d (snd e)) es'.
  Proof.
    assert (forall p q, Sim p q -> strict d p -> strict d q) as G by (intros p q S; apply S).
    induction 1 as [|k p q es es' F _ IH|k1 p1 q1 k2 p2 q2 es es' D F1 F2 _ IH|a b c _ IH1 _ IH2]; intros A.
    - constructor.
    - inversion A as [|? ? [A1 A2] A3]; subst. constructor; [|auto]. cbn [fst snd] in *. split; [exact A1|exact (G _ _ F A2)].
    - inversion A as [|? ? [A1 A2] A3]; subst. inversion A3 as [|? ? [A4 A5] A6]; subst. cbn [fst snd] in *.
      constructor; [split; [exact A4|exact (G _ _ F2 A5)]|]. constructor; [split; [exact A1|exact (G _ _ F1 A2)]|auto].
    - auto.
  Qed.
  Lemma sim_any (K : lval -> gval -> Prop) d es es' m : (forall k1 k2 a b, different k1 k2 -> K k1 a -> K k2 b -> key_eqb a b = false) -> shuffled Sim es es' ->
    map_entries K (any_val X d) [] es m -> exists m', map_entries K (any_val X d) [] es' m' /\ maps_same m m'.
  Proof.
    intros HK S H. apply (map_sim K (any_val X d) HK es es') with (m := []); [|apply maps_refl|exact H].
    eapply shuffled_mono; [|exact S]. intros p q A w Hw. apply A, Hw.
  Qed.
  Lemma sim_fields T id fs d p q f : plain E T (KStruct id fs) -> free T -> Sim p q -> In f fs -> is_ignored f = false ->
    follows (FV X E (store X E d) f) (FV X E (store X E d) f) p q.
  Proof.
    intros P F S I G v v' w A H. unfold FV in *. destruct (string_tagged X E f).
    - destruct S as (S1 & S2 & _). inversion H; subst.
      + rewrite (proj1 S1 eq_refl). eexists. split; [econstructor; eassumption|apply looks_refl].
      + rewrite (S2 _ _ eq_refl). apply like_ptr in A as (o' & -> & _). eexists. split; [econstructor; eassumption|apply looks_refl].
      + rewrite (proj1 S1 eq_refl). eexists. split; [apply sq_null; eassumption|exact A].
      + rewrite (S2 _ _ eq_refl). eexists. split; [apply sq_str; eassumption|apply looks_refl].
    - eapply sim_store; [exact S| |exact A|exact H]. eapply free_in; [exact F|]. eapply co_field; eassumption.
  Qed.
  Lemma sim_body d T n es es' (p q : lval) :
    (p = LArr n es /\ q = LArr n es') \/ (exists cn cls, p = LObj cn cls n es /\ q = LObj cn cls n es') ->
    (forall d w, any_val X d p w -> exists w', any_val X d q w' /\ looks_same w w') ->
    shuffled Sim es es' -> free T -> is_ptr E T = false -> follows (store X E d T) (store X E d T) p q.
  Proof.
    intros Hp HA S F Np v v' w A H. destruct (F T (in_refl _ _)) as [Hu Hi].
    assert (forall m ls, body_of p m ls -> m = n /\ ls = es /\ body_of q n es') as B1.
    { intros m ls B. destruct Hp as [[-> ->]|(cn & cls & -> & ->)]; inversion B; subst; repeat split; constructor; assumption. }
    assert (forall m ls, p = LArr m ls -> m = n /\ ls = es /\ q = LArr n es') as B2.
    { intros m ls ->. destruct Hp as [[Q ->]|(cn & cls & Q & _)]; [|discriminate Q]. injection Q as -> ->. auto. }
    assert (p <> LNull) as N1 by (destruct Hp as [[-> _]|(cn & cls & -> & _)]; discriminate).
    assert (forall n s, p <> LStr n s) as N2 by (destruct Hp as [[-> _]|(cn & cls & -> & _)]; discriminate).
    assert (forall t d, component E T t -> shuffled (follows (store X E d t) (store X E d t)) es es') as Fs.
    { intros t d0 C. eapply shuffled_mono; [|exact S]. intros a b Sab. apply sim_store; [exact Sab|]. eapply free_in; eassumption. }
    pose proof (shuffled_len _ _ _ S) as L. assert (es <> [] -> es' <> []) as Ne by (intros G ->; destruct es; [auto|discriminate L]).
    destruct (kind_of E T) as [| | | | | |t|k t|k t|t| |m| |id fs] eqn:K;
      try (exfalso; destruct Hp as [[-> _]|(cn & cls & -> & _)]; inversion H; subst; kinds; fail).
    - assert (plain E T (KSlice t)) as P by (split; assumption).
      destruct (store_slice_inv _ _ _ _ _ _ _ _ P H) as [[Q _]|[(m & s & Q & _)|[(Hd & Q & ->)|(m & ls & l & Hd & Q & Hn & H0 & Hm & Hsl & He & -> & Hl)]]];
        [contradiction|destruct (N2 _ _ Q)| |]; destruct (B2 _ _ Q) as (<- & <- & ->).
      + destruct es'; [|discriminate L]. exists (VSlice None). split; [apply (sto_slice_empty _ _ _ _ _ _ P Hd)|apply looks_refl].
      + destruct (slice_sim _ _ _ (Hfit t) _ _ (Fs t (d + 1) (co_slice _ _ _ P)) [] [] _ (Forall2_nil _) Hl) as (l' & Hl' & C).
        exists (VSlice (Some l')). split; [eapply sto_slice; eauto|apply same_slice, C].
    - assert (plain E T (KArray k t)) as P by (split; assumption).
      destruct (store_array_inv _ _ _ _ _ _ _ _ _ P H) as [Hd [[Q _]|[(Q & ->)|(m & ls & l & Q & Hn & H0 & Hm & He & -> & Hl)]]];
        [contradiction| |]; destruct (B2 _ _ Q) as (<- & <- & ->).
      + destruct es'; [|discriminate L]. eexists. split; [apply (sto_array_empty _ _ _ _ _ _ _ P Hd)|apply looks_refl].
      + apply array_steps in Hl.
        destruct (steps_sim (arr_none (d + 1)) _ (arr_diff (store X E (d + 1) t)) ls es') with (l := repeat (zero E t) k) (l' := repeat (zero E t) k) (r := l) as (l' & Hl' & C).
        * eapply shuffled_mono; [|exact S]. intros a b Sab. split.
          -- intros i key (tx & z & -> & Ht & Hz & Hs). exists tx, z. repeat split; try assumption; try apply Hz. apply Sab, Hs.
          -- intros key i old old' v1 Ho (tx & -> & Hi2 & Hv). destruct (sim_store a b (d + 1) t Sab (free_in _ _ F (co_array _ _ _ _ P)) _ _ _ Ho Hv) as (v2 & Hv2 & C).
             exists v2. split; [exists tx; auto|exact C].
        * apply forall2_same.
        * exact Hl.
        * exists (VArr l'). split; [eapply sto_array; eauto; apply array_steps, Hl'|apply same_array, C].
    - assert (plain E T (KMap k t)) as P by (split; assumption).
      destruct (store_map_inv _ _ _ _ _ _ _ _ _ P H) as [Hd [[Q _]|(m & ls & o & r & B & Hn & Hm & -> & -> & Hl)]]; [contradiction|].
      destruct (B1 _ _ B) as (-> & -> & B'). apply like_map in A as (o' & -> & A).
      destruct (map_sim (store_key X E (d + 1) k) (fun q w => store X E (d + 1) t q (zero E t) w)) with (es := es) (es' := es') (m := held o) (m' := held o') (r := r) as (r' & Hr & C).
      + intros k1 k2 a b D Ka Kb. destruct (F k) as [Hku Hki]; [eapply in_step; [apply in_refl|eapply co_key; exact P]|]. eapply stored_keys; eassumption.
      + eapply shuffled_mono; [|exact S]. intros a b Sab w1 Hw. exact (sim_store a b (d + 1) t Sab (free_in _ _ F (co_val _ _ _ _ P)) _ _ _ (looks_refl _) Hw).
      + exact A.
      + exact Hl.
      + exists (VMap (Some r')). split; [eapply sto_map; eauto|apply same_map, C].
    - exfalso. unfold is_ptr in Np. rewrite K in Np. discriminate Np.
    - assert (plain E T KAny) as P by (split; assumption). apply (store_any_inv _ _ _ _ _ _ _ P) in H. destruct (HA _ _ H) as (w' & H' & C). exists w'. split; [apply sto_any; assumption|exact C].
    - assert (plain E T (KStruct id fs)) as P by (split; assumption).
      destruct (store_struct_inv _ _ _ _ _ _ _ _ _ P H) as [Hd [[Q _]|(m & ls & l & r & B & Hn & -> & -> & Hl)]]; [contradiction|].
      destruct (B1 _ _ B) as (-> & -> & B'). apply like_struct in A as (l' & -> & A). apply struct_steps in Hl.
      destruct (steps_sim (str_none X (d + 1) fs) _ (str_diff X E fs (store X E (d + 1))) es es') with (l := l) (l' := l') (r := r) as (r' & Hr & C).
      + eapply shuffled_mono; [|exact S]. intros a b Sab. split.
        * intros i key (name & Hk & Hl0 & Hs). exists name. repeat split; try assumption. apply Sab, Hs.
        * intros key i old old' v1 Ho (name & f & Hk & Hf & Hv). destruct (lookup_spec _ _ _ _ _ Hf) as (Hnth & Hig & _).
          destruct (sim_fields T id fs (d + 1) a b f P F Sab (nth_error_In _ _ Hnth) Hig _ _ _ Ho Hv) as (v2 & Hv2 & C).
          exists v2. split; [exists name, f; auto|exact C].
      + exact A.
      + exact Hl.
      + exists (VStruct r'). split; [eapply sto_struct; eauto; apply struct_steps, Hr|apply same_struct, C].
  Qed.

  Theorem sim_all p q : reordered p q -> Sim p q.
  Proof.
    induction 1 as [|b|t|t|n s|n es es' S|cn cls n es es' S] using reordered_ind'.
    1-5: split; [|split; [|split; [|split]]]; try tauto; try (intros; discriminate); try (intros d w Hw; exists w; split; [exact Hw|apply looks_refl]);
      try (intros d T F Np; apply leaf; [intros ? ? B; inversion B|discriminate|exact F|exact Np]).
    - split; [split; discriminate|]. split; [discriminate|].
      assert (forall d w, any_val X d (LArr n es) w -> exists w', any_val X d (LArr n es') w' /\ looks_same w w') as HA.
      { intros d w H. inversion H as [| | | | |? ? ? m Hd Hn Hm Hl|]; subst. destruct (sim_any _ _ _ _ _ any_keys S Hl) as (m' & Hl' & C).
        eexists. split; [eapply av_arr; eassumption|]. apply same_iface, same_map, C. }
      split; [|split; [exact HA|]].
      + intros d H. inversion H as [| | | | |? ? ? Hd Hn Hm Hl|]; subst. apply st_arr; [exact Hd|exact Hn| |eapply sim_strict; eassumption].
        unfold blen in *. rewrite <- (shuffled_len _ _ _ S). exact Hm.
      + intros d T F Np. apply (sim_body d T n es es'); auto.
    - split; [split; discriminate|]. split; [discriminate|].
      assert (forall d w, any_val X d (LObj cn cls n es) w -> exists w', any_val X d (LObj cn cls n es') w' /\ looks_same w w') as HA.
      { intros d w H. inversion H as [| | | | | |? ? ? ? ? m Hd Hb Hn Hm Hl]; subst. destruct (sim_any _ _ _ _ _ obj_keys S Hl) as (m' & Hl' & C).
        eexists. split; [eapply av_obj; [exact Hd| |exact Hn|exact Hm|exact Hl']|apply same_iface, same_map, C]. inversion Hb; subst. constructor; assumption. }
      split; [|split; [exact HA|]].
      + intros d H. inversion H as [| | | | | |? ? ? ? ? Hd Hc1 Hc2 Hn Hm Hl]; subst. apply st_obj; try assumption; [|eapply sim_strict; eassumption].
        unfold blen in *. rewrite <- (shuffled_len _ _ _ S). exact Hm.
      + intros d T F Np. apply (sim_body d T n es es'); eauto.
  Qed.
End Main.

(** ** The two inputs *)
Lemma shuffled_sym (R : lval -> lval -> Prop) es es' : shuffled R es es' -> shuffled (fun p q => R q p) es' es.
Proof.
  induction 1 as [|k p q es es' F _ IH|k1 p1 q1 k2 p2 q2 es es' D F1 F2 _ IH|a b c _ IH1 _ IH2]; [constructor|constructor; assumption| |].
  - constructor; [apply different_sym, D|assumption..].
  - eapply shu_trans; eassumption.
Qed.
Lemma reordered_sym p q : reordered p q -> reordered q p.
Proof. induction 1 using reordered_ind'; constructor; apply (shuffled_sym (fun p q => reordered q p)); assumption. Qed.
Definition entry_text (e : lval * lval) : bytes := text (fst e) ++ text (snd e).
Lemma shuffled_text es es' : shuffled (fun p q => length (text p) = length (text q)) es es' ->
  length (flat_map entry_text es) = length (flat_map entry_text es').
Proof.
  induction 1 as [|k p q es es' F _ IH|k1 p1 q1 k2 p2 q2 es es' D F1 F2 _ IH|a b c _ IH1 _ IH2]; cbn [flat_map];
    unfold entry_text in *; cbn [fst snd] in *; rewrite ?app_length in *; lia.
Qed.
Lemma reordered_length p q : reordered p q -> length (text p) = length (text q).
Proof.
  induction 1 as [|b|t|t|n s|n es es' S|cn cls n es es' S] using reordered_ind'; try reflexivity;
    apply shuffled_text in S; cbn [text]; fold entry_text; rewrite !app_length, ?S; try reflexivity;
    unfold entry_text in S; rewrite S; reflexivity.
Qed.
Lemma reordered_small p q : reordered p q -> small (text p) -> small (text q).
Proof. intros R. unfold small, blen. rewrite (reordered_length _ _ R). auto. Qed.
Lemma shuffled_wf es es' : shuffled (fun p q => wf p -> wf q) es es' -> Forall (fun e => wf (fst e) /\ wf (snd e)) es -> Forall (fun e => wf (fst e) /\ wf (snd e)) es'.
Proof.
  induction 1 as [|k p q es es' F _ IH|k1 p1 q1 k2 p2 q2 es es' D F1 F2 _ IH|a b c _ IH1 _ IH2]; intros A; auto.
  - inversion A as [|? ? [A1 A2] A3]; subst. cbn [fst snd] in *. constructor; auto.
  - inversion A as [|? ? [A1 A2] A3]; subst. inversion A3 as [|? ? [A4 A5] A6]; subst. cbn [fst snd] in *. constructor; [auto|]. constructor; [auto|auto].
Qed.
Lemma reordered_wf p q : reordered p q -> wf p -> wf q.
Proof.
  induction 1 as [|b|t|t|n s|n es es' S|cn cls n es es' S] using reordered_ind'; auto; intros W; inversion W; subst; constructor; auto; eapply shuffled_wf; eassumption.
Qed.
