(** Marshal returns if the calls it makes without a recursion check cannot go on
    for ever. *)
From Coq Require Import Strings.String Strings.Byte ZArith List Bool Lia Permutation Arith.
From Verif Require Import Base GoTypes Strconv Tags Memory EncCompile Encode Php Repr EncApi EncCompileFacts EncTerm EncFacts Values Jobs.
Import ListNotations.
Open Scope Z_scope.

(** ** Computations with enough fuel *)
Definition rising {A} (F : nat -> M A) : Prop := forall f f', (f <= f')%nat -> mle (F f) (F f').
Definition ends {A} (F : nat -> M A) (s : st) : Prop := exists f, snd (F f s) <> RFuel.

Lemma ends_now {A} (m : M A) s : snd (m s) <> RFuel -> ends (fun _ => m) s.
Proof. intros Q. exists 0%nat. exact Q. Qed.
Lemma ends_bind {A B} (F : nat -> M A) (G : nat -> A -> M B) s : rising F -> (forall x, rising (fun f => G f x)) -> ends F s ->
  (forall f s1 x, F f s = (s1, ROk x) -> ends (fun f => G f x) s1) -> ends (fun f => bindM (F f) (G f)) s.
Proof.
  intros RF RG [f Hf] Hk. destruct (F f s) as [s1 [x|e|p|]] eqn:Q; cbn in Hf; try congruence.
  - destruct (Hk f s1 x Q) as [g Hg]. exists (Nat.max f g). unfold bindM.
    rewrite (RF f (Nat.max f g) ltac:(lia) s) by (rewrite Q; discriminate). rewrite Q.
    rewrite (RG x g (Nat.max f g) ltac:(lia) s1) by exact Hg. exact Hg.
  - exists f. unfold bindM. rewrite Q. discriminate.
  - exists f. unfold bindM. rewrite Q. discriminate.
Qed.
Lemma ends_map {A B} (F : nat -> M A) (k : A -> M B) s : (forall x s, snd (k x s) <> RFuel) -> ends F s -> ends (fun f => bindM (F f) k) s.
Proof.
  intros Hk [f Hf]. exists f. unfold bindM. destruct (F f s) as [s1 [x|e|p|]]; cbn in *; try congruence; try apply Hk.
Qed.
Lemma rising_bind {A B} (F : nat -> M A) (G : nat -> A -> M B) : rising F -> (forall x, rising (fun f => G f x)) -> rising (fun f => bindM (F f) (G f)).
Proof. intros RF RG f f' L. apply mle_bind; [apply RF; exact L|]. intros x. apply RG. exact L. Qed.


Section Halt.
  Context (X : Ext) (E : env) (H : heap) (ord : nat -> list (hval * hval) -> list (hval * hval)).
  Hypothesis Hord : fair_order ord.
  Notation calls := (calls X E H).
  Notation run := (run X E H ord).
  Notation enc := (enc_f X E H ord).

  (** ** What is left to enter *)
  Definition addrs : list addr :=
    flat_map (fun o => map_at X o :: match nth_error H o with Some (Cells l) => map (cell_at X o) (seq 0 (S (length l))) | _ => [] end) (seq 0 (length H)).
  Lemma addr_map o m : entries H o = Some m -> In (map_at X o) addrs.
  Proof.
    unfold entries. intros Q. apply in_flat_map. exists o. split; [|left; reflexivity].
    apply in_seq. split; [lia|]. cbn. apply nth_error_Some. intros N. rewrite N in Q. discriminate.
  Qed.
  Lemma addr_in o i l : nth_error H o = Some (Cells l) -> (i <= length l)%nat -> In (cell_at X o i) addrs.
  Proof.
    intros Q L. apply in_flat_map. exists o. split.
    - apply in_seq. split; [lia|]. cbn. apply nth_error_Some. congruence.
    - rewrite Q. right. apply List.in_map. apply in_seq. lia.
  Qed.
  Lemma addr_cell o i c : cell H o i = Some c -> In (cell_at X o i) addrs.
  Proof.
    unfold cell. destruct (nth_error H o) as [[l|m]|] eqn:Q; try discriminate. intros N. eapply addr_in; [exact Q|].
    assert (i < length l)%nat; [apply nth_error_Some; congruence|lia].
  Qed.
  Lemma addr_cells o i n l : cells H o i n = Some l -> In (cell_at X o i) addrs.
  Proof.
    unfold cells. destruct (nth_error H o) as [[l'|m]|] eqn:Q; try discriminate. destruct (Nat.leb_spec (i + n) (length l')); [|discriminate].
    intros _. eapply addr_in; [exact Q|lia].
  Qed.

  Definition room (s : st) : nat := (Z.to_nat (1000 - depth s) + length (filter (fun a => negb (has a (seen s))) addrs))%nat.
  Lemma room_eq s s' : seen s' = seen s -> depth s' = depth s -> room s' = room s.
  Proof. intros A B. unfold room. rewrite A, B. reflexivity. Qed.
  Lemma unseen_add a l : In a addrs -> has a l = false ->
    (length (filter (fun b => negb (has b (a :: l))) addrs) < length (filter (fun b => negb (has b l)) addrs))%nat.
  Proof.
    intros Ha Hn. induction addrs as [|b r IH]; [destruct Ha|]. cbn [filter].
    assert (length (filter (fun b => negb (has b (a :: l))) r) <= length (filter (fun b => negb (has b l)) r))%nat as Hle.
    { clear. induction r as [|b r IH]; cbn [filter]; [lia|]. unfold has at 1. cbn [existsb]. fold (has b l).
      destruct (b =? a); cbn [orb negb]; destruct (has b l); cbn [negb length]; lia. }
    destruct Ha as [->|Ha].
    - rewrite Hn. unfold has at 1. cbn [existsb]. assert (a =? a = true) as -> by (apply Z.eqb_eq; reflexivity). cbn [orb negb length]. lia.
    - specialize (IH Ha). unfold has at 1. cbn [existsb]. fold (has b l). destruct (b =? a); cbn [orb negb]; destruct (has b l); cbn [negb length]; lia.
  Qed.
  Lemma room_rec s a : In a addrs -> 1000 <? depth s + 1 = true -> has a (seen s) = false -> (room (St (a :: seen s) (depth s + 1) (iters s)) < room s)%nat.
  Proof. intros A B C. unfold room. cbn [seen depth]. pose proof (unseen_add a (seen s) A C). lia. Qed.
  Lemma room_depth s : 1000 <? depth s + 1 = false -> (room (St (seen s) (depth s + 1) (iters s)) < room s)%nat.
  Proof. intros B. apply Z.ltb_ge in B. unfold room. cbn [seen depth]. lia. Qed.
  Lemma room_seen s a : In a addrs -> has a (seen s) = false -> (room (St (a :: seen s) (depth s) (iters s)) < room s)%nat.
  Proof. intros A C. unfold room. cbn [seen depth]. pose proof (unseen_add a (seen s) A C). lia. Qed.

  Lemma ends_rec t F a s : In a addrs -> (forall s', (room s' < room s)%nat -> ends F s') -> ends (fun f => check_rec t a (F f)) s.
  Proof.
    intros Ha Hf. destruct (1000 <? depth s + 1) eqn:D; [destruct (has a (seen s)) eqn:Q|].
    - exists 0%nat. unfold check_rec. rewrite D, Q. discriminate.
    - destruct (Hf _ (room_rec s a Ha D Q)) as [f N]. exists f. unfold check_rec. rewrite D, Q. destruct (F f _) as [s' r]. exact N.
    - destruct (Hf _ (room_depth s D)) as [f N]. exists f. unfold check_rec. rewrite D. destruct (F f _) as [s' r]. exact N.
  Qed.
  Lemma ends_seen t F a s : (In a addrs -> forall s', (room s' < room s)%nat -> ends F s') -> (~ In a addrs -> forall s', ends F s') -> ends (fun f => check_seen t a (F f)) s.
  Proof.
    intros Hf Hn. destruct (has a (seen s)) eqn:Q.
    - exists 0%nat. unfold check_seen. rewrite Q. discriminate.
    - assert (ends F (St (a :: seen s) (depth s) (iters s))) as [f N].
      { destruct (in_dec Z.eq_dec a addrs) as [Ha|Ha];
        [apply Hf; [exact Ha|apply room_seen; assumption]|apply Hn; exact Ha]. }
      exists f. unfold check_seen. rewrite Q. destruct (F f _) as [s' r]. exact N.
  Qed.

  Lemma enc_rising m t v : rising (fun f => enc f m t v).
  Proof. intros f f' L. apply enc_mono. exact L. Qed.

  Lemma framed_ok {A} (m : M A) s s1 x : framed m -> m s = (s1, x) -> room s1 = room s.
  Proof. intros F Q. destruct (F s) as [A1 A2]. rewrite Q in *. apply room_eq; assumption. Qed.

  (** lists *)
  Lemma ends_elems k (e : nat -> hval -> M bytes) : (forall v, rising (fun f => e f v)) -> (forall f v, framed (e f v)) ->
    forall l, (forall x, In x l -> forall s, (room s <= k)%nat -> ends (fun f => e f x) s) ->
    forall i s, (room s <= k)%nat -> ends (fun f => enc_elems (e f) i l) s.
  Proof.
    intros R F. induction l as [|x l IH]; intros He i s Hs; cbn [enc_elems]; [apply ends_now; discriminate|].
    apply (ends_bind (fun f => e f x) (fun f b => _)).
    - apply R.
    - intros b. apply rising_bind; [|intros y f f' _; apply mle_refl]. intros f f' L. apply mle_elems. intros v. apply R. exact L.
    - apply He; [left; reflexivity|exact Hs].
    - intros f s1 b Q. apply ends_map; [discriminate|]. apply IH; [intros y Hy; apply He; right; exact Hy|]. rewrite (framed_ok _ _ _ _ (F f x) Q). exact Hs.
  Qed.
  Lemma ends_seq k (e : nat -> hval -> M bytes) l s : (forall v, rising (fun f => e f v)) -> (forall f v, framed (e f v)) ->
    (forall x, In x l -> forall s, (room s <= k)%nat -> ends (fun f => e f x) s) -> (room s <= k)%nat -> ends (fun f => enc_seq (e f) l) s.
  Proof. intros R F He Hs. unfold enc_seq. apply ends_map; [discriminate|]. eapply ends_elems; eauto. Qed.
  Lemma key_now kk y s : snd (enc_key X kk y s) <> RFuel.
  Proof.
    unfold enc_key, enc_scalar. destruct (enc_key_kind kk); [|discriminate].
    destruct kk as [|k|k| | | | | | | | | | |], y; try destruct k; try discriminate; try (destruct (int_ok _ _); discriminate); destruct (uint_ok _ _); discriminate.
  Qed.
  Lemma ends_pairs k kk (e : nat -> hval -> M bytes) : (forall v, rising (fun f => e f v)) -> (forall f v, framed (e f v)) ->
    forall l, (forall y x, In (y, x) l -> forall s, (room s <= k)%nat -> ends (fun f => e f x) s) ->
    forall s, (room s <= k)%nat -> ends (fun f => enc_pairs X kk (e f) l) s.
  Proof.
    intros R F. induction l as [|[y x] l IH]; intros He s Hs; cbn [enc_pairs]; [apply ends_now; discriminate|].
    assert (forall b, rising (fun f => b' <== enc_pairs X kk (e f) l ;; ret (b ++ b'))) as R1.
    { intros b. apply rising_bind; [|intros z f f' _; apply mle_refl]. intros f f' L. apply mle_pairs. intros v. apply R. exact L. }
    apply (ends_bind (fun _ => enc_key X kk y) (fun f b => _)).
    - intros f f' _. apply mle_refl.
    - intros b. apply rising_bind; [apply R|]. intros z. apply rising_bind; [|intros w f f' _; apply mle_refl]. intros f f' L. apply mle_pairs. intros v. apply R. exact L.
    - apply ends_now. apply key_now.
    - intros f s1 b Q. apply (ends_bind (fun f => e f x) (fun f b => _)).
      + apply R.
      + intros z. apply rising_bind; [|intros w f0 f' _; apply mle_refl]. intros f0 f' L. apply mle_pairs. intros v. apply R. exact L.
      + eapply He; [left; reflexivity|]. rewrite (framed_ok _ _ _ _ (framed_key X kk y) Q). exact Hs.
      + intros f1 s2 b2 Q2. apply ends_map; [discriminate|]. apply IH; [intros z w Hy; eapply He; right; exact Hy|].
        rewrite (framed_ok _ _ _ _ (F f1 x) Q2), (framed_ok _ _ _ _ (framed_key X kk y) Q). exact Hs.
  Qed.
  Lemma ends_maps k kk (e : nat -> hval -> M bytes) m s : (forall v, rising (fun f => e f v)) -> (forall f v, framed (e f v)) ->
    (forall y x, In (y, x) m -> forall s, (room s <= k)%nat -> ends (fun f => e f x) s) -> (room s <= k)%nat -> ends (fun f => enc_map X ord kk (e f) m) s.
  Proof.
    intros R F He Hs. unfold enc_map, range. set (s0 := St (seen s) (depth s) (S (iters s))).
    destruct (ends_pairs k kk e R F (ord (iters s) m)) with (s := s0) as [f N].
    - intros y x J. eapply He. eapply Permutation_in; [symmetry; apply Hord|exact J].
    - exact Hs.
    - exists f. unfold bindM. fold s0. destruct (enc_pairs X kk (e f) (ord (iters s) m) s0) as [s1 [b|er|p|]]; cbn in *; congruence.
  Qed.
  Lemma ends_compile t s : finite_arrays X E t -> ends (fun f => compile_now X E f t) s.
  Proof.
    intros Hg. destruct (compile_ends X E t Hg) as [f N]. exists f. unfold compile_now, bindM, lift. destruct (ecompile_f X E f false [] t); cbn; congruence.
  Qed.
  Lemma rising_compile t : rising (fun f => compile_now X E f t).
  Proof. intros f f' L. apply mle_compile. exact L. Qed.
  Lemma ends_compiled t v s : finite_arrays X E t -> (forall s', room s' = room s -> ends (fun f => enc f MType t v) s') ->
    ends (fun f => _ <== compile_now X E f t ;; enc f MType t v) s.
  Proof.
    intros Hg He. apply (ends_bind _ (fun f _ => enc f MType t v)); [apply rising_compile|intros _; apply enc_rising|apply ends_compile; exact Hg|].
    intros f s1 x Q. apply He. exact (framed_ok _ _ _ _ (framed_compile X E f t) Q).
  Qed.

  (** fields *)
  Lemma ends_S {A} (F : nat -> M A) s : ends (fun f => F (S f)) s -> ends F s.
  Proof. intros [f N]. exists (S f). exact N. Qed.
  Definition halts (k : nat) (j : job) : Prop := forall s, (room s <= k)%nat -> ends (fun f => run f j) s.
  Definition halts_below (k : nat) (g : bool) (j : job) : Prop := if g then forall k', (k' < k)%nat -> halts k' j else halts k j.

  Lemma ends_field k f v s : (room s <= k)%nat -> (forall g j, field_calls X E H f v g j -> halts_below k g j) ->
    ends (fun n => enc_field X E H n (enc n MType) f v) s.
  Proof.
    intros Hs Hc. unfold enc_field.
    assert (ptr_kind (kind_of E (f_ty f)) = false -> ends (fun n => if tag_string (tag_of X f) then enc_as_string X E H n (f_ty f) v else enc n MType (f_ty f) v) s) as Hnp.
    { intros Hp. destruct (tag_string (tag_of X f)) eqn:Ht; [apply (Hc false (Str (f_ty f) v) (fc_str X E H f v Hp Ht) s Hs)|apply (Hc false (Enc MType (f_ty f) v) (fc_plain X E H f v Hp Ht) s Hs)]. }
    destruct (kind_of E (f_ty f)) as [|kk|kk| | | |t'|n t'|kk v'|t'| |m| |id fs] eqn:Hk; try (apply Hnp; reflexivity).
    destruct v as [b|z|z|x|x|b|p|l|p|[[o i]|]|p|l|]; try (apply ends_now; discriminate).
    destruct (cell H o i) as [c|] eqn:Hcell; [|apply ends_now; discriminate].
    destruct (tag_string (tag_of X f)) eqn:Ht; [apply (Hc false (Str t' c) (fc_ptr_str X E H f t' o i c Hk Ht Hcell) s Hs)|].
    destruct (struct_kind (kind_of E t')) eqn:Hst.
    - apply (ends_rec _ (fun n => enc n MType t' c)); [eapply addr_cell; exact Hcell|]. intros s' L.
      apply (Hc true (Enc MType t' c) (fc_ptr_struct X E H f t' o i c Hk Ht Hst Hcell) (room s')); lia.
    - apply (Hc false (Enc MType t' c) (fc_ptr X E H f t' o i c Hk Ht Hst Hcell) s Hs).
  Qed.
  Lemma ends_fields k : forall fs l s, (room s <= k)%nat ->
    (forall f v g j, In (f, v) (combine fs l) -> enc_skipped X f = false -> field_calls X E H f v g j -> halts_below k g j) ->
    ends (fun n => enc_fields X E H n (enc n MType) fs l) s.
  Proof.
    induction fs as [|f fs IH]; intros [|v l] s Hs Hc; cbn [enc_fields]; try (apply ends_now; discriminate).
    assert (forall s, (room s <= k)%nat -> ends (fun n => enc_fields X E H n (enc n MType) fs l) s) as IH'.
    { intros s' Hs'. apply IH; [exact Hs'|]. intros g w b j J. apply Hc. right. exact J. }
    destruct (enc_skipped X f) eqn:Hsk; [apply IH'; exact Hs|]. destruct (tag_omitempty (tag_of X f) && hzero v); [apply IH'; exact Hs|].
    apply (ends_bind (fun n => enc_field X E H n (enc n MType) f v) (fun n b => _)).
    - intros n n' L. apply mle_field; [exact L|]. intros t w. apply enc_mono. exact L.
    - intros b. apply rising_bind; [|intros y n n' _; apply mle_refl]. intros n n' L. apply mle_fields; [exact L|]. intros t w. apply enc_mono. exact L.
    - apply (ends_field k); [exact Hs|]. intros g j. apply Hc; [left; reflexivity|exact Hsk].
    - intros n s1 b Q. apply ends_map; [discriminate|]. apply IH'.
      rewrite (framed_ok _ _ _ _ (framed_field X E H n (enc n MType) f v (fun t w => enc_framed X E H ord n MType t w)) Q). exact Hs.
  Qed.

  (** one job, given what it calls *)
  Hypothesis Hm : methods_return X.
  Lemma method_now t v : call_method X E H t v <> RFuel.
  Proof.
    unfold call_method. destruct t; try discriminate; try apply Hm. destruct t; try discriminate. destruct (nth_error E n); [|discriminate].
    destruct (d_marshal d), v; try discriminate; try apply Hm. destruct p as [[o i]|]; [|discriminate]. destruct (cell H o i); [apply Hm|discriminate].
  Qed.
  Lemma marshal_now t v : call_marshal X E H t v <> RFuel.
  Proof.
    unfold call_marshal. destruct (iface_kind (kind_of E t)); [|apply method_now]. destruct v as [b|z|z|x|x|b|p|l|p|p|p|l|]; try discriminate. destruct p as [[t' v']|]; [|discriminate].
    destruct (iface_kind (kind_of E t')); [discriminate|apply method_now].
  Qed.
  Lemma scalar_now k v s : snd (enc_scalar X k v s) <> RFuel.
  Proof.
    unfold enc_scalar. destruct k as [|k|k| | | | | | | | | | |], v; try destruct k; try discriminate; try (destruct (int_ok _ _); discriminate); destruct (uint_ok _ _); discriminate.
  Qed.
  Ltac now_ends := apply ends_now; discriminate.

  (** the types compiled while doing a job *)
  Definition compiled_in (t : gty) (v : hval) (u : gty) : Prop :=
    u = t \/ exists k o m y x, kind_of E t = KMap k u /\ v = HMap (Some o) /\ entries H o = Some m /\ In (y, x) m.
  Lemma step_halts k j : (forall t v u, j = Enc MIface t v -> compiled_in t v u -> finite_arrays X E u) -> (forall g j', calls g j j' -> halts_below k g j') -> halts k j.
  Proof.
    intros Hg Hc s Hs. destruct j as [m t v|t v|t v]; cbn [Jobs.run].
    - apply ends_S. destruct m; cbn [enc_f].
      + destruct (implements E t) eqn:Hi; [apply ends_now; apply marshal_now|]. destruct (is_bytes t) eqn:Hb.
        * apply ends_now. destruct (byte_slice H v); discriminate.
        * apply (Hc _ _ (c_shape X E H t v Hi Hb)). exact Hs.
      + destruct (kind_of E t) as [|kk|kk| | | |t'|n t'|kk v'|t'| |mm| |id fs] eqn:Hk.
        all: try (apply ends_now; cbn [enc_scalar_kind]; try (apply scalar_now); discriminate).
        * destruct (enc_scalar_kind (KUint kk)); apply ends_now; [apply scalar_now|discriminate].
        * destruct v as [b|z|z|x|x|b|p|l|p|p|p|l|]; try now_ends. destruct p as [[[o i] n]|]; [|now_ends].
          destruct (cells H o i n) as [l|] eqn:Hcell; [|now_ends].
          apply (ends_rec _ (fun f => enc_seq (enc f MType t') l)); [eapply addr_cells; exact Hcell|]. intros s' L.
          apply (ends_seq (room s') (fun f => enc f MType t')); [intros; apply enc_rising|intros; apply enc_framed| |lia].
          intros x Hx s1 L1. apply (Hc true _ (c_slice X E H t t' o i n l x Hk Hcell Hx) (room s')); lia.
        * destruct v as [b|z|z|x|x|b|p|l|p|p|p|l|]; try now_ends. destruct (Nat.eqb (length l) n); [|now_ends].
          apply (ends_seq k (fun f => enc f MType t')); [intros; apply enc_rising|intros; apply enc_framed| |exact Hs].
          intros x Hx s1 L1. apply (Hc false _ (c_array X E H t n t' l x Hk Hx) s1 L1).
        * destruct v as [b|z|z|x|x|b|p|l|p|p|p|l|]; try now_ends. destruct p as [o|]; [|now_ends].
          destruct (entries H o) as [m|] eqn:He; [|now_ends].
          apply (ends_rec _ (fun f => enc_map X ord (kind_of E kk) (enc f MType v') m)); [eapply addr_map; exact He|]. intros s' L.
          apply (ends_maps (room s') _ (fun f => enc f MType v')); [intros; apply enc_rising|intros; apply enc_framed| |lia].
          intros y x Hx s1 L1. apply (Hc true _ (c_map X E H t kk v' o m y x Hk He Hx) (room s')); lia.
        * destruct (iface_kind (kind_of E t')) eqn:Hif; [apply (Hc false _ (c_ptr_iface X E H t t' v Hk Hif) s Hs)|].
          destruct v as [b|z|z|x|x|b|p|l|p|p|p|l|]; try now_ends. destruct p as [[o i]|]; [|now_ends].
          destruct (cell H o i) as [c|] eqn:Hcell; [|now_ends]. destruct (struct_kind (kind_of E t')) eqn:Hst.
          -- apply (ends_rec _ (fun f => enc f MShape t' c)); [eapply addr_cell; exact Hcell|]. intros s' L.
             apply (Hc true _ (c_ptr_struct X E H t t' o i c Hk Hst Hcell) (room s')); lia.
          -- destruct (ptr_direct (kind_of E t')) eqn:Hpd.
             ++ apply (Hc false _ (c_ptr_direct X E H t t' o i c Hk Hst Hpd Hcell) s Hs).
             ++ apply (Hc false _ (c_ptr X E H t t' o i c Hk Hif Hpd Hcell) s Hs).
        * apply (Hc false _ (c_iface X E H t v ltac:(rewrite Hk; reflexivity)) s Hs).
        * apply (Hc false _ (c_iface X E H t v ltac:(rewrite Hk; reflexivity)) s Hs).
        * destruct v as [b|z|z|x|x|b|p|l|p|p|p|l|]; try now_ends. unfold enc_struct. apply ends_map; [discriminate|].
          apply (ends_fields k); [exact Hs|]. intros f v g j Hin Hsk Hf. apply (Hc g j (c_field X E H t id fs l f v g j Hk Hin Hsk Hf)).
      + destruct (kind_of E t) as [|kk|kk| | | |t'|n t'|kk v'|t'| |mm| |id fs] eqn:Hk.
        all: try (apply ends_now; cbn [enc_scalar_kind]; try (apply scalar_now); discriminate).
        * destruct (enc_scalar_kind (KUint kk)); apply ends_now; [apply scalar_now|discriminate].
        * destruct v as [b|z|z|x|x|b|p|l|p|p|p|l|]; try now_ends. destruct p as [[[o i] n]|].
          -- destruct (iface_kind (kind_of E t')) eqn:Hif.
             ++ apply (ends_seen _ (fun f => match cells H o i n with Some l => enc_seq (enc f MIface t') l | None => bad end)).
                ** intros _ s' L. destruct (cells H o i n) as [l|] eqn:Hcell; [|now_ends].
                   apply (ends_seq (room s') (fun f => enc f MIface t')); [intros; apply enc_rising|intros; apply enc_framed| |lia].
                   intros x Hx s1 L1. apply (Hc true _ (i_slice X E H t t' o i n l x Hk Hif Hcell Hx) (room s')); lia.
                ** intros N s'. destruct (cells H o i n) as [l|] eqn:Hcell; [|now_ends]. destruct N. eapply addr_cells. exact Hcell.
             ++ apply (ends_seen _ (fun f => _ <== compile_now X E f t ;; enc f MType t (HSlice (Some (o, i, n))))).
                ** intros _ s' L. apply ends_compiled; [apply (Hg t _ t eq_refl); left; reflexivity|]. intros s1 L1.
                   apply (Hc true _ (i_slice_typed X E H t t' o i n Hk Hif) (room s')); lia.
                ** intros N s'. apply ends_compiled; [apply (Hg t _ t eq_refl); left; reflexivity|]. intros s1 _. exists 2%nat. cbn [enc_f].
                   destruct (implements E t); [apply marshal_now|]. destruct (is_bytes t); [destruct (byte_slice H _); discriminate|].
                   rewrite Hk. destruct (cells H o i n) as [l|] eqn:Hcell; [|discriminate]. destruct N. eapply addr_cells. exact Hcell.
          -- destruct (iface_kind (kind_of E t')) eqn:Hif; [now_ends|]. apply ends_compiled; [apply (Hg t _ t eq_refl); left; reflexivity|]. intros s1 L1.
             apply (Hc false _ (i_slice_nil X E H t t' Hk Hif)). lia.
        * destruct v as [b|z|z|x|x|b|p|l|p|p|p|l|]; try now_ends. destruct p as [o|]; [|destruct (enc_key_kind _); now_ends].
          destruct (enc_key_kind (kind_of E kk)).
          2:{ apply (ends_seen _ (fun _ => stop (RErr (EMarshal (CKey kk))))); intros; now_ends. }
          destruct (entries H o) as [m|] eqn:He.
          2:{ apply (ends_seen _ (fun _ => bad)); intros; now_ends. }
          destruct m as [|e m]; [apply (ends_seen _ (fun _ => ret out_empty)); intros; now_ends|].
          assert (forall y x, In (y, x) (e :: m) -> calls true (Enc MIface t (HMap (Some o))) (Enc (if iface_kind (kind_of E v') then MIface else MType) v' x)) as Hcs
            by (intros y x Hx; exact (i_map X E H t kk v' o (e :: m) y x Hk He Hx)).
          pose proof (addr_map _ _ He) as Ha. destruct (iface_kind (kind_of E v')) eqn:Hif.
          -- apply (ends_seen _ (fun f => enc_map X ord (kind_of E kk) (enc f MIface v') (e :: m))); [|intros N; destruct (N Ha)]. intros _ s' L.
             apply (ends_maps (room s') _ (fun f => enc f MIface v')); [intros; apply enc_rising|intros; apply enc_framed| |lia].
             intros y x Hx s1 L1. apply (Hc true _ (Hcs y x Hx) (room s')); lia.
          -- apply (ends_seen _ (fun f => _ <== compile_now X E f v' ;; enc_map X ord (kind_of E kk) (enc f MType v') (e :: m))); [|intros N; destruct (N Ha)]. intros _ s' L.
             apply (ends_bind _ (fun f _ => enc_map X ord (kind_of E kk) (enc f MType v') (e :: m))); [apply rising_compile| |apply ends_compile; apply (Hg t _ v' eq_refl); right; destruct e as [y x]; exists kk, o, ((y, x) :: m), y, x; split; [exact Hk|split; [reflexivity|split; [exact He|left; reflexivity]]]|].
             { intros _ f f' Lf. apply mle_map. intros w. apply enc_mono. exact Lf. }
             intros f s1 u Q.
             apply (ends_maps (room s') _ (fun f => enc f MType v')); [intros; apply enc_rising|intros; apply enc_framed| |rewrite (framed_ok _ _ _ _ (framed_compile X E f v') Q); lia].
             intros y x Hx s2 L2. apply (Hc true _ (Hcs y x Hx) (room s')); lia.
        * destruct v as [b|z|z|x|x|b|p|l|p|p|p|l|]; try now_ends. destruct p as [[o i]|]; [|now_ends].
          destruct (cell H o i) as [c|] eqn:Hcell; [|now_ends]. apply (Hc false _ (i_ptr X E H t t' o i c Hk Hcell) s Hs).
        * destruct v as [b|z|z|x|x|b|p|l|p|p|p|l|]; try now_ends. destruct p as [[t' v']|]; [|now_ends].
          apply (Hc false _ (i_iface X E H t t' v' ltac:(rewrite Hk; reflexivity)) s Hs).
        * destruct v as [b|z|z|x|x|b|p|l|p|p|p|l|]; try now_ends. destruct p as [[t' v']|]; [|now_ends].
          apply (Hc false _ (i_iface X E H t t' v' ltac:(rewrite Hk; reflexivity)) s Hs).
        * apply ends_compiled; [apply (Hg t _ t eq_refl); left; reflexivity|]. intros s1 L1. apply (Hc false _ (i_struct X E H t id fs v Hk)). lia.
    - assert (iface_kind (kind_of E t) = true -> ends (fun f => enc_iface_str X E H f t v) s) as Hi by (intros Hi; exact (Hc false _ (s_iface X E H t v Hi) s Hs)).
      unfold enc_as_string. destruct (kind_of E t) as [|kk|kk| | | |t'|n t'|kk v'|t'| |mm| |id fs] eqn:Hk.
      all: try (exact (Hi eq_refl)).
      all: destruct v; try now_ends; apply ends_now; first [destruct (int_ok _ _); discriminate|destruct (uint_ok _ _); discriminate].
    - apply ends_S. cbn [enc_iface_str].
      destruct (kind_of E t) as [|kk|kk| | | |t'|n t'|kk v'|t'| |mm| |id fs] eqn:Hk.
      all: try (apply ends_now; destruct t as [|k0|k0| | | | | | | | | | | ], v; try destruct k0; try discriminate; try (destruct (int_ok _ _); discriminate); destruct (uint_ok _ _); discriminate).
      + destruct v as [b|z|z|x|x|b|p|l|p|p|p|l|]; try now_ends. destruct p as [[o i]|]; [|now_ends].
        destruct (cell H o i) as [c|] eqn:Hcell; [|now_ends]. apply (Hc false _ (q_ptr X E H t t' o i c Hk Hcell) s Hs).
      + destruct v as [b|z|z|x|x|b|p|l|p|p|p|l|]; try now_ends. destruct p as [[t' v']|]; [|now_ends].
        apply (Hc false _ (q_iface X E H t t' v' ltac:(rewrite Hk; reflexivity)) s Hs).
      + destruct v as [b|z|z|x|x|b|p|l|p|p|p|l|]; try now_ends. destruct p as [[t' v']|]; [|now_ends].
        apply (Hc false _ (q_iface X E H t t' v' ltac:(rewrite Hk; reflexivity)) s Hs).
  Qed.

  (** Jobs of a class closed under calls, in which unchecked calls cannot go on for ever. *)
  Theorem class_halts (P : job -> Prop) : (forall g j j', P j -> calls g j j' -> P j') ->
    (forall j, P j -> Acc (fun j' j => calls false j j') j) ->
    (forall t v u, P (Enc MIface t v) -> compiled_in t v u -> finite_arrays X E u) -> forall k j, P j -> halts k j.
  Proof.
    intros Hcl Hacc Hg. induction k as [k IHk] using lt_wf_ind. intros j Hj. pose proof (Hacc j Hj) as A. revert Hj.
    induction A as [j _ IHj]. intros Hj. apply step_halts; [intros t v u ->; apply Hg; exact Hj|]. intros [|] j' Hc; cbn [halts_below].
    - intros k' L. apply IHk; [exact L|]. eapply Hcl; eauto.
    - apply IHj; [exact Hc|]. eapply Hcl; eauto.
  Qed.
  Corollary class_marshal (P : job -> Prop) c t v : (forall g j j', P j -> calls g j j' -> P j') ->
    (forall j, P j -> Acc (fun j' j => calls false j j') j) ->
    (forall t v u, P (Enc MIface t v) -> compiled_in t v u -> finite_arrays X E u) ->
    finite_arrays X E t -> (encodable X E t -> P (Enc MType t v)) -> exists f, snd (marshal X E H ord f c (Some (t, v))) <> RFuel.
  Proof.
    intros Hcl Hacc Hgs Hg Hj. change (ends (fun f => _ <== compile_now X E f t ;; enc f MType t v) c).
    destruct (compile_ends X E t Hg) as [f0 N].
    assert (encodable X E t \/ (ecompile_f X E f0 false [] t <> RFuel /\ forall S, ecompile_f X E f0 false [] t <> ROk S)) as [He|[N1 N2]].
    { destruct (ecompile_f X E f0 false [] t) as [S0|e|p|] eqn:Q; [left; eapply compile_encodable; exact Q|right|right|congruence]; split; congruence. }
    - apply ends_compiled; [exact Hg|]. intros s' _. apply (class_halts P Hcl Hacc Hgs (room s') (Enc MType t v) (Hj He)). lia.
    - exists f0. unfold compile_now, bindM, lift. destruct (ecompile_f X E f0 false [] t) as [S0|e|p|] eqn:Q; try discriminate; try congruence.
  Qed.
End Halt.
