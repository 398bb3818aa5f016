(** Marshal returns if what it comes to is finite. *)
From Coq Require Import Strings.String Strings.Byte ZArith List Bool Lia Permutation Arith Relations.Relation_Operators.
From Verif Require Import Base GoTypes Strconv Tags Denote Memory EncCompile Encode Php Repr Positions EncApi EncCompileFacts EncTerm EncFacts EncSound Values Jobs JobFacts Obstacle ObstacleFacts.
Import ListNotations.
Open Scope Z_scope.

Lemma ends_rec_at t F a s : (forall s', enters (tr s) false a (tr s') -> ends F s') -> ends (fun f => check_rec t a (F f)) s.
Proof.
  intros Hf. destruct (1000 <? depth s + 1) eqn:D; [destruct (has a (seen s)) eqn:Q|].
  - exists 0%nat. unfold check_rec. rewrite D, Q. discriminate.
  - destruct (Hf (St (a :: seen s) (depth s + 1) (iters s))) as [f N].
    { apply enters_code. unfold code_enter, tr. cbn [fst snd seen depth]. rewrite D. apply has_out in Q. auto. }
    exists f. unfold check_rec. rewrite D, Q. destruct (F f _) as [s' r]. exact N.
  - destruct (Hf (St (seen s) (depth s + 1) (iters s))) as [f N].
    { apply enters_code. unfold code_enter, tr. cbn [fst snd seen depth]. rewrite D. reflexivity. }
    exists f. unfold check_rec. rewrite D. destruct (F f _) as [s' r]. exact N.
Qed.
Lemma ends_seen_at t F a s : (forall s', enters (tr s) true a (tr s') -> ends F s') -> ends (fun f => check_seen t a (F f)) s.
Proof.
  intros Hf. destruct (has a (seen s)) eqn:Q.
  - exists 0%nat. unfold check_seen. rewrite Q. discriminate.
  - destruct (Hf (St (a :: seen s) (depth s) (iters s))) as [f N].
    { apply enters_code. unfold code_enter, tr. cbn [fst snd seen depth]. apply has_out in Q. auto. }
    exists f. unfold check_seen. rewrite Q. destruct (F f _) as [s' r]. exact N.
Qed.

Section Ends.
  Context (X : Ext) (E : env) (H : heap) (ord : nat -> list (hval * hval) -> list (hval * hval)).
  Hypothesis Hord : fair_order ord.
  Hypothesis Hm : methods_return X.
  Notation enc := (enc_f X E H ord).

  Lemma elems_end S (e : nat -> hval -> M bytes) : (forall v, rising (fun f => e f v)) -> (forall f v, framed (e f v)) ->
    forall l, (forall x, In x l -> forall s, tr s = S -> ends (fun f => e f x) s) ->
    forall i s, tr s = S -> ends (fun f => enc_elems (e f) i l) s.
  Proof.
    intros R F. induction l as [|x l IH]; intros He i s Hs; cbn [enc_elems]; [apply ends_now; discriminate|].
    apply (ends_bind (fun f => e f x) (fun f b => _)).
    - apply R.
    - intros b. apply rising_bind; [|intros y f f' _; apply mle_refl]. intros f f' L. apply mle_elems. intros v. apply R. exact L.
    - apply He; [left; reflexivity|exact Hs].
    - intros f s1 b Q. apply ends_map; [discriminate|]. apply IH; [intros y Hy; apply He; right; exact Hy|]. rewrite (framed_tr _ _ _ _ (F f x) Q). exact Hs.
  Qed.
  Lemma seq_end S (e : nat -> hval -> M bytes) l s : (forall v, rising (fun f => e f v)) -> (forall f v, framed (e f v)) ->
    (forall x, In x l -> forall s, tr s = S -> ends (fun f => e f x) s) -> tr s = S -> ends (fun f => enc_seq (e f) l) s.
  Proof. intros R F He Hs. unfold enc_seq. apply ends_map; [discriminate|]. eapply elems_end; eauto. Qed.
  Lemma pairs_end S kk (e : nat -> hval -> M bytes) : (forall v, rising (fun f => e f v)) -> (forall f v, framed (e f v)) ->
    forall l, (forall y x, In (y, x) l -> forall s, tr s = S -> ends (fun f => e f x) s) ->
    forall s, tr s = S -> ends (fun f => enc_pairs X kk (e f) l) s.
  Proof.
    intros R F. induction l as [|[y x] l IH]; intros He s Hs; cbn [enc_pairs]; [apply ends_now; discriminate|].
    apply (ends_bind (fun _ => enc_key X kk y) (fun f b => _)).
    - intros f f' _. apply mle_refl.
    - intros b. apply rising_bind; [apply R|]. intros z. apply rising_bind; [|intros w f f' _; apply mle_refl]. intros f f' L. apply mle_pairs. intros v. apply R. exact L.
    - apply ends_now. apply key_now.
    - intros f s1 b Q. apply (ends_bind (fun f => e f x) (fun f b => _)).
      + apply R.
      + intros z. apply rising_bind; [|intros w f0 f' _; apply mle_refl]. intros f0 f' L. apply mle_pairs. intros v. apply R. exact L.
      + eapply He; [left; reflexivity|]. rewrite (framed_tr _ _ _ _ (framed_key X kk y) Q). exact Hs.
      + intros f1 s2 b2 Q2. apply ends_map; [discriminate|]. apply IH; [intros z w Hy; eapply He; right; exact Hy|].
        rewrite (framed_tr _ _ _ _ (F f1 x) Q2), (framed_tr _ _ _ _ (framed_key X kk y) Q). exact Hs.
  Qed.
  Lemma map_end S kk (e : nat -> hval -> M bytes) m s : (forall v, rising (fun f => e f v)) -> (forall f v, framed (e f v)) ->
    (forall y x, In (y, x) m -> forall s, tr s = S -> ends (fun f => e f x) s) -> tr s = S -> ends (fun f => enc_map X ord kk (e f) m) s.
  Proof.
    intros R F He Hs. unfold enc_map, range. set (s0 := St (seen s) (depth s) (Datatypes.S (iters s))).
    destruct (pairs_end S kk e R F (ord (iters s) m)) with (s := s0) as [f N].
    - intros y x J. eapply He. eapply Permutation_in; [symmetry; apply Hord|exact J].
    - exact Hs.
    - exists f. unfold bindM. fold s0. destruct (enc_pairs X kk (e f) (ord (iters s) m) s0) as [s1 [b|er|p|]]; cbn in *; congruence.
  Qed.
  Lemma compiled_end A (m : nat -> M A) t s : rising m -> finite_arrays X E t -> (encodable X E t -> forall s', tr s' = tr s -> ends m s') ->
    ends (fun f => _ <== compile_now X E f t ;; m f) s.
  Proof.
    intros R Hg He. apply (ends_bind _ (fun f _ => m f)); [apply rising_compile|intros _; exact R|apply ends_compile; exact Hg|].
    intros f s1 x Q. apply He; [exact (proj2 (compile_now_ok _ _ _ _ _ _ _ Q))|exact (framed_tr _ _ _ _ (framed_compile X E f t) Q)].
  Qed.

  (** What is done at a place. *)
  Definition work (f : nat) (p : place_in) : M bytes :=
    match by_ p with
    | ByType => enc f MType (type_ p) (value_ p)
    | ByKind => enc f MShape (type_ p) (value_ p)
    | Inside => enc f MIface (type_ p) (value_ p)
    | AsField g => enc_field X E H f (enc f MType) g (value_ p)
    | AsText => enc_as_string X E H f (type_ p) (value_ p)
    | AsTextInside => enc_iface_str X E H f (type_ p) (value_ p)
    end.
  Definition halts_at (p : place_in) : Prop := forall s, tr s = trail_ p -> ends (fun f => work f p) s.

  Context (t0 : gty) (v0 : hval).
  Hypothesis Hfin : forall u w, within E H t0 v0 u w -> finite_arrays X E u.
  Definition proper (p : place_in) : Prop :=
    within E H t0 v0 (type_ p) (value_ p) /\ match by_ p with AsField g => type_ p = f_ty g | _ => True end.
  Lemma proper_below p q : proper p -> below X E H p q -> proper q.
  Proof.
    intros [W F] B. split.
    - destruct B; cbn [by_ type_ value_] in *; try exact W; eapply wi_step; try exact W;
        first [eapply pt_slice; eassumption|eapply pt_array; eassumption|eapply pt_entry; eassumption|eapply pt_field; eassumption|eapply pt_ptr; eassumption|eapply pt_iface; eassumption].
    - destruct B; cbn [by_ type_] in *; try exact I. reflexivity.
  Qed.
  Ltac now_ends := apply ends_now; discriminate.
  Lemma fields_end s0 t id fs0 l0 : kind_of E t = KStruct id fs0 -> (forall q, below X E H (At ByKind s0 t (HStruct l0)) q -> halts_at q) ->
    forall fs l s, tr s = s0 -> (forall f x, In (f, x) (combine fs l) -> In (f, x) (combine fs0 l0)) ->
    ends (fun n => enc_fields X E H n (enc n MType) fs l) s.
  Proof.
    intros Hk Hb. induction fs as [|f fs IH]; intros [|v l] s Hs Hc; cbn [enc_fields]; try now_ends.
    assert (forall s, tr s = s0 -> ends (fun n => enc_fields X E H n (enc n MType) fs l) s) as IH'.
    { intros s' Hs'. apply IH; [exact Hs'|]. intros g w J. apply Hc. right. exact J. }
    destruct (enc_skipped X f) eqn:Hsk; [apply IH'; exact Hs|]. destruct (tag_omitempty (tag_of X f) && hzero v) eqn:Hom; [apply IH'; exact Hs|].
    apply (ends_bind (fun n => enc_field X E H n (enc n MType) f v) (fun n b => _)).
    - intros n n' L. apply mle_field; [exact L|]. intros t' w. apply enc_mono. exact L.
    - intros b. apply rising_bind; [|intros y n n' _; apply mle_refl]. intros n n' L. apply mle_fields; [exact L|]. intros t' w. apply enc_mono. exact L.
    - apply (Hb (At (AsField f) s0 (f_ty f) v)); [|exact Hs]. eapply bl_struct; [exact Hk|apply Hc; left; reflexivity|rewrite written_eq, Hsk; reflexivity|].
      intros Ht. rewrite Ht in Hom. apply hzero_false. exact Hom.
    - intros n s1 b Q. apply ends_map; [discriminate|]. apply IH'.
      rewrite (framed_tr _ _ _ _ (framed_field X E H n (enc n MType) f v (fun t w => enc_framed X E H ord n MType t w)) Q). exact Hs.
  Qed.
  Lemma place_halts p : proper p -> (forall q, below X E H p q -> halts_at q) -> halts_at p.
  Proof.
    intros [W Hf] Hb s Hs. destruct p as [w s0 t v]. cbn [trail_ by_ type_ value_] in *. subst s0. unfold work. cbn [by_ type_ value_]. destruct w as [| |g| | |].
    - apply ends_S. cbn [enc_f]. rewrite implements_eq, is_bytes_eq. destruct (marshaler E t) eqn:Hi; [apply ends_now; apply marshal_now; exact Hm|]. destruct (bytes_type t) eqn:Hby.
      + apply ends_now. destruct (byte_slice H v); discriminate.
      + apply (Hb (At ByKind (tr s) t v)); [apply bl_type; assumption|reflexivity].
    - apply ends_S. cbn [enc_f]. destruct (kind_of E t) as [|kk|kk| | | |t'|n t'|kk v'|t'| |mm| |id fs] eqn:Hk.
      all: try (apply ends_now; cbn [enc_scalar_kind]; try (apply scalar_now); discriminate).
      + destruct (enc_scalar_kind (KUint kk)); apply ends_now; [apply scalar_now|discriminate].
      + destruct v as [b|z|z|x|x|b|p|l|p|p|p|l|]; try now_ends. destruct p as [[[o i] n]|]; [|now_ends].
        destruct (cells H o i n) as [l|] eqn:Hc; [|now_ends].
        apply (ends_rec_at t (fun f => enc_seq (enc f MType t') l)). intros s' En.
        apply (seq_end (tr s') (fun f => enc f MType t')); [intros; apply enc_rising|intros; apply enc_framed| |reflexivity].
        intros x Hx s1 T1. apply (Hb (At ByType (tr s') t' x)); [eapply bl_slice; eassumption|exact T1].
      + destruct v as [b|z|z|x|x|b|p|l|p|p|p|l|]; try now_ends. destruct (Nat.eqb (length l) n); [|now_ends].
        apply (seq_end (tr s) (fun f => enc f MType t')); [intros; apply enc_rising|intros; apply enc_framed| |reflexivity].
        intros x Hx s1 T1. apply (Hb (At ByType (tr s) t' x)); [eapply bl_array; eassumption|exact T1].
      + destruct v as [b|z|z|x|x|b|p|l|p|p|p|l|]; try now_ends. destruct p as [o|]; [|now_ends].
        destruct (entries H o) as [m|] eqn:He; [|now_ends].
        apply (ends_rec_at t (fun f => enc_map X ord (kind_of E kk) (enc f MType v') m)). intros s' En.
        apply (map_end (tr s') _ (fun f => enc f MType v')); [intros; apply enc_rising|intros; apply enc_framed| |reflexivity].
        intros y x Hx s1 T1. apply (Hb (At ByType (tr s') v' x)); [eapply bl_map; eassumption|exact T1].
      + destruct (iface_kind (kind_of E t')) eqn:Hif; [apply (Hb (At Inside (tr s) t v)); [eapply bl_ptr_iface; eassumption|reflexivity]|].
        destruct v as [b|z|z|x|x|b|p|l|p|p|p|l|]; try now_ends. destruct p as [[o i]|]; [|now_ends].
        destruct (cell H o i) as [c|] eqn:Hc; [|now_ends]. destruct (struct_kind (kind_of E t')) eqn:Hst.
        * apply (ends_rec_at t (fun f => enc f MShape t' c)). intros s' En.
          apply (Hb (At ByKind (tr s') t' c)); [eapply bl_ptr_struct; eassumption|reflexivity].
        * rewrite by_structure_eq. destruct (by_structure (kind_of E t')) eqn:Hpd.
          -- apply (Hb (At ByKind (tr s) t' c)); [eapply bl_ptr_kind; eassumption|reflexivity].
          -- apply (Hb (At ByType (tr s) t' c)); [eapply bl_ptr; eassumption|reflexivity].
      + apply (Hb (At Inside (tr s) t v)); [apply bl_iface; rewrite Hk; reflexivity|reflexivity].
      + apply (Hb (At Inside (tr s) t v)); [apply bl_iface; rewrite Hk; reflexivity|reflexivity].
      + destruct v as [b|z|z|x|x|b|p|l|p|p|p|l|]; try now_ends. unfold enc_struct. apply ends_map; [discriminate|].
        eapply fields_end; [exact Hk|exact Hb|reflexivity|auto].
    - unfold enc_field. subst t.
      assert (ptr_kind (kind_of E (f_ty g)) = false -> ends (fun n => if tag_string (tag_of X g) then enc_as_string X E H n (f_ty g) v else enc n MType (f_ty g) v) s) as Hnp.
      { intros Hp. destruct (tag_string (tag_of X g)) eqn:Ht.
        - apply (Hb (At AsText (tr s) (f_ty g) v)); [apply bl_field_text; assumption|reflexivity].
        - apply (Hb (At ByType (tr s) (f_ty g) v)); [apply bl_field; assumption|reflexivity]. }
      destruct (kind_of E (f_ty g)) as [|kk|kk| | | |t'|n t'|kk v'|t'| |m| |id fs] eqn:Hk; try (apply Hnp; reflexivity).
      destruct v as [b|z|z|x|x|b|p|l|p|[[o i]|]|p|l|]; try now_ends.
      destruct (cell H o i) as [c|] eqn:Hc; [|now_ends].
      destruct (tag_string (tag_of X g)) eqn:Ht; [apply (Hb (At AsText (tr s) t' c)); [eapply bl_field_ptr_text; eassumption|reflexivity]|].
      destruct (struct_kind (kind_of E t')) eqn:Hst.
      + apply (ends_rec_at _ (fun n => enc n MType t' c)). intros s' En.
        apply (Hb (At ByType (tr s') t' c)); [eapply bl_field_struct; eassumption|reflexivity].
      + apply (Hb (At ByType (tr s) t' c)); [eapply bl_field_ptr; eassumption|reflexivity].
    - apply ends_S. cbn [enc_f]. destruct (kind_of E t) as [|kk|kk| | | |t'|n t'|kk v'|t'| |mm| |id fs] eqn:Hk.
      all: try (apply ends_now; cbn [enc_scalar_kind]; try (apply scalar_now); discriminate).
      + destruct (enc_scalar_kind (KUint kk)); apply ends_now; [apply scalar_now|discriminate].
      + destruct v as [b|z|z|x|x|b|p|l|p|p|p|l|]; try now_ends. destruct p as [[[o i] n]|].
        * apply (ends_seen_at t (fun f => if iface_kind (kind_of E t') then match cells H o i n with Some l => enc_seq (enc f MIface t') l | None => bad end
            else (_ <== compile_now X E f t ;; enc f MType t (HSlice (Some (o, i, n)))))). intros s' En. destruct (iface_kind (kind_of E t')) eqn:Hif.
          -- destruct (cells H o i n) as [l|] eqn:Hc; [|now_ends].
             apply (seq_end (tr s') (fun f => enc f MIface t')); [intros; apply enc_rising|intros; apply enc_framed| |reflexivity].
             intros x Hx s1 T1. apply (Hb (At Inside (tr s') t' x)); [eapply bl_in_slice; eassumption|exact T1].
          -- apply (compiled_end _ (fun f => enc f MType t (HSlice (Some (o, i, n))))); [apply enc_rising|eapply Hfin; exact W|]. intros Henc s1 T1.
             apply (Hb (At ByType (tr s') t (HSlice (Some (o, i, n))))); [eapply bl_in_slice_typed; eassumption|exact T1].
        * destruct (iface_kind (kind_of E t')) eqn:Hif; [now_ends|].
          apply (compiled_end _ (fun f => enc f MType t (HSlice None))); [apply enc_rising|eapply Hfin; exact W|]. intros Henc s1 T1.
          apply (Hb (At ByType (tr s) t (HSlice None))); [eapply bl_in_slice_nil; eassumption|exact T1].
      + rewrite key_kind_eq. destruct v as [b|z|z|x|x|b|p|l|p|p|p|l|]; try now_ends. destruct p as [o|]; [|destruct (key_kind _); now_ends].
        destruct (key_kind (kind_of E kk)) eqn:Hkk.
        2:{ apply (ends_seen_at t (fun _ => stop (RErr (EMarshal (CKey kk))))); intros; now_ends. }
        destruct (entries H o) as [m|] eqn:He.
        2:{ apply (ends_seen_at t (fun _ => bad)); intros; now_ends. }
        destruct m as [|e m]; [apply (ends_seen_at t (fun _ => ret out_empty)); intros; now_ends|].
        destruct (iface_kind (kind_of E v')) eqn:Hif.
        * apply (ends_seen_at t (fun f => enc_map X ord (kind_of E kk) (enc f MIface v') (e :: m))). intros s' En.
          apply (map_end (tr s') _ (fun f => enc f MIface v')); [intros; apply enc_rising|intros; apply enc_framed| |reflexivity].
          intros y x Hx s1 T1. apply (Hb (At Inside (tr s') v' x)); [eapply bl_in_map; eassumption|exact T1].
        * apply (ends_seen_at t (fun f => _ <== compile_now X E f v' ;; enc_map X ord (kind_of E kk) (enc f MType v') (e :: m))). intros s' En.
          apply (compiled_end _ (fun f => enc_map X ord (kind_of E kk) (enc f MType v') (e :: m))).
          { intros f f' Lf. apply mle_map. intros w. apply enc_mono. exact Lf. }
          { destruct e as [y x]. apply (Hfin v' x). eapply wi_step; [exact W|]. eapply pt_entry; [exact Hk|exact He|left; reflexivity]. }
          intros Henc s1 T1. apply (map_end (tr s') _ (fun f => enc f MType v')); [intros; apply enc_rising|intros; apply enc_framed| |exact T1].
          intros y x Hx s2 T2. apply (Hb (At ByType (tr s') v' x)); [eapply bl_in_map_typed; eassumption|exact T2].
      + destruct v as [b|z|z|x|x|b|p|l|p|p|p|l|]; try now_ends. destruct p as [[o i]|]; [|now_ends].
        destruct (cell H o i) as [c|] eqn:Hc; [|now_ends]. apply (Hb (At Inside (tr s) t' c)); [eapply bl_in_ptr; eassumption|reflexivity].
      + destruct v as [b|z|z|x|x|b|p|l|p|p|p|l|]; try now_ends. destruct p as [[t' v']|]; [|now_ends].
        apply (Hb (At Inside (tr s) t' v')); [apply bl_in_iface; rewrite Hk; reflexivity|reflexivity].
      + destruct v as [b|z|z|x|x|b|p|l|p|p|p|l|]; try now_ends. destruct p as [[t' v']|]; [|now_ends].
        apply (Hb (At Inside (tr s) t' v')); [apply bl_in_iface; rewrite Hk; reflexivity|reflexivity].
      + apply (compiled_end _ (fun f => enc f MType t v)); [apply enc_rising|eapply Hfin; exact W|]. intros Henc s1 T1.
        apply (Hb (At ByType (tr s) t v)); [eapply bl_in_struct; eassumption|exact T1].
    - assert (iface_kind (kind_of E t) = true -> ends (fun f => enc_iface_str X E H f t v) s) as Hi.
      { intros Hi. apply (Hb (At AsTextInside (tr s) t v)); [apply bl_text; exact Hi|reflexivity]. }
      unfold enc_as_string. destruct (kind_of E t) as [|kk|kk| | | |t'|n t'|kk v'|t'| |mm| |id fs] eqn:Hk.
      all: try (exact (Hi eq_refl)).
      all: destruct v; try now_ends; apply ends_now; first [destruct (int_ok _ _); discriminate|destruct (uint_ok _ _); discriminate].
    - apply ends_S. cbn [enc_iface_str].
      destruct (kind_of E t) as [|kk|kk| | | |t'|n t'|kk v'|t'| |mm| |id fs] eqn:Hk.
      all: try (apply ends_now; destruct t as [|k0|k0| | | | | | | | | | | ], v; try destruct k0; try discriminate; try (destruct (int_ok _ _); discriminate); destruct (uint_ok _ _); discriminate).
      + destruct v as [b|z|z|x|x|b|p|l|p|p|p|l|]; try now_ends. destruct p as [[o i]|]; [|now_ends].
        destruct (cell H o i) as [c|] eqn:Hc; [|now_ends]. apply (Hb (At AsTextInside (tr s) t' c)); [eapply bl_text_ptr; eassumption|reflexivity].
      + destruct v as [b|z|z|x|x|b|p|l|p|p|p|l|]; try now_ends. destruct p as [[t' v']|]; [|now_ends].
        apply (Hb (At AsTextInside (tr s) t' v')); [apply bl_text_iface; rewrite Hk; reflexivity|reflexivity].
      + destruct v as [b|z|z|x|x|b|p|l|p|p|p|l|]; try now_ends. destruct p as [[t' v']|]; [|now_ends].
        apply (Hb (At AsTextInside (tr s) t' v')); [apply bl_text_iface; rewrite Hk; reflexivity|reflexivity].
  Qed.
  Lemma finite_halts p : Acc (fun q p => below X E H p q) p -> proper p -> halts_at p.
  Proof. induction 1 as [p _ IH]. intros Hp. apply place_halts; [exact Hp|]. intros q B. apply IH; [exact B|]. eapply proper_below; eassumption. Qed.
  Theorem marshal_ends : Acc (fun q p => below X E H p q) (At ByType ([], 0) t0 v0) -> ~ MarshalDiverges X E H ord t0 v0.
  Proof.
    intros A D. assert (ends (fun f => _ <== compile_now X E f t0 ;; enc f MType t0 v0) st0) as [f N].
    { apply (compiled_end _ (fun f => enc f MType t0 v0)); [apply enc_rising|eapply Hfin; apply wi_refl|]. intros _ s' T. apply (finite_halts _ A); [|exact T]. split; [apply wi_refl|exact I]. }
    exact (N (D f)).
  Qed.
End Ends.
