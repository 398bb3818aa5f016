(** Marshal of a well-typed value panics only in MarshalPHP or for want of a
    receiver. *)
From Coq Require Import Strings.String Strings.Byte ZArith NArith List Bool Lia Permutation Arith.
From Verif Require Import Base GoTypes Strconv Tags Denote Memory EncCompile Encode Php Repr EncApi EncCompileFacts EncFacts Values.
Import ListNotations.
Open Scope Z_scope.

Definition calm {A} (m : M A) : Prop := forall s p, snd (m s) <> RPanic p.
Lemma calm_now {A} (r : R A) : (forall p, r <> RPanic p) -> calm (fun s => (s, r)).
Proof. intros Q s p. apply Q. Qed.
Lemma calm_ret {A} (a : A) : calm (ret a).
Proof. intros s p. discriminate. Qed.
Lemma calm_err {A} e : calm (stop (RErr e) : M A).
Proof. intros s p. discriminate. Qed.
Lemma calm_fuel {A} : calm (stop RFuel : M A).
Proof. intros s p. discriminate. Qed.
Lemma calm_bind {A B} (a : M A) (k : A -> M B) : calm a -> (forall x, calm (k x)) -> calm (bindM a k).
Proof. intros Ha Hk s p. unfold bindM. specialize (Ha s). destruct (a s) as [s' [x|e|q|]]; cbn in *; try discriminate; [apply Hk|]. destruct (Ha q eq_refl). Qed.
Lemma calm_rec t a m : calm m -> calm (check_rec t a m).
Proof.
  intros Hm s p. unfold check_rec. destruct (1000 <? depth s + 1).
  - destruct (has a (seen s)); [discriminate|]. specialize (Hm (St (a :: seen s) (depth s + 1) (iters s)) p). destruct (m _); exact Hm.
  - specialize (Hm (St (seen s) (depth s + 1) (iters s)) p). destruct (m _); exact Hm.
Qed.
Lemma calm_seen t a m : calm m -> calm (check_seen t a m).
Proof. intros Hm s p. unfold check_seen. destruct (has a (seen s)); [discriminate|]. specialize (Hm (St (a :: seen s) (depth s) (iters s)) p). destruct (m _); exact Hm. Qed.
Lemma calm_elems e : forall l i, (forall x, In x l -> calm (e x)) -> calm (enc_elems e i l).
Proof.
  induction l as [|x l IH]; intros i He; cbn [enc_elems]; [apply calm_ret|].
  apply calm_bind; [apply He; left; reflexivity|]. intros b. apply calm_bind; [apply IH; intros y Hy; apply He; right; exact Hy|]. intros b'. apply calm_ret.
Qed.
Lemma calm_seq e l : (forall x, In x l -> calm (e x)) -> calm (enc_seq e l).
Proof. intros He. apply calm_bind; [apply calm_elems; exact He|]. intros b. apply calm_ret. Qed.
Lemma int_ok_range k z : int_range k z -> int_ok k z = true.
Proof. unfold int_range, int_ok. intros [A B]. apply andb_true_iff. split; [apply Z.leb_le|apply Z.ltb_lt]; assumption. Qed.
Lemma uint_ok_range k z : uint_range k z -> uint_ok k z = true.
Proof. unfold uint_range, uint_ok. intros [A B]. apply andb_true_iff. split; [apply Z.leb_le|apply Z.ltb_lt]; assumption. Qed.
Lemma byte_cells l : (forall x, In x l -> exists z, x = HUint z /\ uint_range U8 z) -> exists b, bytes_of_cells l = Some b.
Proof.
  induction l as [|x l IH]; intros Hx; cbn [bytes_of_cells]; [eexists; reflexivity|].
  destruct (Hx x (or_introl eq_refl)) as (z & -> & [Z1 Z2]). destruct IH as [b ->]; [intros y Hy; apply Hx; right; exact Hy|].
  apply Z.leb_le in Z1 as Z1'. rewrite Z1'. change (2 ^ ubits U8) with 256 in Z2.
  destruct (Byte.of_N (Z.to_N z)) as [c|] eqn:Q; [eexists; reflexivity|].
  apply Byte.of_N_None_iff in Q. lia.
Qed.

Section Calm.
  Context (X : Ext) (E : env) (H : heap) (ord : nat -> list (hval * hval) -> list (hval * hval)).
  Hypothesis Hord : fair_order ord.
  Hypothesis Hmp : methods_do_not_panic X.
  Context (t0 : gty) (v0 : hval).
  Hypothesis Hty : well_typed E H t0 v0.
  Hypothesis Hnm : no_nil_marshalers E H t0 v0.
  Notation inn := (within E H t0 v0).
  Notation enc := (enc_f X E H ord).

  Lemma calm_compile f t A (m : M A) : (encodable X E t -> calm m) -> calm (_ <== compile_now X E f t ;; m).
  Proof.
    intros Hm s p. unfold compile_now, bindM, lift. destruct (ecompile_f X E f false [] t) as [S0|e|q|] eqn:Q; cbn; try discriminate.
    - apply Hm. eapply compile_encodable. exact Q.
    - destruct (ecompile_nopanic _ _ _ _ _ _ _ Q).
  Qed.
  Lemma calm_scalar k v t : inn t v -> kind_of E t = k -> enc_scalar_kind k = true -> calm (enc_scalar X k v).
  Proof.
    intros I Hk Hs. pose proof (Hty t v I) as Hh. unfold enc_scalar. subst k.
    inversion Hh as [b Q|k0 z Q R|k0 z Q R|f Q|f Q|s Q|u Q|u o i n l Q C|n u l Q L|k0 u Q|k0 u o m Q En|u Q|u o i c Q C|Q|u x Q Q1 Q2|id fs l Q L|z0 Q]; subst v;
      try (rewrite Q in *; try discriminate; apply calm_ret); try (rewrite Q in *; discriminate).
    - rewrite Q in *. rewrite (int_ok_range _ _ R). apply calm_ret.
    - rewrite Q in *. rewrite (uint_ok_range _ _ R). destruct k0; try discriminate; apply calm_ret.
    - destruct (kind_of E t); discriminate.
    - destruct (kind_of E t); discriminate.
  Qed.
  Lemma calm_key k y t : inn t y -> kind_of E t = k -> calm (enc_key X k y).
  Proof. intros I Hk. unfold enc_key. destruct (enc_key_kind k) eqn:Q; [|apply calm_err]. eapply calm_scalar; [exact I|exact Hk|]. destruct k as [| |[]| | | | | | | | | | |]; try discriminate; reflexivity. Qed.
  Lemma calm_pairs k kt e : kind_of E kt = k -> forall l, (forall y x, In (y, x) l -> inn kt y /\ calm (e x)) -> calm (enc_pairs X k e l).
  Proof.
    intros Hk. induction l as [|[y x] l IH]; intros He; cbn [enc_pairs]; [apply calm_ret|]. destruct (He y x (or_introl eq_refl)) as [A B].
    apply calm_bind; [eapply calm_key; eassumption|]. intros b. apply calm_bind; [exact B|]. intros b'.
    apply calm_bind; [apply IH; intros; apply He; right; assumption|]. intros b2. apply calm_ret.
  Qed.
  Lemma calm_map k kt e m : kind_of E kt = k -> (forall y x, In (y, x) m -> inn kt y /\ calm (e x)) -> calm (enc_map X ord k e m).
  Proof.
    intros Hk He s p. unfold enc_map, range. unfold bindM at 1. cbn.
    set (s1 := St (seen s) (depth s) (S (iters s))). revert p. change (forall p, snd ((b <== enc_pairs X k e (ord (iters s) m) ;; ret (out_array_begin (blen m) ++ b ++ bs "}")) s1) <> RPanic p).
    intros p. revert s1 p. apply calm_bind; [|intros b; apply calm_ret]. eapply calm_pairs; [exact Hk|]. intros y x J. apply He. eapply Permutation_in; [symmetry; apply Hord|exact J].
  Qed.

  Lemma calm_method t v : inn t v \/ (exists u, inn u (HIface (Some (t, v))) /\ iface_kind (kind_of E u) = true /\ marshaler E u = true) ->
    here E H t v -> iface_kind (kind_of E t) = false -> marshaler E t = true -> ~ nil_marshaler E t v -> forall p, call_method X E H t v <> RPanic p.
  Proof.
    intros _ Hh Hif Hi Hn p. rewrite <- implements_eq in Hi. unfold call_method.
    assert (forall n, t = TName n -> x_marshal X n false H v <> RPanic p) as Q1 by (intros; apply Hmp).
    destruct t as [|k|k| | | |t'|n t'|k u|t'| |m| |n]; try discriminate; [|apply Hmp]. destruct t' as [|k|k| | | |t'|n t'|k u|t'| |m| |n]; try discriminate.
    cbn [implements] in Hi. destruct (nth_error E n) as [d|] eqn:Hd; [|discriminate]. change (kind_of E (TPtr (TName n))) with (KPtr (TName n)) in *.
    inversion Hh as [b Q|k0 z Q R|k0 z Q R|f Q|f Q|s Q|u Q|u o i n0 l Q C|n0 u l Q L|k0 u Q|k0 u o m Q En|u Q|u o i c Q C|Q|u x Q Q1' Q2|id fs l Q L|z0 Q]; subst v; try discriminate.
    - destruct (d_marshal d) eqn:Hm; [discriminate| |apply Hmp]. destruct Hn. eapply nm_ptr; eassumption.
    - destruct (d_marshal d) eqn:Hm; [discriminate| |apply Hmp]. rewrite C. apply Hmp.
  Qed.
  Lemma calm_marshal t v : inn t v -> marshaler E t = true -> calm (lift (call_marshal X E H t v)).
  Proof.
    intros I Hi. apply calm_now. intros p. pose proof (Hty t v I) as Hh. pose proof (Hnm t v I) as Hn. unfold call_marshal.
    destruct (iface_kind (kind_of E t)) eqn:Hif; [|apply calm_method; auto].
    inversion Hh as [b Q|k0 z Q R|k0 z Q R|f Q|f Q|s Q|u Q|u o i n0 l Q C|n0 u l Q L|k0 u Q|k0 u o m Q En|u Q|u o i c Q C|Q|u x Q Q1 Q2|id fs l Q L|z0 Q]; subst v;
      try (rewrite Q in Hif; discriminate).
    - destruct Hn. apply nm_nil; assumption.
    - rewrite Q1. assert (inn u x) as I' by (eapply wi_step; [exact I|]; apply pt_iface; exact Q).
      apply calm_method; [left; exact I'|apply Hty; exact I'|exact Q1|exact (Q2 Hi)|apply Hnm; exact I'].
  Qed.
  Lemma calm_bytes t v : inn t v -> bytes_type t = true -> exists b, byte_slice H v = Some b.
  Proof.
    intros I Hb. destruct t as [| | | | | |t'| | | | | | |]; try discriminate. destruct t' as [| |[]| | | | | | | | | | |]; try discriminate.
    pose proof (Hty _ _ I) as Hh. change (kind_of E (TSlice (TUint U8))) with (KSlice (TUint U8)) in Hh.
    inversion Hh as [b Q|k0 z Q R|k0 z Q R|f Q|f Q|s Q|u Q|u o i n0 l Q C|n0 u l Q L|k0 u Q|k0 u o m Q En|u Q|u o i c Q C|Q|u x Q Q1 Q2|id fs l Q L|z0 Q]; subst v; try discriminate; cbn [byte_slice].
    - eexists. reflexivity.
    - rewrite C. apply byte_cells. intros x Hx.
      assert (inn (TUint U8) x) as I' by (eapply wi_step; [exact I|]; eapply pt_slice; [reflexivity|exact C|exact Hx]).
      pose proof (Hty _ _ I') as Hh'. inversion Hh' as [b Q'|k0 z Q' R|k0 z Q' R|f Q'|f Q'|s Q'|u' Q'|u' o' i' n1 l' Q' C'|n1 u' l' Q' L|k0 u' Q'|k0 u' o' m Q' En|u' Q'|u' o' i' c Q' C'|Q'|u' x' Q' Q1 Q2|id fs l' Q' L|Q']; subst x; try discriminate.
      injection Q' as <-. eauto.
  Qed.

  Lemma calm_iface_str : forall f t v, inn t v -> calm (enc_iface_str X E H f t v).
  Proof.
    induction f as [|f IH]; intros t v I; cbn [enc_iface_str]; [apply calm_fuel|]. pose proof (Hty _ _ I) as Hh.
    inversion Hh as [b Q|k0 z Q R|k0 z Q R|x Q|x Q|s Q|u Q|u o i n0 l Q C|n0 u l Q L|k0 u Q|k0 u o m Q En|u Q|u o i c Q C|Q|u x Q Q1 Q2|id fs l Q L|z0 Q]; subst v; try rewrite Q.
    - destruct t as [|k|k| | | | | | | | | | |]; try destruct k; try (cbn in Q; discriminate); first [apply calm_ret|apply calm_err].
    - destruct t as [|k|k| | | | | | | | | | |]; try (cbn in Q; discriminate); try apply calm_err. cbn in Q. injection Q as ->. rewrite (int_ok_range _ _ R). apply calm_ret.
    - destruct t as [|k|k| | | | | | | | | | |]; try (cbn in Q; discriminate); try apply calm_err. cbn in Q. injection Q as ->. rewrite (uint_ok_range _ _ R). destruct k0; first [apply calm_ret|apply calm_err].
    - destruct t as [|k|k| | | | | | | | | | |]; try destruct k; try (cbn in Q; discriminate); first [apply calm_ret|apply calm_err].
    - destruct t as [|k|k| | | | | | | | | | |]; try destruct k; try (cbn in Q; discriminate); first [apply calm_ret|apply calm_err].
    - destruct t as [|k|k| | | | | | | | | | |]; try destruct k; try (cbn in Q; discriminate); first [apply calm_ret|apply calm_err].
    - destruct t as [|k|k| | | | | | | | | | |]; try destruct k; try (cbn in Q; discriminate); first [apply calm_ret|apply calm_err].
    - destruct t as [|k|k| | | | | | | | | | |]; try destruct k; try (cbn in Q; discriminate); first [apply calm_ret|apply calm_err].
    - destruct t as [|k|k| | | | | | | | | | |]; try destruct k; try (cbn in Q; discriminate); first [apply calm_ret|apply calm_err].
    - destruct t as [|k|k| | | | | | | | | | |]; try destruct k; try (cbn in Q; discriminate); first [apply calm_ret|apply calm_err].
    - destruct t as [|k|k| | | | | | | | | | |]; try destruct k; try (cbn in Q; discriminate); first [apply calm_ret|apply calm_err].
    - apply calm_ret.
    - rewrite C. apply IH. eapply wi_step; [exact I|]. eapply pt_ptr; eassumption.
    - destruct (kind_of E t); try discriminate; apply calm_ret.
    - assert (inn u x) as I' by (eapply wi_step; [exact I|]; apply pt_iface; exact Q). destruct (kind_of E t); try discriminate; apply IH; exact I'.
    - destruct t as [|k|k| | | | | | | | | | |]; try destruct k; try (cbn in Q; discriminate); first [apply calm_ret|apply calm_err].
    - destruct t as [|k|k| | | | | | | | | | |]; try destruct k; try (cbn in Q; discriminate); first [apply calm_ret|apply calm_err].
  Qed.
  Lemma calm_as_string f t v : inn t v -> quotable (kind_of E t) = true -> calm (enc_as_string X E H f t v).
  Proof.
    intros I Hq. pose proof (calm_iface_str f t v I) as Hi. pose proof (Hty _ _ I) as Hh. unfold enc_as_string.
    inversion Hh as [b Q|k0 z Q R|k0 z Q R|x Q|x Q|s Q|u Q|u o i n0 l Q C|n0 u l Q L|k0 u Q|k0 u o m Q En|u Q|u o i c Q C|Q|u x Q Q1 Q2|id fs l Q L|z0 Q]; subst v;
      try (rewrite Q in *; try discriminate; apply calm_ret).
    - rewrite Q, (int_ok_range _ _ R). apply calm_ret.
    - rewrite Q, (uint_ok_range _ _ R). apply calm_ret.
    - destruct (kind_of E t); try discriminate; exact Hi.
    - destruct (kind_of E t); try discriminate; exact Hi.
  Qed.

  (** what a job may rely on *)
  Definition sound_node (n : node) : Prop := forall u, einside X E n u -> ~ unencodable X E u.
  Definition able (m : mode) (t : gty) : Prop :=
    match m with
    | MType => sound_node (false, t)
    | MShape => exists b, speaks E (b, t) = false /\ (b || negb (bytes_type t)) = true /\ sound_node (b, t)
    | MIface => True
    end.
  Lemma sound_step n u : sound_node n -> epart X E n u -> sound_node u.
  Proof.
    intros S P w I. apply S. clear -P I. induction I as [|x y I IH Hp]; [eapply ei_step; [apply ei_refl|exact P]|eapply ei_step; [exact IH|exact Hp]].
  Qed.

  Lemma calm_field f fl x t id fs l : inn t (HStruct l) -> able MShape t -> kind_of E t = KStruct id fs -> In (fl, x) (combine fs l) -> enc_skipped X fl = false ->
    (forall t v, inn t v -> able MType t -> calm (enc f MType t v)) -> calm (enc_field X E H f (enc f MType) fl x).
  Proof.
    intros I (b & Hs & _ & Hsn) Hk Hin Hsk IH. assert (In fl fs) as Hfs by (eapply in_combine_l; exact Hin).
    assert (written_field X fl = true) as Hw by (rewrite written_eq, Hsk; reflexivity).
    assert (inn (f_ty fl) x) as Ix by (eapply wi_step; [exact I|]; eapply pt_field; eassumption).
    assert (tag_string (tag_of X fl) = true -> quotable (kind_of E (elem_or_self E (f_ty fl))) = true) as Hq.
    { intros Ht. destruct (quotable _) eqn:Q; [reflexivity|]. destruct (Hsn _ (ei_refl _ _ _)). eapply ue_string; eassumption. }
    assert (tag_string (tag_of X fl) = false -> able MType (elem_or_self E (f_ty fl))) as Ha.
    { intros Ht. eapply sound_step; [exact Hsn|]. eapply ep_field; eassumption. }
    unfold elem_or_self in *. unfold enc_field. pose proof (Hty _ _ Ix) as Hh.
    destruct (kind_of E (f_ty fl)) as [|k|k| | | |t'|n t'|k u|t'| |m| |id' fs'] eqn:Hkf;
      try (destruct (tag_string (tag_of X fl)) eqn:Htg; [apply calm_as_string; [exact Ix|exact (Hq eq_refl)]|apply IH; [exact Ix|exact (Ha eq_refl)]]).
    - inversion Hh as [b0 Q|k0 z Q R|k0 z Q R|y Q|y Q|s Q|u Q|u o i n0 l0 Q C|n0 u l0 Q L|k0 u Q|k0 u o m Q En|u Q|u o i c Q C|Q|u y Q Q1 Q2|id0 fs0 l0 Q L|z0 Q]; subst x; try (rewrite Hkf in Q; discriminate Q).
      + apply calm_ret.
      + rewrite C. replace u with t' in * by congruence. assert (inn t' c) as Ic by (eapply wi_step; [exact Ix|]; eapply pt_ptr; eassumption).
        destruct (tag_string (tag_of X fl)) eqn:Htg; [apply calm_as_string; [exact Ic|exact (Hq eq_refl)]|].
        assert (calm (enc f MType t' c)) as Q' by (apply IH; [exact Ic|exact (Ha eq_refl)]). destruct (struct_kind _); [apply calm_rec|]; exact Q'.
  Qed.
  Lemma calm_fields f t id fs0 l0 : inn t (HStruct l0) -> able MShape t -> kind_of E t = KStruct id fs0 ->
    (forall t v, inn t v -> able MType t -> calm (enc f MType t v)) ->
    forall fs l, length l = length fs -> (forall fl x, In (fl, x) (combine fs l) -> In (fl, x) (combine fs0 l0)) -> calm (enc_fields X E H f (enc f MType) fs l).
  Proof.
    intros I Ha Hk IH. induction fs as [|fl fs IHfs]; intros [|x l] L Hin; try discriminate L; cbn [enc_fields]; [apply calm_ret|]. injection L as L.
    assert (calm (enc_fields X E H f (enc f MType) fs l)) as Q by (apply IHfs; [exact L|]; intros g y J; apply Hin; right; exact J).
    destruct (enc_skipped X fl) eqn:Hsk; [exact Q|]. destruct (_ && _); [exact Q|]. apply calm_bind; [|intros b; apply calm_bind; [exact Q|intros r; apply calm_ret]].
    eapply calm_field; try eassumption. apply Hin. left. reflexivity.
  Qed.

  Lemma enc_calm : forall f m t v, inn t v -> able m t -> calm (enc f m t v).
  Proof.
    induction f as [|f IH]; intros m t v I Ha; cbn [enc_f]; [apply calm_fuel|]. pose proof (Hty _ _ I) as Hh. destruct m.
    - rewrite implements_eq, is_bytes_eq. destruct (marshaler E t) eqn:Hi; [apply calm_marshal; assumption|]. destruct (bytes_type t) eqn:Hb.
      + destruct (calm_bytes t v I Hb) as [b ->]. apply calm_ret.
      + apply IH; [exact I|]. exists false. split; [exact Hi|]. rewrite Hb. split; [reflexivity|exact Ha].
    - pose proof Ha as (b & Hs & Hby & Hsn).
      destruct (kind_of E t) as [|kk|kk| | | |t'|n t'|kk v'|t'| |mm| |id fs] eqn:Hk;
        try (destruct (enc_scalar_kind _) eqn:Hsk; [eapply calm_scalar; eassumption|apply calm_err]).
      + inversion Hh as [b0 Q|k0 z Q R|k0 z Q R|y Q|y Q|s Q|u Q|u o i n0 l0 Q C|n0 u l0 Q L|k0 u Q|k0 u o m Q En|u Q|u o i c Q C|Q|u y Q Q1 Q2|id0 fs0 l0 Q L|z0 Q]; subst v; try (rewrite Hk in Q; discriminate Q).
        * apply calm_ret.
        * rewrite C. apply calm_rec. apply calm_seq. intros x Hx. apply IH; [eapply wi_step; [exact I|]; eapply pt_slice; eassumption|].
          eapply sound_step; [exact Hsn|]. eapply ep_slice; eassumption.
      + inversion Hh as [b0 Q|k0 z Q R|k0 z Q R|y Q|y Q|s Q|u Q|u o i n0 l0 Q C|n0 u l0 Q L|k0 u Q|k0 u o m Q En|u Q|u o i c Q C|Q|u y Q Q1 Q2|id0 fs0 l0 Q L|z0 Q]; subst v; try (rewrite Hk in Q; discriminate Q).
        replace (Nat.eqb (length l0) n) with true by (symmetry; apply Nat.eqb_eq; congruence).
        apply calm_seq. intros x Hx. apply IH; [eapply wi_step; [exact I|]; eapply pt_array; eassumption|]. eapply sound_step; [exact Hsn|]. eapply ep_array; eassumption.
      + inversion Hh as [b0 Q|k0 z Q R|k0 z Q R|y Q|y Q|s Q|u Q|u o i n0 l0 Q C|n0 u l0 Q L|k0 u Q|k0 u o m Q En|u Q|u o i c Q C|Q|u y Q Q1 Q2|id0 fs0 l0 Q L|z0 Q]; subst v; try (rewrite Hk in Q; discriminate Q).
        * apply calm_ret.
        * rewrite En. apply calm_rec. eapply calm_map; [reflexivity|]. intros y x Hx. split; [eapply wi_step; [exact I|]; eapply pt_key; eassumption|].
          apply IH; [eapply wi_step; [exact I|]; eapply pt_entry; eassumption|]. eapply sound_step; [exact Hsn|]. eapply ep_map; eassumption.
      + destruct (iface_kind (kind_of E t')) eqn:Hif; [apply IH; [exact I|exact Logic.I]|].
        inversion Hh as [b0 Q|k0 z Q R|k0 z Q R|y Q|y Q|s Q|u Q|u o i n0 l0 Q C|n0 u l0 Q L|k0 u Q|k0 u o m Q En|u Q|u o i c Q C|Q|u y Q Q1 Q2|id0 fs0 l0 Q L|z0 Q]; subst v; try (rewrite Hk in Q; discriminate Q).
        * apply calm_ret.
        * rewrite C. assert (inn t' c) as Ic by (eapply wi_step; [exact I|]; eapply pt_ptr; eassumption).
          assert (sound_node (by_structure (kind_of E t'), t')) as Sn by (eapply sound_step; [exact Hsn|]; eapply ep_ptr; eassumption).
          rewrite <- by_structure_eq in Sn.
          assert (ptr_direct (kind_of E t') = true -> able MShape t') as Hd by (intros Q'; rewrite Q' in Sn; exists true; split; [reflexivity|split; [reflexivity|exact Sn]]).
          destruct (struct_kind (kind_of E t')) eqn:Hst.
          -- apply calm_rec. apply IH; [exact Ic|]. apply Hd. unfold ptr_direct. rewrite Hst, orb_true_r. reflexivity.
          -- destruct (ptr_direct (kind_of E t')) eqn:Hpd; apply IH; try exact Ic; [apply Hd; reflexivity|exact Sn].
      + apply IH; [exact I|exact Logic.I].
      + apply IH; [exact I|exact Logic.I].
      + inversion Hh as [b0 Q|k0 z Q R|k0 z Q R|y Q|y Q|s Q|u Q|u o i n0 l0 Q C|n0 u l0 Q L|k0 u Q|k0 u o m Q En|u Q|u o i c Q C|Q|u y Q Q1 Q2|id0 fs0 l0 Q L|z0 Q]; subst v; try (rewrite Hk in Q; discriminate Q).
        replace fs0 with fs in * by congruence. unfold enc_struct. apply calm_bind; [|intros r; apply calm_ret].
        eapply calm_fields; [exact I|exact Ha|exact Hk| |exact L|auto]. intros t1 v1 I1 A1. apply IH; assumption.
    - destruct (kind_of E t) as [|kk|kk| | | |t'|n t'|kk v'|t'| |mm| |id fs] eqn:Hk;
        try (destruct (enc_scalar_kind _) eqn:Hsk; [eapply calm_scalar; eassumption|apply calm_err]).
      + inversion Hh as [b0 Q|k0 z Q R|k0 z Q R|y Q|y Q|s Q|u Q|u o i n0 l0 Q C|n0 u l0 Q L|k0 u Q|k0 u o m Q En|u Q|u o i c Q C|Q|u y Q Q1 Q2|id0 fs0 l0 Q L|z0 Q]; subst v; try (rewrite Hk in Q; discriminate Q).
        * destruct (iface_kind _); [apply calm_ret|]. apply calm_compile. intros Henc. apply IH; [exact I|exact (proj1 Henc)].
        * apply calm_seen. rewrite C. destruct (iface_kind _).
          -- apply calm_seq. intros x Hx. apply IH; [|exact Logic.I]. eapply wi_step; [exact I|]; eapply pt_slice; eassumption.
          -- apply calm_compile. intros Henc. apply IH; [exact I|exact (proj1 Henc)].
      + inversion Hh as [b0 Q|k0 z Q R|k0 z Q R|y Q|y Q|s Q|u Q|u o i n0 l0 Q C|n0 u l0 Q L|k0 u Q|k0 u o m Q En|u Q|u o i c Q C|Q|u y Q Q1 Q2|id0 fs0 l0 Q L|z0 Q]; subst v; try (rewrite Hk in Q; discriminate Q).
        * destruct (enc_key_kind _); [apply calm_ret|apply calm_err].
        * apply calm_seen. destruct (enc_key_kind _); [|apply calm_err]. rewrite En.
          assert (forall y x, In (y, x) m -> inn kk y /\ inn v' x) as Hin.
          { intros y x Hx. split; (eapply wi_step; [exact I|]); [eapply pt_key|eapply pt_entry]; eassumption. }
          destruct m as [|e m]; [apply calm_ret|]. destruct (iface_kind _).
          -- eapply calm_map; [reflexivity|]. intros y x Hx. destruct (Hin y x Hx) as [A B]. split; [exact A|]. apply IH; [exact B|exact Logic.I].
          -- apply calm_compile. intros Henc. eapply calm_map; [reflexivity|]. intros y x Hx. destruct (Hin y x Hx) as [A B]. split; [exact A|]. apply IH; [exact B|exact (proj1 Henc)].
      + inversion Hh as [b0 Q|k0 z Q R|k0 z Q R|y Q|y Q|s Q|u Q|u o i n0 l0 Q C|n0 u l0 Q L|k0 u Q|k0 u o m Q En|u Q|u o i c Q C|Q|u y Q Q1 Q2|id0 fs0 l0 Q L|z0 Q]; subst v; try (rewrite Hk in Q; discriminate Q).
        * apply calm_ret.
        * rewrite C. apply IH; [|exact Logic.I]. eapply wi_step; [exact I|]. replace t' with u by congruence. eapply pt_ptr; eassumption.
      + inversion Hh as [b0 Q|k0 z Q R|k0 z Q R|y Q|y Q|s Q|u Q|u o i n0 l0 Q C|n0 u l0 Q L|k0 u Q|k0 u o m Q En|u Q|u o i c Q C|Q|u y Q Q1 Q2|id0 fs0 l0 Q L|z0 Q]; subst v; try (rewrite Hk in Q; discriminate Q).
        * apply calm_ret.
        * apply IH; [|exact Logic.I]. eapply wi_step; [exact I|]. apply pt_iface. exact Q.
      + inversion Hh as [b0 Q|k0 z Q R|k0 z Q R|y Q|y Q|s Q|u Q|u o i n0 l0 Q C|n0 u l0 Q L|k0 u Q|k0 u o m Q En|u Q|u o i c Q C|Q|u y Q Q1 Q2|id0 fs0 l0 Q L|z0 Q]; subst v; try (rewrite Hk in Q; discriminate Q).
        * apply calm_ret.
        * apply IH; [|exact Logic.I]. eapply wi_step; [exact I|]. apply pt_iface. exact Q.
      + apply calm_compile. intros Henc. apply IH; [exact I|exact (proj1 Henc)].
  Qed.
  Theorem marshal_calm c p : ~ MarshalPanicsIn X E H ord c t0 v0 p.
  Proof.
    intros [f Q]. revert Q. apply (calm_compile f t0 bytes (enc f MType t0 v0)). intros Henc. apply enc_calm; [apply wi_refl|exact (proj1 Henc)].
  Qed.
End Calm.

