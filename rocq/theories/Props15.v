(** Properties of repeated and indirect decoding (C56-C58). *)
From Coq Require Import Strings.String Strings.Byte ZArith List Bool Lia Floats.SpecFloat.
From Verif Require Import Base GoTypes Tags Unmarshal Grammar Denote Typing Api NumFacts CompileFacts Safe UnmFacts StoreFacts StructFacts
  Again IdemFacts Demo Props5.
Import ListNotations.
Open Scope Z_scope.

(** ** C56 Decoding the same data again into the same destination changes
    nothing (and is accepted again). *)
Theorem C56_idempotent : forall X E data T v w, small data -> go_env E -> no_ifaces E T -> simple_keys E T -> typed E T v ->
  Decodes X E data T v w -> Decodes X E data T w w.
Proof.
  intros X E data T v w Hsm Henv Hi Hk Hv [cf H]. exists cf. apply (unmarshal_iff X E cf data T) in H as (Hc & p & -> & Hs); [|exact Hsm].
  apply (unmarshal_iff X E cf (text p) T); [exact Hsm|]. split; [exact Hc|]. exists p. split; [reflexivity|].
  eapply store_idem; eauto; [apply in_refl|apply typed_fits; exact Hv].
Qed.
Print Assumptions C56_idempotent.
(** Outside the guards it is false.  A map with keys of type any grows with
    every decode of a NaN key. *)
Theorem C56_nan_keys_refuted : forall X E,
  let data := bs "a:1:{d:NAN;b:1;}" in let nan := VIface (Some (TF64, VF64 S754_nan)) in
  Decodes X E data (TMap TAny TBool) (VMap None) (VMap (Some [(nan, VBool true)])) /\
  Decodes X E data (TMap TAny TBool) (VMap (Some [(nan, VBool true)])) (VMap (Some [(nan, VBool true); (nan, VBool true)])).
Proof. intros [f p l u q s m a] E. split; exists 4%nat; vm_compute; reflexivity. Qed.
Print Assumptions C56_nan_keys_refuted.
(** An interface with methods passes the value it holds to its own UnmarshalPHP,
    which may accumulate. *)
Theorem C56_interfaces_refuted :
  let holding z := VIface (Some (TPtr (TName 1), VPtr (Some (VInt z)))) in
  Decodes Xd Ed (bs "i:1;") (TIface true) (holding 5) (holding 6) /\ Decodes Xd Ed (bs "i:1;") (TIface true) (holding 6) (holding 7).
Proof. split; exists 4%nat; vm_compute; reflexivity. Qed.
Print Assumptions C56_interfaces_refuted.

(** ** C57 Whether data is accepted depends on the type of the destination
    only, not on what it holds. *)
Theorem C57_acceptance : forall X E data T v w v', small data -> go_env E -> no_ifaces E T -> typed E T v' ->
  Decodes X E data T v w -> exists w', Decodes X E data T v' w'.
Proof.
  intros X E data T v w v' Hsm Henv Hi Hv [cf H]. apply (unmarshal_iff X E cf data T) in H as (Hc & p & -> & Hs); [|exact Hsm].
  destruct (accept X E T Henv Hi 0 T p v w v' (in_refl E T) Hs (typed_fits E T v' Hv)) as (w' & Hw). exists w', cf.
  apply (unmarshal_iff X E cf (text p) T); eauto.
Qed.
Print Assumptions C57_acceptance.
Theorem C57_interfaces_refuted :
  (exists w, Decodes Xd Ed (bs "i:1;") (TIface true) (VIface (Some (TPtr (TName 1), VPtr (Some (VInt 5))))) w) /\
  (exists w, Fails Xd Ed (bs "i:1;") (TIface true) (VIface None) w).
Proof. split; eexists; [exists 4%nat; vm_compute; reflexivity|]. exists 4%nat. eexists. vm_compute. reflexivity. Qed.
Print Assumptions C57_interfaces_refuted.

(** type Fixed struct { K map[int]bool; P *Fixed }: the key 1 twice, the field P twice, the
    second time over the first; the destination holds something already *)
Definition fixed_types : list gty := [TName 4; TMap (TInt IInt) TBool; TInt IInt; TBool; TPtr (TName 4)].
Lemma fixed_inside U : inside Ed (TName 4) U -> In U fixed_types.
Proof.
  apply inside_list; [left; reflexivity|]. intros V W Hv Hc.
  repeat (destruct Hv as [<-|Hv]); try destruct Hv;
    inversion Hc as [t [_ Q]|t [_ Q]|n t [_ Q]|k t [_ Q]|k t [_ Q]|id fs f [_ Q] Hf Hi]; cbn in Q; try discriminate Q; injection Q as; subst;
    try (cbn; tauto).
  cbn in Hf. repeat (destruct Hf as [<-|Hf]; [cbn; tauto|]). destruct Hf.
Qed.
Definition fixed_data : bytes := bs "a:3:{s:1:'P';a:1:{s:1:'K';a:2:{i:1;b:1;i:7;b:1;}}s:1:'K';a:2:{i:1;b:1;i:1;b:0;}s:1:'P';a:1:{s:1:'K';a:1:{i:1;b:0;}}}".
Definition quoted (s : bytes) : bytes := map (fun b => if Byte.eqb b "'"%byte then """"%byte else b) s.
Definition fixed_old : gval := VStruct [VMap (Some [(VInt 5, VBool true)]); VPtr (Some (VStruct [VMap None; VPtr None]))].
Definition fixed_new : gval :=
  VStruct [VMap (Some [(VInt 5, VBool true); (VInt 1, VBool false)]);
           VPtr (Some (VStruct [VMap (Some [(VInt 1, VBool false); (VInt 7, VBool true)]); VPtr None]))].
Example C56_example : go_env Ed /\ no_ifaces Ed (TName 4) /\ simple_keys Ed (TName 4) /\ typed Ed (TName 4) fixed_old /\
  Decodes Xd Ed (quoted fixed_data) (TName 4) fixed_old fixed_new /\ Decodes Xd Ed (quoted fixed_data) (TName 4) fixed_new fixed_new.
Proof.
  split; [exact Ed_go|]. split.
  { intros U m Hu [_ Hk]. apply fixed_inside in Hu. repeat (destruct Hu as [<-|Hu]; [discriminate Hk|]). destruct Hu. }
  split.
  { intros U k t Hu [_ Hk]. apply fixed_inside in Hu. repeat (destruct Hu as [<-|Hu]; [try discriminate Hk|]); [|destruct Hu].
    injection Hk as <- <-. exists (KInt IInt). split; [split; reflexivity|exact I]. }
  split.
  { eapply ty_struct; [reflexivity|]. constructor; [|constructor; [|constructor]].
    - eapply ty_map; [reflexivity|]. constructor; [|constructor]. split; [|apply ty_bool; reflexivity].
      eapply ty_int; [reflexivity|]. unfold int_range. cbn. lia.
    - eapply ty_ptr; [reflexivity|]. eapply ty_struct; [reflexivity|]. constructor; [|constructor; [|constructor]].
      + eapply ty_map_nil. reflexivity.
      + eapply ty_ptr_nil. reflexivity. }
  split; exists 9%nat; vm_compute; reflexivity.
Qed.

(** ** C58 Decoding into a pointer is decoding into what it points to: into a
    new zero value if it is nil; null makes it nil.  (A pointer to a pointer is
    not supported.) *)
Definition pointed (E : env) (T : gty) (o : option gval) : gval := match o with Some v => v | None => zero E T end.
Theorem C58_pointer : forall X E data T t o w, small data -> supported X E T -> plain E T (KPtr t) -> data <> bs "N;" ->
  (Decodes X E data T (VPtr o) w <-> exists x, w = VPtr (Some x) /\ Decodes X E data t (pointed E t o) x).
Proof.
  intros X E data T t o w Hsm Hs Hk Hd.
  assert (supported X E t) as Hst by (eapply supported_component; [exact Hs|apply co_ptr; exact Hk]).
  assert (is_ptr E t = false) as Hnp.
  { destruct (is_ptr E t) eqn:Ep; [|reflexivity]. exfalso. apply (proj1 Hs T); [apply in_refl|]. eapply us_ptr; eauto. }
  split.
  - intros H. apply decodes_inv in H as (_ & p & -> & H); [|exact Hsm].
    pose proof (TextFacts.store_wf _ _ _ _ _ _ _ H) as Hw.
    inversion H; subst; kinds; [exfalso; apply Hd; reflexivity|]. replace t0 with t in * by congruence.
    eexists. split; [reflexivity|]. apply decodes_text; assumption.
  - intros (x & -> & H). apply decodes_inv in H as (_ & p & -> & H); [|exact Hsm].
    pose proof (TextFacts.store_wf _ _ _ _ _ _ _ H) as Hw. apply decodes_text; auto.
    eapply sto_ptr; eauto. intros ->. apply Hd. reflexivity.
Qed.
Print Assumptions C58_pointer.
Theorem C58_null : forall X E T t v w, supported X E T -> plain E T (KPtr t) ->
  (Decodes X E (bs "N;") T v w <-> w = VPtr None).
Proof.
  intros X E T t v w Hs Hk. assert (small (bs "N;")) as Hsm by reflexivity.
  assert (is_ptr E t = false) as Hnp.
  { destruct (is_ptr E t) eqn:Ep; [|reflexivity]. exfalso. apply (proj1 Hs T); [apply in_refl|]. eapply us_ptr; eauto. }
  rewrite (decodes_text X E T LNull v w) by (auto; constructor). split.
  - intros H. inversion H; subst; kinds; congruence.
  - intros ->. eapply sto_ptr_null; eauto.
Qed.
Print Assumptions C58_null.
Example C58_example : supported Xd Ed (TPtr (TName 0)) /\ plain Ed (TPtr (TName 0)) (KPtr (TName 0)) /\
  Decodes Xd Ed (quoted (bs "a:1:{s:1:'a';i:3;}")) (TPtr (TName 0)) (VPtr None)
    (VPtr (Some (VStruct [VInt 3; VStr []; VPtr None; VInt 0; VSlice None]))).
Proof. split; [exact node_supported|]. split; [split; reflexivity|]. exists 9%nat. vm_compute. reflexivity. Qed.
