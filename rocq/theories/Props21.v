(** When Unmarshal panics (C63). *)
From Coq Require Import Strings.String Strings.Byte ZArith List Bool Lia Floats.SpecFloat.
From Verif Require Import Base GoTypes Strconv Tags Scan Decode Unmarshal Grammar Denote Typing Api SoundT CompileFacts UnmFacts Context ContextFacts Panics PanicFacts Safe Demo Props5.
Import ListNotations.
Open Scope Z_scope.

(** ** C63 The inputs that make [Unmarshal] panic are exactly these.

    [panics_at] describes them: all before some point has been accepted, and
    there the destination is a slice and the data declares more elements than can
    be allocated or has an index that a slice cannot be grown to; or the
    destination is a map, and the data has a key that a pointer cannot hold, or
    that cannot be compared.  It also describes what is left in the destination. *)
Theorem C63_panics_iff : forall X E T v data p w,
  small data -> go_env E -> user_ok X E -> typed E T v ->
  ((exists cf, unmarshal X E cf data (TgPtr T v) = (w, RPanic p)) <->
   supported X E T /\ panics_at X E 0 T v data p w).
Proof.
  intros X E T v data p w Hsm Henv Hu Hv. split.
  - intros [cf H]. unfold unmarshal in H. destruct data as [|b data'] eqn:Ed; [discriminate H|]. rewrite <- Ed in *.
    pose proof (compile_nopanic X E p cf [] T) as Hnp. destruct (compile_f X E cf [] T) as [[]|e|p0|] eqn:Ec; [|discriminate H|congruence|discriminate H].
    split; [apply (compile_iff X E T); exists cf; exact Ec|].
    destruct (decode X E T data 0 0 v) as [w1 r1] eqn:Er. injection H as -> H.
    destruct r1 as [c|e|p1|]; cbn [bind] in H; try discriminate H.
    + exfalso. pose proof (decode_out X E T data v Hsm ltac:(subst; discriminate)) as D. rewrite Er in D.
      destruct D as (q & s' & _ & _ & Hq). pose proof (validate_end_out _ _ _ Hq) as V. rewrite H in V. exact V.
    + injection H as ->. apply decode_panics_only; auto. subst; discriminate.
  - intros [Hs Hp]. apply (compile_iff X E T) in Hs as [cf Hcf]. exists cf.
    assert (data <> []) as Hne.
    { destruct Hp as (pre & rest & d & t & old & put & w' & -> & _ & Hb & _). destruct (blast_head _ _ _ _ _ _ _ _ Hb) as (b & r & -> & _).
      intros Q. apply app_eq_nil in Q as [_ Q]. discriminate Q. }
    unfold unmarshal. rewrite Hcf, (decode_panics X E data T v p w Hsm Hne Hp). destruct data; [congruence|reflexivity].
Qed.
Print Assumptions C63_panics_iff.

(** Whatever else is given to it, it returns. *)
Theorem C63_otherwise : forall X E T v data,
  small data -> go_env E -> user_ok X E -> typed E T v -> supported X E T ->
  (forall p w, ~ panics_at X E 0 T v data p w) ->
  exists cf w r, unmarshal X E cf data (TgPtr T v) = (w, r) /\ (r = ROk tt \/ exists e, r = RErr e).
Proof.
  intros X E T v data Hsm Henv Hu Hv Hs Hno. apply (compile_iff X E T) in Hs as Hc. destruct Hc as [cf Hcf]. exists cf.
  destruct (unmarshal X E cf data (TgPtr T v)) as [w r] eqn:H. exists w, r. split; [reflexivity|].
  destruct r as [[]|e|p|]; [left; reflexivity|right; eauto|exfalso|exfalso].
  - apply (Hno p w). apply (C63_panics_iff X E T v data p w Hsm Henv Hu Hv). exists cf. exact H.
  - unfold unmarshal in H. destruct data as [|b data'] eqn:Ed; [discriminate H|]. rewrite <- Ed in *. rewrite Hcf in H.
    pose proof (decode_out X E T data v Hsm ltac:(subst; discriminate)) as D. destruct (decode X E T data 0 0 v) as [w1 [c|e|p|]].
    + destruct D as (q & s' & _ & _ & Hq). pose proof (validate_end_out _ _ _ Hq) as V. cbn [bind] in H. injection H as _ H. rewrite H in V. exact V.
    + discriminate H.
    + discriminate H.
    + exact D.
Qed.
Print Assumptions C63_otherwise.

(** An index in the "Tags" of a Node that no slice can have: what comes before
    it has been stored. *)
Definition far : bytes := bs "a:2:{s:1:""a"";i:7;s:4:""Tags"";a:1:{i:9223372036854775807;s:0:"""";}}".
Definition far_left : gval := VStruct [VInt 7; VStr []; VPtr None; VInt 0; VSlice None].
Example C63_example : small far /\ go_env Ed /\ user_ok Xd Ed /\ typed Ed (TName 0) (zero Ed (TName 0)) /\ supported Xd Ed (TName 0) /\
  unmarshal Xd Ed 9 far (TgPtr (TName 0) (zero Ed (TName 0))) = (far_left, RPanic PAlloc) /\
  panics_at Xd Ed 0 (TName 0) (zero Ed (TName 0)) far PAlloc far_left.
Proof.
  assert (supported Xd Ed (TName 0)) as Hs.
  { eapply supported_inside; [exact node_supported|]. eapply in_step; [apply in_refl|]. eapply co_ptr. split; reflexivity. }
  assert (unmarshal Xd Ed 9 far (TgPtr (TName 0) (zero Ed (TName 0))) = (far_left, RPanic PAlloc)) as Hu by (vm_compute; reflexivity).
  assert (typed Ed (TName 0) (zero Ed (TName 0))) as Ht by (apply zero_typed; exact Ed_go).
  split; [reflexivity|]. split; [exact Ed_go|]. split; [exact Ed_user|]. split; [exact Ht|]. split; [exact Hs|]. split; [exact Hu|].
  apply (C63_panics_iff Xd Ed (TName 0) _ far PAlloc far_left eq_refl Ed_go Ed_user Ht). exists 9%nat. exact Hu.
Qed.
Print Assumptions C63_example.

(** A map with keys of any type, in a map; the second key of the inner map is a
    map.  And a map with pointer keys. *)
Definition nested_key : bytes := bs "a:1:{s:1:""x"";a:2:{i:1;b:1;a:0:{}b:0;}}".
Definition any_keys : gty := TMap TString (TMap TAny TBool).
Example C63_key_example :
  panics_at Xd Ed 0 any_keys (VMap None) nested_key PUnhashable (VMap (Some [])) /\
  panics_at Xd Ed 0 (TMap (TPtr (TInt I8)) TBool) (VMap None) (bs "a:1:{i:1000;b:1;}") PReflect (VMap (Some [])).
Proof.
  split.
  - apply (C63_panics_iff Xd Ed any_keys _ nested_key PUnhashable _ eq_refl Ed_go Ed_user); [apply zero_typed with (t := any_keys); exact Ed_go|].
    exists 9%nat. vm_compute. reflexivity.
  - apply (C63_panics_iff Xd Ed (TMap (TPtr (TInt I8)) TBool) _ (bs "a:1:{i:1000;b:1;}") PReflect _ eq_refl Ed_go Ed_user); [apply zero_typed with (t := TMap (TPtr (TInt I8)) TBool); exact Ed_go|].
    exists 9%nat. vm_compute. reflexivity.
Qed.
Print Assumptions C63_key_example.
