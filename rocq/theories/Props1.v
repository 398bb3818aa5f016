(** Properties of Unmarshal, part 1: termination, memory safety, framing,
    exactness (C01-C03, C06-C10). *)
From Coq Require Import Strings.String Strings.Byte ZArith List Bool Lia.
From Verif Require Import Base GoTypes Tags Unmarshal Grammar Denote Typing Api CompileFacts Safe UnmFacts Demo.
Import ListNotations.
Open Scope Z_scope.

(** ** C01 Unmarshal always returns: for every input and every target (if it is
    a pointer, to a type whose recursion goes through structs, cf. C26), the call ends, and
    more recursion allowance does not change how. *)
Theorem C01_unmarshal_returns : forall X E data tg, small data -> (forall T v, tg = TgPtr T v -> grounded E T) ->
  exists cf w r, r <> RFuel /\ forall cf', (cf <= cf')%nat -> unmarshal X E cf' data tg = (w, r).
Proof. exact unmarshal_returns_stable. Qed.
Print Assumptions C01_unmarshal_returns.
Example C01_example : small (bs "a:1:{s:4:""Next"";a:1:{s:1:""a"";i:7;}}") /\ grounded Ed (TName 0).
Proof. split; [reflexivity|apply Ed_grounded]. Qed.

(** Whatever the type (even one whose compilation needs the guard above): once
    the type is accepted, no input makes the decoder run for ever. *)
Theorem C01_accepted_type_returns : forall X E cf data T v, small data ->
  compile_f X E cf [] T = ROk tt -> snd (unmarshal X E cf data (TgPtr T v)) <> RFuel.
Proof. exact unmarshal_returns_accepted. Qed.
Print Assumptions C01_accepted_type_returns.
Example C01_example2 : compile_f Xd Ed 9 [] (TName 2) = ROk tt.
Proof. vm_compute. reflexivity. Qed.

(** ** C02 No index or slice of the input is ever out of range. *)
Theorem C02_never_reads_outside : forall X E cf data tg, small data ->
  snd (unmarshal X E cf data tg) <> RPanic PIndex.
Proof. exact unmarshal_no_index. Qed.
Print Assumptions C02_never_reads_outside.
Example C02_example : small (bs "s:9223372036854775807:""x"";") /\
  snd (unmarshal Xd Ed 9 (bs "s:9223372036854775807:""x"";") (TgPtr TString (VStr []))) = RErr (ESyntax 23 (WEnd "string")).
Proof. split; vm_compute; reflexivity. Qed.

(** ** C03 No panic of any kind, when the destination contains no slice and no
    map keyed by any or by a pointer. *)
Theorem C03_no_panic : forall X E data T v p, small data -> go_env E -> user_ok X E ->
  slice_free E T -> keys_safe E T -> typed E T v -> ~ Panics X E data T v p.
Proof. exact panics_slice_free. Qed.
Print Assumptions C03_no_panic.
Example C03_example : go_env Ed /\ user_ok Xd Ed /\ slice_free Ed (TName 4) /\ keys_safe Ed (TName 4) /\
  typed Ed (TName 4) (zero Ed (TName 4)).
Proof.
  assert (forall U, inside Ed (TName 4) U -> In U [TName 4; TPtr (TName 4); TMap (TInt IInt) TBool; TInt IInt; TBool]) as H.
  { induction 1 as [|U V H IH Hc]; [cbn; auto|].
    cbn in IH. destruct IH as [<-|[<-|[<-|[<-|[<-|[]]]]]];
      (inversion Hc as [t [Hu Hk]|t [Hu Hk]|n t [Hu Hk]|k t [Hu Hk]|k t [Hu Hk]|id fs f [Hu Hk] HIn];
       try discriminate; cbn in Hk; inversion Hk; subst; try (cbn in HIn; destruct HIn as [<-|[<-|[]]]); cbn; tauto). }
  repeat split.
  - apply Ed_go.
  - apply Ed_go.
  - exact Ed_user.
  - intros U t HU [Hu Hk]. apply H in HU. cbn in HU. destruct HU as [<-|[<-|[<-|[<-|[<-|[]]]]]]; discriminate.
  - intros U k t HU [Hu Hk]. apply H in HU. cbn in HU. destruct HU as [<-|[<-|[<-|[<-|[<-|[]]]]]]; try discriminate.
    cbn in Hk. injection Hk as <- <-. cbn. exact I.
  - apply zero_typed. exact Ed_go.
Qed.

(** ** C06 The whole input is consumed: bytes after a complete value are an
    error. *)
Theorem C06_trailing_bytes_error : forall X E data T v w s, small (data ++ s) -> s <> [] ->
  Decodes X E data T v w -> Fails X E (data ++ s) T v w.
Proof. exact trailing_error. Qed.
Print Assumptions C06_trailing_bytes_error.
Example C06_example : Decodes Xd Ed (bs "a:1:{s:1:""a"";i:7;}") (TName 0) (zero Ed (TName 0))
  (VStruct [VInt 7; VStr []; VPtr None; VInt 0; VSlice None]).
Proof. exists 9%nat. vm_compute. reflexivity. Qed.

(** ** C07 A truncated input is rejected, whatever the destinations. *)
Theorem C07_truncated_rejected : forall X E X' E' a b T T' v v' w w', small (a ++ b) -> b <> [] ->
  Decodes X E (a ++ b) T v w -> ~ Decodes X' E' a T' v' w'.
Proof. exact truncated_rejected. Qed.
Print Assumptions C07_truncated_rejected.
Example C07_example : Decodes Xd Ed (bs "a:1:{s:1:""b"";s:3:""}}}"";" ++ bs "}") (TName 0) (zero Ed (TName 0))
  (VStruct [VInt 0; VStr (bs "}}}"); VPtr None; VInt 0; VSlice None]).
Proof. exists 9%nat. vm_compute. reflexivity. Qed.

(** ** C08 Unmarshal accepts exactly the texts of serialized values that can be
    stored into the destination, and stores what [store] (Denote.v) says. *)
Theorem C08_exact : forall X E data T v w, small data ->
  Decodes X E data T v w <-> supported X E T /\ exists p, data = text p /\ store X E 0 T p v w.
Proof. exact decodes_iff. Qed.
Print Assumptions C08_exact.
(** One input is the text of one value only, and a destination gets one value. *)
Theorem C08_unambiguous : forall X E p q T U v w v' w',
  store X E 0 T p v w -> store X E 0 U q v' w' -> text p = text q -> p = q.
Proof. exact store_text_inj. Qed.
Print Assumptions C08_unambiguous.
Theorem C08_deterministic : forall X E data T v w w',
  Decodes X E data T v w -> Decodes X E data T v w' -> w = w'.
Proof. exact decodes_det. Qed.
Print Assumptions C08_deterministic.
Example C08_example : supported Xd Ed (TName 0) /\
  store Xd Ed 0 (TName 0) (LArr (bs "1") [(LStr (bs "1") (bs "a"), LInt (bs "007"))])
    (zero Ed (TName 0)) (VStruct [VInt 7; VStr []; VPtr None; VInt 0; VSlice None]).
Proof.
  split; [apply (compile_supported Xd Ed 9); vm_compute; reflexivity|].
  apply (decodes_text Xd Ed); [reflexivity| | |exists 9%nat; vm_compute; reflexivity].
  - eapply wf_arr; [split; [discriminate|reflexivity]|]. constructor; [|constructor]. split.
    + eapply wf_str; [split; [discriminate|reflexivity]|reflexivity].
    + eapply wf_int. apply it_pos. split; [discriminate|reflexivity].
  - apply (compile_supported Xd Ed 9). vm_compute. reflexivity.
Qed.

(** ** C09 Signed integers are decoded exactly or rejected. *)
Theorem C09_signed_exact : forall X E T k v t, small (text (LInt t)) -> ~ In ";"%byte t -> plain E T (KInt k) ->
  (forall z, int_text t z -> int_range k z -> Decodes X E (text (LInt t)) T v (VInt z)) /\
  ((forall z, int_text t z -> ~ int_range k z) -> Fails X E (text (LInt t)) T v v).
Proof. exact int_exact_api. Qed.
Print Assumptions C09_signed_exact.
Example C09_example : int_text (bs "-128") (-128) /\ int_range I8 (-128) /\ int_text (bs "128") 128 /\ ~ int_range I8 128.
Proof.
  repeat split; try (unfold int_range; cbn; lia).
  - apply (it_neg (bs "128")). split; [discriminate|reflexivity].
  - apply (it_pos (bs "128")). split; [discriminate|reflexivity].
Qed.

(** The ranges, in figures. *)
Theorem C09_ranges : forall k z, int_range k z <->
  match k with
  | I8 => -128 <= z <= 127
  | I16 => -32768 <= z <= 32767
  | I32 => -2147483648 <= z <= 2147483647
  | I64 | IInt => -9223372036854775808 <= z <= 9223372036854775807
  end.
Proof. intros [] z; unfold int_range; cbn [ibits]; lia. Qed.
Print Assumptions C09_ranges.

(** ** C10 Unsigned integers are decoded exactly or rejected. *)
Theorem C10_unsigned_exact : forall X E T k v t, small (text (LInt t)) -> ~ In ";"%byte t -> plain E T (KUint k) ->
  (numeral t -> uint_range k (num t) -> Decodes X E (text (LInt t)) T v (VUint (num t))) /\
  (~ (numeral t /\ uint_range k (num t)) -> Fails X E (text (LInt t)) T v v).
Proof. exact uint_exact_api. Qed.
Print Assumptions C10_unsigned_exact.
Theorem C10_ranges : forall k z, uint_range k z <->
  match k with
  | U8 => 0 <= z <= 255
  | U16 => 0 <= z <= 65535
  | U32 => 0 <= z <= 4294967295
  | U64 | UUint | UPtr => 0 <= z <= 18446744073709551615
  end.
Proof. intros [] z; unfold uint_range; cbn [ubits]; lia. Qed.
Print Assumptions C10_ranges.
Example C10_example : numeral (bs "18446744073709551615") /\ uint_range U64 (num (bs "18446744073709551615")) /\
  ~ uint_range U64 (num (bs "18446744073709551616")).
Proof. repeat split; try discriminate; vm_compute; intuition discriminate. Qed.
