(** How often Unmarshal reads its input (C76). *)
From Coq Require Import Strings.String Strings.Byte ZArith List Bool Lia Floats.SpecFloat.
From Verif Require Import Base GoTypes Strconv Tags Grammar Unmarshal Api Steps StepsFacts StepsBound Demo.
Import ListNotations.
Open Scope Z_scope.

(** ** C76 However its data is nested and whatever it is decoded into, a call of
    Unmarshal that returns or panics has read at most five bytes for each byte of
    its input, and twelve more: no part of the input is read again and again. *)

(** Unmarshal(data, &x) with x of type T holding v ends with x holding [w] and
    outcome [r], and has then read [n] bytes (Steps.v), counting the copy of the
    input that it makes first. *)
Definition Reads (X : Ext) (E : env) (data : bytes) (T : gty) (v w : gval) (r : R unit) (n : Z) : Prop :=
  exists cf, unmarshal X E cf data (TgPtr T v) = (w, r) /\ r <> RFuel /\ t_unmarshal X E cf data T v = (w, r, n).

(** The counting decoder is the decoder: every call that ends has a count. *)
Theorem C76_counts : forall X E cf data T v w r,
  unmarshal X E cf data (TgPtr T v) = (w, r) -> r <> RFuel -> exists n, Reads X E data T v w r n.
Proof.
  intros X E cf data T v w r H Hr. pose proof (t_unmarshal_same X E cf data T v) as S. rewrite H in S.
  destruct (t_unmarshal X E cf data T v) as [p n] eqn:Q. cbn [fst] in S. subst p. exists n, cf. auto.
Qed.
Print Assumptions C76_counts.

Theorem C76_linear : forall X E data T v w r n,
  small data -> Reads X E data T v w r n -> n <= 5 * blen data + 12.
Proof.
  intros X E data T v w r n S (cf & _ & _ & H). pose proof (t_unmarshal_linear X E cf data T v S) as L.
  rewrite H in L. exact L.
Qed.
Print Assumptions C76_linear.

(** Whatever the environment's bytes are: the count does not rest on what the input
    contains.  The decoder's only access to it is through the two counted
    operations; here they are any functions at all. *)
Theorem C76_any_bytes : forall len get cut X E fuel T v, 0 <= len < 2 ^ 62 ->
  snd (t_decode_f len get cut X E fuel T 0 0 v) <= 4 * len + 12.
Proof.
  intros len get cut X E fuel T v L.
  pose proof (w_decode_f len get cut L X E fuel T 0 0 v ltac:(lia)) as W. pose proof (slack_ge E T) as G.
  destruct (t_decode_f _ _ _ _ _ _ _ _ _ _) as [[v' [c|e|p|]] n]; cbn [wn] in W; cbn [snd]; lia.
Qed.
Print Assumptions C76_any_bytes.

(** Nested lists, read once each. *)
Example C76_example :
  Reads Xd Ed (bs "a:1:{i:0;a:2:{i:0;s:2:""xy"";i:1;d:1.5;}}") TAny (VIface None)
    (fst (unmarshal Xd Ed 1 (bs "a:1:{i:0;a:2:{i:0;s:2:""xy"";i:1;d:1.5;}}") (TgPtr TAny (VIface None)))) (ROk tt) 109.
Proof. exists 1%nat. split; [vm_compute; reflexivity|]. split; [discriminate|]. vm_compute. reflexivity. Qed.
