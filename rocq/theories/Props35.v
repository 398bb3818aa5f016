(** How deep the calls inside Unmarshal and Marshal nest (C81). *)
From Coq Require Import Strings.String Strings.Byte ZArith List Bool Lia.
From Verif Require Import Base GoTypes Tags Scan Decode Unmarshal Stack Grammar Denote Typing Api UnmFacts StackFacts Demo.
From Verif Require Import Memory EncCompile Encode EncApi DemoEnc Props34.
Import ListNotations.
Open Scope Z_scope.

(** ** C81 No input makes Unmarshal need more stack than 20003 nested calls take
    (on a type that is accepted): with that limit on the calls of decoders,
    skipValue and decodeEmptyInterface inside of each other, Unmarshal does
    what it does without one.  The methods of user types have their own
    stack needs, which are not counted. *)
Theorem C81_unmarshal_stack : forall X E cf n data T v, small data -> compile_f X E cf [] T = ROk tt ->
  20003 <= Z.of_nat n -> s_unmarshal X E cf n data T v = unmarshal X E cf data (TgPtr T v).
Proof.
  intros X E cf n data T v Hs Hc Hn.
  pose proof (unmarshal_returns_accepted X E cf data T v Hs Hc) as Hr. revert Hr.
  unfold s_unmarshal, unmarshal. destruct data as [|b data]; [reflexivity|]. rewrite Hc. set (buf := b :: data).
  set (N := (decode_fuel buf + S (length buf) + n)%nat).
  pose proof (decode_up X E buf (decode_fuel buf) N T 0 0 v) as HA.
  assert (0 <= is_ptr (node_of E T) <= 1) as Hp by (destruct (node_of E T); cbn; lia).
  pose proof (decode_deep X E buf n N T 0 0 v) as HB. unfold calls in HB. change (max_depth - 0) with 10000 in HB.
  destruct HB as [[Q _]|HB]; [change (0 <= 10000); lia|lia|unfold N; lia|discriminate Q|]. rewrite HB.
  fold (decode X E T buf 0 0 v) in HA. destruct HA as [[_ Q]|HA]; [unfold N; lia| |].
  - intros Hr. exfalso. apply Hr. destruct (decode X E T buf 0 0 v) as [w r]. cbn [snd] in Q. rewrite Q. reflexivity.
  - rewrite <- HA. reflexivity.
Qed.
Print Assumptions C81_unmarshal_stack.
Example C81_example : let data := bs "a:1:{i:0;a:1:{i:0;a:1:{i:0;N;}}}" in
  small data /\ compile_f Xd Ed 9 [] TAny = ROk tt /\
  (* four levels and the decoder of the destination; one call less is too few *)
  snd (s_unmarshal Xd Ed 9 5 data TAny (VIface None)) = ROk tt /\ snd (s_unmarshal Xd Ed 9 4 data TAny (VIface None)) = RFuel.
Proof. vm_compute. repeat split. Qed.

(** Marshal has no such limit: whatever number of nested calls the stack has
    room for, there is a value (of nested slices, no cycle) that Marshal would
    encode with more, and does not with these.  (Go ends the process then; the
    model's [marshal] counts nested calls with its first argument.) *)
Section Deep.
  Context (X : Ext) (E : env) (ord : nat -> list (hval * hval) -> list (hval * hval)) (n : nat).
  Hypothesis Hinj : forall o o', cell_at X o 0 = cell_at X o' 0 -> o = o'.
  Lemma deep_runs_out : forall f j s, (j + f <= n)%nat -> (forall a, In a (seen s) -> exists i, (i < j)%nat /\ a = cell_at X i 0) ->
    snd (enc_f X E (doubling n) ord f MIface (TSlice TAny) (HSlice (Some (j, 0, 2)%nat)) s) = RFuel /\
    snd (enc_f X E (doubling n) ord f MIface TAny (next_slice j) s) = RFuel.
  Proof.
    induction f as [|f IH]; intros j s L Hs; [split; reflexivity|]. split.
    - cbn [enc_f]. change (kind_of E (TSlice TAny)) with (KSlice TAny). cbn iota. unfold check_seen.
      destruct (has (cell_at X j 0) (seen s)) eqn:Q.
      { exfalso. apply existsb_exists in Q. destruct Q as (a & Ia & Qa). apply Z.eqb_eq in Qa. subst a.
        destruct (Hs _ Ia) as (i & Hi & Q). apply Hinj in Q. lia. }
      change (iface_kind (kind_of E TAny)) with true. cbn iota. rewrite doubling_cells by lia.
      destruct (IH (S j) (St (cell_at X j 0 :: seen s) (depth s) (iters s)) ltac:(lia)) as [_ I2].
      { cbn [seen]. intros a [<-|Ia]; [exists j; split; [lia|reflexivity]|]. destruct (Hs a Ia) as (i & Hi & Q'). exists i. split; [lia|exact Q']. }
      unfold enc_seq. cbn [enc_elems]. unfold bindM at 1 2. destruct (enc_f _ _ _ _ f MIface TAny (next_slice (S j)) _) as [s' r].
      cbn [snd] in I2. subst r. reflexivity.
    - cbn [enc_f]. change (kind_of E TAny) with KAny. cbn iota. unfold next_slice. apply IH; [lia|exact Hs].
  Qed.
End Deep.
Theorem C81_marshal_unbounded : forall X E ord n, fair_order ord -> (forall o o', cell_at X o 0 = cell_at X o' 0 -> o = o') ->
  exists H v b, Marshals X E H ord TAny v b /\ snd (marshal X E H ord n st0 (Some (TAny, v))) = RFuel.
Proof.
  intros X E ord n Ho Hinj. destruct (C80_exponential X E ord n Ho Hinj) as [(b & Q) _].
  exists (doubling n), (next_slice 0), b. split; [exact Q|]. unfold marshal. unfold bindM, compile_now, lift.
  destruct n as [|n]; [reflexivity|]. cbn [bindM].
  destruct n as [|n].
  - reflexivity.
  - destruct n as [|n]; [reflexivity|].
    cbn [enc_f]. change (kind_of E TAny) with KAny. cbn iota.
    pose proof (deep_runs_out X E ord (S (S (S n))) Hinj (S n) 0 st0 ltac:(lia)) as [_ I2]; [intros a []|].
    destruct (ecompile_f X E (S (S (S n))) false [] TAny) as [u|e|p|] eqn:Qc; [exact I2|discriminate Qc|discriminate Qc|reflexivity].
Qed.
Print Assumptions C81_marshal_unbounded.
Example C81_example_marshal : fair_order in_order /\ (forall o o', cell_at Xd o 0 = cell_at Xd o' 0 -> o = o').
Proof. split; [exact in_order_fair|exact C80_example_places]. Qed.
