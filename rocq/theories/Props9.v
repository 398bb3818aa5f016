(** Memory shared by decoded values (C47). *)
From Coq Require Import Strings.String Strings.Byte ZArith List Bool Lia.
From Verif Require Import Base GoTypes Scan Decode Unmarshal Grammar Denote Alias AliasFacts ShareFacts Slices SliceFacts NumFacts ScanFacts Demo.
Import ListNotations.
Open Scope Z_scope.

(** The []byte values in the destination [a] that one Unmarshal of [data] left
    behind (in memory [M] before the call). *)
Definition byte_slices (M : arrays) (data : bslice) (a : aval) : list bslice :=
  map (slice_of (length M) (slice_read M data)) (views a).
(** Everything of the call's buffer that was handed out: those, and the
    arguments of UnmarshalPHP methods. *)
Definition handed_out (M : arrays) (data : bslice) (w : list grant) : list bslice :=
  map (fun g => slice_of (length M) (slice_read M data) (granted g)) w.

(** The decoder with explicit memory is the decoder of the other theorems: it
    leaves the same destination (as seen by the caller right after the call) and
    the same outcome. *)
Theorem C47_same_unmarshal : forall X E cfuel M data t v M' a r w,
  small (slice_read M data) -> a_unmarshal X E cfuel M data t v = (M', a, r, w) ->
  unmarshal X E cfuel (slice_read M data) (TgPtr t v) = (seen (slice_read M data) a, r).
Proof. intros X E cfuel M data t v M' a r w Hsm Q. exact (proj2 (a_unmarshal_good _ _ _ _ _ _ _ _ _ _ _ Hsm Q)). Qed.
Print Assumptions C47_same_unmarshal.

(** C47 Two []byte values produced by one Unmarshal share no memory a caller can
    reach.  False: their spare capacity is shared.  Unmarshal of
    a:2:{i:0;s:1:"a";i:1;s:1:"b";} into a [][]byte, then x[0] = append(x[0], ...):
    x[1] changes. *)
Definition two : bytes := bs "a:2:{i:0;s:1:""a"";i:1;s:1:""b"";}".
Theorem C47_append_refuted : ~ (forall X E cfuel M data t v M' a r w x y n M2 s2 i j,
  small (slice_read M data) -> a_unmarshal X E cfuel M data t v = (M', a, r, w) ->
  i <> j -> nth_error (byte_slices M data a) i = Some x -> nth_error (byte_slices M data a) j = Some y ->
  mutates M' x n M2 s2 -> slice_read M2 y = slice_read M' y).
Proof.
  intros C.
  pose (M := [two]). pose (data := BSlice 0 0 (blen two) (blen two)).
  destruct (a_unmarshal Xd [] 10 M data (TSlice (TSlice (TUint U8))) (VSlice None)) as [[[M' a] r] w] eqn:Q.
  assert (M' = [two; two] /\ r = ROk tt /\ views a = [View 14 1; View 26 1]) as (-> & -> & V).
  { vm_compute in Q. injection Q as <- <- <- <-. vm_compute. repeat split. }
  assert (byte_slices M data a = [BSlice 1 14 1 (blen two - 14); BSlice 1 26 1 (blen two - 26)]) as B.
  { unfold byte_slices. rewrite V. reflexivity. }
  refine (_ (C Xd [] 10%nat M data (TSlice (TSlice (TUint U8))) (VSlice None) [two; two] a (ROk tt) w
     (BSlice 1 14 1 (blen two - 14)) (BSlice 1 26 1 (blen two - 26)) _ _ _ 0%nat 1%nat _ Q _ _ _ _)).
  - shelve.
  - vm_compute. reflexivity.
  - discriminate.
  - rewrite B. reflexivity.
  - rewrite B. reflexivity.
  - eapply mu_append; [apply mu_none|]. apply ap_place with (b := bs "0123456789AB"). vm_compute. discriminate.
  Unshelve. intros R. vm_compute in R. discriminate R.
Qed.
Print Assumptions C47_append_refuted.

(** The true part: writes through a decoded []byte, and appends of up to two
    bytes in all, leave every other decoded []byte alone.  Missing: larger
    appends. *)
Theorem C47_byte_slices_partial : forall X E cfuel M data t v M' a r w,
  small (slice_read M data) -> a_unmarshal X E cfuel M data t v = (M', a, r, w) ->
  forall i j x y, i <> j -> nth_error (byte_slices M data a) i = Some x -> nth_error (byte_slices M data a) j = Some y ->
  forall n M2 s2, (n <= 2)%nat -> mutates M' x n M2 s2 -> slice_read M2 y = slice_read M' y.
Proof.
  intros X E cfuel M data t v M' a r w Hsm Q i j x y Nij Qi Qj n M2 s2 Hn H.
  unfold byte_slices in Qi, Qj. rewrite nth_error_map in Qi, Qj.
  destruct (nth_error (views a) i) as [w1|] eqn:V1; [|discriminate Qi]. destruct (nth_error (views a) j) as [w2|] eqn:V2; [|discriminate Qj].
  cbn [option_map] in Qi, Qj. injection Qi as <-. injection Qj as <-.
  destruct (a_unmarshal_good _ _ _ _ _ _ _ _ _ _ _ Hsm Q) as [[(_ & V & _)|(-> & O & B)] _].
  { rewrite V in V1. destruct i; discriminate V1. }
  destruct (bag_nodup _ _ B (stored_nodup _ _ _ O)) as [Nd I].
  assert (w1 <> w2) as Nw. { intros ->. apply Nij. apply (proj1 (NoDup_nth_error (views a)) Nd); [apply nth_error_Some; congruence|congruence]. }
  pose proof (stored_in _ _ (I _ (nth_error_In _ _ V1))) as [p P1]. pose proof (stored_in _ _ (I _ (nth_error_In _ _ V2))) as [q P2].
  destruct (ordered_nth _ _ _ _ _ O P1) as (A1 & B1 & C1). destruct (ordered_nth _ _ _ _ _ O P2) as (A2 & B2 & C2). cbn [granted gap] in *.
  apply (apart_unchanged M (slice_read M data) w1 w2 n M2 s2); auto; [lia|].
  destruct (Nat.lt_trichotomy p q) as [L|[->|L]].
  - left. pose proof (ordered_pair _ _ _ _ _ _ _ O L P1 P2) as K. cbn [granted gap] in K. lia.
  - congruence.
  - right. pose proof (ordered_pair _ _ _ _ _ _ _ O L P2 P1) as K. cbn [granted gap] in K. lia.
Qed.
Print Assumptions C47_byte_slices_partial.

(** Everything handed out is apart from everything else, arguments of custom
    Unmarshalers included: plain writes through one never change another. *)
Theorem C47_handed_out_apart : forall X E cfuel M data t v M' a r w,
  small (slice_read M data) -> a_unmarshal X E cfuel M data t v = (M', a, r, w) ->
  (forall s, In s (byte_slices M data a) -> In s (handed_out M data w)) /\
  forall i j x y, i <> j -> nth_error (handed_out M data w) i = Some x -> nth_error (handed_out M data w) j = Some y ->
  forall M2 s2, mutates M' x 0 M2 s2 -> slice_read M2 y = slice_read M' y.
Proof.
  intros X E cfuel M data t v M' a r w Hsm Q.
  destruct (a_unmarshal_good _ _ _ _ _ _ _ _ _ _ _ Hsm Q) as [[(_ & V & Hw)|(-> & O & B)] _].
  { split; [unfold byte_slices; rewrite V; intros s []|]. subst w. intros i j x y _ Qi. destruct i; discriminate Qi. }
  split.
  { intros s Is. unfold byte_slices in Is. apply in_map_iff in Is as (w1 & <- & Iw). destruct (bag_nodup _ _ B (stored_nodup _ _ _ O)) as [_ I].
    destruct (stored_in _ _ (I _ Iw)) as [p P]. apply in_map_iff. exists (GStored w1). split; [reflexivity|]. eapply nth_error_In; eauto. }
  intros i j x y Nij Qi Qj M2 s2 H.
  unfold handed_out in Qi, Qj. rewrite nth_error_map in Qi, Qj.
  destruct (nth_error w i) as [w1|] eqn:P1; [|discriminate Qi]. destruct (nth_error w j) as [w2|] eqn:P2; [|discriminate Qj].
  cbn [option_map] in Qi, Qj. injection Qi as <-. injection Qj as <-.
  destruct (ordered_nth _ _ _ _ _ O P1) as (A1 & B1 & C1). destruct (ordered_nth _ _ _ _ _ O P2) as (A2 & B2 & C2).
  assert (0 <= gap w1 /\ 0 <= gap w2) as [G1 G2] by (destruct w1, w2; cbn; lia).
  apply (apart_unchanged M (slice_read M data) (granted w1) (granted w2) 0 M2 s2); auto; [lia|].
  destruct (Nat.lt_trichotomy i j) as [L|[->|L]]; [left| |right].
  - pose proof (ordered_pair _ _ _ _ _ _ _ O L P1 P2) as K. lia.
  - congruence.
  - pose proof (ordered_pair _ _ _ _ _ _ _ O L P2 P1) as K. lia.
Qed.
Print Assumptions C47_handed_out_apart.

(** The caller's memory: the call changes none of it, no later use of it changes
    a decoded []byte or what a custom Unmarshaler was given, and no use of those
    (however much is appended) changes it. *)
Theorem C47_data_not_shared : forall X E cfuel M data t v M' a r w,
  small (slice_read M data) -> a_unmarshal X E cfuel M data t v = (M', a, r, w) ->
  forall s, in_memory M s ->
  slice_read M' s = slice_read M s /\
  forall x, In x (handed_out M data w) -> forall n M2 s2,
    (mutates M' s n M2 s2 -> slice_read M2 x = slice_read M' x) /\
    (mutates M' x n M2 s2 -> slice_read M2 s = slice_read M s).
Proof.
  intros X E cfuel M data t v M' a r w Hsm Q s Hs.
  destruct (a_unmarshal_good _ _ _ _ _ _ _ _ _ _ _ Hsm Q) as [[(-> & V & Hw)|(-> & O & B)] _].
  { split; [reflexivity|]. subst w. intros x []. }
  assert (slice_read (M ++ [slice_read M data]) s = slice_read M s) as K.
  { unfold slice_read, array_of. rewrite app_nth1 by apply Hs. reflexivity. }
  split; [exact K|]. intros x Ix n M2 s2. unfold handed_out in Ix. apply in_map_iff in Ix as (g & <- & Ig).
  apply In_nth_error in Ig as [i P]. destruct (ordered_nth _ _ _ _ _ O P) as (A1 & B1 & C1).
  assert (0 <= gap g) as Gg by (destruct g; cbn; lia). unfold w_end in C1.
  set (src := slice_read M data) in *.
  assert (nth (length M) (M ++ [src]) [] = src) as Hn by (rewrite app_nth2, Nat.sub_diag by lia; reflexivity).
  destruct Hs as (S1 & S2 & S3 & S4). split; intros H.
  - apply mutates_frame in H.
    2:{ repeat split; auto; try lia. rewrite app_length; cbn; lia. unfold array_of in *. rewrite app_nth1 by lia. exact S4. }
    destruct H as (_ & F & _). unfold slice_read, array_of. cbn [slice_of s_array].
    rewrite F; [reflexivity|rewrite app_length; cbn; lia|lia].
  - apply mutates_frame in H.
    2:{ unfold in_memory, array_of. cbn [slice_of s_array s_start s_len s_cap]. rewrite app_length, Hn. cbn [length]. lia. }
    destruct H as (_ & F & _). rewrite <- K. unfold slice_read, array_of. cbn [slice_of s_array] in F.
    rewrite F; [reflexivity|rewrite app_length; cbn; lia|lia].
Qed.
Print Assumptions C47_data_not_shared.

(** The hypotheses can be met: two byte slices, one of them written to. *)
Example C47_example :
  let M := [two] in let data := BSlice 0 0 (blen two) (blen two) in
  exists M' a r w x y, a_unmarshal Xd [] 10 M data (TSlice (TSlice (TUint U8))) (VSlice None) = (M', a, r, w) /\
    r = ROk tt /\ byte_slices M data a = [x; y] /\ slice_read M' x = bs "a" /\ slice_read M' y = bs "b" /\
    exists M2, mutates M' x 0 M2 x /\ slice_read M2 x = bs "z" /\ slice_read M2 y = bs "b".
Proof.
  intros M data. destruct (a_unmarshal Xd [] 10 M data (TSlice (TSlice (TUint U8))) (VSlice None)) as [[[M' a] r] w] eqn:Q.
  exists M', a, r, w, (BSlice 1 14 1 (blen two - 14)), (BSlice 1 26 1 (blen two - 26)).
  vm_compute in Q. injection Q as <- <- <- <-. repeat (split; [vm_compute; reflexivity|]).
  eexists. split; [eapply mu_write; [apply mu_none|apply (wr _ _ 0 "z"%byte); cbn; lia]|]. split; vm_compute; reflexivity.
Qed.
