(** Memory asked for by Unmarshal (C53, C54). *)
From Coq Require Import Strings.String Strings.Byte ZArith List Bool Lia PeanoNat.
From Verif Require Import Base GoTypes Scan Decode Unmarshal Api Grammar Denote Typing NumFacts ScanFacts SkipFacts Sound SoundT TextFacts Complete CompileFacts UnmFacts Safe Php NumEnc AnyTripFacts Demo
  Cost CostSpec CostFacts CostBound.
Import ListNotations.
Open Scope Z_scope.

(** Unmarshal(data, &x), for x of type [T] holding [v], comes to the outcome [r]
    having asked for room for maps and slices as in [w]. *)
Definition Asks (X : Ext) (E : env) (data : bytes) (T : gty) (v : gval) (r : R unit) (w : list request) : Prop :=
  exists cf v', c_unmarshal X E cf data T v = (v', r, w).
(** ... returns nil, x then holding [v'] ... *)
Definition Decodes_asking (X : Ext) (E : env) (data : bytes) (T : gty) (v v' : gval) (w : list request) : Prop :=
  exists cf, c_unmarshal X E cf data T v = (v', ROk tt, w).

(** The decoder that records its requests is the decoder of the other theorems. *)
Theorem C53_same_unmarshal : forall X E data T v v',
  Decodes X E data T v v' <-> exists w, Decodes_asking X E data T v v' w.
Proof.
  intros X E data T v v'. split.
  - intros [cf Q]. rewrite <- c_unmarshal_same in Q. destruct (c_unmarshal X E cf data T v) as [[v1 r] w] eqn:Q1.
    cbn [drop] in Q. injection Q as -> ->. exists w, cf. exact Q1.
  - intros (w & cf & Q). exists cf. rewrite <- c_unmarshal_same, Q. reflexivity.
Qed.
Print Assumptions C53_same_unmarshal.
Theorem C53_same_outcome : forall X E cf data T v, drop (c_unmarshal X E cf data T v) = unmarshal X E cf data (TgPtr T v).
Proof. exact c_unmarshal_same. Qed.
Print Assumptions C53_same_outcome.

(** C53 The memory Unmarshal asks for is proportional to the length of the input.
    False: it trusts the counts in the input.  For every count [n] an int64 can
    hold, a:n:{} (at most 25 bytes) is accepted as an any, and Unmarshal asks for
    a map with room for [n] entries. *)
Theorem C53_any_count : forall X E n v, 0 <= n <= max_int64 ->
  Decodes_asking X E (text (LArr (decimal n) [])) TAny v (VIface (Some (TMap TAny TAny, VMap (Some [])))) [QMap n].
Proof.
  intros X E n v Hn. destruct (decimal_numeral n ltac:(lia)) as [Nd Nv]. exists 1%nat.
  assert (exists c, c_map_header (text (LArr (decimal n) [])) 0 0 = ROk (ChBody n c) /\ pos (text (LArr (decimal n) [])) c ["}"%byte]) as (c & Hh & Hc).
  { set (data := text (LArr (decimal n) [])) in *.
    assert (pos data 0 (text (LArr (decimal n) []) ++ [])) as H by (rewrite app_nil_r; apply pos_start).
    rewrite text_arr, body_nil in H. unfold c_map_header. rdn H. change (max_depth <? 0 + 1) with false. cbn iota.
    change ("a"%byte =b "N"%byte) with false. change ("a"%byte =b "O"%byte) with false. change ("a"%byte =b "a"%byte) with true. cbn [bind].
    destruct (read_length_ok _ _ _ _ (pos_cons _ _ _ _ H) Nd ltac:(lia)) as [-> H3]. cbn [bind]. rdn H3.
    change ("{"%byte =b "{"%byte) with true. cbn [negb]. rewrite Nv. eexists. split; [reflexivity|]. eapply pos_cons; exact H3. }
  unfold c_unmarshal. pose proof (text_pos (LArr (decimal n) [])) as Tp.
  assert (pos (text (LArr (decimal n) [])) 0 (text (LArr (decimal n) []) ++ [])) as H by (rewrite app_nil_r; apply pos_start).
  rewrite text_arr in H.
  assert (c_decode X E TAny (text (LArr (decimal n) [])) 0 0 v = (VIface (Some (TMap TAny TAny, VMap (Some []))), ROk (c + 1), [QMap n])) as Q.
  { unfold c_decode, decode_fuel. replace (2 * length (text (LArr (decimal n) [])) + 2)%nat with (S (2 * length (text (LArr (decimal n) [])) + 1)) by lia.
    cbn [c_decode_f]. cbn zeta. change (node_of E TAny) with NAny. cbn iota. unfold c_iface_any, c_any. cbn [c_any_f]. cbn zeta.
    rewrite (pos_rd _ _ _ _ H). change ("a"%byte =b "O"%byte) with false. change ("a"%byte =b "a"%byte) with true. cbn iota.
    unfold c_map. rewrite Hh. cbn zeta iota. rewrite (pos_has _ _ _ _ Hc), (pos_rd _ _ _ _ Hc). cbn [negb].
    change ("}"%byte =b "}"%byte) with true. reflexivity. }
  destruct (text (LArr (decimal n) [])) as [|b data] eqn:Ed; [cbn in Tp; lia|]. rewrite <- Ed in *.
  change (compile_f X E 1 [] TAny) with (ROk tt : R unit). cbn iota. rewrite Q. cbn [bind].
  unfold validate_end. apply pos_len in Hc. change (blen ["}"%byte]) with 1 in Hc.
  rewrite Hc. cbn. rewrite ?Z.eqb_refl, ?Z.ltb_irrefl. reflexivity.
Qed.
Print Assumptions C53_any_count.

(** Fifteen bytes ask for 10^9 entries.  (Counts that a Go runtime cannot provide
    are of no interest here: it ignores hints for maps that exceed its address
    space.) *)
Theorem C53_linear_refuted : exists data w,
  blen data = 15 /\ Decodes_asking Xd [] data TAny (VIface None) (VIface (Some (TMap TAny TAny, VMap (Some [])))) w /\ 10 ^ 9 <= total w.
Proof.
  exists (text (LArr (decimal (10 ^ 9)) [])), [QMap (10 ^ 9)]. split; [vm_compute; reflexivity|].
  split; [apply C53_any_count; vm_compute; split; discriminate|vm_compute; discriminate].
Qed.
Print Assumptions C53_linear_refuted.
(** The same holds of slices, where the count is that of elements to allocate at once. *)
Theorem C53_slice_refuted : exists data w,
  blen data = 21 /\ Decodes_asking Xd [] data (TSlice TAny) (VSlice None) (VSlice (Some [VIface None])) w /\ 10 ^ 9 <= total w.
Proof.
  exists (bs "a:1000000000:{i:0;N;}"), [QSlice (10 ^ 9); QSlice 1]. split; [reflexivity|].
  split; [exists 9%nat; vm_compute; reflexivity|vm_compute; discriminate].
Qed.
Print Assumptions C53_slice_refuted.

(** What does hold.  Whatever the input, the destination and the outcome, there
    are no more requests than bytes in the input, and none is for more than one
    past a number written in the input. *)
Theorem C53_requests : forall X E data T v r w,
  small data -> Asks X E data T v r w ->
  (length w <= length data)%nat /\
  Forall (fun q => exists n, written data n /\ 0 <= amount q <= n + 1) w.
Proof. intros X E data T v r w Hsm (cf & v' & Q). destruct (c_unmarshal_requests _ _ _ _ _ _ _ _ _ Hsm Q) as [F L]. split; [exact L|exact F]. Qed.
Print Assumptions C53_requests.

(** For an accepted input they add up to no more than the numbers it declares:
    the counts of its arrays and objects and, for its indexes, up to each. *)
Theorem C53_declared : forall X E p T v v' w,
  small (text p) -> wf p -> Decodes_asking X E (text p) T v v' w ->
  total w <= declared true p /\ (slice_free E T -> total w <= declared false p).
Proof.
  intros X E p T v v' w Hsm W (cf & Q). split.
  - refine (c_unmarshal_declared true _ _ _ _ _ _ _ _ Hsm W _ Q). discriminate.
  - intros Hf. exact (c_unmarshal_declared false _ _ _ _ _ _ _ _ Hsm W (fun _ => Hf) Q).
Qed.
Print Assumptions C53_declared.

(** When the counts in the input are true ([strict]) and the type has no slices in
    it, the requests come to less than half the length of the input.
    Missing for C53: inputs whose counts are not true (refuted above), and slices
    (see C54). *)
Theorem C53_linear_partial : forall X E p T v v' w,
  small (text p) -> strict 0 p -> slice_free E T -> Decodes_asking X E (text p) T v v' w ->
  2 * total w + 2 <= blen (text p).
Proof.
  intros X E p T v v' w Hsm Hs Hf Q.
  pose proof (proj2 (C53_declared X E p T v v' w Hsm (strict_wf _ _ Hs) Q) Hf).
  pose proof (strict_declared _ _ Hs). lia.
Qed.
Print Assumptions C53_linear_partial.

Example C53_example : exists p w,
  small (text p) /\ strict 0 p /\ slice_free [] TAny /\
  Decodes_asking Xd [] (text p) TAny (VIface None)
    (VIface (Some (TMap TAny TAny, VMap (Some [(VIface (Some (TInt I64, VInt 0)), VIface (Some (TMap TAny TAny, VMap (Some []))));
                                               (VIface (Some (TInt I64, VInt 1)), VIface None)])))) w /\
  w = [QMap 2; QMap 0].
Proof.
  exists (LArr (bs "2") [(LInt (bs "0"), LArr (bs "0") []); (LInt (bs "1"), LNull)]), [QMap 2; QMap 0].
  split; [vm_compute; reflexivity|]. split.
  { apply st_arr; [vm_compute; reflexivity|split; [discriminate|reflexivity]|reflexivity|].
    apply Forall_cons; [|apply Forall_cons; [|apply Forall_nil]]; (split; cbn [fst snd]; [eapply st_int; apply it_pos; split; [discriminate|reflexivity]|]).
    - apply st_arr; [vm_compute; reflexivity|split; [discriminate|reflexivity]|reflexivity|constructor].
    - constructor. }
  split.
  { intros U t Hi Hp. assert (U = TAny) as ->.
    { clear Hp. induction Hi as [|? ? Hi IH Hc]; [reflexivity|]. subst. inversion Hc as [? [_ Q]|? [_ Q]|? ? [_ Q]|? ? [_ Q]|? ? [_ Q]|? ? ? [_ Q]]; discriminate. }
    destruct Hp; discriminate. }
  split; [exists 9%nat; vm_compute; reflexivity|reflexivity].
Qed.

(** C54 Decoding a list of [m] elements into a slice asks for room for a number of
    elements proportional to [m].  False: it grows the slice by one element at a
    time.  For every slice type and every accepted list in order, the requests add up to at
    least the declared count and 1 + 2 + ... + m. *)
Theorem C54_list_cost : forall X E T t n es v v' w,
  small (text (LArr n es)) -> wf (LArr n es) -> in_order 0 es -> plain E T (KSlice t) ->
  Decodes_asking X E (text (LArr n es)) T v v' w ->
  num n + blen es * (blen es + 1) / 2 <= total w.
Proof. intros X E T t n es v v' w Hsm W Ho Hk (cf & Q). exact (c_unmarshal_least _ _ _ _ _ _ _ _ _ _ Hsm W Ho Hk Q). Qed.
Print Assumptions C54_list_cost.

(** So no factor bounds them: for every [K] some list of nulls, every count in it
    true, is decoded into a []any with requests for more than [K] times its length. *)
Lemma decimal_short z : 0 <= z < 2 ^ 62 -> blen (decimal z) <= 20.
Proof.
  intros Hz. destruct (append_uint_facts z ltac:(lia)) as ([N1 N2] & Nv & C). rewrite append_uint_decimal in * by lia.
  destruct C as [->|(d & ds & Q & Hd)]; [vm_compute; discriminate|]. rewrite Q in *.
  assert (is_digit d = true) as D by (cbn in N2; apply andb_true_iff in N2; tauto).
  pose proof (num_low d ds N2 (digit_nonzero _ D Hd)) as L. rewrite Nv in L. rewrite blen_cons.
  destruct (Z.le_gt_cases (blen ds) 19) as [G|G]; [lia|].
  pose proof (Z.pow_le_mono_r 10 20 (blen ds) ltac:(lia) ltac:(lia)). change (10 ^ 20) with 100000000000000000000 in *. lia.
Qed.
Lemma decimal_lead z : 0 < z -> hd_error (decimal z) <> Some "0"%byte.
Proof.
  intros Hz. destruct (append_uint_facts z ltac:(lia)) as (_ & Nv & C). rewrite append_uint_decimal in * by lia.
  destruct C as [Q|(d & ds & Q & Hd)]; rewrite Q in *.
  - cbn in Nv. lia.
  - cbn. congruence.
Qed.
Lemma nulls_length n : forall i, length (nulls i n) = n.
Proof. induction n as [|n IH]; intros i; [reflexivity|]. cbn [nulls length]. rewrite IH. reflexivity. Qed.
Lemma nulls_in_order n : forall i, in_order i (nulls i n).
Proof. induction n as [|n IH]; intros i; [exact I|]. cbn [nulls in_order]. split; [exists (decimal i); split; [reflexivity|apply decimal_int_text]|apply IH]. Qed.
Lemma nulls_wf n : forall i, Forall (fun e => wf (fst e) /\ wf (snd e)) (nulls i n).
Proof. induction n as [|n IH]; intros i; [constructor|]. cbn [nulls]. constructor; [|apply IH]. split; [eapply wf_int; apply decimal_int_text|constructor]. Qed.
Lemma nulls_strict d n : forall i, Forall (fun e => strict d (fst e) /\ strict d (snd e)) (nulls i n).
Proof. induction n as [|n IH]; intros i; [constructor|]. cbn [nulls]. constructor; [|apply IH]. split; [eapply st_int; apply decimal_int_text|constructor]. Qed.
Lemma nulls_size n : forall i, 0 <= i -> i + Z.of_nat n < 2 ^ 62 -> blen (body (nulls i n)) <= 25 * Z.of_nat n.
Proof.
  induction n as [|n IH]; intros i Hi Hn; [cbn; lia|]. cbn [nulls].
  pose proof (ScanFacts.body_cons (LInt (decimal i)) LNull (nulls (i + 1) n) []) as Q. rewrite !app_nil_r in Q. rewrite Q, !blen_app.
  specialize (IH (i + 1) ltac:(lia) ltac:(lia)). pose proof (decimal_short i ltac:(lia)).
  change (blen (text LNull)) with 2. cbn [text]. rewrite !blen_app. change (blen (bs "i:")) with 2. change (blen (bs ";")) with 1. lia.
Qed.
Lemma null_list_size n : Z.of_nat n < 2 ^ 62 -> blen (text (null_list n)) <= 25 * Z.of_nat n + 25.
Proof.
  intros Hn. unfold null_list. pose proof (text_arr (decimal (Z.of_nat n)) (nulls 0 n) []) as Q. rewrite app_nil_r in Q. rewrite Q.
  rewrite !blen_cons, blen_app, !blen_cons, blen_app. change (blen ["}"%byte]) with 1.
  pose proof (nulls_size n 0 ltac:(lia) ltac:(lia)). pose proof (decimal_short (Z.of_nat n) ltac:(lia)). lia.
Qed.
Lemma nulls_store X E n : forall l, (forall m, m <= blen l + Z.of_nat n -> x_slots X TAny m = true) -> blen l + Z.of_nat n < 2 ^ 62 ->
  slice_entries (x_slots X TAny) (zero E TAny) (store X E 1 TAny) l (nulls (blen l) n) (l ++ repeat (VIface None) n).
Proof.
  induction n as [|n IH]; intros l Hx Hn; [cbn; rewrite app_nil_r; constructor|]. cbn [nulls].
  apply (se_grow _ _ _ l (decimal (blen l)) (length l) LNull _ (VIface None)).
  - split; [apply decimal_int_text|]. fold (blen l). unfold max_int64. lia.
  - lia.
  - fold (blen l). unfold max_int64. lia.
  - fold (blen l). apply Hx. lia.
  - apply sto_any; [split; reflexivity|constructor].
  - rewrite Nat.sub_diag. cbn [repeat app].
    specialize (IH (l ++ [VIface None])). rewrite blen_app in IH. change (blen [VIface None]) with 1 in IH.
    rewrite <- app_assoc in IH. apply IH; [|lia]. intros m Hm. apply Hx. lia.
Qed.
Lemma any_slice_supported X E : supported X E (TSlice TAny).
Proof.
  apply (compile_supported X E 2). reflexivity.
Qed.
Lemma null_list_wf n : wf (null_list n).
Proof. apply wf_arr; [apply decimal_numeral; lia|apply nulls_wf]. Qed.

Theorem C54_linear_refuted : forall X E v K, 0 <= K <= 2 ^ 50 ->
  (forall m, m <= 60 * K + 60 -> x_slots X TAny m = true) ->
  exists n w, strict 0 (null_list n) /\
    Decodes_asking X E (text (null_list n)) (TSlice TAny) v (VSlice (Some (repeat (VIface None) n))) w /\
    K * blen (text (null_list n)) < total w.
Proof.
  intros X E v K HK Hx. set (n := Z.to_nat (60 * K + 60)).
  assert (Z.of_nat n = 60 * K + 60) as Hn by (unfold n; lia).
  pose proof (null_list_size n ltac:(lia)) as Hz.
  assert (small (text (null_list n))) as Hsm by (unfold small; lia).
  destruct (decimal_numeral (Z.of_nat n) ltac:(lia)) as [Nd Nv].
  assert (Decodes X E (text (null_list n)) (TSlice TAny) v (VSlice (Some (repeat (VIface None) n)))) as Hd.
  { apply decodes_store; [exact Hsm|apply any_slice_supported|]. unfold null_list.
    apply (sto_slice X E 0 (TSlice TAny) TAny); [split; reflexivity|vm_compute; reflexivity|exact Nd|apply decimal_lead; lia|unfold max_int64; lia| | |].
    - rewrite Nv, Hn. apply Hx. lia.
    - intros Q. apply (f_equal (@length _)) in Q. rewrite nulls_length in Q. cbn in Q. lia.
    - apply (nulls_store X E n []); unfold blen; cbn [length]; [intros m Hm; apply Hx; lia|lia]. }
  apply C53_same_unmarshal in Hd as [w Hd]. exists n, w. split; [|split; [exact Hd|]].
  - apply st_arr; [vm_compute; reflexivity|exact Nd|rewrite Nv; unfold blen; rewrite nulls_length; reflexivity|apply nulls_strict].
  - pose proof (C54_list_cost X E (TSlice TAny) TAny _ _ v _ w Hsm (null_list_wf n) (nulls_in_order n 0) ltac:(split; reflexivity) Hd) as L.
    unfold blen in L at 1 2. rewrite nulls_length, Nv, Hn in L.
    assert (K * (25 * Z.of_nat n + 25) < (60 * K + 60) * (60 * K + 60 + 1) / 2).
    { rewrite Hn. replace ((60 * K + 60) * (60 * K + 60 + 1)) with ((30 * K + 30) * (60 * K + 61) * 2) by lia. rewrite Z.div_mul by lia. nia. }
    pose proof (Z.mul_le_mono_nonneg_l _ _ K ltac:(lia) Hz). lia.
Qed.
Print Assumptions C54_linear_refuted.

(** The hypotheses are met, for factors up to 10^9, in the world of Demo.v. *)
Example C54_example : (forall m, m <= 60 * 10 ^ 9 + 60 -> x_slots Xd TAny m = true).
Proof. intros m Hm. cbn. apply Z.ltb_lt. lia. Qed.
Example C54_example_list : Decodes_asking Xd [] (text (null_list 3)) (TSlice TAny) (VSlice None) (VSlice (Some [VIface None; VIface None; VIface None]))
  [QSlice 3; QSlice 1; QSlice 2; QSlice 3].
Proof. exists 9%nat. vm_compute. reflexivity. Qed.
