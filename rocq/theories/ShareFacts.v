(** What a call of Unmarshal hands out of its buffer lies in disjoint places,
    in the order of the input. *)
From Coq Require Import Strings.String Strings.Byte ZArith List Bool Lia.
From Verif Require Import Base GoTypes Strconv Tags Scan Decode Unmarshal Grammar Denote NumFacts ScanFacts SkipFacts Sound SoundT Alias AliasFacts SliceHead.
Import ListNotations.
Open Scope Z_scope.

Definition w_end (w : view) : Z := w_start w + w_len w.
Definition gap (g : grant) : Z := match g with GStored _ => 2 | GPassed _ => 0 end.
Fixpoint ordered (lo : Z) (gs : list grant) (hi : Z) : Prop :=
  match gs with
  | [] => lo <= hi
  | g :: gs' => lo <= w_start (granted g) /\ 0 <= w_len (granted g) /\ ordered (w_end (granted g) + gap g) gs' hi
  end.
Definition stored (gs : list grant) : list view :=
  flat_map (fun g => match g with GStored w => [w] | GPassed _ => [] end) gs.

Lemma view_dec (a b : view) : {a = b} + {a <> b}.
Proof. decide equality; apply Z.eq_dec. Qed.
Definition cnt (x : view) (l : list view) : nat := count_occ view_dec l x.
Definition within_bag (l B : list view) : Prop := forall x, (cnt x l <= cnt x B)%nat.
Lemma cnt_app x a b : cnt x (a ++ b) = (cnt x a + cnt x b)%nat.
Proof. apply count_occ_app. Qed.
Lemma cnt_nil x : cnt x [] = 0%nat. Proof. reflexivity. Qed.

Lemma ordered_le lo gs hi : ordered lo gs hi -> lo <= hi.
Proof.
  revert lo. induction gs as [|g gs IH]; intros lo; cbn; [auto|]. intros (A & B & C). apply IH in C. unfold w_end in C.
  destruct g; cbn [gap] in C; lia.
Qed.
Lemma ordered_weaken lo lo' gs hi hi' : ordered lo gs hi -> lo' <= lo -> hi <= hi' -> ordered lo' gs hi'.
Proof.
  revert lo lo'. induction gs as [|g gs IH]; intros lo lo' H A B; cbn in *; [lia|]. destruct H as (H1 & H2 & H3).
  repeat split; [lia|auto|]. apply (IH _ _ H3); [lia|auto].
Qed.
Lemma ordered_app lo a mid b hi : ordered lo a mid -> ordered mid b hi -> ordered lo (a ++ b) hi.
Proof.
  revert lo. induction a as [|g a IH]; intros lo H K; cbn in *; [eapply ordered_weaken; eauto; lia|].
  destruct H as (H1 & H2 & H3). repeat split; auto.
Qed.
Lemma stored_app a b : stored (a ++ b) = stored a ++ stored b. Proof. apply flat_map_app. Qed.

(** From [c] on, starting with the byte slices [B]. *)
Definition good {A} (vw : A -> list view) (buf : bytes) (c : Z) (B : list view) (r : A * R Z * list grant) : Prop :=
  let '(a, o, w) := r in
  match o with ROk c' => c' <= blen buf /\ ordered c w c' | _ => ordered c w (blen buf) end
  /\ within_bag (vw a) (B ++ stored w).

Ltac bag := let x := fresh "x" in intros x; rewrite ?stored_app, ?cnt_app, ?app_nil_r, ?cnt_nil;
  repeat match goal with W : within_bag _ _ |- _ => specialize (W x); rewrite ?stored_app, ?cnt_app, ?cnt_nil in W end; lia.

Lemma good_stop {A} vw buf c B (a : A) r w c1 : (forall x, r <> ROk x) -> ordered c w c1 -> c1 <= blen buf ->
  within_bag (vw a) (B ++ stored w) -> good vw buf c B (a, r, w).
Proof. intros N O L W. split; [|exact W]. destruct r; [destruct (N a0); reflexivity|..]; eapply ordered_weaken; eauto; lia. Qed.
Lemma good_fail {A R'} vw buf c B (a : A) (r : R R') w c1 : ordered c w c1 -> c1 <= blen buf ->
  within_bag (vw a) (B ++ stored w) -> good vw buf c B (a, fail r, w).
Proof. intros O L W. apply good_stop with (c1 := c1); auto. destruct r; discriminate. Qed.
Lemma good_done {A} vw buf c B (a : A) c' w : ordered c w c' -> c' <= blen buf ->
  within_bag (vw a) (B ++ stored w) -> good vw buf c B (a, ROk c', w).
Proof. intros O L W. repeat split; auto. Qed.
Lemma good_then {A} (vw : A -> list view) buf c B c1 B1 w r : ordered c w c1 -> good vw buf c1 B1 r ->
  within_bag B1 (B ++ stored w) -> good vw buf c B (a_then w r).
Proof.
  intros O G W. destruct r as [[a o] w']. destruct G as [G1 G2]. cbn [a_then]. split.
  - destruct o; try (eapply ordered_app; eassumption). destruct G1 as [G1 G3]. split; [exact G1|]. eapply ordered_app; eassumption.
  - bag.
Qed.
Lemma good_bag {A} (vw : A -> list view) buf c B B' r : good vw buf c B r -> within_bag B B' -> good vw buf c B' r.
Proof. intros G W. destruct r as [[a o] w]. destruct G as [G1 G2]. split; [exact G1|]. bag. Qed.
Lemma good_later {A} (vw : A -> list view) buf c c1 B r : good vw buf c1 B r -> c <= c1 -> good vw buf c B r.
Proof.
  intros G L. destruct r as [[a o] w]. destruct G as [G1 G2]. split; [|exact G2].
  destruct o; [destruct G1 as [G1 G3]; split; [exact G1|]; eapply ordered_weaken; eauto; lia|..]; eapply ordered_weaken; eauto; lia.
Qed.

(** ** Cursors move forward *)
Lemma pos_adv buf c s c' s' k : pos buf c s -> pos buf c' s' -> (length s' + k <= length s)%nat ->
  c + Z.of_nat k <= c' <= blen buf.
Proof.
  intros H H' L. apply pos_len in H. apply pos_nonneg in H' as N. apply pos_len in H'. unfold blen in *. lia.
Qed.
Lemma at_pos buf c : 0 <= c < blen buf -> exists s, pos buf c s /\ s <> [].
Proof.
  intros H. destruct (pos_ex buf c ltac:(lia)) as [s P]. exists s. split; [exact P|]. intros ->. apply pos_len in P. rewrite blen_nil in P. lia.
Qed.
Lemma reads_adv S buf c s w c' : pos buf c s -> reads S buf s w c' -> c <= c' <= blen buf.
Proof.
  intros H (p & s' & _ & -> & H'). pose proof (pos_adv buf c _ c' s' 0 H H'). rewrite app_length in H0. lia.
Qed.
Lemma has_byte_lt buf c : has_byte buf c = true -> 0 <= c -> 0 <= c < blen buf.
Proof. unfold has_byte. intros H L. destruct (c <? blen buf) eqn:Q; [apply Z.ltb_lt in Q; lia|]. revert H. rewrite ?andb_false_r. discriminate. Qed.

Lemma rd_lt buf c b : rd buf c = ROk b -> c < blen buf.
Proof.
  unfold rd. destruct (0 <=? c) eqn:L; [|discriminate]. apply Z.leb_le in L. destruct (nth_error buf (Z.to_nat c)) eqn:Q; [|discriminate].
  intros _. assert (Z.to_nat c < length buf)%nat by (apply nth_error_Some; congruence). unfold blen. lia.
Qed.

Definition moves {A} (buf : bytes) (c : Z) (r : A * R Z) : Prop :=
  match snd r with ROk c' => c <= c' <= blen buf | _ => True end.
Lemma dout_moves {A} buf c (r : A * R Z) Q : dout r Q -> (forall a c', Q a c' -> c <= c' <= blen buf) -> moves buf c r.
Proof. unfold dout, moves. destruct (snd r); eauto. Qed.

Lemma leaf_good buf f a c : c <= blen buf -> (forall v, moves buf c (f v)) -> good views buf c (views a) (leaf buf f a).
Proof.
  intros L M. unfold leaf, quiet. specialize (M (seen buf a)). destruct (f (seen buf a)) as [v r]. unfold moves in M. cbn [snd] in M.
  destruct r as [c'|e|p|]; [apply good_done; cbn; [lia..|bag]|..]; apply good_stop with (c1 := c); cbn; try lia; try bag; discriminate.
Qed.

Lemma node_moves X E buf T c d v : small buf -> 0 <= c < blen buf -> exists F, moves buf c (decode_f X E (S F) T buf c d v).
Proof.
  intros Hsm H. destruct (at_pos _ _ H) as (s & P & N). exists (2 * length s + ptr_cost E T)%nat.
  eapply dout_moves; [apply decode_f_out with (s := s); auto; lia|]. intros a c' R. eapply reads_adv; eauto.
Qed.

Lemma skip_moves buf c d c' : small buf -> 0 <= c <= blen buf -> skip_value buf c d = ROk c' -> c <= c' <= blen buf.
Proof.
  intros Hsm H Q. destruct (pos_ex buf c ltac:(lia)) as [s P]. pose proof (skip_value_out buf c d s Hsm P) as O. rewrite Q in O.
  destruct O as (p & s' & _ & -> & P'). pose proof (pos_adv buf c _ c' s' 0 P P'). rewrite app_length in H0. lia.
Qed.
Lemma span_moves buf c d src c' : small buf -> 0 <= c <= blen buf ->
  (cend <- skip_value buf c d ;; src <- sub buf c cend ;; ROk (src, cend)) = ROk (src, c') -> c <= c' <= blen buf.
Proof.
  intros Hsm H Q. destruct (skip_value buf c d) as [c1|e|p|] eqn:S; try discriminate Q. cbn [bind] in Q.
  destruct (sub buf c c1) as [x|e|p|]; try discriminate Q. cbn [bind] in Q. injection Q as _ <-. eapply skip_moves; eauto.
Qed.
Lemma read_int_moves buf c i c' : 0 <= c <= blen buf -> read_int buf c = ROk (i, c') -> c <= c' <= blen buf /\ 0 <= i.
Proof.
  intros H Q. destruct (pos_ex buf c ltac:(lia)) as [s P]. pose proof (read_int_out buf c s P) as O. rewrite Q in O.
  destruct O as (t & s' & _ & Hi & -> & P'). pose proof (pos_adv buf c _ c' s' 0 P P').
  cbn [length] in H0. rewrite app_length in H0. cbn [length] in H0. lia.
Qed.
Lemma string_moves buf c o c' : small buf -> 0 <= c <= blen buf -> decode_string_bytes buf c = ROk (o, c') -> c <= c' <= blen buf.
Proof.
  intros Hsm H Q. destruct (pos_ex buf c ltac:(lia)) as [s P]. pose proof (string_bytes_out buf c s Hsm P) as O. rewrite Q in O.
  destruct O as (p & s' & -> & P' & _). pose proof (pos_adv buf c _ c' s' 0 P P'). rewrite app_length in H0. lia.
Qed.
Lemma null_moves buf c b : 0 <= c <= blen buf -> rd buf c = ROk b -> validate_null buf c = ROk tt -> c + 2 <= blen buf.
Proof.
  intros H Hb Q. unfold validate_null in Q. destruct (blen buf <=? c + 1) eqn:L; [discriminate|]. apply Z.leb_gt in L. lia.
Qed.

Lemma string_view_place buf c w c' : small buf -> 0 <= c <= blen buf -> decode_string_view buf c = ROk (Some w, c') ->
  c <= w_start w /\ 0 <= w_len w /\ w_end w + 2 = c' /\ c' <= blen buf.
Proof.
  intros Hsm H Q. pose proof (string_moves buf c (Some (contents buf w)) c' Hsm H) as M. rewrite string_bytes_view, Q in M. specialize (M eq_refl).
  enough (c <= w_start w /\ 0 <= w_len w /\ w_end w + 2 = c') by lia.
  unfold decode_string_view in Q. destruct (negb _); [discriminate Q|].
  destruct (rd buf c) as [b|e|p|]; try discriminate Q. cbn [bind] in Q.
  destruct (b =b "N"%byte). { destruct (validate_null buf c); discriminate Q. }
  destruct (_ || _); [discriminate Q|]. destruct (b =b "s"%byte); [|discriminate Q].
  destruct (read_string_view buf (c + 1)) as [[w1 c1]|e|p|] eqn:S; try discriminate Q. cbn [bind] in Q. injection Q as -> ->.
  unfold read_string_view in S. destruct (read_length buf (c + 1)) as [[slen cend]|e|p|] eqn:Rl; try discriminate S. cbn [bind] in S.
  assert (0 <= slen /\ c + 1 <= cend) as [L1 L2].
  { unfold read_length in Rl. destruct (skip_length buf (c + 1)) as [c2|e|p|] eqn:Sk; try discriminate Rl. cbn [bind] in Rl.
    destruct (sub buf (c + 1 + 1) (c2 - 1)) as [ds|e|p|] eqn:Sb; try discriminate Rl. cbn [bind] in Rl.
    destruct (parse_int64 ds) as [l|]; [|discriminate Rl]. destruct (l <? 0) eqn:L; [discriminate Rl|]. injection Rl as <- <-.
    apply Z.ltb_ge in L. split; [exact L|]. unfold sub in Sb. destruct (_ && _) eqn:A in Sb; [|discriminate Sb].
    apply andb_true_iff in A as [A _]. apply andb_true_iff in A as [_ A]. apply Z.leb_le in A. lia. }
  destruct (negb _); [discriminate S|]. destruct (rd buf cend) as [b1|e|p|]; try discriminate S. cbn [bind] in S.
  destruct (negb _); [discriminate S|]. cbn zeta in S. destruct (negb _); [discriminate S|].
  destruct (rd buf (cend + 1 + slen)) as [b2|e|p|]; try discriminate S. cbn [bind] in S. destruct (negb _); [discriminate S|].
  destruct (rd buf (cend + 1 + slen + 1)) as [b3|e|p|]; try discriminate S. cbn [bind] in S. destruct (negb _); [discriminate S|].
  destruct (sub buf _ _); try discriminate S. cbn [bind] in S. injection S as <- <-. unfold w_end. cbn [w_start w_len]. lia.
Qed.

Lemma a_unm_good X E n buf c d a : small buf -> 0 <= c <= blen buf -> good views buf c (views a) (a_unm X E n buf c d a).
Proof.
  intros Hsm H. unfold a_unm. destruct (bind _ _) as [[src cend]|e|p|] eqn:Q;
    try (eapply (good_fail views); [cbn; apply Z.le_refl|lia|bag]).
  apply span_moves in Q; auto. cbn zeta.
  assert (ordered c [GPassed (View c (cend - c))] cend) as O by (unfold w_end; cbn; unfold w_end; cbn; lia).
  match goal with |- good _ _ _ _ (match src with [] => ?g | _ => _ end) => set (go := g) end.
  assert (good views buf c (views a) go) as G.
  { subst go. destruct (x_unmarshal X n _ _) as [v [|]].
    - apply good_done; [exact O|lia|cbn [views]; bag].
    - apply good_stop with (c1 := cend); [discriminate|exact O|lia|bag]. }
  destruct src as [|b src]; [exact G|]. destruct (_ || _); [apply good_stop with (c1 := c); [discriminate|cbn; lia|lia|bag]|].
  destruct (_ && _); [|exact G]. apply good_done; cbn; [lia..|bag].
Qed.

Lemma a_iface_good X E T buf c d a : small buf -> 0 <= c < blen buf -> node_of E T = NIface -> good views buf c (views a) (a_iface X E buf c d a).
Proof.
  intros Hsm H En.
  assert (good views buf c (views a) (leaf buf (dec_iface X E buf c d) a)) as G.
  { apply leaf_good; [lia|]. intros v. destruct (node_moves X E buf T c d v Hsm H) as [F M]. cbn [decode_f] in M. rewrite En in M. exact M. }
  unfold a_iface. destruct a as [v| | | | | |]; try exact G.
  destruct v as [| | | | | | | | | |o| |]; try exact G. destruct o as [[U v]|]; try exact G.
  destruct U; try exact G. destruct v as [| | | | | | | | |o| | |]; try exact G. destruct o as [old|]; try exact G.
  destruct (has_unmarshal E U) as [n|]; [|exact G]. clear G.
  destruct (bind _ _) as [[src cend]|e|p|] eqn:Q;
    try (eapply (good_fail views); [cbn; apply Z.le_refl|lia|bag]).
  apply span_moves in Q; auto; [|lia].
  assert (ordered c [GPassed (View c (cend - c))] cend) as O by (unfold w_end; cbn; unfold w_end; cbn; lia).
  destruct (bytes_eqb _ _); [apply good_done; cbn; [lia..|bag]|].
  destruct (x_unmarshal X n _ _) as [new [|]]; [apply good_done|apply good_stop with (c1 := cend)]; try exact O; try lia; try (cbn [views]; bag); discriminate.
Qed.

Lemma a_key_good X E kt buf c d : small buf -> 0 <= c < blen buf -> good (fun _ => []) buf c [] (a_key X E kt buf c d).
Proof.
  intros Hsm H. unfold a_key. assert (good (fun _ => []) buf c [] (let '(v, r) := dec_key X E kt buf c d in (v, r, []))) as G.
  { destruct (at_pos _ _ H) as (s & P & N). pose proof (key_out X E kt buf c d s Hsm P N) as D.
    apply dout_moves with (buf := buf) (c := c) in D; [|intros a c' R; eapply reads_adv; eauto].
    destruct (dec_key X E kt buf c d) as [v r]. unfold moves in D. cbn [snd] in D.
    destruct r as [c'|e|p|]; [apply good_done; cbn; [lia..|bag]|..]; apply good_stop with (c1 := c); cbn; try lia; try bag; discriminate. }
  destruct (key_node E kt); try exact G.
  pose proof (a_unm_good X E n buf c d (ALeaf (zero E kt)) Hsm ltac:(lia)) as U.
  destruct (a_unm _ _ _ _ _ _ _) as [[a r] w]. destruct U as [U _]. split; [exact U|]. bag.
Qed.

Lemma cnt_flat_update x l : forall i v v0, nth_error l i = Some v0 ->
  (cnt x (flat_map views (update l i v)) + cnt x (views v0) = cnt x (flat_map views l) + cnt x (views v))%nat.
Proof.
  induction l as [|y l IH]; intros [|i] v v0 Q; cbn in Q; try discriminate Q; cbn [update flat_map]; rewrite !cnt_app.
  - injection Q as ->. lia.
  - specialize (IH i v v0 Q). lia.
Qed.
Lemma flat_leaves l : flat_map views (map ALeaf l) = [].
Proof. induction l; cbn; auto. Qed.
Lemma flat_repeat_leaf v n : flat_map views (repeat (ALeaf v) n) = [].
Proof. induction n; cbn; auto. Qed.
Definition vviews (m : list (gval * aval)) : list view := flat_map (fun kv => views (snd kv)) m.
Lemma cnt_set x k v m : (cnt x (vviews (a_set k v m)) <= cnt x (vviews m) + cnt x (views v))%nat.
Proof.
  induction m as [|[k' v'] m IH]; unfold vviews in *; cbn [a_set flat_map snd]; rewrite ?cnt_app, ?cnt_nil; [lia|].
  destruct (key_eqb k' k); cbn [flat_map snd]; rewrite !cnt_app; lia.
Qed.

Section Loops.
  Variables (buf : bytes).
  Hypothesis Hsm : small buf.

  Lemma a_map_loop_good kd vd :
    (forall c, 0 <= c < blen buf -> good (fun _ => []) buf c [] (kd c)) ->
    (forall c, 0 <= c < blen buf -> good views buf c [] (vd c)) ->
    forall n c m, 0 <= c <= blen buf -> good vviews buf c (vviews m) (a_map_loop kd vd buf n c m).
  Proof.
    intros Hk Hv n. induction n as [|n IH]; intros c m H; cbn [a_map_loop].
    { apply good_stop with (c1 := c); [discriminate|cbn; lia|lia|bag]. }
    destruct (has_byte buf c) eqn:Hb; cbn [negb]; [|apply good_stop with (c1 := c); [discriminate|cbn; lia|lia|bag]].
    apply has_byte_lt in Hb; [|lia]. pose proof (Hk c Hb) as G. destruct (kd c) as [[k kr] w]. destruct G as [G _].
    destruct kr as [c1|e|p|]; [|eapply good_fail with (r := @RErr Z e); [exact G|lia|bag]|eapply good_fail with (r := @RPanic Z p); [exact G|lia|bag]|eapply good_fail with (r := @RFuel Z); [exact G|lia|bag]].
    destruct G as [L1 O1]. pose proof (ordered_le _ _ _ O1).
    destruct (has_byte buf c1) eqn:Hb1; cbn [negb]; [|apply good_stop with (c1 := c1); [discriminate|auto|lia|bag]].
    apply has_byte_lt in Hb1; [|lia]. pose proof (Hv c1 Hb1) as G. destruct (vd c1) as [[v vr] w']. destruct G as [G V].
    destruct vr as [c2|e|p|]; [|eapply good_fail with (r := @RErr Z e); [eapply ordered_app; [exact O1|exact G]|lia|bag]|eapply good_fail with (r := @RPanic Z p); [eapply ordered_app; [exact O1|exact G]|lia|bag]|eapply good_fail with (r := @RFuel Z); [eapply ordered_app; [exact O1|exact G]|lia|bag]].
    destruct G as [L2 O2]. pose proof (ordered_le _ _ _ O2). pose proof (ordered_app _ _ _ _ _ O1 O2) as O.
    destruct (negb (hashable k)); [apply good_stop with (c1 := c2); [discriminate|exact O|lia|bag]|]. cbn zeta.
    assert (within_bag (vviews (a_set k v m)) (vviews m ++ stored (w ++ w'))) as W.
    { intros x. pose proof (cnt_set x k v m). specialize (V x). rewrite stored_app, !cnt_app in *. rewrite cnt_nil in V. lia. }
    destruct (has_byte buf c2) eqn:Hb2; cbn [negb]; [|apply good_stop with (c1 := c2); [discriminate|exact O|lia|exact W]].
    apply has_byte_lt in Hb2; [|lia].
    destruct (rd buf c2) as [b|e|p|]; [|eapply good_fail with (r := @RErr byte e); [exact O|lia|exact W]|eapply good_fail with (r := @RPanic byte p); [exact O|lia|exact W]|eapply good_fail with (r := @RFuel byte); [exact O|lia|exact W]].
    destruct (b =b "}"%byte).
    - apply good_done; [eapply ordered_weaken; [exact O|lia|lia]|lia|exact W].
    - eapply good_then; [exact O|apply IH; lia|exact W].
  Qed.

  Ltac gf := match goal with |- good _ _ _ _ (_, fail ?r, _) => eapply good_fail with (r := r) end.
  Ltac gfail := first [gf | match goal with |- good _ _ _ _ (_, ?r, _) => apply good_stop; [destruct r; discriminate|..] end].

  Lemma a_slice_loop_good X E et ed :
    (forall c a, 0 <= c < blen buf -> good views buf c (views a) (ed c a)) ->
    forall n c l rv B, 0 <= c <= blen buf -> within_bag (flat_map views l) B -> within_bag (views rv) B ->
    good views buf c B (a_slice_loop X E et ed buf n c l rv).
  Proof.
    intros He n. induction n as [|n IH]; intros c l rv B H WL WR; cbn [a_slice_loop]; cbn zeta.
    { apply good_stop with (c1 := c); [discriminate|cbn; lia|lia|bag]. }
    assert (forall l' c', 0 <= c' <= blen buf -> forall B', within_bag (flat_map views l') B' ->
       good views buf c' B' (if negb (has_byte buf c') then (ASlice l', RErr (ESyntax c' (WEnd "array")), []) else
         match rd buf c' with
         | ROk b => if b =b "}"%byte then (ASlice l', ROk (c' + 1), []) else a_slice_loop X E et ed buf n c' l' (ASlice l')
         | r => (ASlice l', fail r, []) end)) as K.
    { intros l' c' H' B' W'. destruct (has_byte buf c') eqn:Hb; cbn [negb]; [|apply good_stop with (c1 := c'); [discriminate|cbn; lia|lia|cbn [views]; bag]].
      apply has_byte_lt in Hb; [|lia].
      destruct (rd buf c') as [b|e|p|]; [|apply good_stop with (c1 := c'); [discriminate|cbn; lia|lia|cbn [views]; bag]..].
      destruct (b =b "}"%byte); [apply good_done; [cbn; lia|lia|cbn [views]; bag]|]. apply IH; [lia|exact W'|exact W']. }
    destruct (has_byte buf c) eqn:Hb; cbn [negb]; [|apply good_stop with (c1 := c); [discriminate|cbn; lia|lia|bag]].
    destruct (read_int buf c) as [[idx c1]|e|p|] eqn:Ri; [|apply good_stop with (c1 := c); [discriminate|cbn; lia|lia|bag]..].
    apply read_int_moves in Ri as [M Hi]; [|lia].
    destruct (has_byte buf c1) eqn:Hb1; cbn [negb]; [|apply good_stop with (c1 := c1); [discriminate|cbn; lia|lia|bag]].
    apply has_byte_lt in Hb1; [|lia].
    destruct (idx <? blen l) eqn:Hl.
    - apply Z.ltb_lt in Hl. destruct (bad_index _ _); [apply good_stop with (c1 := c1); [discriminate|cbn; lia|lia|bag]|].
      set (old := nth (Z.to_nat idx) l (ALeaf VOther)).
      assert (nth_error l (Z.to_nat idx) = Some old) as Hn by (apply nth_error_nth_lt; unfold blen in Hl; lia).
      pose proof (He c1 old Hb1) as G. destruct (ed c1 old) as [[v r] w]. destruct G as [G V].
      assert (within_bag (flat_map views (update l (Z.to_nat idx) v)) (B ++ stored w)) as W.
      { intros x. pose proof (cnt_flat_update x l (Z.to_nat idx) v old Hn). specialize (V x). specialize (WL x). rewrite !cnt_app in *. lia. }
      destruct r as [c2|e|p|]; [|apply good_stop with (c1 := blen buf); [discriminate|eapply ordered_weaken; [exact G|lia|lia]|lia|exact W]..].
      destruct G as [L2 O2]. pose proof (ordered_le _ _ _ O2).
      eapply good_then; [eapply ordered_weaken; [exact O2|lia|apply Z.le_refl]|apply (K _ c2 ltac:(lia) _ W)|intros x; lia].
    - destruct (_ || _); [apply good_stop with (c1 := c1); [discriminate|cbn; lia|lia|bag]|].
      destruct (bad_index _ _); [apply good_stop with (c1 := c1); [discriminate|cbn; lia|lia|bag]|].
      pose proof (He c1 (ALeaf (zero E et)) Hb1) as G. destruct (ed c1 _) as [[v r] w]. destruct G as [G V]. cbn [views] in V.
      destruct r as [c2|e|p|]; [|apply good_stop with (c1 := blen buf); [discriminate|eapply ordered_weaken; [exact G|lia|lia]|lia|bag]..].
      destruct G as [L2 O2]. pose proof (ordered_le _ _ _ O2).
      eapply good_then; [eapply ordered_weaken; [exact O2|lia|apply Z.le_refl]|eapply (K _ c2 ltac:(lia))|intros x; apply Nat.le_refl].
      intros x. rewrite !flat_map_app, flat_repeat_leaf. cbn [flat_map app]. rewrite app_nil_r, !cnt_app. specialize (V x). specialize (WL x). rewrite cnt_app, cnt_nil in V. lia.
  Qed.

  Lemma a_array_loop_good ed d :
    (forall c a, 0 <= c < blen buf -> good views buf c (views a) (ed c a)) ->
    forall n c l, 0 <= c <= blen buf -> good (flat_map views) buf c (flat_map views l) (a_array_loop ed buf d n c l).
  Proof.
    intros He n. induction n as [|n IH]; intros c l H; cbn [a_array_loop]; cbn zeta.
    { apply good_stop with (c1 := c); [discriminate|cbn; lia|lia|bag]. }
    assert (forall l' c', 0 <= c' <= blen buf ->
       good (flat_map views) buf c' (flat_map views l') (if negb (has_byte buf c') then (l', RErr (ESyntax c' (WEnd "array")), []) else
         match rd buf c' with
         | ROk b => if b =b "}"%byte then (l', ROk (c' + 1), []) else a_array_loop ed buf d n c' l'
         | r => (l', fail r, []) end)) as K.
    { intros l' c' H'. destruct (has_byte buf c') eqn:Hb; cbn [negb]; [|apply good_stop with (c1 := c'); [discriminate|cbn; lia|lia|bag]].
      apply has_byte_lt in Hb; [|lia].
      destruct (rd buf c') as [b|e|p|]; [|apply good_stop with (c1 := c'); [discriminate|cbn; lia|lia|bag]..].
      destruct (b =b "}"%byte); [apply good_done; [cbn; lia|lia|bag]|]. apply IH; lia. }
    destruct (has_byte buf c) eqn:Hb; cbn [negb]; [|apply good_stop with (c1 := c); [discriminate|cbn; lia|lia|bag]].
    destruct (read_int buf c) as [[idx c1]|e|p|] eqn:Ri; [|apply good_stop with (c1 := c); [discriminate|cbn; lia|lia|bag]..].
    apply read_int_moves in Ri as [M Hi]; [|lia].
    destruct (has_byte buf c1) eqn:Hb1; cbn [negb]; [|apply good_stop with (c1 := c1); [discriminate|cbn; lia|lia|bag]].
    apply has_byte_lt in Hb1; [|lia].
    destruct (idx <? blen l) eqn:Hl.
    - apply Z.ltb_lt in Hl. destruct (bad_index _ _); [apply good_stop with (c1 := c1); [discriminate|cbn; lia|lia|bag]|].
      set (old := nth (Z.to_nat idx) l (ALeaf VOther)).
      assert (nth_error l (Z.to_nat idx) = Some old) as Hn by (apply nth_error_nth_lt; unfold blen in Hl; lia).
      pose proof (He c1 old Hb1) as G. destruct (ed c1 old) as [[v r] w]. destruct G as [G V].
      assert (within_bag (flat_map views (update l (Z.to_nat idx) v)) (flat_map views l ++ stored w)) as W.
      { intros x. pose proof (cnt_flat_update x l (Z.to_nat idx) v old Hn). specialize (V x). rewrite !cnt_app in *. lia. }
      destruct r as [c2|e|p|]; [|apply good_stop with (c1 := blen buf); [discriminate|eapply ordered_weaken; [exact G|lia|lia]|lia|exact W]..].
      destruct G as [L2 O2]. pose proof (ordered_le _ _ _ O2).
      eapply good_then; [eapply ordered_weaken; [exact O2|lia|apply Z.le_refl]|apply (K _ c2 ltac:(lia))|exact W].
    - destruct (skip_value buf c1 d) as [c2|e|p|] eqn:Sk; [|apply good_stop with (c1 := c1); [discriminate|cbn; lia|lia|bag]..].
      apply skip_moves in Sk; [|exact Hsm|lia]. eapply good_later; [apply (K _ c2 ltac:(lia))|lia].
  Qed.

  Lemma a_struct_loop_good decs fd d :
    (forall x c a, 0 <= c < blen buf -> good views buf c (views a) (fd x c a)) ->
    forall n c l, 0 <= c <= blen buf -> good (flat_map views) buf c (flat_map views l) (a_struct_loop decs fd buf d n c l).
  Proof.
    intros He n. induction n as [|n IH]; intros c l H; cbn [a_struct_loop]; cbn zeta.
    { apply good_stop with (c1 := c); [discriminate|cbn; lia|lia|bag]. }
    assert (forall l' c', 0 <= c' <= blen buf ->
       good (flat_map views) buf c' (flat_map views l') (if negb (has_byte buf c') then (l', RErr (ESyntax c' (WEnd "object")), []) else
         match rd buf c' with
         | ROk b => if b =b "}"%byte then (l', ROk (c' + 1), []) else a_struct_loop decs fd buf d n c' l'
         | r => (l', fail r, []) end)) as K.
    { intros l' c' H'. destruct (has_byte buf c') eqn:Hb; cbn [negb]; [|apply good_stop with (c1 := c'); [discriminate|cbn; lia|lia|bag]].
      apply has_byte_lt in Hb; [|lia].
      destruct (rd buf c') as [b|e|p|]; [|apply good_stop with (c1 := c'); [discriminate|cbn; lia|lia|bag]..].
      destruct (b =b "}"%byte); [apply good_done; [cbn; lia|lia|bag]|]. apply IH; lia. }
    destruct (has_byte buf c) eqn:Hb; cbn [negb]; [|apply good_stop with (c1 := c); [discriminate|cbn; lia|lia|bag]].
    destruct (decode_string_bytes buf c) as [[key c1]|e|p|] eqn:Ri; [|apply good_stop with (c1 := c); [discriminate|cbn; lia|lia|bag]..].
    apply string_moves in Ri as M; [|exact Hsm|lia].
    destruct (has_byte buf c1) eqn:Hb1; cbn [negb]; [|apply good_stop with (c1 := c1); [discriminate|cbn; lia|lia|bag]].
    apply has_byte_lt in Hb1; [|lia].
    destruct (find_field _ decs) as [x0|].
    - destruct (nth_error l (fd_idx x0)) as [old|] eqn:Hn; [|apply good_stop with (c1 := c1); [discriminate|cbn; lia|lia|bag]].
      pose proof (He x0 c1 old Hb1) as G. destruct (fd x0 c1 old) as [[v r] w]. destruct G as [G V].
      assert (within_bag (flat_map views (update l (fd_idx x0) v)) (flat_map views l ++ stored w)) as W.
      { intros x. pose proof (cnt_flat_update x l (fd_idx x0) v old Hn). specialize (V x). rewrite !cnt_app in *. lia. }
      destruct r as [c2|e|p|]; [|apply good_stop with (c1 := blen buf); [discriminate|eapply ordered_weaken; [exact G|lia|lia]|lia|exact W]..].
      destruct G as [L2 O2]. pose proof (ordered_le _ _ _ O2).
      eapply good_then; [eapply ordered_weaken; [exact O2|lia|apply Z.le_refl]|apply (K _ c2 ltac:(lia))|exact W].
    - destruct (skip_value buf c1 d) as [c2|e|p|] eqn:Sk; [|apply good_stop with (c1 := c1); [discriminate|cbn; lia|lia|bag]..].
      apply skip_moves in Sk; [|exact Hsm|lia]. eapply good_later; [apply (K _ c2 ltac:(lia))|lia].
  Qed.
End Loops.

Lemma header_moves buf c d h : small buf -> 0 <= c <= blen buf -> (map_header buf c d = ROk h \/ struct_header buf c d = ROk h) ->
  match h with HNull c' | HBody c' => c <= c' <= blen buf end.
Proof.
  intros Hsm H Q. destruct (pos_ex buf c ltac:(lia)) as [s P].
  assert (exists m, header_at m buf s h) as [m O].
  { destruct Q as [Q|Q]; [pose proof (map_header_out buf c d s Hsm P) as O|pose proof (struct_header_out buf c d s Hsm P) as O];
      rewrite Q in O; destruct O as [_ O]; eauto. }
  destruct h as [c'|c'].
  - destruct O as (s' & -> & P'). pose proof (pos_adv buf c _ c' s' 0 P P') as A. rewrite app_length in A. lia.
  - destruct O as (n & mk & s' & _ & _ & _ & _ & L & P'). pose proof (pos_adv buf c _ c' s' 0 P P'). lia.
Qed.
Lemma array_header_moves buf c d h : 0 <= c <= blen buf -> array_header buf c d = ROk h ->
  match h with AhNull c' | AhEmpty c' | AhBody _ c' => c <= c' <= blen buf end.
Proof.
  intros H Q. destruct (pos_ex buf c ltac:(lia)) as [s P].
  pose proof (array_header_out buf c d s P) as O. rewrite Q in O. destruct O as [_ O].
  destruct h as [c'|c'|len c'].
  - destruct O as (s' & -> & P'). pose proof (pos_adv buf c _ c' s' 0 P P') as A. rewrite app_length in A. lia.
  - destruct O as (s' & -> & P'). pose proof (pos_adv buf c _ c' s' 0 P P') as A. rewrite app_length in A. lia.
  - destruct O as (n & s' & _ & _ & _ & _ & _ & L & P'). pose proof (pos_adv buf c _ c' s' 0 P P'). lia.
Qed.

Ltac stop c := apply good_stop with (c1 := c); [discriminate|cbn; lia|lia|cbn [views]; bag].

Section Whole.
  Variables (X : Ext) (E : env) (buf : bytes).
  Hypothesis Hsm : small buf.

  Lemma a_map_good kd vd c d a :
    (forall c, 0 <= c < blen buf -> good (fun _ => []) buf c [] (kd c)) ->
    (forall c, 0 <= c < blen buf -> good views buf c [] (vd c)) ->
    0 <= c < blen buf -> good views buf c (views a) (a_map kd vd buf c d a).
  Proof.
    intros Hk Hv H. unfold a_map. destruct (map_header buf c d) as [h|e|p|] eqn:Q; [|stop c..].
    pose proof (header_moves buf c d h Hsm ltac:(lia) (or_introl Q)) as M. destruct h as [c'|c'].
    { apply good_done; [cbn; lia|lia|cbn [views]; bag]. }
    destruct (a_entries a) as [m|] eqn:Qm; [|stop c].
    assert (within_bag (vviews m) (views a)) as W.
    { destruct a as [v| | | | | |]; try discriminate Qm; [destruct v as [| | | | | | | |[]| | | |]; try discriminate Qm|]; injection Qm as <-.
      - unfold vviews. intros x. replace (flat_map _ _) with (@nil view); [cbn; lia|]. clear. induction l as [|[]]; cbn; auto.
      - intros x; cbn; lia.
      - intros x. apply Nat.le_refl. }
    assert (within_bag (views (AMap m)) (views a)) as W' by exact W.
    destruct (negb _); [apply good_stop with (c1 := c); [discriminate|cbn; lia|lia|bag]|].
    destruct (rd buf c') as [b|e|p|] eqn:Rb; [|apply good_stop with (c1 := c); [discriminate|cbn; lia|lia|bag]..].
    destruct (b =b "}"%byte).
    { apply rd_lt in Rb. apply good_done; [cbn; lia|lia|bag]. }
    pose proof (a_map_loop_good buf kd vd Hk Hv (length buf) c' m ltac:(lia)) as G.
    destruct (a_map_loop _ _ _ _ _ _) as [[m' r] w].
    eapply good_later with (c1 := c'); [|lia]. destruct G as [G V]. split; [exact G|]. intros x. specialize (V x). specialize (W x). change (views (AMap m')) with (vviews m'). rewrite cnt_app in *. lia.
  Qed.

  Lemma a_slice_good et ed c d a : (forall c a, 0 <= c < blen buf -> good views buf c (views a) (ed c a)) ->
    0 <= c < blen buf -> good views buf c (views a) (a_slice X E et ed buf c d a).
  Proof.
    intros He H. unfold a_slice. destruct (slice_header buf c d) as [h|e|p|] eqn:Q; [|stop c..].
    apply slice_header_ok, array_header_moves in Q; [|lia]. destruct h as [c'|c'|len c'].
    - apply good_done; [cbn; lia|lia|cbn [views]; bag].
    - apply good_done; [cbn; lia|lia|cbn [views]; bag].
    - destruct (negb _); [stop c|]. eapply good_later with (c1 := c'); [|lia].
      apply a_slice_loop_good; auto; [lia|intros x; cbn; lia|intros x; lia].
  Qed.

  Lemma a_array_good n et ed c d a : (forall c a, 0 <= c < blen buf -> good views buf c (views a) (ed c a)) ->
    0 <= c < blen buf -> good views buf c (views a) (a_array E n et ed buf c d a).
  Proof.
    intros He H. unfold a_array. cbn zeta.
    assert (forall r : R Z, (forall x, r <> ROk x) -> good views buf c (views a) (if array_zeroed buf c d then AArr (repeat (ALeaf (zero E et)) n) else a, r, [])) as F.
    { intros r N. apply good_stop with (c1 := c); [exact N|cbn; lia|lia|]. destruct (array_zeroed buf c d); [|bag]. cbn [views]. rewrite flat_repeat_leaf. bag. }
    destruct (array_header buf c d) as [h|e|p|] eqn:Q; [|apply F; discriminate..].
    apply array_header_moves in Q; [|lia]. destruct h as [c'|c'|len c'].
    - apply good_done; [cbn; lia|lia|cbn [views]; bag].
    - apply good_done; [cbn; lia|lia|cbn [views]; rewrite flat_repeat_leaf; bag].
    - pose proof (a_array_loop_good buf Hsm ed (d + 1) He (length buf) c' (repeat (ALeaf (zero E et)) n) ltac:(lia)) as G.
      destruct (a_array_loop _ _ _ _ _ _) as [[l r] w]. rewrite flat_repeat_leaf in G.
      eapply good_later with (c1 := c'); [|lia]. destruct G as [G V]. split; [exact G|]. cbn [views]. bag.
  Qed.

  Lemma a_struct_good decs fd c d a : (forall x c a, 0 <= c < blen buf -> good views buf c (views a) (fd x c a)) ->
    0 <= c < blen buf -> good views buf c (views a) (a_struct decs fd buf c d a).
  Proof.
    intros He H. unfold a_struct. destruct (struct_header buf c d) as [h|e|p|] eqn:Q; [|stop c..].
    pose proof (header_moves buf c d h Hsm ltac:(lia) (or_intror Q)) as M. destruct h as [c'|c'].
    { apply good_done; [cbn; lia|lia|cbn [views]; bag]. }
    destruct (a_fields a) as [vals|] eqn:Qm; [|stop c].
    assert (views a = flat_map views vals) as W.
    { destruct a as [v| | | | | |]; try discriminate Qm; [destruct v; try discriminate Qm|]; injection Qm as <-; [rewrite flat_leaves|]; reflexivity. }
    destruct (negb _); [apply good_stop with (c1 := c); [discriminate|cbn; lia|lia|bag]|].
    destruct (rd buf c') as [b|e|p|] eqn:Rb; [|apply good_stop with (c1 := c); [discriminate|cbn; lia|lia|bag]..].
    destruct (b =b "}"%byte).
    { apply rd_lt in Rb. apply good_done; [cbn; lia|lia|bag]. }
    pose proof (a_struct_loop_good buf Hsm decs fd (d + 1) He (length buf) c' vals ltac:(lia)) as G.
    destruct (a_struct_loop _ _ _ _ _ _ _) as [[l r] w].
    eapply good_later with (c1 := c'); [|lia]. rewrite W. exact G.
  Qed.

  Lemma a_ptr_good t ed c a : (forall c a, 0 <= c < blen buf -> good views buf c (views a) (ed c a)) ->
    0 <= c < blen buf -> good views buf c (views a) (a_ptr E t ed buf c a).
  Proof.
    intros He H. unfold a_ptr. destruct (rd buf c) as [b|e|p|] eqn:Rb; [|stop c..].
    destruct (b =b "N"%byte).
    { destruct (validate_null buf c) as [[]|e|p|] eqn:Nv; [|stop c..]. apply (null_moves _ _ b) in Nv; auto; [|lia].
      apply good_done; [cbn; lia|lia|cbn [views]; bag]. }
    destruct (a_elem E t a) as [v0|] eqn:Q; [|stop c].
    assert (views v0 = views a) as W.
    { destruct a as [v| | | | | |]; try discriminate Q; [destruct v as [| | | | | | | | |[]| | |]; try discriminate Q|]; injection Q as <-; reflexivity. }
    pose proof (He c v0 H) as G. destruct (ed c v0) as [[v r] w]. rewrite W in G. exact G.
  Qed.

  Lemma a_bytes_good sd c a : good views buf c (views a) (sd a) -> 0 <= c < blen buf ->
    good views buf c (views a) (a_bytes sd buf c a).
  Proof.
    intros Hs H. unfold a_bytes. destruct (rd buf c) as [b|e|p|] eqn:Rb; [|stop c..].
    destruct (b =b "a"%byte); [exact Hs|].
    destruct (decode_string_view buf c) as [[[w|] c']|e|p|] eqn:Q; [| |stop c..].
    - apply string_view_place in Q; [|exact Hsm|lia]. apply good_done; [cbn; lia|lia|]. intros x. cbn [views stored flat_map app]. rewrite cnt_app. lia.
    - assert (decode_string_bytes buf c = ROk (None, c')) as S by (rewrite string_bytes_view, Q; reflexivity).
      apply string_moves in S; [|exact Hsm|lia]. apply good_done; [cbn; lia|lia|bag].
  Qed.

  Lemma wrapped_moves T c v : 0 <= c < blen buf -> moves buf c (dec_wrapped X (node_of E T) buf c v).
  Proof.
    intros H. destruct (at_pos _ _ H) as (s & P & N). eapply dout_moves; [apply wrapped_out with (s := s); auto|].
    intros a c' (p & s' & -> & P' & _). pose proof (pos_adv buf c _ c' s' 0 P P') as A. rewrite app_length in A. lia.
  Qed.

  Theorem a_decode_f_good : forall fuel t c d a, 0 <= c < blen buf -> good views buf c (views a) (a_decode_f X E fuel t buf c d a).
  Proof.
    induction fuel as [|f IH]; intros t c d a H; [stop c|]. cbn [a_decode_f]. cbn zeta.
    assert (forall nd, node_of E t = nd -> forall g, (forall v, match nd with
        | NBool => dec_bool buf c v | NInt k => dec_int k buf c v | NUint k => dec_uint k buf c v
        | NF32 => dec_float X true buf c v | NF64 => dec_float X false buf c v | NString => dec_string buf c v
        | NAny => dec_iface_any X buf c d v | _ => (v, RFuel) end = g v) -> good views buf c (views a) (leaf buf g a)) as Lf.
    { intros nd En g Eg. apply leaf_good; [lia|]. intros v. destruct (node_moves X E buf t c d v Hsm H) as [F M]. cbn [decode_f] in M.
      rewrite En in M. rewrite <- Eg. destruct nd; try exact M; exact I. }
    destruct (node_of E t) as [n|t0|id fs|t0|t0|n t0|kt vt| | |uk|ik| | | | |] eqn:En;
      try (apply (Lf _ eq_refl); reflexivity); try (stop c).
    - apply a_unm_good; [exact Hsm|lia].
    - assert (good views buf c (views a) (a_ptr E t0 (fun c0 v => a_decode_f X E f t0 buf c0 d v) buf c a)) as G by (apply a_ptr_good; auto).
      destruct (kind_of E t0); try exact G. stop c.
    - apply a_struct_good; [|exact H]. intros x c0 a0 H0. destruct (fd_str x); [|apply IH; exact H0].
      pose proof (fun a1 => leaf_good buf (dec_wrapped X (node_of E (fd_ty x)) buf c0) a1 c0 ltac:(lia) (fun v => wrapped_moves (fd_ty x) c0 v H0)) as WG.
      destruct (node_of E (fd_ty x)); try (apply WG).
      apply a_ptr_good; [|exact H0]. intros c1 a1 H1. apply leaf_good; [lia|]. intros v. apply wrapped_moves; exact H1.
    - apply a_bytes_good; [|exact H]. apply a_slice_good; auto.
    - apply a_slice_good; auto.
    - apply a_array_good; auto.
    - apply a_map_good; [| |exact H]; intros c0 H0; [apply a_key_good; [exact Hsm|exact H0]|]. apply (IH vt c0 (d + 1) (ALeaf (zero E vt)) H0).
    - eapply a_iface_good; eauto.
  Qed.
End Whole.
