(** Exact characterisation of the scanning primitives of [Scan.v]. *)
From Coq Require Import Strings.String Strings.Byte ZArith List Bool Lia.
From Verif Require Import Base GoTypes Strconv Scan Grammar NumFacts.
Import ListNotations.
Open Scope Z_scope.

Notation qt := """"%byte.

(** The input does not exceed what a Go slice can hold. *)

(** [pos buf c s]: cursor [c] lies in [buf] and [s] is what remains. *)
Definition pos (buf : bytes) (c : Z) (s : bytes) : Prop :=
  exists pre, buf = pre ++ s /\ blen pre = c.

(** Either an error, or success satisfying [P]; never a panic, never out of fuel. *)
Definition outcome {A} (r : R A) (P : A -> Prop) : Prop :=
  match r with ROk a => P a | RErr _ => True | _ => False end.

Lemma outcome_bind {A B} (r : R A) (k : A -> R B) P Q :
  outcome r P -> (forall a, P a -> outcome (k a) Q) -> outcome (bind r k) Q.
Proof. destruct r; cbn; auto; tauto. Qed.
Lemma outcome_imp {A} (r : R A) (P Q : A -> Prop) :
  outcome r P -> (forall a, P a -> Q a) -> outcome r Q.
Proof. destruct r; cbn; auto. Qed.

Lemma pos_nonneg buf c s : pos buf c s -> 0 <= c.
Proof. intros (pre & _ & <-). apply blen_nonneg. Qed.
Lemma pos_len buf c s : pos buf c s -> blen buf = c + blen s.
Proof. intros (pre & -> & <-). apply blen_app. Qed.
Lemma pos_app buf c a s c' : pos buf c (a ++ s) -> c' = c + blen a -> pos buf c' s.
Proof.
  intros (pre & -> & <-) ->. exists (pre ++ a). split; [apply app_assoc|apply blen_app].
Qed.
Lemma pos_cons buf c b s : pos buf c (b :: s) -> pos buf (c + 1) s.
Proof. intros H. apply (pos_app buf c [b] s); [exact H|reflexivity]. Qed.
Lemma pos_start buf : pos buf 0 buf.
Proof. exists []. split; reflexivity. Qed.
Lemma pos_ex buf c : 0 <= c <= blen buf -> exists s, pos buf c s.
Proof.
  intros H. exists (skipn (Z.to_nat c) buf), (firstn (Z.to_nat c) buf).
  split; [symmetry; apply firstn_skipn|].
  unfold blen in *. rewrite firstn_length. lia.
Qed.
Lemma pos_det buf c s s' : pos buf c s -> pos buf c s' -> s = s'.
Proof.
  intros (pre & E & L) (pre' & E' & L'). rewrite E in E'.
  assert (length pre = length pre') as HL by (unfold blen in *; lia).
  revert E' HL. clear. revert pre'. induction pre as [|x pre IH]; destruct pre' as [|y pre']; cbn; try discriminate.
  - auto.
  - intros [= _ E] [= HL]. eauto.
Qed.
Lemma pos_rd buf c b s : pos buf c (b :: s) -> rd buf c = ROk b.
Proof.
  intros (pre & -> & <-). unfold rd. destruct (0 <=? blen pre) eqn:E; [|apply Z.leb_gt in E; pose proof (blen_nonneg pre); lia].
  unfold blen. rewrite Nat2Z.id, nth_error_app2, Nat.sub_diag by lia. reflexivity.
Qed.
Lemma pos_has buf c b s : pos buf c (b :: s) -> has_byte buf c = true.
Proof.
  intros H. pose proof (pos_nonneg _ _ _ H). apply pos_len in H. rewrite blen_cons in H.
  pose proof (blen_nonneg s) as BL1. unfold has_byte. apply andb_true_iff. rewrite Z.leb_le, Z.ltb_lt. lia.
Qed.
Lemma pos_has_nil buf c : pos buf c [] -> has_byte buf c = false.
Proof.
  intros H. apply pos_len in H. rewrite blen_nil in H.
  unfold has_byte. apply andb_false_iff. rewrite Z.leb_gt, Z.ltb_ge. lia.
Qed.
Lemma pos_has_bytes buf c s n : pos buf c s -> has_bytes buf c n = (0 <=? n) && (n <=? blen s).
Proof.
  intros H. pose proof (pos_nonneg _ _ _ H). apply pos_len in H.
  unfold has_bytes. replace (0 <=? c) with true by (symmetry; apply Z.leb_le; lia). cbn [andb].
  f_equal. rewrite H. destruct (n <=? blen s) eqn:E; [apply Z.leb_le in E; apply Z.leb_le|apply Z.leb_gt in E; apply Z.leb_gt]; lia.
Qed.
Lemma pos_sub buf c a s c' : pos buf c (a ++ s) -> c' = c + blen a -> sub buf c c' = ROk a.
Proof.
  intros H ->. pose proof (pos_nonneg _ _ _ H). pose proof (pos_len _ _ _ H) as L. rewrite blen_app in L.
  pose proof (blen_nonneg a) as BL2. pose proof (blen_nonneg s) as BL3.
  unfold sub. replace (_ && _ && _) with true.
  2:{ symmetry. rewrite !andb_true_iff, !Z.leb_le. lia. }
  destruct H as (pre & -> & <-). f_equal.
  replace (blen pre + blen a - blen pre) with (blen a) by lia.
  unfold blen. rewrite !Nat2Z.id, skipn_app, skipn_all, Nat.sub_diag. cbn [app skipn].
  rewrite firstn_app, firstn_all, Nat.sub_diag. cbn. apply app_nil_r.
Qed.

(** Rewriting a read at a known position. *)
Ltac rdn H :=
  rewrite ?(pos_has _ _ _ _ H), ?(pos_rd _ _ _ _ H); cbn [negb bind].

Lemma scan_while_ok p buf n c a s :
  pos buf c (a ++ s) -> forallb p a = true ->
  match s with [] => True | b :: _ => p b = false end ->
  (length a < n)%nat \/ (length a <= n)%nat /\ s = [] ->
  scan_while p buf n c = ROk (c + blen a).
Proof.
  revert n c; induction a as [|x a IH]; intros n c H Hp Hs Hn.
  - rewrite blen_nil, Z.add_0_r. destruct n as [|n]; [reflexivity|]. cbn [scan_while].
    cbn [app] in H. destruct s as [|b s].
    + rewrite (pos_has_nil _ _ H). reflexivity.
    + rdn H. rewrite Hs. reflexivity.
  - cbn [app] in H. cbn [forallb] in Hp. apply andb_true_iff in Hp as [Hx Hp].
    destruct n as [|n]; [cbn in Hn; lia|]. cbn [scan_while]. rdn H. rewrite Hx.
    rewrite (IH n (c + 1)); [rewrite blen_cons; f_equal; lia|eapply pos_cons; exact H|exact Hp|exact Hs|].
    cbn [length] in Hn. destruct Hn as [Hn|[Hn ->]]; [left; lia|right; split; [lia|reflexivity]].
Qed.

Lemma span_ex (p : byte -> bool) s : exists a r,
  s = a ++ r /\ forallb p a = true /\ match r with [] => True | b :: _ => p b = false end.
Proof.
  induction s as [|b s (a & r & -> & Ha & Hr)].
  - exists [], []. auto.
  - destruct (p b) eqn:E.
    + exists (b :: a), r. cbn. rewrite E. auto.
    + exists [], (b :: a ++ r). auto.
Qed.

Lemma scan_while_ex p buf c s : pos buf c s ->
  exists a r, s = a ++ r /\ forallb p a = true /\
    match r with [] => True | b :: _ => p b = false end /\
    scan_while p buf (length buf) c = ROk (c + blen a).
Proof.
  intros H. destruct (span_ex p s) as (a & r & -> & Ha & Hr). exists a, r. repeat split; auto.
  apply scan_while_ok with r; auto.
  apply pos_len in H as L. apply pos_nonneg in H as N. unfold blen in L. rewrite app_length in L.
  destruct r as [|b r]; [right; split; [lia|reflexivity]|left; cbn in L; lia].
Qed.

Lemma digit_not (b : byte) (x : byte) : is_digit b = true -> is_digit x = false -> b <> x.
Proof. congruence. Qed.

Lemma is_digit_colon : is_digit ":"%byte = false. Proof. reflexivity. Qed.

(** skipLengthWithBothColon *)
Lemma skip_length_out buf c s : pos buf c s ->
  outcome (skip_length buf c) (fun c' => exists ds s',
    numeral ds /\ s = ":"%byte :: ds ++ ":"%byte :: s' /\ c' = c + blen ds + 2 /\ pos buf c' s').
Proof.
  intros H. unfold skip_length. destruct s as [|b s]; [rewrite (pos_has_nil _ _ H); exact I|].
  rdn H. destruct (b =b ":"%byte) eqn:E; cbn [negb]; [|exact I]. apply eqb_eq in E as ->.
  pose proof (pos_cons _ _ _ _ H) as H1.
  destruct (scan_while_ex is_digit _ _ _ H1) as (a & r & -> & Ha & Hr & ->). cbn [bind].
  destruct (c + 1 + blen a =? c + 1) eqn:E0; [exact I|]. apply Z.eqb_neq in E0.
  pose proof (pos_app _ _ a r _ H1 eq_refl) as H2.
  destruct r as [|x r]; [rewrite (pos_has_nil _ _ H2); exact I|].
  rdn H2. destruct (x =b ":"%byte) eqn:E; cbn [negb]; [|exact I]. apply eqb_eq in E as ->.
  cbn [outcome]. exists a, r. repeat split; auto.
  - intros ->. apply E0. rewrite blen_nil. lia.
  - lia.
  - eapply pos_cons. exact H2.
Qed.
Lemma skip_length_ok buf c ds s : pos buf c (":"%byte :: ds ++ ":"%byte :: s) -> numeral ds ->
  skip_length buf c = ROk (c + blen ds + 2) /\ pos buf (c + blen ds + 2) s.
Proof.
  intros H [Hne Hd]. unfold skip_length. rdn H. change (":"%byte =b ":"%byte) with true. cbn [negb].
  pose proof (pos_cons _ _ _ _ H) as H1.
  pose proof (pos_app _ _ ds (":"%byte :: s) _ H1 eq_refl) as H2.
  rewrite (scan_while_ok is_digit buf (length buf) (c + 1) ds (":"%byte :: s) H1 Hd eq_refl).
  2:{ left. apply pos_len in H. unfold blen in H. cbn [length] in H. rewrite app_length in H. cbn [length] in H.
      apply pos_nonneg in H1. lia. }
  cbn [bind]. replace (_ =? c + 1) with false.
  2:{ symmetry. apply Z.eqb_neq. destruct ds; [congruence|]. rewrite blen_cons. pose proof (blen_nonneg ds) as BL4. lia. }
  rdn H2. change (":"%byte =b ":"%byte) with true. cbn [negb].
  pose proof (pos_cons _ _ _ _ H2) as H3. split; [f_equal; lia|].
  replace (c + blen ds + 2) with (c + 1 + blen ds + 1) by lia. exact H3.
Qed.

(** readLength *)
Lemma read_length_out buf c s : pos buf c s ->
  outcome (read_length buf c) (fun '(n, c') => exists ds s',
    numeral ds /\ s = ":"%byte :: ds ++ ":"%byte :: s' /\ n = num ds /\ 0 <= n <= max_int64 /\
    c' = c + blen ds + 2 /\ pos buf c' s').
Proof.
  intros H. unfold read_length.
  eapply outcome_bind; [apply skip_length_out; exact H|].
  intros c' (ds & s' & Hn & -> & -> & H'). cbn beta.
  rewrite (pos_sub _ _ ds (":"%byte :: s')); [|eapply pos_cons; exact H|lia]. cbn [bind].
  rewrite parse_int64_num by exact Hn. destruct (num ds <=? max_int64) eqn:E; [|exact I].
  apply Z.leb_le in E. destruct (num ds <? 0) eqn:E0; [exact I|]. apply Z.ltb_ge in E0.
  cbn [outcome]. exists ds, s'. repeat split; auto; apply Hn.
Qed.
Lemma read_length_ok buf c ds s : pos buf c (":"%byte :: ds ++ ":"%byte :: s) -> numeral ds ->
  num ds <= max_int64 ->
  read_length buf c = ROk (num ds, c + blen ds + 2) /\ pos buf (c + blen ds + 2) s.
Proof.
  intros H Hn Hm. unfold read_length. destruct (skip_length_ok _ _ _ _ H Hn) as [-> Hp]. cbn [bind].
  rewrite (pos_sub _ _ ds (":"%byte :: s)); [|eapply pos_cons; exact H|lia]. cbn [bind].
  rewrite parse_int64_num by exact Hn. apply Z.leb_le in Hm as ->.
  replace (num ds <? 0) with false by (symmetry; apply Z.ltb_ge, num_nonneg, Hn).
  split; [reflexivity|exact Hp].
Qed.

(** readString *)
Lemma wrap64_big z : 2 ^ 63 <= z < 2 ^ 63 + 2 ^ 62 -> wrap64 z < 0.
Proof.
  intros H. unfold wrap64. replace ((z + 2 ^ 63) mod 2 ^ 64) with (z + 2 ^ 63 - 2 ^ 64); [lia|].
  apply Z.mod_unique with 1; lia.
Qed.

Lemma split_at {A} (l : list A) n : 0 <= n <= blen l -> exists a b, l = a ++ b /\ blen a = n.
Proof.
  intros H. exists (firstn (Z.to_nat n) l), (skipn (Z.to_nat n) l). rewrite firstn_skipn. split; [reflexivity|].
  unfold blen in *. rewrite firstn_length. lia.
Qed.

Lemma read_string_out buf c s : small buf -> pos buf c s ->
  outcome (read_string buf c) (fun '(str, c') => exists ds s',
    numeral ds /\ num ds = blen str /\
    s = ":"%byte :: ds ++ ":"%byte :: qt :: str ++ qt :: ";"%byte :: s' /\ pos buf c' s').
Proof.
  intros Hsm H. unfold read_string.
  eapply outcome_bind; [apply read_length_out; exact H|].
  intros [n c1] (ds & s1 & Hd & -> & -> & Hn & -> & H1). cbn beta iota.
  destruct s1 as [|b s1]; [rewrite (pos_has_nil _ _ H1); exact I|].
  rdn H1. destruct (b =b qt) eqn:E; cbn [negb]; [|exact I]. apply eqb_eq in E as ->.
  pose proof (pos_cons _ _ _ _ H1) as H2.
  rewrite (pos_has_bytes _ _ _ _ H2).
  destruct ((0 <=? _) && _) eqn:E; cbn [negb]; [|exact I].
  apply andb_true_iff in E as [E1 E2]. apply Z.leb_le in E1, E2.
  assert (num ds + 2 <= max_int64) as Hn2.
  { destruct (Z_le_gt_dec (num ds + 2) max_int64) as [L|G]; [exact L|].
    unfold max_int64 in *. pose proof (wrap64_big (num ds + 2)). lia. }
  rewrite wrap64_id in E2 by (unfold min_int64, max_int64 in *; lia).
  destruct (split_at s1 (num ds)) as (str & r & -> & Hstr); [lia|].
  rewrite blen_app in E2.
  destruct r as [|q r]; [rewrite blen_nil in E2; lia|].
  destruct r as [|sc r]; [rewrite blen_cons, blen_nil in E2; lia|].
  pose proof (pos_app _ _ str _ _ H2 eq_refl) as H3. rewrite Hstr in H3.
  rdn H3. destruct (q =b qt) eqn:E; cbn [negb]; [|exact I]. apply eqb_eq in E as ->.
  pose proof (pos_cons _ _ _ _ H3) as H4. rdn H4.
  destruct (sc =b ";"%byte) eqn:E; cbn [negb]; [|exact I]. apply eqb_eq in E as ->.
  rewrite (pos_sub _ _ str (qt :: ";"%byte :: r)); [|exact H2|lia]. cbn [bind outcome].
  exists ds, r. repeat split; try apply Hd; auto. eapply pos_cons; exact H4.
Qed.

Lemma read_string_ok buf c ds str s : small buf ->
  pos buf c (":"%byte :: ds ++ ":"%byte :: qt :: str ++ qt :: ";"%byte :: s) ->
  numeral ds -> num ds = blen str ->
  exists c', read_string buf c = ROk (str, c') /\ pos buf c' s.
Proof.
  intros Hsm H Hd Hn. unfold read_string.
  assert (blen str + 2 < 2 ^ 62) as Hs.
  { unfold small in Hsm. apply pos_len in H as L. rewrite blen_cons, blen_app, !blen_cons, blen_app, !blen_cons in L.
    apply pos_nonneg in H. pose proof (blen_nonneg ds) as BL5. pose proof (blen_nonneg s) as BL6. lia. }
  assert (2 ^ 62 < max_int64) as HM by reflexivity.
  destruct (read_length_ok _ _ _ _ H Hd ltac:(lia)) as [-> H1]. cbn [bind].
  rdn H1. rewrite eqb_refl. cbn [negb]. pose proof (pos_cons _ _ _ _ H1) as H2.
  rewrite (pos_has_bytes _ _ _ _ H2).
  pose proof (blen_nonneg str) as BL7. pose proof (blen_nonneg s) as BL8.
  rewrite wrap64_id by (unfold min_int64; lia).
  replace (_ && _) with true.
  2:{ symmetry. rewrite andb_true_iff, !Z.leb_le, blen_app, !blen_cons. lia. }
  cbn [negb]. pose proof (pos_app _ _ str _ _ H2 eq_refl) as H3. rewrite Hn.
  rdn H3. rewrite eqb_refl. cbn [negb].
  pose proof (pos_cons _ _ _ _ H3) as H4. rdn H4. change (";"%byte =b ";"%byte) with true. cbn [negb].
  rewrite (pos_sub _ _ str (qt :: ";"%byte :: s)); [|exact H2|lia]. cbn [bind].
  eexists. split; [reflexivity|]. eapply pos_cons. exact H4.
Qed.

(** skipClassName: the cursor is on the closing quote *)
Lemma class_name_out buf c s : small buf -> pos buf c s ->
  outcome (skip_class_name buf c) (fun c' => exists cn cls s',
    numeral cn /\ num cn = blen cls /\
    s = "O"%byte :: ":"%byte :: cn ++ ":"%byte :: qt :: cls ++ qt :: ":"%byte :: s' /\
    pos buf (c' + 1) (":"%byte :: s')).
Proof.
  intros Hsm H. unfold skip_class_name.
  destruct s as [|b s]; [rewrite (pos_has_nil _ _ H); exact I|].
  rdn H. destruct (b =b "O"%byte) eqn:E; cbn [negb]; [|exact I]. apply eqb_eq in E as ->.
  pose proof (pos_cons _ _ _ _ H) as H0.
  eapply outcome_bind; [apply read_length_out; exact H0|].
  intros [n c1] (ds & s1 & Hd & -> & -> & Hn & -> & H1). cbn beta iota.
  destruct s1 as [|b s1]; [rewrite (pos_has_nil _ _ H1); exact I|].
  rdn H1. destruct (b =b qt) eqn:E; cbn [negb]; [|exact I]. apply eqb_eq in E as ->.
  pose proof (pos_cons _ _ _ _ H1) as H2.
  set (c2 := c + 1 + blen ds + 2) in *. cbn zeta.
  destruct (has_bytes buf (wrap64 (c2 + num ds + 1)) 2) eqn:E; cbn [negb]; [|exact I].
  unfold has_bytes in E. rewrite !andb_true_iff, !Z.leb_le in E. destruct E as [[E1 _] E2].
  apply pos_nonneg in H1 as Hc2. apply pos_len in H2 as L. unfold small in Hsm.
  pose proof (blen_nonneg s1) as BL9.
  assert (c2 + num ds + 1 <= max_int64) as Hn2.
  { destruct (Z_le_gt_dec (c2 + num ds + 1) max_int64) as [L'|G]; [exact L'|].
    unfold max_int64 in *. pose proof (wrap64_big (c2 + num ds + 1)). lia. }
  rewrite wrap64_id in * by (unfold min_int64, max_int64 in *; lia).
  destruct (split_at s1 (num ds)) as (str & r & -> & Hstr); [lia|].
  rewrite blen_app in L.
  destruct r as [|q r]; [rewrite blen_nil in L; lia|].
  destruct r as [|sc r]; [rewrite blen_cons, blen_nil in L; lia|].
  pose proof (pos_app _ _ str _ _ H2 eq_refl) as H3. rewrite Hstr in H3.
  replace (c2 + num ds + 1) with (c2 + 1 + num ds) by lia.
  rdn H3. destruct (q =b qt) eqn:E; cbn [negb]; [|exact I]. apply eqb_eq in E as ->.
  pose proof (pos_cons _ _ _ _ H3) as H4. rdn H4.
  destruct (sc =b ":"%byte) eqn:E; cbn [negb]; [|exact I]. apply eqb_eq in E as ->.
  cbn [outcome]. exists ds, str, r. repeat split; try apply Hd; auto.
Qed.
Lemma class_name_ok buf c cn cls s : small buf ->
  pos buf c ("O"%byte :: ":"%byte :: cn ++ ":"%byte :: qt :: cls ++ qt :: ":"%byte :: s) ->
  numeral cn -> num cn = blen cls ->
  exists c', skip_class_name buf c = ROk c' /\ pos buf (c' + 1) (":"%byte :: s).
Proof.
  intros Hsm H Hd Hn. unfold skip_class_name. rdn H. change ("O"%byte =b "O"%byte) with true. cbn [negb].
  pose proof (pos_cons _ _ _ _ H) as H0.
  pose proof (blen_nonneg cls) as BL10. pose proof (blen_nonneg s) as BL11. pose proof (blen_nonneg cn) as BL12.
  assert (c + blen cn + blen cls + 2 < 2 ^ 62) as Hs.
  { unfold small in Hsm. apply pos_len in H as L. rewrite !blen_cons, blen_app, !blen_cons, blen_app, !blen_cons in L. lia. }
  assert (2 ^ 62 + 4 < max_int64) as HM by reflexivity. apply pos_nonneg in H as Hc.
  destruct (read_length_ok _ _ _ _ H0 Hd ltac:(lia)) as [-> H1]. cbn [bind].
  rdn H1. rewrite eqb_refl. cbn [negb]. pose proof (pos_cons _ _ _ _ H1) as H2.
  set (c2 := c + 1 + blen cn + 2) in *. cbn zeta.
  rewrite wrap64_id by (unfold min_int64; lia).
  pose proof (pos_app _ _ cls _ _ H2 eq_refl) as H3.
  replace (c2 + num cn + 1) with (c2 + 1 + blen cls) by lia.
  rewrite (pos_has_bytes _ _ _ _ H3). rewrite !blen_cons.
  replace (_ && _) with true by (symmetry; rewrite andb_true_iff, !Z.leb_le; lia). cbn [negb].
  rdn H3. rewrite eqb_refl. cbn [negb]. pose proof (pos_cons _ _ _ _ H3) as H4. rdn H4.
  change (":"%byte =b ":"%byte) with true. cbn [negb]. eexists. split; [reflexivity|exact H4].
Qed.

(** validateNull *)
Lemma null_out buf c b s : pos buf c (b :: s) ->
  outcome (validate_null buf c) (fun _ => exists s', s = ";"%byte :: s' /\ pos buf (c + 2) s').
Proof.
  intros H. unfold validate_null. destruct (blen buf <=? c + 1) eqn:E; [exact I|]. apply Z.leb_gt in E.
  pose proof (pos_cons _ _ _ _ H) as H1. destruct s as [|x s].
  - apply pos_len in H1. rewrite blen_nil in H1. lia.
  - rdn H1. destruct (x =b ";"%byte) eqn:E1; cbn [negb outcome]; [|exact I]. apply eqb_eq in E1 as ->.
    exists s. split; [reflexivity|]. apply pos_cons in H1. replace (c + 2) with (c + 1 + 1) by lia. exact H1.
Qed.
Lemma null_ok buf c b s : pos buf c (b :: ";"%byte :: s) -> validate_null buf c = ROk tt /\ pos buf (c + 2) s.
Proof.
  intros H. unfold validate_null. pose proof (pos_cons _ _ _ _ H) as H1.
  pose proof (pos_len _ _ _ H1) as L. rewrite blen_cons in L. pose proof (blen_nonneg s) as BL13.
  replace (_ <=? _) with false by (symmetry; apply Z.leb_gt; lia).
  rdn H1. change (";"%byte =b ";"%byte) with true. cbn [negb]. split; [reflexivity|].
  apply pos_cons in H1. replace (c + 2) with (c + 1 + 1) by lia. exact H1.
Qed.

(** validateEmptyArray, on the '0' *)
Lemma empty_array_out buf c b s : pos buf c (b :: s) ->
  outcome (validate_empty_array buf c) (fun _ => exists s',
    s = ":"%byte :: "{"%byte :: "}"%byte :: s' /\ pos buf (c + 4) s').
Proof.
  intros H. unfold validate_empty_array. destruct (blen buf <? c + 4) eqn:E; [exact I|]. apply Z.ltb_ge in E.
  pose proof (pos_cons _ _ _ _ H) as H1. pose proof (pos_len _ _ _ H1) as L.
  destruct s as [|x s]; [rewrite blen_nil in L; lia|].
  destruct s as [|y s]; [rewrite blen_cons, blen_nil in L; lia|].
  destruct s as [|z s]; [rewrite !blen_cons, blen_nil in L; lia|].
  rdn H1. destruct (x =b ":"%byte) eqn:E1; cbn [negb outcome]; [|exact I]. apply eqb_eq in E1 as ->.
  pose proof (pos_cons _ _ _ _ H1) as H2. replace (c + 1 + 1) with (c + 2) in H2 by lia.
  rdn H2. destruct (y =b "{"%byte) eqn:E1; cbn [negb outcome]; [|exact I]. apply eqb_eq in E1 as ->.
  pose proof (pos_cons _ _ _ _ H2) as H3. replace (c + 2 + 1) with (c + 3) in H3 by lia.
  rdn H3. destruct (z =b "}"%byte) eqn:E1; cbn [negb outcome]; [|exact I]. apply eqb_eq in E1 as ->.
  pose proof (pos_cons _ _ _ _ H3) as H4. replace (c + 3 + 1) with (c + 4) in H4 by lia.
  exists s. split; [reflexivity|exact H4].
Qed.
Lemma empty_array_ok buf c b s : pos buf c (b :: ":"%byte :: "{"%byte :: "}"%byte :: s) ->
  validate_empty_array buf c = ROk tt /\ pos buf (c + 4) s.
Proof.
  intros H. unfold validate_empty_array.
  pose proof (pos_len _ _ _ H) as L. rewrite !blen_cons in L. pose proof (blen_nonneg s) as BL14.
  replace (_ <? _) with false by (symmetry; apply Z.ltb_ge; lia).
  pose proof (pos_cons _ _ _ _ H) as H1.
  pose proof (pos_cons _ _ _ _ H1) as H2. replace (c + 1 + 1) with (c + 2) in H2 by lia.
  pose proof (pos_cons _ _ _ _ H2) as H3. replace (c + 2 + 1) with (c + 3) in H3 by lia.
  pose proof (pos_cons _ _ _ _ H3) as H4. replace (c + 3 + 1) with (c + 4) in H4 by lia.
  rdn H1. change (":"%byte =b ":"%byte) with true. cbn [negb].
  rdn H2. change ("{"%byte =b "{"%byte) with true. cbn [negb].
  rdn H3. change ("}"%byte =b "}"%byte) with true. cbn [negb]. split; [reflexivity|exact H4].
Qed.

(** readIntegerBytes *)
Lemma integer_out buf c s : pos buf c s ->
  outcome (read_integer_bytes buf c) (fun '(t, c') => exists z s',
    int_text t z /\ s = "i"%byte :: ":"%byte :: t ++ ";"%byte :: s' /\ pos buf c' s').
Proof.
  intros H. unfold read_integer_bytes.
  destruct s as [|b s]; [rewrite (pos_has_nil _ _ H); exact I|].
  rdn H. destruct (b =b "i"%byte) eqn:E; cbn [negb]; [|exact I]. apply eqb_eq in E as ->.
  rewrite (pos_has_bytes _ _ _ _ H). destruct (_ && _) eqn:E; cbn [negb]; [|exact I].
  apply andb_true_iff in E as [_ E]. apply Z.leb_le in E.
  destruct s as [|x s]; [rewrite !blen_cons, blen_nil in E; lia|].
  destruct s as [|y s]; [rewrite !blen_cons, blen_nil in E; lia|]. clear E.
  pose proof (pos_cons _ _ _ _ H) as H1. rdn H1.
  destruct (x =b ":"%byte) eqn:E; cbn [negb]; [|exact I]. apply eqb_eq in E as ->.
  pose proof (pos_cons _ _ _ _ H1) as H2. replace (c + 1 + 1) with (c + 2) in H2 by lia.
  cbn zeta. rdn H2.
  assert (exists sg s2, y :: s = sg ++ s2 /\ (sg = [] /\ (y =b "-"%byte) = false \/ sg = ["-"%byte] /\ (y =b "-"%byte) = true)) as (sg & s2 & Es & Hsg).
  { destruct (y =b "-"%byte) eqn:E.
    - apply eqb_eq in E as ->. exists ["-"%byte], s. auto.
    - exists [], (y :: s). auto. }
  replace (if y =b "-"%byte then c + 2 + 1 else c + 2) with (c + 2 + blen sg)
    by (destruct Hsg as [[-> ->]|[-> ->]]; cbn; lia).
  rewrite Es in H2. pose proof (pos_app _ _ sg s2 _ H2 eq_refl) as H3.
  destruct (scan_while_ex is_digit _ _ _ H3) as (a & r & -> & Ha & Hr & ->). cbn [bind].
  destruct (_ =? _) eqn:E0; [exact I|]. apply Z.eqb_neq in E0.
  pose proof (pos_app _ _ a r _ H3 eq_refl) as H4.
  destruct r as [|w r]; [rewrite (pos_has_nil _ _ H4); exact I|].
  rdn H4. destruct (w =b ";"%byte) eqn:E; cbn [negb]; [|exact I]. apply eqb_eq in E as ->.
  rewrite (pos_sub _ _ (sg ++ a) (";"%byte :: r)).
  2:{ rewrite <- app_assoc. exact H2. }
  2:{ rewrite blen_app. lia. }
  cbn [bind outcome].
  assert (numeral a) as Hna by (split; [intros ->; apply E0; rewrite blen_nil; lia|exact Ha]).
  exists (match sg with [] => num a | _ => - num a end), r. repeat split.
  - destruct Hsg as [[-> _]|[-> _]]; cbn; constructor; exact Hna.
  - rewrite Es, <- app_assoc. reflexivity.
  - eapply pos_cons; exact H4.
Qed.
Lemma integer_ok buf c t z s : pos buf c ("i"%byte :: ":"%byte :: t ++ ";"%byte :: s) -> int_text t z ->
  exists c', read_integer_bytes buf c = ROk (t, c') /\ pos buf c' s.
Proof.
  intros H Ht. unfold read_integer_bytes. rdn H. change ("i"%byte =b "i"%byte) with true. cbn [negb].
  assert (exists sg ds, t = sg ++ ds /\ numeral ds /\ (sg = [] \/ sg = ["-"%byte])) as (sg & ds & -> & Hd & Hsg).
  { inversion Ht; subst; [exists [], t|exists ["-"%byte], ds]; auto. }
  pose proof (blen_nonneg ds) as BL15. pose proof (blen_nonneg sg) as BL16. pose proof (blen_nonneg s) as BL17.
  rewrite (pos_has_bytes _ _ _ _ H). rewrite !blen_cons, blen_app, blen_cons.
  rewrite blen_app. replace (_ && _) with true by (symmetry; rewrite andb_true_iff, !Z.leb_le; lia). cbn [negb].
  pose proof (pos_cons _ _ _ _ H) as H1. rdn H1. change (":"%byte =b ":"%byte) with true. cbn [negb].
  pose proof (pos_cons _ _ _ _ H1) as H2. replace (c + 1 + 1) with (c + 2) in H2 by lia.
  cbn zeta. rewrite <- app_assoc in H2.
  pose proof (pos_app _ _ sg _ _ H2 eq_refl) as H3.
  assert (exists y, rd buf (c + 2) = ROk y /\ (if y =b "-"%byte then c + 2 + 1 else c + 2) = c + 2 + blen sg) as (y & -> & Ey).
  { destruct Hsg as [-> | ->].
    - destruct ds as [|d ds]; [destruct Hd; congruence|]. exists d. split; [eapply pos_rd; exact H2|].
      replace (d =b "-"%byte) with false; [rewrite blen_nil; lia|]. symmetry. apply eqb_neq. intros ->.
      destruct Hd as [_ Hd]. cbn in Hd. discriminate.
    - exists "-"%byte. split; [eapply pos_rd; exact H2|]. reflexivity. }
  cbn [bind]. rewrite Ey.
  rewrite (scan_while_ok is_digit _ _ _ ds (";"%byte :: s) H3 (proj2 Hd) eq_refl).
  2:{ left. apply pos_len in H3. rewrite blen_app, blen_cons in H3.
      apply pos_nonneg in H2. unfold blen in *. lia. }
  cbn [bind]. replace (_ =? _) with false.
  2:{ symmetry. apply Z.eqb_neq. destruct ds; [destruct Hd; congruence|]. rewrite blen_cons. pose proof (blen_nonneg ds) as BL18. lia. }
  pose proof (pos_app _ _ ds _ _ H3 eq_refl) as H4. rdn H4. change (";"%byte =b ";"%byte) with true. cbn [negb].
  rewrite (pos_sub _ _ (sg ++ ds) (";"%byte :: s)).
  2:{ rewrite <- app_assoc. exact H2. }
  2:{ rewrite blen_app. lia. }
  cbn [bind]. eexists. split; [reflexivity|]. eapply pos_cons. exact H4.
Qed.

(** readFloatBytes *)
Definition nosemi (t : bytes) : Prop := t <> [] /\ ~ In ";"%byte t.
Lemma nosemi_forallb t : ~ In ";"%byte t <-> forallb (fun c => negb (c =b ";"%byte)) t = true.
Proof.
  rewrite forallb_forall. split.
  - intros H x Hx. destruct (x =b ";"%byte) eqn:E; [|reflexivity]. apply eqb_eq in E as ->. tauto.
  - intros H Hi. specialize (H _ Hi). discriminate.
Qed.
Lemma float_out buf c s : pos buf c s ->
  outcome (read_float_bytes buf c) (fun '(t, c') => exists s',
    nosemi t /\ s = "d"%byte :: ":"%byte :: t ++ ";"%byte :: s' /\ pos buf c' s').
Proof.
  intros H. unfold read_float_bytes.
  destruct s as [|b s]; [rewrite (pos_has_nil _ _ H); exact I|].
  rdn H. destruct (b =b "d"%byte) eqn:E; cbn [negb]; [|exact I]. apply eqb_eq in E as ->.
  rewrite (pos_has_bytes _ _ _ _ H). destruct (_ && _) eqn:E; cbn [negb]; [|exact I].
  apply andb_true_iff in E as [_ E]. apply Z.leb_le in E.
  destruct s as [|x s]; [rewrite !blen_cons, blen_nil in E; lia|]. clear E.
  pose proof (pos_cons _ _ _ _ H) as H1. rdn H1.
  destruct (x =b ":"%byte) eqn:E; cbn [negb]; [|exact I]. apply eqb_eq in E as ->.
  pose proof (pos_cons _ _ _ _ H1) as H2. replace (c + 1 + 1) with (c + 2) in H2 by lia.
  cbn zeta.
  destruct (scan_while_ex (fun c => negb (c =b ";"%byte)) _ _ _ H2) as (a & r & -> & Ha & Hr & ->). cbn [bind].
  destruct (_ =? _) eqn:E0; [exact I|]. apply Z.eqb_neq in E0.
  pose proof (pos_app _ _ a r _ H2 eq_refl) as H4.
  destruct r as [|w r]; [rewrite (pos_has_nil _ _ H4); exact I|].
  apply negb_false_iff, eqb_eq in Hr as ->. rdn H4.
  rewrite (pos_sub _ _ a (";"%byte :: r) _ H2 eq_refl). cbn [bind outcome].
  exists r. repeat split.
  - intros ->. apply E0. rewrite blen_nil; lia.
  - apply nosemi_forallb. exact Ha.
  - eapply pos_cons; exact H4.
Qed.
Lemma float_ok buf c t s : pos buf c ("d"%byte :: ":"%byte :: t ++ ";"%byte :: s) -> nosemi t ->
  exists c', read_float_bytes buf c = ROk (t, c') /\ pos buf c' s.
Proof.
  intros H [Hne Ht]. unfold read_float_bytes. rdn H. change ("d"%byte =b "d"%byte) with true. cbn [negb].
  pose proof (blen_nonneg t) as BL19. pose proof (blen_nonneg s) as BL20.
  rewrite (pos_has_bytes _ _ _ _ H). rewrite !blen_cons, blen_app, blen_cons.
  replace (_ && _) with true by (symmetry; rewrite andb_true_iff, !Z.leb_le; lia). cbn [negb].
  pose proof (pos_cons _ _ _ _ H) as H1. rdn H1. change (":"%byte =b ":"%byte) with true. cbn [negb].
  pose proof (pos_cons _ _ _ _ H1) as H2. replace (c + 1 + 1) with (c + 2) in H2 by lia.
  cbn zeta.
  rewrite (scan_while_ok _ _ _ _ t (";"%byte :: s) H2 (proj1 (nosemi_forallb t) Ht) eq_refl).
  2:{ left. apply pos_len in H2. unfold blen in H2. rewrite app_length in H2. cbn [length] in H2.
      apply pos_nonneg in H. lia. }
  cbn [bind]. replace (_ =? _) with false.
  2:{ symmetry. apply Z.eqb_neq. destruct t; [congruence|]. rewrite blen_cons. pose proof (blen_nonneg t) as BL21. lia. }
  pose proof (pos_app _ _ t _ _ H2 eq_refl) as H4. rdn H4.
  rewrite (pos_sub _ _ t _ _ H2 eq_refl).
  cbn [bind]. eexists. split; [reflexivity|]. eapply pos_cons. exact H4.
Qed.

(** readBool *)
Definition bool_byte (b : bool) : byte := if b then "1"%byte else "0"%byte.
Lemma bool_out buf c s : pos buf c s ->
  outcome (read_bool buf c) (fun v => exists s',
    s = "b"%byte :: ":"%byte :: bool_byte v :: ";"%byte :: s' /\ pos buf (c + 4) s').
Proof.
  intros H. unfold read_bool.
  rewrite (pos_has_bytes _ _ _ _ H). destruct (_ && _) eqn:E; cbn [negb]; [|exact I].
  apply andb_true_iff in E as [_ E]. apply Z.leb_le in E.
  destruct s as [|x s]; [rewrite blen_nil in E; lia|].
  destruct s as [|y s]; [rewrite !blen_cons, blen_nil in E; lia|].
  destruct s as [|z s]; [rewrite !blen_cons, blen_nil in E; lia|].
  destruct s as [|w s]; [rewrite !blen_cons, blen_nil in E; lia|]. clear E.
  pose proof (pos_cons _ _ _ _ H) as H1.
  pose proof (pos_cons _ _ _ _ H1) as H2. replace (c + 1 + 1) with (c + 2) in H2 by lia.
  pose proof (pos_cons _ _ _ _ H2) as H3. replace (c + 2 + 1) with (c + 3) in H3 by lia.
  pose proof (pos_cons _ _ _ _ H3) as H4. replace (c + 3 + 1) with (c + 4) in H4 by lia.
  rdn H. destruct (x =b "b"%byte) eqn:E; cbn [negb]; [|exact I]. apply eqb_eq in E as ->.
  rdn H1. destruct (y =b ":"%byte) eqn:E; cbn [negb]; [|exact I]. apply eqb_eq in E as ->.
  rdn H2.
  assert (forall v, z = bool_byte v -> outcome (c0 <- rd buf (c + 3);; (if negb (c0 =b ";"%byte) then RErr (ESyntax (c + 3) (WChar c0 "bool")) else ROk v))
    (fun v => exists s', "b"%byte :: ":"%byte :: z :: w :: s = "b"%byte :: ":"%byte :: bool_byte v :: ";"%byte :: s' /\ pos buf (c + 4) s')) as K.
  { intros v ->. rdn H3. destruct (w =b ";"%byte) eqn:E; cbn [negb outcome]; [|exact I]. apply eqb_eq in E as ->. eauto. }
  destruct (z =b "1"%byte) eqn:E; [apply eqb_eq in E as ->; apply (K true eq_refl)|].
  destruct (z =b "0"%byte) eqn:E'; [apply eqb_eq in E' as ->; apply (K false eq_refl)|exact I].
Qed.
Lemma bool_ok buf c v s : pos buf c ("b"%byte :: ":"%byte :: bool_byte v :: ";"%byte :: s) ->
  read_bool buf c = ROk v /\ pos buf (c + 4) s.
Proof.
  intros H. unfold read_bool. rewrite (pos_has_bytes _ _ _ _ H). rewrite !blen_cons. pose proof (blen_nonneg s) as BL22.
  replace (_ && _) with true by (symmetry; rewrite andb_true_iff, !Z.leb_le; lia). cbn [negb].
  pose proof (pos_cons _ _ _ _ H) as H1.
  pose proof (pos_cons _ _ _ _ H1) as H2. replace (c + 1 + 1) with (c + 2) in H2 by lia.
  pose proof (pos_cons _ _ _ _ H2) as H3. replace (c + 2 + 1) with (c + 3) in H3 by lia.
  pose proof (pos_cons _ _ _ _ H3) as H4. replace (c + 3 + 1) with (c + 4) in H4 by lia.
  rdn H. change ("b"%byte =b "b"%byte) with true. cbn [negb].
  rdn H1. change (":"%byte =b ":"%byte) with true. cbn [negb].
  rdn H2. destruct v; cbn [bool_byte].
  - change ("1"%byte =b "1"%byte) with true. cbn [bind]. rdn H3. split; [reflexivity|exact H4].
  - change ("0"%byte =b "1"%byte) with false. change ("0"%byte =b "0"%byte) with true. cbn [bind]. rdn H3. split; [reflexivity|exact H4].
Qed.

(** readInt *)
Lemma read_int_out buf c s : pos buf c s ->
  outcome (read_int buf c) (fun '(i, c') => exists t s',
    int_text t i /\ 0 <= i <= max_int64 /\ s = "i"%byte :: ":"%byte :: t ++ ";"%byte :: s' /\ pos buf c' s').
Proof.
  intros H. unfold read_int. eapply outcome_bind; [apply integer_out; exact H|].
  intros [t c'] (z & s' & Ht & -> & H'). cbn beta iota.
  destruct (parse_int64 t) as [v|] eqn:E; [|exact I].
  apply parse_int64_some in E as [Ht' R]. destruct (v <? 0) eqn:E0; [exact I|]. apply Z.ltb_ge in E0.
  cbn [outcome]. exists t, s'. repeat split; auto; lia.
Qed.
Lemma read_int_ok buf c t i s : pos buf c ("i"%byte :: ":"%byte :: t ++ ";"%byte :: s) ->
  int_text t i -> 0 <= i <= max_int64 ->
  exists c', read_int buf c = ROk (i, c') /\ pos buf c' s.
Proof.
  intros H Ht Hi. unfold read_int. destruct (integer_ok _ _ _ _ _ H Ht) as (c' & -> & H'). cbn [bind].
  rewrite (proj2 (parse_int64_iff t i)) by (split; [exact Ht|unfold min_int64; lia]).
  replace (i <? 0) with false by (symmetry; apply Z.ltb_ge; lia). eauto.
Qed.

(** Text of a value, in cons form. *)
Definition body (es : list (lval * lval)) : bytes :=
  flat_map (fun e => text (fst e) ++ text (snd e)) es.
Lemma text_null s : text LNull ++ s = "N"%byte :: ";"%byte :: s. Proof. reflexivity. Qed.
Lemma text_bool b s : text (LBool b) ++ s = "b"%byte :: ":"%byte :: bool_byte b :: ";"%byte :: s.
Proof. destruct b; reflexivity. Qed.
Lemma text_int t s : text (LInt t) ++ s = "i"%byte :: ":"%byte :: t ++ ";"%byte :: s.
Proof. cbn. rewrite <- app_assoc. reflexivity. Qed.
Lemma text_float t s : text (LFloat t) ++ s = "d"%byte :: ":"%byte :: t ++ ";"%byte :: s.
Proof. cbn. rewrite <- app_assoc. reflexivity. Qed.
Lemma text_str n t s : text (LStr n t) ++ s =
  "s"%byte :: ":"%byte :: n ++ ":"%byte :: qt :: t ++ qt :: ";"%byte :: s.
Proof. cbn. rewrite <- app_assoc. cbn. rewrite <- app_assoc. reflexivity. Qed.
Lemma text_arr n es s : text (LArr n es) ++ s =
  "a"%byte :: ":"%byte :: n ++ ":"%byte :: "{"%byte :: body es ++ "}"%byte :: s.
Proof. cbn. rewrite <- app_assoc. cbn. rewrite <- app_assoc. reflexivity. Qed.
Lemma text_obj cn cls n es s : text (LObj cn cls n es) ++ s =
  "O"%byte :: ":"%byte :: cn ++ ":"%byte :: qt :: cls ++ qt :: ":"%byte ::
  n ++ ":"%byte :: "{"%byte :: body es ++ "}"%byte :: s.
Proof. cbn. rewrite <- app_assoc. cbn. rewrite <- app_assoc. cbn. rewrite <- app_assoc. cbn. rewrite <- app_assoc. reflexivity. Qed.
Lemma body_cons k p es s : body ((k, p) :: es) ++ s = text k ++ text p ++ body es ++ s.
Proof. unfold body. cbn [flat_map fst snd]. rewrite <- !app_assoc. reflexivity. Qed.
Lemma body_nil s : body [] ++ s = s. Proof. reflexivity. Qed.

Definition letter (p : lval) : byte :=
  match p with
  | LNull => "N" | LBool _ => "b" | LInt _ => "i" | LFloat _ => "d" | LStr _ _ => "s"
  | LArr _ _ => "a" | LObj _ _ _ _ => "O"
  end%byte.
Lemma text_letter p : exists r, text p = letter p :: r.
Proof. destruct p as [|[]| | | | |]; eexists; reflexivity. Qed.
(** reflect.Value.Index within range *)
Lemma index_ok i n : 0 <= i < n -> bad_index i n = false.
Proof. intros H. unfold bad_index. apply orb_false_iff. split; [apply Z.ltb_ge|apply Z.leb_gt]; lia. Qed.
Lemma index_next i : 0 <= i <= max_int64 -> 0 <= wrap64 (i + 1) -> bad_index i (wrap64 (i + 1)) = false.
Proof.
  intros H W. destruct (Z.eq_dec i max_int64) as [->|Hne]; [exfalso; revert W; vm_compute; tauto|].
  rewrite wrap64_id by (unfold min_int64; lia). apply index_ok. lia.
Qed.
Lemma text_pos p : (1 <= length (text p))%nat.
Proof. destruct (text_letter p) as [r ->]. cbn; lia. Qed.
