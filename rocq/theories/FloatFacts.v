(** What becomes of a float32 that is written with strconv's text for it, read as a
    float64 and rounded again. *)
From Coq Require Import ZArith List Bool Lia Floats.SpecFloat.
From Verif Require Import Base GoTypes FloatText.
Import ListNotations.
Open Scope Z_scope.

(** ** SpecFloat's rounding *)

Lemma digits_bounds m : 2 ^ (Zpos (digits2_pos m) - 1) <= Zpos m < 2 ^ Zpos (digits2_pos m).
Proof.
  induction m as [p IH|p IH|]; cbn [digits2_pos]; [| |cbn; lia].
  all: rewrite Pos2Z.inj_succ; replace (Z.succ (Zpos (digits2_pos p)) - 1) with (Z.succ (Zpos (digits2_pos p) - 1)) by lia.
  all: rewrite !Z.pow_succ_r by lia; lia.
Qed.
Lemma digits_unique m k : 0 < k -> 2 ^ (k - 1) <= Zpos m < 2 ^ k -> Zpos (digits2_pos m) = k.
Proof.
  intros Hk [L U]. destruct (digits_bounds m) as [l u].
  assert (Zpos (digits2_pos m) - 1 < k) by (apply (Z.pow_lt_mono_r_iff 2); lia).
  assert (k - 1 < Zpos (digits2_pos m)) by (apply (Z.pow_lt_mono_r_iff 2); lia). lia.
Qed.

Lemma iter_pos_nat {A} (f : A -> A) p : forall x, iter_pos f p x = Nat.iter (Pos.to_nat p) f x.
Proof.
  assert (forall n m x, Nat.iter (n + m) f x = Nat.iter n f (Nat.iter m f x)) as Q.
  { induction n as [|n IH]; intros m x; [reflexivity|]. change (f (Nat.iter (n + m) f x) = f (Nat.iter n f (Nat.iter m f x))). rewrite IH. reflexivity. }
  induction p as [p IH|p IH|]; intros x; cbn [iter_pos].
  - rewrite !IH, <- Q. replace (Pos.to_nat p~1) with ((Pos.to_nat p + Pos.to_nat p) + 1)%nat by lia. rewrite (Q _ 1%nat). reflexivity.
  - rewrite !IH, <- Q. f_equal. lia.
  - reflexivity.
Qed.
Lemma shr_1_spec q r s : 0 <= q ->
  shr_1 {| shr_m := q; shr_r := r; shr_s := s |} = {| shr_m := q / 2; shr_r := Z.odd q; shr_s := r || s |}.
Proof.
  intros H. destruct q as [|p|p]; [reflexivity| |lia]. destruct p as [p|p|]; cbn [shr_1 Z.odd].
  - replace (Zpos p~1 / 2) with (Zpos p); [reflexivity|]. apply (Z.div_unique _ 2 _ 1); lia.
  - replace (Zpos p~0 / 2) with (Zpos p); [reflexivity|]. apply (Z.div_unique _ 2 _ 0); lia.
  - reflexivity.
Qed.
(** the bits shifted out: the first, and whether there is another one *)
Lemma shr_nat m n : 0 <= m ->
  Nat.iter (S n) shr_1 {| shr_m := m; shr_r := false; shr_s := false |} =
  {| shr_m := m / 2 ^ Z.of_nat (S n); shr_r := Z.odd (m / 2 ^ Z.of_nat n); shr_s := negb (m mod 2 ^ Z.of_nat n =? 0) |}.
Proof.
  intros H. induction n as [|n IH].
  - cbn [Nat.iter]. rewrite shr_1_spec by exact H. change (2 ^ Z.of_nat 1) with 2. change (2 ^ Z.of_nat 0) with 1.
    rewrite Z.div_1_r, Z.mod_1_r. reflexivity.
  - change (Nat.iter (S (S n)) shr_1 ?x) with (shr_1 (Nat.iter (S n) shr_1 x)). rewrite IH.
    rewrite shr_1_spec by (apply Z.div_pos; lia).
    assert (0 < 2 ^ Z.of_nat n) as P by lia.
    replace (2 ^ Z.of_nat (S (S n))) with (2 ^ Z.of_nat (S n) * 2) by (rewrite (Nat2Z.inj_succ (S n)), Z.pow_succ_r; lia).
    rewrite <- Z.div_div by lia. f_equal.
    replace (2 ^ Z.of_nat (S n)) with (2 ^ Z.of_nat n * 2) by (rewrite Nat2Z.inj_succ, Z.pow_succ_r; lia).
    rewrite Z.rem_mul_r by lia. rewrite Zmod_odd. pose proof (Z.mod_pos_bound m (2 ^ Z.of_nat n) P) as B.
    destruct (Z.odd (m / 2 ^ Z.of_nat n)); cbn [orb].
    + symmetry. apply negb_true_iff, Z.eqb_neq. lia.
    + rewrite Z.mul_0_r, Z.add_0_r. reflexivity.
Qed.

(** Half way or beyond: round up, to the even neighbour in the middle. *)
Definition rne (m n : Z) : Z :=
  let q := m / 2 ^ n in
  match 2 * (m mod 2 ^ n) ?= 2 ^ n with
  | Lt => q | Gt => q + 1 | Eq => if Z.even q then q else q + 1
  end.
Lemma shr_rounds m e n : 0 <= m -> 0 < n ->
  shr {| shr_m := m; shr_r := false; shr_s := false |} e n =
    (let r := {| shr_m := m / 2 ^ n; shr_r := Z.odd (m / 2 ^ (n - 1)); shr_s := negb (m mod 2 ^ (n - 1) =? 0) |} in (r, e + n)) /\
  round_nearest_even (m / 2 ^ n) (loc_of_shr_record {| shr_m := m / 2 ^ n; shr_r := Z.odd (m / 2 ^ (n - 1)); shr_s := negb (m mod 2 ^ (n - 1) =? 0) |}) = rne m n.
Proof.
  intros Hm Hn. destruct n as [|p|p]; try lia. split.
  - cbn [shr]. rewrite iter_pos_nat. destruct (Pos2Nat.is_succ p) as [k Hk]. rewrite Hk, shr_nat by exact Hm.
    replace (Z.of_nat k) with (Zpos p - 1) by lia. replace (Z.of_nat (S k)) with (Zpos p) by lia. reflexivity.
  - unfold rne. set (n := Zpos p) in *.
    assert (2 ^ n = 2 ^ (n - 1) * 2) as P by (replace n with (Z.succ (n - 1)) at 1 by lia; rewrite Z.pow_succ_r; lia).
    assert (0 < 2 ^ (n - 1)) as P0 by (apply Z.pow_pos_nonneg; lia).
    rewrite P at 2 3. rewrite Z.rem_mul_r by lia. rewrite Zmod_odd.
    pose proof (Z.mod_pos_bound m (2 ^ (n - 1)) P0) as B. rewrite <- P.
    destruct (m mod 2 ^ (n - 1) =? 0) eqn:Q; cbn [negb]; [apply Z.eqb_eq in Q; rewrite Q|apply Z.eqb_neq in Q];
      destruct (Z.odd (m / 2 ^ (n - 1))); cbn [loc_of_shr_record round_nearest_even].
    + replace (2 * (0 + 2 ^ (n - 1) * 1) ?= 2 ^ n) with Eq by (symmetry; apply Z.compare_eq_iff; lia). reflexivity.
    + replace (2 * (0 + 2 ^ (n - 1) * 0) ?= 2 ^ n) with Lt by (symmetry; apply Z.compare_lt_iff; lia). reflexivity.
    + replace (2 * (m mod 2 ^ (n - 1) + 2 ^ (n - 1) * 1) ?= 2 ^ n) with Gt by (symmetry; apply Z.compare_gt_iff; lia). reflexivity.
    + replace (2 * (m mod 2 ^ (n - 1) + 2 ^ (n - 1) * 0) ?= 2 ^ n) with Lt by (symmetry; apply Z.compare_lt_iff; lia). reflexivity.
Qed.

(** ** Rounding to float32 *)

Lemma fexp32 k : fexp 24 128 k = Z.max (k - 24) (-149).
Proof. reflexivity. Qed.
Lemma shift_pos_mul d m : Zpos (shift_pos d m) = Zpos m * 2 ^ Zpos d.
Proof. rewrite shift_pos_correct, Z.mul_comm. f_equal. Qed.

Lemma aux_no_shift sx mz E : Z.max (Zpos (digits2_pos mz) + E - 24) (-149) - E <= 0 -> E <= 104 ->
  binary_round_aux 24 128 sx (Zpos mz) E loc_Exact = S754_finite sx mz E.
Proof.
  intros H HE. unfold binary_round_aux, shr_fexp. rewrite fexp32. cbn [Zdigits2 shr_record_of_loc].
  assert (forall mrs, shr mrs E (Z.max (Zpos (digits2_pos mz) + E - 24) (-149) - E) = (mrs, E)) as S.
  { intros mrs. unfold shr. destruct (_ - E) eqn:Q; try reflexivity. lia. }
  rewrite S. cbn [shr_m loc_of_shr_record round_nearest_even]. rewrite fexp32. cbn [Zdigits2]. rewrite S. cbn [shr_m].
  change (128 - 24) with 104. replace (E <=? 104) with true by (symmetry; apply Z.leb_le; exact HE). reflexivity.
Qed.

Lemma round_exact sx m e E : Z.max (Zpos (digits2_pos m) + e - 24) (-149) = E -> E <= e -> E <= 104 ->
  exists mm, binary_round 24 128 sx m e = S754_finite sx mm E /\ Zpos mm = Zpos m * 2 ^ (e - E).
Proof.
  intros HE Hle H104. unfold binary_round. rewrite fexp32, HE. unfold shl_align. destruct (E - e) as [|d|d] eqn:Q; try lia.
  - exists m. replace e with E by lia. split; [apply aux_no_shift; lia|]. rewrite Z.sub_diag, Z.pow_0_r. lia.
  - exists (shift_pos d m). split; [|rewrite shift_pos_mul; replace (e - E) with (Zpos d) by lia; reflexivity].
    apply aux_no_shift; [|exact H104].
    rewrite (digits_unique (shift_pos d m) (Zpos (digits2_pos m) + Zpos d)); [lia|lia|].
    rewrite shift_pos_mul. destruct (digits_bounds m) as [l u].
    replace (Zpos (digits2_pos m) + Zpos d - 1) with ((Zpos (digits2_pos m) - 1) + Zpos d) by lia. rewrite !Z.pow_add_r by lia.
    assert (0 < 2 ^ Zpos d) by (apply Z.pow_pos_nonneg; lia). nia.
Qed.

Lemma round_shift sx m e E : Z.max (Zpos (digits2_pos m) + e - 24) (-149) = E -> e < E ->
  binary_round 24 128 sx m e =
  (let '(mrs, e2) := shr_fexp 24 128 (rne (Zpos m) (E - e)) E loc_Exact in
   match shr_m mrs with Z0 => S754_zero sx | Zpos m2 => if e2 <=? 104 then S754_finite sx m2 e2 else S754_infinity sx | _ => S754_nan end).
Proof.
  intros HE Hlt. unfold binary_round. rewrite fexp32, HE. unfold shl_align. destruct (E - e) as [|d|d] eqn:Q; try lia.
  unfold binary_round_aux. unfold shr_fexp at 1. rewrite fexp32. cbn [Zdigits2 shr_record_of_loc]. rewrite HE, Q.
  destruct (shr_rounds (Zpos m) e (Zpos d)) as [S1 S2]; [lia|lia|]. rewrite S1. cbv zeta. cbn [shr_m]. rewrite S2.
  replace (e + Zpos d) with E by lia. reflexivity.
Qed.
Lemma round_shift_small sx m e E M : Z.max (Zpos (digits2_pos m) + e - 24) (-149) = E -> e < E -> E <= 104 ->
  rne (Zpos m) (E - e) = Zpos M -> Zpos M < 2 ^ 24 -> (2 ^ 23 <= Zpos M \/ E = -149) ->
  binary_round 24 128 sx m e = S754_finite sx M E.
Proof.
  intros HE Hlt H104 HR HM HN. rewrite (round_shift sx m e E HE Hlt), HR. unfold shr_fexp. rewrite fexp32. cbn [Zdigits2 shr_record_of_loc].
  assert (Zpos (digits2_pos M) <= 24) as D.
  { destruct (digits_bounds M) as [l _]. enough (Zpos (digits2_pos M) - 1 < 24) by lia. apply (Z.pow_lt_mono_r_iff 2); lia. }
  unfold shr. destruct (_ - E) eqn:Q; try (exfalso; lia).
  all: cbn [shr_m]; replace (E <=? 104) with true by (symmetry; apply Z.leb_le; exact H104); reflexivity.
Qed.
Lemma round_shift_carry sx m e E : Z.max (Zpos (digits2_pos m) + e - 24) (-149) = E -> e < E -> E + 1 <= 104 ->
  rne (Zpos m) (E - e) = 2 ^ 24 -> binary_round 24 128 sx m e = S754_finite sx 8388608 (E + 1).
Proof.
  intros HE Hlt H104 HR. rewrite (round_shift sx m e E HE Hlt), HR. unfold shr_fexp. rewrite fexp32.
  replace (Z.max (Zdigits2 (2 ^ 24) + E - 24) (-149) - E) with 1 by (change (Zdigits2 (2 ^ 24)) with 25; lia).
  cbv [shr iter_pos shr_record_of_loc]. change (shr_1 {| shr_m := 2 ^ 24; shr_r := false; shr_s := false |}) with {| shr_m := 8388608; shr_r := false; shr_s := false |}.
  cbn [shr_m]. replace (E + 1 <=? 104) with true by (symmetry; apply Z.leb_le; exact H104). reflexivity.
Qed.
Lemma round_shift_zero sx m e E : Z.max (Zpos (digits2_pos m) + e - 24) (-149) = E -> e < E ->
  rne (Zpos m) (E - e) = 0 -> binary_round 24 128 sx m e = S754_zero sx.
Proof.
  intros HE Hlt HR. rewrite (round_shift sx m e E HE Hlt), HR. unfold shr_fexp. rewrite fexp32. cbn [Zdigits2 shr_record_of_loc].
  unfold shr. destruct (_ - E) eqn:Q; try reflexivity. lia.
Qed.

(** ** The float32 that a number between two of them is rounded to *)

Lemma bounded_gen prec emax M E : 0 < prec -> bounded prec emax M E = true ->
  Zpos M < 2 ^ prec /\ 3 - emax - prec <= E <= emax - prec /\ (2 ^ (prec - 1) <= Zpos M \/ E = 3 - emax - prec).
Proof.
  intros Hp H. unfold bounded in H. apply andb_true_iff in H as [H1 H2]. apply Zle_bool_imp_le in H2.
  unfold canonical_mantissa in H1. apply Zeq_bool_eq in H1. unfold fexp, emin in H1. destruct (digits_bounds M) as [l u].
  assert (Zpos (digits2_pos M) <= prec) as D by lia.
  pose proof (Z.pow_le_mono_r 2 _ _ ltac:(lia) D). split; [lia|]. split; [lia|].
  destruct (Z.eq_dec E (3 - emax - prec)) as [Q|Q]; [right; exact Q|left].
  replace (prec - 1) with (Zpos (digits2_pos M) - 1) by lia. exact l.
Qed.
Lemma bounded32 M E : bounded 24 128 M E = true ->
  Zpos M < 2 ^ 24 /\ -149 <= E <= 104 /\ (2 ^ 23 <= Zpos M \/ E = -149).
Proof. intros H. exact (bounded_gen 24 128 M E ltac:(lia) H). Qed.

Lemma pow2_pos x : 0 <= x -> 0 < 2 ^ x.
Proof. intros H. apply Z.pow_pos_nonneg; lia. Qed.
Lemma pow2_1 n : 0 < n -> 2 ^ n = 2 * 2 ^ (n - 1).
Proof. intros H. replace n with (Z.succ (n - 1)) at 1 by lia. apply Z.pow_succ_r. lia. Qed.

Lemma rne_near m n M : 0 < n -> (2 * M - 1) * 2 ^ (n - 1) < m < (2 * M + 1) * 2 ^ (n - 1) -> rne m n = M.
Proof.
  intros Hn H. unfold rne. rewrite (pow2_1 n Hn). pose proof (pow2_pos (n - 1) ltac:(lia)) as P. set (h := 2 ^ (n - 1)) in *.
  pose proof (Z.div_mod m (2 * h) ltac:(lia)) as Q. pose proof (Z.mod_pos_bound m (2 * h) ltac:(lia)) as B.
  set (q := m / (2 * h)) in *. set (r := m mod (2 * h)) in *.
  assert (q = M \/ q = M - 1) as [->| ->] by nia.
  - replace (2 * r ?= 2 * h) with Lt by (symmetry; apply Z.compare_lt_iff; nia). reflexivity.
  - replace (2 * r ?= 2 * h) with Gt by (symmetry; apply Z.compare_gt_iff; nia). lia.
Qed.
Lemma rne_half m n q : 0 < n -> m = (2 * q + 1) * 2 ^ (n - 1) -> rne m n = if Z.even q then q else q + 1.
Proof.
  intros Hn H. unfold rne. rewrite (pow2_1 n Hn). pose proof (pow2_pos (n - 1) ltac:(lia)) as P. set (h := 2 ^ (n - 1)) in *.
  rewrite <- (Z.div_unique m (2 * h) q h) by lia. rewrite <- (Z.mod_unique m (2 * h) q h) by lia. rewrite Z.compare_refl. reflexivity.
Qed.
Lemma rne_even m n M : 0 < n -> (2 * M - 1) * 2 ^ (n - 1) <= m <= (2 * M + 1) * 2 ^ (n - 1) -> Z.even M = true -> rne m n = M.
Proof.
  intros Hn H Ev. destruct (Z.eq_dec m ((2 * M + 1) * 2 ^ (n - 1))) as [Q|Q]; [rewrite (rne_half m n M Hn Q), Ev; reflexivity|].
  destruct (Z.eq_dec m ((2 * M - 1) * 2 ^ (n - 1))) as [Q'|Q']; [|apply rne_near; lia].
  rewrite (rne_half m n (M - 1) Hn); [|rewrite Q'; f_equal; lia]. rewrite Z.even_sub, Ev. cbn. lia.
Qed.

(** the numbers half way to the neighbours of M * 2^E *)
Definition above (M E : Z) : Z := (4 * M + 2) * 2 ^ (E + 1198).
Definition below (M E : Z) : Z :=
  (if (M =? 2 ^ 23) && (-149 <? E) then 4 * M - 1 else 4 * M - 2) * 2 ^ (E + 1198).
Lemma in_units_4 M E : -1198 <= E -> in_units M E = 4 * M * 2 ^ (E + 1198).
Proof.
  intros H. unfold in_units. replace (E + 1200) with (E + 1198 + 2) by lia. rewrite Z.pow_add_r by lia. change (2 ^ 2) with 4. ring.
Qed.
Lemma in_units_0 M E : in_units M E = M * 2 ^ (E + 1200). Proof. reflexivity. Qed.

Section Core.
  Context (M : positive) (E : Z) (m : positive) (e : Z) (sx : bool).
  Hypothesis HM : bounded 24 128 M E = true.
  Hypothesis He : -1074 <= e.
  Hypothesis Hlo : below (Zpos M) E <= in_units (Zpos m) e.
  Hypothesis Hhi : in_units (Zpos m) e <= above (Zpos M) E.

  Notation D := (Zpos (digits2_pos m)).
  Notation t := (2 ^ (E + 1198)).

  Lemma lo_ge : (4 * Zpos M - 2) * t <= in_units (Zpos m) e.
  Proof.
    destruct (bounded32 _ _ HM) as (_ & HE & _). pose proof (pow2_pos (E + 1198) ltac:(lia)) as P. unfold below in Hlo. destruct (_ && _); lia.
  Qed.
  Lemma size_lt : 2 ^ (D - 1 + e + 1200) <= in_units (Zpos m) e < 2 ^ (D + e + 1200).
  Proof.
    unfold in_units. replace (D - 1 + e + 1200) with ((D - 1) + (e + 1200)) by lia. replace (D + e + 1200) with (D + (e + 1200)) by lia.
    rewrite (Z.pow_add_r 2 (D - 1)), (Z.pow_add_r 2 D) by lia. pose proof (pow2_pos (e + 1200) ltac:(lia)). destruct (digits_bounds m).
    split; [apply Z.mul_le_mono_nonneg_r; lia|apply Z.mul_lt_mono_pos_r; lia].
  Qed.

  (** the exponent that is rounded to *)
  Lemma place : Z.max (D + e - 24) (-149) = E \/
    Zpos M = 2 ^ 23 /\ -149 < E /\ D + e = E + 23 /\ (2 ^ 25 - 1) * t <= in_units (Zpos m) e.
  Proof.
    destruct (bounded32 _ _ HM) as (M1 & HE & M2). pose proof size_lt as [S1 S2]. pose proof lo_ge as L.
    pose proof (pow2_pos (E + 1198) ltac:(lia)) as P.
    assert (D + e <= E + 24) as U.
    { enough (D - 1 + e + 1200 < E + 1198 + 26) by lia. apply (Z.pow_lt_mono_r_iff 2); [lia|lia|].
      eapply Z.le_lt_trans; [exact S1|]. eapply Z.le_lt_trans; [exact Hhi|]. unfold above. rewrite (Z.pow_add_r 2 (E + 1198) 26) by lia.
      rewrite Z.mul_comm. apply Z.mul_lt_mono_pos_l; lia. }
    destruct (Z.eq_dec E (-149)) as [->|HE']; [left; lia|]. destruct M2 as [M2|M2]; [|lia].
    destruct (Z.eq_dec (Zpos M) (2 ^ 23)) as [Q|Q].
    - assert ((2 ^ 25 - 1) * t <= in_units (Zpos m) e) as L'.
      { unfold below in Hlo. replace ((Zpos M =? 2 ^ 23) && (-149 <? E)) with true in Hlo; [rewrite Q in Hlo; lia|].
        symmetry. apply andb_true_iff. split; [apply Z.eqb_eq; exact Q|apply Z.ltb_lt; lia]. }
      assert (E + 1198 + 24 < D + e + 1200) as V.
      { apply (Z.pow_lt_mono_r_iff 2); [lia|lia|]. eapply Z.le_lt_trans; [|exact S2]. rewrite (Z.pow_add_r 2 (E + 1198) 24) by lia. lia. }
      destruct (Z.eq_dec (D + e) (E + 23)) as [W|W]; [right|left; lia]. split; [exact Q|]. split; [lia|]. split; [exact W|exact L'].
    - left. assert (E + 1198 + 25 < D + e + 1200) as V; [|lia].
      apply (Z.pow_lt_mono_r_iff 2); [lia|lia|]. eapply Z.le_lt_trans; [|exact S2]. rewrite (Z.pow_add_r 2 (E + 1198) 25) by lia.
      eapply Z.le_trans; [|exact L]. rewrite Z.mul_comm. apply Z.mul_le_mono_nonneg_r; [lia|]. change (2 ^ 25) with (4 * 2 ^ 23). lia.
  Qed.

  (** in units of half of the last bit of m * 2^e after shifting *)
  Lemma in_halves : e < E -> 2 * t = 2 ^ (E - e - 1) * 2 ^ (e + 1200).
  Proof. intros H. rewrite <- Z.pow_add_r by lia. replace (E - e - 1 + (e + 1200)) with (Z.succ (E + 1198)) by lia. rewrite Z.pow_succ_r by lia. reflexivity. Qed.

  Lemma core_eq : (below (Zpos M) E < in_units (Zpos m) e < above (Zpos M) E \/ Z.even (Zpos M) = true) ->
    binary_round 24 128 sx m e = S754_finite sx M E.
  Proof.
    intros Hc. destruct (bounded32 _ _ HM) as (M1 & HE & M2). pose proof lo_ge as L. pose proof (pow2_pos (E + 1198) ltac:(lia)) as P.
    pose proof (pow2_pos (e + 1200) ltac:(lia)) as Pv.
    destruct place as [Q|(Q1 & Q2 & Q3 & Q4)].
    - destruct (Z_lt_le_dec e E) as [W|W].
      + pose proof (in_halves W) as V. set (h := 2 ^ (E - e - 1)) in *. set (v := 2 ^ (e + 1200)) in *.
        pose proof Hhi as Hhi'. unfold above in Hhi'. rewrite in_units_0 in *. fold v in L, Hhi', Hc.
        assert ((2 * Zpos M - 1) * h <= Zpos m) by nia. assert (Zpos m <= (2 * Zpos M + 1) * h) by nia.
        apply (round_shift_small sx m e E M Q W); [lia| |exact M1|exact M2].
        destruct Hc as [Hc|Hc].
        * apply rne_near; [lia|]. fold h. unfold above in Hc. split; [|nia].
          destruct (Z.eq_dec (Zpos m) ((2 * Zpos M - 1) * h)) as [Z0|Z0]; [exfalso|lia].
          assert (below (Zpos M) E = (4 * Zpos M - 2) * t \/ (2 * Zpos M) * h <= Zpos m) as [B|B]; [|nia|nia].
          unfold below. destruct ((Zpos M =? 2 ^ 23) && (-149 <? E)) eqn:C; [right|left; reflexivity].
          apply andb_true_iff in C as [C1 C2]. apply Z.eqb_eq in C1. apply Z.ltb_lt in C2.
          destruct (digits_bounds m) as [dl _]. replace (D - 1) with (23 + (1 + (E - e - 1))) in dl by lia.
          rewrite !Z.pow_add_r in dl by lia. fold h in dl. rewrite C1. lia.
        * apply rne_even; [lia|fold h; lia|exact Hc].
      + destruct (round_exact sx m e E Q W ltac:(lia)) as (mm & R & Rm). rewrite R. f_equal.
        enough (Zpos mm = Zpos M) by congruence.
        assert (in_units (Zpos m) e = 4 * Zpos mm * t) as G.
        { rewrite Rm, in_units_0. replace (e + 1200) with ((e - E) + (2 + (E + 1198))) by lia. rewrite (Z.pow_add_r 2 (e - E)), (Z.pow_add_r 2 2) by lia. change (2 ^ 2) with 4. ring. }
        pose proof Hhi as Hhi'. unfold above in Hhi'. rewrite G in L, Hhi'. clear - P L Hhi'.
        apply Z.mul_le_mono_pos_r in L; [|exact P]. apply Z.mul_le_mono_pos_r in Hhi'; [|exact P]. lia.
    - pose proof size_lt as [_ S2]. rewrite Q3 in S2. replace (E + 23 + 1200) with (25 + (E + 1198)) in S2 by lia. rewrite Z.pow_add_r in S2 by lia.
      assert (Z.max (D + e - 24) (-149) = E - 1) as Q by lia.
      destruct (Z_lt_le_dec e (E - 1)) as [W|W].
      + rewrite (round_shift_carry sx m e (E - 1) Q W); [|lia|].
        * replace (E - 1 + 1) with E by lia. f_equal. change (2 ^ 23) with 8388608 in Q1. congruence.
        * assert (t = 2 ^ (E - 1 - e - 1) * 2 ^ (e + 1200)) as V by (rewrite <- Z.pow_add_r by lia; f_equal; lia).
          set (h := 2 ^ (E - 1 - e - 1)) in *. set (v := 2 ^ (e + 1200)) in *. rewrite in_units_0 in *. fold v in Q4, S2. rewrite V in Q4, S2.
          apply rne_even; [lia| |reflexivity]. fold h. change (2 ^ 25) with 33554432 in *. change (2 ^ 24) with 16777216. nia.
      + exfalso. assert (in_units (Zpos m) e = 2 * (Zpos m * 2 ^ (e - E + 1)) * t) as G.
        { rewrite in_units_0. replace (e + 1200) with ((e - E + 1) + (1 + (E + 1198))) by lia. rewrite (Z.pow_add_r 2 (e - E + 1)), (Z.pow_add_r 2 1) by lia. change (2 ^ 1) with 2. ring. }
        rewrite G in Q4, S2. apply Z.mul_le_mono_pos_r in Q4; [|exact P]. apply Z.mul_lt_mono_pos_r in S2; [|exact P]. change (2 ^ 25) with 33554432 in *. lia.
  Qed.

  (** on the way to a neighbour of an odd one, the neighbour is even *)
  Lemma core_neq : Z.even (Zpos M) = false -> in_units (Zpos m) e = below (Zpos M) E \/ in_units (Zpos m) e = above (Zpos M) E ->
    binary_round 24 128 sx m e <> S754_finite sx M E.
  Proof.
    intros Ho Ht R. destruct (bounded32 _ _ HM) as (M1 & HE & M2). pose proof (pow2_pos (E + 1198) ltac:(lia)) as P.
    pose proof (pow2_pos (e + 1200) ltac:(lia)) as Pv.
    destruct place as [Q|(Q1 & _)]; [|rewrite Q1 in Ho; discriminate].
    assert (below (Zpos M) E = (4 * Zpos M - 2) * t) as B.
    { unfold below. destruct ((Zpos M =? 2 ^ 23) && _) eqn:C; [|reflexivity]. apply andb_true_iff in C as [C _]. apply Z.eqb_eq in C. rewrite C in Ho. discriminate. }
    rewrite B in Ht. unfold above in Ht.
    destruct (Z_lt_le_dec e E) as [W|W].
    - pose proof (in_halves W) as V. set (h := 2 ^ (E - e - 1)) in *. set (v := 2 ^ (e + 1200)) in *. rewrite in_units_0 in Ht. fold v in Ht.
      assert (rne (Zpos m) (E - e) = Zpos M - 1 \/ rne (Zpos m) (E - e) = Zpos M + 1) as K.
      { destruct Ht as [Ht|Ht].
        - left. rewrite (rne_half _ (E - e) (Zpos M - 1)); [rewrite Z.even_sub, Ho; reflexivity|lia|]. fold h. nia.
        - right. rewrite (rne_half _ (E - e) (Zpos M)); [rewrite Ho; reflexivity|lia|]. fold h. nia. }
      rewrite (round_shift sx m e E Q W) in R. unfold shr_fexp in R. rewrite fexp32 in R. cbn [shr_record_of_loc] in R.
      set (k := rne (Zpos m) (E - e)) in *.
      assert (0 <= k <= 2 ^ 24) as Hk by lia.
      destruct (Z.eq_dec k (2 ^ 24)) as [Z24|Z24].
      + rewrite Z24 in R. replace (Z.max (Zdigits2 (2 ^ 24) + E - 24) (-149) - E) with 1 in R by (change (Zdigits2 (2 ^ 24)) with 25; lia).
        cbv [shr iter_pos] in R. change (shr_1 {| shr_m := 2 ^ 24; shr_r := false; shr_s := false |}) with {| shr_m := 8388608; shr_r := false; shr_s := false |} in R.
        cbn [shr_m] in R. destruct (_ <=? _); [|discriminate]. injection R as _ R. lia.
      + assert (Zdigits2 k <= 24) as DK.
        { destruct k as [|p|p]; [cbn; lia| |lia]. cbn [Zdigits2]. destruct (digits_bounds p) as [l _]. enough (Zpos (digits2_pos p) - 1 < 24) by lia. apply (Z.pow_lt_mono_r_iff 2); lia. }
        assert (shr {| shr_m := k; shr_r := false; shr_s := false |} E (Z.max (Zdigits2 k + E - 24) (-149) - E) = ({| shr_m := k; shr_r := false; shr_s := false |}, E)) as S.
        { unfold shr. destruct (_ - E) eqn:C; try reflexivity. lia. }
        rewrite S in R. cbn [shr_m] in R. destruct k as [|p|p]; try discriminate. destruct (_ <=? _); [|discriminate]. injection R as R. lia.
    - assert (in_units (Zpos m) e = 4 * (Zpos m * 2 ^ (e - E)) * t) as G.
      { rewrite in_units_0. replace (e + 1200) with ((e - E) + (2 + (E + 1198))) by lia. rewrite (Z.pow_add_r 2 (e - E)), (Z.pow_add_r 2 2) by lia. change (2 ^ 2) with 4. ring. }
      rewrite G in Ht. destruct Ht as [Ht|Ht]; apply Z.mul_cancel_r in Ht; lia.
  Qed.
End Core.

(** ** Neighbours *)
Lemma far_above b A F x : 0 < b -> F < x -> Z.abs (A - b * F) <= Z.abs (A - b * x) -> 2 * A <= b * (F + x).
Proof. intros Hb Hx H. assert (b * F < b * x) by (apply Z.mul_lt_mono_pos_l; lia). rewrite Z.mul_add_distr_l. lia. Qed.
Lemma far_below b A F x : 0 < b -> x < F -> Z.abs (A - b * F) <= Z.abs (A - b * x) -> b * (F + x) <= 2 * A.
Proof. intros Hb Hx H. assert (b * x < b * F) by (apply Z.mul_lt_mono_pos_l; lia). rewrite Z.mul_add_distr_l. lia. Qed.
Lemma rounds_far prec emax a b m e x : rounds_to prec emax a b m e -> representable prec emax x ->
  Z.abs (a * 2 ^ 1200 - b * in_units (Zpos m) e) <= Z.abs (a * 2 ^ 1200 - b * x).
Proof.
  intros (_ & _ & H) Hx. destruct (Z.eq_dec x (in_units (Zpos m) e)) as [->|Q]; [lia|]. specialize (H x Hx Q). lia.
Qed.

Section Next.
  Context (M : positive) (E : Z).
  Hypothesis HM : bounded 24 128 M E = true.
  Notation F := (in_units (Zpos M) E).
  Lemma next_up : Zpos M <> 2 ^ 24 - 1 \/ E <> 104 -> representable 24 128 (2 * above (Zpos M) E - F).
  Proof.
    intros H. destruct (bounded32 _ _ HM) as (M1 & HE & M2). unfold above. rewrite in_units_4 by lia.
    replace (2 * ((4 * Zpos M + 2) * 2 ^ (E + 1198)) - 4 * Zpos M * 2 ^ (E + 1198)) with (4 * (Zpos M + 1) * 2 ^ (E + 1198)) by ring.
    destruct (Z.eq_dec (Zpos M) (2 ^ 24 - 1)) as [Q|Q].
    - exists (2 ^ 23), (E + 1). split; [split; reflexivity || (vm_compute; discriminate)|]. split; [lia|]. rewrite Q. unfold in_units.
      replace (E + 1 + 1200) with (3 + (E + 1198)) by lia. rewrite (Z.pow_add_r 2 3) by lia. change (2 ^ 24) with (2 * 2 ^ 23). change (2 ^ 3) with 8. ring.
    - exists (Zpos M + 1), E. split; [lia|]. split; [lia|]. rewrite in_units_4 by lia. reflexivity.
  Qed.
  Lemma next_down : representable 24 128 (2 * below (Zpos M) E - F).
  Proof.
    destruct (bounded32 _ _ HM) as (M1 & HE & M2). unfold below. rewrite in_units_4 by lia.
    destruct ((Zpos M =? 2 ^ 23) && (-149 <? E)) eqn:C.
    - apply andb_true_iff in C as [C1 C2]. apply Z.eqb_eq in C1. apply Z.ltb_lt in C2.
      exists (2 ^ 24 - 1), (E - 1). split; [split; reflexivity || (vm_compute; discriminate)|]. split; [lia|]. rewrite C1. unfold in_units.
      replace (E - 1 + 1200) with (1 + (E + 1198)) by lia. rewrite (Z.pow_add_r 2 1) by lia. change (2 ^ 24) with (2 * 2 ^ 23). change (2 ^ 1) with 2. ring.
    - exists (Zpos M - 1), E. split; [lia|]. split; [lia|]. rewrite in_units_4 by lia. ring.
  Qed.
  Lemma around : below (Zpos M) E < F < above (Zpos M) E.
  Proof.
    destruct (bounded32 _ _ HM) as (M1 & HE & M2). pose proof (pow2_pos (E + 1198) ltac:(lia)) as P. unfold below, above. rewrite in_units_4 by lia.
    destruct (_ && _); lia.
  Qed.
  Lemma above_rep : representable 53 1024 (above (Zpos M) E).
  Proof.
    destruct (bounded32 _ _ HM) as (M1 & HE & M2). exists (4 * Zpos M + 2), (E - 2). change (2 ^ 53) with (536870912 * 2 ^ 24). split; [lia|]. split; [lia|].
    unfold above, in_units. do 2 f_equal. lia.
  Qed.
  Lemma below_rep : representable 53 1024 (below (Zpos M) E).
  Proof.
    destruct (bounded32 _ _ HM) as (M1 & HE & M2). unfold below. change (2 ^ 53) with (536870912 * 2 ^ 24).
    destruct (_ && _); [exists (4 * Zpos M - 1), (E - 2)|exists (4 * Zpos M - 2), (E - 2)]; change (2 ^ 53) with (536870912 * 2 ^ 24); (split; [lia|]); (split; [lia|]); unfold in_units; do 2 f_equal; lia.
  Qed.
  Lemma gap_up x : representable 24 128 x -> F < x -> above (Zpos M) E <= x - (above (Zpos M) E - F).
  Proof.
    intros (m1 & e1 & Hm & He & ->) Hx. destruct (bounded32 _ _ HM) as (M1 & HE & M2). pose proof (pow2_pos (E + 1198) ltac:(lia)) as P.
    unfold above. rewrite (in_units_4 (Zpos M)) in * by lia.
    destruct (Z_lt_le_dec e1 E) as [W|W].
    - exfalso. destruct M2 as [M2|M2]; [|lia]. unfold in_units in Hx. assert (2 ^ (e1 + 1200) <= 2 * 2 ^ (E + 1198)) as V.
      { replace (2 * 2 ^ (E + 1198)) with (2 ^ (1 + (E + 1198))) by (rewrite Z.pow_add_r by lia; reflexivity). apply Z.pow_le_mono_r; lia. }
      assert (4 * 2 ^ 23 * 2 ^ (E + 1198) <= 4 * Zpos M * 2 ^ (E + 1198)) by (apply Z.mul_le_mono_nonneg_r; lia).
      assert (m1 * 2 ^ (e1 + 1200) <= 2 ^ 24 * (2 * 2 ^ (E + 1198))) by (apply Z.mul_le_mono_nonneg; try lia; apply Z.lt_le_incl, pow2_pos; lia). lia.
    - assert (in_units m1 e1 = 4 * (m1 * 2 ^ (e1 - E)) * 2 ^ (E + 1198)) as G.
      { rewrite in_units_0. replace (e1 + 1200) with ((e1 - E) + (2 + (E + 1198))) by lia. rewrite (Z.pow_add_r 2 (e1 - E)), (Z.pow_add_r 2 2) by lia. change (2 ^ 2) with 4. ring. }
      rewrite G in *. apply Z.mul_lt_mono_pos_r in Hx; [|exact P]. assert (Zpos M + 1 <= m1 * 2 ^ (e1 - E)) as K by lia.
      assert (4 * (Zpos M + 1) * 2 ^ (E + 1198) <= 4 * (m1 * 2 ^ (e1 - E)) * 2 ^ (E + 1198)) by (apply Z.mul_le_mono_nonneg_r; lia). lia.
  Qed.
  Lemma gap_down x : Z.even (Zpos M) = false -> representable 24 128 x -> x < F -> x + (F - below (Zpos M) E) <= below (Zpos M) E.
  Proof.
    intros Ho (m1 & e1 & Hm & He & ->) Hx. destruct (bounded32 _ _ HM) as (M1 & HE & M2). pose proof (pow2_pos (E + 1198) ltac:(lia)) as P.
    assert (Zpos M <> 2 ^ 23) as HN by (intros Q; rewrite Q in Ho; discriminate).
    unfold below. replace (Zpos M =? 2 ^ 23) with false by (symmetry; apply Z.eqb_neq; exact HN). cbn [andb]. rewrite (in_units_4 (Zpos M)) in * by lia.
    destruct (Z_lt_le_dec e1 E) as [W|W].
    - destruct M2 as [M2|M2]; [|lia]. unfold in_units. assert (2 ^ (e1 + 1200) <= 2 * 2 ^ (E + 1198)) as V.
      { replace (2 * 2 ^ (E + 1198)) with (2 ^ (1 + (E + 1198))) by (rewrite Z.pow_add_r by lia; reflexivity). apply Z.pow_le_mono_r; lia. }
      assert (4 * (2 ^ 23 + 1) * 2 ^ (E + 1198) <= 4 * Zpos M * 2 ^ (E + 1198)) by (apply Z.mul_le_mono_nonneg_r; lia).
      assert (m1 * 2 ^ (e1 + 1200) <= 2 ^ 24 * (2 * 2 ^ (E + 1198))) by (apply Z.mul_le_mono_nonneg; try lia; apply Z.lt_le_incl, pow2_pos; lia). lia.
    - assert (in_units m1 e1 = 4 * (m1 * 2 ^ (e1 - E)) * 2 ^ (E + 1198)) as G.
      { rewrite in_units_0. replace (e1 + 1200) with ((e1 - E) + (2 + (E + 1198))) by lia. rewrite (Z.pow_add_r 2 (e1 - E)), (Z.pow_add_r 2 2) by lia. change (2 ^ 2) with 4. ring. }
      rewrite G in *. apply Z.mul_lt_mono_pos_r in Hx; [|exact P]. assert (m1 * 2 ^ (e1 - E) <= Zpos M - 1) as K by lia.
      assert (4 * (m1 * 2 ^ (e1 - E)) * 2 ^ (E + 1198) <= 4 * (Zpos M - 1) * 2 ^ (E + 1198)) by (apply Z.mul_le_mono_nonneg_r; lia). lia.
  Qed.

  (** what rounds to M * 2^E lies between the halves *)
  Lemma interval a b : 0 < b -> rounds_to 24 128 a b M E ->
    b * below (Zpos M) E <= a * 2 ^ 1200 <= b * above (Zpos M) E.
  Proof.
    intros Hb R. destruct around as [Ad Au]. split.
    - pose proof (far_below b (a * 2 ^ 1200) F (2 * below (Zpos M) E - F) Hb ltac:(lia) (rounds_far _ _ _ _ _ _ _ R next_down)) as H.
      replace (b * (F + (2 * below (Zpos M) E - F))) with (2 * (b * below (Zpos M) E)) in H by ring. lia.
    - assert ((Zpos M <> 2 ^ 24 - 1 \/ E <> 104) \/ Zpos M = 2 ^ 24 - 1 /\ E = 104) as [K|[K1 K2]] by lia.
      + pose proof (far_above b (a * 2 ^ 1200) F (2 * above (Zpos M) E - F) Hb ltac:(lia) (rounds_far _ _ _ _ _ _ _ R (next_up K))) as H.
        replace (b * (F + (2 * above (Zpos M) E - F))) with (2 * (b * above (Zpos M) E)) in H by ring. lia.
      + destruct R as (_ & R & _). replace (in_units (2 ^ (24 + 1) - 1) (128 - 24)) with (2 * above (Zpos M) E) in R; [lia|].
        rewrite K1, K2. unfold above, in_units. change (128 - 24 + 1200) with (2 + (104 + 1198)). rewrite (Z.pow_add_r 2 2) by lia. change (2 ^ 2) with 4. change (2 ^ (24 + 1)) with (2 * 2 ^ 24). ring.
  Qed.
End Next.

Lemma between M E m e a b : 0 < b -> rounds_to 24 128 a b M E -> rounds_to 53 1024 a b m e ->
  below (Zpos M) E <= in_units (Zpos m) e <= above (Zpos M) E.
Proof.
  intros Hb R R'. assert (bounded 24 128 M E = true) as HM by apply R. destruct (interval M E HM a b Hb R) as [I1 I2].
  set (G := in_units (Zpos m) e). split.
  - pose proof (rounds_far _ _ _ _ _ _ _ R' (below_rep M E HM)) as H. fold G in H. apply Z.nlt_ge. intros L.
    assert (b * G < b * below (Zpos M) E) by (apply Z.mul_lt_mono_pos_l; lia). lia.
  - pose proof (rounds_far _ _ _ _ _ _ _ R' (above_rep M E HM)) as H. fold G in H. apply Z.nlt_ge. intros L.
    assert (b * above (Zpos M) E < b * G) by (apply Z.mul_lt_mono_pos_l; lia). lia.
Qed.

Lemma normalize_round (s : bool) m e : binary_normalize 24 128 (if s then Z.neg m else Z.pos m) e s = binary_round 24 128 s m e.
Proof. destruct s; reflexivity. Qed.

Theorem twice_rounded s M E m e a b : 0 < b -> rounds_to 24 128 a b M E -> rounds_to 53 1024 a b m e -> ~ too_large m e ->
  f32_of_f64 (S754_finite s m e) = S754_finite s M E <-> (Z.even (Zpos M) = true \/ ~ midway M E m e).
Proof.
  intros Hb R R' NL. assert (bounded 24 128 M E = true) as HM by apply R. destruct (between M E m e a b Hb R R') as [B1 B2].
  assert (-1074 <= e) as He by (destruct R' as (K & _); apply (bounded_gen 53 1024) in K; lia).
  unfold f32_of_f64. rewrite normalize_round. destruct (around M E HM) as [Ad Au]. split.
  - intros Q. destruct (Z.even (Zpos M)) eqn:Ev; [left; reflexivity|right]. intros (x & Hx & Nx & Mx).
    apply (core_neq M E m e s HM He B1 B2 Ev); [|exact Q]. destruct (Z_lt_le_dec x (in_units (Zpos M) E)) as [L|L].
    + left. pose proof (gap_down M E HM x Ev Hx L). lia.
    + right. pose proof (gap_up M E HM x Hx ltac:(lia)). lia.
  - intros Q. apply (core_eq M E m e s HM He B1 B2). destruct Q as [Q|Q]; [right; exact Q|left].
    assert (in_units (Zpos m) e <> below (Zpos M) E) as N1.
    { intros K. apply Q. exists (2 * below (Zpos M) E - in_units (Zpos M) E). split; [apply next_down; exact HM|]. lia. }
    assert (in_units (Zpos m) e <> above (Zpos M) E) as N2; [|lia].
    intros K. assert ((Zpos M <> 2 ^ 24 - 1 \/ E <> 104) \/ Zpos M = 2 ^ 24 - 1 /\ E = 104) as [K'|[K1 K2]] by lia.
    + apply Q. exists (2 * above (Zpos M) E - in_units (Zpos M) E). split; [apply next_up; assumption|]. lia.
    + apply NL. unfold too_large. rewrite <- K1, <- K2. lia.
Qed.

(** The check for overflow is the comparison with the largest float32. *)
Lemma max_in_units : in_units (2 ^ 24 - 1) 104 = 9007198717870080 * 2 ^ 1275.
Proof. vm_compute. reflexivity. Qed.
Lemma in_units_75 m : in_units m 75 = m * 2 ^ 1275.
Proof. reflexivity. Qed.
Lemma in_units_more m e : 75 < e -> 0 <= m -> in_units m e >= 2 * m * 2 ^ 1275.
Proof.
  intros He Hm. unfold in_units. replace (e + 1200) with ((e - 75) + 1275) by lia. rewrite (Z.pow_add_r 2 (e - 75)) by lia.
  assert (2 ^ 1 <= 2 ^ (e - 75)) as V by (apply Z.pow_le_mono_r; lia). change (2 ^ 1) with 2 in V.
  pose proof (pow2_pos 1275 ltac:(lia)) as P. generalize dependent (2 ^ 1275). intros P1 P. generalize dependent (2 ^ (e - 75)). intros P2 V.
  apply Z.le_ge. rewrite Z.mul_assoc, (Z.mul_comm 2). apply Z.mul_le_mono_nonneg_r; [lia|]. apply Z.mul_le_mono_nonneg_l; lia.
Qed.
Lemma in_units_less m e : -1200 <= e < 75 -> 0 <= m -> 2 * in_units m e <= m * 2 ^ 1275.
Proof.
  intros He Hm. unfold in_units. replace 1275 with ((75 - e) + (e + 1200)) by lia. rewrite (Z.pow_add_r 2 (75 - e)) by lia.
  assert (2 ^ 1 <= 2 ^ (75 - e)) as V by (apply Z.pow_le_mono_r; lia). change (2 ^ 1) with 2 in V.
  pose proof (pow2_pos (e + 1200) ltac:(lia)) as P. generalize dependent (2 ^ (e + 1200)). intros P1 P. generalize dependent (2 ^ (75 - e)). intros P2 V.
  replace (2 * (m * P1)) with (m * P1 * 2) by ring. replace (m * (P2 * P1)) with (m * P1 * P2) by ring. apply Z.mul_le_mono_nonneg_l; [apply Z.mul_nonneg_nonneg; lia|exact V].
Qed.
Lemma units_75 : exists P, 0 < P /\ (forall m e, too_large m e <-> 9007198717870080 * P < in_units (Zpos m) e) /\
  (forall m, in_units (Zpos m) 75 = Zpos m * P) /\
  (forall m e, 75 < e -> 2 * Zpos m * P <= in_units (Zpos m) e) /\
  (forall m e, -1200 <= e < 75 -> 2 * in_units (Zpos m) e <= Zpos m * P).
Proof.
  exists (2 ^ 1275). split; [apply pow2_pos; lia|]. split; [intros m e; rewrite <- max_in_units; apply iff_refl|]. split; [intros m; apply in_units_75|]. split.
  - intros m e H. apply Z.ge_le, in_units_more; [exact H|apply Pos2Z.is_nonneg].
  - intros m e H. apply in_units_less; [exact H|apply Pos2Z.is_nonneg].
Qed.
Lemma sf_ltb m e m' e' : SFltb (S754_finite false m e) (S754_finite false m' e') = true <-> e < e' \/ e = e' /\ Zpos m < Zpos m'.
Proof.
  unfold SFltb, SFcompare. destruct (Z.compare_spec e e') as [Q|Q|Q].
  - pose proof (Pos.compare_spec m m') as C. unfold Pos.compare in C.
    destruct (Pos.compare_cont Eq m m'); inversion C; split; intros K; try reflexivity; try discriminate K; lia.
  - split; [left; exact Q|reflexivity].
  - split; [discriminate|lia].
Qed.
Lemma sf_leb m e m' e' : SFleb (S754_finite false m e) (S754_finite false m' e') = true <-> e < e' \/ e = e' /\ Zpos m <= Zpos m'.
Proof.
  unfold SFleb, SFcompare. destruct (Z.compare_spec e e') as [Q|Q|Q].
  - pose proof (Pos.compare_spec m m') as C. unfold Pos.compare in C.
    destruct (Pos.compare_cont Eq m m'); inversion C; split; intros K; try reflexivity; try discriminate K; lia.
  - split; [left; exact Q|reflexivity].
  - split; [discriminate|lia].
Qed.
Lemma overflow_large s m e : bounded 53 1024 m e = true -> (overflow_f32 (S754_finite s m e) = true <-> too_large m e).
Proof.
  intros H. destruct (bounded_gen 53 1024 m e ltac:(lia) H) as (M1 & HE & M2). change (2 ^ (53 - 1)) with 4503599627370496 in M2. change (2 ^ 53) with 9007199254740992 in M1.
  destruct units_75 as (P & HP & U1 & U2 & U3 & U4). rewrite U1. clear U1. unfold overflow_f32, max_f32, max_f64. cbv zeta. cbn [SFabs].
  rewrite andb_true_iff, sf_ltb, sf_leb. specialize (U2 m). specialize (U3 m e). specialize (U4 m e).
  destruct (Z.lt_trichotomy e 75) as [Q|[Q|Q]].
  - specialize (U4 ltac:(lia)). split; [lia|]. intros K. exfalso. assert (Zpos m * P <= 9007199254740992 * P) by (apply Z.mul_le_mono_nonneg_r; lia). lia.
  - subst e. rewrite U2, <- (Z.mul_lt_mono_pos_r P) by exact HP. lia.
  - specialize (U3 Q). split; [intros _|lia]. assert (4503599627370496 * P <= Zpos m * P) by (apply Z.mul_le_mono_nonneg_r; lia). lia.
Qed.

(** ** What lies within half a unit of a float rounds to it *)
Lemma gap prec emax m e x : 0 < prec -> prec + emax < 1200 -> bounded prec emax m e = true -> Zpos m <> 2 ^ (prec - 1) ->
  representable prec emax x -> x <> in_units (Zpos m) e -> 2 ^ (e + 1200) <= Z.abs (x - in_units (Zpos m) e).
Proof.
  intros Hp Hr H N (m1 & e1 & H1 & H2 & ->) Hx. destruct (bounded_gen prec emax m e Hp H) as (M1 & HE & M2). unfold in_units in *.
  pose proof (pow2_pos (e + 1200) ltac:(lia)) as P.
  destruct (Z_lt_le_dec e1 e) as [W|W].
  - destruct M2 as [M2|M2]; [|lia]. assert (2 * 2 ^ (e1 + 1200) <= 2 ^ (e + 1200)) as V by (rewrite <- Z.pow_succ_r by lia; apply Z.pow_le_mono_r; lia).
    pose proof (pow2_pos (e1 + 1200) ltac:(lia)) as P1. rewrite (pow2_1 prec Hp) in H1.
    assert (m1 * 2 ^ (e1 + 1200) <= 2 * 2 ^ (prec - 1) * 2 ^ (e1 + 1200)) as A1 by (apply Z.mul_le_mono_nonneg_r; lia).
    assert (2 ^ (prec - 1) * (2 * 2 ^ (e1 + 1200)) <= 2 ^ (prec - 1) * 2 ^ (e + 1200)) as A2 by (apply Z.mul_le_mono_nonneg_l; lia).
    assert ((2 ^ (prec - 1) + 1) * 2 ^ (e + 1200) <= Zpos m * 2 ^ (e + 1200)) as A3 by (apply Z.mul_le_mono_nonneg_r; lia). lia.
  - assert (m1 * 2 ^ (e1 + 1200) = m1 * 2 ^ (e1 - e) * 2 ^ (e + 1200)) as G by (rewrite <- Z.mul_assoc, <- Z.pow_add_r by lia; do 2 f_equal; lia).
    rewrite G in *. rewrite <- Z.mul_sub_distr_r, Z.abs_mul, (Z.abs_eq (2 ^ _)) by lia.
    assert (m1 * 2 ^ (e1 - e) <> Zpos m) as K by (intros Q; apply Hx; rewrite Q; reflexivity).
    rewrite <- (Z.mul_1_l (2 ^ (e + 1200))) at 1. apply Z.mul_le_mono_nonneg_r; lia.
Qed.
Lemma rounds_near prec emax a b m e : 0 < prec -> prec + emax < 1200 -> 0 < b -> bounded prec emax m e = true -> Zpos m <> 2 ^ (prec - 1) ->
  2 * (a * 2 ^ 1200) < b * in_units (2 ^ (prec + 1) - 1) (emax - prec) ->
  2 * Z.abs (a * 2 ^ 1200 - b * in_units (Zpos m) e) < b * 2 ^ (e + 1200) -> rounds_to prec emax a b m e.
Proof.
  intros Hp Hr Hb H N U D. split; [exact H|]. split; [exact U|]. intros x Hx Nx. left.
  pose proof (gap prec emax m e x Hp Hr H N Hx Nx) as G.
  assert (b * 2 ^ (e + 1200) <= b * Z.abs (x - in_units (Zpos m) e)) as K by (apply Z.mul_le_mono_nonneg_l; lia).
  replace (b * Z.abs (x - in_units (Zpos m) e)) with (Z.abs (b * x - b * in_units (Zpos m) e)) in K; [lia|].
  rewrite <- Z.mul_sub_distr_l, Z.abs_mul, (Z.abs_eq b) by lia. reflexivity.
Qed.

Lemma denotes_pos t s a b : denotes t s a b -> 0 < b.
Proof. intros [s' ip fp et k a' b' _ _ _ _ ->]. apply Z.pow_pos_nonneg; lia. Qed.

(** ** A number rounds to one float only *)
Lemma canonical_unique p lo m1 e1 m2 e2 : 0 < p -> -1200 <= lo -> lo <= e1 -> lo <= e2 -> 0 <= m1 < 2 ^ p -> 0 <= m2 < 2 ^ p ->
  (2 ^ (p - 1) <= m1 \/ e1 = lo) -> (2 ^ (p - 1) <= m2 \/ e2 = lo) -> in_units m1 e1 = in_units m2 e2 -> m1 = m2 /\ e1 = e2.
Proof.
  intros Hp Hlo. revert m1 e1 m2 e2.
  assert (forall m1 e1 m2 e2, lo <= e1 -> 0 <= m1 < 2 ^ p -> (2 ^ (p - 1) <= m2 \/ e2 = lo) -> e1 < e2 -> in_units m1 e1 = in_units m2 e2 -> False) as W.
  { intros m1 e1 m2 e2 H1 H2 [H3|H3] Hlt Q; [|lia]. unfold in_units in Q. replace (e2 + 1200) with ((e2 - e1) + (e1 + 1200)) in Q by lia.
    rewrite (Z.pow_add_r 2 (e2 - e1)), Z.mul_assoc in Q by lia. apply Z.mul_cancel_r in Q; [|pose proof (pow2_pos (e1 + 1200)); lia].
    assert (2 ^ 1 <= 2 ^ (e2 - e1)) as V by (apply Z.pow_le_mono_r; lia). change (2 ^ 1) with 2 in V. rewrite (pow2_1 p Hp) in H2. pose proof (pow2_pos (p - 1) ltac:(lia)).
    assert (2 ^ (p - 1) * 2 <= m2 * 2 ^ (e2 - e1)) by (apply Z.mul_le_mono_nonneg; lia). lia. }
  intros m1 e1 m2 e2 H1 H2 H3 H4 H5 H6 Q. destruct (Z.lt_trichotomy e1 e2) as [L|[L|L]].
  - exfalso. exact (W m1 e1 m2 e2 H1 H3 H6 L Q).
  - subst e2. split; [|reflexivity]. unfold in_units in Q. apply Z.mul_cancel_r in Q; [exact Q|]. pose proof (pow2_pos (e1 + 1200)). lia.
  - exfalso. exact (W m2 e2 m1 e1 H2 H4 H5 L (eq_sym Q)).
Qed.
Lemma gap_up' prec emax m e x : 0 < prec -> prec + emax < 1200 -> bounded prec emax m e = true ->
  representable prec emax x -> in_units (Zpos m) e < x -> in_units (Zpos m + 1) e <= x.
Proof.
  intros Hp Hr H (m1 & e1 & H1 & H2 & ->) Hx. destruct (bounded_gen prec emax m e Hp H) as (M1 & HE & M2). unfold in_units in *.
  pose proof (pow2_pos (e + 1200) ltac:(lia)) as P.
  destruct (Z_lt_le_dec e1 e) as [W|W].
  - exfalso. destruct M2 as [M2|M2]; [|lia]. assert (2 * 2 ^ (e1 + 1200) <= 2 ^ (e + 1200)) as V by (rewrite <- Z.pow_succ_r by lia; apply Z.pow_le_mono_r; lia).
    pose proof (pow2_pos (e1 + 1200) ltac:(lia)) as P1. rewrite (pow2_1 prec Hp) in H1.
    assert (m1 * 2 ^ (e1 + 1200) <= 2 * 2 ^ (prec - 1) * 2 ^ (e1 + 1200)) as A1 by (apply Z.mul_le_mono_nonneg_r; lia).
    assert (2 ^ (prec - 1) * (2 * 2 ^ (e1 + 1200)) <= 2 ^ (prec - 1) * 2 ^ (e + 1200)) as A2 by (apply Z.mul_le_mono_nonneg_l; lia).
    assert (2 ^ (prec - 1) * 2 ^ (e + 1200) <= Zpos m * 2 ^ (e + 1200)) as A3 by (apply Z.mul_le_mono_nonneg_r; lia). lia.
  - assert (m1 * 2 ^ (e1 + 1200) = m1 * 2 ^ (e1 - e) * 2 ^ (e + 1200)) as G by (rewrite <- Z.mul_assoc, <- Z.pow_add_r by lia; do 2 f_equal; lia).
    rewrite G in *. apply Z.mul_lt_mono_pos_r in Hx; [|exact P]. apply Z.mul_le_mono_nonneg_r; lia.
Qed.
Lemma bounded_rep prec emax m e : 0 < prec -> bounded prec emax m e = true -> representable prec emax (in_units (Zpos m) e).
Proof. intros Hp H. destruct (bounded_gen prec emax m e Hp H) as (M1 & HE & _). exists (Zpos m), e. split; [lia|]. split; [lia|reflexivity]. Qed.

Lemma rounds_order prec emax a b m1 e1 m2 e2 : 1 < prec -> prec + emax < 1200 -> 0 < b ->
  rounds_to prec emax a b m1 e1 -> rounds_to prec emax a b m2 e2 -> in_units (Zpos m1) e1 < in_units (Zpos m2) e2 -> False.
Proof.
  intros Hp Hr Hb R1 R2 L. pose proof (proj1 R1) as B1. pose proof (proj1 R2) as B2.
  destruct R1 as (_ & _ & R1). destruct R2 as (_ & _ & R2).
  assert (0 < prec) as Hp0 by lia. pose proof (bounded_rep _ _ _ _ Hp0 B1) as P1. pose proof (bounded_rep _ _ _ _ Hp0 B2) as P2.
  pose proof (R1 _ P2 ltac:(lia)) as C1. pose proof (R2 _ P1 ltac:(lia)) as C2.
  destruct C1 as [C1|[C Ev1]]; [exfalso; destruct C2 as [C2|[C2 _]]; [exact (Z.lt_asymm _ _ C1 C2)|rewrite C2 in C1; exact (Z.lt_irrefl _ C1)]|].
  destruct C2 as [C2|[_ Ev2]]; [exfalso; rewrite C in C2; exact (Z.lt_irrefl _ C2)|].
  destruct (bounded_gen prec emax m1 e1 ltac:(lia) B1) as (M1 & HE1 & N1). destruct (bounded_gen prec emax m2 e2 ltac:(lia) B2) as (M2 & HE2 & N2).
  assert (Zpos m1 + 1 < 2 ^ prec) as M1'.
  { enough (Zpos m1 + 1 <> 2 ^ prec) by lia. intros Q. apply (f_equal Z.even) in Q. rewrite Z.even_add, Ev1, (pow2_1 prec), Z.even_mul in Q by lia. discriminate. }
  assert (representable prec emax (in_units (Zpos m1 + 1) e1)) as Rx by (exists (Zpos m1 + 1), e1; split; [lia|]; split; [lia|reflexivity]).
  pose proof (gap_up' prec emax m1 e1 _ ltac:(lia) Hr B1 P2 L) as G.
  assert (in_units (Zpos m1 + 1) e1 <> in_units (Zpos m2) e2) as Nx.
  { intros Q. destruct (canonical_unique prec (3 - emax - prec) (Zpos m1 + 1) e1 (Zpos m2) e2) as [Q1 _]; try lia.
    apply (f_equal Z.even) in Q1. rewrite Z.even_add, Ev1, Ev2 in Q1. discriminate. }
  assert (in_units (Zpos m1) e1 < in_units (Zpos m1 + 1) e1) as L'.
  { unfold in_units. apply Z.mul_lt_mono_pos_r; [apply pow2_pos; lia|lia]. }
  specialize (R1 _ Rx ltac:(lia)).
  set (F1 := in_units (Zpos m1) e1) in *. set (F2 := in_units (Zpos m2) e2) in *. set (x := in_units (Zpos m1 + 1) e1) in *.
  assert (b * F1 < b * x) by (apply Z.mul_lt_mono_pos_l; lia). assert (b * x < b * F2) by (apply Z.mul_lt_mono_pos_l; lia). lia.
Qed.
Theorem rounds_unique prec emax a b m1 e1 m2 e2 : 1 < prec -> prec + emax < 1200 -> 0 < b ->
  rounds_to prec emax a b m1 e1 -> rounds_to prec emax a b m2 e2 -> m1 = m2 /\ e1 = e2.
Proof.
  intros Hp Hr Hb R1 R2. destruct (Z.lt_trichotomy (in_units (Zpos m1) e1) (in_units (Zpos m2) e2)) as [L|[L|L]].
  - exfalso. exact (rounds_order _ _ _ _ _ _ _ _ Hp Hr Hb R1 R2 L).
  - destruct (bounded_gen prec emax m1 e1 ltac:(lia) (proj1 R1)) as (M1 & HE1 & N1). destruct (bounded_gen prec emax m2 e2 ltac:(lia) (proj1 R2)) as (M2 & HE2 & N2).
    destruct (canonical_unique prec (3 - emax - prec) (Zpos m1) e1 (Zpos m2) e2) as [Q ->]; try lia.
  - exfalso. exact (rounds_order _ _ _ _ _ _ _ _ Hp Hr Hb R2 R1 L).
Qed.

(** ** What the conversion to float32 gives is nearest *)
Lemma rne_bound m n : 0 <= m -> 0 < n ->
  0 <= rne m n /\ 2 * Z.abs (m - rne m n * 2 ^ n) <= 2 ^ n /\ (2 * Z.abs (m - rne m n * 2 ^ n) = 2 ^ n -> Z.even (rne m n) = true).
Proof.
  intros Hm Hn. unfold rne. pose proof (pow2_pos n ltac:(lia)) as P. set (h := 2 ^ n) in *.
  pose proof (Z.div_mod m h ltac:(lia)) as Q. pose proof (Z.mod_pos_bound m h ltac:(lia)) as B. pose proof (Z.div_pos m h Hm P) as Q0.
  set (q := m / h) in *. set (r := m mod h) in *. assert (m - q * h = r) as D by lia. assert (m - (q + 1) * h = r - h) as D' by lia.
  destruct (Z.compare_spec (2 * r) h) as [C|C|C].
  - destruct (Z.even q) eqn:Ev; [rewrite D; split; [lia|]; split; [lia|]; intros _; exact Ev|].
    rewrite D'. split; [lia|]. split; [lia|]. intros _. rewrite Z.even_add, Ev. reflexivity.
  - rewrite D. lia.
  - rewrite D'. lia.
Qed.
Lemma rne_le m n K : 0 < n -> K * 2 ^ n <= m -> K <= rne m n.
Proof.
  intros Hn H. pose proof (pow2_pos n ltac:(lia)) as P. assert (K <= m / 2 ^ n) as L by (apply Z.div_le_lower_bound; lia).
  unfold rne. destruct (_ ?= _); [destruct (Z.even _)| |]; lia.
Qed.
Lemma rne_lt m n K : 0 < n -> m < K * 2 ^ n -> rne m n <= K.
Proof.
  intros Hn H. pose proof (pow2_pos n ltac:(lia)) as P. assert (m / 2 ^ n < K) as L by (apply Z.div_lt_upper_bound; lia).
  unfold rne. destruct (_ ?= _); [destruct (Z.even _)| |]; lia.
Qed.

Lemma bounded_make M E : Zpos M < 2 ^ 24 -> -149 <= E <= 104 -> (2 ^ 23 <= Zpos M \/ E = -149) -> bounded 24 128 M E = true.
Proof.
  intros H1 H2 H3. unfold bounded. apply andb_true_iff. split; [|apply Z.leb_le; lia]. unfold canonical_mantissa. apply Zeq_is_eq_bool. rewrite fexp32.
  assert (Zpos (digits2_pos M) <= 24) as D.
  { destruct (digits_bounds M) as [l _]. enough (Zpos (digits2_pos M) - 1 < 24) by lia. apply (Z.pow_lt_mono_r_iff 2); lia. }
  destruct H3 as [H3| ->]; [|lia]. assert (23 < Zpos (digits2_pos M)) as D'; [|lia].
  destruct (digits_bounds M) as [_ u]. apply (Z.pow_lt_mono_r_iff 2); lia.
Qed.

(** the number of units G, as a fraction *)
Lemma far_units G x : Z.abs (G * 2 ^ 1200 - 2 ^ 1200 * x) = 2 ^ 1200 * Z.abs (G - x).
Proof. rewrite (Z.mul_comm G), <- Z.mul_sub_distr_l, Z.abs_mul. f_equal. Qed.
Lemma rounds_units G M E : bounded 24 128 M E = true -> 2 * G < in_units (2 ^ 25 - 1) 104 ->
  (forall x, representable 24 128 x -> x <> in_units (Zpos M) E ->
    Z.abs (G - in_units (Zpos M) E) < Z.abs (G - x) \/ Z.abs (G - in_units (Zpos M) E) = Z.abs (G - x) /\ Z.even (Zpos M) = true) ->
  rounds_to 24 128 G (2 ^ 1200) M E.
Proof.
  intros B L H. split; [exact B|]. change (in_units (2 ^ (24 + 1) - 1) (128 - 24)) with (in_units (2 ^ 25 - 1) 104). pose proof (pow2_pos 1200 ltac:(lia)) as P. split.
  - rewrite Z.mul_assoc, (Z.mul_comm (2 ^ 1200)). apply Z.mul_lt_mono_pos_r; [exact P|exact L].
  - intros x Rx Nx. rewrite !far_units. destruct (H x Rx Nx) as [K|[K Ev]]; [left; apply Z.mul_lt_mono_pos_l; [exact P|exact K]|right; rewrite K; auto].
Qed.

(** gap below a float that is a power of two *)
Lemma gap_down_half M E x : bounded 24 128 M E = true -> representable 24 128 x -> x < in_units (Zpos M) E -> 2 * x <= in_units (2 * Zpos M - 1) E.
Proof.
  intros B (m1 & e1 & Hm & He & ->) Hx. destruct (bounded32 _ _ B) as (M1 & HE & M2). unfold in_units in *. pose proof (pow2_pos (E + 1200) ltac:(lia)) as P.
  destruct (Z_lt_le_dec e1 E) as [W|W].
  - destruct M2 as [M2|M2]; [|lia]. assert (2 * 2 ^ (e1 + 1200) <= 2 ^ (E + 1200)) as V by (rewrite <- Z.pow_succ_r by lia; apply Z.pow_le_mono_r; lia).
    pose proof (pow2_pos (e1 + 1200) ltac:(lia)) as P1.
    assert (m1 * (2 * 2 ^ (e1 + 1200)) <= (2 ^ 24 - 1) * 2 ^ (E + 1200)) as A by (apply Z.mul_le_mono_nonneg; lia).
    assert ((2 ^ 24 - 1) * 2 ^ (E + 1200) <= (2 * Zpos M - 1) * 2 ^ (E + 1200)) as A2 by (apply Z.mul_le_mono_nonneg_r; lia). lia.
  - assert (m1 * 2 ^ (e1 + 1200) = m1 * 2 ^ (e1 - E) * 2 ^ (E + 1200)) as G by (rewrite <- Z.mul_assoc, <- Z.pow_add_r by lia; do 2 f_equal; lia).
    rewrite G in *. apply Z.mul_lt_mono_pos_r in Hx; [|exact P]. rewrite Z.mul_assoc. apply Z.mul_le_mono_nonneg_r; lia.
Qed.

Theorem nearest32 s m e : bounded 53 1024 m e = true -> ~ too_large m e ->
  let G := in_units (Zpos m) e in
  (f32_of_f64 (S754_finite s m e) = S754_zero s /\ 2 * G <= in_units 1 (-149)) \/
  exists M E, f32_of_f64 (S754_finite s m e) = S754_finite s M E /\ rounds_to 24 128 G (2 ^ 1200) M E.
Proof.
  intros B NL G. destruct (bounded_gen 53 1024 m e ltac:(lia) B) as (M1 & HE & _). change (3 - 1024 - 53) with (-1074) in HE. clear B.
  unfold f32_of_f64. rewrite normalize_round. unfold too_large in NL. fold G in NL.
  assert (2 * G < in_units (2 ^ 25 - 1) 104) as UB.
  { assert (2 * in_units (2 ^ 24 - 1) 104 < in_units (2 ^ 25 - 1) 104) by (vm_compute; reflexivity). lia. }
  pose proof (size_lt m e ltac:(lia)) as [S1 S2]. fold G in S1, S2. set (D := Zpos (digits2_pos m)) in *.
  remember (Z.max (D + e - 24) (-149)) as E eqn:QE.
  assert (E <= 104) as HE104.
  { assert (D - 1 + e + 1200 < 128 + 1200) as V; [|lia]. apply (Z.pow_lt_mono_r_iff 2); [lia|lia|].
    eapply Z.le_lt_trans; [exact S1|]. eapply Z.le_lt_trans; [apply Z.nlt_ge; exact NL|]. vm_compute. reflexivity. }
  pose proof (pow2_pos (e + 1200) ltac:(lia)) as Pe. pose proof (pow2_pos (E + 1200) ltac:(lia)) as PE.
  destruct (Z_lt_le_dec e E) as [W|W].
  - assert (G = Zpos m * 2 ^ (e + 1200)) as HG by reflexivity.
    assert (2 ^ (E + 1200) = 2 ^ (E - e) * 2 ^ (e + 1200)) as V by (rewrite <- Z.pow_add_r by lia; f_equal; lia).
    destruct (rne_bound (Zpos m) (E - e) ltac:(lia) ltac:(lia)) as (R0 & R1 & R2).
    assert (rne (Zpos m) (E - e) <= 2 ^ 24) as R3.
    { apply rne_lt; [lia|]. rewrite <- Z.pow_add_r by lia. destruct (digits_bounds m) as [_ u]. fold D in u. eapply Z.lt_le_trans; [exact u|]. apply Z.pow_le_mono_r; lia. }
    assert (E = -149 \/ 2 ^ 23 <= rne (Zpos m) (E - e)) as R4.
    { destruct (Z.eq_dec E (-149)) as [Q|Q]; [left; exact Q|right]. apply rne_le; [lia|]. rewrite <- Z.pow_add_r by lia.
      destruct (digits_bounds m) as [l _]. fold D in l. eapply Z.le_trans; [|exact l]. apply Z.pow_le_mono_r; lia. }
    assert (E <> -149 -> in_units (2 ^ 23) E <= G) as R5.
    { intros Q. unfold in_units. rewrite <- Z.pow_add_r by lia. eapply Z.le_trans; [|exact S1]. apply Z.pow_le_mono_r; lia. }
    set (k := rne (Zpos m) (E - e)) in *.
    assert (G - in_units k E = (Zpos m - k * 2 ^ (E - e)) * 2 ^ (e + 1200)) as HD by (unfold in_units; rewrite V, HG; ring).
    assert (Z.abs (G - in_units k E) = Z.abs (Zpos m - k * 2 ^ (E - e)) * 2 ^ (e + 1200)) as HA by (rewrite HD, Z.abs_mul, (Z.abs_eq (2 ^ (e + 1200))) by lia; reflexivity).
    assert (2 * Z.abs (G - in_units k E) <= 2 ^ (E + 1200)) as N1 by (rewrite HA, V, Z.mul_assoc; apply Z.mul_le_mono_nonneg_r; lia).
    assert (2 * Z.abs (G - in_units k E) = 2 ^ (E + 1200) -> Z.even k = true) as N2.
    { rewrite HA, V, Z.mul_assoc. intros Q. apply Z.mul_cancel_r in Q; [exact (R2 Q)|lia]. }
    clear HA HD R1 R2.
    destruct (Z.eq_dec k 0) as [K0|K0].
    + left. split; [apply (round_shift_zero s m e E (eq_sym QE) W); exact K0|]. rewrite K0 in N1. change (in_units 0 E) with 0 in N1.
      destruct R4 as [R4|R4]; [|lia]. rewrite R4 in N1. unfold in_units at 1. lia.
    + right. destruct (Z.eq_dec k (2 ^ 24)) as [K24|K24].
      * assert (E <> 104) as E104.
        { intros Q. rewrite K24, Q in N1. assert (in_units (2 ^ 24) 104 = in_units (2 ^ 24 - 1) 104 + 2 ^ (104 + 1200)) as K by (unfold in_units; ring).
          assert (G <= in_units (2 ^ 24 - 1) 104) as K' by (apply Z.nlt_ge; exact NL). clear - N1 K K'. generalize dependent (in_units (2 ^ 24 - 1) 104). generalize dependent (in_units (2 ^ 24) 104).
          pose proof (pow2_pos (104 + 1200) ltac:(lia)) as P. generalize dependent (2 ^ (104 + 1200)). intros. lia. }
        exists 8388608%positive, (E + 1). split; [apply (round_shift_carry s m e E (eq_sym QE) W); [lia|exact K24]|].
        assert (bounded 24 128 8388608 (E + 1) = true) as B by (apply bounded_make; [reflexivity|lia|left; discriminate]).
        assert (in_units 8388608 (E + 1) = in_units (2 ^ 24) E) as F1.
        { unfold in_units. replace (E + 1 + 1200) with (1 + (E + 1200)) by lia. rewrite Z.pow_add_r by lia. change (2 ^ 24) with (8388608 * 2). change (2 ^ 1) with 2. ring. }
        apply rounds_units; [exact B|exact UB|]. intros x Rx Nx. rewrite <- K24 in F1. rewrite F1 in *.
        assert (Z.abs (x - in_units k E) >= 2 ^ (E + 1200)) as GP; [|destruct (Z.eq_dec (Z.abs (G - in_units k E)) (Z.abs (G - x))); [right; split; [assumption|reflexivity]|left; lia]].
        destruct (Z.lt_trichotomy x (in_units k E)) as [L|[L|L]]; [|contradiction|].
        -- rewrite <- F1 in L. pose proof (gap_down_half _ _ _ B Rx L) as GD. rewrite K24 in *.
           assert (in_units (2 * 8388608 - 1) (E + 1) = 2 * (in_units (2 ^ 24) E - 2 ^ (E + 1200))) as K; [|lia].
           unfold in_units. replace (E + 1 + 1200) with (1 + (E + 1200)) by lia. rewrite Z.pow_add_r by lia. change (2 ^ 24) with 16777216. change (2 ^ 1) with 2. ring.
        -- rewrite <- F1 in L. pose proof (gap_up' 24 128 _ _ _ ltac:(lia) ltac:(lia) B Rx L) as GU. rewrite K24 in *.
           assert (in_units (8388608 + 1) (E + 1) = in_units (2 ^ 24) E + 2 * 2 ^ (E + 1200)) as K; [|lia].
           unfold in_units. replace (E + 1 + 1200) with (1 + (E + 1200)) by lia. rewrite Z.pow_add_r by lia. change (2 ^ 24) with 16777216. change (2 ^ 1) with 2. ring.
      * destruct k as [|M|] eqn:Qk; [lia| |lia].
        exists M, E. assert (2 ^ 23 <= Zpos M \/ E = -149) as HMn by (destruct R4; tauto).
        split; [apply (round_shift_small s m e E M (eq_sym QE) W); [lia|exact Qk|lia|exact HMn]|].
        assert (bounded 24 128 M E = true) as B by (apply bounded_make; [lia|lia|exact HMn]).
        apply rounds_units; [exact B|exact UB|]. intros x Rx Nx.
        assert (in_units (Zpos M + 1) E = in_units (Zpos M) E + 2 ^ (E + 1200)) as U1 by (unfold in_units; ring).
        destruct (Z.lt_trichotomy x (in_units (Zpos M) E)) as [L|[L|L]]; [|contradiction|].
        -- destruct (Z.eq_dec (Zpos M) (2 ^ 23)) as [Q|Q].
           ++ destruct (Z.eq_dec E (-149)) as [Q2|Q2].
              ** (* all floats here are whole *)
                 assert (x <= in_units (Zpos M) E - 2 ^ (E + 1200)) as GD.
                 { destruct Rx as (m1 & e1 & Hm & He & ->). unfold in_units in *. rewrite Q2 in *.
                   assert (m1 * 2 ^ (e1 + 1200) = m1 * 2 ^ (e1 + 149) * 2 ^ (-149 + 1200)) as G1 by (rewrite <- Z.mul_assoc, <- Z.pow_add_r by lia; do 2 f_equal; lia).
                   rewrite G1 in *. apply Z.mul_lt_mono_pos_r in L; [|exact PE]. rewrite <- (Z.mul_1_l (2 ^ (-149 + 1200))) at 3. rewrite <- Z.mul_sub_distr_r. apply Z.mul_le_mono_nonneg_r; lia. }
                 destruct (Z.eq_dec (Z.abs (G - in_units (Zpos M) E)) (Z.abs (G - x))); [right; split; [assumption|rewrite Q; reflexivity]|left; lia].
              ** specialize (R5 Q2). rewrite <- Q in R5. left. lia.
           ++ pose proof (gap 24 128 M E x ltac:(lia) ltac:(lia) B Q Rx Nx) as GP.
              destruct (Z.eq_dec (Z.abs (G - in_units (Zpos M) E)) (Z.abs (G - x))) as [Eq|Ne]; [right; split; [exact Eq|apply N2; lia]|left; lia].
        -- pose proof (gap_up' 24 128 _ _ _ ltac:(lia) ltac:(lia) B Rx L) as GU.
           destruct (Z.eq_dec (Z.abs (G - in_units (Zpos M) E)) (Z.abs (G - x))) as [Eq|Ne]; [right; split; [exact Eq|apply N2; lia]|left; lia].
  - right. destruct (round_exact s m e E (eq_sym QE) W HE104) as (M & R & RM). exists M, E. split; [exact R|].
    assert (in_units (Zpos M) E = G) as FG.
    { unfold G, in_units. rewrite RM, <- Z.mul_assoc, <- Z.pow_add_r by lia. do 2 f_equal. lia. }
    assert (bounded 24 128 M E = true) as B.
    { destruct (digits_bounds m) as [l u]. fold D in l, u. apply bounded_make; [|lia|].
      - rewrite RM. apply Z.lt_le_trans with (2 ^ D * 2 ^ (e - E)); [apply Z.mul_lt_mono_pos_r; [apply pow2_pos; lia|exact u]|]. rewrite <- Z.pow_add_r by lia. apply Z.pow_le_mono_r; lia.
      - destruct (Z.eq_dec E (-149)) as [Q|Q]; [right; exact Q|left]. rewrite RM. apply Z.le_trans with (2 ^ (D - 1) * 2 ^ (e - E)); [|apply Z.mul_le_mono_nonneg_r; [apply Z.lt_le_incl, pow2_pos; lia|exact l]].
        rewrite <- Z.pow_add_r by lia. apply Z.pow_le_mono_r; lia. }
    apply rounds_units; [exact B|exact UB|]. intros x _ Nx. rewrite FG in *. left. lia.
Qed.
