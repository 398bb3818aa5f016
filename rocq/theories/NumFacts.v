(** Facts about numerals and the integer parsers. *)
From Coq Require Import Strings.String Strings.Byte ZArith List Bool Lia.
From Verif Require Import Base Strconv Grammar.
Import ListNotations.
Open Scope Z_scope.

Lemma eqb_eq (a b : byte) : (a =b b) = true <-> a = b.
Proof. unfold Byte.eqb. split; [|intros ->; apply Byte.byte_dec_lb; reflexivity].
  intros H. apply Byte.byte_dec_bl. exact H. Qed.
Lemma eqb_neq (a b : byte) : (a =b b) = false <-> a <> b.
Proof. rewrite <- eqb_eq. destruct (a =b b); split; congruence. Qed.
Lemma eqb_refl (a : byte) : (a =b a) = true.
Proof. apply eqb_eq; reflexivity. Qed.

Lemma bytes_eqb_eq (a b : bytes) : bytes_eqb a b = true <-> a = b.
Proof.
  revert b; induction a as [|x a IH]; destruct b as [|y b]; cbn; split; try congruence; intros H.
  - apply andb_true_iff in H as [H1 H2]. apply eqb_eq in H1. apply IH in H2. congruence.
  - injection H as -> ->. rewrite eqb_refl. cbn. apply IH. reflexivity.
Qed.
Lemma bytes_eqb_refl a : bytes_eqb a a = true.
Proof. apply bytes_eqb_eq; reflexivity. Qed.
Lemma bytes_eqb_neq (a b : bytes) : bytes_eqb a b = false <-> a <> b.
Proof. rewrite <- bytes_eqb_eq. destruct (bytes_eqb a b); split; congruence. Qed.

Lemma blen_nil {A} : blen (@nil A) = 0. Proof. reflexivity. Qed.
Lemma blen_cons {A} (a : A) l : blen (a :: l) = 1 + blen l.
Proof. unfold blen; cbn [length]; lia. Qed.
Lemma blen_app {A} (l m : list A) : blen (l ++ m) = blen l + blen m.
Proof. unfold blen; rewrite app_length; lia. Qed.
Lemma blen_nonneg {A} (l : list A) : 0 <= blen l.
Proof. unfold blen; lia. Qed.
Lemma blen_zero {A} (l : list A) : blen l = 0 -> l = [].
Proof. destruct l; [reflexivity|rewrite blen_cons; pose proof (blen_nonneg l); lia]. Qed.

Lemma byte_bound (b : byte) : (0 <= Z.of_N (Byte.to_N b) <= 255).
Proof. pose proof (Byte.to_N_bounded b) as H. lia. Qed.

Lemma is_digit_val b : is_digit b = true -> 0 <= digit_val b <= 9.
Proof. unfold is_digit, digit_val. rewrite andb_true_iff, !Z.leb_le. lia. Qed.

Lemma num_aux ds a : fold_left (fun a d => 10 * a + digit_val d) ds a = a * 10 ^ blen ds + num ds.
Proof.
  unfold num. revert a. induction ds as [|d ds IH]; intros a.
  - cbn. lia.
  - cbn [fold_left]. rewrite (IH (10 * a + digit_val d)), (IH (10 * 0 + digit_val d)), blen_cons.
    rewrite Z.pow_add_r by (try lia; apply blen_nonneg). lia.
Qed.
Lemma num_cons d ds : num (d :: ds) = digit_val d * 10 ^ blen ds + num ds.
Proof. unfold num at 1. cbn [fold_left]. rewrite num_aux. reflexivity. Qed.
Lemma num_app a b : num (a ++ b) = num a * 10 ^ blen b + num b.
Proof. unfold num at 1. rewrite fold_left_app. rewrite num_aux. reflexivity. Qed.
Lemma num_bound ds : forallb is_digit ds = true -> 0 <= num ds < 10 ^ blen ds.
Proof.
  induction ds as [|d ds IH]; intros H.
  - cbn. lia.
  - cbn in H. apply andb_true_iff in H as [Hd H]. specialize (IH H).
    apply is_digit_val in Hd. rewrite num_cons, blen_cons.
    rewrite Z.pow_add_r by (try lia; apply blen_nonneg). nia.
Qed.
Lemma num_nonneg ds : forallb is_digit ds = true -> 0 <= num ds.
Proof. intros H; apply num_bound in H; lia. Qed.
Lemma num_low d ds : forallb is_digit (d :: ds) = true -> digit_val d <> 0 -> 10 ^ blen ds <= num (d :: ds).
Proof.
  intros H Hd. cbn in H. apply andb_true_iff in H as [H1 H2].
  apply is_digit_val in H1. apply num_bound in H2. rewrite num_cons. nia.
Qed.

Lemma strip_zeros_spec b :
  num (strip_zeros b) = num b /\
  (forallb is_digit (strip_zeros b) = forallb is_digit b) /\
  (forall d ds, strip_zeros b = d :: ds -> d <> "0"%byte).
Proof.
  induction b as [|c b IH]; cbn [strip_zeros].
  - repeat split; congruence.
  - destruct (c =b "0"%byte) eqn:E.
    + apply eqb_eq in E as ->. destruct IH as (H1 & H2 & H3). repeat split; auto.
    + repeat split; auto. intros d ds [= -> _]. apply eqb_neq in E. exact E.
Qed.

Lemma digit_nonzero d : is_digit d = true -> d <> "0"%byte -> digit_val d <> 0.
Proof.
  intros Hd Hn H0. apply Hn. unfold digit_val in H0.
  assert (Byte.to_N d = 48%N) as E by lia.
  apply (f_equal Byte.of_N) in E. rewrite Byte.of_to_N in E. cbn in E. congruence.
Qed.

Lemma pow10_19 : 10 ^ 19 < 2 ^ 64. Proof. reflexivity. Qed.

Lemma uwrap64_id z : 0 <= z < 2 ^ 64 -> uwrap64 z = z.
Proof. apply Z.mod_small. Qed.
Lemma wrap64_id z : min_int64 <= z <= max_int64 -> wrap64 z = z.
Proof.
  unfold wrap64, min_int64, max_int64. intros H.
  rewrite Z.mod_small; lia.
Qed.

Lemma sum_digits_spec b v :
  0 <= v -> v + 10 ^ blen b <= 2 ^ 64 ->
  sum_digits b v = if forallb is_digit b then Some (v + num b) else None.
Proof.
  revert v; induction b as [|c b IH]; intros v Hv Hb; cbn [sum_digits forallb].
  - cbn. f_equal. lia.
  - destruct (is_digit c) eqn:Hc; cbn [andb]; [|reflexivity].
    apply is_digit_val in Hc. rewrite blen_cons, Z.pow_add_r in Hb by (try lia; apply blen_nonneg).
    assert (0 < 10 ^ blen b) by (apply Z.pow_pos_nonneg; [lia|apply blen_nonneg]).
    rewrite (uwrap64_id (digit_val c * 10 ^ blen b)) by nia.
    rewrite uwrap64_id by nia.
    rewrite IH by nia. rewrite num_cons. destruct (forallb is_digit b); [|reflexivity].
    f_equal. lia.
Qed.

Definition in_int64 (z : Z) : bool := (min_int64 <=? z) && (z <=? max_int64).

Lemma parse_body ds (neg : bool) :
  ds <> [] ->
  match strip_zeros ds with
  | [] => Some 0
  | ds' =>
      if 19 <? blen ds' then None
      else
        match sum_digits ds' 0 with
        | None => None
        | Some value =>
            let limit := if neg then 2 ^ 63 else 2 ^ 63 - 1 in
            if limit <? value then None
            else if neg then
              (if value =? 2 ^ 63 then Some (- 2 ^ 63) else Some (wrap64 (- wrap64 value)))
            else Some (wrap64 value)
        end
  end =
  (if forallb is_digit ds then
     let z := if neg then - num ds else num ds in
     if in_int64 z then Some z else None
   else None).
Proof.
  intros Hne. destruct (strip_zeros_spec ds) as (Hn & Hf & Hz).
  rewrite <- Hn, <- Hf. clear Hn Hf Hne. destruct (strip_zeros ds) as [|d l].
  - destruct neg; reflexivity.
  - specialize (Hz d l eq_refl). cbn zeta.
    destruct (19 <? blen (d :: l)) eqn:E19.
    + apply Z.ltb_lt in E19. destruct (forallb is_digit (d :: l)) eqn:Hd; [|reflexivity].
      assert (10 ^ 19 <= num (d :: l)).
      { apply Z.le_trans with (10 ^ blen l).
        - apply Z.pow_le_mono_r; rewrite blen_cons in E19; lia.
        - apply num_low; [exact Hd|]. apply digit_nonzero; [|exact Hz].
          cbn in Hd. apply andb_true_iff in Hd. tauto. }
      assert (2 ^ 63 < 10 ^ 19) by reflexivity.
      cbn zeta. replace (in_int64 _) with false; [reflexivity|].
      unfold in_int64, min_int64, max_int64. symmetry. apply andb_false_iff.
      rewrite !Z.leb_gt. destruct neg; lia.
    + apply Z.ltb_ge in E19. rewrite sum_digits_spec.
      2: lia. 2:{ rewrite Z.add_0_l. etransitivity; [apply Z.pow_le_mono_r; [lia|exact E19]|]. apply Z.lt_le_incl, pow10_19. }
      destruct (forallb is_digit (d :: l)) eqn:Hd; [|reflexivity].
      apply num_nonneg in Hd. rewrite Z.add_0_l. cbn zeta.
      unfold in_int64, min_int64, max_int64. generalize dependent (num (d :: l)). intros n Hd.
      destruct neg.
      * destruct (2 ^ 63 <? n) eqn:E.
        -- apply Z.ltb_lt in E. replace (- 2 ^ 63 <=? - n) with false by (symmetry; apply Z.leb_gt; lia). reflexivity.
        -- apply Z.ltb_ge in E. replace (- 2 ^ 63 <=? - n) with true by (symmetry; apply Z.leb_le; lia).
           replace (- n <=? 2 ^ 63 - 1) with true by (symmetry; apply Z.leb_le; lia). cbn [andb].
           destruct (n =? 2 ^ 63) eqn:E2; [apply Z.eqb_eq in E2 as ->; reflexivity|]. apply Z.eqb_neq in E2.
           rewrite (wrap64_id n), wrap64_id by (unfold min_int64, max_int64; lia). reflexivity.
      * replace (- 2 ^ 63 <=? n) with true by (symmetry; apply Z.leb_le; lia). cbn [andb].
        destruct (2 ^ 63 - 1 <? n) eqn:E.
        -- apply Z.ltb_lt in E. replace (n <=? 2 ^ 63 - 1) with false by (symmetry; apply Z.leb_gt; lia). reflexivity.
        -- apply Z.ltb_ge in E. replace (n <=? 2 ^ 63 - 1) with true by (symmetry; apply Z.leb_le; lia).
           rewrite wrap64_id by (unfold min_int64, max_int64; lia). reflexivity.
Qed.

Lemma parse_int64_text b z : int_text b z -> parse_int64 b = if in_int64 z then Some z else None.
Proof.
  intros H. inversion H as [ds [Hne Hd]|ds [Hne Hd]]; subst.
  - destruct b as [|c b']; [congruence|]. unfold parse_int64.
    replace (c =b "-"%byte) with false.
    2:{ symmetry. cbn in Hd. apply andb_true_iff in Hd as [Hd _]. apply eqb_neq. intros ->. discriminate. }
    cbn zeta. pose proof (parse_body (c :: b') false Hne) as P. cbn zeta in P.
    rewrite P, Hd. reflexivity.
  - unfold parse_int64. rewrite eqb_refl. cbn zeta.
    destruct ds as [|c b']; [congruence|]. pose proof (parse_body (c :: b') true Hne) as P. cbn zeta in P.
    rewrite P, Hd. reflexivity.
Qed.

Lemma parse_int64_some b z : parse_int64 b = Some z -> int_text b z /\ min_int64 <= z <= max_int64.
Proof.
  unfold parse_int64. destruct b as [|c rest]; [discriminate|]. cbn zeta.
  destruct (c =b "-"%byte) eqn:Ec.
  - apply eqb_eq in Ec as ->. destruct rest as [|d r]; [discriminate|].
    pose proof (parse_body (d :: r) true ltac:(congruence)) as P. cbn zeta in P. rewrite P.
    destruct (forallb is_digit (d :: r)) eqn:Hd; [|discriminate].
    destruct (in_int64 _) eqn:Hr; [|discriminate]. intros [= <-].
    split; [apply it_neg; split; [congruence|exact Hd]|].
    unfold in_int64 in Hr. apply andb_true_iff in Hr. rewrite !Z.leb_le in Hr. exact Hr.
  - pose proof (parse_body (c :: rest) false ltac:(congruence)) as P. cbn zeta in P. rewrite P.
    destruct (forallb is_digit (c :: rest)) eqn:Hd; [|discriminate].
    destruct (in_int64 _) eqn:Hr; [|discriminate]. intros [= <-].
    split; [apply it_pos; split; [congruence|exact Hd]|].
    unfold in_int64 in Hr. apply andb_true_iff in Hr. rewrite !Z.leb_le in Hr. exact Hr.
Qed.

Lemma parse_int64_iff b z : parse_int64 b = Some z <-> int_text b z /\ min_int64 <= z <= max_int64.
Proof.
  split; [apply parse_int64_some|]. intros [H R]. rewrite (parse_int64_text _ _ H).
  unfold in_int64. replace (_ && _) with true; [reflexivity|].
  symmetry. apply andb_true_iff. rewrite !Z.leb_le. exact R.
Qed.

Lemma parse_int64_num ds : numeral ds ->
  parse_int64 ds = if num ds <=? max_int64 then Some (num ds) else None.
Proof.
  intros H. rewrite (parse_int64_text ds (num ds)) by (constructor; exact H).
  destruct H as [_ H]. apply num_nonneg in H. unfold in_int64, min_int64.
  replace (- 2 ^ 63 <=? num ds) with true by (symmetry; apply Z.leb_le; lia). reflexivity.
Qed.

Lemma int_text_det t z z' : int_text t z -> int_text t z' -> z = z'.
Proof.
  intros H H'. inversion H as [ds [_ Hd]|ds [_ Hd]]; inversion H' as [ds' [_ Hd']|ds' [_ Hd']]; subst; try congruence.
  - discriminate Hd.
  - discriminate Hd'.
Qed.

Lemma parse_uint_loop_spec b n :
  0 <= n < 2 ^ 64 ->
  parse_uint_loop b n =
  if forallb is_digit b then
    let v := n * 10 ^ blen b + num b in if v <? 2 ^ 64 then Some v else None
  else None.
Proof.
  revert n; induction b as [|c b IH]; intros n Hn; cbn [parse_uint_loop forallb].
  - replace (n * 10 ^ blen (@nil byte) + num []) with n by (rewrite blen_nil; cbn; lia).
    cbn zeta. replace (n <? 2 ^ 64) with true by (symmetry; apply Z.ltb_lt; lia). reflexivity.
  - destruct (is_digit c) eqn:Hc; cbn [andb]; [|reflexivity].
    apply is_digit_val in Hc. rewrite blen_cons, num_cons.
    rewrite Z.pow_add_r by (try lia; apply blen_nonneg).
    assert (0 < 10 ^ blen b) by (apply Z.pow_pos_nonneg; [lia|apply blen_nonneg]).
    destruct ((2 ^ 64 - 1) / 10 + 1 <=? n) eqn:E1.
    + apply Z.leb_le in E1. change ((2 ^ 64 - 1) / 10 + 1) with 1844674407370955162 in E1.
      destruct (forallb is_digit b) eqn:Hb; [|reflexivity]. apply num_nonneg in Hb. cbn zeta.
      replace (_ <? 2 ^ 64) with false; [reflexivity|]. symmetry. apply Z.ltb_ge. change (2 ^ 64) with 18446744073709551616. nia.
    + apply Z.leb_gt in E1. change ((2 ^ 64 - 1) / 10 + 1) with 1844674407370955162 in E1.
      assert (uwrap64 (n * 10) = n * 10) as -> by (apply uwrap64_id; change (2 ^ 64) with 18446744073709551616; lia).
      cbn zeta.
      destruct (Z_lt_ge_dec (n * 10 + digit_val c) (2 ^ 64)) as [Hlt|Hge].
      * rewrite uwrap64_id by lia. replace (n * 10 + digit_val c <? n * 10) with false by (symmetry; apply Z.ltb_ge; lia).
        rewrite IH by lia. destruct (forallb is_digit b); [|reflexivity]. cbn zeta.
        replace ((n * 10 + digit_val c) * 10 ^ blen b + num b) with (n * (10 ^ 1 * 10 ^ blen b) + (digit_val c * 10 ^ blen b + num b)) by (change (10 ^ 1) with 10; ring). reflexivity.
      * assert (uwrap64 (n * 10 + digit_val c) = n * 10 + digit_val c - 2 ^ 64) as ->.
        { unfold uwrap64. symmetry. apply Z.mod_unique with 1; change (2 ^ 64) with 18446744073709551616 in *; lia. }
        replace (_ <? n * 10) with true by (symmetry; apply Z.ltb_lt; change (2 ^ 64) with 18446744073709551616; lia).
        destruct (forallb is_digit b) eqn:Hb; [|reflexivity]. apply num_nonneg in Hb.
        replace (_ <? 2 ^ 64) with false; [reflexivity|]. symmetry. apply Z.ltb_ge.
        change (2 ^ 64) with 18446744073709551616 in *. nia.
Qed.

Lemma parse_uint64_iff b z : parse_uint64 b = Some z <-> numeral b /\ z = num b /\ num b < 2 ^ 64.
Proof.
  unfold parse_uint64. destruct b as [|c b].
  - split; [discriminate|]. intros ([H _] & _). congruence.
  - rewrite parse_uint_loop_spec by lia. rewrite Z.mul_0_l, Z.add_0_l. cbn zeta.
    destruct (forallb is_digit (c :: b)) eqn:Hd.
    + destruct (num (c :: b) <? 2 ^ 64) eqn:E.
      * apply Z.ltb_lt in E. split.
        -- intros [= <-]. repeat split; [congruence|exact Hd|lia].
        -- intros (_ & -> & _). reflexivity.
      * apply Z.ltb_ge in E. split; [discriminate|]. lia.
    + split; [discriminate|]. intros ([_ H] & _). congruence.
Qed.
