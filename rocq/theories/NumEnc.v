(** Facts about the numbers the encoder writes. *)
From Coq Require Import Strings.String Strings.Byte ZArith NArith List Bool Lia Decimal.
From Coq Require Import Numbers.DecimalString Numbers.DecimalPos Numbers.DecimalFacts.
From Verif Require Import Base Strconv Grammar NumFacts Php Memory Encode.
Import ListNotations.
Open Scope Z_scope.

Lemma digit_byte_facts d : 0 <= d < 10 -> is_digit (digit_byte d) = true /\ digit_val (digit_byte d) = d.
Proof.
  intros Hd. assert (d = 0 \/ d = 1 \/ d = 2 \/ d = 3 \/ d = 4 \/ d = 5 \/ d = 6 \/ d = 7 \/ d = 8 \/ d = 9) as Q by lia.
  repeat (destruct Q as [->|Q]; [split; reflexivity|]). subst. split; reflexivity.
Qed.
Lemma digit_byte_zero d : 0 <= d < 10 -> digit_byte d = "0"%byte -> d = 0.
Proof. intros Hd Q. destruct (digit_byte_facts d Hd) as [_ H]. rewrite Q in H. cbn in H. lia. Qed.

Lemma num_snoc ds d : num (ds ++ [d]) = 10 * num ds + digit_val d.
Proof. unfold num. rewrite fold_left_app. reflexivity. Qed.

(** canonical numerals: no leading zero *)
Definition canonical (ds : bytes) : Prop := ds = bs "0" \/ exists d ds', ds = d :: ds' /\ d <> "0"%byte.

Lemma dec_f_facts : forall f n, 0 <= n < 10 ^ Z.of_nat f -> (0 < f)%nat ->
  numeral (dec_f f n) /\ num (dec_f f n) = n /\ canonical (dec_f f n) /\
  (0 < n -> exists d ds', dec_f f n = d :: ds' /\ d <> "0"%byte).
Proof.
  induction f as [|f IH]; intros n Hn Hf; [lia|]. clear Hf. cbn [dec_f].
  destruct (n <? 10) eqn:Hlt.
  - apply Z.ltb_lt in Hlt. destruct (digit_byte_facts n ltac:(lia)) as [H1 H2].
    assert (0 < n -> digit_byte n <> "0"%byte) as Hz by (intros Hp Q; apply digit_byte_zero in Q; lia).
    repeat split.
    + discriminate.
    + cbn. rewrite H1. reflexivity.
    + change (num [digit_byte n]) with (10 * 0 + digit_val (digit_byte n)). lia.
    + destruct (Z.eq_dec n 0) as [->|Hn0]; [left; reflexivity|]. right. exists (digit_byte n), []. split; [reflexivity|apply Hz; lia].
    + intros Hp. exists (digit_byte n), []. split; [reflexivity|apply Hz, Hp].
  - apply Z.ltb_ge in Hlt.
    assert (0 <= n / 10 < 10 ^ Z.of_nat f) as Hd.
    { split; [apply Z.div_pos; lia|]. apply Z.div_lt_upper_bound; [lia|].
      rewrite <- Z.pow_succ_r by lia. rewrite <- Nat2Z.inj_succ. lia. }
    assert (1 <= n / 10) as Hd1 by (apply Z.div_le_lower_bound; lia).
    assert (0 < f)%nat as Hf. { destruct f; [|lia]. cbn in Hd. lia. }
    destruct (IH _ Hd Hf) as ((Hne & Hdig) & Hnum & _ & Hlead).
    pose proof (Z.mod_pos_bound n 10 ltac:(lia)) as Hm. destruct (digit_byte_facts (n mod 10) Hm) as [H1 H2].
    destruct (Hlead ltac:(lia)) as (d & ds' & Heq & Hnz).
    assert (exists d0 ds0, dec_f f (n / 10) ++ [digit_byte (n mod 10)] = d0 :: ds0 /\ d0 <> "0"%byte) as Hlead'.
    { rewrite Heq. exists d, (ds' ++ [digit_byte (n mod 10)]). split; [reflexivity|exact Hnz]. }
    repeat split.
    + destruct (dec_f f (n / 10)); discriminate.
    + rewrite forallb_app, Hdig. cbn. rewrite H1. reflexivity.
    + rewrite num_snoc, Hnum, H2. pose proof (Z.div_mod n 10 ltac:(lia)). lia.
    + right. exact Hlead'.
    + intros _. exact Hlead'.
Qed.

Lemma append_uint_facts n : 0 <= n ->
  numeral (append_uint n) /\ num (append_uint n) = n /\ canonical (append_uint n).
Proof.
  intros Hn. unfold append_uint.
  assert (0 <= n < 10 ^ Z.of_nat (S (Z.to_nat (Z.log2 n)))) as Hb.
  { split; [exact Hn|]. rewrite Nat2Z.inj_succ, Z2Nat.id by apply Z.log2_nonneg.
    destruct (Z.eq_dec n 0) as [->|Hn0]; [reflexivity|].
    pose proof (Z.log2_spec n ltac:(lia)) as [_ H]. eapply Z.lt_le_trans; [exact H|].
    apply Z.pow_le_mono_l. lia. }
  destruct (dec_f_facts _ n Hb ltac:(lia)) as (H1 & H2 & H3 & _). auto.
Qed.
Lemma append_int_nonneg z : 0 <= z -> append_int z = append_uint z.
Proof. intros H. unfold append_int. destruct (z <? 0) eqn:Q; [apply Z.ltb_lt in Q; lia|reflexivity]. Qed.

(** ** Agreement with the standard library's notation *)

Definition snoc_digit (d : byte) (u : uint) : uint :=
  match d with
  | "0" => D0 u | "1" => D1 u | "2" => D2 u | "3" => D3 u | "4" => D4 u
  | "5" => D5 u | "6" => D6 u | "7" => D7 u | "8" => D8 u | "9" => D9 u
  | _ => Nil
  end%byte.
Definition uint_of (ds : bytes) : uint := fold_right snoc_digit Nil ds.

Lemma digit_cases d : is_digit d = true ->
  d = "0"%byte \/ d = "1"%byte \/ d = "2"%byte \/ d = "3"%byte \/ d = "4"%byte \/
  d = "5"%byte \/ d = "6"%byte \/ d = "7"%byte \/ d = "8"%byte \/ d = "9"%byte.
Proof. intros H. destruct d; cbn in H; try discriminate; tauto. Qed.
Ltac digit_case H := apply digit_cases in H;
  destruct H as [->|[->|[->|[->|[->|[->|[->|[->|[->| ->]]]]]]]]].

Lemma uint_text ds : forallb is_digit ds = true -> bs (NilEmpty.string_of_uint (uint_of ds)) = ds.
Proof.
  induction ds as [|d ds IH]; intros H; [reflexivity|]. cbn in H. apply andb_prop in H as [Hd H]. specialize (IH H).
  unfold bs in *. cbn [uint_of fold_right]. fold (uint_of ds).
  digit_case Hd; cbn; f_equal; exact IH.
Qed.
Lemma uint_val_acc ds : forallb is_digit ds = true -> forall acc,
  Z.pos (Pos.of_uint_acc (uint_of ds) acc) = fold_left (fun a d => 10 * a + digit_val d) ds (Z.pos acc).
Proof.
  induction ds as [|d ds IH]; intros H acc; [reflexivity|]. cbn in H. apply andb_prop in H as [Hd H]. specialize (IH H).
  cbn [uint_of fold_right fold_left]. fold (uint_of ds).
  digit_case Hd; cbn [snoc_digit Pos.of_uint_acc]; rewrite IH; f_equal; unfold digit_val; cbn [Byte.to_N Z.of_N]; lia.
Qed.
Lemma uint_val ds : forallb is_digit ds = true -> Z.of_N (Pos.of_uint (uint_of ds)) = num ds.
Proof.
  unfold num. induction ds as [|d ds IH]; intros H; [reflexivity|]. cbn in H. apply andb_prop in H as [Hd H]. specialize (IH H).
  cbn [uint_of fold_right fold_left]. fold (uint_of ds).
  digit_case Hd; cbn [snoc_digit Pos.of_uint]; [exact IH|..]; cbn [Z.of_N]; rewrite uint_val_acc by exact H; reflexivity.
Qed.
Lemma uint_norm ds : forallb is_digit ds = true -> canonical ds -> unorm (uint_of ds) = uint_of ds.
Proof.
  intros Hdig [->|(d & ds' & -> & Hd)]; [reflexivity|]. cbn in Hdig. apply andb_prop in Hdig as [Hd' _].
  cbn [uint_of fold_right]. digit_case Hd'; try reflexivity. congruence.
Qed.
Lemma append_uint_uint n : 0 <= n -> N.to_uint (Z.to_N n) = uint_of (append_uint n).
Proof.
  intros Hn. destruct (append_uint_facts n Hn) as ((_ & Hdig) & Hnum & Hcan).
  assert (Z.to_N n = Pos.of_uint (uint_of (append_uint n))) as ->.
  { apply N2Z.inj. rewrite uint_val by exact Hdig. rewrite Hnum. apply Z2N.id. exact Hn. }
  rewrite Unsigned.to_of. apply uint_norm; assumption.
Qed.
Lemma uint_of_nonnil ds : ds <> [] -> forallb is_digit ds = true -> uint_of ds <> Nil.
Proof.
  destruct ds as [|d ds]; [congruence|]. intros _ H. cbn in H. apply andb_prop in H as [Hd _].
  cbn [uint_of fold_right]. digit_case Hd; discriminate.
Qed.
Lemma nilzero u : u <> Nil -> NilZero.string_of_uint u = NilEmpty.string_of_uint u.
Proof. intros H. destruct u; try reflexivity. congruence. Qed.

Lemma append_int_decimal z : append_int z = decimal z.
Proof.
  unfold append_int, decimal. destruct z as [|p|p].
  - reflexivity.
  - cbn [Z.ltb Z.compare]. unfold Z.to_int. change (Pos.to_uint p) with (N.to_uint (Z.to_N (Z.pos p))).
    rewrite append_uint_uint by lia. destruct (append_uint_facts (Z.pos p) ltac:(lia)) as ((Hne & Hdig) & _).
    cbn [NilZero.string_of_int]. rewrite nilzero by (apply uint_of_nonnil; assumption). symmetry. apply uint_text, Hdig.
  - change (Z.neg p <? 0) with true. cbn [Z.opp]. unfold Z.to_int. change (Pos.to_uint p) with (N.to_uint (Z.to_N (Z.pos p))).
    rewrite append_uint_uint by lia. destruct (append_uint_facts (Z.pos p) ltac:(lia)) as ((Hne & Hdig) & _).
    cbn [NilZero.string_of_int]. rewrite nilzero by (apply uint_of_nonnil; assumption).
    match goal with |- _ = bs (String ?c ?x) => change (bs (String c x)) with ("-"%byte :: bs x) end.
    f_equal. symmetry. apply uint_text, Hdig.
Qed.
Lemma append_uint_decimal z : 0 <= z -> append_uint z = decimal z.
Proof. intros H. rewrite <- append_int_nonneg by exact H. apply append_int_decimal. Qed.

Lemma decimal_int_text z : int_text (decimal z) z.
Proof.
  rewrite <- append_int_decimal. unfold append_int. destruct (z <? 0) eqn:Hz.
  - apply Z.ltb_lt in Hz. destruct (append_uint_facts (- z) ltac:(lia)) as (Hn & Hnum & _).
    rewrite <- (Z.opp_involutive z) at 2. rewrite <- Hnum at 2. apply it_neg. exact Hn.
  - apply Z.ltb_ge in Hz. destruct (append_uint_facts z Hz) as (Hn & Hnum & _). rewrite <- Hnum at 2. apply it_pos. exact Hn.
Qed.
Lemma decimal_numeral z : 0 <= z -> numeral (decimal z) /\ num (decimal z) = z.
Proof. intros H. rewrite <- append_uint_decimal by exact H. destruct (append_uint_facts z H) as (H1 & H2 & _). auto. Qed.

(** ** The digit counters *)

Lemma digits_loop_zero f c : digits_loop f 0 c = c.
Proof. destruct f; reflexivity. Qed.
Lemma digits_loop_opp : forall f n c, digits_loop f (- n) c = digits_loop f n c.
Proof.
  induction f as [|f IH]; intros n c; [reflexivity|]. cbn [digits_loop].
  replace (- n =? 0) with (n =? 0) by (destruct (Z.eqb_spec n 0), (Z.eqb_spec (- n) 0); lia || reflexivity).
  rewrite Z.quot_opp_l by lia. rewrite IH. reflexivity.
Qed.
Lemma digits_loop_len : forall f k n c, 0 < n < 10 ^ Z.of_nat f -> n < 10 ^ Z.of_nat k ->
  digits_loop f n c = c + blen (dec_f k n).
Proof.
  induction f as [|f IH]; intros k n c Hf Hk; [cbn in Hf; lia|]. cbn [digits_loop].
  destruct (Z.eqb_spec n 0) as [|_]; [lia|].
  rewrite Z.quot_div_nonneg by lia.
  destruct k as [|k]; [cbn in Hk; lia|]. cbn [dec_f]. destruct (n <? 10) eqn:Hlt.
  - apply Z.ltb_lt in Hlt. rewrite Z.div_small by lia. rewrite digits_loop_zero. reflexivity.
  - apply Z.ltb_ge in Hlt. unfold blen. rewrite app_length. cbn [length].
    assert (1 <= n / 10) by (apply Z.div_le_lower_bound; lia).
    rewrite (IH k (n / 10) (c + 1)).
    + unfold blen. lia.
    + split; [lia|]. apply Z.div_lt_upper_bound; [lia|]. rewrite <- Z.pow_succ_r by lia. rewrite <- Nat2Z.inj_succ. lia.
    + apply Z.div_lt_upper_bound; [lia|]. rewrite <- Z.pow_succ_r by lia. rewrite <- Nat2Z.inj_succ. lia.
Qed.
Lemma append_uint_len n : 0 < n < 10 ^ 20 -> digits_loop 20 n 0 = blen (append_uint n).
Proof.
  intros H. unfold append_uint. rewrite (digits_loop_len 20 (S (Z.to_nat (Z.log2 n)))); [lia|exact H|].
  rewrite Nat2Z.inj_succ, Z2Nat.id by apply Z.log2_nonneg.
  pose proof (Z.log2_spec n ltac:(lia)) as [_ H']. eapply Z.lt_le_trans; [exact H'|]. apply Z.pow_le_mono_l. lia.
Qed.
Lemma digits_loop_add : forall f n c, digits_loop f n c = c + digits_loop f n 0.
Proof.
  induction f as [|f IH]; intros n c; cbn [digits_loop]; [lia|]. destruct (n =? 0); [lia|].
  rewrite (IH _ (c + 1)), (IH _ (0 + 1)). lia.
Qed.
Lemma uint_digits_len z : 0 <= z < 10 ^ 20 -> uint_digits z = blen (append_uint z).
Proof.
  intros H. unfold uint_digits. destruct (Z.eqb_spec z 0) as [->|Hz]; [reflexivity|]. apply append_uint_len. lia.
Qed.
Lemma int_digits_len z : - 10 ^ 20 < z < 10 ^ 20 -> int_digits z = blen (append_int z).
Proof.
  intros H. unfold int_digits, append_int. destruct (Z.ltb_spec z 0) as [Hz|Hz].
  - replace (z <=? 0) with true by (symmetry; apply Z.leb_le; lia).
    rewrite digits_loop_add, <- digits_loop_opp, append_uint_len by lia. unfold blen. cbn [length]. lia.
  - destruct (Z.leb_spec z 0) as [Hz'|Hz'].
    + assert (z = 0) as -> by lia. reflexivity.
    + apply append_uint_len. lia.
Qed.
