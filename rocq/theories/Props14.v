(** The texts of integers (C09, C10), against the standard library's decimal
    notation instead of the digits of Grammar.v. *)
From Coq Require Import Strings.String Strings.Byte ZArith NArith List Bool Lia Decimal DecimalString DecimalFacts DecimalN.
From Verif Require Import Base GoTypes Strconv NumFacts ScanFacts UnmFacts Grammar Denote Typing Api Php NumEnc Demo Props1.
Import ListNotations.
Open Scope Z_scope.

Notation nul := "0"%byte.

Lemma canonical_decimal ds : forallb is_digit ds = true -> ds <> [] -> canonical ds -> decimal (num ds) = ds.
Proof.
  intros Hd Hne Hc. assert (0 <= num ds) as H0 by (rewrite <- (uint_val ds Hd); lia).
  rewrite <- append_uint_decimal by exact H0. destruct (append_uint_facts _ H0) as ((_ & Hdig) & Hnum & Hcan).
  assert (uint_of (append_uint (num ds)) = uint_of ds) as Q.
  { rewrite <- append_uint_uint by exact H0. rewrite <- (uint_norm ds Hd Hc). rewrite <- Unsigned.to_of.
    f_equal. apply N2Z.inj. rewrite Z2N.id by exact H0. symmetry. exact (uint_val ds Hd). }
  etransitivity; [symmetry; exact (uint_text _ Hdig)|]. rewrite Q. exact (uint_text ds Hd).
Qed.
Lemma num_zeros n ds : num (repeat nul n ++ ds) = num ds.
Proof. induction n as [|n IH]; [reflexivity|]. exact IH. Qed.
Lemma num_nonneg ds : numeral ds -> 0 <= num ds.
Proof. intros [_ Hd]. rewrite <- (uint_val ds Hd). lia. Qed.
Lemma numeral_texts ds z : numeral ds /\ num ds = z <-> 0 <= z /\ exists n, ds = repeat nul n ++ decimal z.
Proof.
  split.
  - intros [Hn <-]. split; [apply num_nonneg; exact Hn|]. destruct Hn as [Hne Hd].
    assert (exists n cs, ds = repeat nul n ++ cs /\ cs <> [] /\ canonical cs) as (n & cs & -> & Hc & C).
    { induction ds as [|d ds IH]; [congruence|]. destruct (Byte.byte_eq_dec d nul) as [->|Hz].
      - destruct ds as [|d' ds]; [exists 0%nat, [nul]; split; [reflexivity|]; split; [discriminate|left; reflexivity]|].
        cbn in Hd. destruct IH as (n & cs & Q & Hc); [discriminate|exact Hd|]. exists (S n), cs. cbn. rewrite Q. auto.
      - exists 0%nat, (d :: ds). split; [reflexivity|]. split; [discriminate|]. right. eauto. }
    exists n. rewrite num_zeros. rewrite forallb_app in Hd. apply andb_prop in Hd as [_ Hd]. rewrite canonical_decimal; auto.
  - intros (H & n & ->). destruct (decimal_numeral _ H) as [[Hne Hd] Hv]. rewrite num_zeros. split; [split|exact Hv].
    + intros A. apply app_eq_nil in A. tauto.
    + rewrite forallb_app, Hd, andb_true_r. clear. induction n as [|n IH]; [reflexivity|]. exact IH.
Qed.

(** *** C09, C10: which texts denote which numbers: the decimal notation, with any
    number of zeros in front of its first digit, and "-" also in front of zero. *)
Theorem C09_texts : forall t z, int_text t z <-> exists n,
  (0 <= z /\ t = repeat nul n ++ decimal z) \/ (z <= 0 /\ t = "-"%byte :: repeat nul n ++ decimal (- z)).
Proof.
  intros t z. split.
  - intros [ds N|ds N]; destruct (proj1 (numeral_texts ds (num ds)) (conj N eq_refl)) as [H0 [n Q]]; exists n.
    + left. split; [exact H0|exact Q].
    + right. split; [lia|]. rewrite Z.opp_involutive. rewrite <- Q. reflexivity.
  - intros [n [[H ->]|[H ->]]].
    + destruct (proj2 (numeral_texts _ z) (conj H (ex_intro _ n eq_refl))) as [N V]. pose proof (it_pos _ N) as P. rewrite V in P. exact P.
    + assert (0 <= - z) as H0 by lia. destruct (proj2 (numeral_texts _ (- z)) (conj H0 (ex_intro _ n eq_refl))) as [N V].
      pose proof (it_neg _ N) as P. rewrite V, Z.opp_involutive in P. exact P.
Qed.
Print Assumptions C09_texts.
Theorem C10_texts : forall t, numeral t <-> exists n z, 0 <= z /\ t = repeat nul n ++ decimal z /\ num t = z.
Proof.
  intros t. split.
  - intros N. destruct (proj1 (numeral_texts t (num t)) (conj N eq_refl)) as [H0 [n Q]]. exists n, (num t). auto.
  - intros (n & z & H & Q & _). apply (numeral_texts t z). eauto.
Qed.
Print Assumptions C10_texts.

(** So an integer is accepted for exactly these texts, and what is stored is the number. *)
Theorem C09_decimal : forall X E T k v w t, small (text (LInt t)) -> ~ In ";"%byte t -> plain E T (KInt k) ->
  (Decodes X E (bs "i:" ++ t ++ bs ";") T v w <-> exists n z, w = VInt z /\ int_range k z /\
    (0 <= z /\ t = repeat nul n ++ decimal z \/ z <= 0 /\ t = "-"%byte :: repeat nul n ++ decimal (- z))).
Proof.
  intros X E T k v w t Hs Hns Hp. destruct (C09_signed_exact X E T k v t Hs Hns Hp) as [A B].
  change (bs "i:" ++ t ++ bs ";") with (text (LInt t)).
  assert ((exists z, int_text t z) \/ forall z, ~ int_text t z) as Dec.
  { assert (forall ds, numeral ds \/ ~ numeral ds) as D.
    { intros ds. destruct ds as [|d ds]; [right; intros [H _]; congruence|].
      destruct (forallb is_digit (d :: ds)) eqn:Q; [left; split; [discriminate|exact Q]|right; intros [_ H]; congruence]. }
    destruct (D t) as [N|N]; [left; exists (num t); constructor; exact N|].
    destruct t as [|b t]; [right; intros z H; inversion H; subst; contradiction|].
    destruct (Byte.byte_eq_dec b "-"%byte) as [->|Hb].
    - destruct (D t) as [N'|N']; [left; exists (- num t); constructor; exact N'|]. right. intros z H. inversion H; subst; contradiction.
    - right. intros z H. inversion H; subst; contradiction. }
  assert (forall z, int_text t z -> (Decodes X E (text (LInt t)) T v w <-> w = VInt z /\ int_range k z)) as K.
  { intros z Hz. assert (int_range k z \/ ~ int_range k z) as [Hr|Hr] by (unfold int_range; lia).
    - split; [intros H; split; [eapply decodes_det; [exact H|apply A; eassumption]|exact Hr]|intros [-> _]; apply A; assumption].
    - split; [|tauto]. intros H. exfalso. eapply decodes_fails; [exact H|apply B].
      intros z' Hz' Hr'. rewrite (int_text_det _ _ _ Hz' Hz) in Hr'. contradiction. }
  split.
  - intros H. destruct Dec as [[z Hz]|Hno].
    + apply (K z Hz) in H as [-> Hr]. apply C09_texts in Hz as [n Hn]. exists n, z. auto.
    + exfalso. eapply decodes_fails; [exact H|apply B]. intros z Hz. destruct (Hno z Hz).
  - intros (n & z & -> & Hr & Hn). apply (K z); [apply C09_texts; exists n; exact Hn|auto].
Qed.
Print Assumptions C09_decimal.
Theorem C10_decimal : forall X E T k v w t, small (text (LInt t)) -> ~ In ";"%byte t -> plain E T (KUint k) ->
  (Decodes X E (bs "i:" ++ t ++ bs ";") T v w <-> exists n z, w = VUint z /\ uint_range k z /\ t = repeat nul n ++ decimal z).
Proof.
  intros X E T k v w t Hs Hns Hp. destruct (C10_unsigned_exact X E T k v t Hs Hns Hp) as [A B].
  change (bs "i:" ++ t ++ bs ";") with (text (LInt t)).
  assert ((numeral t /\ uint_range k (num t)) \/ ~ (numeral t /\ uint_range k (num t))) as [[N R]|D].
  { destruct t as [|d ds]; [right; intros [[H _] _]; congruence|].
    destruct (forallb is_digit (d :: ds)) eqn:Q; [|right; intros [[_ H] _]; congruence].
    assert (uint_range k (num (d :: ds)) \/ ~ uint_range k (num (d :: ds))) as [Hr|Hr] by (unfold uint_range; lia); [left|right; tauto].
    split; [split; [discriminate|exact Q]|exact Hr]. }
  - specialize (A N R). destruct (proj1 (numeral_texts t (num t)) (conj N eq_refl)) as [H0 [n Q]]. split.
    + intros H. exists n, (num t). split; [eapply decodes_det; eassumption|]. split; assumption.
    + intros (n' & z & -> & [Hz _] & Q'). destruct (proj2 (numeral_texts t z) (conj Hz (ex_intro _ n' Q'))) as [_ V]. rewrite <- V. exact A.
  - split.
    + intros H. exfalso. eapply decodes_fails; [exact H|apply B; exact D].
    + intros (n & z & -> & Hr & Q). exfalso. apply D. destruct Hr as [Hz Hr].
      destruct (proj2 (numeral_texts t z) (conj Hz (ex_intro _ n Q))) as [N V]. rewrite V. split; [exact N|split; assumption].
Qed.
Print Assumptions C10_decimal.
Example C10_decimal_example : plain [] (TUint U8) (KUint U8) /\ uint_range U8 255 /\ bs "00255" = repeat nul 2 ++ decimal 255.
Proof. repeat split; cbn; lia. Qed.
Example C09_decimal_example : plain [] (TInt I64) (KInt I64) /\ int_range I64 (-9223372036854775808) /\
  bs "-09223372036854775808" = "-"%byte :: repeat nul 1 ++ decimal (- (-9223372036854775808)).
Proof. repeat split; cbn; lia. Qed.
