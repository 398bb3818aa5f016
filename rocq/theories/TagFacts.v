(** Tags.v computes what TagSpec.v says. *)
From Coq Require Import Strings.String Strings.Byte ZArith NArith List Bool Lia.
From Verif Require Import Base GoTypes NumFacts Tags TagSpec.
Import ListNotations.
Open Scope Z_scope.

(** ** Words *)

Lemma split_words t : words t (split_comma t).
Proof.
  unfold words. induction t as [|c t (H1 & H2 & H3)]; [repeat split; [discriminate|constructor; [intros []|constructor]]|].
  cbn [split_comma]. destruct (c =b ",")%byte eqn:Ec.
  - apply eqb_eq in Ec. subst c. split; [discriminate|]. split.
    + destruct (split_comma t) as [|w ws]; [congruence|]. cbn. f_equal. exact H2.
    + constructor; [intros []|exact H3].
  - destruct (split_comma t) as [|w ws]; [congruence|]. split; [discriminate|]. split.
    + destruct ws; cbn in *; f_equal; exact H2.
    + inversion H3; subst. constructor; [|assumption]. intros [->|]; [|contradiction]. rewrite eqb_refl in Ec. discriminate.
Qed.
Lemma words_unique t ws ws' : words t ws -> words t ws' -> ws = ws'.
Proof.
  intros (N & Q & F) (N' & Q' & F'). rewrite Q in Q'. clear Q. revert ws' N' Q' F'.
  induction F as [|w ws Hw F IH]; [congruence|]. intros [|w' ws'] N' Q F'; [congruence|]. inversion F' as [|? ? Hw' Fs']; subst.
  assert (forall (a a' r r' : bytes), ~ In ","%byte a -> ~ In ","%byte a' -> a ++ ","%byte :: r = a' ++ ","%byte :: r' -> a = a' /\ r = r') as S.
  { induction a as [|x a IHa]; intros [|x' a'] r r' H H' G; cbn in *.
    - injection G as ->. auto.
    - injection G as <- ?. exfalso. apply H'. auto.
    - injection G as -> ?. exfalso. apply H. auto.
    - injection G as <- G. destruct (IHa a' r r') as [-> ->]; auto. }
  destruct ws as [|w2 ws], ws' as [|w2' ws'].
  - cbn in Q. congruence.
  - exfalso. apply Hw. change (commas [w]) with w in Q. rewrite Q. change (commas (w' :: w2' :: ws')) with (w' ++ ","%byte :: commas (w2' :: ws')). rewrite in_app_iff. cbn. auto.
  - exfalso. apply Hw'. change (commas [w']) with w' in Q. rewrite <- Q. change (commas (w :: w2 :: ws)) with (w ++ ","%byte :: commas (w2 :: ws)). rewrite in_app_iff. cbn. auto.
  - change (commas (w :: w2 :: ws)) with (w ++ ","%byte :: commas (w2 :: ws)) in Q. change (commas (w' :: w2' :: ws')) with (w' ++ ","%byte :: commas (w2' :: ws')) in Q.
    apply S in Q as [-> Q]; auto. rewrite (IH ltac:(discriminate) (w2' :: ws')); auto. discriminate.
Qed.
Lemma words_iff t ws : words t ws <-> ws = split_comma t.
Proof. split; [intros H; eapply words_unique; [exact H|apply split_words]|intros ->; apply split_words]. Qed.

(** ** UTF-8 *)

Lemma lor_add a b k : (b < 2 ^ k -> N.lor (N.shiftl a k) b = a * 2 ^ k + b)%N.
Proof.
  intros H. assert (N.land (N.shiftl a k) b = 0%N) as D.
  { apply N.bits_inj. intros i. rewrite N.land_spec, N.bits_0.
    destruct (N.ltb_spec i k); [rewrite N.shiftl_spec_low by lia; reflexivity|].
    rewrite <- (N.mod_small b (2 ^ k)) by exact H. rewrite N.mod_pow2_bits_high by lia. apply andb_false_r. }
  rewrite <- N.shiftl_mul_pow2, N.add_nocarry_lxor by exact D. symmetry. apply N.lxor_lor. exact D.
Qed.
Lemma land_mod n k : (N.land n (N.ones k) = n mod 2 ^ k)%N.
Proof. apply N.land_ones. Qed.
Lemma low6_mod b : (low6 b = Byte.to_N b mod 64)%N.
Proof. unfold low6. change 63%N with (N.ones 6). rewrite land_mod. reflexivity. Qed.

Lemma byte_of_to b : byte_of (Byte.to_N b) = b.
Proof. unfold byte_of. rewrite Byte.of_to_N. reflexivity. Qed.
Lemma to_byte_of n : (n < 256)%N -> Byte.to_N (byte_of n) = n.
Proof.
  intros H. unfold byte_of. destruct (Byte.of_N n) eqn:Q; [apply Byte.to_of_N; exact Q|].
  apply Byte.of_N_None_iff in Q. lia.
Qed.
Lemma byte_lt b : (Byte.to_N b < 256)%N.
Proof. pose proof (Byte.to_N_bounded b). lia. Qed.


Lemma cont_spec lo hi b : cont_byte lo hi b = true <-> (lo <= Byte.to_N b <= hi)%N.
Proof. unfold cont_byte. rewrite andb_true_iff, !N.leb_le. tauto. Qed.
Lemma two n a : (N.lor (N.shiftl (N.land n 31) 6) (low6 a) = n mod 32 * 64 + Byte.to_N a mod 64)%N.
Proof. change 31%N with (N.ones 5). rewrite land_mod, low6_mod, lor_add; [reflexivity|]. apply N.mod_lt. discriminate. Qed.
Lemma three n a b : (N.lor (N.lor (N.shiftl (N.land n 15) 12) (N.shiftl (low6 a) 6)) (low6 b) = n mod 16 * 4096 + Byte.to_N a mod 64 * 64 + Byte.to_N b mod 64)%N.
Proof.
  change 15%N with (N.ones 4). rewrite land_mod, !low6_mod, <- N.lor_assoc.
  pose proof (N.mod_lt (Byte.to_N a) 64 ltac:(discriminate)). pose proof (N.mod_lt (Byte.to_N b) 64 ltac:(discriminate)).
  rewrite (lor_add (Byte.to_N a mod 64) _ 6) by assumption. rewrite lor_add; [change (2 ^ 4)%N with 16%N; change (2 ^ 12)%N with 4096%N; change (2 ^ 6)%N with 64%N; lia|].
  change (2 ^ 12)%N with 4096%N; change (2 ^ 6)%N with 64%N. lia.
Qed.
Lemma four n a b c : (N.lor (N.lor (N.lor (N.shiftl (N.land n 7) 18) (N.shiftl (low6 a) 12)) (N.shiftl (low6 b) 6)) (low6 c) =
  n mod 8 * 262144 + Byte.to_N a mod 64 * 4096 + Byte.to_N b mod 64 * 64 + Byte.to_N c mod 64)%N.
Proof.
  change 7%N with (N.ones 3). rewrite land_mod, !low6_mod, <- !N.lor_assoc.
  pose proof (N.mod_lt (Byte.to_N a) 64 ltac:(discriminate)). pose proof (N.mod_lt (Byte.to_N b) 64 ltac:(discriminate)). pose proof (N.mod_lt (Byte.to_N c) 64 ltac:(discriminate)).
  rewrite (lor_add (Byte.to_N b mod 64) _ 6) by assumption.
  rewrite (lor_add (Byte.to_N a mod 64) _ 12) by (change (2 ^ 12)%N with 4096%N; change (2 ^ 6)%N with 64%N; lia).
  rewrite lor_add; change (2 ^ 3)%N with 8%N; change (2 ^ 18)%N with 262144%N; change (2 ^ 12)%N with 4096%N; change (2 ^ 6)%N with 64%N; lia.
Qed.

Lemma div64 x t : (t < 64 -> (x * 64 + t) / 64 = x /\ (x * 64 + t) mod 64 = t)%N.
Proof. intros H. rewrite N.add_comm. split; [rewrite N.div_add, N.div_small by lia; lia|rewrite N.mod_add, N.mod_small by lia; lia]. Qed.
Lemma cont_mod b : (128 <= Byte.to_N b <= 191 -> Byte.to_N b mod 64 = Byte.to_N b - 128)%N.
Proof. intros H. symmetry. apply (N.mod_unique _ _ 2); lia. Qed.
Lemma digits p q s t : (q < 64 -> s < 64 -> t < 64 ->
  let r := p * 262144 + q * 4096 + s * 64 + t in r / 262144 = p /\ r / 4096 mod 64 = q /\ r / 64 mod 64 = s /\ r mod 64 = t /\ r / 4096 = p * 64 + q /\ r / 64 = (p * 64 + q) * 64 + s)%N.
Proof.
  intros Hq Hs Ht r. assert (r = ((p * 64 + q) * 64 + s) * 64 + t)%N as -> by (unfold r; lia).
  change 262144%N with (64 * (64 * 64))%N. change 4096%N with (64 * 64)%N. rewrite <- !N.div_div by discriminate.
  destruct (div64 ((p * 64 + q) * 64 + s) t Ht) as [-> ->]. destruct (div64 (p * 64 + q) s Hs) as [-> ->]. destruct (div64 p q Hq) as [-> ->]. auto 10.
Qed.
Lemma sub_small n m k : (m <= n < m + k -> n mod k = n - m \/ m mod k <> 0)%N.
Proof. intros H. destruct (N.eq_dec (m mod k) 0) as [E|]; [left|right; assumption]. destruct (N.eq_dec k 0) as [->|K]; [lia|].
  pose proof (N.div_mod m k K) as D. rewrite E in D. symmetry. apply (N.mod_unique _ _ (m / k)); lia. Qed.

Lemma decode_rune_inv c rest r w : decode_rune c rest = (r, w) -> r <> rune_error ->
  scalar_value r /\ c :: firstn (w - 1) rest = utf8 r /\ w = length (utf8 r).
Proof.
  intros H Hr. pose proof (byte_lt c) as Lc. unfold decode_rune in H. cbn zeta in H.
  assert (forall w', (rune_error, w') = (r, w) -> False) as X by (intros w' [= <- <-]; congruence).
  destruct (N.ltb_spec (Byte.to_N c) 128).
  { injection H as <- <-. split; [unfold scalar_value; lia|]. unfold utf8. destruct (N.ltb_spec (Byte.to_N c) 128); [|lia]. cbn. rewrite byte_of_to. auto. }
  destruct (N.ltb_spec (Byte.to_N c) 194); [destruct (X _ H)|].
  destruct (N.ltb_spec (Byte.to_N c) 224).
  { destruct rest as [|b1 rest]; [destruct (X _ H)|]. destruct (cont_byte 128 191 b1) eqn:C1; [|destruct (X _ H)].
    apply cont_spec in C1. rewrite two in H. injection H as Hr' <-.
    assert (128 <= r < 2048 /\ 192 + r / 64 = Byte.to_N c /\ 128 + r mod 64 = Byte.to_N b1)%N as (B & Q1 & Q2).
    { rewrite cont_mod in Hr' by lia. destruct (sub_small (Byte.to_N c) 192 32) as [M|M]; [lia| |exfalso; apply M; reflexivity]. rewrite M in Hr'.
      rewrite <- Hr'.
      destruct (div64 (Byte.to_N c - 192) (Byte.to_N b1 - 128) ltac:(lia)) as [-> ->]. lia. }
    split; [unfold scalar_value; lia|]. unfold utf8. destruct (N.ltb_spec r 128); [lia|]. destruct (N.ltb_spec r 2048); [|lia].
    cbn [map]. rewrite Q1, Q2, !byte_of_to. auto. }
  destruct (N.ltb_spec (Byte.to_N c) 240).
  { destruct rest as [|b1 [|b2 rest]]; [destruct (X _ H)..|]. destruct (_ && _) eqn:C; [|destruct (X _ H)].
    apply andb_true_iff in C as [C1 C2]. apply cont_spec in C1, C2. rewrite three in H. injection H as Hr' <-.
    assert ((2048 <= r < 55296 \/ 57344 <= r < 65536) /\ 224 + r / 4096 = Byte.to_N c /\ 128 + r / 64 mod 64 = Byte.to_N b1 /\ 128 + r mod 64 = Byte.to_N b2)%N as (B & Q1 & Q2 & Q3).
    { assert (128 <= Byte.to_N b1 <= 191)%N by (clear - C1; destruct (N.eqb_spec (Byte.to_N c) 224), (N.eqb_spec (Byte.to_N c) 237); lia).
      rewrite !cont_mod in Hr' by lia. destruct (sub_small (Byte.to_N c) 224 16) as [M|M]; [lia| |exfalso; apply M; reflexivity]. rewrite M in Hr'.
      destruct (digits 0 (Byte.to_N c - 224) (Byte.to_N b1 - 128) (Byte.to_N b2 - 128)) as (_ & _ & D2 & D3 & D4 & _); [lia..|].
      rewrite N.add_0_l, Hr' in D2, D3, D4. rewrite D2, D3, D4.
      destruct (N.eqb_spec (Byte.to_N c) 224), (N.eqb_spec (Byte.to_N c) 237); lia. }
    split; [unfold scalar_value; lia|]. unfold utf8. destruct (N.ltb_spec r 128); [lia|]. destruct (N.ltb_spec r 2048); [lia|]. destruct (N.ltb_spec r 65536); [|lia].
    cbn [map]. rewrite Q1, Q2, Q3, !byte_of_to. auto. }
  destruct (N.ltb_spec (Byte.to_N c) 245); [|destruct (X _ H)].
  destruct rest as [|b1 [|b2 [|b3 rest]]]; [destruct (X _ H)..|]. destruct (_ && _) eqn:C; [|destruct (X _ H)].
  apply andb_true_iff in C as [C C3]. apply andb_true_iff in C as [C1 C2]. apply cont_spec in C1, C2, C3. rewrite four in H. injection H as Hr' <-.
  assert ((65536 <= r < 1114112) /\ 240 + r / 262144 = Byte.to_N c /\ 128 + r / 4096 mod 64 = Byte.to_N b1 /\ 128 + r / 64 mod 64 = Byte.to_N b2 /\ 128 + r mod 64 = Byte.to_N b3)%N as (B & Q1 & Q2 & Q3 & Q4).
  { assert (128 <= Byte.to_N b1 <= 191)%N by (clear - C1; destruct (N.eqb_spec (Byte.to_N c) 240), (N.eqb_spec (Byte.to_N c) 244); lia).
    rewrite !cont_mod in Hr' by lia. destruct (sub_small (Byte.to_N c) 240 8) as [M|M]; [lia| |exfalso; apply M; reflexivity]. rewrite M in Hr'.
    destruct (digits (Byte.to_N c - 240) (Byte.to_N b1 - 128) (Byte.to_N b2 - 128) (Byte.to_N b3 - 128)) as (D1 & D2 & D3 & D4 & _ & _); [lia..|].
    rewrite Hr' in D1, D2, D3, D4. rewrite D1, D2, D3, D4.
    destruct (N.eqb_spec (Byte.to_N c) 240), (N.eqb_spec (Byte.to_N c) 244); lia. }
  split; [unfold scalar_value; lia|]. unfold utf8. destruct (N.ltb_spec r 128); [lia|]. destruct (N.ltb_spec r 2048); [lia|]. destruct (N.ltb_spec r 65536); [lia|].
  cbn [map]. rewrite Q1, Q2, Q3, Q4, !byte_of_to. auto.
Qed.

Lemma utf8_decode r : scalar_value r -> exists c l, utf8 r = c :: l /\ forall rest, decode_rune c (l ++ rest) = (r, S (length l)).
Proof.
  unfold scalar_value, utf8. intros Hr.
  destruct (N.ltb_spec r 128).
  { exists (byte_of r), []. split; [reflexivity|]. intros rest. unfold decode_rune. rewrite to_byte_of by lia. destruct (N.ltb_spec r 128); [reflexivity|lia]. }
  pose proof (N.mod_lt r 64 ltac:(discriminate)) as M0. pose proof (N.mod_lt (r / 64) 64 ltac:(discriminate)) as M1. pose proof (N.mod_lt (r / 4096) 64 ltac:(discriminate)) as M2.
  pose proof (N.div_mod r 64 ltac:(discriminate)) as D0.
  pose proof (N.div_mod (r / 64) 64 ltac:(discriminate)) as D1. rewrite N.div_div in D1 by discriminate. change (64 * 64)%N with 4096%N in D1.
  pose proof (N.div_mod (r / 4096) 64 ltac:(discriminate)) as D2. rewrite N.div_div in D2 by discriminate. change (4096 * 64)%N with 262144%N in D2.
  remember (r mod 64)%N as m0 eqn:E0. remember ((r / 64) mod 64)%N as m1 eqn:E1. remember ((r / 4096) mod 64)%N as m2 eqn:E2.
  remember (r / 262144)%N as q3 eqn:E3. remember (r / 4096)%N as q2 eqn:E4. remember (r / 64)%N as q1 eqn:E5. clear E0 E1 E2 E3 E4 E5.
  assert (forall x, x < 64 -> (128 + x) mod 64 = x)%N as K by (intros x Hx; symmetry; apply (N.mod_unique _ _ 2); lia).
  assert (forall lo hi x, 128 + x < 256 -> lo <= 128 + x <= hi -> cont_byte lo hi (byte_of (128 + x)) = true)%N as C by (intros; apply cont_spec; rewrite to_byte_of; assumption).
  destruct (N.ltb_spec r 2048).
  { exists (byte_of (192 + q1)), [byte_of (128 + m0)]. split; [reflexivity|]. intros rest. unfold decode_rune. rewrite to_byte_of by lia. cbn zeta.
    destruct (N.ltb_spec (192 + q1) 128); [lia|]. destruct (N.ltb_spec (192 + q1) 194); [lia|]. destruct (N.ltb_spec (192 + q1) 224); [|lia].
    cbn [app]. rewrite C by lia. rewrite two, to_byte_of, K by lia. f_equal.
    rewrite <- (N.mod_unique (192 + q1) 32 6 (q1)) by lia. lia. }
  destruct (N.ltb_spec r 65536).
  { exists (byte_of (224 + q2)), [byte_of (128 + m1); byte_of (128 + m0)]. split; [reflexivity|]. intros rest. unfold decode_rune. rewrite to_byte_of by lia. cbn zeta.
    destruct (N.ltb_spec (224 + q2) 128); [lia|]. destruct (N.ltb_spec (224 + q2) 194); [lia|]. destruct (N.ltb_spec (224 + q2) 224); [lia|]. destruct (N.ltb_spec (224 + q2) 240); [|lia].
    cbn [app]. rewrite C by (try lia; destruct (N.eqb_spec (224 + q2) 224), (N.eqb_spec (224 + q2) 237); lia). rewrite C by lia. cbn [andb]. rewrite three, !to_byte_of, !K by lia. f_equal.
    rewrite <- (N.mod_unique (224 + q2) 16 14 (q2)) by lia. lia. }
  exists (byte_of (240 + q3)), [byte_of (128 + m2); byte_of (128 + m1); byte_of (128 + m0)]. split; [reflexivity|]. intros rest. unfold decode_rune. rewrite to_byte_of by lia. cbn zeta.
  destruct (N.ltb_spec (240 + q3) 128); [lia|]. destruct (N.ltb_spec (240 + q3) 194); [lia|]. destruct (N.ltb_spec (240 + q3) 224); [lia|]. destruct (N.ltb_spec (240 + q3) 240); [lia|]. destruct (N.ltb_spec (240 + q3) 245); [|lia].
  cbn [app]. rewrite C by (try lia; destruct (N.eqb_spec (240 + q3) 240), (N.eqb_spec (240 + q3) 244); lia). rewrite !C by lia. cbn [andb]. rewrite four, !to_byte_of, !K by lia. f_equal.
  rewrite <- (N.mod_unique (240 + q3) 8 30 (q3)) by lia. lia.
Qed.

Lemma runes_f_utf8 : forall rs f, Forall scalar_value rs -> (length (flat_map utf8 rs) <= f)%nat -> runes_f f (flat_map utf8 rs) = rs.
Proof.
  induction rs as [|r rs IH]; intros f F L; [destruct f; reflexivity|]. inversion F as [|? ? Hr Fs]; subst.
  destruct (utf8_decode r Hr) as (c & l & Q & D). cbn [flat_map] in *. rewrite Q in *. cbn [app length] in *. rewrite app_length in L.
  destruct f as [|f]; [lia|]. cbn [runes_f]. rewrite D. f_equal. replace (S (length l) - 1)%nat with (length l + 0)%nat by lia.
  rewrite skipn_app, skipn_all2, Nat.add_sub_swap, Nat.sub_diag by lia. cbn. apply IH; [assumption|lia].
Qed.
Lemma runes_f_valid : forall f s, (length s <= f)%nat -> Forall (fun r => r <> rune_error) (runes_f f s) ->
  Forall scalar_value (runes_f f s) /\ flat_map utf8 (runes_f f s) = s.
Proof.
  induction f as [|f IH]; intros s L F; [destruct s; [split; [constructor|reflexivity]|cbn in L; lia]|]. destruct s as [|c rest]; [split; [constructor|reflexivity]|].
  cbn [runes_f] in *. destruct (decode_rune c rest) as [r w] eqn:D. inversion F as [|? ? Hr Fs]; subst.
  destruct (decode_rune_inv _ _ _ _ D Hr) as (S1 & S2 & S3). cbn [length] in L.
  destruct (IH (skipn (w - 1) rest)) as [I1 I2]; [rewrite skipn_length; lia|exact Fs|]. split; [constructor; assumption|].
  cbn [flat_map]. rewrite I2, <- S2. cbn [app]. rewrite firstn_skipn. reflexivity.
Qed.

Lemma rune_ok_iff X r : tag_rune_ok X r = true <-> name_char X r \/ (128 <= r /\ r <> rune_error)%N /\ x_letter X r = true.
Proof.
  unfold tag_rune_ok, name_char. rewrite orb_true_iff, existsb_exists. change tag_punct with punctuation. unfold rune_error.
  destruct (N.ltb_spec r 128) as [L|L].
  - rewrite !orb_true_iff, !andb_true_iff, !N.leb_le. split.
    + intros [(b & Hb & Q)|H]; [apply N.eqb_eq in Q; subst; left; left; eauto|]. left. right. lia.
    + intros [[(b & Hb & ->)|[H|[H|[H|[H _]]]]]|[H _]]; try lia. left. exists b. rewrite N.eqb_refl. auto.
  - split.
    + intros [(b & Hb & Q)|H]; [apply N.eqb_eq in Q; subst; left; left; eauto|]. destruct (N.eqb_spec r 65533); [discriminate|]. right. auto.
    + intros [[(b & Hb & ->)|[H|[H|[H|[H1 H2]]]]]|[H1 H2]]; try lia.
      * left. exists b. rewrite N.eqb_refl. auto.
      * right. destruct (N.eqb_spec r 65533); [lia|]. exact H2.
      * right. destruct (N.eqb_spec r 65533); [lia|]. exact H2.
Qed.
Lemma punct_ascii b : In b punctuation -> (Byte.to_N b < 128)%N.
Proof. assert (Forall (fun b => Byte.to_N b < 128)%N punctuation) as F by (repeat constructor). rewrite Forall_forall in F. apply F. Qed.
Lemma name_char_scalar X r : name_char X r -> scalar_value r /\ r <> rune_error.
Proof.
  unfold rune_error. intros [(b & Hb & ->)|[H|[H|[H|[(H1 & H2 & H3) _]]]]]; [apply punct_ascii in Hb; unfold scalar_value; lia|unfold scalar_value; lia..|auto].
Qed.
Lemma valid_iff X s : is_valid_tag X s = true <-> valid_name X s.
Proof.
  unfold is_valid_tag, valid_name, runes. split.
  - destruct s as [|c s]; [discriminate|]. intros H. rewrite forallb_forall in H.
    destruct (runes_f_valid (length (c :: s)) (c :: s) (le_n _)) as [S1 S2].
    { rewrite Forall_forall. intros r Hr. apply H in Hr. apply rune_ok_iff in Hr as [Hr|[Hr _]]; [apply name_char_scalar in Hr; tauto|tauto]. }
    exists (runes_f (length (c :: s)) (c :: s)). split; [|split; [|symmetry; exact S2]].
    + intros Q. rewrite Q in S2. discriminate.
    + rewrite Forall_forall in *. intros r Hr. pose proof (S1 r Hr). apply H in Hr. apply rune_ok_iff in Hr as [Hr|[[Hr Hn] Hx]]; [exact Hr|].
      unfold name_char. right; right; right; right. auto.
  - intros (rs & N & F & ->). assert (Forall scalar_value rs) as Fs by (eapply Forall_impl; [|exact F]; intros r Hr; apply name_char_scalar in Hr; tauto).
    destruct (flat_map utf8 rs) as [|c s] eqn:Q.
    + destruct rs as [|r rs]; [congruence|]. cbn in Q. inversion Fs; subst. destruct (utf8_decode r) as (c & l & Q' & _); [assumption|]. rewrite Q' in Q. discriminate.
    + rewrite <- Q. rewrite runes_f_utf8 by auto. apply forallb_forall. rewrite Forall_forall in F. intros r Hr. apply rune_ok_iff. auto.
Qed.

(** ** Tags *)

Lemma tag_words f : exists w ws, words (f_tag f) (w :: ws) /\ split_comma (f_tag f) = w :: ws.
Proof. pose proof (split_words (f_tag f)) as H. destruct (split_comma (f_tag f)) as [|w ws]; [destruct H; congruence|eauto]. Qed.
Lemma words_head f w ws w' ws' : words (f_tag f) (w :: ws) -> words (f_tag f) (w' :: ws') -> w = w' /\ ws = ws'.
Proof. intros H H'. pose proof (words_unique _ _ _ H H') as Q. injection Q as -> ->. auto. Qed.
Lemma valid_nonempty X s : valid_name X s -> s <> [].
Proof. intros H ->. apply valid_iff in H. discriminate. Qed.
Lemma tag_key_iff X f k : named X f k <-> k = tag_key (tag_of X f).
Proof.
  destruct (tag_words f) as (w & ws & W & Q). unfold tag_of. rewrite Q. cbn [tag_key].
  assert ((match w with [] => f_name f | _ => if is_valid_tag X w then w else f_name f end) = if is_valid_tag X w then w else f_name f) as -> by (destruct w; reflexivity).
  destruct (is_valid_tag X w) eqn:V.
  - pose proof V as V'. apply valid_iff in V'. split; [|intros ->; econstructor; eauto].
    intros [w' ws' W' _|w' ws' W' N]; destruct (words_head _ _ _ _ _ W W') as [<- <-]; [reflexivity|contradiction].
  - assert (~ valid_name X w) as V' by (rewrite <- valid_iff; congruence). split; [|intros ->; eapply nm_field; eauto].
    intros [w' ws' W' N|w' ws' W' _]; destruct (words_head _ _ _ _ _ W W') as [<- <-]; [contradiction|reflexivity].
Qed.
Lemma option_iff f o : with_option f o <-> exists w ws, split_comma (f_tag f) = w :: ws /\ In o ws.
Proof.
  split.
  - intros (w & ws & W & I). apply words_iff in W. eauto.
  - intros (w & ws & Q & I). exists w, ws. split; [|exact I]. apply words_iff. congruence.
Qed.
Lemma existsb_in (o : bytes) ws : existsb (bytes_eqb o) ws = true <-> In o ws.
Proof.
  rewrite existsb_exists. split; [intros (x & I & Q); apply bytes_eqb_eq in Q; subst; exact I|]. intros I. exists o. split; [exact I|]. apply bytes_eqb_eq. reflexivity.
Qed.
Lemma omitempty_iff X f : tag_omitempty (tag_of X f) = true <-> with_option f (bs "omitempty").
Proof.
  rewrite option_iff. unfold tag_of. destruct (split_comma (f_tag f)) as [|w ws].
  - split; [discriminate|]. intros (w & ws & Q & _). discriminate.
  - cbn [tag_omitempty]. rewrite existsb_in. split; [eauto|]. intros (w' & ws' & [= <- <-] & I). exact I.
Qed.
Lemma string_iff X f : tag_string (tag_of X f) = true <-> with_option f (bs "string").
Proof.
  rewrite option_iff. unfold tag_of. destruct (split_comma (f_tag f)) as [|w ws].
  - split; [discriminate|]. intros (w & ws & Q & _). discriminate.
  - cbn [tag_string]. rewrite existsb_in. split; [eauto|]. intros (w' & ws' & [= <- <-] & I). exact I.
Qed.
