(** Decoding the same bytes behind a prefix: same result, same error, with the
    cursors moved.  (Provided that neither depth reaches the limit.) *)
From Coq Require Import Strings.String Strings.Byte ZArith List Bool Lia Floats.SpecFloat.
From Verif Require Import Base GoTypes Strconv Tags Scan Decode Grammar Denote Context NumFacts LocalFacts SliceHead.
Import ListNotations.
Open Scope Z_scope.

Lemma braces_nonneg s : 0 <= braces s.
Proof. apply blen_nonneg. Qed.
Lemma braces_app a s : braces (a ++ s) = braces a + braces s.
Proof. unfold braces. rewrite filter_app. apply blen_app. Qed.
Lemma skipn_S {A} (l : list A) n x : nth_error l n = Some x -> skipn n l = x :: skipn (S n) l.
Proof. revert n. induction l as [|y l IH]; intros [|n]; cbn; try discriminate; [intros [= <-]; reflexivity|apply IH]. Qed.

Section Shift.
  Context (pre b : bytes) (Hsm : small (pre ++ b)).
  Let b' := pre ++ b.
  Let k := blen pre.

  Lemma k_nonneg : 0 <= k. Proof. apply blen_nonneg. Qed.
  Lemma s_len : blen b' = blen b + k.
  Proof. unfold b', k. rewrite blen_app. lia. Qed.
  Lemma s_length : (length b <= length b')%nat.
  Proof. unfold b'. rewrite app_length. lia. Qed.
  Lemma s_rd c : 0 <= c -> rd b' (c + k) = rd b c.
  Proof.
    intros H. unfold rd, b'. pose proof k_nonneg as K. unfold k in *. rewrite (proj2 (Z.leb_le 0 c)), (proj2 (Z.leb_le 0 (c + blen pre))) by lia.
    replace (Z.to_nat (c + blen pre)) with (length pre + Z.to_nat c)%nat by (unfold blen; lia).
    rewrite nth_error_app2 by lia. now replace (length pre + Z.to_nat c - length pre)%nat with (Z.to_nat c) by lia.
  Qed.
  Lemma s_has c : 0 <= c -> has_byte b' (c + k) = has_byte b c.
  Proof.
    intros H. unfold has_byte. rewrite s_len. pose proof k_nonneg. rewrite (proj2 (Z.leb_le 0 c)), (proj2 (Z.leb_le 0 (c + k))) by lia.
    destruct (Z.ltb_spec c (blen b)), (Z.ltb_spec (c + k) (blen b + k)); auto; lia.
  Qed.
  Lemma s_has_bytes c n : 0 <= c -> has_bytes b' (c + k) n = has_bytes b c n.
  Proof.
    intros H. unfold has_bytes. rewrite s_len. pose proof k_nonneg. rewrite (proj2 (Z.leb_le 0 c)), (proj2 (Z.leb_le 0 (c + k))) by lia.
    destruct (Z.leb_spec c (blen b - n)), (Z.leb_spec (c + k) (blen b + k - n)); auto; lia.
  Qed.
  Lemma s_sub i j : 0 <= i -> sub b' (i + k) (j + k) = sub b i j.
  Proof.
    intros H. unfold sub. rewrite s_len. pose proof k_nonneg as K. rewrite (proj2 (Z.leb_le 0 i)), (proj2 (Z.leb_le 0 (i + k))) by lia.
    replace (i + k <=? j + k) with (i <=? j) by (destruct (Z.leb_spec i j), (Z.leb_spec (i + k) (j + k)); auto; lia).
    replace (j + k <=? blen b + k) with (j <=? blen b) by (destruct (Z.leb_spec j (blen b)), (Z.leb_spec (j + k) (blen b + k)); auto; lia).
    replace (j + k - (i + k)) with (j - i) by lia. unfold b'.
    replace (Z.to_nat (i + k)) with (Z.to_nat i + length pre)%nat by (unfold k, blen; lia). rewrite skipn_add.
    rewrite (skipn_app (length pre)), skipn_all, Nat.sub_diag. reflexivity.
  Qed.

  (** what is left to nest *)
  Definition br (c : Z) : Z := braces (skipn (Z.to_nat c) b).
  Lemma br_nonneg c : 0 <= br c. Proof. apply braces_nonneg. Qed.
  Lemma br_le c c' : 0 <= c <= c' -> br c' <= br c.
  Proof.
    intros H. unfold br. rewrite <- (firstn_skipn (Z.to_nat (c' - c)) (skipn (Z.to_nat c) b)), braces_app.
    rewrite <- skipn_add. replace (Z.to_nat (c' - c) + Z.to_nat c)%nat with (Z.to_nat c') by lia.
    pose proof (braces_nonneg (firstn (Z.to_nat (c' - c)) (skipn (Z.to_nat c) b))). lia.
  Qed.
  Lemma br_open c x : 0 <= c <= x -> rd b x = ROk "{"%byte -> br (x + 1) < br c.
  Proof.
    intros H Hr. apply Z.lt_le_trans with (br x); [|apply br_le; lia]. unfold rd in Hr. rewrite (proj2 (Z.leb_le 0 x)) in Hr by lia.
    destruct (nth_error b (Z.to_nat x)) as [y|] eqn:Ey; [|discriminate Hr]. injection Hr as ->. unfold br.
    rewrite (skipn_S _ _ _ Ey). replace (Z.to_nat (x + 1)) with (S (Z.to_nat x)) by lia.
    unfold braces. cbn [filter]. change ("{"%byte =b "{"%byte) with true. unfold blen. cbn [length]. lia.
  Qed.
  Definition dok (c d : Z) : Prop := d + br c < max_depth.
  Lemma dok_le c c' d : dok c d -> 0 <= c <= c' -> dok c' d.
  Proof. unfold dok. intros H Hc. pose proof (br_le c c' Hc). lia. Qed.
  Lemma dok_open c x d : dok c d -> 0 <= c <= x -> rd b x = ROk "{"%byte -> dok (x + 1) (d + 1).
  Proof. unfold dok. intros H Hc Hr. pose proof (br_open c x Hc Hr). lia. Qed.
  Lemma dok_check c d : dok c d -> (max_depth <? d + 1) = false.
  Proof. intros H. apply Z.ltb_ge. unfold dok in H. pose proof (br_nonneg c). lia. Qed.

  (** ** Related results *)
  Definition mved (e e' : error) : Prop := moved b k e e' /\ (k = 0 -> e' = e).
  Definition SR {A} (Q : A -> A -> Prop) (r r' : R A) : Prop :=
    match r with
    | ROk a => exists a', r' = ROk a' /\ Q a a'
    | RErr e => exists e', r' = RErr e' /\ mved e e'
    | RPanic p => r' = RPanic p
    | RFuel => True
    end.
  Lemma SR_bind {A B} (P : A -> A -> Prop) (Q : B -> B -> Prop) r r' (f f' : A -> R B) :
    SR P r r' -> (forall a a', P a a' -> SR Q (f a) (f' a')) -> SR Q (bind r f) (bind r' f').
  Proof.
    intros H K. destruct r; cbn [SR bind] in *.
    - destruct H as (a' & -> & h). apply K, h.
    - destruct H as (e' & -> & h). exists e'. split; [reflexivity|exact h].
    - subst r'. reflexivity.
    - exact I.
  Qed.
  Lemma SR_imp {A} (P Q : A -> A -> Prop) r r' : SR P r r' -> (forall a a', P a a' -> Q a a') -> SR Q r r'.
  Proof. intros H K. destruct r; cbn [SR] in *; auto. destruct H as (a' & -> & h). eauto. Qed.
  Lemma SR_ok {A} (Q : A -> A -> Prop) a a' : Q a a' -> SR Q (ROk a) (ROk a').
  Proof. intros H. exists a'. auto. Qed.
  Lemma SR_syn {A} (Q : A -> A -> Prop) x y w : y = x + k -> SR Q (RErr (ESyntax x w)) (RErr (ESyntax y w)).
  Proof. intros ->. eexists. split; [reflexivity|]. split; [eexists; split; [reflexivity|auto]|]. intros ->. f_equal. lia. Qed.
  Lemma SR_user {A} (Q : A -> A -> Prop) e : match e with ESyntax _ _ | EType _ => False | _ => True end -> SR Q (RErr e) (RErr e).
  Proof. intros H. exists e. split; [reflexivity|]. split; [|reflexivity]. destruct e; try destruct H; reflexivity. Qed.
  Lemma SR_typ {A} (Q : A -> A -> Prop) x y : y = x + k -> SR Q (RErr (EType x)) (RErr (EType y)).
  Proof. intros ->. eexists. split; [reflexivity|]. split; [reflexivity|]. intros ->. f_equal. lia. Qed.
  Definition mv (c a a' : Z) : Prop := c <= a /\ a' = a + k.
  Definition mv2 {A} (c : Z) (p p' : A * Z) : Prop := fst p' = fst p /\ mv c (snd p) (snd p').
  Definition same {A} (x y : A) : Prop := x = y.

  Ltac inr := unfold mv2, mv in *; cbn [fst snd] in *; lia.
  Ltac go1 := match goal with
    | |- SR _ (if negb (has_byte b ?x) then _ else _) (if negb (has_byte _ ?y) then _ else _) =>
        replace (has_byte b' y) with (has_byte b x) by (replace y with (x + k) by inr; symmetry; apply s_has; inr);
        let Q := fresh "Hb" in destruct (has_byte b x) eqn:Q; cbn [negb]
    | |- SR _ (if negb (has_bytes b ?x ?n) then _ else _) (if negb (has_bytes _ ?y _) then _ else _) =>
        replace (has_bytes b' y n) with (has_bytes b x n) by (replace y with (x + k) by inr; symmetry; apply s_has_bytes; inr);
        let Q := fresh "Hb" in destruct (has_bytes b x n) eqn:Q; cbn [negb]
    | |- SR _ (bind (rd b ?x) _) (bind (rd _ ?y) _) =>
        replace (rd b' y) with (rd b x) by (replace y with (x + k) by inr; symmetry; apply s_rd; inr);
        let z := fresh "x" in let Hr := fresh "Hr" in destruct (rd b x) as [z|?e|?p|] eqn:Hr; cbn [bind];
        [|exfalso; revert Hr; unfold rd; repeat (match goal with |- context [match ?u with _ => _ end] => destruct u end); discriminate|reflexivity|exact I]
    | |- SR _ (if negb ?t then _ else _) _ => let Q := fresh "Ht" in destruct t eqn:Q; cbn [negb]
    | |- SR _ (if ?t then _ else _) (if ?t then _ else _) => let Q := fresh "Ht" in destruct t eqn:Q
    | |- SR _ (ROk _) _ => apply SR_ok; try exact I; try (split; [reflexivity|]); try inr
    | |- SR _ (RErr (ESyntax _ _)) _ => apply SR_syn; inr
    | |- SR _ (RErr (EType _)) _ => apply SR_typ; inr
    | |- SR _ (RPanic _) _ => reflexivity
    | |- SR _ RFuel _ => exact I
    end.
  Ltac go := repeat go1.

  Lemma s_scan_n p : forall n n' c, (n <= n')%nat -> 0 <= c -> blen b <= c + Z.of_nat n -> SR (mv c) (scan_while p b n c) (scan_while p b' n' (c + k)).
  Proof.
    induction n as [|n IH]; intros n' c Hn Hc Hl.
    { cbn [scan_while]. destruct n' as [|n']; cbn [scan_while]; [go|]. rewrite s_has by lia. unfold has_byte.
      rewrite (proj2 (Z.ltb_ge c (blen b))), andb_false_r by lia. go. }
    destruct n' as [|n']; [lia|]. cbn [scan_while].
    rewrite s_has by lia. destruct (has_byte b c); [|go]. go1. destruct (p x); [|go].
    replace (c + k + 1) with (c + 1 + k) by lia. eapply SR_imp; [apply IH; lia|]. intros a a' h. inr.
  Qed.
  Lemma s_scan p c : 0 <= c -> SR (mv c) (scan_while p b (length b) c) (scan_while p b' (length b') (c + k)).
  Proof. intros Hc. apply s_scan_n; [apply s_length|lia|unfold blen; lia]. Qed.
  Lemma s_skip_length c : 0 <= c -> SR (mv c) (skip_length b c) (skip_length b' (c + k)).
  Proof.
    intros Hc. unfold skip_length. go1; [|go]. go1. go1; [|go]. replace (c + k + 1) with (c + 1 + k) by lia.
    eapply SR_bind; [apply s_scan; lia|]. intros a a' [h ->].
    replace (a + k =? c + 1 + k) with (a =? c + 1) by (destruct (Z.eqb_spec a (c + 1)), (Z.eqb_spec (a + k) (c + 1 + k)); auto; lia). go.
  Qed.
  Lemma s_read_length c : 0 <= c -> SR (fun p p' => 0 <= fst p <= max_int64 /\ mv2 c p p') (read_length b c) (read_length b' (c + k)).
  Proof.
    intros Hc. unfold read_length. eapply SR_bind; [apply s_skip_length, Hc|]. intros a a' [h ->].
    replace (c + k + 1) with (c + 1 + k) by lia. replace (a + k - 1) with (a - 1 + k) by lia. rewrite s_sub by lia.
    destruct (sub b (c + 1) (a - 1)) as [s|e|p|] eqn:Es; cbn [bind]; [| |reflexivity|exact I].
    2:{ exfalso. revert Es. unfold sub. destruct (_ && _); discriminate. }
    destruct (parse_int64 s) as [z|] eqn:Ep; [|go]. apply parse_int64_some in Ep as [_ Ep].
    destruct (z <? 0) eqn:Ez; [go|]. apply Z.ltb_ge in Ez. apply SR_ok. split; [cbn [fst]; lia|]. split; [reflexivity|]. inr.
  Qed.
  Lemma s_class c : 0 <= c -> SR (mv c) (skip_class_name b c) (skip_class_name b' (c + k)).
  Proof.
    intros Hc. unfold skip_class_name. go1; [|go]. go1. go1; [|go]. replace (c + k + 1) with (c + 1 + k) by lia.
    eapply SR_bind; [apply s_read_length; lia|]. intros [n st] [n' st'] [h1 [h2 [h3 h4]]]. cbn [fst snd] in *. subst n' st'.
    go1; [|go]. go1. go1; [|go]. cbv zeta.
    assert (0 <= st < blen b) as Hst by (unfold has_byte in Hb0; rewrite andb_true_iff, Z.leb_le, Z.ltb_lt in Hb0; lia).
    pose proof k_nonneg as K. pose proof s_len as SL. assert (blen b + k < 2 ^ 62) as Hs by (unfold small in Hsm; fold b' in Hsm; lia).
    destruct (Z_lt_ge_dec (st + n + 1 + k) (2 ^ 63)) as [h|h].
    - rewrite !wrap64_id by (unfold min_int64, max_int64; lia).
      replace (has_bytes b' (st + k + n + 1) 2) with (has_bytes b (st + n + 1) 2).
      2:{ replace (st + k + n + 1) with (st + n + 1 + k) by lia. symmetry. apply s_has_bytes. lia. }
      go.
    - assert (has_bytes b (wrap64 (st + n + 1)) 2 = false) as ->.
      { unfold has_bytes. apply andb_false_iff. destruct (Z_lt_ge_dec (st + n + 1) (2 ^ 63)).
        - right. rewrite wrap64_id by (unfold min_int64, max_int64; lia). apply Z.leb_gt. lia.
        - left. apply andb_false_iff. left. apply Z.leb_gt. unfold wrap64, max_int64 in *.
          assert ((st + n + 1 + 2 ^ 63) mod 2 ^ 64 = st + n + 1 + 2 ^ 63 - 2 ^ 64) as e by (symmetry; apply (Zmod_unique _ _ 1); lia). lia. }
      assert (has_bytes b' (wrap64 (st + k + n + 1)) 2 = false) as ->.
      { unfold has_bytes. apply andb_false_iff. left. apply andb_false_iff. left. apply Z.leb_gt. unfold wrap64, max_int64 in *.
        assert ((st + k + n + 1 + 2 ^ 63) mod 2 ^ 64 = st + k + n + 1 + 2 ^ 63 - 2 ^ 64) as e by (symmetry; apply (Zmod_unique _ _ 1); lia). lia. }
      cbn [negb]. eexists. split; [reflexivity|]. split; [|intros ->; do 2 f_equal; lia]. eexists. split; [reflexivity|]. intros Ho. exfalso.
      destruct (Z_lt_ge_dec (st + n + 1) (2 ^ 63)).
      + rewrite wrap64_id in Ho by (unfold min_int64, max_int64; lia). lia.
      + unfold wrap64, max_int64 in *.
        assert ((st + n + 1 + 2 ^ 63) mod 2 ^ 64 = st + n + 1 + 2 ^ 63 - 2 ^ 64) as e by (symmetry; apply (Zmod_unique _ _ 1); lia). lia.
  Qed.
  Lemma s_null c : 0 <= c -> SR same (validate_null b c) (validate_null b' (c + k)).
  Proof.
    intros Hc. unfold validate_null. rewrite s_len.
    replace (blen b + k <=? c + k + 1) with (blen b <=? c + 1) by (destruct (Z.leb_spec (blen b) (c + 1)), (Z.leb_spec (blen b + k) (c + k + 1)); auto; lia).
    go. reflexivity.
  Qed.
  Lemma s_empty_array c : 0 <= c -> SR same (validate_empty_array b c) (validate_empty_array b' (c + k)).
  Proof.
    intros Hc. unfold validate_empty_array. rewrite s_len.
    replace (blen b + k <? c + k + 4) with (blen b <? c + 4) by (destruct (Z.ltb_spec (blen b) (c + 4)), (Z.ltb_spec (blen b + k) (c + k + 4)); auto; lia).
    go. reflexivity.
  Qed.
  Ltac sub_ := match goal with |- SR _ (bind (sub b ?i ?j) _) (bind (sub _ ?i' ?j') _) =>
    replace (sub b' i' j') with (sub b i j) by (replace j' with (j + k) by inr; replace i' with (i + k) by inr; symmetry; apply s_sub; inr);
    let Es := fresh "Es" in destruct (sub b i j) as [?s|?e|?p|] eqn:Es; cbn [bind]; [|exfalso; revert Es; unfold sub; destruct (_ && _); discriminate|reflexivity|exact I] end.
  Lemma s_string c : 0 <= c -> SR (mv2 c) (read_string b c) (read_string b' (c + k)).
  Proof.
    intros Hc. unfold read_string. eapply SR_bind; [apply s_read_length; lia|]. intros [n st] [n' st'] [h1 [h2 [h3 h4]]]. cbn [fst snd] in *. subst n' st'.
    go1; [|go]. go1. go1; [|go]. cbv zeta. go1; [|go]. go1. go1; [|go]. go1. go1; [|go]. sub_. go.
  Qed.
  Lemma s_integer c : 0 <= c -> SR (mv2 c) (read_integer_bytes b c) (read_integer_bytes b' (c + k)).
  Proof.
    intros Hc. unfold read_integer_bytes. go1; [|go]. go1. go1; [|go]. go1; [|go]. go1. go1; [|go]. cbv zeta. go1.
    replace (if x1 =b "-"%byte then c + k + 2 + 1 else c + k + 2) with ((if x1 =b "-"%byte then c + 2 + 1 else c + 2) + k) by (destruct (x1 =b "-"%byte); lia).
    set (st := if x1 =b "-"%byte then c + 2 + 1 else c + 2). assert (c + 2 <= st) as Hst by (unfold st; destruct (x1 =b "-"%byte); lia). clearbody st.
    eapply SR_bind; [apply s_scan; lia|]. intros a a' [h ->].
    replace (a + k =? st + k) with (a =? st) by (destruct (Z.eqb_spec a st), (Z.eqb_spec (a + k) (st + k)); auto; lia).
    go1; [go|]. go1; [|go]. go1. go1; [|go]. sub_. go.
  Qed.
  Lemma s_float c : 0 <= c -> SR (mv2 c) (read_float_bytes b c) (read_float_bytes b' (c + k)).
  Proof.
    intros Hc. unfold read_float_bytes. go1; [|go]. go1. go1; [|go]. go1; [|go]. go1. go1; [|go]. cbv zeta.
    replace (c + k + 2) with (c + 2 + k) by lia.
    eapply SR_bind; [apply s_scan; lia|]. intros a a' [h ->].
    replace (a + k =? c + 2 + k) with (a =? c + 2) by (destruct (Z.eqb_spec a (c + 2)), (Z.eqb_spec (a + k) (c + 2 + k)); auto; lia).
    go1; [go|]. go1; [|go]. sub_. go.
  Qed.
  Lemma s_bool c : 0 <= c -> SR same (read_bool b c) (read_bool b' (c + k)).
  Proof.
    intros Hc. unfold read_bool. go1; [|go]. go1. go1; [|go]. go1. go1; [|go]. go1.
    eapply (SR_bind same); [go; reflexivity|]. intros v v' <-. go. reflexivity.
  Qed.
  Lemma s_skip_int c : 0 <= c -> SR (mv c) (skip_int b c) (skip_int b' (c + k)).
  Proof. intros Hc. unfold skip_int. eapply SR_bind; [apply s_integer, Hc|]. intros [s a] [s' a'] [_ h]. apply SR_ok. exact h. Qed.
  Lemma s_skip_string c : 0 <= c -> SR (mv c) (skip_string b c) (skip_string b' (c + k)).
  Proof.
    intros Hc. unfold skip_string. go1; [|go]. go1. go1; [|go]. replace (c + k + 1) with (c + 1 + k) by lia.
    eapply SR_bind; [apply s_string; lia|]. intros [s a] [s' a'] [_ h]. apply SR_ok. inr.
  Qed.
  (** the two depths *)
  Definition skips (c0 : Z) (sk sk' : Z -> R Z) : Prop := forall c, c0 <= c -> SR (mv c) (sk c) (sk' (c + k)).
  Lemma s_entries c0 sk sk' : skips c0 sk sk' -> forall n n' len c, (n <= n')%nat -> c0 <= c -> SR (mv c) (skip_entries sk n len c) (skip_entries sk' n' len (c + k)).
  Proof.
    intros Hs. induction n as [|n IH]; intros n' len c Hn Hc.
    - cbn [skip_entries]. destruct (len <=? 0) eqn:El; [|exact I]. destruct n'; cbn [skip_entries]; rewrite El; apply SR_ok; inr.
    - destruct n' as [|n']; [lia|]. cbn [skip_entries]. destruct (len <=? 0); [apply SR_ok; inr|].
      eapply SR_bind; [apply Hs, Hc|]. intros a a' [h ->]. eapply SR_bind; [apply Hs; lia|]. intros a2 a2' [h2 ->].
      eapply SR_imp; [apply IH; lia|]. intros x x' q. inr.
  Qed.
  Lemma s_skip_array c d d' sk sk' : 0 <= c -> dok c d -> dok c d' ->
    (forall x, c <= x -> rd b x = ROk "{"%byte -> skips (x + 1) sk sk') ->
    SR (mv c) (skip_array sk b c (d + 1)) (skip_array sk' b' (c + k) (d' + 1)).
  Proof.
    intros Hc Hd Hd' Hs. unfold skip_array. rewrite (dok_check c d Hd), (dok_check c d' Hd').
    eapply SR_bind; [apply s_read_length; lia|]. intros [n st] [n' st'] [h1 [h2 [h3 h4]]]. cbn [fst snd] in *. subst n' st'.
    go1; [|go]. go1. go1; [|go]. apply eqb_eq in Ht. subst x. replace (st + k + 1) with (st + 1 + k) by lia.
    eapply SR_bind; [apply (s_entries (st + 1)); [apply Hs; [lia|exact Hr]|apply s_length|lia]|]. intros a a' [h ->]. go.
  Qed.
  Lemma s_skip_value : forall f f' c d d', (f <= f')%nat -> 0 <= c -> dok c d -> dok c d' ->
    SR (mv c) (skip_value_f f b c d) (skip_value_f f' b' (c + k) d').
  Proof.
    induction f as [|f IH]; intros f' c d d' Hf Hc Hd Hd'; [exact I|]. destruct f' as [|f']; [lia|]. cbn [skip_value_f]. cbv zeta.
    go1; [|go]. go1.
    assert (forall c1, c <= c1 -> SR (mv c) (skip_array (fun c => skip_value_f f b c (d + 1)) b (c1 + 1) (d + 1))
                                       (skip_array (fun c => skip_value_f f' b' c (d' + 1)) b' (c1 + k + 1) (d' + 1))) as A.
    { intros c1 h1. replace (c1 + k + 1) with (c1 + 1 + k) by lia.
      assert (dok (c1 + 1) d) as D1 by (eapply dok_le; [exact Hd|lia]). assert (dok (c1 + 1) d') as D2 by (eapply dok_le; [exact Hd'|lia]).
      eapply SR_imp; [apply s_skip_array; [lia|exact D1|exact D2|]|].
      - intros y hy Hy c2 h2. apply IH; [lia|lia|..].
        + eapply dok_le; [apply (dok_open (c1 + 1) y d D1); [lia|exact Hy]|lia].
        + eapply dok_le; [apply (dok_open (c1 + 1) y d' D2); [lia|exact Hy]|lia].
      - intros a a' q. inr. }
    destruct (x =b "O"%byte).
    { eapply SR_bind; [apply (s_class c Hc)|]. intros a a' [h ->]. apply A, h. }
    destruct (x =b "a"%byte); [apply A; lia|].
    destruct (x =b "s"%byte); [apply s_skip_string; auto|].
    destruct (x =b "d"%byte); [eapply SR_bind; [apply s_float; auto|]; intros [s a] [s' a'] [_ h]; apply SR_ok; exact h|].
    destruct (x =b "i"%byte); [apply s_skip_int; auto|].
    destruct (x =b "b"%byte); [eapply SR_bind; [apply s_bool; auto|]; intros v v' _; apply SR_ok; inr|].
    destruct (x =b "N"%byte); [eapply SR_bind; [apply s_null; auto|]; intros v v' _; apply SR_ok; inr|]. go.
  Qed.
  Lemma s_skip c d d' : 0 <= c -> dok c d -> dok c d' -> SR (mv c) (skip_value b c d) (skip_value b' (c + k) d').
  Proof. intros. unfold skip_value. apply s_skip_value; auto. pose proof s_length. lia. Qed.
  Lemma s_read_int c : 0 <= c -> SR (mv2 c) (read_int b c) (read_int b' (c + k)).
  Proof.
    intros Hc. unfold read_int. eapply SR_bind; [apply s_integer, Hc|]. intros [s a] [s' a'] [h1 [h2 h3]]. cbn [fst snd] in *. subst s' a'.
    destruct (parse_int64 s); go.
  Qed.

  (** ** Decoders *)
  Definition SD {A} (c : Z) (r r' : A * R Z) : Prop :=
    match snd r with RFuel => True | _ => fst r' = fst r /\ SR (mv c) (snd r) (snd r') end.
  Lemma SD_intro {A} c (v : A) r r' : SR (mv c) r r' -> SD c (v, r) (v, r').
  Proof. intros H. unfold SD. cbn [fst snd]. destruct r; auto. Qed.
  Lemma SD_fail {A B} (P : A -> A -> Prop) c (v : B) r r' : SR P r r' -> match r with ROk _ => False | _ => True end -> SD c (v, fail r) (v, fail r').
  Proof.
    intros H h. unfold SD. cbn [fst snd]. destruct r; cbn [fail SR] in *; [destruct h|..]; auto.
    - destruct H as (e' & -> & q). split; [reflexivity|]. exists e'. auto.
    - subst r'. split; reflexivity.
  Qed.
  Lemma SD_le {A} c c' (r r' : A * R Z) : SD c' r r' -> c <= c' -> SD c r r'.
  Proof.
    intros H hc. unfold SD in *. destruct (snd r) eqn:Er; auto. destruct H as [h1 h2]. split; [exact h1|].
    eapply SR_imp; [exact h2|]. intros x x' q. inr.
  Qed.
  Lemma s_string_bytes c : 0 <= c -> SR (mv2 c) (decode_string_bytes b c) (decode_string_bytes b' (c + k)).
  Proof.
    intros Hc. unfold decode_string_bytes. go1; [|go]. go1. go1; [eapply SR_bind; [apply s_null, Hc|]; intros u u' _; apply SR_ok; split; [reflexivity|inr]|].
    go1; [go|]. go1; [|go]. replace (c + k + 1) with (c + 1 + k) by lia. eapply SR_bind; [apply s_string; lia|].
    intros [s a] [s' a'] [h1 h2]. cbn [fst snd] in *. subst s'. apply SR_ok. split; [reflexivity|inr].
  Qed.
  Lemma s_int_bytes c : 0 <= c -> SR (mv2 c) (decode_int_bytes b c) (decode_int_bytes b' (c + k)).
  Proof.
    intros Hc. unfold decode_int_bytes. go1; [|go]. go1. go1; [eapply SR_bind; [apply s_null, Hc|]; intros u u' _; apply SR_ok; split; [reflexivity|inr]|].
    eapply SR_bind; [apply s_integer, Hc|]. intros [s a] [s' a'] [h1 h2]. cbn [fst snd] in *. subst s'. apply SR_ok. split; [reflexivity|inr].
  Qed.
  Lemma s_float_bytes c : 0 <= c -> SR (mv2 c) (decode_float_bytes b c) (decode_float_bytes b' (c + k)).
  Proof.
    intros Hc. unfold decode_float_bytes. go1; [|go]. go1. go1; [eapply SR_bind; [apply s_null, Hc|]; intros u u' _; apply SR_ok; split; [reflexivity|inr]|].
    go1; [|go]. eapply SR_bind; [apply s_float, Hc|]. intros [s a] [s' a'] [h1 h2]. cbn [fst snd] in *. subst s'. apply SR_ok. split; [reflexivity|inr].
  Qed.
  (** [process] is at the cursor it is given *)
  Lemma s_text c r r' process process' rv : SR (mv2 c) r r' ->
    (forall t a rv, c <= a -> SD c (process t a rv) (process' t (a + k) rv)) ->
    SD c (dec_text r process rv) (dec_text r' process' rv).
  Proof.
    intros H Hp. unfold dec_text. destruct r as [[o a]|e|p|]; cbn [SR] in H.
    - destruct H as ([o' a'] & -> & h1 & h2 & h3). cbn [fst snd] in *. subst o' a'. destruct o as [t|]; [apply Hp, h2|]. apply SD_intro, SR_ok. inr.
    - destruct H as (e' & -> & h). apply SD_intro. exists e'. auto.
    - subst r'. apply SD_intro. reflexivity.
    - exact I.
  Qed.
  Lemma at_int kd c t a rv : c <= a -> SD c (process_int kd t a rv) (process_int kd t (a + k) rv).
  Proof. intros h. unfold process_int. destruct (parse_int64 t); [destruct (_ || _)|]; apply SD_intro; [apply SR_user; exact I|apply SR_ok; inr|apply SR_typ; reflexivity]. Qed.
  Lemma at_uint kd c t a rv : c <= a -> SD c (process_uint kd t a rv) (process_uint kd t (a + k) rv).
  Proof. intros h. unfold process_uint. destruct (parse_uint64 t); [destruct (_ <? _)|]; apply SD_intro; [apply SR_user; exact I|apply SR_ok; inr|apply SR_typ; reflexivity]. Qed.
  Lemma at_float X s c t a rv : c <= a -> SD c (process_float X s t a rv) (process_float X s t (a + k) rv).
  Proof.
    intros h. unfold process_float. destruct (parse_float X t); [|apply SD_intro, SR_syn; reflexivity].
    destruct s; [destruct (overflow_f32 _)|]; apply SD_intro; [apply SR_user; exact I|apply SR_ok; inr|apply SR_ok; inr].
  Qed.
  Lemma s_dec_int kd c rv : 0 <= c -> SD c (dec_int kd b c rv) (dec_int kd b' (c + k) rv).
  Proof. intros Hc. apply s_text; [apply s_int_bytes, Hc|]. intros t a v h. apply at_int, h. Qed.
  Lemma s_dec_uint kd c rv : 0 <= c -> SD c (dec_uint kd b c rv) (dec_uint kd b' (c + k) rv).
  Proof. intros Hc. apply s_text; [apply s_int_bytes, Hc|]. intros t a v h. apply at_uint, h. Qed.
  Lemma s_dec_float X s c rv : 0 <= c -> SD c (dec_float X s b c rv) (dec_float X s b' (c + k) rv).
  Proof. intros Hc. apply s_text; [apply s_float_bytes, Hc|]. intros t a v h. apply at_float, h. Qed.
  Lemma s_dec_string c rv : 0 <= c -> SD c (dec_string b c rv) (dec_string b' (c + k) rv).
  Proof. intros Hc. apply s_text; [apply s_string_bytes, Hc|]. intros t a v h. apply SD_intro, SR_ok. inr. Qed.
  Ltac rdb := match goal with |- context [rd b' ?y] => match goal with |- context [rd b ?x] =>
      replace (rd b' y) with (rd b x) by (replace y with (x + k) by inr; symmetry; apply s_rd; inr) end end.
  Ltac rdc := rdb; match goal with |- context [rd b ?x] => let Hr := fresh "Hr" in destruct (rd b x) as [?y|?e|?p|] eqn:Hr; cbn [fail];
      [|exfalso; revert Hr; unfold rd; repeat (match goal with |- context [match ?u with _ => _ end] => destruct u end); discriminate|apply SD_intro; reflexivity|exact I] end.
  Ltac hbc := match goal with |- SD _ (if negb (has_byte b ?x) then _ else _) (if negb (has_byte _ ?y) then _ else _) =>
        replace (has_byte b' y) with (has_byte b x) by (replace y with (x + k) by inr; symmetry; apply s_has; inr);
        let Q := fresh "Hb" in destruct (has_byte b x) eqn:Q; cbn [negb]; [|apply SD_intro, SR_syn; inr] end.
  Lemma s_dec_bool c rv : 0 <= c -> SD c (dec_bool b c rv) (dec_bool b' (c + k) rv).
  Proof.
    intros Hc. unfold dec_bool. hbc. rdc. destruct (y =b "b"%byte).
    { pose proof (s_bool c Hc) as B. destruct (read_bool b c) as [v|e|p|] eqn:Eb; cbn [SR] in B.
      - destruct B as (v' & -> & <-). apply SD_intro, SR_ok. inr.
      - destruct B as (e' & -> & h). apply SD_intro. exists e'. auto.
      - rewrite B. apply SD_intro. reflexivity.
      - exact I. }
    destruct (y =b "N"%byte); [|apply SD_intro, SR_syn; reflexivity].
    pose proof (s_null c Hc) as B. destruct (validate_null b c) as [v|e|p|] eqn:Eb; cbn [SR] in B.
    - destruct B as (v' & -> & <-). apply SD_intro, SR_ok. inr.
    - destruct B as (e' & -> & h). apply SD_intro. exists e'. auto.
    - rewrite B. apply SD_intro. reflexivity.
    - exact I.
  Qed.

  (** headers: behind the '{' one more level is possible *)
  Definition hq (c d d' : Z) (h h' : hdr) : Prop :=
    match h, h' with
    | HNull a, HNull a' => mv c a a'
    | HBody a, HBody a' => mv c a a' /\ dok a (d + 1) /\ dok a (d' + 1)
    | _, _ => False
    end.
  Lemma s_object_start w c x : 0 <= c -> SR (mv c)
      (if x =b "O"%byte then cend <- skip_class_name b c ;; ROk (cend + 1)
       else if x =b "a"%byte then ROk (c + 1) else RErr (ESyntax c w))
      (if x =b "O"%byte then cend <- skip_class_name b' (c + k) ;; ROk (cend + 1)
       else if x =b "a"%byte then ROk (c + k + 1) else RErr (ESyntax (c + k) w)).
  Proof. intros Hc. go1; [eapply SR_bind; [apply s_class, Hc|]; intros a a' [h ->]; apply SR_ok; inr|]. go. Qed.
  Lemma s_map_header c d d' : 0 <= c -> dok c d -> dok c d' -> SR (hq c d d') (map_header b c d) (map_header b' (c + k) d').
  Proof.
    intros Hc Hd Hd'. unfold map_header. rewrite (dok_check c d Hd), (dok_check c d' Hd'). go1; [|go]. go1.
    go1; [eapply SR_bind; [apply s_null, Hc|]; intros u u' _; apply SR_ok; cbn; inr|].
    eapply SR_bind; [apply (s_object_start _ c x Hc)|]. intros a a' [h ->].
    eapply SR_bind; [apply (s_read_length a); lia|]. intros [n st] [n' st'] [h1 [h2 [h3 h4]]]. cbn [fst snd] in *. subst n' st'.
    go1; [|go]. go1. go1; [|go]. apply eqb_eq in Ht0. subst x0. apply SR_ok. cbn. split; [inr|].
    split; (eapply dok_open; [eassumption|lia|exact Hr0]).
  Qed.
  Lemma s_struct_header c d d' : 0 <= c -> dok c d -> dok c d' -> SR (hq c d d') (struct_header b c d) (struct_header b' (c + k) d').
  Proof.
    intros Hc Hd Hd'. unfold struct_header. rewrite (dok_check c d Hd), (dok_check c d' Hd'). go1; [|go]. go1.
    go1; [eapply SR_bind; [apply s_null, Hc|]; intros u u' _; apply SR_ok; cbn; inr|].
    eapply SR_bind; [apply (s_object_start _ c x Hc)|]. intros a a' [h ->]. go1; [|go]. go1. go1; [|go].
    eapply SR_bind; [apply (s_skip_length a); lia|]. intros st st' [h2 ->].
    go1; [|go]. go1. go1; [|go]. apply eqb_eq in Ht1. subst x1. apply SR_ok. cbn. split; [inr|].
    split; (eapply dok_open; [eassumption|lia|exact Hr1]).
  Qed.
  Definition aq (c d d' : Z) (h h' : ahdr) : Prop :=
    match h, h' with
    | AhNull a, AhNull a' | AhEmpty a, AhEmpty a' => mv c a a'
    | AhBody n a, AhBody n' a' => n' = n /\ mv c a a' /\ dok a (d + 1) /\ dok a (d' + 1)
    | _, _ => False
    end.
  Lemma s_seq_header what c d d' : 0 <= c -> dok c d -> dok c d' -> SR (aq c d d') (seq_header what b c d) (seq_header what b' (c + k) d').
  Proof.
    intros Hc Hd Hd'. unfold seq_header. rewrite (dok_check c d Hd), (dok_check c d' Hd'). go1; [|go]. go1.
    go1; [eapply SR_bind; [apply s_null, Hc|]; intros u u' _; apply SR_ok; cbn; inr|].
    go1; [|go]. cbv zeta. go1; [|go]. go1. go1; [|go]. go1; [|go]. go1.
    go1. { replace (c + k + 1 + 1) with (c + 1 + 1 + k) by lia. eapply SR_bind; [apply s_empty_array; lia|]. intros u u' _. apply SR_ok; cbn; inr. }
    unfold read_length_int. replace (c + k + 1 + 1 - 1) with (c + 1 + 1 - 1 + k) by lia.
    eapply SR_bind; [apply s_read_length; lia|]. intros [n st] [n' st'] [h1 [h2 [h3 h4]]]. cbn [fst snd] in *. subst n' st'.
    go1; [|go]. go1. go1; [|go]. apply eqb_eq in Ht3. subst x2. apply SR_ok. cbn. split; [reflexivity|]. split; [inr|].
    split; (eapply dok_open; [eassumption|lia|exact Hr2]).
  Qed.
  Lemma s_array_header c d d' : 0 <= c -> dok c d -> dok c d' -> SR (aq c d d') (array_header b c d) (array_header b' (c + k) d').
  Proof. apply s_seq_header. Qed.
  Lemma s_number c : 0 <= c -> number_at b' (c + k) = number_at b c.
  Proof. intros Hc. unfold number_at. rewrite s_rd by lia. reflexivity. Qed.
  Lemma s_slice_header c d d' : 0 <= c -> dok c d -> dok c d' -> SR (aq c d d') (slice_header b c d) (slice_header b' (c + k) d').
  Proof.
    intros Hc Hd Hd'. unfold slice_header. rewrite (dok_check c d Hd), (dok_check c d' Hd'), s_has, s_number by lia.
    destruct (_ && _); [go|apply s_seq_header; assumption].
  Qed.
  Lemma s_zeroed c d d' : 0 <= c -> dok c d -> dok c d' -> array_zeroed b' (c + k) d' = array_zeroed b c d.
  Proof.
    intros Hc Hd Hd'. unfold array_zeroed. rewrite (dok_check c d Hd), (dok_check c d' Hd'), s_has, s_rd by lia.
    replace (c + k + 1) with (c + 1 + k) by lia. rewrite s_rd by lia. reflexivity.
  Qed.

  (** the two decoders agree from [c0] on *)
  Definition sloc {V} (c0 : Z) (d d' : Z -> V -> V * R Z) : Prop := forall c v, c0 <= c -> SD c (d c v) (d' (c + k) v).
  Definition sloc0 (c0 : Z) (d d' : Z -> dres) : Prop := forall c, c0 <= c -> SD c (d c) (d' (c + k)).

  (** a decoder ran: go on behind it, or stop as it did *)
  Ltac ran H := match type of H with SD ?c ?r ?r' =>
      let v := fresh "v" in let q := fresh "q" in let v' := fresh "v'" in let q' := fresh "q'" in
      destruct r as [v q], r' as [v' q']; unfold SD in H; cbn [fst snd] in H;
      destruct q as [?a|?e|?p|]; [| | |first [exact I|destruct v; exact I]];
      destruct H as [?e0 H]; subst v'; cbn [SR] in H;
      [destruct H as (?a' & -> & H)|destruct H as (?e' & -> & H)|subst q'] end.
  Ltac stop := cbn [fail]; apply SD_intro; first [reflexivity | eexists; split; [reflexivity|assumption]].

  Lemma s_map_loop c0 kd vd kd' vd' : 0 <= c0 -> sloc0 c0 kd kd' -> sloc0 c0 vd vd' -> forall n n' c m, (n <= n')%nat -> c0 <= c ->
    SD c (map_loop kd vd b n c m) (map_loop kd' vd' b' n' (c + k) m).
  Proof.
    intros H0 Hk Hv. induction n as [|n IH]; intros n' c m Hn Hc; [exact I|]. destruct n' as [|n']; [lia|]. cbn [map_loop]. hbc.
    pose proof (Hk c Hc) as K. ran K; [|stop|stop]. destruct K as [K ->]. hbc.
    pose proof (Hv a ltac:(lia)) as K'. ran K'; [|stop|stop]. destruct K' as [K' ->].
    destruct (hashable v); cbn [negb]; [|stop]. cbv zeta. hbc. rdc. destruct (_ =b _)%byte; [apply SD_intro, SR_ok; inr|].
    eapply SD_le; [apply IH; lia|lia].
  Qed.
  Lemma s_map c d d' kd vd kd' vd' rv : 0 <= c -> dok c d -> dok c d' ->
    (forall c0, c <= c0 -> dok c0 (d + 1) -> dok c0 (d' + 1) -> sloc0 c0 kd kd' /\ sloc0 c0 vd vd') ->
    SD c (dec_map kd vd b c d rv) (dec_map kd' vd' b' (c + k) d' rv).
  Proof.
    intros Hc Hd Hd' Hk. unfold dec_map. pose proof (s_map_header c d d' Hc Hd Hd') as H.
    destruct (map_header b c d) as [h|e|p|]; cbn [SR] in H; [|destruct H as (e' & -> & H); stop|rewrite H; stop|exact I].
    destruct H as (h' & -> & H). destruct h as [a|a], h' as [a'|a']; cbn in H; try destruct H; [subst; apply SD_intro, SR_ok; inr|].
    destruct H as [H ->]. destruct H0 as [D1 D2]. destruct rv; try stop. cbv zeta. hbc. rdc.
    destruct (_ =b _)%byte; [apply SD_intro, SR_ok; inr|]. destruct (Hk a H D1 D2) as [K1 K2].
    match goal with |- context [map_loop kd vd b _ a ?m] => pose proof (s_map_loop a kd vd kd' vd' ltac:(lia) K1 K2 (length b) (length b') a m s_length ltac:(lia)) as Q end.
    ran Q; [|stop|stop]. apply SD_intro, SR_ok. inr.
  Qed.
  Lemma s_any_key c : 0 <= c -> SD c (dec_any_key b c) (dec_any_key b' (c + k)).
  Proof.
    intros Hc. unfold dec_any_key. rdc. destruct (_ =b _)%byte.
    { pose proof (s_dec_string c (VStr []) Hc) as Q. ran Q; [|stop|stop]. apply SD_intro, SR_ok. inr. }
    destruct (_ =b _)%byte; [|apply SD_intro, SR_syn; reflexivity].
    pose proof (s_dec_int I64 c (VInt 0) Hc) as Q. ran Q; [|stop|stop]. apply SD_intro, SR_ok. inr.
  Qed.
  Lemma s_wrap c (t : gty) (r r' : gval * R Z) : SD c r r' -> SR (mv2 c)
    (match r with (v, ROk a) => ROk (Some (t, v), a) | (_, r) => fail r end)
    (match r' with (v, ROk a) => ROk (Some (t, v), a) | (_, r) => fail r end).
  Proof.
    intros Q. destruct r as [v q], r' as [v' q']. unfold SD in Q. cbn [fst snd] in Q. destruct q as [a|e|p|]; [| | |exact I]; destruct Q as [-> Q]; cbn [SR] in Q.
    - destruct Q as (a' & -> & Q). apply SR_ok. split; [reflexivity|exact Q].
    - destruct Q as (e' & -> & Q). cbn [fail]. exists e'. auto.
    - subst q'. reflexivity.
  Qed.
  Lemma s_any X : forall f f' c d d', (f <= f')%nat -> 0 <= c -> dok c d -> dok c d' ->
    SR (mv2 c) (dec_any_f X f b c d) (dec_any_f X f' b' (c + k) d').
  Proof.
    induction f as [|f IH]; intros f' c d d' Hf Hc Hd Hd'; [exact I|]. destruct f' as [|f']; [lia|]. cbn [dec_any_f]. cbv zeta. go1.
    assert (forall c0, c <= c0 -> dok c0 (d + 1) -> dok c0 (d' + 1) -> sloc0 c0
      (fun c => match dec_any_f X f b c (d + 1) with ROk (o, c') => (VIface o, ROk c') | r => (VIface None, fail r) end)
      (fun c => match dec_any_f X f' b' c (d' + 1) with ROk (o, c') => (VIface o, ROk c') | r => (VIface None, fail r) end)) as Hv.
    { intros c0 h0 D1 D2 c1 h1. pose proof (IH f' c1 (d + 1) (d' + 1) ltac:(lia) ltac:(lia) ltac:(eapply dok_le; [exact D1|lia]) ltac:(eapply dok_le; [exact D2|lia])) as Q.
      destruct (dec_any_f X f b c1 (d + 1)) as [[o a]|e|p|]; cbn [SR] in Q.
      - destruct Q as ([o' a'] & -> & q1 & q2). cbn [fst snd] in *. subst o'. apply SD_intro, SR_ok. exact q2.
      - destruct Q as (e' & -> & Q). stop.
      - rewrite Q. stop.
      - exact I. }
    go1; [apply s_wrap, s_map; auto; intros c0 h0 D1 D2; split; [intros c1 h1; apply s_dec_string; lia|apply Hv; auto]|].
    go1; [apply s_wrap, s_map; auto; intros c0 h0 D1 D2; split; [intros c1 h1; apply s_any_key; lia|apply Hv; auto]|].
    go1; [apply s_wrap, s_dec_float; auto|].
    go1. { replace (c + k + 1) with (c + 1 + k) by lia. eapply SR_bind; [apply s_string; lia|]. intros [s a] [s' a'] [h1 h2]. cbn [fst snd] in *. subst s'. apply SR_ok. split; [reflexivity|inr]. }
    go1; [apply s_wrap, s_dec_int; auto|].
    go1; [eapply SR_bind; [apply s_bool; auto|]; intros v v' <-; apply SR_ok; split; [reflexivity|inr]|].
    go1; [eapply SR_bind; [apply s_null; auto|]; intros v v' <-; apply SR_ok; split; [reflexivity|inr]|]. go.
  Qed.
  Lemma s_iface_any X c d d' rv : 0 <= c -> dok c d -> dok c d' -> SD c (dec_iface_any X b c d rv) (dec_iface_any X b' (c + k) d' rv).
  Proof.
    intros Hc Hd Hd'. unfold dec_iface_any, dec_any. pose proof s_length as SL.
    pose proof (s_any X (S (length b)) (S (length b')) c d d' ltac:(lia) Hc Hd Hd') as Q. destruct (dec_any_f X (S (length b)) b c d) as [[o a]|e|p|]; cbn [SR] in Q.
    - destruct Q as ([o' a'] & -> & q1 & q2). cbn [fst snd] in *. subst o'. apply SD_intro, SR_ok. exact q2.
    - destruct Q as (e' & -> & Q). stop.
    - rewrite Q. stop.
    - exact I.
  Qed.

  (** *** Methods *)
  Section Methods.
    Context (X : Ext) (E : env).
    Lemma s_piece c d d' : 0 <= c -> dok c d -> dok c d' -> SR (mv2 c)
      (cend <- skip_value b c d ;; src <- sub b c cend ;; ROk (src, cend))
      (cend <- skip_value b' (c + k) d' ;; src <- sub b' (c + k) cend ;; ROk (src, cend)).
    Proof. intros Hc Hd Hd'. eapply SR_bind; [apply s_skip; eassumption|]. intros a a' [h ->]. sub_. go. Qed.
    Ltac piece c d d' Hc Hd Hd' := generalize (s_piece c d d' Hc Hd Hd'); let Q := fresh "Q" in
      match goal with |- SR _ ?r _ -> _ => destruct r as [[?src ?a]|?e|?p|] end; intros Q; cbn [SR] in Q;
        [let u := fresh "u" in let w := fresh "w" in let q1 := fresh "q1" in let q2 := fresh "q2" in let q3 := fresh "q3" in
         destruct Q as ([u w] & -> & q1 & q2 & q3); cbn [fst snd] in *; subst u w|destruct Q as (?e' & -> & Q); stop|rewrite Q; stop|exact I].
    Lemma s_unm n c d d' rv : 0 <= c -> dok c d -> dok c d' -> SD c (dec_unm X E n b c d rv) (dec_unm X E n b' (c + k) d' rv).
    Proof.
      intros Hc Hd Hd'. unfold dec_unm. piece c d d' Hc Hd Hd'.
      assert (SD c (match x_unmarshal X n (unquoted X src) (zero E (TName n)) with (v, true) => (v, ROk a) | (_, false) => (rv, RErr EUser) end)
                   (match x_unmarshal X n (unquoted X src) (zero E (TName n)) with (v, true) => (v, ROk (a + k)) | (_, false) => (rv, RErr EUser) end)) as G.
      { destruct (x_unmarshal X n (unquoted X src) (zero E (TName n))) as [v [|]]; apply SD_intro; [apply SR_ok; inr|]. apply SR_user; exact I. }
      destruct src as [|x src]; [exact G|]. destruct (_ || _); [apply SD_intro, SR_typ; reflexivity|].
      destruct (_ && _); [apply SD_intro, SR_ok; inr|exact G].
    Qed.
    Lemma s_iface c d d' rv : 0 <= c -> dok c d -> dok c d' -> SD c (dec_iface X E b c d rv) (dec_iface X E b' (c + k) d' rv).
    Proof.
      intros Hc Hd Hd'. unfold dec_iface. cbv zeta.
      assert (SD c
        (match rd b c with ROk x => if x =b "N"%byte then match validate_null b c with ROk _ => (VIface None, ROk (c + 2)) | r => (rv, fail r) end else (rv, RErr (EType c)) | r => (rv, fail r) end)
        (match rd b' (c + k) with ROk x => if x =b "N"%byte then match validate_null b' (c + k) with ROk _ => (VIface None, ROk (c + k + 2)) | r => (rv, fail r) end else (rv, RErr (EType (c + k))) | r => (rv, fail r) end)) as P.
      { rdc. destruct (_ =b _)%byte; [|apply SD_intro, SR_typ; reflexivity].
        pose proof (s_null c Hc) as Q. destruct (validate_null b c) as [u|e|p|]; cbn [SR] in Q;
          [destruct Q as (u' & -> & _); apply SD_intro, SR_ok; inr|destruct Q as (e' & -> & Q); stop|rewrite Q; stop|exact I]. }
      destruct rv as [| | | | | | | | | |[[t v]|]| |]; try exact P. destruct t; try exact P. destruct v; try exact P.
      destruct (has_unmarshal E t) as [n|]; [|exact P]. clear P. piece c d d' Hc Hd Hd'.
      destruct (bytes_eqb src (bs "N;")); [apply SD_intro, SR_ok; inr|]. destruct o as [old|]; [|stop].
      destruct (x_unmarshal X n (unquoted X src) old) as [v [|]]; apply SD_intro; [apply SR_ok; inr|]. apply SR_user; exact I.
    Qed.
    Lemma s_key kt c d d' : 0 <= c -> dok c d -> dok c d' -> SD c (dec_key X E kt b c d) (dec_key X E kt b' (c + k) d').
    Proof.
      intros Hc Hd Hd'. unfold dec_key. cbv zeta. destruct (key_node E kt) as [n| | |kd|kd| | |dn|].
      - apply s_unm; auto.
      - apply s_dec_string; auto.
      - apply s_dec_bool; auto.
      - apply s_dec_int; auto.
      - apply s_dec_uint; auto.
      - apply s_iface_any; auto.
      - apply s_iface; auto.
      - assert (SD c (match dec_any X b c d with ROk (None, a) => (zero E kt, ROk a) | ROk (Some _, _) => (zero E kt, RPanic PReflect) | r => (zero E kt, fail r) end)
                     (match dec_any X b' (c + k) d' with ROk (None, a) => (zero E kt, ROk a) | ROk (Some _, _) => (zero E kt, RPanic PReflect) | r => (zero E kt, fail r) end)) as A.
        { unfold dec_any. pose proof s_length as SL. pose proof (s_any X (S (length b)) (S (length b')) c d d' ltac:(lia) Hc Hd Hd') as Q.
          destruct (dec_any_f X (S (length b)) b c d) as [[o a]|e|p|]; cbn [SR] in Q;
            [destruct Q as ([o' a'] & -> & q1 & q2); cbn [fst snd] in *; subst o'|destruct Q as (e' & -> & Q); stop|rewrite Q; stop|exact I].
          destruct o; [stop|]. apply SD_intro, SR_ok. exact q2. }
        destruct dn; try exact A.
        + apply s_text; [apply s_int_bytes, Hc|]. intros t a rv h. destruct (parse_uint64 t); [stop|apply SD_intro, SR_typ; reflexivity].
        + apply s_text; [apply s_int_bytes, Hc|]. intros t a rv h. destruct (parse_int64 t); [stop|apply SD_intro, SR_typ; reflexivity].
        + apply s_text; [apply s_string_bytes, Hc|]. intros t a rv h. stop.
        + pose proof (s_dec_bool c VOther Hc) as Q. ran Q; [destruct v; (stop || (apply SD_intro, SR_ok; inr))|destruct v; stop|destruct v; stop].
      - apply SD_intro, SR_typ. reflexivity.
    Qed.
    Ltac tail IH := hbc; rdc; destruct (_ =b _)%byte; [apply SD_intro, SR_ok; inr|]; eapply SD_le; [apply IH; lia|lia].
    Lemma s_slice_loop c0 et ed ed' : 0 <= c0 -> sloc c0 ed ed' -> forall n n' c sl rv, (n <= n')%nat -> c0 <= c ->
      SD c (slice_loop X E et ed b n c sl rv) (slice_loop X E et ed' b' n' (c + k) sl rv).
    Proof.
      intros H0 He. induction n as [|n IH]; intros n' c sl rv Hn Hc; [exact I|]. destruct n' as [|n']; [lia|]. cbn [slice_loop]. cbv zeta. hbc.
      pose proof (s_read_int c ltac:(lia)) as Q. destruct (read_int b c) as [[i a]|e|p|]; cbn [SR] in Q;
        [destruct Q as ([i' a'] & -> & q1 & q2 & q3); cbn [fst snd] in *; subst i' a'|destruct Q as (e' & -> & Q); stop|rewrite Q; stop|exact I].
      hbc. destruct (i <? blen sl).
      - destruct (bad_index i (blen sl)); [stop|]. pose proof (He a (nth (Z.to_nat i) sl VOther) ltac:(lia)) as K. ran K; [|stop|stop]. destruct K as [K ->]. tail IH.
      - destruct (_ || _); [stop|]. destruct (bad_index _ _); [stop|]. pose proof (He a (zero E et) ltac:(lia)) as K. ran K; [|stop|stop]. destruct K as [K ->]. tail IH.
    Qed.
    Lemma s_slice c d d' et ed ed' rv : 0 <= c -> dok c d -> dok c d' ->
      (forall c0, c <= c0 -> dok c0 (d + 1) -> dok c0 (d' + 1) -> sloc c0 ed ed') ->
      SD c (dec_slice X E et ed b c d rv) (dec_slice X E et ed' b' (c + k) d' rv).
    Proof.
      intros Hc Hd Hd' Hk. unfold dec_slice. pose proof (s_slice_header c d d' Hc Hd Hd') as H.
      destruct (slice_header b c d) as [h|e|p|]; cbn [SR] in H; [|destruct H as (e' & -> & H); stop|rewrite H; stop|exact I].
      destruct H as (h' & -> & H). destruct h as [a|a|n a], h' as [a'|a'|n' a']; cbn in H; try (destruct H; fail); [apply SD_intro, SR_ok; exact H|apply SD_intro, SR_ok; exact H|].
      destruct H as (-> & [H ->] & D1 & D2). destruct (x_slots X et n); cbn [negb]; [|stop].
      eapply SD_le; [apply (s_slice_loop a); [lia|apply Hk; auto|apply s_length|lia]|exact H].
    Qed.
    Lemma s_array_loop c0 d d' ed ed' : 0 <= c0 -> dok c0 d -> dok c0 d' -> sloc c0 ed ed' -> forall n n' c arr, (n <= n')%nat -> c0 <= c ->
      SD c (array_loop ed b d n c arr) (array_loop ed' b' d' n' (c + k) arr).
    Proof.
      intros H0 Hd Hd' He. induction n as [|n IH]; intros n' c arr Hn Hc; [exact I|]. destruct n' as [|n']; [lia|]. cbn [array_loop]. cbv zeta. hbc.
      pose proof (s_read_int c ltac:(lia)) as Q. destruct (read_int b c) as [[i a]|e|p|]; cbn [SR] in Q;
        [destruct Q as ([i' a'] & -> & q1 & q2 & q3); cbn [fst snd] in *; subst i' a'|destruct Q as (e' & -> & Q); stop|rewrite Q; stop|exact I].
      hbc. destruct (i <? blen arr).
      - destruct (bad_index i (blen arr)); [stop|]. pose proof (He a (nth (Z.to_nat i) arr VOther) ltac:(lia)) as K. ran K; [|stop|stop]. destruct K as [K ->]. tail IH.
      - pose proof (s_skip a d d' ltac:(lia) ltac:(eapply dok_le; [exact Hd|lia]) ltac:(eapply dok_le; [exact Hd'|lia])) as Q.
        destruct (skip_value b a d) as [a2|e|p|]; cbn [SR] in Q; [destruct Q as (a2' & -> & q & ->)|destruct Q as (e' & -> & Q); stop|rewrite Q; stop|exact I]. tail IH.
    Qed.
    Lemma s_array c d d' n et ed ed' rv : 0 <= c -> dok c d -> dok c d' ->
      (forall c0, c <= c0 -> dok c0 (d + 1) -> dok c0 (d' + 1) -> sloc c0 ed ed') ->
      SD c (dec_array E n et ed b c d rv) (dec_array E n et ed' b' (c + k) d' rv).
    Proof.
      intros Hc Hd Hd' Hk. unfold dec_array. cbv zeta. rewrite (s_zeroed c d d' Hc Hd Hd'). pose proof (s_array_header c d d' Hc Hd Hd') as H.
      destruct (array_header b c d) as [h|e|p|]; cbn [SR] in H; [|destruct H as (e' & -> & H); stop|rewrite H; stop|exact I].
      destruct H as (h' & -> & H). destruct h as [a|a|m a], h' as [a'|a'|m' a']; cbn in H; try (destruct H; fail); [apply SD_intro, SR_ok; exact H|apply SD_intro, SR_ok; exact H|].
      destruct H as (-> & [H ->] & D1 & D2).
      pose proof (s_array_loop a (d + 1) (d' + 1) ed ed' ltac:(lia) D1 D2 (Hk a H D1 D2) (length b) (length b') a (repeat (zero E et) n) s_length ltac:(lia)) as Q.
      ran Q; [|stop|stop]. apply SD_intro, SR_ok. inr.
    Qed.
    Lemma s_struct_loop c0 d d' decs fd fd' : 0 <= c0 -> dok c0 d -> dok c0 d' -> (forall x, sloc c0 (fd x) (fd' x)) -> forall n n' c vs, (n <= n')%nat -> c0 <= c ->
      SD c (struct_loop decs fd b d n c vs) (struct_loop decs fd' b' d' n' (c + k) vs).
    Proof.
      intros H0 Hd Hd' He. induction n as [|n IH]; intros n' c vs Hn Hc; [exact I|]. destruct n' as [|n']; [lia|]. cbn [struct_loop]. cbv zeta. hbc.
      pose proof (s_string_bytes c ltac:(lia)) as Q. destruct (decode_string_bytes b c) as [[i a]|e|p|]; cbn [SR] in Q;
        [destruct Q as ([i' a'] & -> & q1 & q2 & q3); cbn [fst snd] in *; subst i' a'|destruct Q as (e' & -> & Q); stop|rewrite Q; stop|exact I].
      hbc. destruct (find_field _ decs) as [x|].
      - destruct (nth_error vs (fd_idx x)) as [v0|]; [|stop]. pose proof (He x a v0 ltac:(lia)) as K. ran K; [|stop|stop]. destruct K as [K ->]. tail IH.
      - pose proof (s_skip a d d' ltac:(lia) ltac:(eapply dok_le; [exact Hd|lia]) ltac:(eapply dok_le; [exact Hd'|lia])) as Q.
        destruct (skip_value b a d) as [a2|e|p|]; cbn [SR] in Q; [destruct Q as (a2' & -> & q & ->)|destruct Q as (e' & -> & Q); stop|rewrite Q; stop|exact I]. tail IH.
    Qed.
    Lemma s_struct c d d' decs fd fd' rv : 0 <= c -> dok c d -> dok c d' ->
      (forall c0, c <= c0 -> dok c0 (d + 1) -> dok c0 (d' + 1) -> forall x, sloc c0 (fd x) (fd' x)) ->
      SD c (dec_struct decs fd b c d rv) (dec_struct decs fd' b' (c + k) d' rv).
    Proof.
      intros Hc Hd Hd' Hk. unfold dec_struct. pose proof (s_struct_header c d d' Hc Hd Hd') as H.
      destruct (struct_header b c d) as [h|e|p|]; cbn [SR] in H; [|destruct H as (e' & -> & H); stop|rewrite H; stop|exact I].
      destruct H as (h' & -> & H). destruct h as [a|a], h' as [a'|a']; cbn in H; try (destruct H; fail); [apply SD_intro, SR_ok; exact H|].
      destruct H as ([H ->] & D1 & D2). destruct rv; try stop. cbv zeta. hbc. rdc.
      destruct (_ =b _)%byte; [apply SD_intro, SR_ok; inr|].
      match goal with |- context [struct_loop decs fd b _ _ a ?m] =>
        pose proof (s_struct_loop a (d + 1) (d' + 1) decs fd fd' ltac:(lia) D1 D2 (Hk a H D1 D2) (length b) (length b') a m s_length ltac:(lia)) as Q end.
      ran Q; [|stop|stop]. apply SD_intro, SR_ok. inr.
    Qed.
    Lemma s_ptr c t ed ed' rv : 0 <= c -> (forall v, SD c (ed c v) (ed' (c + k) v)) -> SD c (dec_ptr E t ed b c rv) (dec_ptr E t ed' b' (c + k) rv).
    Proof.
      intros Hc He. unfold dec_ptr. rdc. destruct (_ =b _)%byte.
      { pose proof (s_null c Hc) as Q. destruct (validate_null b c) as [u|e|p|]; cbn [SR] in Q;
          [destruct Q as (u' & -> & _); apply SD_intro, SR_ok; inr|destruct Q as (e' & -> & Q); stop|rewrite Q; stop|exact I]. }
      destruct rv; try stop. match goal with |- context [ed c ?v] => pose proof (He v) as Q end. ran Q; [|stop|stop]. apply SD_intro, SR_ok. exact Q.
    Qed.
    Lemma s_wrapped nd c rv : 0 <= c -> SD c (dec_wrapped X nd b c rv) (dec_wrapped X nd b' (c + k) rv).
    Proof.
      intros Hc. unfold dec_wrapped. cbv zeta. apply s_text; [apply s_string_bytes, Hc|]. intros t a v h.
      destruct nd as [n|t'|id fs|et|et|m et|kt vt| | |kd|kd| | | | |]; try (apply SD_intro; apply SR_user; exact I).
      - pose proof (at_uint kd c t c v ltac:(lia)) as Q. ran Q; [|stop|stop]. apply SD_intro, SR_ok. inr.
      - pose proof (at_int kd c t c v ltac:(lia)) as Q. ran Q; [|stop|stop]. apply SD_intro, SR_ok. inr.
      - destruct (parse_bool t); apply SD_intro; [apply SR_ok; inr|apply SR_syn; reflexivity].
      - pose proof (at_float X true c t c v ltac:(lia)) as Q. ran Q; [|stop|stop]. apply SD_intro, SR_ok. inr.
      - pose proof (at_float X false c t c v ltac:(lia)) as Q. ran Q; [|stop|stop]. apply SD_intro, SR_ok. inr.
    Qed.

    Lemma s_decode : forall f f' t c d d' rv, (f <= f')%nat -> 0 <= c -> dok c d -> dok c d' ->
      SD c (decode_f X E f t b c d rv) (decode_f X E f' t b' (c + k) d' rv).
    Proof.
      induction f as [|f IH]; intros f' t c d d' rv Hf Hc Hd Hd'; [exact I|]. destruct f' as [|f']; [lia|]. cbn [decode_f].
      assert (forall et c0, c <= c0 -> dok c0 (d + 1) -> dok c0 (d' + 1) ->
        sloc c0 (fun c v => decode_f X E f et b c (d + 1) v) (fun c v => decode_f X E f' et b' c (d' + 1) v)) as He.
      { intros et c0 h0 D1 D2 c1 v1 h1. apply IH; [lia|lia|eapply dok_le; [exact D1|lia]|eapply dok_le; [exact D2|lia]]. }
      destruct (node_of E t) as [n|t'|id fs|et|et|m et|kt vt| | |kd|kd| | | | |].
      - apply s_unm; auto.
      - destruct (kind_of E t'); try (apply s_ptr; [auto|intros ?; apply IH; auto; lia]). apply SD_intro. apply SR_user; exact I.
      - apply s_struct; auto. intros c0 h0 D1 D2 x c1 v1 h1. destruct (fd_str x); [|apply (He (fd_ty x) c0); auto].
        pose proof (fun nd => s_wrapped nd c1 v1 ltac:(lia)) as W.
        destruct (node_of E (fd_ty x)) as [n'|t'|id' fs'|et|et|m et|kt vt| | |kd|kd| | | | |]; try apply W.
        apply s_ptr; [lia|]. intros v. apply s_wrapped. lia.
      - unfold dec_bytes. rdc. destruct (_ =b _)%byte; [apply s_slice; auto|].
        apply s_text; [apply s_string_bytes, Hc|]. intros u a v h. apply SD_intro, SR_ok. inr.
      - apply s_slice; auto.
      - apply s_array; auto.
      - apply s_map; auto. intros c0 h0 D1 D2. split; intros c1 h1; [apply s_key; [lia|eapply dok_le; [exact D1|lia]|eapply dok_le; [exact D2|lia]]|apply (He vt c0); auto].
      - apply s_iface_any; auto.
      - apply s_iface; auto.
      - apply s_dec_uint; auto.
      - apply s_dec_int; auto.
      - apply s_dec_string; auto.
      - apply s_dec_bool; auto.
      - apply s_dec_float; auto.
      - apply s_dec_float; auto.
      - apply SD_intro, SR_typ. reflexivity.
    Qed.
  End Methods.
End Shift.
