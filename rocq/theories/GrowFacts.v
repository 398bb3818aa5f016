(** Decoding the start of an input: what has been found there is found in the
    whole input, unless the start is not complete. *)
From Coq Require Import Strings.String Strings.Byte ZArith List Bool Lia Floats.SpecFloat.
From Verif Require Import Base GoTypes Strconv Tags Scan Decode Grammar NumFacts Says.
Import ListNotations.
Open Scope Z_scope.

Section Grow.
  Context (b more : bytes).
  Let b' : bytes := b ++ more.
  Context (Hsm : small b').

  Lemma blen_more : blen b <= blen b'.
  Proof. unfold b', blen. rewrite app_length. lia. Qed.
  Lemma length_more : (length b <= length b')%nat.
  Proof. unfold b'. rewrite app_length. lia. Qed.
  Lemma rd_more i : 0 <= i < blen b -> exists x, rd b i = ROk x /\ rd b' i = ROk x.
  Proof.
    intros Hi. unfold rd. destruct (0 <=? i) eqn:E0; [|apply Z.leb_gt in E0; lia].
    assert (Z.to_nat i < length b)%nat as L by (unfold blen in Hi; lia).
    destruct (nth_error b (Z.to_nat i)) as [x|] eqn:E1; [|apply nth_error_None in E1; lia].
    exists x. split; [reflexivity|]. unfold b'. rewrite nth_error_app1 by exact L. now rewrite E1.
  Qed.
  Lemma has_more i : 0 <= i < blen b -> has_byte b' i = true.
  Proof. intros Hi. pose proof blen_more. unfold has_byte. rewrite andb_true_iff, Z.leb_le, Z.ltb_lt. lia. Qed.
  Lemma hass_more i n : 0 <= i -> 0 <= n -> i + n <= blen b -> has_bytes b' i n = true.
  Proof. intros Hi Hn Hl. pose proof blen_more. unfold has_bytes. rewrite !andb_true_iff, !Z.leb_le. lia. Qed.
  Lemma sub_more i j : 0 <= i <= j -> j <= blen b -> exists s, sub b i j = ROk s /\ sub b' i j = ROk s.
  Proof.
    intros Hi Hj. pose proof blen_more. unfold sub.
    replace ((0 <=? i) && (i <=? j) && (j <=? blen b)) with true by (symmetry; rewrite !andb_true_iff, !Z.leb_le; lia).
    replace ((0 <=? i) && (i <=? j) && (j <=? blen b')) with true by (symmetry; rewrite !andb_true_iff, !Z.leb_le; lia).
    eexists. split; [reflexivity|]. f_equal. unfold b', blen in *. rewrite skipn_app, firstn_app.
    replace (Z.to_nat (j - i) - length (skipn (Z.to_nat i) b))%nat with 0%nat by (rewrite skipn_length; lia).
    rewrite firstn_O, app_nil_r. reflexivity.
  Qed.
  Lemma has_byte_in c : has_byte b c = true -> 0 <= c < blen b.
  Proof. unfold has_byte. rewrite andb_true_iff, Z.leb_le, Z.ltb_lt. tauto. Qed.
  Lemma has_byte_out c : has_byte b c = false -> 0 <= c -> blen b <= c.
  Proof. unfold has_byte. rewrite andb_false_iff, Z.leb_gt, Z.ltb_ge. lia. Qed.
  Lemma has_end c : blen b <= c -> has_byte b c = false.
  Proof. unfold has_byte. rewrite andb_false_iff, Z.ltb_ge. lia. Qed.
  Lemma has_bytes_in c n : has_bytes b c n = true -> 0 <= c /\ 0 <= n /\ c + n <= blen b.
  Proof. unfold has_bytes. rewrite !andb_true_iff, !Z.leb_le. lia. Qed.
  Lemma has_bytes_out c n : has_bytes b c n = false -> 0 <= c -> 0 <= n -> blen b < c + n.
  Proof. unfold has_bytes. rewrite !andb_false_iff, !Z.leb_gt. lia. Qed.

  (** The same result, and [P] of a success; or the input is not complete. *)
  Definition W {A} (P : A -> Prop) (r r' : R A) : Prop :=
    match r with
    | ROk a => r' = ROk a /\ P a
    | RErr e => unfinished b e \/ r' = RErr e
    | RPanic p => r' = RPanic p
    | RFuel => True
    end.
  Lemma W_bind {A B} (P : A -> Prop) (Q : B -> Prop) r r' (k k' : A -> R B) :
    W P r r' -> (forall a, P a -> W Q (k a) (k' a)) -> W Q (bind r k) (bind r' k').
  Proof.
    intros H K. destruct r as [a|e|p|]; cbn [bind W] in *; [|destruct H as [H| ->]; auto|subst r'; reflexivity|exact I].
    destruct H as [-> H]. apply K, H.
  Qed.
  Lemma W_imp {A} (P Q : A -> Prop) r r' : W P r r' -> (forall a, P a -> Q a) -> W Q r r'.
  Proof. intros H K. destruct r; cbn [W] in *; auto. destruct H; auto. Qed.
  Lemma W_ok {A} (P : A -> Prop) a : P a -> W P (ROk a) (ROk a).
  Proof. intros H. split; auto. Qed.
  Lemma W_end {A} (P : A -> Prop) o w r' : blen b < o + 4 -> W P (RErr (ESyntax o (WEnd w))) r'.
  Proof. intros H. left. right. exact H. Qed.
  Lemma W_miss {A} (P : A -> Prop) o m r' : o = blen b -> In m missing -> W P (RErr (ESyntax o (WText m))) r'.
  Proof. intros H K. left. split; assumption. Qed.
  Lemma W_same {A} (P : A -> Prop) e : W P (RErr e) (RErr e).
  Proof. right. reflexivity. Qed.

  Definition le (c : Z) : Prop := 0 <= c <= blen b.
  Definition lt (c : Z) : Prop := 0 <= c < blen b.
  (** where a success ends: after [c], within the input *)
  Definition on (c x : Z) : Prop := c <= x <= blen b.
  Definition on2 {A} (c : Z) (p : A * Z) : Prop := c <= snd p <= blen b.
  Ltac inr := unfold on, on2, le, lt in *; cbn [fst snd] in *; lia.

  (** one step of two equal programs *)
  Ltac go1 := match goal with
    | |- W _ (if negb (has_byte b ?x) then _ else _) _ =>
        let Q := fresh "Hb" in destruct (has_byte b x) eqn:Q; cbn [negb];
        [apply has_byte_in in Q; rewrite (has_more x) by inr; cbn [negb]|apply has_byte_out in Q; [apply W_end; inr|inr]]
    | |- W _ (if negb (has_bytes b ?x ?n) then _ else _) _ =>
        let Q := fresh "Hb" in destruct (has_bytes b x n) eqn:Q; cbn [negb];
        [apply has_bytes_in in Q; rewrite (hass_more x n) by inr; cbn [negb]|apply has_bytes_out in Q; [apply W_end; inr|inr|inr]]
    | |- W _ (bind (rd b ?x) _) _ =>
        let y := fresh "x" in let A := fresh "Hr" in let A' := fresh "Hr" in
        destruct (rd_more x) as (y & A & A'); [inr|rewrite A, A'; cbn [bind]]
    | |- W _ (if negb ?t then _ else _) _ => let Q := fresh "Hi" in destruct t eqn:Q; cbn [negb]
    | |- W _ (if ?t then _ else _) _ => let Q := fresh "Hi" in destruct t eqn:Q
    | |- W _ (ROk _) _ => apply W_ok; try exact I; try inr
    | |- W _ (RErr _) _ => apply W_same
    | |- W _ (RPanic _) _ => reflexivity
    | |- W _ RFuel _ => exact I
    end.
  Ltac go := repeat go1.

  Lemma w_scan p : forall n n' c, le c -> blen b <= c + Z.of_nat n -> (n <= n')%nat ->
    exists a, scan_while p b n c = ROk a /\ c <= a <= blen b /\ (a < blen b -> scan_while p b' n' c = ROk a).
  Proof.
    induction n as [|n IH]; intros n' c Hc Hn Hn'.
    { exists c. split; [reflexivity|]. split; [inr|]. intros h. inr. }
    cbn [scan_while]. destruct (has_byte b c) eqn:Hb.
    2:{ apply has_byte_out in Hb; [|inr]. exists c. split; [reflexivity|]. split; [inr|]. intros h. inr. }
    apply has_byte_in in Hb. destruct (rd_more c Hb) as (x & Hr & Hr'). rewrite Hr. cbn [bind]. destruct (p x) eqn:Hp.
    - destruct n' as [|n']; [lia|]. destruct (IH n' (c + 1) ltac:(inr) ltac:(lia) ltac:(lia)) as (a & H1 & H2 & H3).
      exists a. split; [exact H1|]. split; [inr|]. intros h. cbn [scan_while]. rewrite (has_more c Hb), Hr'. cbn [bind]. rewrite Hp. apply H3, h.
    - exists c. split; [reflexivity|]. split; [inr|]. intros _. destruct n' as [|n']; [reflexivity|]. cbn [scan_while].
      rewrite (has_more c Hb), Hr'. cbn [bind]. now rewrite Hp.
  Qed.
  Lemma w_skip_length c : le c -> W (fun x => c + 2 <= x <= blen b) (skip_length b c) (skip_length b' c).
  Proof.
    intros Hc. unfold skip_length. go1. go1. go1; [|go].
    destruct (w_scan is_digit (length b) (length b') (c + 1) ltac:(inr) ltac:(unfold blen; lia) length_more) as (a & -> & H2 & H3). cbn [bind].
    destruct (Z_lt_ge_dec a (blen b)) as [h|h].
    - rewrite (H3 h). cbn [bind]. destruct (a =? c + 1) eqn:Ha; [go|]. apply Z.eqb_neq in Ha. go1. go1. go1; [|go]. apply W_ok. inr.
    - destruct (a =? c + 1) eqn:Ha; [apply W_miss; [lia|left; reflexivity]|]. rewrite (has_end a) by lia. apply W_end. lia.
  Qed.
  Lemma w_read_length c : le c -> W (fun p => 0 <= fst p <= max_int64 /\ c <= snd p <= blen b) (read_length b c) (read_length b' c).
  Proof.
    intros Hc. unfold read_length. eapply W_bind; [apply w_skip_length, Hc|]. intros a h. cbn beta in h.
    destruct (sub_more (c + 1) (a - 1) ltac:(inr) ltac:(inr)) as (s & -> & ->). cbn [bind].
    destruct (parse_int64 s) as [z|] eqn:Ep; [|go]. apply parse_int64_some in Ep as [_ Ep].
    destruct (z <? 0) eqn:Ez; [go|]. apply Z.ltb_ge in Ez. apply W_ok. cbn [fst snd]. inr.
  Qed.
  Lemma w_class c : le c -> W (fun x => c <= x < blen b) (skip_class_name b c) (skip_class_name b' c).
  Proof.
    intros Hc. unfold skip_class_name. go1. go1. go1; [|go].
    eapply W_bind; [apply w_read_length; inr|]. intros [n st] [h1 h2]. cbn [fst snd] in *.
    go1. go1. go1; [|go]. cbv zeta. set (o := wrap64 (st + n + 1)).
    assert (o = st + n + 1 \/ o < 0) as Ho.
    { unfold small, max_int64 in *. pose proof blen_more. unfold o, wrap64.
      destruct (Z_lt_ge_dec (st + n + 1) (2 ^ 63)) as [h|h].
      - left. rewrite Z.mod_small by inr. lia.
      - right. assert ((st + n + 1 + 2 ^ 63) mod 2 ^ 64 = st + n + 1 + 2 ^ 63 - 2 ^ 64) as e by (symmetry; apply (Zmod_unique _ _ 1); inr). inr. }
    destruct Ho as [Ho|Ho].
    - rewrite Ho. go1. go1. go1; [|go]. go1. go1; [|go]. go.
    - unfold has_bytes. replace (0 <=? o) with false by (symmetry; apply Z.leb_gt; exact Ho). cbn [andb negb]. go.
  Qed.
  Lemma w_null c : lt c -> W (fun _ => c + 2 <= blen b) (validate_null b c) (validate_null b' c).
  Proof.
    intros Hc. unfold validate_null. destruct (blen b <=? c + 1) eqn:Hl.
    - apply Z.leb_le in Hl. apply W_end. lia.
    - apply Z.leb_gt in Hl. pose proof blen_more. replace (blen b' <=? c + 1) with false by (symmetry; apply Z.leb_gt; lia). go.
  Qed.
  Lemma w_empty_array c : lt c -> W (fun _ => c + 4 <= blen b) (validate_empty_array b c) (validate_empty_array b' c).
  Proof.
    intros Hc. unfold validate_empty_array. destruct (blen b <? c + 4) eqn:Hl.
    - apply Z.ltb_lt in Hl. apply W_end. lia.
    - apply Z.ltb_ge in Hl. pose proof blen_more. replace (blen b' <? c + 4) with false by (symmetry; apply Z.ltb_ge; lia). go.
  Qed.
  Lemma w_string c : le c -> W (on2 c) (read_string b c) (read_string b' c).
  Proof.
    intros Hc. unfold read_string. eapply W_bind; [apply w_read_length; inr|]. intros [n st] [h1 h2]. cbn [fst snd] in *.
    go1. go1. go1; [|go]. cbv zeta.
    destruct (has_bytes b (st + 1) (wrap64 (n + 2))) eqn:Q; cbn [negb]; [|left; left; reflexivity].
    apply has_bytes_in in Q. rewrite hass_more by lia. cbn [negb].
    assert (wrap64 (n + 2) = n + 2) as Hw.
    { unfold max_int64 in *. unfold wrap64 in *. destruct (Z_lt_ge_dec (n + 2) (2 ^ 63)) as [h|h].
      - rewrite Z.mod_small by lia. lia.
      - exfalso. assert ((n + 2 + 2 ^ 63) mod 2 ^ 64 = n + 2 + 2 ^ 63 - 2 ^ 64) as e by (symmetry; apply (Zmod_unique _ _ 1); lia). lia. }
    rewrite Hw in Q. go1. go1; [|go]. go1. go1; [|go].
    destruct (sub_more (st + 1) (st + 1 + n) ltac:(inr) ltac:(inr)) as (s & -> & ->). cbn [bind]. go.
  Qed.
  Lemma w_integer c : le c -> W (on2 (c + 2)) (read_integer_bytes b c) (read_integer_bytes b' c).
  Proof.
    intros Hc. unfold read_integer_bytes. go1. go1. go1; [|go]. go1. go1. go1; [|go].
    cbv zeta. go1. set (ds := if x1 =b "-"%byte then c + 2 + 1 else c + 2).
    assert (c + 2 <= ds <= blen b) as Hds by (unfold ds; destruct (x1 =b "-"%byte); lia).
    destruct (w_scan is_digit (length b) (length b') ds ltac:(inr) ltac:(unfold blen; lia) length_more) as (a & -> & H2 & H3). cbn [bind].
    destruct (Z_lt_ge_dec a (blen b)) as [h|h].
    - rewrite (H3 h). cbn [bind]. destruct (a =? ds) eqn:Ha; [go|]. go1. go1. go1; [|go].
      destruct (sub_more (c + 2) a ltac:(inr) ltac:(inr)) as (s & -> & ->). cbn [bind]. go.
    - destruct (a =? ds) eqn:Ha; [apply W_miss; [lia|right; left; reflexivity]|]. rewrite (has_end a) by lia. apply W_end. lia.
  Qed.
  Lemma w_float c : le c -> W (on2 (c + 2)) (read_float_bytes b c) (read_float_bytes b' c).
  Proof.
    intros Hc. unfold read_float_bytes. go1. go1. go1; [|go]. go1. go1. go1; [|go]. cbv zeta.
    match goal with |- context [scan_while ?p b _ _] => destruct (w_scan p (length b) (length b') (c + 2) ltac:(inr) ltac:(unfold blen; lia) length_more) as (a & -> & H2 & H3) end.
    cbn [bind]. destruct (Z_lt_ge_dec a (blen b)) as [h|h].
    - rewrite (H3 h). cbn [bind]. destruct (a =? c + 2) eqn:Ha; [go|]. go1.
      destruct (sub_more (c + 2) a ltac:(inr) ltac:(inr)) as (s & -> & ->). cbn [bind]. go.
    - destruct (a =? c + 2) eqn:Ha; [apply Z.eqb_eq in Ha; lia|]. rewrite (has_end a) by lia. apply W_end. lia.
  Qed.
  Lemma w_bool c : le c -> W (fun _ => c + 4 <= blen b) (read_bool b c) (read_bool b' c).
  Proof.
    intros Hc. unfold read_bool. go1. go1. go1; [|go]. go1. go1; [|go]. go1.
    eapply (W_bind (fun _ => True)); [go|]. intros v _. go.
  Qed.
  Lemma w_skip_int c : le c -> W (on c) (skip_int b c) (skip_int b' c).
  Proof. intros Hc. unfold skip_int. eapply W_bind; [apply (w_integer c Hc)|]. intros [s a] h. apply W_ok. inr. Qed.
  Lemma w_skip_string c : le c -> W (on c) (skip_string b c) (skip_string b' c).
  Proof.
    intros Hc. unfold skip_string. go1. go1. go1; [|go].
    eapply W_bind; [apply (w_string (c + 1)); inr|]. intros [s a] h. apply W_ok. inr.
  Qed.
  Definition skips (sk sk' : Z -> R Z) : Prop := forall c, le c -> W (on c) (sk c) (sk' c).
  Lemma w_entries sk sk' : skips sk sk' -> forall n n' len c, (n <= n')%nat -> le c -> W (on c) (skip_entries sk n len c) (skip_entries sk' n' len c).
  Proof.
    intros Hs. induction n as [|n IH]; intros n' len c Hn Hc.
    { destruct n'; cbn [skip_entries]; destruct (len <=? 0); go. }
    destruct n' as [|n']; [lia|]. cbn [skip_entries]. destruct (len <=? 0); [go|].
    eapply W_bind; [apply Hs, Hc|]. intros c1 h1. eapply W_bind; [apply Hs; inr|]. intros c2 h2.
    eapply W_imp; [apply IH; [lia|inr]|]. intros a h. inr.
  Qed.
  Lemma w_skip_array c d sk sk' : skips sk sk' -> le c -> W (on c) (skip_array sk b c d) (skip_array sk' b' c d).
  Proof.
    intros Hs Hc. unfold skip_array. go1; [go|]. eapply W_bind; [apply (w_read_length c Hc)|]. intros [n st] [h1 h2]. cbn [fst snd] in *.
    go1. go1. go1; [|go]. eapply W_bind; [apply (w_entries sk sk' Hs); [apply length_more|inr]|]. intros a h. unfold on in h. go.
  Qed.
  Lemma w_skip_value : forall f f' c d, (f <= f')%nat -> le c -> W (on c) (skip_value_f f b c d) (skip_value_f f' b' c d).
  Proof.
    induction f as [|f IH]; intros f' c d Hf Hc; [exact I|]. destruct f' as [|f']; [lia|]. cbn [skip_value_f]. cbv zeta. go1. go1.
    assert (skips (fun c => skip_value_f f b c (d + 1)) (fun c => skip_value_f f' b' c (d + 1))) as Hs by (intros c1 h1; apply IH; [lia|exact h1]).
    destruct (x =b "O"%byte).
    { eapply W_bind; [apply (w_class c Hc)|]. intros a h. cbn beta in h. eapply W_imp; [apply w_skip_array; auto; inr|]. intros a' h'. inr. }
    destruct (x =b "a"%byte); [eapply W_imp; [apply w_skip_array; auto; inr|]; intros a' h'; inr|].
    destruct (x =b "s"%byte); [apply w_skip_string, Hc|].
    destruct (x =b "d"%byte); [eapply W_bind; [apply w_float, Hc|]; intros [s a] h; apply W_ok; inr|].
    destruct (x =b "i"%byte); [apply w_skip_int, Hc|].
    destruct (x =b "b"%byte); [eapply W_bind; [apply w_bool, Hc|]; intros v h; cbn beta in h; apply W_ok; inr|].
    destruct (x =b "N"%byte); [eapply W_bind; [apply w_null, Hb|]; intros v h; cbn beta in h; apply W_ok; inr|]. go.
  Qed.
  Lemma w_skip c d : le c -> W (on c) (skip_value b c d) (skip_value b' c d).
  Proof. intros Hc. unfold skip_value. apply w_skip_value; [|exact Hc]. pose proof length_more. lia. Qed.
  Lemma w_read_int c : le c -> W (on2 c) (read_int b c) (read_int b' c).
  Proof.
    intros Hc. unfold read_int. eapply W_bind; [apply (w_integer c Hc)|]. intros [s a] h. destruct (parse_int64 s); go.
  Qed.

  (** ** Decoders *)
  Definition WD {A} (c : Z) (r r' : A * R Z) : Prop :=
    match snd r with
    | ROk a => r' = r /\ on c a
    | RErr e => unfinished b e \/ r' = r
    | RPanic _ => r' = r
    | RFuel => True
    end.
  Lemma WD_end {A} c (v : A) o w r' : blen b < o + 4 -> WD c (v, RErr (ESyntax o (WEnd w))) r'.
  Proof. intros H. left. right. exact H. Qed.
  Lemma WD_ok {A} c (v : A) a : on c a -> WD c (v, ROk a) (v, ROk a).
  Proof. intros H. split; [reflexivity|exact H]. Qed.
  Lemma WD_err {A} c (v : A) e : WD c (v, RErr e) (v, RErr e).
  Proof. right. reflexivity. Qed.
  Lemma WD_panic {A} c (v : A) p : WD c (v, RPanic p) (v, RPanic p).
  Proof. reflexivity. Qed.
  Lemma WD_le {A} c c0 (r r' : A * R Z) : WD c r r' -> c0 <= c -> WD c0 r r'.
  Proof. intros H Hc. unfold WD in *. destruct (snd r); auto. destruct H as [-> H]. split; [reflexivity|]. inr. Qed.
  (** the result of a part, put into the whole by a function [g] *)
  Lemma WD_map {A B} c (r r' : A * R Z) (g : A -> B) : WD c r r' -> WD c (let '(v, x) := r in (g v, x)) (let '(v, x) := r' in (g v, x)).
  Proof.
    intros H. destruct r as [v x]. unfold WD in *. cbn [snd] in *. destruct x as [a|e|p|]; cbn [snd] in *; [|destruct H as [H|H]; [left; exact H|right]| |exact I].
    - destruct H as [-> H]. auto.
    - now rewrite H.
    - now rewrite H.
  Qed.
  (** a part that must succeed, with what follows *)
  Ltac wthen L y g := pose proof L as g;
    match type of g with W _ ?r _ => destruct r as [y|?e|?p|]; cbn [W fail] in g |- *;
      [destruct g as [-> g]; cbn beta in g|destruct g as [g| ->]; [left; exact g|right; reflexivity]|rewrite g; reflexivity|exact I] end.

  Lemma w_string_bytes c : le c -> W (on2 c) (decode_string_bytes b c) (decode_string_bytes b' c).
  Proof.
    intros Hc. unfold decode_string_bytes. go1. go1. go1; [eapply W_bind; [apply (w_null c Hb)|]; intros u h; cbn beta in h; apply W_ok; inr|].
    go1; [go|]. go1; [|go]. eapply W_bind; [apply (w_string (c + 1)); inr|]. intros [s a] h. apply W_ok. inr.
  Qed.
  Lemma w_int_bytes c : le c -> W (on2 c) (decode_int_bytes b c) (decode_int_bytes b' c).
  Proof.
    intros Hc. unfold decode_int_bytes. go1. go1. go1; [eapply W_bind; [apply (w_null c Hb)|]; intros u h; cbn beta in h; apply W_ok; inr|].
    eapply W_bind; [apply (w_integer c Hc)|]. intros [s a] h. apply W_ok. inr.
  Qed.
  Lemma w_float_bytes c : le c -> W (on2 c) (decode_float_bytes b c) (decode_float_bytes b' c).
  Proof.
    intros Hc. unfold decode_float_bytes. go1. go1. go1; [eapply W_bind; [apply (w_null c Hb)|]; intros u h; cbn beta in h; apply W_ok; inr|].
    go1; [|go]. eapply W_bind; [apply (w_float c Hc)|]. intros [s a] h. apply W_ok. inr.
  Qed.
  (** a result of [process] is at the cursor it is given *)
  Lemma w_text c r r' process rv : W (on2 c) r r' ->
    (forall t a rv, on c a -> WD c (process t a rv) (process t a rv)) ->
    WD c (dec_text r process rv) (dec_text r' process rv).
  Proof.
    intros Hr Hp. unfold dec_text, WD. destruct r as [[[t|] a]|e|p|]; cbn [W snd fail] in *.
    - destruct Hr as [-> h]. apply Hp, h.
    - destruct Hr as [-> h]. auto.
    - destruct Hr as [Hr| ->]; auto.
    - subst r'. reflexivity.
    - exact I.
  Qed.
  Lemma at_int k c t a rv : on c a -> WD c (process_int k t a rv) (process_int k t a rv).
  Proof. intros h. unfold process_int. destruct (parse_int64 t); [|apply WD_err]. destruct (_ || _); [apply WD_err|apply WD_ok, h]. Qed.
  Lemma at_uint k c t a rv : on c a -> WD c (process_uint k t a rv) (process_uint k t a rv).
  Proof. intros h. unfold process_uint. destruct (parse_uint64 t); [|apply WD_err]. destruct (_ <? _); [apply WD_err|apply WD_ok, h]. Qed.
  Lemma at_float X s c t a rv : on c a -> WD c (process_float X s t a rv) (process_float X s t a rv).
  Proof. intros h. unfold process_float. destruct (parse_float X t); [|apply WD_err]. destruct s; [destruct (overflow_f32 _); [apply WD_err|apply WD_ok, h]|apply WD_ok, h]. Qed.
  Lemma w_dec_int k c rv : le c -> WD c (dec_int k b c rv) (dec_int k b' c rv).
  Proof. intros Hc. apply w_text; [apply (w_int_bytes c Hc)|]. intros t a rv' h. apply at_int, h. Qed.
  Lemma w_dec_uint k c rv : le c -> WD c (dec_uint k b c rv) (dec_uint k b' c rv).
  Proof. intros Hc. apply w_text; [apply (w_int_bytes c Hc)|]. intros t a rv' h. apply at_uint, h. Qed.
  Lemma w_dec_float X s c rv : le c -> WD c (dec_float X s b c rv) (dec_float X s b' c rv).
  Proof. intros Hc. apply w_text; [apply (w_float_bytes c Hc)|]. intros t a rv' h. apply at_float, h. Qed.
  Lemma w_dec_string c rv : le c -> WD c (dec_string b c rv) (dec_string b' c rv).
  Proof. intros Hc. apply w_text; [apply (w_string_bytes c Hc)|]. intros t a rv' h. apply WD_ok, h. Qed.
  Lemma w_dec_bool c rv : le c -> WD c (dec_bool b c rv) (dec_bool b' c rv).
  Proof.
    intros Hc. unfold dec_bool. destruct (has_byte b c) eqn:Hb; cbn [negb].
    2:{ apply has_byte_out in Hb; [|inr]. apply WD_end. inr. }
    apply has_byte_in in Hb. rewrite (has_more c Hb). cbn [negb]. destruct (rd_more c Hb) as (x & -> & ->).
    destruct (x =b "b"%byte); [wthen (w_bool c Hc) v h; apply WD_ok; inr|].
    destruct (x =b "N"%byte); [wthen (w_null c Hb) v h; apply WD_ok; inr|apply WD_err].
  Qed.
  Definition onh (c : Z) (h : hdr) : Prop := match h with HNull a | HBody a => on c a end.
  Lemma w_object_start w c x : lt c -> W (on c)
      (if x =b "O"%byte then cend <- skip_class_name b c ;; ROk (cend + 1)
       else if x =b "a"%byte then ROk (c + 1) else RErr (ESyntax c w))
      (if x =b "O"%byte then cend <- skip_class_name b' c ;; ROk (cend + 1)
       else if x =b "a"%byte then ROk (c + 1) else RErr (ESyntax c w)).
  Proof. intros Hc. go1; [eapply W_bind; [apply w_class; inr|]; intros a h; apply W_ok; inr|]. go. Qed.
  Lemma w_map_header c d : le c -> W (onh c) (map_header b c d) (map_header b' c d).
  Proof.
    intros Hc. unfold map_header. go1. go1. go1; [go|].
    go1; [eapply W_bind; [apply (w_null c Hb)|]; intros u h; cbn beta in h; apply W_ok; cbn [onh]; inr|].
    eapply W_bind; [apply (w_object_start _ c x Hb)|]. intros a h.
    eapply W_bind; [apply (w_read_length a); inr|]. intros [n st] [h1 h2]. cbn [fst snd] in *. go1. go1. go1; [|go]. apply W_ok. cbn [onh]. inr.
  Qed.
  Lemma w_struct_header c d : le c -> W (onh c) (struct_header b c d) (struct_header b' c d).
  Proof.
    intros Hc. unfold struct_header. go1. go1. go1; [go|].
    go1; [eapply W_bind; [apply (w_null c Hb)|]; intros u h; cbn beta in h; apply W_ok; cbn [onh]; inr|].
    eapply W_bind; [apply (w_object_start _ c x Hb)|]. intros a h. go1. go1. go1; [|go].
    eapply W_bind; [apply (w_skip_length a); inr|]. intros st h2. cbn beta in h2. go1. go1. go1; [|go]. apply W_ok. cbn [onh]. inr.
  Qed.
  Definition ona (c : Z) (h : ahdr) : Prop := match h with AhNull a | AhEmpty a | AhBody _ a => on c a end.
  Lemma w_seq_header what c d : le c -> W (ona c) (seq_header what b c d) (seq_header what b' c d).
  Proof.
    intros Hc. unfold seq_header. go1. go1. go1; [go|].
    go1; [eapply W_bind; [apply (w_null c Hb)|]; intros u h; cbn beta in h; apply W_ok; cbn [ona]; inr|].
    go1; [|go]. cbv zeta. go1. go1. go1; [|go]. go1. go1.
    go1; [eapply W_bind; [apply (w_empty_array _ Hb1)|]; intros u h; cbn beta in h; apply W_ok; cbn [ona]; inr|].
    unfold read_length_int. eapply W_bind; [apply w_read_length; inr|]. intros [n st] [h1 h2]. cbn [fst snd] in *.
    go1. go1. go1; [|go]. apply W_ok. cbn [ona]. inr.
  Qed.
  Lemma w_slice_header c d : le c -> W (ona c) (slice_header b c d) (slice_header b' c d).
  Proof.
    intros Hc. unfold slice_header. destruct (has_byte b c) eqn:Hb.
    - apply has_byte_in in Hb. rewrite (has_more c Hb).
      assert (number_at b' c = number_at b c) as -> by (unfold number_at; destruct (rd_more c Hb) as (x & -> & ->); reflexivity).
      destruct (_ && _ && _); [go|apply w_seq_header, Hc].
    - cbn [andb]. unfold seq_header at 1. rewrite Hb. cbn [negb]. apply has_byte_out in Hb; [|inr]. apply W_end. lia.
  Qed.

  Definition parts (d d' : Z -> dres) : Prop := forall c, lt c -> WD c (d c) (d' c).
  Definition elems (d d' : Z -> gval -> dres) : Prop := forall c v, lt c -> WD c (d c v) (d' c v).
  (** what a part of a loop leaves, when it does not end the loop *)
  Ltac part H := let E := fresh "E" in unfold WD in H; cbn [snd] in H;
    match type of H with
    | match ?x with _ => _ end => destruct x as [?c|?e|?p|]; cbn [snd fail] in *;
        [destruct H as [-> H]|destruct H as [H| ->]; [left; exact H|right; reflexivity]|rewrite H; reflexivity|exact I]
    end.
  Ltac at_byte c Hc := let Hb := fresh "Hb" in
    destruct (has_byte b c) eqn:Hb; cbn [negb]; [apply has_byte_in in Hb; rewrite (has_more c Hb); cbn [negb]|apply has_byte_out in Hb; [apply WD_end; inr|inr]].
  Lemma w_map_loop kd kd' vd vd' : parts kd kd' -> parts vd vd' -> forall n n' c m, (n <= n')%nat -> le c ->
    WD c (map_loop kd vd b n c m) (map_loop kd' vd' b' n' c m).
  Proof.
    intros Hk Hv. induction n as [|n IH]; intros n' c m Hn Hc; [exact I|]. destruct n' as [|n']; [lia|]. cbn [map_loop].
    at_byte c Hc. pose proof (Hk c Hb) as gk. destruct (kd c) as [k kr]. part gk.
    at_byte c0 gk. pose proof (Hv c0 Hb0) as gv. destruct (vd c0) as [v vr]. part gv.
    destruct (hashable k); cbn [negb]; [|apply WD_panic]. at_byte c1 gv. destruct (rd_more c1 Hb1) as (x & -> & ->).
    destruct (x =b "}"%byte); [apply WD_ok; inr|]. eapply WD_le; [apply IH; [lia|inr]|inr].
  Qed.
  Lemma w_dec_map c d kd kd' vd vd' rv : parts kd kd' -> parts vd vd' -> le c ->
    WD c (dec_map kd vd b c d rv) (dec_map kd' vd' b' c d rv).
  Proof.
    intros Hk Hv Hc. unfold dec_map. pose proof (w_map_header c d Hc) as gh.
    destruct (map_header b c d) as [[c1|c1]|e|p|]; cbn [W onh] in gh.
    - destruct gh as [-> h]. apply WD_ok, h.
    - destruct gh as [-> h]. destruct rv; try apply WD_panic. at_byte c1 h. destruct (rd_more c1 Hb) as (x & -> & ->).
      destruct (x =b "}"%byte); [apply WD_ok; inr|].
      apply (WD_map c _ _ (fun m => VMap (Some m))). eapply WD_le; [apply w_map_loop; auto; [apply length_more|inr]|inr].
    - destruct gh as [gh| ->]; [left; exact gh|right; reflexivity].
    - rewrite gh. apply WD_panic.
    - exact I.
  Qed.
  Lemma w_any_key c : lt c -> WD c (dec_any_key b c) (dec_any_key b' c).
  Proof.
    intros Hc. unfold dec_any_key. destruct (rd_more c Hc) as (x & -> & ->).
    destruct (x =b "s"%byte).
    { pose proof (w_dec_string c (VStr []) ltac:(inr)) as g. destruct (dec_string b c (VStr [])) as [v r]. part g. apply WD_ok, g. }
    destruct (x =b "i"%byte); [|apply WD_err].
    pose proof (w_dec_int I64 c (VInt 0) ltac:(inr)) as g. destruct (dec_int I64 b c (VInt 0)) as [v r]. part g. apply WD_ok, g.
  Qed.
  Lemma w_wrap c t (r r' : dres) : WD c r r' -> W (on2 c)
    (match r with (v, ROk a) => ROk (Some (t : gty, v), a) | (_, r) => fail r end)
    (match r' with (v, ROk a) => ROk (Some (t : gty, v), a) | (_, r) => fail r end).
  Proof.
    intros g. destruct r as [v r]. unfold WD in g. cbn [snd] in g. destruct r as [a|e|p|]; cbn [fail]; [destruct g as [-> g]; apply W_ok, g| |rewrite g; reflexivity|exact I].
    destruct g as [g| ->]; [left; exact g|right; reflexivity].
  Qed.
  Lemma w_any X : forall f f' c d, (f <= f')%nat -> lt c -> W (on2 c) (dec_any_f X f b c d) (dec_any_f X f' b' c d).
  Proof.
    induction f as [|f IH]; intros f' c d Hf Hc; [exact I|]. destruct f' as [|f']; [lia|]. cbn [dec_any_f]. cbv zeta. go1.
    assert (parts (fun c => match dec_any_f X f b c (d + 1) with ROk (o, c') => (VIface o, ROk c') | r => (VIface None, fail r) end)
                  (fun c => match dec_any_f X f' b' c (d + 1) with ROk (o, c') => (VIface o, ROk c') | r => (VIface None, fail r) end)) as Hv.
    { intros c1 h1. pose proof (IH f' c1 (d + 1) ltac:(lia) h1) as g. destruct (dec_any_f X f b c1 (d + 1)) as [[o a]|e|p|]; cbn [W fail] in *.
      - destruct g as [-> g]. apply WD_ok, g.
      - destruct g as [g| ->]; [left; exact g|right; reflexivity].
      - rewrite g. apply WD_panic.
      - exact I. }
    go1; [apply w_wrap, w_dec_map; auto; [intros c1 h1; apply w_dec_string; inr|inr]|].
    go1; [apply w_wrap, w_dec_map; auto; [intros c1 h1; apply w_any_key; inr|inr]|].
    go1; [apply w_wrap, w_dec_float; inr|].
    go1; [eapply W_bind; [apply (w_string (c + 1)); inr|]; intros [s a] h; apply W_ok; inr|].
    go1; [apply w_wrap, w_dec_int; inr|].
    go1; [eapply W_bind; [apply w_bool; inr|]; intros v h; cbn beta in h; apply W_ok; inr|].
    go1; [eapply W_bind; [apply w_null; inr|]; intros v h; cbn beta in h; apply W_ok; inr|]. go.
  Qed.
  Lemma w_dec_any X c d : lt c -> W (on2 c) (dec_any X b c d) (dec_any X b' c d).
  Proof. intros Hc. unfold dec_any. apply w_any; [|exact Hc]. pose proof length_more. lia. Qed.
  Lemma w_iface_any X c d rv : lt c -> WD c (dec_iface_any X b c d rv) (dec_iface_any X b' c d rv).
  Proof. intros Hc. unfold dec_iface_any. wthen (w_dec_any X c d Hc) y h. destruct y as [o a]. apply WD_ok, h. Qed.
  Lemma w_piece c d : lt c -> W (on2 c) (cend <- skip_value b c d ;; src <- sub b c cend ;; ROk (src, cend))
                                       (cend <- skip_value b' c d ;; src <- sub b' c cend ;; ROk (src, cend)).
  Proof.
    intros Hc. eapply W_bind; [apply w_skip; inr|]. intros a h. destruct (sub_more c a ltac:(inr) ltac:(inr)) as (s & -> & ->). cbn [bind]. apply W_ok, h.
  Qed.
  Lemma w_unm X E n c d rv : lt c -> WD c (dec_unm X E n b c d rv) (dec_unm X E n b' c d rv).
  Proof.
    intros Hc. unfold dec_unm. wthen (w_piece c d Hc) y h. destruct y as [src a].
    assert (forall r : dres, match snd r with ROk a' => a' = a | _ => True end -> WD c r r) as K.
    { intros [v r] q. unfold WD. cbn [snd] in *. destruct r; auto. subst. auto. }
    apply K. cbv zeta. destruct src as [|x src].
    - destruct (x_unmarshal _ _ _ _) as [v []]; cbn [snd]; auto.
    - destruct (_ || _); [exact I|]. destruct (_ && _); [reflexivity|]. destruct (x_unmarshal _ _ _ _) as [v []]; cbn [snd]; auto.
  Qed.
  Lemma w_iface X E c d rv : lt c -> WD c (dec_iface X E b c d rv) (dec_iface X E b' c d rv).
  Proof.
    intros Hc.
    assert (forall rv, WD c match rd b c with
      | ROk x => if x =b "N"%byte then match validate_null b c with ROk _ => (VIface None, ROk (c + 2)) | r => (rv, fail r) end else (rv, RErr (EType c))
      | r => (rv, fail r) end match rd b' c with
      | ROk x => if x =b "N"%byte then match validate_null b' c with ROk _ => (VIface None, ROk (c + 2)) | r => (rv, fail r) end else (rv, RErr (EType c))
      | r => (rv, fail r) end) as Hp.
    { intros rv0. destruct (rd_more c Hc) as (x & -> & ->). destruct (x =b "N"%byte); [|apply WD_err].
      wthen (w_null c Hc) u h. apply WD_ok. inr. }
    unfold dec_iface. cbv zeta. destruct rv as [| | | | | | | | | |[[t v]|]| |]; try apply Hp.
    destruct t; try apply Hp. destruct v; try apply Hp. destruct (has_unmarshal E t); [|apply Hp].
    wthen (w_piece c d Hc) y h. destruct y as [src a].
    destruct (bytes_eqb src (bs "N;")); [apply WD_ok, h|]. destruct o as [old|]; [|apply WD_panic].
    destruct (x_unmarshal _ _ _ _) as [v []]; [apply WD_ok, h|apply WD_err].
  Qed.
  Lemma w_key X E kt c d : lt c -> WD c (dec_key X E kt b c d) (dec_key X E kt b' c d).
  Proof.
    intros Hc. unfold dec_key. cbv zeta. destruct (key_node E kt) as [n| | |k|k| | |nd|].
    - apply w_unm, Hc. - apply w_dec_string; inr. - apply w_dec_bool; inr. - apply w_dec_int; inr. - apply w_dec_uint; inr.
    - apply w_iface_any, Hc. - apply w_iface, Hc.
    - assert (WD c match dec_any X b c d with
                 | ROk (None, c0) => (zero E kt, ROk c0)
                 | ROk (Some _, _) => (zero E kt, RPanic PReflect)
                 | r => (zero E kt, fail r) end match dec_any X b' c d with
                 | ROk (None, c0) => (zero E kt, ROk c0)
                 | ROk (Some _, _) => (zero E kt, RPanic PReflect)
                 | r => (zero E kt, fail r) end) as Ha.
      { pose proof (w_dec_any X c d Hc) as g. destruct (dec_any X b c d) as [[[o|] a]|e|p|]; cbn [W fail] in *.
        - destruct g as [-> _]. apply WD_panic.
        - destruct g as [-> h]. apply WD_ok, h.
        - destruct g as [g| ->]; [left; exact g|right; reflexivity].
        - rewrite g. apply WD_panic.
        - exact I. }
      destruct nd; try exact Ha.
      + apply w_text; [apply w_int_bytes; inr|]. intros t a rv h. destruct (parse_uint64 t); [apply WD_panic|apply WD_err].
      + apply w_text; [apply w_int_bytes; inr|]. intros t a rv h. destruct (parse_int64 t); [apply WD_panic|apply WD_err].
      + apply w_text; [apply w_string_bytes; inr|]. intros t a rv h. apply WD_panic.
      + pose proof (w_dec_bool c VOther ltac:(inr)) as g. destruct (dec_bool b c VOther) as [v r]. unfold WD in g. cbn [snd] in g. destruct r as [a|e|p|].
        * destruct g as [-> g]. destruct v; try (apply WD_ok, g). apply WD_panic.
        * destruct g as [g| ->]; [|destruct v; apply WD_err]. destruct v; left; exact g.
        * rewrite g. destruct v; apply WD_panic.
        * destruct v; exact I.
    - apply WD_err.
  Qed.
  Lemma w_slice_loop X E et ed ed' : elems ed ed' -> forall n n' c sl rv, (n <= n')%nat -> le c ->
    WD c (slice_loop X E et ed b n c sl rv) (slice_loop X E et ed' b' n' c sl rv).
  Proof.
    intros He. induction n as [|n IH]; intros n' c sl rv Hn Hc; [exact I|]. destruct n' as [|n']; [lia|]. cbn [slice_loop]. cbv zeta.
    at_byte c Hc. wthen (w_read_int c Hc) y h1. destruct y as [i c1]. unfold on2 in h1. cbn [snd] in h1.
    at_byte c1 h1. destruct (i <? blen sl).
    - destruct (bad_index i (blen sl)); [apply WD_panic|].
      pose proof (He c1 (nth (Z.to_nat i) sl VOther) Hb0) as gv. destruct (ed c1 _) as [v r]. part gv.
      at_byte c0 gv. destruct (rd_more c0 Hb1) as (x & -> & ->).
      destruct (x =b "}"%byte); [apply WD_ok; inr|]. eapply WD_le; [apply IH; [lia|inr]|inr].
    - destruct (_ || _); [apply WD_panic|]. destruct (bad_index _ _); [apply WD_panic|].
      pose proof (He c1 (zero E et) Hb0) as gv. destruct (ed c1 _) as [v r]. part gv.
      at_byte c0 gv. destruct (rd_more c0 Hb1) as (x & -> & ->).
      destruct (x =b "}"%byte); [apply WD_ok; inr|]. eapply WD_le; [apply IH; [lia|inr]|inr].
  Qed.
  Lemma w_dec_slice X E et ed ed' c d rv : elems ed ed' -> le c -> WD c (dec_slice X E et ed b c d rv) (dec_slice X E et ed' b' c d rv).
  Proof.
    intros He Hc. unfold dec_slice. pose proof (w_slice_header c d Hc) as gh.
    destruct (slice_header b c d) as [[c1|c1|l c1]|e|p|]; cbn [W ona fail] in gh.
    - destruct gh as [-> h]. apply WD_ok, h.
    - destruct gh as [-> h]. apply WD_ok, h.
    - destruct gh as [-> h]. destruct (x_slots X et l); cbn [negb]; [|apply WD_panic].
      eapply WD_le; [apply w_slice_loop; [exact He|apply length_more|inr]|inr].
    - destruct gh as [gh| ->]; [left; exact gh|right; reflexivity].
    - rewrite gh. apply WD_panic.
    - exact I.
  Qed.
  Lemma w_array_loop ed ed' d : elems ed ed' -> forall n n' c l, (n <= n')%nat -> le c ->
    WD c (array_loop ed b d n c l) (array_loop ed' b' d n' c l).
  Proof.
    intros He. induction n as [|n IH]; intros n' c l Hn Hc; [exact I|]. destruct n' as [|n']; [lia|]. cbn [array_loop]. cbv zeta.
    at_byte c Hc. wthen (w_read_int c Hc) y h1. destruct y as [i c1]. unfold on2 in h1. cbn [snd] in h1.
    at_byte c1 h1. destruct (i <? blen l).
    - destruct (bad_index i (blen l)); [apply WD_panic|].
      pose proof (He c1 (nth (Z.to_nat i) l VOther) Hb0) as gv. destruct (ed c1 _) as [v r]. part gv.
      at_byte c0 gv. destruct (rd_more c0 Hb1) as (x & -> & ->).
      destruct (x =b "}"%byte); [apply WD_ok; inr|]. eapply WD_le; [apply IH; [lia|inr]|inr].
    - wthen (w_skip c1 d ltac:(inr)) c2 h2.
      at_byte c2 h2. destruct (rd_more c2 Hb1) as (x & -> & ->).
      destruct (x =b "}"%byte); [apply WD_ok; inr|]. eapply WD_le; [apply IH; [lia|inr]|inr].
  Qed.
  (** whether the array has been cleared *)
  Lemma w_zeroed c d : le c -> array_zeroed b' c d = array_zeroed b c d \/ exists e, array_header b c d = RErr e /\ unfinished b e.
  Proof.
    intros Hc. destruct (has_byte b c) eqn:Hb.
    2:{ right. exists (ESyntax c (WEnd "array")). unfold array_header, seq_header. rewrite Hb. split; [reflexivity|]. apply has_byte_out in Hb; [|inr]. right. lia. }
    unfold array_zeroed, array_header, seq_header. rewrite Hb. apply has_byte_in in Hb. rewrite (has_more c Hb). destruct (rd_more c Hb) as (x & -> & ->). cbn [negb bind andb].
    destruct (Z_lt_ge_dec (c + 1) (blen b)) as [h|h]; [left; destruct (rd_more (c + 1) ltac:(lia)) as (y & -> & ->); reflexivity|].
    destruct (max_depth <? d + 1); [left; reflexivity|]. cbn [negb andb].
    destruct (x =b "a"%byte) eqn:Ha; [|left; destruct (rd b (c + 1)), (rd b' (c + 1)); reflexivity].
    apply Byte.byte_dec_bl in Ha. subst x. change ("a"%byte =b "N"%byte) with false. cbv zeta iota. rewrite (has_end (c + 1)) by lia. cbn [negb].
    right. eexists. split; [reflexivity|]. right. lia.
  Qed.
  Lemma w_dec_array E n et ed ed' c d rv : elems ed ed' -> le c -> WD c (dec_array E n et ed b c d rv) (dec_array E n et ed' b' c d rv).
  Proof.
    intros He Hc. unfold dec_array. cbv zeta. pose proof (w_seq_header "array" c d Hc) as gh. fold array_header in gh.
    destruct (array_header b c d) as [[c1|c1|l c1]|e|p|] eqn:Eh; cbn [W ona fail] in gh.
    - destruct gh as [-> h]. apply WD_ok, h.
    - destruct gh as [-> h]. apply WD_ok, h.
    - destruct gh as [-> h]. apply (WD_map c _ _ VArr).
      eapply WD_le; [apply w_array_loop; [exact He|apply length_more|inr]|inr].
    - destruct (w_zeroed c d Hc) as [->|(e0 & E0 & U)]; [|left; congruence].
      destruct gh as [gh| ->]; [left; exact gh|right; reflexivity].
    - destruct (w_zeroed c d Hc) as [->|(e0 & E0 & U)]; [|congruence]. rewrite gh. apply WD_panic.
    - exact I.
  Qed.
  Lemma w_struct_loop decs fd fd' d : (forall f, elems (fd f) (fd' f)) -> forall n n' c l, (n <= n')%nat -> le c ->
    WD c (struct_loop decs fd b d n c l) (struct_loop decs fd' b' d n' c l).
  Proof.
    intros He. induction n as [|n IH]; intros n' c l Hn Hc; [exact I|]. destruct n' as [|n']; [lia|]. cbn [struct_loop]. cbv zeta.
    at_byte c Hc. wthen (w_string_bytes c Hc) y h1. destruct y as [k c1]. unfold on2 in h1. cbn [snd] in h1.
    at_byte c1 h1. destruct (find_field _ decs) as [f|].
    - destruct (nth_error l (fd_idx f)) as [v0|]; [|apply WD_panic].
      pose proof (He f c1 v0 Hb0) as gv. destruct (fd f c1 v0) as [v r]. part gv.
      at_byte c0 gv. destruct (rd_more c0 Hb1) as (x & -> & ->).
      destruct (x =b "}"%byte); [apply WD_ok; inr|]. eapply WD_le; [apply IH; [lia|inr]|inr].
    - wthen (w_skip c1 d ltac:(inr)) c2 h2.
      at_byte c2 h2. destruct (rd_more c2 Hb1) as (x & -> & ->).
      destruct (x =b "}"%byte); [apply WD_ok; inr|]. eapply WD_le; [apply IH; [lia|inr]|inr].
  Qed.
  Lemma w_dec_struct decs fd fd' c d rv : (forall f, elems (fd f) (fd' f)) -> le c ->
    WD c (dec_struct decs fd b c d rv) (dec_struct decs fd' b' c d rv).
  Proof.
    intros He Hc. unfold dec_struct. wthen (w_struct_header c d Hc) y h. destruct y as [c1|c1]; cbn [onh] in h.
    - apply WD_ok, h.
    - destruct rv; try apply WD_panic. at_byte c1 h. destruct (rd_more c1 Hb) as (x & -> & ->).
      destruct (x =b "}"%byte); [apply WD_ok; inr|].
      apply (WD_map c _ _ VStruct). eapply WD_le; [apply w_struct_loop; [exact He|apply length_more|inr]|inr].
  Qed.
  Lemma w_dec_ptr E t ed ed' c rv : elems ed ed' -> lt c -> WD c (dec_ptr E t ed b c rv) (dec_ptr E t ed' b' c rv).
  Proof.
    intros He Hc. unfold dec_ptr. destruct (rd_more c Hc) as (x & -> & ->).
    destruct (x =b "N"%byte); [wthen (w_null c Hc) u h; apply WD_ok; inr|]. destruct rv; try apply WD_panic.
    apply (WD_map c _ _ (fun v => VPtr (Some v))). apply He, Hc.
  Qed.
  Lemma w_keep c c0 a (r : dres) : on c a -> WD c0 r r -> WD c (match r with (v, ROk _) => (v, ROk a) | r => r end) (match r with (v, ROk _) => (v, ROk a) | r => r end).
  Proof. intros h g. destruct r as [v [a'|e|p|]]; [apply WD_ok, h|apply WD_err|apply WD_panic|exact I]. Qed.
  Lemma w_dec_wrapped X nd c rv : lt c -> WD c (dec_wrapped X nd b c rv) (dec_wrapped X nd b' c rv).
  Proof.
    intros Hc. unfold dec_wrapped. cbv zeta. apply w_text; [apply w_string_bytes; inr|]. intros t a rv' h.
    assert (on c c) as h0 by inr.
    destruct nd; try apply WD_err.
    - apply (w_keep c c a _ h), at_uint, h0.
    - apply (w_keep c c a _ h), at_int, h0.
    - destruct (parse_bool t); [apply WD_ok, h|apply WD_err].
    - apply (w_keep c c a _ h), at_float, h0.
    - apply (w_keep c c a _ h), at_float, h0.
  Qed.
  Lemma w_dec_bytes sd sd' c rv : (forall v, WD c (sd v) (sd' v)) -> lt c -> WD c (dec_bytes sd b c rv) (dec_bytes sd' b' c rv).
  Proof.
    intros Hs Hc. unfold dec_bytes. destruct (rd_more c Hc) as (x & -> & ->). destruct (x =b "a"%byte); [apply Hs|].
    apply w_text; [apply w_string_bytes; inr|]. intros t a rv' h. apply WD_ok, h.
  Qed.
  Lemma w_decode_f X E : forall f f' t c d rv, (f <= f')%nat -> lt c -> WD c (decode_f X E f t b c d rv) (decode_f X E f' t b' c d rv).
  Proof.
    induction f as [|f IH]; intros f' t c d rv Hf Hc; [exact I|]. destruct f' as [|f']; [lia|]. cbn [decode_f]. cbv zeta.
    assert (le c) as Hc' by inr.
    assert (forall et d, elems (fun c v => decode_f X E f et b c d v) (fun c v => decode_f X E f' et b' c d v)) as He by (intros et d0 c1 v h1; apply IH; [lia|exact h1]).
    destruct (node_of E t) as [n|t'|id fs|et|et|n et|k v| | |k|k| | | | |].
    - apply w_unm, Hc.
    - destruct (kind_of E t'); try apply WD_err; apply w_dec_ptr; auto.
    - apply w_dec_struct; [|exact Hc']. intros fd c1 v h1. destruct (fd_str fd); [|apply IH; [lia|exact h1]].
      destruct (node_of E (fd_ty fd)) as [| t'| | | | | | | | | | | | | |]; try (apply w_dec_wrapped, h1).
      apply w_dec_ptr; [|exact h1]. intros c2 v2 h2. apply w_dec_wrapped, h2.
    - apply w_dec_bytes; [|exact Hc]. intros v. apply w_dec_slice; auto.
    - apply w_dec_slice; auto.
    - apply w_dec_array; auto.
    - apply w_dec_map; [intros c1 h1; apply w_key, h1|intros c1 h1; apply IH; [lia|exact h1]|exact Hc'].
    - apply w_iface_any, Hc.
    - apply w_iface, Hc.
    - apply w_dec_uint, Hc'.
    - apply w_dec_int, Hc'.
    - apply w_dec_string, Hc'.
    - apply w_dec_bool, Hc'.
    - apply w_dec_float, Hc'.
    - apply w_dec_float, Hc'.
    - apply WD_err.
  Qed.
  Lemma w_decode X E t rv : b <> [] -> WD 0 (decode X E t b 0 0 rv) (decode X E t b' 0 0 rv).
  Proof.
    intros Hb. unfold decode. apply w_decode_f; [unfold decode_fuel; pose proof length_more; lia|]. assert (length b <> 0)%nat as h by (rewrite length_zero_iff_nil; exact Hb). unfold lt, blen. lia.
  Qed.
End Grow.
