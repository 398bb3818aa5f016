(** Decoding at a cursor looks only at the bytes from the cursor on. *)
From Coq Require Import Strings.String Strings.Byte ZArith List Bool Lia Floats.SpecFloat.
From Verif Require Import Base GoTypes Strconv Tags Scan Decode Grammar NumFacts SliceHead.
Import ListNotations.
Open Scope Z_scope.

(** [b] and [b'] have the same length and the same bytes from [c] on. *)
Definition ag (c : Z) (b b' : bytes) : Prop :=
  0 <= c /\ length b = length b' /\ skipn (Z.to_nat c) b = skipn (Z.to_nat c) b'.
Lemma ag_blen c b b' : ag c b b' -> blen b' = blen b.
Proof. intros (_ & H & _). unfold blen. lia. Qed.
Lemma skipn_add {A} (l : list A) : forall m n, skipn (m + n) l = skipn m (skipn n l).
Proof. induction l as [|x l IH]; intros m [|n]; rewrite ?Nat.add_0_r, ?skipn_nil, ?skipn_O; auto. rewrite Nat.add_succ_r. cbn [skipn]. apply IH. Qed.
Lemma ag_le c c' b b' : ag c b b' -> c <= c' -> ag c' b b'.
Proof.
  intros (H0 & H1 & H2) Hc. split; [lia|]. split; [exact H1|].
  replace (Z.to_nat c') with (Z.to_nat (c' - c) + Z.to_nat c)%nat by lia. rewrite !skipn_add. now rewrite H2.
Qed.
Lemma ag_refl c b : 0 <= c -> ag c b b.
Proof. intros H. split; [exact H|]. auto. Qed.
Lemma ag_sym c b b' : ag c b b' -> ag c b' b.
Proof. intros (A & B & C). split; [exact A|]. auto. Qed.
Lemma ag_trans c a b b' : ag c a b -> ag c b b' -> ag c a b'.
Proof. intros (A & B & C) (D & F & G). split; [exact A|]. split; congruence. Qed.
Lemma nth_skipn {A} (l : list A) : forall n i, nth_error (skipn n l) i = nth_error l (n + i).
Proof. induction l as [|x l IH]; intros [|n] i; cbn; auto. destruct i; reflexivity. Qed.
Lemma ag_rd c b b' i : ag c b b' -> c <= i -> rd b' i = rd b i.
Proof.
  intros (H0 & H1 & H2) Hi. unfold rd. destruct (0 <=? i); [|reflexivity].
  replace (Z.to_nat i) with (Z.to_nat c + Z.to_nat (i - c))%nat by lia. now rewrite <- !nth_skipn, H2.
Qed.
Lemma ag_sub c b b' i j : ag c b b' -> c <= i -> sub b' i j = sub b i j.
Proof.
  intros H Hi. destruct (ag_le c i b b' H Hi) as (_ & _ & Hs). unfold sub. rewrite (ag_blen c b b' H), Hs. reflexivity.
Qed.
Lemma ag_has c b b' i : ag c b b' -> has_byte b' i = has_byte b i.
Proof. intros H. unfold has_byte. now rewrite (ag_blen c b b' H). Qed.
Lemma ag_hass c b b' i n : ag c b b' -> has_bytes b' i n = has_bytes b i n.
Proof. intros H. unfold has_bytes. now rewrite (ag_blen c b b' H). Qed.

(** The two results are equal, and [P] holds of a success. *)
Definition L {A} (P : A -> Prop) (r r' : R A) : Prop := r' = r /\ match r with ROk a => P a | _ => True end.
Lemma L_bind {A B} (P : A -> Prop) (Q : B -> Prop) r r' (k k' : A -> R B) :
  L P r r' -> (forall a, P a -> L Q (k a) (k' a)) -> L Q (bind r k) (bind r' k').
Proof. intros [-> H] K. destruct r; cbn [bind]; [apply K, H|split; [reflexivity|exact I]..]. Qed.
Lemma L_imp {A} (P Q : A -> Prop) r r' : L P r r' -> (forall a, P a -> Q a) -> L Q r r'.
Proof. intros [-> H] K. split; [reflexivity|]. destruct r; auto. Qed.
Lemma L_ok {A} (P : A -> Prop) a : P a -> L P (ROk a) (ROk a).
Proof. intros H. split; [reflexivity|exact H]. Qed.
Lemma L_fail {A B} (P : A -> Prop) (Q : B -> Prop) r r' : L P r r' -> L Q (fail r) (fail r').
Proof. intros [-> H]. split; [reflexivity|]. destruct r; exact I. Qed.

Section Local.
  Context (b b' : bytes) (Hsm : small b).
  Let from c := ag c b b'.
  Definition ge1 (c : Z) (x : Z) : Prop := c <= x.
  Definition ge2 {A} (c : Z) (p : A * Z) : Prop := c <= snd p.

  Ltac stopped := split; [reflexivity|exact I].
  Ltac inr := unfold ge1, ge2 in *; cbn [fst snd] in *; lia.
  (** one step of two equal programs; [H] : ag c b b' *)
  Ltac go1 H := match goal with
    | |- L _ (if negb (has_byte b ?x) then _ else _) _ =>
        rewrite (ag_has _ _ _ x H); let Q := fresh "Hb" in destruct (has_byte b x) eqn:Q; cbn [negb]
    | |- L _ (if negb (has_bytes b ?x ?n) then _ else _) _ =>
        rewrite (ag_hass _ _ _ x n H); let Q := fresh "Hb" in destruct (has_bytes b x n) eqn:Q; cbn [negb]
    | |- L _ (bind (rd b ?x) _) _ => rewrite (ag_rd _ _ _ x H) by inr; let y := fresh "x" in destruct (rd b x) as [y|?e|?p|] eqn:?; cbn [bind]
    | |- L _ (if negb ?t then _ else _) _ => destruct t; cbn [negb]
    | |- L _ (if ?t then _ else _) _ => destruct t eqn:?
    | |- L _ (ROk _) _ => apply L_ok; try exact I; try inr
    | |- L _ (RErr _) _ => stopped
    | |- L _ (RPanic _) _ => stopped
    | |- L _ RFuel _ => stopped
    end.
  Ltac go H := repeat go1 H.

  Lemma l_scan p c0 (H : from c0) : forall n c, c0 <= c -> L (ge1 c) (scan_while p b n c) (scan_while p b' n c).
  Proof.
    induction n as [|n IH]; intros c Hc; cbn [scan_while]; [go H|].
    rewrite (ag_has _ _ _ c H). destruct (has_byte b c); [|go H]. go1 H; try stopped. destruct (p x); [|go H].
    eapply L_imp; [apply IH; lia|]. intros a h. inr.
  Qed.
  Lemma lens c (H : from c) : length b' = length b.
  Proof. destruct H as (_ & E & _). auto. Qed.
  Lemma l_skip_length c0 c (H : from c0) : c0 <= c -> L (ge1 c) (skip_length b c) (skip_length b' c).
  Proof.
    intros Hc. unfold skip_length. rewrite (lens c0 H). go1 H; [|go H]. go1 H; try stopped. go1 H; [|go H].
    eapply L_bind; [apply (l_scan is_digit c0 H); lia|]. intros a h. unfold ge1 in h. go1 H; [go H|]. go H.
  Qed.
  Lemma l_read_length c0 c (H : from c0) : c0 <= c -> L (fun p => 0 <= fst p <= max_int64 /\ c <= snd p) (read_length b c) (read_length b' c).
  Proof.
    intros Hc. unfold read_length. eapply L_bind; [apply (l_skip_length c0 c H Hc)|]. intros a h. unfold ge1 in h.
    rewrite (ag_sub _ _ _ _ (a - 1) H) by lia. destruct (sub b (c + 1) (a - 1)) as [s|e|p|]; cbn [bind]; try stopped.
    destruct (parse_int64 s) as [z|] eqn:Ep; [|stopped]. apply parse_int64_some in Ep as [_ Ep].
    destruct (z <? 0) eqn:Ez; [stopped|]. apply Z.ltb_ge in Ez. apply L_ok. cbn [fst snd]. lia.
  Qed.
  Lemma l_class c0 c (H : from c0) : c0 <= c -> L (ge1 c) (skip_class_name b c) (skip_class_name b' c).
  Proof.
    intros Hc. unfold skip_class_name. go1 H; [|go H]. go1 H; try stopped. go1 H; [|go H].
    eapply L_bind; [apply (l_read_length c0 (c + 1) H); lia|]. intros [n st] [h1 h2]. cbn [fst snd] in *.
    go1 H; [|go H]. go1 H; try stopped. go1 H; [|go H]. cbv zeta. go1 H; [|go H].
    assert (c <= wrap64 (st + n + 1)) as Hw.
    { unfold has_byte in Hb0. rewrite andb_true_iff, Z.leb_le, Z.ltb_lt in Hb0.
      unfold has_bytes in Hb1. rewrite !andb_true_iff, !Z.leb_le in Hb1.
      unfold small, max_int64, wrap64 in *. destruct H as (H0 & _).
      destruct (Z_lt_ge_dec (st + n + 1) (2 ^ 63)) as [h|h].
      - rewrite Z.mod_small by lia. lia.
      - exfalso. assert ((st + n + 1 + 2 ^ 63) mod 2 ^ 64 = st + n + 1 + 2 ^ 63 - 2 ^ 64) as e by (symmetry; apply (Zmod_unique _ _ 1); lia). lia. }
    go H.
  Qed.
  Lemma l_null c0 c (H : from c0) : c0 <= c -> L (fun _ => True) (validate_null b c) (validate_null b' c).
  Proof. intros Hc. unfold validate_null. rewrite (ag_blen _ _ _ H). go H. Qed.
  Lemma l_empty_array c0 c (H : from c0) : c0 <= c -> L (fun _ => True) (validate_empty_array b c) (validate_empty_array b' c).
  Proof. intros Hc. unfold validate_empty_array. rewrite (ag_blen _ _ _ H). go H. Qed.
  Lemma l_string c0 c (H : from c0) : c0 <= c -> L (ge2 c) (read_string b c) (read_string b' c).
  Proof.
    intros Hc. unfold read_string. eapply L_bind; [apply (l_read_length c0 c H); lia|]. intros [n st] [h1 h2]. cbn [fst snd] in *.
    go1 H; [|go H]. go1 H; try stopped. go1 H; [|go H]. cbv zeta. go1 H; [|go H]. go1 H; try stopped. go1 H; [|go H]. go1 H; try stopped. go1 H; [|go H].
    rewrite (ag_sub _ _ _ _ (st + 1 + n) H) by lia. destruct (sub b (st + 1) (st + 1 + n)); cbn [bind]; go H.
  Qed.
  Lemma l_integer c0 c (H : from c0) : c0 <= c -> L (ge2 c) (read_integer_bytes b c) (read_integer_bytes b' c).
  Proof.
    intros Hc. unfold read_integer_bytes. rewrite (lens c0 H). go1 H; [|go H]. go1 H; try stopped. go1 H; [|go H]. go1 H; [|go H]. go1 H; try stopped. go1 H; [|go H].
    cbv zeta. go1 H; try stopped.
    eapply L_bind; [apply (l_scan is_digit c0 H); destruct (x1 =b "-"%byte); lia|]. intros a h. unfold ge1 in h.
    assert (c + 2 <= a) by (destruct (x1 =b "-"%byte); lia). go1 H; [go H|]. go1 H; [|go H]. go1 H; try stopped. go1 H; [|go H].
    rewrite (ag_sub _ _ _ _ a H) by lia. destruct (sub b (c + 2) a); cbn [bind]; go H.
  Qed.
  Lemma l_float c0 c (H : from c0) : c0 <= c -> L (ge2 c) (read_float_bytes b c) (read_float_bytes b' c).
  Proof.
    intros Hc. unfold read_float_bytes. rewrite (lens c0 H). go1 H; [|go H]. go1 H; try stopped. go1 H; [|go H]. go1 H; [|go H]. go1 H; try stopped. go1 H; [|go H].
    cbv zeta. eapply L_bind; [apply (l_scan _ c0 H); lia|]. intros a h. unfold ge1 in h.
    go1 H; [go H|]. go1 H; [|go H].
    rewrite (ag_sub _ _ _ _ a H) by lia. destruct (sub b (c + 2) a); cbn [bind]; go H.
  Qed.
  Lemma l_bool c0 c (H : from c0) : c0 <= c -> L (fun _ => True) (read_bool b c) (read_bool b' c).
  Proof.
    intros Hc. unfold read_bool. go1 H; [|go H]. go1 H; try stopped. go1 H; [|go H]. go1 H; try stopped. go1 H; [|go H]. go1 H; try stopped.
    eapply (L_bind (fun _ => True)); [go H|]. intros v _. go H.
  Qed.
  Lemma l_skip_int c0 c (H : from c0) : c0 <= c -> L (ge1 c) (skip_int b c) (skip_int b' c).
  Proof. intros Hc. unfold skip_int. eapply L_bind; [apply (l_integer c0 c H Hc)|]. intros [s a] h. apply L_ok. exact h. Qed.
  Lemma l_skip_string c0 c (H : from c0) : c0 <= c -> L (ge1 c) (skip_string b c) (skip_string b' c).
  Proof.
    intros Hc. unfold skip_string. go1 H; [|go H]. go1 H; try stopped. go1 H; [|go H].
    eapply L_bind; [apply (l_string c0 (c + 1) H); lia|]. intros [s a] h. apply L_ok. inr.
  Qed.
  Definition skips (c0 : Z) (sk sk' : Z -> R Z) : Prop := forall c, c0 <= c -> L (ge1 c) (sk c) (sk' c).
  Lemma l_entries c0 sk sk' : skips c0 sk sk' -> forall n len c, c0 <= c -> L (ge1 c) (skip_entries sk n len c) (skip_entries sk' n len c).
  Proof.
    intros Hs. induction n as [|n IH]; intros len c Hc; cbn [skip_entries]; destruct (len <=? 0); try stopped; try (apply L_ok; inr).
    eapply L_bind; [apply Hs, Hc|]. intros c1 h1. unfold ge1 in h1. eapply L_bind; [apply Hs; lia|]. intros c2 h2. unfold ge1 in h2.
    eapply L_imp; [apply IH; lia|]. intros a h. inr.
  Qed.
  Lemma l_skip_array c0 c d sk sk' (H : from c0) : skips c0 sk sk' -> c0 <= c -> L (ge1 c) (skip_array sk b c d) (skip_array sk' b' c d).
  Proof.
    intros Hs Hc. unfold skip_array. rewrite (lens c0 H). go1 H; [go H|]. eapply L_bind; [apply (l_read_length c0 c H Hc)|]. intros [n st] [h1 h2]. cbn [fst snd] in *.
    go1 H; [|go H]. go1 H; try stopped. go1 H; [|go H]. eapply L_bind; [apply (l_entries c0 sk sk' Hs); lia|]. intros a h. unfold ge1 in h. go H.
  Qed.
  Lemma l_skip_value c0 (H : from c0) : forall f c d, c0 <= c -> L (ge1 c) (skip_value_f f b c d) (skip_value_f f b' c d).
  Proof.
    induction f as [|f IH]; intros c d Hc; cbn [skip_value_f]; [go H|]. cbv zeta. go1 H; [|go H]. go1 H; try stopped.
    assert (skips c0 (fun c => skip_value_f f b c (d + 1)) (fun c => skip_value_f f b' c (d + 1))) as Hs by (intros c1 h1; apply IH, h1).
    destruct (x =b "O"%byte).
    { eapply L_bind; [apply (l_class c0 c H Hc)|]. intros a h. unfold ge1 in h. eapply L_imp; [apply l_skip_array with (c0 := c0); auto; lia|]. intros a' h'. inr. }
    destruct (x =b "a"%byte); [eapply L_imp; [apply l_skip_array with (c0 := c0); auto; lia|]; intros a' h'; inr|].
    destruct (x =b "s"%byte); [apply (l_skip_string c0); auto|].
    destruct (x =b "d"%byte); [eapply L_bind; [apply (l_float c0); auto|]; intros [s a] h; apply L_ok; exact h|].
    destruct (x =b "i"%byte); [apply (l_skip_int c0); auto|].
    destruct (x =b "b"%byte); [eapply L_bind; [apply (l_bool c0); auto|]; intros v _; apply L_ok; inr|].
    destruct (x =b "N"%byte); [eapply L_bind; [apply (l_null c0); auto|]; intros v _; apply L_ok; inr|]. go H.
  Qed.
  Lemma l_skip c0 c d (H : from c0) : c0 <= c -> L (ge1 c) (skip_value b c d) (skip_value b' c d).
  Proof. intros Hc. unfold skip_value. rewrite (lens c0 H). apply (l_skip_value c0 H), Hc. Qed.
  Lemma l_read_int c0 c (H : from c0) : c0 <= c -> L (ge2 c) (read_int b c) (read_int b' c).
  Proof.
    intros Hc. unfold read_int. eapply L_bind; [apply (l_integer c0 c H Hc)|]. intros [s a] h. destruct (parse_int64 s); go H.
  Qed.

  (** ** Decoders *)
  Definition LD (c : Z) (r r' : dres) : Prop := r' = r /\ match snd r with ROk a => c <= a | _ => True end.
  Lemma l_string_bytes c0 c (H : from c0) : c0 <= c -> L (ge2 c) (decode_string_bytes b c) (decode_string_bytes b' c).
  Proof.
    intros Hc. unfold decode_string_bytes. go1 H; [|go H]. go1 H; try stopped. go1 H; [eapply L_bind; [apply (l_null c0 c H Hc)|]; intros u _; apply L_ok; inr|].
    go1 H; [go H|]. go1 H; [|go H]. eapply L_bind; [apply (l_string c0 (c + 1) H); lia|]. intros [s a] h. apply L_ok. inr.
  Qed.
  Lemma l_int_bytes c0 c (H : from c0) : c0 <= c -> L (ge2 c) (decode_int_bytes b c) (decode_int_bytes b' c).
  Proof.
    intros Hc. unfold decode_int_bytes. go1 H; [|go H]. go1 H; try stopped. go1 H; [eapply L_bind; [apply (l_null c0 c H Hc)|]; intros u _; apply L_ok; inr|].
    eapply L_bind; [apply (l_integer c0 c H Hc)|]. intros [s a] h. apply L_ok. exact h.
  Qed.
  Lemma l_float_bytes c0 c (H : from c0) : c0 <= c -> L (ge2 c) (decode_float_bytes b c) (decode_float_bytes b' c).
  Proof.
    intros Hc. unfold decode_float_bytes. go1 H; [|go H]. go1 H; try stopped. go1 H; [eapply L_bind; [apply (l_null c0 c H Hc)|]; intros u _; apply L_ok; inr|].
    go1 H; [|go H]. eapply L_bind; [apply (l_float c0 c H Hc)|]. intros [s a] h. apply L_ok. exact h.
  Qed.
  (** a result of [process] is at the cursor it is given *)
  Lemma l_text c r r' process rv : L (ge2 c) r r' -> (forall t a rv, c <= a -> match snd (process t a rv) with ROk a' => c <= a' | _ => True end) ->
    LD c (dec_text r process rv) (dec_text r' process rv).
  Proof.
    intros [-> Hr] Hp. split; [reflexivity|]. unfold dec_text. destruct r as [[[t|] a]|e|p|]; cbn [snd fail]; try exact I; [apply Hp, Hr|exact Hr].
  Qed.
  Lemma at_int k c t a rv : c <= a -> match snd (process_int k t a rv) with ROk a' => c <= a' | _ => True end.
  Proof. intros h. unfold process_int. destruct (parse_int64 t); [|exact I]. destruct (_ || _); [exact I|exact h]. Qed.
  Lemma at_uint k c t a rv : c <= a -> match snd (process_uint k t a rv) with ROk a' => c <= a' | _ => True end.
  Proof. intros h. unfold process_uint. destruct (parse_uint64 t); [|exact I]. destruct (_ <? _); [exact I|exact h]. Qed.
  Lemma at_float X s c t a rv : c <= a -> match snd (process_float X s t a rv) with ROk a' => c <= a' | _ => True end.
  Proof. intros h. unfold process_float. destruct (parse_float X t); [|exact I]. destruct s; [destruct (overflow_f32 _); [exact I|exact h]|exact h]. Qed.
  Lemma l_dec_int k c0 c rv (H : from c0) : c0 <= c -> LD c (dec_int k b c rv) (dec_int k b' c rv).
  Proof. intros Hc. apply l_text; [apply (l_int_bytes c0 c H Hc)|]. intros t a rv' h. apply at_int, h. Qed.
  Lemma l_dec_uint k c0 c rv (H : from c0) : c0 <= c -> LD c (dec_uint k b c rv) (dec_uint k b' c rv).
  Proof. intros Hc. apply l_text; [apply (l_int_bytes c0 c H Hc)|]. intros t a rv' h. apply at_uint, h. Qed.
  Lemma l_dec_float X s c0 c rv (H : from c0) : c0 <= c -> LD c (dec_float X s b c rv) (dec_float X s b' c rv).
  Proof. intros Hc. apply l_text; [apply (l_float_bytes c0 c H Hc)|]. intros t a rv' h. apply at_float, h. Qed.
  Lemma l_dec_string c0 c rv (H : from c0) : c0 <= c -> LD c (dec_string b c rv) (dec_string b' c rv).
  Proof. intros Hc. apply l_text; [apply (l_string_bytes c0 c H Hc)|]. intros t a rv' h. exact h. Qed.
  Lemma l_dec_bool c0 c rv (H : from c0) : c0 <= c -> LD c (dec_bool b c rv) (dec_bool b' c rv).
  Proof.
    intros Hc. unfold dec_bool. rewrite (ag_has _ _ _ c H), (ag_rd _ _ _ c H Hc). destruct (l_bool c0 c H Hc) as [-> _]. destruct (l_null c0 c H Hc) as [-> _].
    split; [reflexivity|]. destruct (has_byte b c); cbn [negb snd]; [|exact I]. destruct (rd b c); cbn [snd fail]; try exact I.
    destruct (_ =b _)%byte; [destruct (read_bool b c); cbn [snd fail]; try exact I; lia|].
    destruct (_ =b _)%byte; [destruct (validate_null b c); cbn [snd fail]; try exact I; lia|exact I].
  Qed.
  Definition geh (c : Z) (h : hdr) : Prop := match h with HNull a | HBody a => c <= a end.
  Lemma l_object_start w c0 c (H : from c0) x : c0 <= c -> L (ge1 c)
      (if x =b "O"%byte then cend <- skip_class_name b c ;; ROk (cend + 1)
       else if x =b "a"%byte then ROk (c + 1) else RErr (ESyntax c w))
      (if x =b "O"%byte then cend <- skip_class_name b' c ;; ROk (cend + 1)
       else if x =b "a"%byte then ROk (c + 1) else RErr (ESyntax c w)).
  Proof. intros Hc. go1 H; [eapply L_bind; [apply (l_class c0 c H Hc)|]; intros a h; apply L_ok; inr|]. go H. Qed.
  Lemma l_map_header c0 c d (H : from c0) : c0 <= c -> L (geh c) (map_header b c d) (map_header b' c d).
  Proof.
    intros Hc. unfold map_header. go1 H; [|go H]. go1 H; try stopped. go1 H; [go H|].
    go1 H; [eapply L_bind; [apply (l_null c0 c H Hc)|]; intros u _; apply L_ok; cbn; lia|].
    eapply L_bind; [apply (l_object_start _ c0 c H x Hc)|]. intros a h. unfold ge1 in h.
    eapply L_bind; [apply (l_read_length c0 a H); lia|]. intros [n st] [h1 h2]. cbn [fst snd] in *. go H. cbn. lia.
  Qed.
  Lemma l_struct_header c0 c d (H : from c0) : c0 <= c -> L (geh c) (struct_header b c d) (struct_header b' c d).
  Proof.
    intros Hc. unfold struct_header. go1 H; [|go H]. go1 H; try stopped. go1 H; [go H|].
    go1 H; [eapply L_bind; [apply (l_null c0 c H Hc)|]; intros u _; apply L_ok; cbn; lia|].
    eapply L_bind; [apply (l_object_start _ c0 c H x Hc)|]. intros a h. unfold ge1 in h. go1 H; [|go H]. go1 H; try stopped. go1 H; [|go H].
    eapply L_bind; [apply (l_skip_length c0 a H); lia|]. intros st h2. unfold ge1 in *. go H. cbn. lia.
  Qed.
  Definition gea (c : Z) (h : ahdr) : Prop := match h with AhNull a | AhEmpty a | AhBody _ a => c <= a end.
  Lemma l_seq_header what c0 c d (H : from c0) : c0 <= c -> L (gea c) (seq_header what b c d) (seq_header what b' c d).
  Proof.
    intros Hc. unfold seq_header. go1 H; [|go H]. go1 H; try stopped. go1 H; [go H|].
    go1 H; [eapply L_bind; [apply (l_null c0 c H Hc)|]; intros u _; apply L_ok; cbn; lia|].
    go1 H; [|go H]. cbv zeta. go1 H; [|go H]. go1 H; try stopped. go1 H; [|go H]. go1 H; [|go H]. go1 H; try stopped.
    go1 H; [eapply L_bind; [apply (l_empty_array c0 _ H); lia|]; intros u _; apply L_ok; cbn; lia|].
    unfold read_length_int. eapply L_bind; [apply (l_read_length c0 _ H); lia|]. intros [n st] [h1 h2]. cbn [fst snd] in *. go H. cbn. lia.
  Qed.
  Lemma l_array_header c0 c d (H : from c0) : c0 <= c -> L (gea c) (array_header b c d) (array_header b' c d).
  Proof. apply l_seq_header, H. Qed.
  Lemma l_number c0 c (H : from c0) : c0 <= c -> number_at b' c = number_at b c.
  Proof. intros Hc. unfold number_at. rewrite (ag_rd _ _ _ _ H) by lia. reflexivity. Qed.
  Lemma l_slice_header c0 c d (H : from c0) : c0 <= c -> L (gea c) (slice_header b c d) (slice_header b' c d).
  Proof.
    intros Hc. unfold slice_header. rewrite (ag_has _ _ _ c H), (l_number c0 c H Hc) by lia.
    destruct (_ && _); [go H|apply (l_seq_header _ c0 c d H Hc)].
  Qed.
  Lemma l_zeroed c0 c d (H : from c0) : c0 <= c -> array_zeroed b' c d = array_zeroed b c d.
  Proof. intros Hc. unfold array_zeroed. rewrite (ag_has _ _ _ c H), !(ag_rd _ _ _ _ H) by lia. reflexivity. Qed.

  (** *** any: it calls no methods, so it does not change the buffer *)
  Definition locals (c0 : Z) (d d' : Z -> dres) : Prop := forall c, c0 <= c -> LD c (d c) (d' c).
  Lemma l_map_loop c0 (H : from c0) kd kd' vd vd' : locals c0 kd kd' -> locals c0 vd vd' -> forall n c m, c0 <= c ->
    map_loop kd' vd' b' n c m = map_loop kd vd b n c m /\ match snd (map_loop kd vd b n c m) with ROk a => c <= a | _ => True end.
  Proof.
    intros Hk Hv. induction n as [|n IH]; intros c m Hc; cbn [map_loop]; [stopped|].
    rewrite (ag_has _ _ _ c H). destruct (has_byte b c); cbn [negb]; [|stopped].
    destruct (Hk c Hc) as [-> h1]. destruct (kd c) as [k [c1|e|p|]]; cbn [snd] in *; try stopped.
    rewrite (ag_has _ _ _ c1 H). destruct (has_byte b c1); cbn [negb]; [|stopped].
    destruct (Hv c1 ltac:(lia)) as [-> h2]. destruct (vd c1) as [v [c2|e|p|]]; cbn [snd] in *; try stopped.
    destruct (hashable k); cbn [negb]; [|stopped]. rewrite (ag_has _ _ _ c2 H). destruct (has_byte b c2); cbn [negb]; [|stopped].
    rewrite (ag_rd _ _ _ c2 H) by lia. destruct (rd b c2); try stopped. destruct (_ =b _)%byte; [split; [reflexivity|cbn; lia]|].
    destruct (IH c2 (map_set k v m) ltac:(lia)) as [-> h]. split; [reflexivity|]. destruct (snd (map_loop _ _ _ _ _ _)); auto. lia.
  Qed.
  Lemma l_dec_map c0 c d (H : from c0) kd kd' vd vd' rv : locals c0 kd kd' -> locals c0 vd vd' -> c0 <= c ->
    LD c (dec_map kd vd b c d rv) (dec_map kd' vd' b' c d rv).
  Proof.
    intros Hk Hv Hc. unfold dec_map, LD. rewrite (lens c0 H). destruct (l_map_header c0 c d H Hc) as [-> h].
    destruct (map_header b c d) as [[c1|c1]|e|p|]; cbn [geh] in h; try stopped; [split; [reflexivity|exact h]|].
    destruct rv; try stopped. rewrite (ag_has _ _ _ c1 H). destruct (has_byte b c1); cbn [negb]; [|stopped].
    rewrite (ag_rd _ _ _ c1 H) by lia. destruct (rd b c1); try stopped. destruct (_ =b _)%byte; [split; [reflexivity|cbn; lia]|].
    match goal with |- context [map_loop kd vd b ?n c1 ?m] => destruct (l_map_loop c0 H kd kd' vd vd' Hk Hv n c1 m ltac:(lia)) as [-> h']; destruct (map_loop kd vd b n c1 m) as [m' r] end.
    split; [reflexivity|]. cbn [snd] in *. destruct r; auto. lia.
  Qed.
  Lemma l_any_key c0 c (H : from c0) : c0 <= c -> LD c (dec_any_key b c) (dec_any_key b' c).
  Proof.
    intros Hc. unfold dec_any_key. rewrite (ag_rd _ _ _ c H Hc). destruct (l_dec_string c0 c (VStr []) H Hc) as [-> h1].
    destruct (l_dec_int I64 c0 c (VInt 0) H Hc) as [-> h2]. split; [reflexivity|].
    destruct (rd b c); cbn [snd fail]; try exact I. destruct (_ =b _)%byte; [destruct (dec_string b c (VStr [])) as [v []]; auto|].
    destruct (_ =b _)%byte; [destruct (dec_int I64 b c (VInt 0)) as [v []]; auto|exact I].
  Qed.
  Lemma l_wrap c t r r' : LD c r r' -> L (ge2 c)
    (match r with (v, ROk a) => ROk (Some (t : gty, v), a) | (_, r) => fail r end)
    (match r' with (v, ROk a) => ROk (Some (t : gty, v), a) | (_, r) => fail r end).
  Proof. intros [-> h]. split; [reflexivity|]. destruct r as [v []]; auto. Qed.
  Lemma l_any X c0 (H : from c0) : forall f c d, c0 <= c -> L (ge2 c) (dec_any_f X f b c d) (dec_any_f X f b' c d).
  Proof.
    induction f as [|f IH]; intros c d Hc; cbn [dec_any_f]; [go H|]. cbv zeta. go1 H; try stopped.
    assert (locals c0 (fun c => match dec_any_f X f b c (d + 1) with ROk (o, c') => (VIface o, ROk c') | r => (VIface None, fail r) end)
                      (fun c => match dec_any_f X f b' c (d + 1) with ROk (o, c') => (VIface o, ROk c') | r => (VIface None, fail r) end)) as Hv.
    { intros c1 h1. destruct (IH c1 (d + 1) h1) as [-> h]. split; [reflexivity|]. destruct (dec_any_f X f b c1 (d + 1)) as [[o a]| | |]; auto. }
    go1 H; [apply l_wrap, (l_dec_map c0); auto; intros c1 h1; apply (l_dec_string c0); auto|].
    go1 H; [apply l_wrap, (l_dec_map c0); auto; intros c1 h1; apply (l_any_key c0); auto|].
    go1 H; [apply l_wrap, (l_dec_float X false c0); auto|].
    go1 H; [eapply L_bind; [apply (l_string c0 (c + 1) H); lia|]; intros [s a] h; apply L_ok; inr|].
    go1 H; [apply l_wrap, (l_dec_int I64 c0); auto|].
    go1 H; [eapply L_bind; [apply (l_bool c0); auto|]; intros v _; apply L_ok; inr|].
    go1 H; [eapply L_bind; [apply (l_null c0); auto|]; intros v _; apply L_ok; inr|]. go H.
  Qed.
  Lemma l_iface_any X c0 c d rv (H : from c0) : c0 <= c -> LD c (dec_iface_any X b c d rv) (dec_iface_any X b' c d rv).
  Proof.
    intros Hc. unfold dec_iface_any, dec_any. rewrite (lens c0 H). destruct (l_any X c0 H (S (length b)) c d Hc) as [-> h].
    split; [reflexivity|]. destruct (dec_any_f X (S (length b)) b c d) as [[o a]| | |]; auto.
  Qed.
End Local.
