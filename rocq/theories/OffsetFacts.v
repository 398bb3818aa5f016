(** Where the offsets of the decoder's errors lie. *)
From Coq Require Import Strings.String Strings.Byte ZArith List Bool Lia Floats.SpecFloat.
From Verif Require Import Base GoTypes Strconv Tags Scan Decode Grammar Denote NumFacts ScanFacts Offsets SliceHead.
Import ListNotations.
Open Scope Z_scope.

Section Offsets.
  Context (buf : bytes) (Hsm : small buf).
  Definition within (o : Z) : Prop := 0 <= o <= blen buf.
  (** (and the errors of Decode.v are not those in full) *)
  Definition located (e : error) : Prop :=
    match e with
    | ETypeAt _ _ | EUserAt _ => False
    | _ => match offset_of e with Some o => within o \/ class_end buf o | None => True end
    end.
  Lemma located_offset e o : located e -> offset_of e = Some o -> within o \/ class_end buf o.
  Proof. intros H Ho. unfold located in H. rewrite Ho in H. destruct e; try discriminate; exact H. Qed.
  Definition G {A} (P : A -> Prop) (r : R A) : Prop := match r with ROk a => P a | RErr e => located e | _ => True end.
  (** the usual postconditions *)
  Definition snd_in {A} (p : A * Z) : Prop := within (snd p).

  Lemma G_bind {A B} (P : A -> Prop) (Q : B -> Prop) (r : R A) (k : A -> R B) :
    G P r -> (forall a, P a -> G Q (k a)) -> G Q (bind r k).
  Proof. intros g h. destruct r; cbn [bind G] in *; auto. Qed.
  Lemma G_fail {A B} (P : A -> Prop) (Q : B -> Prop) (r : R A) : G P r -> G Q (fail r).
  Proof. destruct r; cbn; auto. Qed.
  Lemma G_weaken {A} (P Q : A -> Prop) (r : R A) : (forall a, P a -> Q a) -> G P r -> G Q r.
  Proof. intros h. destruct r; cbn; auto. Qed.
  Lemma G_syntax {A} (P : A -> Prop) o w : within o -> G P (RErr (ESyntax o w)).
  Proof. intros h. left. exact h. Qed.
  Lemma G_type {A} (P : A -> Prop) o : within o -> G P (RErr (EType o)).
  Proof. intros h. left. exact h. Qed.
  Lemma G_rd i : G (fun _ => 0 <= i < blen buf) (rd buf i).
  Proof.
    unfold rd. destruct (0 <=? i) eqn:E0; [|exact I]. apply Z.leb_le in E0.
    destruct (nth_error buf (Z.to_nat i)) eqn:E1; [|exact I]. cbn.
    assert (Z.to_nat i < length buf)%nat as L by (apply nth_error_Some; congruence). unfold blen. lia.
  Qed.
  Lemma has_byte_in c : has_byte buf c = true -> 0 <= c < blen buf.
  Proof. unfold has_byte. rewrite andb_true_iff, Z.leb_le, Z.ltb_lt. tauto. Qed.
  Lemma has_bytes_in c n : has_bytes buf c n = true -> 0 <= c /\ 0 <= n /\ c + n <= blen buf.
  Proof. unfold has_bytes. rewrite !andb_true_iff, !Z.leb_le. lia. Qed.

  Ltac inr := unfold snd_in, within in *; cbn [fst snd] in *; lia.
  (** one step: a test, a read, or an end *)
  Ltac go1 := match goal with
    | |- G _ (if negb (has_byte buf ?c) then _ else _) =>
        let H := fresh "Hb" in destruct (has_byte buf c) eqn:H; cbn [negb]; [apply has_byte_in in H|]
    | |- G _ (if negb (has_bytes buf ?c ?n) then _ else _) =>
        let H := fresh "Hb" in destruct (has_bytes buf c n) eqn:H; cbn [negb]; [apply has_bytes_in in H|]
    | |- G _ (if negb ?b then _ else _) => destruct b; cbn [negb]
    | |- G _ (bind (rd buf ?c) _) => eapply G_bind; [apply G_rd|]; let x := fresh "x" in let H := fresh "Hr" in intros x H; cbn beta in *
    | |- G _ (if ?b then _ else _) => let H := fresh "Hi" in destruct b eqn:H
    | |- G _ (RErr (ESyntax _ _)) => apply G_syntax; inr
    | |- G _ (RErr (EType _)) => apply G_type; inr
    | |- G _ (RErr _) => exact I
    | |- G _ (RPanic _) => exact I
    | |- G _ RFuel => exact I
    | |- G _ (ROk _) => cbn [G]; try exact I; try inr
    end.
  Ltac go := repeat go1.

  Lemma G_scan p : forall n c, within c -> G (fun c' => c <= c' <= blen buf) (scan_while p buf n c).
  Proof.
    induction n as [|n IH]; intros c Hc; cbn [scan_while]; [go|].
    destruct (has_byte buf c) eqn:Hb; [apply has_byte_in in Hb|go]. go1. destruct (p x); [|go].
    eapply G_weaken; [|apply IH; inr]. intros c' h. cbn beta in h. lia.
  Qed.
  Lemma G_skip_length c : within c -> G within (skip_length buf c).
  Proof.
    intros Hc. unfold skip_length. go. eapply G_bind; [apply G_scan; inr|]. intros c' h. cbn beta in *. go.
  Qed.
  Lemma G_sub {A} (Q : A -> Prop) i j k : (forall s, 0 <= i <= j /\ j <= blen buf -> G Q (k s)) -> G Q (bind (sub buf i j) k).
  Proof.
    intros h. unfold sub. destruct (_ && _) eqn:Hc; cbn [bind]; [|exact I]. apply h.
    rewrite !andb_true_iff, !Z.leb_le in Hc. lia.
  Qed.
  Lemma G_read_length c : within c -> G (fun p => 0 <= fst p <= max_int64 /\ within (snd p)) (read_length buf c).
  Proof.
    intros Hc. unfold read_length. eapply G_bind; [apply G_skip_length; exact Hc|]. intros c' Hc'. cbn beta.
    apply G_sub. intros s Hs. destruct (parse_int64 s) as [l|] eqn:Hp; [|go]. apply parse_int64_some in Hp as [_ Hp].
    destruct (l <? 0) eqn:Hl; [go|]. apply Z.ltb_ge in Hl. cbn [G fst snd]. unfold within in *. lia.
  Qed.
  Lemma G_validate_null c : 0 <= c < blen buf -> G (fun _ => within (c + 2)) (validate_null buf c).
  Proof.
    intros Hc. unfold validate_null. destruct (blen buf <=? c + 1) eqn:Hl; [go|]. apply Z.leb_gt in Hl. go.
  Qed.
  Lemma G_validate_empty_array c : 0 <= c < blen buf -> G (fun _ => within (c + 4)) (validate_empty_array buf c).
  Proof. intros Hc. unfold validate_empty_array. destruct (blen buf <? c + 4) eqn:Hl; [go|]. apply Z.ltb_ge in Hl. go. Qed.
  Lemma G_read_string c : within c -> G snd_in (read_string buf c).
  Proof.
    intros Hc. unfold read_string. eapply G_bind; [apply G_read_length; exact Hc|]. intros [l c'] [Hl Hc']. cbn [fst snd] in *.
    go1; [|go]. go1. destruct (x =b """"%byte); cbn [negb]; [|go].
    cbv zeta. go1; [|go].
    assert (wrap64 (l + 2) = l + 2) as W.
    { unfold wrap64, max_int64 in *. destruct (Z_lt_ge_dec (l + 2) (2 ^ 63)) as [h|h].
      - rewrite Z.mod_small by lia. lia.
      - exfalso. assert ((l + 2 + 2 ^ 63) mod 2 ^ 64 = l + 2 + 2 ^ 63 - 2 ^ 64) as e.
        { symmetry. apply (Zmod_unique _ _ 1); lia. }
        unfold wrap64 in Hb0. lia. }
    rewrite W in *. go1. go1; [|go]. go1. go1; [|go]. apply G_sub. intros s Hs. go.
  Qed.
  Lemma G_read_integer c : within c -> G snd_in (read_integer_bytes buf c).
  Proof.
    intros Hc. unfold read_integer_bytes. go.
    eapply G_bind; [apply G_scan; destruct (x1 =b "-"%byte); inr|]. intros c' h. cbn beta in h.
    assert (within c') as Hw by (destruct (x1 =b "-"%byte); inr). go. apply G_sub. intros. go.
  Qed.
  Lemma G_read_float c : within c -> G snd_in (read_float_bytes buf c).
  Proof.
    intros Hc. unfold read_float_bytes. go.
    eapply G_bind; [apply G_scan; inr|]. intros c' h. cbn beta in h. go. apply G_sub. intros. go.
  Qed.
  Lemma G_read_bool c : within c -> G (fun _ => within (c + 4)) (read_bool buf c).
  Proof.
    intros Hc. unfold read_bool. go.
    eapply (G_bind (fun _ => True)); [go; cbn; auto|]. intros v _. go.
  Qed.
  Lemma G_class c : within c -> G (fun c' => 0 <= c' < blen buf) (skip_class_name buf c).
  Proof.
    intros Hc. unfold skip_class_name.
    destruct (pos_ex buf c Hc) as (s & Hs). destruct s as [|b s].
    { rewrite (pos_has_nil _ _ Hs). cbn [negb]. go. }
    rdn Hs. destruct (b =b "O"%byte) eqn:HO; cbn [negb]; [|go]. apply byte_dec_bl in HO. subst b.
    pose proof (pos_cons _ _ _ _ Hs) as Hs1. pose proof (read_length_out buf (c + 1) s Hs1) as Hout.
    pose proof (pos_len _ _ _ Hs1) as L1. pose proof (blen_nonneg s) as L2.
    assert (within (c + 1)) as Hw1 by inr.
    pose proof (G_read_length (c + 1) Hw1) as Hg.
    destruct (read_length buf (c + 1)) as [[n st]|e|p|]; cbn [bind outcome G] in *; auto.
    destruct Hout as (ds & s' & Hn & -> & -> & Hr & -> & Hp). cbn [fst snd] in *.
    destruct s' as [|q s']; [rewrite (pos_has_nil _ _ Hp); cbn [negb]; go|]. rdn Hp.
    destruct (q =b """"%byte) eqn:HQ; cbn [negb]; [|go]. apply byte_dec_bl in HQ. subst q. cbv zeta.
    match goal with |- G _ (if negb (has_bytes buf ?x 2) then _ else _) => set (o := x) end.
    destruct (has_bytes buf o 2) eqn:Hb; cbn [negb].
    { apply has_bytes_in in Hb. go. }
    (* the name does not fit *)
    destruct (Z_le_dec 0 o) as [h0|h0]; [destruct (Z_le_dec o (blen buf)) as [h1|h1]; [left; split; assumption|]|].
    all: right; destruct Hs as (before & Eb & Lb); exists before, ds, s'.
    all: split; [rewrite Eb; cbn [app bs]; reflexivity|]; split; [exact Hn|]; split; [lia|].
    all: assert (o = wrap64 (blen before + 2 + blen ds + 1 + num ds + 1)) as Ho by (subst o; rewrite Lb; f_equal; lia).
    all: split; [|exact Ho].
    all: pose proof (pos_len _ _ _ Hp) as L3; rewrite blen_cons in L3; pose proof (blen_nonneg s') as L4; pose proof (blen_nonneg ds) as L5.
    all: destruct (Z_le_gt_dec (num ds + 2) (blen s')) as [h|h]; [exfalso|lia].
    all: unfold small, within in *; assert (o = c + blen ds + 3 + num ds + 1) as Ho' by (rewrite Ho; unfold wrap64; rewrite Z.mod_small; lia).
    all: lia.
  Qed.

  Lemma G_skip_int c : within c -> G within (skip_int buf c).
  Proof. intros Hc. unfold skip_int. eapply G_bind; [apply G_read_integer, Hc|]. intros [s c'] h. exact h. Qed.
  Lemma G_skip_string c : within c -> G within (skip_string buf c).
  Proof. intros Hc. unfold skip_string. go. eapply G_bind; [apply G_read_string; inr|]. intros [s c'] h. exact h. Qed.
  Lemma G_skip_entries skip : (forall c, within c -> G within (skip c)) ->
    forall n len c, within c -> G within (skip_entries skip n len c).
  Proof.
    intros Hk. induction n as [|n IH]; intros len c Hc; cbn [skip_entries]; destruct (len <=? 0); go.
    eapply G_bind; [apply Hk, Hc|]. intros c1 H1. eapply G_bind; [apply Hk, H1|]. intros c2 H2. apply IH, H2.
  Qed.
  Lemma G_skip_array skip c d : (forall c, within c -> G within (skip c)) -> within c -> G within (skip_array skip buf c d).
  Proof.
    intros Hk Hc. unfold skip_array. go1; [go|]. eapply G_bind; [apply G_read_length, Hc|]. intros [l c'] [_ Hc']. cbn [snd] in Hc'.
    go1; [|go]. go1. go1; [|go]. eapply G_bind; [apply G_skip_entries; [exact Hk|inr]|]. intros c2 H2. cbn beta. go.
  Qed.
  Lemma G_skip_value : forall f c d, within c -> G within (skip_value_f f buf c d).
  Proof.
    induction f as [|f IH]; intros c d Hc; cbn [skip_value_f]; [go|]. cbv zeta. go1; [|go]. go1.
    destruct (x =b "O"%byte).
    { eapply G_bind; [apply G_class, Hc|]. intros c' H'. cbn beta in H'. apply G_skip_array; [intros; apply IH; assumption|inr]. }
    destruct (x =b "a"%byte); [apply G_skip_array; [intros; apply IH; assumption|inr]|].
    destruct (x =b "s"%byte); [apply G_skip_string, Hc|].
    destruct (x =b "d"%byte); [eapply G_bind; [apply G_read_float, Hc|]; intros [s c'] h; exact h|].
    destruct (x =b "i"%byte); [apply G_skip_int, Hc|].
    destruct (x =b "b"%byte); [eapply G_bind; [apply G_read_bool, Hc|]; intros v h; exact h|].
    destruct (x =b "N"%byte); [eapply G_bind; [apply G_validate_null; exact Hr|]; intros v h; exact h|]. go.
  Qed.
  Lemma G_read_int c : within c -> G snd_in (read_int buf c).
  Proof.
    intros Hc. unfold read_int. destruct (pos_ex buf c Hc) as (s & Hs).
    (* a text that was read is at least two bytes from the end *)
    assert (G (fun p => within (snd p) /\ c + 2 <= blen buf) (read_integer_bytes buf c)) as g.
    { unfold read_integer_bytes. go.
      eapply G_bind; [apply G_scan; destruct (x1 =b "-"%byte); inr|]. intros c' h. cbn beta in h.
      assert (within c') as Hw by (destruct (x1 =b "-"%byte); inr). go. apply G_sub. intros. cbn. inr. }
    eapply G_bind; [exact g|]. intros [b c'] [h1 h2]. cbn [snd] in *. destruct (parse_int64 b) as [v|]; go.
  Qed.

  (** ** Decoders *)
  Definition GD (r : dres) : Prop := G within (snd r).
  Definition decodes_in (d : Z -> dres) : Prop := forall c, within c -> GD (d c).
  Lemma G_string_bytes c : within c -> G snd_in (decode_string_bytes buf c).
  Proof.
    intros Hc. unfold decode_string_bytes. go1; [|go]. go1. go1; [eapply G_bind; [apply G_validate_null; exact Hr|]; intros u h; exact h|].
    go1; [go|]. go1; [|go]. eapply G_bind; [apply G_read_string; inr|]. intros [s c'] h. exact h.
  Qed.
  Lemma G_int_bytes c : within c -> G snd_in (decode_int_bytes buf c).
  Proof.
    intros Hc. unfold decode_int_bytes. go1; [|go]. go1. go1; [eapply G_bind; [apply G_validate_null; exact Hr|]; intros u h; exact h|].
    eapply G_bind; [apply G_read_integer; inr|]. intros [s c'] h. exact h.
  Qed.
  Lemma G_float_bytes c : within c -> G snd_in (decode_float_bytes buf c).
  Proof.
    intros Hc. unfold decode_float_bytes. go1; [|go]. go1. go1; [eapply G_bind; [apply G_validate_null; exact Hr|]; intros u h; exact h|].
    go1; [|go]. eapply G_bind; [apply G_read_float; inr|]. intros [s c'] h. exact h.
  Qed.
  Lemma GD_text r process rv : G snd_in r -> (forall b c rv, within c -> GD (process b c rv)) -> GD (dec_text r process rv).
  Proof.
    intros g h. unfold dec_text. destruct r as [[[b|] c]|e|p|]; cbn [G] in g; [apply h, g|exact g|exact g|exact I|exact I].
  Qed.
  Lemma GD_int k c rv : within c -> GD (dec_int k buf c rv).
  Proof.
    intros Hc. apply GD_text; [apply G_int_bytes, Hc|]. clear - Hsm. intros b c rv Hc. unfold process_int, GD.
    destruct (parse_int64 b); [|cbn [snd]; go]. destruct (_ || _); cbn [snd]; go.
  Qed.
  Lemma GD_uint k c rv : within c -> GD (dec_uint k buf c rv).
  Proof.
    intros Hc. apply GD_text; [apply G_int_bytes, Hc|]. clear - Hsm. intros b c rv Hc. unfold process_uint, GD.
    destruct (parse_uint64 b); [|cbn [snd]; go]. destruct (_ <? _); cbn [snd]; go.
  Qed.
  Lemma GD_float X s c rv : within c -> GD (dec_float X s buf c rv).
  Proof.
    intros Hc. apply GD_text; [apply G_float_bytes, Hc|]. clear - Hsm. intros b c rv Hc. unfold process_float, GD.
    destruct (parse_float X b); [|cbn [snd]; go]. destruct s; [|cbn [snd]; go]. destruct (overflow_f32 _); cbn [snd]; go.
  Qed.
  Lemma GD_string c rv : within c -> GD (dec_string buf c rv).
  Proof. intros Hc. apply GD_text; [apply G_string_bytes, Hc|]. intros b c' rv' h. exact h. Qed.
  Lemma GD_bool c rv : within c -> GD (dec_bool buf c rv).
  Proof.
    intros Hc. unfold dec_bool, GD. destruct (has_byte buf c) eqn:Hb; cbn [negb]; [apply has_byte_in in Hb|cbn [snd]; go].
    pose proof (G_rd c) as Hr. destruct (rd buf c) as [x|e|p|]; cbn [snd fail]; try exact I; [|exact Hr].
    destruct (x =b "b"%byte).
    { pose proof (G_read_bool c Hc) as h. destruct (read_bool buf c); cbn [snd fail]; exact h. }
    destruct (x =b "N"%byte); [|cbn [snd]; go].
    pose proof (G_validate_null c Hb) as h. destruct (validate_null buf c); cbn [snd fail]; exact h.
  Qed.

  Definition hdr_in (h : hdr) : Prop := match h with HNull c | HBody c => within c end.
  Lemma G_object_start w c (Hr : 0 <= c < blen buf) x : G within
      (if x =b "O"%byte then cend <- skip_class_name buf c ;; ROk (cend + 1)
       else if x =b "a"%byte then ROk (c + 1) else RErr (ESyntax c w)).
  Proof.
    go1; [eapply G_bind; [apply G_class; inr|]; intros c' h; cbn beta in h; go|]. go.
  Qed.
  Lemma G_map_header c d : within c -> G hdr_in (map_header buf c d).
  Proof.
    intros Hc. unfold map_header. go1; [|go]. go1. go1; [go|].
    go1; [eapply G_bind; [apply G_validate_null; exact Hr|]; intros u h; exact h|].
    eapply G_bind; [apply G_object_start, Hr|]. intros c1 H1. eapply G_bind; [apply G_read_length, H1|]. intros [l c2] [_ H2]. cbn [snd] in H2.
    go. unfold hdr_in. inr.
  Qed.
  Lemma G_struct_header c d : within c -> G hdr_in (struct_header buf c d).
  Proof.
    intros Hc. unfold struct_header. go1; [|go]. go1. go1; [go|].
    go1; [eapply G_bind; [apply G_validate_null; exact Hr|]; intros u h; exact h|].
    eapply G_bind; [apply G_object_start, Hr|]. intros c1 H1. cbn beta in H1. go1; [|go]. go1. go1; [|go].
    eapply G_bind; [apply G_skip_length, H1|]. intros c2 H2. cbn beta in H2. go. unfold hdr_in. inr.
  Qed.
  Lemma G_map_loop kd vd : decodes_in kd -> decodes_in vd -> forall n c m, within c -> G within (snd (map_loop kd vd buf n c m)).
  Proof.
    intros Hk Hv. induction n as [|n IH]; intros c m Hc; cbn [map_loop]; [exact I|].
    destruct (has_byte buf c) eqn:Hb; cbn [negb snd]; [|go].
    pose proof (Hk c Hc) as gk. destruct (kd c) as [k [c1|e|p|]]; unfold GD in gk; cbn [snd G fail] in *; auto.
    destruct (has_byte buf c1) eqn:Hb1; cbn [negb snd]; [|go].
    pose proof (Hv c1 gk) as gv. destruct (vd c1) as [v [c2|e|p|]]; unfold GD in gv; cbn [snd G fail] in *; auto.
    destruct (hashable k); cbn [negb snd]; [|exact I].
    destruct (has_byte buf c2) eqn:Hb2; cbn [negb snd]; [|go].
    pose proof (G_rd c2) as Hr. destruct (rd buf c2) as [b|e|p|]; cbn [snd fail G] in *; auto.
    destruct (b =b "}"%byte); cbn [snd]; [go|]. apply IH, gv.
  Qed.
  Lemma GD_map kd vd c d rv : decodes_in kd -> decodes_in vd -> within c -> GD (dec_map kd vd buf c d rv).
  Proof.
    intros Hk Hv Hc. unfold dec_map, GD. pose proof (G_map_header c d Hc) as gh.
    destruct (map_header buf c d) as [[c1|c1]|e|p|]; cbn [G hdr_in snd fail] in *; auto.
    destruct rv; cbn [snd]; try exact I.
    destruct (has_byte buf c1) eqn:Hb1; cbn [negb snd]; [|go].
    pose proof (G_rd c1) as Hr. destruct (rd buf c1) as [b|e|p|]; cbn [snd fail G] in *; auto.
    destruct (b =b "}"%byte); cbn [snd]; [go|].
    match goal with |- context [map_loop kd vd buf ?n c1 ?m] => pose proof (G_map_loop kd vd Hk Hv n c1 m gh) as gl; destruct (map_loop kd vd buf n c1 m) end.
    exact gl.
  Qed.
  Lemma GD_any_key c : within c -> GD (dec_any_key buf c).
  Proof.
    intros Hc. unfold dec_any_key, GD. pose proof (G_rd c) as Hr. destruct (rd buf c) as [b|e|p|]; cbn [snd fail G] in *; auto.
    destruct (b =b "s"%byte).
    { pose proof (GD_string c (VStr []) Hc) as g. destruct (dec_string buf c (VStr [])) as [v [c1|e|p|]]; exact g. }
    destruct (b =b "i"%byte); [|cbn [snd]; go].
    pose proof (GD_int I64 c (VInt 0) Hc) as g. destruct (dec_int I64 buf c (VInt 0)) as [v [c1|e|p|]]; exact g.
  Qed.
  Lemma G_wrap t (r : dres) : GD r -> G snd_in (match r with (v, ROk c) => ROk (Some (t : gty, v), c) | (_, r) => fail r end).
  Proof. intros g. destruct r as [v [c|e|p|]]; exact g. Qed.
  Lemma G_any X : forall f c d, within c -> G snd_in (dec_any_f X f buf c d).
  Proof.
    induction f as [|f IH]; intros c d Hc; cbn [dec_any_f]; [go|]. cbv zeta.
    assert (decodes_in (fun c => match dec_any_f X f buf c (d + 1) with ROk (o, c') => (VIface o, ROk c') | r => (VIface None, fail r) end)) as Hv.
    { intros c1 H1. unfold GD. pose proof (IH c1 (d + 1) H1) as g. destruct (dec_any_f X f buf c1 (d + 1)) as [[o c2]|e|p|]; exact g. }
    go1. go1; [apply G_wrap, GD_map; auto; intros c1 H1; apply GD_string, H1|].
    go1; [apply G_wrap, GD_map; auto; intros c1 H1; apply GD_any_key, H1|].
    go1; [apply G_wrap, GD_float, Hc|].
    go1; [eapply G_bind; [apply G_read_string; inr|]; intros [s c1] h; exact h|].
    go1; [apply G_wrap, GD_int, Hc|].
    go1; [eapply G_bind; [apply G_read_bool, Hc|]; intros v h; exact h|].
    go1; [eapply G_bind; [apply G_validate_null, Hr|]; intros v h; exact h|]. go.
  Qed.
  Lemma GD_iface_any X c d rv : within c -> GD (dec_iface_any X buf c d rv).
  Proof.
    intros Hc. unfold dec_iface_any, GD. pose proof (G_any X (S (length buf)) c d Hc) as g. unfold dec_any.
    destruct (dec_any_f X (S (length buf)) buf c d) as [[o c1]|e|p|]; exact g.
  Qed.
  Lemma G_piece c d : within c -> G snd_in (cend <- skip_value buf c d ;; src <- sub buf c cend ;; ROk (src, cend)).
  Proof. intros Hc. eapply G_bind; [apply G_skip_value, Hc|]. intros c1 H1. apply G_sub. intros s _. exact H1. Qed.
  Lemma GD_unm X E n c d rv : within c -> GD (dec_unm X E n buf c d rv).
  Proof.
    intros Hc. unfold dec_unm, GD. pose proof (G_piece c d Hc) as g.
    destruct (bind (skip_value buf c d) _) as [[src c1]|e|p|]; cbn [snd fail]; try exact g.
    assert (G within (snd (match x_unmarshal X n (unquoted X src) (zero E (TName n)) with
        | (v, true) => (v, ROk c1) | (_, false) => (rv, RErr EUser) end))) as go'.
    { destruct (x_unmarshal X n (unquoted X src) (zero E (TName n))) as [v []]; [exact g|exact I]. }
    destruct src as [|b src]; [exact go'|]. destruct (_ || _); cbn [snd]; [go|]. destruct (_ && _); [exact g|exact go'].
  Qed.
  Lemma GD_iface X E c d rv : within c -> GD (dec_iface X E buf c d rv).
  Proof.
    intros Hc.
    assert (GD match rd buf c with
      | ROk b =>
          if b =b "N"%byte then
            match validate_null buf c with ROk _ => (VIface None, ROk (c + 2)) | r => (rv, fail r) end
          else (rv, RErr (EType c))
      | r => (rv, fail r)
      end) as Hp.
    { unfold GD. pose proof (G_rd c) as Hr. destruct (rd buf c) as [b|e|p|]; cbn [snd fail G] in *; auto.
      destruct (b =b "N"%byte); [|cbn [snd]; go].
      pose proof (G_validate_null c Hr) as g. destruct (validate_null buf c); exact g. }
    unfold dec_iface. cbv zeta. destruct rv as [| | | | | | | | | |[[t v]|]| |]; try exact Hp.
    destruct t; try exact Hp. destruct v; try exact Hp. destruct (has_unmarshal E t); [|exact Hp].
    unfold GD. pose proof (G_piece c d Hc) as g.
    destruct (bind (skip_value buf c d) _) as [[src c1]|e|p'|]; cbn [snd fail]; try exact g.
    destruct (bytes_eqb src (bs "N;")); [exact g|]. destruct o as [old|]; [|exact I].
    destruct (x_unmarshal X n (unquoted X src) old) as [v []]; [exact g|exact I].
  Qed.
  Lemma GD_key X E kt c d : within c -> GD (dec_key X E kt buf c d).
  Proof.
    intros Hc. unfold dec_key. cbv zeta. destruct (key_node E kt) as [n| | |k|k| | |nd|].
    - apply GD_unm, Hc. - apply GD_string, Hc. - apply GD_bool, Hc. - apply GD_int, Hc. - apply GD_uint, Hc.
    - apply GD_iface_any, Hc. - apply GD_iface, Hc.
    - assert (GD match dec_any X buf c d with
                 | ROk (None, c0) => (zero E kt, ROk c0)
                 | ROk (Some _, _) => (zero E kt, RPanic PReflect)
                 | r => (zero E kt, fail r) end) as Ha.
      { unfold GD, dec_any. pose proof (G_any X (S (length buf)) c d Hc) as g.
        destruct (dec_any_f X (S (length buf)) buf c d) as [[[o|] c1]|e|p|]; try exact g. exact I. }
      destruct nd; try exact Ha.
      + apply GD_text; [apply G_int_bytes, Hc|]. intros b c1 rv H1. unfold GD. destruct (parse_uint64 b); cbn [snd]; go.
      + apply GD_text; [apply G_int_bytes, Hc|]. intros b c1 rv H1. unfold GD. destruct (parse_int64 b); cbn [snd]; go.
      + apply GD_text; [apply G_string_bytes, Hc|]. intros b c1 rv H1. exact I.
      + pose proof (GD_bool c VOther Hc) as g. unfold GD in *. destruct (dec_bool buf c VOther) as [v [c1|e|p|]]; destruct v; try exact g; exact I.
    - unfold GD. cbn [snd]. go.
  Qed.

  Definition ahdr_in (h : ahdr) : Prop := match h with AhNull c | AhEmpty c | AhBody _ c => within c end.
  Lemma G_array_header c d : within c -> G ahdr_in (array_header buf c d).
  Proof.
    intros Hc. unfold array_header, seq_header. go1; [|go]. go1. go1; [go|].
    go1; [eapply G_bind; [apply G_validate_null; exact Hr|]; intros u h; exact h|].
    go1; [|go]. cbv zeta. go1; [|go]. go1. go1; [|go]. go1; [|go]. go1.
    go1; [eapply G_bind; [apply G_validate_empty_array; inr|]; intros u h; exact h|].
    unfold read_length_int. eapply G_bind; [apply G_read_length; inr|]. intros [l c1] [_ H1]. cbn [snd] in H1. go. unfold ahdr_in. inr.
  Qed.
  Lemma G_slice_header c d : within c -> G ahdr_in (slice_header buf c d).
  Proof.
    intros Hc. destruct (slice_header_cases buf c d) as [->|(e0 & -> & _ & [->|[-> Hb]])]; [apply G_array_header, Hc|go..].
  Qed.
  Definition decodes_el (d : Z -> gval -> dres) : Prop := forall c v, within c -> GD (d c v).
  Lemma G_slice_loop X E et ed : decodes_el ed -> forall n c sl rv, within c -> GD (slice_loop X E et ed buf n c sl rv).
  Proof.
    intros He. unfold GD. induction n as [|n IH]; intros c sl rv Hc; cbn [slice_loop]; [exact I|]. cbv zeta.
    destruct (has_byte buf c) eqn:Hb; cbn [negb snd]; [|go].
    pose proof (G_read_int c Hc) as gi. destruct (read_int buf c) as [[i c1]|e|p|]; cbn [snd G fail] in *; auto. unfold snd_in in gi. cbn [snd] in gi.
    destruct (has_byte buf c1) eqn:Hb1; cbn [negb snd]; [|go].
    destruct (i <? blen sl).
    - destruct (bad_index i (blen sl)); cbn [snd]; [exact I|].
      pose proof (He c1 (nth (Z.to_nat i) sl VOther) gi) as gv. destruct (ed c1 _) as [v [c2|e|p|]]; unfold GD in gv; cbn [snd G fail] in *; auto.
      destruct (has_byte buf c2) eqn:Hb2; cbn [negb snd]; [|go].
      pose proof (G_rd c2) as Hr. destruct (rd buf c2) as [b|e|p|]; cbn [snd fail G] in *; auto.
      destruct (b =b "}"%byte); cbn [snd]; [go|]. apply IH, gv.
    - destruct (_ || _); cbn [snd]; [exact I|]. destruct (bad_index _ _); cbn [snd]; [exact I|].
      pose proof (He c1 (zero E et) gi) as gv. destruct (ed c1 _) as [v [c2|e|p|]]; unfold GD in gv; cbn [snd G fail] in *; auto.
      destruct (has_byte buf c2) eqn:Hb2; cbn [negb snd]; [|go].
      pose proof (G_rd c2) as Hr. destruct (rd buf c2) as [b|e|p|]; cbn [snd fail G] in *; auto.
      destruct (b =b "}"%byte); cbn [snd]; [go|]. apply IH, gv.
  Qed.
  Lemma GD_slice X E et ed c d rv : decodes_el ed -> within c -> GD (dec_slice X E et ed buf c d rv).
  Proof.
    intros He Hc. unfold dec_slice. pose proof (G_slice_header c d Hc) as gh.
    destruct (slice_header buf c d) as [[c1|c1|l c1]|e|p|]; unfold GD; cbn [G ahdr_in snd fail] in *; auto.
    destruct (x_slots X et l); cbn [negb snd]; [|exact I]. apply G_slice_loop; assumption.
  Qed.
  Lemma G_array_loop ed d : decodes_el ed -> forall n c l, within c -> G within (snd (array_loop ed buf d n c l)).
  Proof.
    intros He. induction n as [|n IH]; intros c l Hc; cbn [array_loop]; [exact I|]. cbv zeta.
    destruct (has_byte buf c) eqn:Hb; cbn [negb snd]; [|go].
    pose proof (G_read_int c Hc) as gi. destruct (read_int buf c) as [[i c1]|e|p|]; cbn [snd G fail] in *; auto. unfold snd_in in gi. cbn [snd] in gi.
    destruct (has_byte buf c1) eqn:Hb1; cbn [negb snd]; [|go].
    destruct (i <? blen l).
    - destruct (bad_index i (blen l)); cbn [snd]; [exact I|].
      pose proof (He c1 (nth (Z.to_nat i) l VOther) gi) as gv. destruct (ed c1 _) as [v [c2|e|p|]]; unfold GD in gv; cbn [snd G fail] in *; auto.
      destruct (has_byte buf c2) eqn:Hb2; cbn [negb snd]; [|go].
      pose proof (G_rd c2) as Hr. destruct (rd buf c2) as [b|e|p|]; cbn [snd fail G] in *; auto.
      destruct (b =b "}"%byte); cbn [snd]; [go|]. apply IH, gv.
    - pose proof (G_skip_value (S (length buf)) c1 d gi) as gv. unfold skip_value.
      destruct (skip_value_f (S (length buf)) buf c1 d) as [c2|e|p|]; cbn [snd G fail] in *; auto.
      destruct (has_byte buf c2) eqn:Hb2; cbn [negb snd]; [|go].
      pose proof (G_rd c2) as Hr. destruct (rd buf c2) as [b|e|p|]; cbn [snd fail G] in *; auto.
      destruct (b =b "}"%byte); cbn [snd]; [go|]. apply IH, gv.
  Qed.
  Lemma GD_array E n et ed c d rv : decodes_el ed -> within c -> GD (dec_array E n et ed buf c d rv).
  Proof.
    intros He Hc. unfold dec_array. cbv zeta. pose proof (G_array_header c d Hc) as gh.
    destruct (array_header buf c d) as [[c1|c1|l c1]|e|p|]; unfold GD; cbn [G ahdr_in snd fail] in *; auto.
    pose proof (G_array_loop ed (d + 1) He (length buf) c1 (repeat (zero E et) n) gh) as g.
    destruct (array_loop ed buf (d + 1) (length buf) c1 (repeat (zero E et) n)). exact g.
  Qed.
  Lemma G_struct_loop decs fd d : (forall x, decodes_el (fd x)) -> forall n c l, within c -> G within (snd (struct_loop decs fd buf d n c l)).
  Proof.
    intros He. induction n as [|n IH]; intros c l Hc; cbn [struct_loop]; [exact I|]. cbv zeta.
    destruct (has_byte buf c) eqn:Hb; cbn [negb snd]; [|go].
    pose proof (G_string_bytes c Hc) as gi. destruct (decode_string_bytes buf c) as [[i c1]|e|p|]; cbn [snd G fail] in *; auto. unfold snd_in in gi. cbn [snd] in gi.
    destruct (has_byte buf c1) eqn:Hb1; cbn [negb snd]; [|go].
    destruct (find_field _ decs) as [x|].
    - destruct (nth_error l (fd_idx x)) as [v0|]; [|exact I].
      pose proof (He x c1 v0 gi) as gv. destruct (fd x c1 v0) as [v [c2|e|p|]]; unfold GD in gv; cbn [snd G fail] in *; auto.
      destruct (has_byte buf c2) eqn:Hb2; cbn [negb snd]; [|go].
      pose proof (G_rd c2) as Hr. destruct (rd buf c2) as [b|e|p|]; cbn [snd fail G] in *; auto.
      destruct (b =b "}"%byte); cbn [snd]; [go|]. apply IH, gv.
    - pose proof (G_skip_value (S (length buf)) c1 d gi) as gv. unfold skip_value.
      destruct (skip_value_f (S (length buf)) buf c1 d) as [c2|e|p|]; cbn [snd G fail] in *; auto.
      destruct (has_byte buf c2) eqn:Hb2; cbn [negb snd]; [|go].
      pose proof (G_rd c2) as Hr. destruct (rd buf c2) as [b|e|p|]; cbn [snd fail G] in *; auto.
      destruct (b =b "}"%byte); cbn [snd]; [go|]. apply IH, gv.
  Qed.
  Lemma GD_struct decs fd c d rv : (forall x, decodes_el (fd x)) -> within c -> GD (dec_struct decs fd buf c d rv).
  Proof.
    intros He Hc. unfold dec_struct, GD. pose proof (G_struct_header c d Hc) as gh.
    destruct (struct_header buf c d) as [[c1|c1]|e|p|]; cbn [G hdr_in snd fail] in *; auto.
    destruct rv; cbn [snd]; try exact I.
    destruct (has_byte buf c1) eqn:Hb1; cbn [negb snd]; [|go].
    pose proof (G_rd c1) as Hr. destruct (rd buf c1) as [b|e|p|]; cbn [snd fail G] in *; auto.
    destruct (b =b "}"%byte); cbn [snd]; [go|].
    match goal with |- context [struct_loop ?a ?b buf ?d ?n c1 ?m] => pose proof (G_struct_loop a b d He n c1 m gh) as gl; destruct (struct_loop a b buf d n c1 m) end.
    exact gl.
  Qed.
  Lemma GD_ptr E t ed c rv : decodes_el ed -> within c -> GD (dec_ptr E t ed buf c rv).
  Proof.
    intros He Hc. unfold dec_ptr, GD. pose proof (G_rd c) as Hr. destruct (rd buf c) as [b|e|p|]; cbn [snd fail G] in *; auto.
    destruct (b =b "N"%byte).
    { pose proof (G_validate_null c Hr) as g. destruct (validate_null buf c); exact g. }
    destruct rv; try exact I. match goal with |- context [ed c ?v] => pose proof (He c v Hc) as g; destruct (ed c v) end. exact g.
  Qed.
  Lemma GD_wrapped X nd c rv : within c -> GD (dec_wrapped X nd buf c rv).
  Proof.
    intros Hc. unfold dec_wrapped. cbv zeta. apply GD_text; [apply G_string_bytes, Hc|]. intros b c1 rv1 H1. unfold GD.
    destruct nd; try exact I.
    - unfold process_uint. destruct (parse_uint64 b); [|cbn [snd]; go]. destruct (_ <? _); cbn [snd]; go.
    - unfold process_int. destruct (parse_int64 b); [|cbn [snd]; go]. destruct (_ || _); cbn [snd]; go.
    - destruct (parse_bool b); cbn [snd]; go.
    - unfold process_float. destruct (parse_float X b); [|cbn [snd]; go]. destruct (overflow_f32 _); cbn [snd]; go.
    - unfold process_float. destruct (parse_float X b); cbn [snd]; go.
  Qed.
  Lemma GD_bytes sd c rv : GD (sd rv) -> within c -> GD (dec_bytes sd buf c rv).
  Proof.
    intros He Hc. unfold dec_bytes. pose proof (G_rd c) as Hr. destruct (rd buf c) as [b|e|p|]; unfold GD; cbn [snd fail G] in *; auto.
    destruct (b =b "a"%byte); [exact He|]. apply GD_text; [apply G_string_bytes, Hc|]. intros b1 c1 rv1 H1. exact H1.
  Qed.

  Theorem decode_offsets X E : forall f t c d rv, within c -> GD (decode_f X E f t buf c d rv).
  Proof.
    induction f as [|f IH]; intros t c d rv Hc; cbn [decode_f]; [exact I|]. cbv zeta.
    assert (forall et, decodes_el (fun c v => decode_f X E f et buf c (d + 1) v)) as He by (intros et c1 v H1; apply IH, H1).
    destruct (node_of E t) as [n|t'|id fs|et|et|n et|kt vt| | |k|k| | | | |].
    - apply GD_unm, Hc.
    - destruct (kind_of E t'); try exact I; apply GD_ptr; auto; intros c1 v1 H1; apply IH, H1.
    - apply GD_struct; [|exact Hc]. intros x c1 v H1. destruct (fd_str x); [|apply IH, H1].
      destruct (node_of E (fd_ty x)); try apply GD_wrapped, H1. apply GD_ptr; [|exact H1]. intros c2 v2 H2. apply GD_wrapped, H2.
    - apply GD_bytes; [|exact Hc]. apply GD_slice; auto.
    - apply GD_slice; auto.
    - apply GD_array; auto.
    - apply GD_map; auto; [intros c1 H1; apply GD_key, H1|intros c1 H1; apply IH, H1].
    - apply GD_iface_any, Hc.
    - apply GD_iface, Hc.
    - apply GD_uint, Hc.
    - apply GD_int, Hc.
    - apply GD_string, Hc.
    - apply GD_bool, Hc.
    - apply GD_float, Hc.
    - apply GD_float, Hc.
    - unfold GD. cbn [snd]. go.
  Qed.
End Offsets.
