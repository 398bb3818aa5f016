(** The errors of Unmarshal about types and about numbers that do not fit. *)
From Coq Require Import Strings.String Strings.Byte ZArith List Bool Lia Floats.SpecFloat.
From Verif Require Import Base GoTypes Strconv Tags Scan Decode Unmarshal Grammar Denote Typing NumFacts ScanFacts Complete Sound CompileFacts NameSound TypeFault.
Import ListNotations.
Open Scope Z_scope.

(** Reading tokens: only syntax errors *)
Definition syn (e : error) : Prop := match e with ESyntax _ _ => True | _ => False end.
Lemma syn_rd buf c : on syn (rd buf c).
Proof. unfold rd. destruct (_ <=? _); [destruct (nth_error _ _)|]; exact I. Qed.
Lemma syn_sub buf c d : on syn (sub buf c d).
Proof. unfold sub. destruct (_ && _); exact I. Qed.
Ltac y1 := match goal with
  | |- on _ (if ?b then _ else _) => destruct b
  | |- on syn (bind (rd _ _) _) => apply on_bind; [apply syn_rd|intro]
  | |- on syn (bind (sub _ _ _) _) => apply on_bind; [apply syn_sub|intro]
  | |- on syn (RErr _) => exact I
  | |- on _ (RPanic _) => exact I
  | |- on _ RFuel => exact I
  | |- on _ (ROk _) => exact I
  | |- on syn (match ?r with Some _ => _ | None => _ end) => destruct r
  | |- on syn (let '(_, _) := ?p in _) => destruct p
  | |- on syn (bind _ _) => apply on_bind; [|intro]
  end.
Ltac y := repeat (cbv zeta; y1).
Lemma syn_scan p buf : forall n c, on syn (scan_while p buf n c).
Proof. induction n as [|n IH]; intros c; cbn [scan_while]; y. apply IH. Qed.
Lemma syn_skip_length buf c : on syn (skip_length buf c).
Proof. unfold skip_length. y; apply syn_scan. Qed.
Lemma syn_read_length buf c : on syn (read_length buf c).
Proof. unfold read_length. y; try apply syn_skip_length. Qed.
Lemma syn_class buf c : on syn (skip_class_name buf c).
Proof. unfold skip_class_name. y; apply syn_read_length. Qed.
Lemma syn_null buf c : on syn (validate_null buf c).
Proof. unfold validate_null. y. Qed.
Lemma syn_empty buf c : on syn (validate_empty_array buf c).
Proof. unfold validate_empty_array. y. Qed.
Lemma syn_read_string buf c : on syn (read_string buf c).
Proof. unfold read_string. y; apply syn_read_length. Qed.
Lemma syn_integer buf c : on syn (read_integer_bytes buf c).
Proof. unfold read_integer_bytes. y; apply syn_scan. Qed.
Lemma syn_float buf c : on syn (read_float_bytes buf c).
Proof. unfold read_float_bytes. y; apply syn_scan. Qed.
Lemma syn_bool buf c : on syn (read_bool buf c).
Proof. unfold read_bool. y. Qed.
Lemma syn_skip_int buf c : on syn (skip_int buf c).
Proof. unfold skip_int. y; apply syn_integer. Qed.
Lemma syn_skip_string buf c : on syn (skip_string buf c).
Proof. unfold skip_string. y; apply syn_read_string. Qed.
Lemma syn_entries skip : (forall c, on syn (skip c)) -> forall n len c, on syn (skip_entries skip n len c).
Proof. intros H. induction n as [|n IH]; intros len c; cbn [skip_entries]; y; auto. Qed.
Lemma syn_skip_array skip buf c d : (forall c, on syn (skip c)) -> on syn (skip_array skip buf c d).
Proof. intros H. unfold skip_array. y; try apply syn_read_length; try (apply syn_entries; exact H). Qed.
Lemma syn_skip_value buf : forall f c d, on syn (skip_value_f f buf c d).
Proof.
  induction f as [|f IH]; intros c d; cbn [skip_value_f]; y; try apply syn_class; try (apply syn_skip_array; intros; apply IH);
    try apply syn_skip_string; try apply syn_float; try apply syn_skip_int; try apply syn_bool; try apply syn_null.
Qed.
Lemma syn_read_int buf c : on syn (read_int buf c).
Proof. unfold read_int. y; try apply syn_integer. Qed.
Lemma syn_int_bytes buf c : on syn (decode_int_bytes buf c).
Proof. unfold decode_int_bytes. y; try apply syn_null; try apply syn_integer. Qed.
Lemma syn_float_bytes buf c : on syn (decode_float_bytes buf c).
Proof. unfold decode_float_bytes. y; try apply syn_null; try apply syn_float. Qed.
Lemma syn_map_header buf c d : on syn (map_header buf c d).
Proof. unfold map_header. y; try apply syn_null; try apply syn_class; try apply syn_read_length. Qed.
Lemma syn_struct_header buf c d : on syn (struct_header buf c d).
Proof. unfold struct_header. y; try apply syn_null; try apply syn_class; try apply syn_skip_length. Qed.
Lemma syn_seq_header what buf c d : on syn (seq_header what buf c d).
Proof. unfold seq_header, read_length_int. y; try apply syn_null; try apply syn_empty; try apply syn_read_length. Qed.
Lemma syn_array_header buf c d : on syn (array_header buf c d).
Proof. apply syn_seq_header. Qed.

Lemma syn_end buf c : on syn (validate_end buf c).
Proof. unfold validate_end. y. Qed.

(** ** The decoder *)
Lemma pos_occurs buf c s t s' : pos buf c s -> s = t ++ s' -> occurs buf t.
Proof. intros (pre & -> & _) ->. exists pre, s'. reflexivity. Qed.
Lemma has_pos buf c : has_byte buf c = true -> exists s, pos buf c s.
Proof. intros H. apply pos_ex. unfold has_byte in H. apply andb_true_iff in H as [H1 H2]. apply Z.leb_le in H1. apply Z.ltb_lt in H2. lia. Qed.

Section Truth.
  Context (X : Ext) (E : env) (T0 : gty) (buf : bytes) (Hsm : small buf) (HT : forall U, inside E T0 U -> ~ unsupported X E U).
  Definition fine (e : error) : Prop :=
    match e with ESyntax _ _ | EType _ | EUser => True | EOverflow o => overflows X E buf T0 o | _ => False end.
  Definition F2 {A B} (r : A * R B) : Prop := on fine (snd r).
  Lemma syn_fine {A} (r : R A) : on syn r -> on fine r.
  Proof. apply on_weaken. intros e. destruct e; cbn; try intros []; auto. Qed.
  Lemma F2_fail {A B C} (a : A) (r : R C) : on fine r -> @F2 A B (a, fail r).
  Proof. intros H. apply on_fail, H. Qed.
  Ltac yy H := try exact I; try (apply F2_fail, syn_fine, H).

  Lemma fine_string_bytes c : on fine (decode_string_bytes buf c).
  Proof.
    unfold decode_string_bytes. destruct (negb _); [exact I|]. apply on_bind; [apply syn_fine, syn_rd|]. intros b.
    destruct (b =b "N"%byte); [apply on_bind; [apply syn_fine, syn_null|intro; exact I]|].
    destruct (b =b "b"%byte); [exact I|]. destruct (b =b "d"%byte); [exact I|]. destruct (b =b "i"%byte); [exact I|].
    destruct (b =b "s"%byte); [|exact I]. apply on_bind; [apply syn_fine, syn_read_string|]. intros []. exact I.
  Qed.
  Lemma fine_text r p rv : on fine r -> (forall b c rv, r = ROk (Some b, c) -> F2 (p b c rv)) -> F2 (dec_text r p rv).
  Proof. intros H Hp. unfold dec_text. destruct r as [[[b|] c]| | |]; try exact I; [apply Hp; reflexivity|exact H]. Qed.
  Lemma fine_string c rv : F2 (dec_string buf c rv).
  Proof. apply fine_text; [apply fine_string_bytes|]. intros. exact I. Qed.

  Lemma fine_process_int k b c rv : given X E buf T0 (KInt k) b \/ k = I64 -> F2 (process_int k b c rv).
  Proof.
    intros H. unfold process_int. destruct (parse_int64 b) as [z|] eqn:Hp; [|exact I]. apply parse_int64_iff in Hp as [Hz Hr].
    destruct (_ || _) eqn:Ho; [|exact I]. cbn. apply orb_true_iff in Ho.
    assert (int_range I64 z) as H64 by (unfold int_range, min_int64, max_int64 in *; cbn [ibits]; lia).
    assert (~ int_range k z) as Hn by (unfold int_range; destruct Ho as [Ho|Ho]; apply Z.ltb_lt in Ho; lia).
    destruct H as [H| ->]; [|contradiction]. eapply ov_int; eauto.
  Qed.
  Lemma fine_process_uint k b c rv : given X E buf T0 (KUint k) b -> F2 (process_uint k b c rv).
  Proof.
    intros H. unfold process_uint. destruct (parse_uint64 b) as [z|] eqn:Hp; [|exact I]. apply parse_uint64_iff in Hp as (Hn & -> & Hr).
    destruct (_ <? _) eqn:Ho; [|exact I]. cbn. apply Z.ltb_lt in Ho. pose proof (num_nonneg b (proj2 Hn)).
    eapply ov_uint; eauto; unfold uint_range; [cbn [ubits]|]; lia.
  Qed.
  Lemma fine_process_float is32 b c rv : is32 = true -> given X E buf T0 KF32 b -> F2 (process_float X is32 b c rv).
  Proof.
    intros -> H. unfold process_float. destruct (parse_float X b) as [f|] eqn:Hp; [|exact I]. apply parse_float_some in Hp.
    destruct (overflow_f32 f) eqn:Ho; [|exact I]. cbn. eapply ov_float; eauto.
  Qed.
  Lemma fine_process_float64 b c rv : F2 (process_float X false b c rv).
  Proof. unfold process_float. destruct (parse_float X b) as [f|]; exact I. Qed.

  Lemma int_occurs c b c' : decode_int_bytes buf c = ROk (Some b, c') -> occurs buf (text (LInt b)).
  Proof.
    intros H. destruct (has_byte buf c) eqn:Hb.
    - destruct (has_pos _ _ Hb) as [s Hs]. pose proof (int_bytes_out buf c s Hs) as O. rewrite H in O. cbn in O.
      destruct O as (p & s' & -> & _ & -> & _). eapply pos_occurs; eauto.
    - unfold decode_int_bytes in H. rewrite Hb in H. discriminate.
  Qed.
  Lemma float_occurs c b c' : decode_float_bytes buf c = ROk (Some b, c') -> occurs buf (text (LFloat b)).
  Proof.
    intros H. destruct (has_byte buf c) eqn:Hb.
    - destruct (has_pos _ _ Hb) as [s Hs]. pose proof (float_bytes_out buf c s Hs) as O. rewrite H in O. cbn in O.
      destruct O as (p & s' & -> & _ & -> & _). eapply pos_occurs; eauto.
    - unfold decode_float_bytes in H. rewrite Hb in H. discriminate.
  Qed.
  Lemma string_occurs c b c' : decode_string_bytes buf c = ROk (Some b, c') -> exists n, str_ok n b /\ occurs buf (text (LStr n b)).
  Proof.
    intros H. destruct (has_byte buf c) eqn:Hb.
    - destruct (has_pos _ _ Hb) as [s Hs]. pose proof (string_bytes_out buf c s Hsm Hs) as O. rewrite H in O. cbn in O.
      destruct O as (p & s' & -> & _ & n & -> & Hn). exists n. split; [exact Hn|]. eapply pos_occurs; eauto.
    - unfold decode_string_bytes in H. rewrite Hb in H. discriminate.
  Qed.
  Lemma fine_int k U c rv : k = I64 \/ (inside E T0 U /\ plain E U (KInt k)) -> F2 (dec_int k buf c rv).
  Proof.
    intros H. apply fine_text; [apply syn_fine, syn_int_bytes|]. intros b c1 rv1 Hb. apply fine_process_int.
    destruct H as [->|[H1 H2]]; [right; reflexivity|left]. eapply gi_number; eauto. eapply int_occurs, Hb.
  Qed.
  Lemma fine_uint k U c rv : inside E T0 U -> plain E U (KUint k) -> F2 (dec_uint k buf c rv).
  Proof.
    intros H1 H2. apply fine_text; [apply syn_fine, syn_int_bytes|]. intros b c1 rv1 Hb. apply fine_process_uint.
    eapply gi_number; eauto. eapply int_occurs, Hb.
  Qed.
  Lemma fine_float32 U c rv : inside E T0 U -> plain E U KF32 -> F2 (dec_float X true buf c rv).
  Proof.
    intros H1 H2. apply fine_text; [apply syn_fine, syn_float_bytes|]. intros b c1 rv1 Hb. apply fine_process_float; [reflexivity|].
    eapply gi_number; eauto. eapply float_occurs, Hb.
  Qed.
  Lemma fine_float64 c rv : F2 (dec_float X false buf c rv).
  Proof. apply fine_text; [apply syn_fine, syn_float_bytes|]. intros b c1 rv1 Hb. apply fine_process_float64. Qed.
  Lemma fine_bool c rv : F2 (dec_bool buf c rv).
  Proof.
    unfold dec_bool. destruct (negb _); [exact I|]. pose proof (syn_rd buf c) as H. destruct (rd buf c); yy H.
    destruct (_ =b _); [pose proof (syn_bool buf c) as H1; destruct (read_bool buf c); yy H1|].
    destruct (_ =b _); [pose proof (syn_null buf c) as H1; destruct (validate_null buf c); yy H1|exact I].
  Qed.

  (** ** Containers *)
  Lemma fine_map_loop kd vd : (forall c, F2 (kd c : dres)) -> (forall c, F2 (vd c : dres)) -> forall n c m, F2 (map_loop kd vd buf n c m).
  Proof.
    intros Hk Hv. induction n as [|n IH]; intros c m; cbn [map_loop]; [exact I|]. destruct (negb _); [exact I|].
    pose proof (Hk c) as H1. destruct (kd c) as [k [c1| | |]]; try exact H1. destruct (negb _); [exact I|].
    pose proof (Hv c1) as H2. destruct (vd c1) as [v [c2| | |]]; try exact H2. destruct (negb (hashable k)); [exact I|]. cbv zeta.
    destruct (negb _); [exact I|]. pose proof (syn_rd buf c2) as H3. destruct (rd buf c2); yy H3.
    destruct (_ =b _); [exact I|apply IH].
  Qed.
  Lemma fine_map kd vd c d rv : (forall c, F2 (kd c : dres)) -> (forall c, F2 (vd c : dres)) -> F2 (dec_map kd vd buf c d rv).
  Proof.
    intros Hk Hv. unfold dec_map. pose proof (syn_map_header buf c d) as H0. destruct (map_header buf c d) as [[c1|c1]| | |]; yy H0.
    destruct rv; try exact I. destruct (negb _); [exact I|].
    pose proof (syn_rd buf c1) as H3. destruct (rd buf c1); yy H3.
    destruct (_ =b _); [exact I|]. pose proof (fine_map_loop kd vd Hk Hv (length buf) c1 (match o with Some m => m | None => [] end)) as H.
    destruct (map_loop _ _ _ _ _ _). exact H.
  Qed.
  Definition fel (ed : Z -> gval -> dres) : Prop := forall c v, F2 (ed c v).
  Lemma fine_slice_loop et ed : fel ed -> forall n c sl rv, F2 (slice_loop X E et ed buf n c sl rv).
  Proof.
    intros He. induction n as [|n IH]; intros c sl rv; cbn [slice_loop]; [exact I|]. cbv zeta. destruct (negb _); [exact I|].
    pose proof (syn_read_int buf c) as H0. destruct (read_int buf c) as [[i c1]| | |]; yy H0.
    destruct (negb _); [exact I|].
    assert (forall sl' v (r : R Z), on fine r -> F2 (match r with ROk c' =>
        if negb (has_byte buf c') then (v, RErr (ESyntax c' (WEnd "array"))) else
        match rd buf c' with ROk b => if b =b "}"%byte then (v, ROk (c' + 1)) else slice_loop X E et ed buf n c' sl' v | r => (v, fail r) end
        | r => (v, fail r) end)) as G.
    { intros sl' v r Hr. destruct r as [c'| | |]; try exact Hr. destruct (negb _); [exact I|].
      pose proof (syn_rd buf c') as H3. destruct (rd buf c'); yy H3. destruct (_ =b _); [exact I|apply IH]. }
    destruct (i <? blen sl).
    - destruct (bad_index _ _); [exact I|]. pose proof (He c1 (nth (Z.to_nat i) sl VOther)) as H1. destruct (ed c1 _) as [v r]. apply (G _ (VSlice (Some (update sl (Z.to_nat i) v))) r H1).
    - destruct (_ || _); [exact I|]. destruct (bad_index _ _); [exact I|].
      pose proof (He c1 (zero E et)) as H1. destruct (ed c1 _) as [v r].
      destruct r as [c'| | |]; try exact H1. apply (G _ (VSlice (Some _)) (ROk c') I).
  Qed.
  Lemma fine_slice et ed c d rv : fel ed -> F2 (dec_slice X E et ed buf c d rv).
  Proof.
    intros He. unfold dec_slice.
    assert (on fine (slice_header buf c d)) as H0 by (unfold slice_header; destruct (_ && _ && _); [exact I|apply syn_fine, syn_seq_header]).
    destruct (slice_header buf c d) as [[| |l c1]| | |]; try exact I; try (apply F2_fail, H0).
    destruct (negb (x_slots X et l)); [exact I|]. apply fine_slice_loop, He.
  Qed.
  Lemma fine_array_loop ed d : fel ed -> forall n c l, F2 (array_loop ed buf d n c l).
  Proof.
    intros He. induction n as [|n IH]; intros c l; cbn [array_loop]; [exact I|]. cbv zeta. destruct (negb _); [exact I|].
    pose proof (syn_read_int buf c) as H0. destruct (read_int buf c) as [[i c1]| | |]; yy H0.
    destruct (negb _); [exact I|].
    assert (forall l' (r : R Z), on fine r -> F2 (match r with ROk c' =>
        if negb (has_byte buf c') then (l', RErr (ESyntax c' (WEnd "array"))) else
        match rd buf c' with ROk b => if b =b "}"%byte then (l', ROk (c' + 1)) else array_loop ed buf d n c' l' | r => (l', fail r) end
        | r => (l', fail r) end)) as G.
    { intros l' r Hr. destruct r as [c'| | |]; try exact Hr. destruct (negb _); [exact I|].
      pose proof (syn_rd buf c') as H3. destruct (rd buf c'); yy H3. destruct (_ =b _); [exact I|apply IH]. }
    destruct (i <? blen l).
    - destruct (bad_index _ _); [exact I|]. pose proof (He c1 (nth (Z.to_nat i) l VOther)) as H1. destruct (ed c1 _) as [v r]. apply (G _ r H1).
    - assert (on fine (skip_value buf c1 d)) as H5 by apply syn_fine, syn_skip_value. destruct (skip_value buf c1 d) as [c'| | |]; try exact H5. apply (G l (ROk c') I).
  Qed.
  Lemma fine_array n et ed c d rv : fel ed -> F2 (dec_array E n et ed buf c d rv).
  Proof.
    intros He. unfold dec_array. cbv zeta. pose proof (syn_array_header buf c d) as H0. destruct (array_header buf c d) as [[| |l c1]| | |]; yy H0.
    pose proof (fine_array_loop ed (d + 1) He (length buf) c1 (repeat (zero E et) n)) as H. destruct (array_loop _ _ _ _ _ _). exact H.
  Qed.
  Lemma fine_struct_loop decs fd d : (forall x, In x decs -> fel (fd x)) -> forall n c l, F2 (struct_loop decs fd buf d n c l).
  Proof.
    intros He. induction n as [|n IH]; intros c l; cbn [struct_loop]; [exact I|]. cbv zeta. destruct (negb _); [exact I|].
    pose proof (fine_string_bytes c) as H0. destruct (decode_string_bytes buf c) as [[k c1]| | |]; try exact I; try (apply F2_fail; exact H0).
    destruct (negb _); [exact I|].
    assert (forall l' (r : R Z), on fine r -> F2 (match r with ROk c' =>
        if negb (has_byte buf c') then (l', RErr (ESyntax c' (WEnd "object"))) else
        match rd buf c' with ROk b => if b =b "}"%byte then (l', ROk (c' + 1)) else struct_loop decs fd buf d n c' l' | r => (l', fail r) end
        | r => (l', fail r) end)) as G.
    { intros l' r Hr. destruct r as [c'| | |]; try exact Hr. destruct (negb _); [exact I|].
      pose proof (syn_rd buf c') as H3. destruct (rd buf c'); yy H3. destruct (_ =b _); [exact I|apply IH]. }
    destruct (find_field _ decs) as [x|] eqn:Hx.
    - destruct (nth_error l (fd_idx x)) as [v0|]; [|exact I].
      assert (In x decs) as Hin by (clear - Hx; induction decs as [|y decs IH]; cbn in Hx; [discriminate|]; destruct (bytes_eqb _ _); [injection Hx as ->; left; reflexivity|right; auto]).
      pose proof (He x Hin c1 v0) as H1. destruct (fd x c1 v0) as [v r]. apply (G _ r H1).
    - assert (on fine (skip_value buf c1 d)) as H5 by apply syn_fine, syn_skip_value. destruct (skip_value buf c1 d) as [c'| | |]; try exact H5. apply (G l (ROk c') I).
  Qed.
  Lemma fine_struct decs fd c d rv : (forall x, In x decs -> fel (fd x)) -> F2 (dec_struct decs fd buf c d rv).
  Proof.
    intros He. unfold dec_struct. pose proof (syn_struct_header buf c d) as H0. destruct (struct_header buf c d) as [[c1|c1]| | |]; yy H0.
    destruct rv; try exact I. destruct (negb _); [exact I|].
    pose proof (syn_rd buf c1) as H3. destruct (rd buf c1); yy H3.
    destruct (_ =b _); [exact I|]. pose proof (fine_struct_loop decs fd (d + 1) He (length buf) c1 l) as H.
    destruct (struct_loop _ _ _ _ _ _ _). exact H.
  Qed.
  Lemma fine_ptr t ed c rv : fel ed -> F2 (dec_ptr E t ed buf c rv).
  Proof.
    intros He. unfold dec_ptr. pose proof (syn_rd buf c) as H3. destruct (rd buf c); yy H3.
    destruct (_ =b _); [pose proof (syn_null buf c) as H1; destruct (validate_null buf c); yy H1|].
    destruct rv; try exact I. pose proof (He c (match o with Some v => v | None => zero E t end)) as H. destruct (ed _ _). exact H.
  Qed.
  Lemma fine_wrapped V c rv :
    (forall k t n, plain E V k -> str_ok n t -> occurs buf (text (LStr n t)) -> given X E buf T0 k t) ->
    (exists k, plain E V k /\ number_kind k = true) -> F2 (dec_wrapped X (node_of E V) buf c rv).
  Proof.
    intros Hg (k & Hp & Hk). unfold dec_wrapped. cbv zeta. apply fine_text; [apply fine_string_bytes|]. intros b c1 rv1 Hb.
    apply string_occurs in Hb as (n & Hn & Ho).
    assert (forall r : dres, F2 r -> F2 (match r with (v, ROk _) => (v, ROk c1) | r => r end)) as K.
    { intros [v []] H; exact H || exact I. }
    rewrite (node_of_plain _ _ _ Hp). destruct k; try discriminate Hk.
    - destruct (parse_bool b); exact I.
    - apply K, fine_process_int. left. eapply Hg; eauto.
    - apply K, fine_process_uint. eapply Hg; eauto.
    - apply K, fine_process_float; [reflexivity|]. eapply Hg; eauto.
    - apply K, fine_process_float64.
  Qed.
  Lemma fine_bytes sd c rv : F2 (sd rv) -> F2 (dec_bytes sd buf c rv).
  Proof.
    intros H. unfold dec_bytes. pose proof (syn_rd buf c) as H3. destruct (rd buf c); yy H3.
    destruct (_ =b _); [exact H|]. apply fine_text; [apply fine_string_bytes|]. intros. exact I.
  Qed.

  (** ** Interfaces *)
  Lemma fine_any_key c : F2 (dec_any_key buf c).
  Proof.
    unfold dec_any_key. pose proof (syn_rd buf c) as H3. destruct (rd buf c); yy H3.
    destruct (_ =b _). { pose proof (fine_string c (VStr [])) as H. destruct (dec_string _ _ _) as [v []]; exact H || exact I. }
    destruct (_ =b _); [|exact I]. pose proof (fine_int I64 TBool c (VInt 0) (or_introl eq_refl)) as H. destruct (dec_int _ _ _ _) as [v []]; exact H || exact I.
  Qed.
  Lemma fine_any : forall f c d, on fine (dec_any_f X f buf c d).
  Proof.
    induction f as [|f IH]; intros c d; cbn [dec_any_f]; [exact I|]. cbv zeta.
    set (vd := fun c0 : Z => match dec_any_f X f buf c0 (d + 1) with ROk (o, c') => (VIface o, ROk c') | r => (VIface None, fail r) end : dres).
    assert (forall c, F2 (vd c)) as Hv.
    { intros c0. subst vd. cbn beta. pose proof (IH c0 (d + 1)) as H. destruct (dec_any_f X f buf c0 (d + 1)) as [[]| | |]; exact H || exact I. }
    assert (forall t (r : dres), F2 r -> @on (option (gty * gval) * Z) fine (match r with (v, ROk c) => ROk (Some (t, v), c) | (_, r) => fail r end)) as W.
    { intros t [v []] H; exact H || exact I. }
    apply on_bind; [apply syn_fine, syn_rd|]. intros b.
    destruct (_ =b _); [apply W, fine_map; [intros; apply fine_string|exact Hv]|].
    destruct (_ =b _); [apply W, fine_map; [intros; apply fine_any_key; assumption|exact Hv]|].
    destruct (_ =b _); [apply W, fine_float64|].
    destruct (_ =b _); [apply on_bind; [apply syn_fine, syn_read_string|]; intros []; exact I|].
    destruct (_ =b _); [apply W, (fine_int I64 TBool); left; reflexivity|].
    destruct (_ =b _); [apply on_bind; [apply syn_fine, syn_bool|]; intros; exact I|].
    destruct (_ =b _); [apply on_bind; [apply syn_fine, syn_null|]; intros; exact I|]. exact I.
  Qed.
  Lemma fine_iface_any c d rv : F2 (dec_iface_any X buf c d rv).
  Proof. unfold dec_iface_any, dec_any. pose proof (fine_any (S (length buf)) c d) as H. destruct (dec_any_f _ _ _ _ _) as [[]| | |]; exact H || exact I. Qed.
  Lemma fine_unm n c d rv : F2 (dec_unm X E n buf c d rv).
  Proof.
    unfold dec_unm.
    assert (on fine (cend <- skip_value buf c d ;; src <- sub buf c cend ;; ROk (src, cend))) as H.
    { apply on_bind; [apply syn_fine, syn_skip_value|]. intros. apply on_bind; [apply syn_fine, syn_sub|]. intros. exact I. }
    destruct (bind _ _) as [[src e]| | |]; try exact I; try (apply F2_fail, H). cbv zeta.
    assert (F2 (match x_unmarshal X n (unquoted X src) (zero E (TName n)) with (v, true) => (v, ROk e) | (_, false) => (rv, RErr EUser) end)) as G.
    { destruct (x_unmarshal X n _ _) as [v []]; exact I. }
    destruct src; [exact G|]. destruct (_ || _); [exact I|]. destruct (_ && _); [exact I|exact G].
  Qed.
  Lemma fine_iface c d rv : F2 (dec_iface X E buf c d rv).
  Proof.
    unfold dec_iface. cbv zeta. set (plain := match rd buf c with ROk b => _ | r => _ end).
    assert (F2 plain) as P.
    { subst plain. pose proof (syn_rd buf c) as H3. destruct (rd buf c); yy H3.
      destruct (_ =b _); [pose proof (syn_null buf c) as H1; destruct (validate_null buf c); yy H1|exact I]. }
    destruct rv as [| | | | | | | | | |[[t' v]|]| |]; try exact P. destruct t' as [| | | | | | | | |t1| | | |]; try exact P.
    destruct v as [| | | | | | | | |p| | |]; try exact P. destruct (has_unmarshal E t1) as [n|] eqn:Hu; [|exact P].
    assert (on fine (cend <- skip_value buf c d ;; src <- sub buf c cend ;; ROk (src, cend))) as H.
    { apply on_bind; [apply syn_fine, syn_skip_value|]. intros. apply on_bind; [apply syn_fine, syn_sub|]. intros. exact I. }
    destruct (bind _ _) as [[src e]| | |]; try exact I; try (apply F2_fail, H).
    destruct (bytes_eqb _ _); [exact I|]. destruct p as [old|]; [|exact I]. destruct (x_unmarshal X n _ old) as [new []]; exact I.
  Qed.
  Lemma fine_key kt c d : inside E T0 kt -> F2 (dec_key X E kt buf c d).
  Proof.
    intros Hi. unfold dec_key, key_node. cbv zeta. destruct (has_unmarshal E kt) as [n|] eqn:Hu; [apply fine_unm|].
    assert (plain E kt (kind_of E kt)) as Hp by (split; auto). rewrite (node_of_plain _ _ _ Hp).
    destruct (kind_of E kt) as [| | | | | |t'|n t'|k v|t'| | | |id fs] eqn:Hk; try exact I.
    - apply fine_bool.
    - eapply fine_int; eauto.
    - eapply fine_uint; eauto.
    - apply fine_string.
    - destruct (is_byte E t'); exact I.
    - assert (F2 (match dec_any X buf c d with
             | ROk (None, c) => (zero E kt, ROk c) | ROk (Some _, _) => (zero E kt, RPanic PReflect) | r => (zero E kt, fail r) end)) as G.
      { unfold dec_any. pose proof (fine_any (S (length buf)) c d) as H. destruct (dec_any_f _ _ _ _ _) as [[[]]| | |]; exact H || exact I. }
      destruct (node_of E t'); try exact I; try exact G.
      + apply fine_text; [apply syn_fine, syn_int_bytes|]. intros b c1 rv1 _. destruct (parse_uint64 b); exact I.
      + apply fine_text; [apply syn_fine, syn_int_bytes|]. intros b c1 rv1 _. destruct (parse_int64 b); exact I.
      + apply fine_text; [apply fine_string_bytes|intros; exact I].
      + pose proof (fine_bool c VOther) as H. destruct (dec_bool buf c VOther) as [[] []]; exact H || exact I.
    - apply fine_iface_any.
    - apply fine_iface.
  Qed.

  Theorem decode_fine : forall f t c d rv, inside E T0 t -> F2 (decode_f X E f t buf c d rv).
  Proof.
    induction f as [|f IH]; intros t c d rv Hi; cbn [decode_f]; [exact I|]. cbv zeta.
    destruct (has_unmarshal E t) as [n|] eqn:Hu.
    { unfold node_of. rewrite Hu. apply fine_unm. }
    assert (plain E t (kind_of E t)) as Hp by (split; auto). rewrite (node_of_plain _ _ _ Hp).
    destruct (kind_of E t) as [| | | | | |t'|n t'|k v|t'| | | |id fs] eqn:Hk.
    - apply fine_bool.
    - eapply fine_int; eauto.
    - eapply fine_uint; eauto.
    - eapply fine_float32; eauto.
    - apply fine_float64.
    - apply fine_string.
    - assert (forall rv, F2 (dec_slice X E t' (fun c v => decode_f X E f t' buf c (d + 1) v) buf c d rv)) as G.
      { intros rv0. apply fine_slice. intros c1 v1. apply IH. eapply in_step; [exact Hi|]. eapply co_slice; eauto. }
      destruct (is_byte E t'); [apply fine_bytes|]; apply G.
    - apply fine_array. intros c1 v1. apply IH. eapply in_step; [exact Hi|]. eapply co_array; eauto.
    - apply fine_map; intros c1; [apply fine_key|apply IH]; (eapply in_step; [exact Hi|]); [eapply co_key|eapply co_val]; eauto.
    - assert (F2 (dec_ptr E t' (fun c v => decode_f X E f t' buf c d v) buf c rv)) as G.
      { apply fine_ptr. intros c1 v1. apply IH. eapply in_step; [exact Hi|]. eapply co_ptr; eauto. }
      destruct (kind_of E t') eqn:Hk'; try exact G. exfalso. apply (HT t Hi). eapply us_ptr; [exact Hp|]. unfold is_ptr. rewrite Hk'. reflexivity.
    - apply fine_iface_any.
    - apply fine_iface.
    - exact I.
    - apply fine_struct. intros x Hx c1 v1.
      destruct (field_decs_at X E fs 0 x Hx) as (fl & _ & Hnth & Hig & Hty & Hstr). rewrite Nat.sub_0_r in Hnth. apply nth_error_In in Hnth.
      rewrite Hty, Hstr. destruct (string_tagged X E fl) eqn:Htag; [|apply IH; eapply in_step; [exact Hi|]; eapply co_field; eauto].
      assert (quotable E (f_ty fl)) as Hq.
      { apply wrap_ok_spec. destruct (wrap_ok E (f_ty fl)) eqn:Hw; [reflexivity|]. exfalso. apply (HT t Hi). eapply us_string; eauto.
        intros Q. apply wrap_ok_spec in Q. congruence. }
      assert (forall V, V = f_ty fl \/ plain E (f_ty fl) (KPtr V) ->
        forall k t n, plain E V k -> str_ok n t -> occurs buf (text (LStr n t)) -> given X E buf T0 k t) as G.
      { intros V HV k0 t0 n0 H1 H2 H3. eapply gi_string; eauto. }
      destruct Hq as [(k0 & Hp0 & Hk0)|(V & k0 & HpV & Hp0 & Hk0)].
      + assert (F2 (dec_wrapped X (node_of E (f_ty fl)) buf c1 v1)) as W by (apply fine_wrapped; [apply G; left; reflexivity|eauto]).
        rewrite (node_of_plain _ _ _ Hp0) in *. destruct k0; try discriminate Hk0; exact W.
      + rewrite (node_of_plain _ _ _ HpV). apply fine_ptr. intros c2 v2. apply fine_wrapped; [apply G; right; exact HpV|eauto].
  Qed.
End Truth.

(** ** Compiling the type *)
Section Rejected.
  Context (X : Ext) (E : env).
  Lemma dup_fields fs : forall i s k, first_dup s (map fd_key (field_decs X E i fs)) = Some k ->
    (In k s /\ exists j f, nth_error fs j = Some f /\ is_ignored f = false /\ field_key X f = k) \/
    exists a b f g, nth_error fs a = Some f /\ nth_error fs b = Some g /\ a <> b /\
      is_ignored f = false /\ is_ignored g = false /\ field_key X f = k /\ field_key X g = k.
  Proof.
    induction fs as [|f0 fs IH]; intros i s k; cbn [field_decs]; [discriminate|].
    destruct (is_ignored f0) eqn:Hi.
    - intros H. destruct (IH _ _ _ H) as [(Hin & j & f & Hf & If & Hk)|(a & b & f & g & Hf & Hg & Hab & R)].
      + left. split; [exact Hin|]. exists (S j), f. auto.
      + right. exists (S a), (S b), f, g. repeat split; auto; apply R.
    - cbn [map fd_key first_dup]. fold (field_key X f0). destruct (existsb (bytes_eqb (field_key X f0)) s) eqn:Hs.
      + intros [= <-]. left. split; [apply existsb_bytes, Hs|]. exists 0%nat, f0. auto.
      + intros H. destruct (IH _ _ _ H) as [([Hin|Hin] & j & f & Hf & If & Hk)|(a & b & f & g & Hf & Hg & Hab & R)].
        * right. exists 0%nat, (S j), f0, f. repeat split; auto.
        * left. split; [exact Hin|]. exists (S j), f. auto.
        * right. exists (S a), (S b), f, g. repeat split; auto; apply R.
  Qed.
  Lemma wrap_type_spec t : wrap_type E t = t \/ plain E t (KPtr (wrap_type E t)).
  Proof.
    unfold wrap_type. destruct (has_unmarshal E t) eqn:Hu; [unfold node_of; rewrite Hu; left; reflexivity|].
    assert (plain E t (kind_of E t)) as Hp by (split; auto). rewrite (node_of_plain _ _ _ Hp).
    destruct (kind_of E t) as [| | | | | |t'|n t'|k v|t'| | | |id fs] eqn:Hk; auto. destruct (is_byte E t'); auto.
  Qed.
  Lemma compile_fields_rejected comp fs e T id : plain E T (KStruct id fs) -> forall fs', incl fs' fs ->
    compile_fields X E comp fs' = RErr e ->
    (exists f, In f fs /\ is_ignored f = false /\ comp (f_ty f) = RErr e) \/ rejected X E T e.
  Proof.
    intros Hp. induction fs' as [|f0 fs' IH]; cbn [compile_fields]; intros Hi H; [discriminate|].
    assert (incl fs' fs) as Hi' by (intros x Hx; apply Hi; right; exact Hx). assert (In f0 fs) as Hin by (apply Hi; left; reflexivity).
    destruct (is_ignored f0) eqn:Hi0; [apply IH; auto|].
    fold (struct_or_ptr E (f_ty f0)) in H. destruct (f_anon f0 && struct_or_ptr E (f_ty f0)) eqn:Ha.
    { apply andb_true_iff in Ha as [Ha Hs]. injection H as <-. right. eapply rj_embedded; eauto. }
    destruct (comp (f_ty f0)) as [[]|e'|p|] eqn:Hc; cbn [bind] in H; try discriminate.
    - rewrite <- string_tagged_eq in H. destruct (string_tagged X E f0 && negb (wrap_ok E (f_ty f0))) eqn:Hs; [|apply IH; auto].
      apply andb_true_iff in Hs as [Hs Hw]. injection H as <-. right. eapply rj_string; eauto; [|apply wrap_type_spec].
      intros Q. apply wrap_ok_spec in Q. rewrite Q in Hw. discriminate.
    - injection H as <-. left. eauto.
  Qed.
  Theorem compile_rejected : forall f st T e, compile_f X E f st T = RErr e -> exists U, inside E T U /\ rejected X E U e.
  Proof.
    induction f as [|f IH]; intros st T e H; cbn [compile_f] in H; [discriminate|].
    destruct (has_unmarshal E T) eqn:Hu; [discriminate|].
    assert (forall U st' e', component E T U -> compile_f X E f st' U = RErr e' -> exists U', inside E T U' /\ rejected X E U' e') as K.
    { intros U st' e' Hc He. destruct (IH _ _ _ He) as (U' & Hi & Hb). exists U'. split; [eapply inside_head; eauto|exact Hb]. }
    destruct (kind_of E T) as [| | | | | |t'|n t'|k v|t'| |m| |id fs] eqn:Hk; try discriminate.
    - assert (compile_f X E f st t' = RErr e) as H' by (destruct (kind_of E t') as [| |[]| | | | | | | | | | |]; congruence).
      eapply K; [eapply co_slice; split; eauto|exact H'].
    - eapply K; [eapply co_array; split; eauto|exact H].
    - destruct (match has_unmarshal E k with Some _ => _ | None => _ end) as [[]|e'|p|] eqn:Hm; cbn [bind] in H; try discriminate.
      + eapply K; [eapply co_val; split; eauto|exact H].
      + injection H as <-. assert (compile_f X E f st k = RErr e') as H' by (destruct (has_unmarshal E k); [discriminate|]; destruct (kind_of E k); congruence).
        eapply K; [eapply co_key; split; eauto|exact H'].
    - destruct (compile_f X E f st t') as [[]|e'|p|] eqn:Hc; cbn [bind] in H; try discriminate.
      + exists T. split; [apply in_refl|]. assert (is_ptr E t' = true) as Hq by (unfold is_ptr; destruct (kind_of E t'); try discriminate; reflexivity).
        assert (e = EUnsupportedType (TPtr t')) as -> by (destruct (kind_of E t'); congruence). apply rj_ptr; [split; auto|exact Hq].
      + injection H as <-. eapply K; [eapply co_ptr; split; eauto|exact Hc].
    - destruct (mem id st); [discriminate|].
      destruct (compile_fields X E (compile_f X E f (id :: st)) fs) as [[]|e'|p|] eqn:Hc; cbn [bind] in H; try discriminate.
      + destruct (first_dup [] (map fd_key (field_decs X E 0 fs))) as [key|] eqn:Hd; [|discriminate]. injection H as <-.
        destruct (dup_fields _ _ _ _ Hd) as [[[] _]|(a & b & g & h & Hg & Hh & Hab & Ig & Ih & Kg & Kh)].
        exists T. split; [apply in_refl|]. eapply rj_dup with (i := a) (j := b); eauto. split; eauto.
      + injection H as <-. destruct (compile_fields_rejected _ fs e' T id (conj Hu Hk) fs (incl_refl fs) Hc) as [(g & HIn & Ig & Hg)|Hr].
        * eapply K; [eapply co_field; eauto; split; eauto|exact Hg].
        * exists T. split; [apply in_refl|exact Hr].
  Qed.
  (** a type that makes an error is not supported *)
  Lemma rejected_unsupported U e : rejected X E U e -> unsupported X E U.
  Proof.
    intros [t|id fs f|id fs f V|id fs f g i j k]; intros; [eapply us_ptr|eapply us_embedded|eapply us_string|eapply us_dup with (i := i) (j := j)]; eauto. congruence.
  Qed.
End Rejected.
