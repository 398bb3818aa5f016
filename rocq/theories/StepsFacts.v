(** The decoder of Steps.v is the decoder of Decode.v. *)
From Coq Require Import Strings.String Strings.Byte ZArith List Bool Lia Floats.SpecFloat.
From Verif Require Import Base GoTypes Strconv Tags Scan Decode Unmarshal Steps.
Import ListNotations.
Open Scope Z_scope.

Lemma e_bind {A B} (m : T A) (k : A -> T B) : fst (t_bind m k) = bind (fst m) (fun a => fst (k a)).
Proof. destruct m as [[a|e|p|] n]; try reflexivity. cbn [t_bind fst bind]. destruct (k a). reflexivity. Qed.
Lemma e_on {A V} (m : T A) (v : V) k :
  fst (t_on m v k) = match fst m with ROk a => fst (k a) | r => (v, fail r) end.
Proof. destruct m as [[a|e|p|] n]; try reflexivity. cbn [t_on fst]. destruct (k a) as [[? ?] ?]. reflexivity. Qed.
Lemma e_then {U V} (m : tres U) (bad : U -> V) k :
  fst (t_then m bad k) = match fst m with (u, ROk c) => fst (k u c) | (u, r) => (bad u, fail r) end.
Proof. destruct m as [[u [c|e|p|]] n]; try reflexivity. cbn [t_then fst]. destruct (k u c) as [[? ?] ?]. reflexivity. Qed.
Lemma e_map {U V} (g : U -> V) (m : tres U) : fst (t_map g m) = let '(u, r) := fst m in (g u, r).
Proof. destruct m as [[u r] n]. reflexivity. Qed.
Lemma e_text m m' p rv : fst m = m' -> fst (t_text m p rv) = dec_text m' p rv.
Proof. intros <-. destruct m as [r n]. cbn [t_text fst]. destruct (dec_text r p rv). reflexivity. Qed.

Create HintDb steps.

(** one step of a scanner *)
Ltac e_step :=
  match goal with
  | |- fst (t_bind _ _) = bind ?m' _ =>
      rewrite e_bind; match goal with |- bind ?x _ = _ => replace x with m' by (symmetry; auto with steps) end;
      destruct m'; cbn [bind]; try reflexivity
  | |- fst (if ?b then _ else _) = if ?b' then _ else _ => change b' with b; destruct b
  | p : (_ * _)%type |- _ => destruct p
  | |- fst (match ?x with Some _ => _ | None => _ end) = _ => destruct x
  | |- _ => reflexivity
  end.
Ltac er := repeat (cbv beta zeta; e_step).

Section Same.
  Context (buf : bytes).
  Notation len := (blen buf).
  Notation get := (rd buf).
  Notation cut := (sub buf).

  Lemma e_look i : fst (look get i) = rd buf i. Proof. reflexivity. Qed.
  Lemma e_take i j : fst (take cut i j) = sub buf i j. Proof. reflexivity. Qed.
  Lemma e_size : size len = length buf. Proof. apply Nat2Z.id. Qed.
  Hint Resolve e_look e_take : steps.

  Lemma e_scan p n : forall c, fst (t_scan len get p n c) = scan_while p buf n c.
  Proof. induction n as [|n IH]; intros c; [reflexivity|]. cbn [t_scan scan_while]. er. apply IH. Qed.
  Lemma e_scan' p c : fst (t_scan len get p (size len) c) = scan_while p buf (length buf) c.
  Proof. rewrite e_size. apply e_scan. Qed.
  Hint Resolve e_scan' : steps.

  Lemma e_skip_length c : fst (t_skip_length len get c) = skip_length buf c.
  Proof. unfold t_skip_length, skip_length. er. Qed.
  Hint Resolve e_skip_length : steps.
  Lemma e_read_length c : fst (t_read_length len get cut c) = read_length buf c.
  Proof. unfold t_read_length, read_length. er. Qed.
  Hint Resolve e_read_length : steps.
  Lemma e_class_name c : fst (t_class_name len get cut c) = skip_class_name buf c.
  Proof. unfold t_class_name, skip_class_name. er. Qed.
  Hint Resolve e_class_name : steps.
  Lemma e_null c : fst (t_null len get c) = validate_null buf c.
  Proof. unfold t_null, validate_null. er. Qed.
  Hint Resolve e_null : steps.
  Lemma e_empty_array c : fst (t_empty_array len get c) = validate_empty_array buf c.
  Proof. unfold t_empty_array, validate_empty_array. er. Qed.
  Hint Resolve e_empty_array : steps.
  Lemma e_read_string c : fst (t_read_string len get cut c) = read_string buf c.
  Proof. unfold t_read_string, read_string. er. Qed.
  Hint Resolve e_read_string : steps.
  Lemma e_integer c : fst (t_integer len get cut c) = read_integer_bytes buf c.
  Proof. unfold t_integer, read_integer_bytes. er. Qed.
  Hint Resolve e_integer : steps.
  Lemma e_float_bytes c : fst (t_float_bytes len get cut c) = read_float_bytes buf c.
  Proof. unfold t_float_bytes, read_float_bytes. er. Qed.
  Hint Resolve e_float_bytes : steps.
  Lemma e_read_bool c : fst (t_read_bool len get c) = read_bool buf c.
  Proof.
    unfold t_read_bool, read_bool. er.
    rewrite e_bind. match goal with |- context [?x =b "1"%byte] => destruct (x =b "1"%byte); [|destruct (x =b "0"%byte)] end; cbn [fst t_ok t_err bind]; er.
  Qed.
  Hint Resolve e_read_bool : steps.
  Lemma e_skip_string c : fst (t_skip_string len get cut c) = skip_string buf c.
  Proof. unfold t_skip_string, skip_string. er. Qed.
  Hint Resolve e_skip_string : steps.
  Lemma e_skip_entries skip skip' : (forall c, fst (skip c) = skip' c) ->
    forall n k c, fst (t_skip_entries skip n k c) = skip_entries skip' n k c.
  Proof.
    intros He n. induction n as [|n IH]; intros k c; cbn [t_skip_entries skip_entries]; er. apply IH.
  Qed.
  Lemma e_skip_array skip skip' c d : (forall c, fst (skip c) = skip' c) ->
    fst (t_skip_array len get cut skip c d) = skip_array skip' buf c d.
  Proof.
    intros He. unfold t_skip_array, skip_array. er.
    rewrite e_bind, e_size, (e_skip_entries _ _ He).
    destruct (skip_entries _ _ _ _); cbn [bind]; try reflexivity. er.
  Qed.
  Lemma e_skip_f : forall fuel c d, fst (t_skip_f len get cut fuel c d) = skip_value_f fuel buf c d.
  Proof.
    induction fuel as [|f IH]; intros c d; [reflexivity|]. cbn [t_skip_f skip_value_f]. er.
    - apply e_skip_array. intros; apply IH.
    - apply e_skip_array. intros; apply IH.
    - auto with steps.
    - unfold skip_int. er.
  Qed.
  Lemma e_skip c d : fst (t_skip len get cut c d) = skip_value buf c d.
  Proof. unfold t_skip, skip_value. rewrite e_size. apply e_skip_f. Qed.
  Hint Resolve e_skip : steps.
  Lemma e_read_int c : fst (t_read_int len get cut c) = read_int buf c.
  Proof. unfold t_read_int, read_int. er. Qed.
  Hint Resolve e_read_int : steps.

  Lemma e_string_bytes c : fst (t_string_bytes len get cut c) = decode_string_bytes buf c.
  Proof. unfold t_string_bytes, decode_string_bytes. er. Qed.
  Lemma e_int_bytes c : fst (t_int_bytes len get cut c) = decode_int_bytes buf c.
  Proof. unfold t_int_bytes, decode_int_bytes. er. Qed.
  Lemma e_dec_float_bytes c : fst (t_dec_float_bytes len get cut c) = decode_float_bytes buf c.
  Proof. unfold t_dec_float_bytes, decode_float_bytes. er. Qed.
  Hint Resolve e_string_bytes e_int_bytes e_dec_float_bytes : steps.

  Lemma e_int k c rv : fst (t_int len get cut k c rv) = dec_int k buf c rv.
  Proof. apply e_text, e_int_bytes. Qed.
  Lemma e_uint k c rv : fst (t_uint len get cut k c rv) = dec_uint k buf c rv.
  Proof. apply e_text, e_int_bytes. Qed.
  Lemma e_float X b c rv : fst (t_float len get cut X b c rv) = dec_float X b buf c rv.
  Proof. apply e_text, e_dec_float_bytes. Qed.
  Lemma e_string c rv : fst (t_string len get cut c rv) = dec_string buf c rv.
  Proof. apply e_text, e_string_bytes. Qed.

  Lemma e_bool c rv : fst (t_bool len get c rv) = dec_bool buf c rv.
  Proof.
    unfold t_bool, dec_bool. change (has len c) with (has_byte buf c). destruct (negb _); [reflexivity|].
    rewrite e_on, e_look. destruct (rd buf c) as [b|e|p|]; try reflexivity.
    destruct (b =b "b"%byte); [rewrite e_on, e_read_bool; destruct (read_bool buf c); reflexivity|].
    destruct (b =b "N"%byte); [|reflexivity]. rewrite e_on, e_null. destruct (validate_null buf c); reflexivity.
  Qed.

  Lemma e_map_header c d : fst (t_map_header len get cut c d) = map_header buf c d.
  Proof.
    unfold t_map_header, map_header. er. rewrite e_bind.
    match goal with |- context [?x =b "O"%byte] => destruct (x =b "O"%byte); [rewrite e_bind, e_class_name; destruct (skip_class_name buf c); cbn [bind fst t_ok]; try reflexivity; er|]; destruct (x =b "a"%byte) end; cbn [fst t_ok t_err bind]; er.
  Qed.
  Lemma e_map_loop kd vd kd' vd' : (forall c, fst (kd c) = kd' c) -> (forall c, fst (vd c) = vd' c) ->
    forall n c m, fst (t_map_loop len get kd vd n c m) = map_loop kd' vd' buf n c m.
  Proof.
    intros Hk Hv n. induction n as [|n IH]; intros c m; [reflexivity|]. cbn [t_map_loop map_loop].
    change (has len c) with (has_byte buf c). destruct (negb _); [reflexivity|].
    rewrite e_then, Hk. destruct (kd' c) as [k [c1|e|p|]]; try reflexivity.
    change (has len c1) with (has_byte buf c1). destruct (negb _); [reflexivity|].
    rewrite e_then, Hv. destruct (vd' c1) as [v [c2|e|p|]]; try reflexivity.
    destruct (negb _); [reflexivity|]. cbv zeta. change (has len c2) with (has_byte buf c2). destruct (negb _); [reflexivity|].
    rewrite e_on, e_look. destruct (rd buf c2) as [b|e|p|]; try reflexivity. destruct (b =b "}"%byte); [reflexivity|]. apply IH.
  Qed.
  Lemma e_dec_map kd vd kd' vd' c d rv : (forall c, fst (kd c) = kd' c) -> (forall c, fst (vd c) = vd' c) ->
    fst (t_dec_map len get cut kd vd c d rv) = dec_map kd' vd' buf c d rv.
  Proof.
    intros Hk Hv. unfold t_dec_map, dec_map. rewrite e_on, e_map_header.
    destruct (map_header buf c d) as [[c'|c']|e|p|]; try reflexivity.
    destruct rv; try reflexivity. cbv zeta. change (has len c') with (has_byte buf c'). destruct (negb _); [reflexivity|].
    rewrite e_on, e_look. destruct (rd buf c') as [b|e|p|]; try reflexivity. destruct (b =b "}"%byte); [reflexivity|].
    rewrite e_map, e_size, (e_map_loop _ _ _ _ Hk Hv). destruct (map_loop _ _ _ _ _ _). reflexivity.
  Qed.
  Lemma e_any_key c : fst (t_any_key len get cut c) = dec_any_key buf c.
  Proof.
    unfold t_any_key, dec_any_key. rewrite e_on, e_look. destruct (rd buf c) as [b|e|p|]; try reflexivity.
    destruct (b =b "s"%byte); [rewrite e_then, e_string; destruct (dec_string _ _ _) as [v [c'|e|p|]]; reflexivity|].
    destruct (b =b "i"%byte); [rewrite e_then, e_int; destruct (dec_int _ _ _ _) as [v [c'|e|p|]]; reflexivity|]. reflexivity.
  Qed.
  Lemma e_any_f X : forall fuel c d rv, fst (t_any_f len get cut X fuel c d rv) =
    match dec_any_f X fuel buf c d with ROk (o, c') => (VIface o, ROk c') | r => (rv, fail r) end.
  Proof.
    induction fuel as [|f IH]; intros c d rv; [reflexivity|]. cbn [t_any_f dec_any_f]. cbv zeta.
    rewrite e_on, e_look. destruct (rd buf c) as [b|e|p|]; try reflexivity. cbn [bind].
    assert (forall t (m : tres gval) (r' : dres), fst m = r' ->
      fst (t_then m (fun _ => rv) (fun v c => t_free (VIface (Some (t, v))) (ROk c))) =
      match (match r' with (v, ROk c) => ROk (Some (t, v), c) | (_, r) => fail r end : R (option (gty * gval) * Z))
      with ROk (o, c') => (VIface o, ROk c') | r => (rv, fail r) end) as W.
    { intros t m r' <-. rewrite e_then. destruct (fst m) as [v [c'|e|p|]]; reflexivity. }
    destruct (b =b "O"%byte). { apply W. apply e_dec_map; intros c0; [apply e_string|apply IH]. }
    destruct (b =b "a"%byte). { apply W. apply e_dec_map; intros c0; [apply e_any_key|apply IH]. }
    destruct (b =b "d"%byte). { apply W, e_float. }
    destruct (b =b "s"%byte). { rewrite e_on, e_read_string. destruct (read_string buf (c + 1)) as [[s c']|e|p|]; reflexivity. }
    destruct (b =b "i"%byte). { apply W, e_int. }
    destruct (b =b "b"%byte). { rewrite e_on, e_read_bool. destruct (read_bool buf c) as [v|e|p|]; reflexivity. }
    destruct (b =b "N"%byte); [|reflexivity]. rewrite e_on, e_null. destruct (validate_null buf c) as [v|e|p|]; reflexivity.
  Qed.
  Lemma e_any X c d rv : fst (t_any len get cut X c d rv) = dec_iface_any X buf c d rv.
  Proof. unfold t_any, dec_iface_any, dec_any. rewrite e_size. apply e_any_f. Qed.

  Lemma e_raw c d : fst (t_raw len get cut c d) = (cend <- skip_value buf c d ;; src <- sub buf c cend ;; ROk (src, cend)).
  Proof. unfold t_raw. er. Qed.
  Lemma e_unm X E n c d rv : fst (t_unm len get cut X E n c d rv) = dec_unm X E n buf c d rv.
  Proof.
    unfold t_unm, dec_unm. rewrite e_on, e_raw.
    match goal with |- match ?x with _ => _ end = _ => destruct x as [[src cend]|e|p|]; try reflexivity end.
    cbv zeta. destruct src as [|b src]; [destruct (x_unmarshal _ _ _ _) as [v []]; reflexivity|].
    destruct (_ || _); [reflexivity|]. destruct (_ && _); [reflexivity|]. destruct (x_unmarshal _ _ _ _) as [v []]; reflexivity.
  Qed.
  Lemma e_iface X E c d rv : fst (t_iface len get cut X E c d rv) = dec_iface X E buf c d rv.
  Proof.
    unfold t_iface, dec_iface. cbv zeta.
    assert (forall rv', fst (t_on (look get c) rv' (fun b => if b =b "N"%byte
        then t_on (t_null len get c) rv' (fun _ => t_free (VIface None) (ROk (c + 2))) else t_free rv' (RErr (EType c)))) =
      match rd buf c with
      | ROk b => if b =b "N"%byte then match validate_null buf c with ROk _ => (VIface None, ROk (c + 2)) | r => (rv', fail r) end
                 else (rv', RErr (EType c))
      | r => (rv', fail r) end) as P.
    { intros rv'. rewrite e_on, e_look. destruct (rd buf c) as [b|e|p|]; try reflexivity. destruct (b =b "N"%byte); [|reflexivity].
      rewrite e_on, e_null. destruct (validate_null buf c); reflexivity. }
    destruct rv as [| | | | | | | | | |[[t v]|]| |]; try (apply P).
    destruct t; try (apply P). destruct v as [| | | | | | | | |p| | |]; try (apply P).
    destruct (has_unmarshal E t) as [n|]; [|apply P]. rewrite e_on, e_raw.
    match goal with |- match ?x with _ => _ end = _ => destruct x as [[src cend]|e|q|]; try reflexivity end.
    destruct (bytes_eqb _ _); [reflexivity|]. destruct p as [old|]; [|reflexivity].
    destruct (x_unmarshal _ _ _ _) as [v []]; reflexivity.
  Qed.
  Lemma e_key X E kt c d : fst (t_key len get cut X E kt c d) = dec_key X E kt buf c d.
  Proof.
    unfold t_key, dec_key. cbv zeta. destruct (key_node E kt) as [n| | |k|k| | |nd|].
    - apply e_unm. - apply e_string. - apply e_bool. - apply e_int. - apply e_uint. - apply e_any. - apply e_iface.
    - assert (fst (t_then (t_any len get cut X c d VOther) (fun _ => zero E kt) (fun v c0 =>
                 match v with VIface (Some _) => t_free (zero E kt) (RPanic PReflect) | _ => t_free (zero E kt) (ROk c0) end))
        = match dec_any X buf c d with ROk (None, c) => (zero E kt, ROk c) | ROk (Some _, _) => (zero E kt, RPanic PReflect) | r => (zero E kt, fail r) end) as P.
      { rewrite e_then, e_any. unfold dec_iface_any. destruct (dec_any X buf c d) as [[[o|] c']|e|p|]; reflexivity. }
      destruct nd; try (apply P).
      + apply e_text, e_int_bytes.
      + apply e_text, e_int_bytes.
      + apply e_text, e_string_bytes.
      + rewrite e_then, e_bool. unfold dec_bool. destruct (negb _); [reflexivity|]. destruct (rd buf c) as [b|e|p|]; try reflexivity.
        destruct (b =b "b"%byte); [destruct (read_bool buf c); reflexivity|]. destruct (b =b "N"%byte); [destruct (validate_null buf c); reflexivity|reflexivity].
    - reflexivity.
  Qed.

  Lemma e_seq_header w c d : fst (t_seq_header len get cut w c d) = seq_header w buf c d.
  Proof. unfold t_seq_header, seq_header, read_length_int. er. Qed.
  Lemma e_slice_header c d : fst (t_slice_header len get cut c d) = slice_header buf c d.
  Proof.
    unfold t_slice_header, slice_header, number_at. change (has len c) with (has_byte buf c). destruct (_ && _) eqn:Q; cbn [andb].
    - rewrite e_bind, e_look. apply andb_true_iff in Q as [Q _]. unfold has_byte in Q. apply andb_true_iff in Q as [Q1 Q2].
      apply Z.leb_le in Q1. apply Z.ltb_lt in Q2.
      assert (exists b, rd buf c = ROk b) as [b Hb].
      { unfold rd. rewrite (proj2 (Z.leb_le 0 c) Q1). destruct (nth_error buf (Z.to_nat c)) eqn:N; [eauto|].
        apply nth_error_None in N. unfold blen in Q2. lia. }
      rewrite Hb. cbn [bind]. destruct (_ || _); [reflexivity|]. apply e_seq_header.
    - apply e_seq_header.
  Qed.

  Lemma e_slice_loop X E et ed ed' : (forall c v, fst (ed c v) = ed' c v) ->
    forall n c l rv, fst (t_slice_loop len get cut X E et ed n c l rv) = slice_loop X E et ed' buf n c l rv.
  Proof.
    intros He n. induction n as [|n IH]; intros c l rv; [reflexivity|]. cbn [t_slice_loop slice_loop]. cbv zeta.
    change (has len c) with (has_byte buf c). destruct (negb _); [reflexivity|].
    rewrite e_on, e_read_int. destruct (read_int buf c) as [[idx c1]|e|p|]; try reflexivity.
    change (has len c1) with (has_byte buf c1). destruct (negb _); [reflexivity|].
    destruct (idx <? blen l).
    - destruct (bad_index _ _); [reflexivity|]. rewrite e_then, He. destruct (ed' c1 _) as [v [c2|e|p|]]; try reflexivity.
      change (has len c2) with (has_byte buf c2). destruct (negb _); [reflexivity|].
      rewrite e_on, e_look. destruct (rd buf c2) as [b|e|p|]; try reflexivity. destruct (b =b "}"%byte); [reflexivity|]. apply IH.
    - destruct (_ || _); [reflexivity|]. destruct (bad_index _ _); [reflexivity|].
      rewrite e_then, He. destruct (ed' c1 _) as [v [c2|e|p|]]; try reflexivity.
      change (has len c2) with (has_byte buf c2). destruct (negb _); [reflexivity|].
      rewrite e_on, e_look. destruct (rd buf c2) as [b|e|p|]; try reflexivity. destruct (b =b "}"%byte); [reflexivity|]. apply IH.
  Qed.
  Lemma e_slice X E et ed ed' c d rv : (forall c v, fst (ed c v) = ed' c v) ->
    fst (t_slice len get cut X E et ed c d rv) = dec_slice X E et ed' buf c d rv.
  Proof.
    intros He. unfold t_slice, dec_slice. rewrite e_on, e_slice_header.
    destruct (slice_header buf c d) as [[c'|c'|k c']|e|p|]; try reflexivity. destruct (negb _); [reflexivity|].
    rewrite e_size. apply e_slice_loop, He.
  Qed.
  Lemma e_array_loop ed ed' d : (forall c v, fst (ed c v) = ed' c v) ->
    forall n c l, fst (t_array_loop len get cut ed d n c l) = array_loop ed' buf d n c l.
  Proof.
    intros He n. induction n as [|n IH]; intros c l; [reflexivity|]. cbn [t_array_loop array_loop]. cbv zeta.
    change (has len c) with (has_byte buf c). destruct (negb _); [reflexivity|].
    rewrite e_on, e_read_int. destruct (read_int buf c) as [[idx c1]|e|p|]; try reflexivity.
    change (has len c1) with (has_byte buf c1). destruct (negb _); [reflexivity|].
    destruct (idx <? blen l).
    - destruct (bad_index _ _); [reflexivity|]. rewrite e_then, He. destruct (ed' c1 _) as [v [c2|e|p|]]; try reflexivity.
      change (has len c2) with (has_byte buf c2). destruct (negb _); [reflexivity|].
      rewrite e_on, e_look. destruct (rd buf c2) as [b|e|p|]; try reflexivity. destruct (b =b "}"%byte); [reflexivity|]. apply IH.
    - rewrite e_on, e_skip. destruct (skip_value buf c1 d) as [c2|e|p|]; try reflexivity.
      change (has len c2) with (has_byte buf c2). destruct (negb _); [reflexivity|].
      rewrite e_on, e_look. destruct (rd buf c2) as [b|e|p|]; try reflexivity. destruct (b =b "}"%byte); [reflexivity|]. apply IH.
  Qed.
  Lemma e_array E n et ed ed' c d rv : (forall c v, fst (ed c v) = ed' c v) ->
    fst (t_array len get cut E n et ed c d rv) = dec_array E n et ed' buf c d rv.
  Proof.
    intros He. unfold t_array, dec_array. cbv zeta. rewrite e_on.
    replace (fst (t_zeroed len get c d)) with (ROk (array_zeroed buf c d)).
    2:{ unfold t_zeroed, array_zeroed. change (has len c) with (has_byte buf c). destruct (has_byte buf c && negb (max_depth <? d + 1)); reflexivity. }
    rewrite e_on, e_seq_header. unfold array_header.
    destruct (seq_header "array" buf c d) as [[c'|c'|k c']|e|p|]; try reflexivity.
    rewrite e_map, e_size, (e_array_loop _ _ _ He). destruct (array_loop _ _ _ _ _ _). reflexivity.
  Qed.

  Lemma e_struct_header c d : fst (t_struct_header len get cut c d) = struct_header buf c d.
  Proof.
    unfold t_struct_header, struct_header. er. rewrite e_bind.
    match goal with |- context [?x =b "O"%byte] => destruct (x =b "O"%byte); [rewrite e_bind, e_class_name; destruct (skip_class_name buf c); cbn [bind fst t_ok]; try reflexivity; er|]; destruct (x =b "a"%byte) end; cbn [fst t_ok t_err bind]; er.
  Qed.
  Lemma e_struct_loop decs fd fd' d : (forall x c v, fst (fd x c v) = fd' x c v) ->
    forall n c l, fst (t_struct_loop len get cut decs fd d n c l) = struct_loop decs fd' buf d n c l.
  Proof.
    intros He n. induction n as [|n IH]; intros c l; [reflexivity|]. cbn [t_struct_loop struct_loop]. cbv zeta.
    change (has len c) with (has_byte buf c). destruct (negb _); [reflexivity|].
    rewrite e_on, e_string_bytes. destruct (decode_string_bytes buf c) as [[key c1]|e|p|]; try reflexivity.
    change (has len c1) with (has_byte buf c1). destruct (negb _); [reflexivity|].
    destruct (find_field _ decs) as [x|].
    - destruct (nth_error l (fd_idx x)) as [v0|]; [|reflexivity].
      rewrite e_then, He. destruct (fd' x c1 v0) as [v [c2|e|p|]]; try reflexivity.
      change (has len c2) with (has_byte buf c2). destruct (negb _); [reflexivity|].
      rewrite e_on, e_look. destruct (rd buf c2) as [b|e|p|]; try reflexivity. destruct (b =b "}"%byte); [reflexivity|]. apply IH.
    - rewrite e_on, e_skip. destruct (skip_value buf c1 d) as [c2|e|p|]; try reflexivity.
      change (has len c2) with (has_byte buf c2). destruct (negb _); [reflexivity|].
      rewrite e_on, e_look. destruct (rd buf c2) as [b|e|p|]; try reflexivity. destruct (b =b "}"%byte); [reflexivity|]. apply IH.
  Qed.
  Lemma e_struct decs fd fd' c d rv : (forall x c v, fst (fd x c v) = fd' x c v) ->
    fst (t_struct len get cut decs fd c d rv) = dec_struct decs fd' buf c d rv.
  Proof.
    intros He. unfold t_struct, dec_struct. rewrite e_on, e_struct_header.
    destruct (struct_header buf c d) as [[c'|c']|e|p|]; try reflexivity.
    destruct rv; try reflexivity. change (has len c') with (has_byte buf c'). destruct (negb _); [reflexivity|].
    rewrite e_on, e_look. destruct (rd buf c') as [b|e|p|]; try reflexivity. destruct (b =b "}"%byte); [reflexivity|].
    rewrite e_map, e_size, (e_struct_loop _ _ _ _ He). destruct (struct_loop _ _ _ _ _ _ _). reflexivity.
  Qed.
  Lemma e_ptr E t ed ed' c rv : (forall c v, fst (ed c v) = ed' c v) ->
    fst (t_ptr len get E t ed c rv) = dec_ptr E t ed' buf c rv.
  Proof.
    intros He. unfold t_ptr, dec_ptr. rewrite e_on, e_look. destruct (rd buf c) as [b|e|p|]; try reflexivity.
    destruct (b =b "N"%byte). { rewrite e_on, e_null. destruct (validate_null buf c); reflexivity. }
    destruct rv; try reflexivity. rewrite e_map, He. destruct (ed' c _). reflexivity.
  Qed.
  Lemma e_wrapped X nd c rv : fst (t_wrapped len get cut X nd c rv) = dec_wrapped X nd buf c rv.
  Proof. apply e_text, e_string_bytes. Qed.
  Lemma e_bytes sd sd' c rv : (forall v, fst (sd v) = sd' v) -> fst (t_bytes len get cut sd c rv) = dec_bytes sd' buf c rv.
  Proof.
    intros Hs. unfold t_bytes, dec_bytes. rewrite e_on, e_look. destruct (rd buf c) as [b|e|p|]; try reflexivity.
    destruct (b =b "a"%byte); [apply Hs|]. apply e_text, e_string_bytes.
  Qed.

  Theorem e_decode_f X E : forall fuel t c d rv,
    fst (t_decode_f len get cut X E fuel t c d rv) = decode_f X E fuel t buf c d rv.
  Proof.
    induction fuel as [|f IH]; intros t c d rv; [reflexivity|]. cbn [t_decode_f decode_f]. cbv zeta.
    destruct (node_of E t) as [n|t0|id fs|t0|t0|n t0|kt vt| | |uk|ik| | | | |].
    - apply e_unm.
    - destruct (kind_of E t0); try reflexivity; (apply e_ptr; intros; apply IH).
    - apply e_struct. intros x c0 a0. destruct (fd_str x); [|apply IH].
      destruct (node_of E (fd_ty x)); try (apply e_wrapped). apply e_ptr. intros. apply e_wrapped.
    - apply e_bytes. intros a0. apply e_slice. intros; apply IH.
    - apply e_slice. intros; apply IH.
    - apply e_array. intros; apply IH.
    - apply e_dec_map; intros c0; [apply e_key|]. apply IH.
    - apply e_any.
    - apply e_iface.
    - apply e_uint. - apply e_int. - apply e_string. - apply e_bool. - apply e_float. - apply e_float. - reflexivity.
  Qed.
  Lemma e_end c : fst (t_end len get c) = validate_end buf c.
  Proof. unfold t_end, validate_end. er. Qed.
End Same.

Theorem t_unmarshal_same X E cf data t v : fst (t_unmarshal X E cf data t v) = unmarshal X E cf data (TgPtr t v).
Proof.
  unfold t_unmarshal, unmarshal. destruct data as [|b0 data0]; [reflexivity|]. remember (b0 :: data0) as data eqn:Hd. clear Hd.
  destruct (compile_f X E cf [] t) as [u|e|p|]; try reflexivity.
  unfold decode. rewrite <- (e_decode_f data). destruct (t_decode_f _ _ _ _ _ _ _ _ _ _) as [[v' r] n]. cbn [fst].
  destruct r as [c|e|p|]; try reflexivity. cbn [bind]. rewrite <- e_end. destruct (t_end _ _ _). reflexivity.
Qed.
