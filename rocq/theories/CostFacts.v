(** The decoder of Cost.v is the decoder of Decode.v, and what it asks for. *)
From Coq Require Import Strings.String Strings.Byte ZArith List Bool Lia Floats.SpecFloat.
From Verif Require Import Base GoTypes Strconv Tags Scan Decode Unmarshal Grammar Denote Typing NumFacts ScanFacts SkipFacts Sound SoundT TextFacts Safe Cost CostSpec SliceHead.
Import ListNotations.
Open Scope Z_scope.

(** ** The same decoder *)

Definition drop {A B} (r : A * B * list request) : A * B := let '(a, b, _) := r in (a, b).
Lemma drop_then {A B} w (r : A * B * list request) : drop (c_then w r) = drop r.
Proof. destruct r as [[a c] w']. reflexivity. Qed.
Lemma drop_free r : drop (free r) = r.
Proof. destruct r. reflexivity. Qed.

Lemma c_map_header_same buf c d : map_header buf c d =
  match c_map_header buf c d with
  | ROk (ChNull c) => ROk (HNull c) | ROk (ChBody _ c) => ROk (HBody c)
  | RErr e => RErr e | RPanic p => RPanic p | RFuel => RFuel
  end.
Proof.
  unfold map_header, c_map_header. destruct (negb _); [reflexivity|].
  destruct (rd buf c) as [b|e|p|]; try reflexivity. cbn [bind].
  destruct (_ <? _); [reflexivity|]. destruct (b =b "N"%byte). { destruct (validate_null buf c); reflexivity. }
  match goal with |- context [bind ?x _] => destruct x as [cur|e|p|]; try reflexivity end. cbn [bind].
  destruct (read_length buf cur) as [[l cend]|e|p|]; try reflexivity. cbn [bind].
  destruct (negb _); [reflexivity|]. destruct (rd buf cend) as [b'|e|p|]; try reflexivity. cbn [bind].
  destruct (negb _); reflexivity.
Qed.

Lemma c_map_loop_same buf kd vd kd' vd' : (forall c, drop (kd c) = kd' c) -> (forall c, drop (vd c) = vd' c) ->
  forall n c m, drop (c_map_loop kd vd buf n c m) = map_loop kd' vd' buf n c m.
Proof.
  intros Hk Hv n. induction n as [|n IH]; intros c m; [reflexivity|]. cbn [c_map_loop map_loop].
  destruct (negb (has_byte buf c)); [reflexivity|]. rewrite <- Hk.
  destruct (kd c) as [[k kr] w]. cbn [drop]. destruct kr as [c1|e|p|]; try reflexivity.
  destruct (negb _); [reflexivity|]. rewrite <- Hv. destruct (vd c1) as [[v vr] w']. cbn [drop].
  destruct vr as [c2|e|p|]; try reflexivity. destruct (negb (hashable k)); [reflexivity|]. cbn zeta.
  destruct (negb _); [reflexivity|].
  destruct (rd buf c2) as [b|e|p|]; try reflexivity. destruct (b =b "}"%byte); [reflexivity|].
  rewrite drop_then. apply IH.
Qed.

Lemma c_map_same buf kd vd kd' vd' c d rv : (forall c, drop (kd c) = kd' c) -> (forall c, drop (vd c) = vd' c) ->
  drop (c_map kd vd buf c d rv) = dec_map kd' vd' buf c d rv.
Proof.
  intros Hk Hv. unfold c_map, dec_map. rewrite c_map_header_same.
  destruct (c_map_header buf c d) as [[c'|l c']|e|p|]; try reflexivity.
  destruct rv; try reflexivity. cbn zeta. destruct (negb _); [reflexivity|].
  destruct (rd buf c') as [b|e|p|]; try reflexivity. destruct (b =b "}"%byte); [reflexivity|].
  rewrite <- (c_map_loop_same buf kd vd kd' vd' Hk Hv). destruct (c_map_loop _ _ _ _ _ _) as [[m' r] w]. reflexivity.
Qed.

Lemma c_any_f_same X buf : forall fuel c d, fst (c_any_f X fuel buf c d) = dec_any_f X fuel buf c d.
Proof.
  induction fuel as [|f IH]; intros c d; [reflexivity|]. cbn [c_any_f dec_any_f]. cbn zeta.
  destruct (rd buf c) as [b|e|p|]; try reflexivity. cbn [bind].
  assert (forall t (r : cres) (r' : dres), drop r = r' ->
    fst (let '(v, r0, w) := r in match r0 with ROk c => (ROk (Some (t, v), c), w) | r1 => (fail r1, w) end)
    = (match r' with (v, ROk c') => ROk (Some (t, v), c') | (_, r) => fail r end : R (option (gty * gval) * Z))) as W.
  { intros t [[v r0] w] r' <-. destruct r0; reflexivity. }
  destruct (b =b "O"%byte). { apply W. apply c_map_same; [intros; apply drop_free|]. intros c0. rewrite <- IH. destruct (c_any_f X f buf c0 (d + 1)) as [[[o c']|e|p|] w]; reflexivity. }
  destruct (b =b "a"%byte). { apply W. apply c_map_same; [intros; apply drop_free|]. intros c0. rewrite <- IH. destruct (c_any_f X f buf c0 (d + 1)) as [[[o c']|e|p|] w]; reflexivity. }
  destruct (b =b "d"%byte). { apply W. apply drop_free. }
  destruct (b =b "s"%byte); [reflexivity|]. destruct (b =b "i"%byte). { apply W. apply drop_free. }
  destruct (b =b "b"%byte); [reflexivity|]. destruct (b =b "N"%byte); reflexivity.
Qed.
Lemma c_iface_any_same X buf c d rv : drop (c_iface_any X buf c d rv) = dec_iface_any X buf c d rv.
Proof.
  unfold c_iface_any, dec_iface_any, dec_any, c_any. rewrite <- c_any_f_same.
  destruct (c_any_f _ _ _ _ _) as [[[o c']|e|p|] w]; reflexivity.
Qed.
Lemma c_key_same X E kt buf c d : drop (c_key X E kt buf c d) = dec_key X E kt buf c d.
Proof. unfold c_key. cbn zeta. destruct (dec_key X E kt buf c d). reflexivity. Qed.

Lemma c_slice_loop_same X E et ed ed' buf : (forall c v, drop (ed c v) = ed' c v) ->
  forall n c l rv, drop (c_slice_loop X E et ed buf n c l rv) = slice_loop X E et ed' buf n c l rv.
Proof.
  intros He n. induction n as [|n IH]; intros c l rv; [reflexivity|]. cbn [c_slice_loop slice_loop]. cbn zeta.
  destruct (negb (has_byte buf c)); [reflexivity|].
  destruct (read_int buf c) as [[idx c1]|e|p|]; try reflexivity. destruct (negb _); [reflexivity|].
  destruct (idx <? blen l).
  - destruct (bad_index _ _); [reflexivity|]. rewrite <- He. destruct (ed c1 _) as [[v r] w]. cbn [drop].
    destruct r as [c2|e|p|]; try reflexivity. rewrite drop_then.
    destruct (negb _); [reflexivity|]. destruct (rd buf c2) as [b|e|p|]; try reflexivity.
    destruct (b =b "}"%byte); [reflexivity|]. apply IH.
  - destruct (_ || _); [reflexivity|]. destruct (bad_index _ _); [reflexivity|]. rewrite <- He.
    destruct (ed c1 _) as [[v r] w]. cbn [drop]. destruct r as [c2|e|p|]; try reflexivity. rewrite drop_then.
    destruct (negb _); [reflexivity|]. destruct (rd buf c2) as [b|e|p|]; try reflexivity.
    destruct (b =b "}"%byte); [reflexivity|]. apply IH.
Qed.
Lemma c_slice_same X E et ed ed' buf c d rv : (forall c v, drop (ed c v) = ed' c v) ->
  drop (c_slice X E et ed buf c d rv) = dec_slice X E et ed' buf c d rv.
Proof.
  intros He. unfold c_slice, dec_slice. destruct (slice_header buf c d) as [[c'|c'|len c']|e|p|]; try reflexivity.
  destruct (negb _); [reflexivity|]. rewrite drop_then. apply c_slice_loop_same. exact He.
Qed.
Lemma c_bytes_same sd sd' buf c rv : (forall v, drop (sd v) = sd' v) -> drop (c_bytes sd buf c rv) = dec_bytes sd' buf c rv.
Proof.
  intros Hs. unfold c_bytes, dec_bytes. destruct (rd buf c) as [b|e|p|]; try reflexivity.
  destruct (b =b "a"%byte); [apply Hs|]. apply drop_free.
Qed.

Lemma c_array_loop_same ed ed' buf d : (forall c v, drop (ed c v) = ed' c v) ->
  forall n c l, drop (c_array_loop ed buf d n c l) = array_loop ed' buf d n c l.
Proof.
  intros He n. induction n as [|n IH]; intros c l; [reflexivity|]. cbn [c_array_loop array_loop]. cbn zeta.
  destruct (negb (has_byte buf c)); [reflexivity|].
  destruct (read_int buf c) as [[idx c1]|e|p|]; try reflexivity. destruct (negb _); [reflexivity|].
  destruct (idx <? blen l).
  - destruct (bad_index _ _); [reflexivity|]. rewrite <- He. destruct (ed c1 _) as [[v r] w]. cbn [drop].
    destruct r as [c2|e|p|]; try reflexivity. rewrite drop_then.
    destruct (negb _); [reflexivity|]. destruct (rd buf c2) as [b|e|p|]; try reflexivity.
    destruct (b =b "}"%byte); [reflexivity|]. apply IH.
  - destruct (skip_value buf c1 d) as [c2|e|p|]; try reflexivity.
    destruct (negb _); [reflexivity|]. destruct (rd buf c2) as [b|e|p|]; try reflexivity.
    destruct (b =b "}"%byte); [reflexivity|]. apply IH.
Qed.
Lemma c_array_same E n et ed ed' buf c d rv : (forall c v, drop (ed c v) = ed' c v) ->
  drop (c_array E n et ed buf c d rv) = dec_array E n et ed' buf c d rv.
Proof.
  intros He. unfold c_array, dec_array. cbn zeta. destruct (array_header buf c d) as [[c'|c'|len c']|e|p|]; try reflexivity.
  rewrite <- (c_array_loop_same ed ed' buf (d + 1) He). destruct (c_array_loop _ _ _ _ _ _) as [[l r] w]. reflexivity.
Qed.

Lemma c_struct_loop_same decs fd fd' buf d : (forall x c v, drop (fd x c v) = fd' x c v) ->
  forall n c l, drop (c_struct_loop decs fd buf d n c l) = struct_loop decs fd' buf d n c l.
Proof.
  intros He n. induction n as [|n IH]; intros c l; [reflexivity|]. cbn [c_struct_loop struct_loop]. cbn zeta.
  destruct (negb (has_byte buf c)); [reflexivity|].
  destruct (decode_string_bytes buf c) as [[key c1]|e|p|]; try reflexivity. destruct (negb _); [reflexivity|].
  destruct (find_field _ decs) as [x|].
  - destruct (nth_error l (fd_idx x)) as [v0|]; [|reflexivity].
    rewrite <- He. destruct (fd x c1 v0) as [[v r] w]. cbn [drop].
    destruct r as [c2|e|p|]; try reflexivity. rewrite drop_then.
    destruct (negb _); [reflexivity|]. destruct (rd buf c2) as [b|e|p|]; try reflexivity.
    destruct (b =b "}"%byte); [reflexivity|]. apply IH.
  - destruct (skip_value buf c1 d) as [c2|e|p|]; try reflexivity.
    destruct (negb _); [reflexivity|]. destruct (rd buf c2) as [b|e|p|]; try reflexivity.
    destruct (b =b "}"%byte); [reflexivity|]. apply IH.
Qed.
Lemma c_struct_same decs fd fd' buf c d rv : (forall x c v, drop (fd x c v) = fd' x c v) ->
  drop (c_struct decs fd buf c d rv) = dec_struct decs fd' buf c d rv.
Proof.
  intros He. unfold c_struct, dec_struct. destruct (struct_header buf c d) as [[c'|c']|e|p|]; try reflexivity.
  destruct rv; try reflexivity. destruct (negb _); [reflexivity|].
  destruct (rd buf c') as [b|e|p|]; try reflexivity. destruct (b =b "}"%byte); [reflexivity|].
  rewrite <- (c_struct_loop_same decs fd fd' buf (d + 1) He). destruct (c_struct_loop _ _ _ _ _ _ _) as [[l0 r] w]. reflexivity.
Qed.
Lemma c_ptr_same E t ed ed' buf c rv : (forall c v, drop (ed c v) = ed' c v) ->
  drop (c_ptr E t ed buf c rv) = dec_ptr E t ed' buf c rv.
Proof.
  intros He. unfold c_ptr, dec_ptr. destruct (rd buf c) as [b|e|p|]; try reflexivity.
  destruct (b =b "N"%byte). { destruct (validate_null buf c); reflexivity. }
  destruct rv; try reflexivity. rewrite <- He. destruct (ed c _) as [[v r] w]. reflexivity.
Qed.

Theorem c_decode_f_same X E buf : forall fuel t c d rv,
  drop (c_decode_f X E fuel t buf c d rv) = decode_f X E fuel t buf c d rv.
Proof.
  induction fuel as [|f IH]; intros t c d rv; [reflexivity|]. cbn [c_decode_f decode_f]. cbn zeta.
  destruct (node_of E t) as [n|t0|id fs|t0|t0|n t0|kt vt| | |uk|ik| | | | |]; try (apply drop_free); try reflexivity.
  - destruct (kind_of E t0); try reflexivity; (apply c_ptr_same; intros; apply IH).
  - apply c_struct_same. intros x c0 a0. destruct (fd_str x); [|apply IH].
    destruct (node_of E (fd_ty x)); apply drop_free.
  - apply c_bytes_same. intros a0. apply c_slice_same. intros; apply IH.
  - apply c_slice_same. intros; apply IH.
  - apply c_array_same. intros; apply IH.
  - apply c_map_same; intros c0; [apply c_key_same|]. apply IH.
  - apply c_iface_any_same.
Qed.

Theorem c_unmarshal_same X E cf data t v : drop (c_unmarshal X E cf data t v) = unmarshal X E cf data (TgPtr t v).
Proof.
  unfold c_unmarshal, unmarshal. destruct data as [|b data]; [reflexivity|].
  destruct (compile_f X E cf [] t) as [u|e|p|]; try reflexivity.
  unfold decode. rewrite <- c_decode_f_same. unfold c_decode. destruct (c_decode_f _ _ _ _ _ _ _ _) as [[v' r] w]. reflexivity.
Qed.
