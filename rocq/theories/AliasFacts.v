(** The decoder of Alias.v is the decoder of Decode.v, and what it hands out
    does not overlap. *)
From Coq Require Import Strings.String Strings.Byte ZArith List Bool Lia.
From Verif Require Import Base GoTypes Strconv Tags Scan Decode Unmarshal Grammar Denote NumFacts ScanFacts SkipFacts Sound SoundT Alias SliceHead.
Import ListNotations.
Open Scope Z_scope.

Definition forget (buf : bytes) (r : ares) : dres := let '(a, c, _) := r in (seen buf a, c).
Definition forget_l (buf : bytes) (r : list aval * R Z * list grant) : list gval * R Z :=
  let '(l, c, _) := r in (map (seen buf) l, c).
Definition seen_kv (buf : bytes) (kv : gval * aval) : gval * gval := (fst kv, seen buf (snd kv)).
Definition forget_m (buf : bytes) (r : list (gval * aval) * R Z * list grant) : list (gval * gval) * R Z :=
  let '(l, c, _) := r in (map (seen_kv buf) l, c).
Definition forget_k (r : gval * R Z * list grant) : dres := let '(a, c, _) := r in (a, c).

Lemma forget_then buf w r : forget buf (a_then w r) = forget buf r.
Proof. destruct r as [[a c] w']. reflexivity. Qed.
Lemma forget_l_then buf w r : forget_l buf (a_then w r) = forget_l buf r.
Proof. destruct r as [[a c] w']. reflexivity. Qed.
Lemma forget_m_then buf w r : forget_m buf (a_then w r) = forget_m buf r.
Proof. destruct r as [[a c] w']. reflexivity. Qed.

Lemma leaf_seen buf f a : forget buf (leaf buf f a) = f (seen buf a).
Proof. unfold leaf, quiet. destruct (f (seen buf a)) as [v r]. reflexivity. Qed.

Lemma seen_leaves buf l : map (seen buf) (map ALeaf l) = l.
Proof. rewrite map_map. cbn [seen]. apply map_id. Qed.
Lemma map_update {A B} (f : A -> B) l : forall i a, map f (update l i a) = update (map f l) i (f a).
Proof. induction l as [|x l IH]; intros [|i] a; cbn; [reflexivity..|]. rewrite IH. reflexivity. Qed.
Lemma map_repeat {A B} (f : A -> B) x n : map f (repeat x n) = repeat (f x) n.
Proof. induction n as [|n IH]; cbn; [reflexivity|]. rewrite IH. reflexivity. Qed.
Lemma blen_map {A B} (f : A -> B) l : blen (map f l) = blen l.
Proof. unfold blen. rewrite map_length. reflexivity. Qed.

Lemma a_unm_seen X E n buf c d a : forget buf (a_unm X E n buf c d a) = dec_unm X E n buf c d (seen buf a).
Proof.
  unfold a_unm, dec_unm. destruct (bind _ _) as [[src cend]|e|p|]; try reflexivity. cbn zeta.
  destruct (x_unmarshal X n _ _) as [v [|]]; (destruct src as [|b src]; [reflexivity|]);
    (destruct (_ || _); [reflexivity|]); (destruct (_ && _); reflexivity).
Qed.

Lemma a_iface_seen X E buf c d a : forget buf (a_iface X E buf c d a) = dec_iface X E buf c d (seen buf a).
Proof.
  unfold a_iface. destruct a as [v| | | | | |]; try (apply leaf_seen).
  destruct v as [| | | | | | | | | |o| |]; try (apply leaf_seen).
  all: destruct o as [[T v]|]; try (apply leaf_seen).
  all: destruct T; try (apply leaf_seen). all: destruct v; try (apply leaf_seen). all: destruct o as [old|]; try (apply leaf_seen).
  all: destruct (has_unmarshal E T) as [n|] eqn:Hu; try (apply leaf_seen).
  all: unfold dec_iface; cbn [seen]; cbn zeta; rewrite Hu.
  all: destruct (bind _ _) as [[src cend]|e|p|]; try reflexivity.
  all: destruct (bytes_eqb _ _); [reflexivity|].
  all: destruct (x_unmarshal X n _ _) as [new ok]; reflexivity.
Qed.

Lemma a_key_seen X E kt buf c d : forget_k (a_key X E kt buf c d) = dec_key X E kt buf c d.
Proof.
  unfold a_key. destruct (key_node E kt) eqn:Q; try (destruct (dec_key X E kt buf c d) as [v r]; reflexivity).
  unfold dec_key. rewrite Q. cbn zeta. change (zero E kt) with (seen buf (ALeaf (zero E kt))) at 2. rewrite <- a_unm_seen.
  destruct (a_unm _ _ _ _ _ _ _) as [[a r] w]. reflexivity.
Qed.

Lemma string_view buf c : read_string buf c =
  match read_string_view buf c with ROk (w, c') => ROk (contents buf w, c') | RErr e => RErr e | RPanic p => RPanic p | RFuel => RFuel end.
Proof.
  unfold read_string, read_string_view. destruct (read_length buf c) as [[slen cend]|e|p|]; try reflexivity. cbn [bind].
  destruct (negb (has_byte buf cend)); [reflexivity|].
  destruct (rd buf cend) as [b|e|p|]; try reflexivity. cbn [bind]. destruct (negb _); [reflexivity|]. cbn zeta.
  destruct (negb (has_bytes _ _ _)); [reflexivity|].
  destruct (rd buf (cend + 1 + slen)) as [b'|e|p|]; try reflexivity. cbn [bind]. destruct (negb _); [reflexivity|].
  destruct (rd buf (cend + 1 + slen + 1)) as [b''|e|p|]; try reflexivity. cbn [bind]. destruct (negb _); [reflexivity|].
  unfold sub. destruct (_ && _); reflexivity.
Qed.
Lemma string_bytes_view buf c : decode_string_bytes buf c =
  match decode_string_view buf c with
  | ROk (Some w, c') => ROk (Some (contents buf w), c') | ROk (None, c') => ROk (None, c')
  | RErr e => RErr e | RPanic p => RPanic p | RFuel => RFuel end.
Proof.
  unfold decode_string_bytes, decode_string_view. destruct (negb _); [reflexivity|].
  destruct (rd buf c) as [b|e|p|]; try reflexivity. cbn [bind].
  destruct (b =b "N"%byte). { destruct (validate_null buf c); reflexivity. }
  destruct (_ || _); [reflexivity|]. destruct (b =b "s"%byte); [|reflexivity].
  rewrite string_view. destruct (read_string_view buf (c + 1)) as [[w c']|e|p|]; reflexivity.
Qed.

Lemma a_bytes_seen sd sd' buf c a : (forall a, forget buf (sd a) = sd' (seen buf a)) ->
  forget buf (a_bytes sd buf c a) = dec_bytes sd' buf c (seen buf a).
Proof.
  intros Hs. unfold a_bytes, dec_bytes. destruct (rd buf c) as [b|e|p|]; try reflexivity.
  destruct (b =b "a"%byte); [apply Hs|]. unfold dec_text. rewrite string_bytes_view.
  destruct (decode_string_view buf c) as [[[w|] c']|e|p|]; reflexivity.
Qed.

Lemma a_set_seen buf k v m : map (seen_kv buf) (a_set k v m) = map_set k (seen buf v) (map (seen_kv buf) m).
Proof.
  induction m as [|[k' v'] m IH]; [reflexivity|]. cbn [a_set map map_set]. unfold seen_kv at 2. cbn [fst snd].
  destruct (key_eqb k' k); cbn [map]; [reflexivity|]. rewrite IH. reflexivity.
Qed.

Lemma a_map_loop_seen buf kd vd kd' vd' : (forall c, forget_k (kd c) = kd' c) -> (forall c, forget buf (vd c) = vd' c) ->
  forall n c m, forget_m buf (a_map_loop kd vd buf n c m) = map_loop kd' vd' buf n c (map (seen_kv buf) m).
Proof.
  intros Hk Hv n. induction n as [|n IH]; intros c m; [reflexivity|]. cbn [a_map_loop map_loop].
  destruct (negb (has_byte buf c)); [reflexivity|]. rewrite <- Hk.
  destruct (kd c) as [[k kr] w]. cbn [forget_k]. destruct kr as [c1|e|p|]; try reflexivity.
  destruct (negb _); [reflexivity|]. rewrite <- Hv. destruct (vd c1) as [[v vr] w']. cbn [forget].
  destruct vr as [c2|e|p|]; try reflexivity. destruct (negb (hashable k)); [reflexivity|]. cbn zeta.
  rewrite <- a_set_seen. destruct (negb _); [reflexivity|].
  destruct (rd buf c2) as [b|e|p|]; try reflexivity. destruct (b =b "}"%byte); [reflexivity|].
  rewrite forget_m_then. apply IH.
Qed.

Lemma a_entries_seen buf a m : a_entries a = Some m ->
  exists o, seen buf a = VMap o /\ map (seen_kv buf) m = match o with None => [] | Some m => m end.
Proof.
  intros Q. destruct a as [v| | | |m'| |]; try discriminate Q; cbn in Q.
  - destruct v as [| | | | | | | |o| | | |]; try discriminate Q. destruct o as [m0|]; injection Q as <-; cbn [seen].
    + eexists. split; [reflexivity|]. cbn beta iota. rewrite map_map. unfold seen_kv. cbn [fst snd seen].
      rewrite <- (map_id m0) at 2. apply map_ext. intros []; reflexivity.
    + eexists. split; reflexivity.
  - injection Q as <-. exists (Some (map (seen_kv buf) m')). auto.
Qed.
Lemma a_entries_none buf a : a_entries a = None -> forall o, seen buf a <> VMap o.
Proof. intros Q o. destruct a as [v| | | | | |]; try discriminate Q; cbn; try discriminate. destruct v as [| | | | | | | |[]| | | |]; discriminate || discriminate Q. Qed.

Lemma a_map_seen buf kd vd kd' vd' c d a : (forall c, forget_k (kd c) = kd' c) -> (forall c, forget buf (vd c) = vd' c) ->
  forget buf (a_map kd vd buf c d a) = dec_map kd' vd' buf c d (seen buf a).
Proof.
  intros Hk Hv. unfold a_map, dec_map. destruct (map_header buf c d) as [[c'|c']|e|p|]; try reflexivity.
  destruct (a_entries a) as [m|] eqn:Q.
  - destruct (a_entries_seen buf a m Q) as (o & -> & <-). cbn zeta.
    destruct (negb _); [reflexivity|]. destruct (rd buf c') as [b|e|p|]; try reflexivity.
    destruct (b =b "}"%byte); [reflexivity|].
    rewrite <- (a_map_loop_seen buf kd vd kd' vd' Hk Hv). destruct (a_map_loop _ _ _ _ _ _) as [[m' r] w]. reflexivity.
  - pose proof (a_entries_none buf a Q) as N. destruct (seen buf a) eqn:S; cbn [forget]; rewrite ?S; try reflexivity. destruct (N o); reflexivity.
Qed.

Lemma a_slice_loop_seen X E et ed ed' buf : (forall c a, forget buf (ed c a) = ed' c (seen buf a)) ->
  forall n c l rv, forget buf (a_slice_loop X E et ed buf n c l rv) = slice_loop X E et ed' buf n c (map (seen buf) l) (seen buf rv).
Proof.
  intros He n. induction n as [|n IH]; intros c l rv; [reflexivity|]. cbn [a_slice_loop slice_loop]. cbn zeta.
  destruct (negb (has_byte buf c)); [reflexivity|].
  destruct (read_int buf c) as [[idx c1]|e|p|]; try reflexivity. destruct (negb _); [reflexivity|].
  rewrite blen_map. destruct (idx <? blen l).
  - destruct (bad_index _ _); [reflexivity|].
    replace (nth (Z.to_nat idx) (map (seen buf) l) VOther) with (seen buf (nth (Z.to_nat idx) l (ALeaf VOther)))
      by (symmetry; exact (map_nth (seen buf) l (ALeaf VOther) (Z.to_nat idx))).
    rewrite <- He. destruct (ed c1 _) as [[v r] w]. cbn [forget]. rewrite <- map_update.
    destruct r as [c2|e|p|]; try reflexivity. rewrite forget_then.
    destruct (negb _); [reflexivity|]. destruct (rd buf c2) as [b|e|p|]; try reflexivity.
    destruct (b =b "}"%byte); [reflexivity|]. apply IH.
  - destruct (_ || _); [reflexivity|]. destruct (bad_index _ _); [reflexivity|]. change (ed' c1 (zero E et)) with (ed' c1 (seen buf (ALeaf (zero E et)))). rewrite <- He.
    destruct (ed c1 _) as [[v r] w]. cbn [forget]. destruct r as [c2|e|p|]; try reflexivity. rewrite forget_then.
    change (repeat (zero E et) (Z.to_nat idx - length (map (seen buf) l))) with (repeat (seen buf (ALeaf (zero E et))) (Z.to_nat idx - length (map (seen buf) l))).
    replace (map (seen buf) l ++ repeat (seen buf (ALeaf (zero E et))) (Z.to_nat idx - length (map (seen buf) l)) ++ [seen buf v])
      with (map (seen buf) (l ++ repeat (ALeaf (zero E et)) (Z.to_nat idx - length l) ++ [v])).
    2:{ rewrite !map_app, map_repeat, map_length. reflexivity. }
    destruct (negb _); [reflexivity|]. destruct (rd buf c2) as [b|e|p|]; try reflexivity.
    destruct (b =b "}"%byte); [reflexivity|]. apply IH.
Qed.
Lemma a_slice_seen X E et ed ed' buf c d a : (forall c a, forget buf (ed c a) = ed' c (seen buf a)) ->
  forget buf (a_slice X E et ed buf c d a) = dec_slice X E et ed' buf c d (seen buf a).
Proof.
  intros He. unfold a_slice, dec_slice. destruct (slice_header buf c d) as [[c'|c'|len c']|e|p|]; try reflexivity.
  destruct (negb _); [reflexivity|]. apply (a_slice_loop_seen X E et ed ed' buf He (length buf) c' [] a).
Qed.

Lemma a_array_loop_seen ed ed' buf d : (forall c a, forget buf (ed c a) = ed' c (seen buf a)) ->
  forall n c l, forget_l buf (a_array_loop ed buf d n c l) = array_loop ed' buf d n c (map (seen buf) l).
Proof.
  intros He n. induction n as [|n IH]; intros c l; [reflexivity|]. cbn [a_array_loop array_loop]. cbn zeta.
  destruct (negb (has_byte buf c)); [reflexivity|].
  destruct (read_int buf c) as [[idx c1]|e|p|]; try reflexivity. destruct (negb _); [reflexivity|].
  rewrite blen_map. destruct (idx <? blen l).
  - destruct (bad_index _ _); [reflexivity|].
    replace (nth (Z.to_nat idx) (map (seen buf) l) VOther) with (seen buf (nth (Z.to_nat idx) l (ALeaf VOther)))
      by (symmetry; exact (map_nth (seen buf) l (ALeaf VOther) (Z.to_nat idx))).
    rewrite <- He. destruct (ed c1 _) as [[v r] w]. cbn [forget]. rewrite <- map_update.
    destruct r as [c2|e|p|]; try reflexivity. rewrite forget_l_then.
    destruct (negb _); [reflexivity|]. destruct (rd buf c2) as [b|e|p|]; try reflexivity.
    destruct (b =b "}"%byte); [reflexivity|]. apply IH.
  - destruct (skip_value buf c1 d) as [c2|e|p|]; try reflexivity.
    destruct (negb _); [reflexivity|]. destruct (rd buf c2) as [b|e|p|]; try reflexivity.
    destruct (b =b "}"%byte); [reflexivity|]. apply IH.
Qed.
Lemma a_array_seen E n et ed ed' buf c d a : (forall c a, forget buf (ed c a) = ed' c (seen buf a)) ->
  forget buf (a_array E n et ed buf c d a) = dec_array E n et ed' buf c d (seen buf a).
Proof.
  intros He. unfold a_array, dec_array. cbn zeta.
  destruct (array_header buf c d) as [[c'|c'|len c']|e|p|].
  - reflexivity.
  - cbn [forget seen]. rewrite map_repeat. reflexivity.
  - replace (repeat (zero E et) n) with (map (seen buf) (repeat (ALeaf (zero E et)) n)) by exact (map_repeat (seen buf) (ALeaf (zero E et)) n).
    rewrite <- (a_array_loop_seen ed ed' buf (d + 1) He). destruct (a_array_loop _ _ _ _ _ _) as [[l r] w]. reflexivity.
  - destruct (array_zeroed buf c d); cbn [forget seen]; rewrite ?map_repeat; reflexivity.
  - destruct (array_zeroed buf c d); cbn [forget seen]; rewrite ?map_repeat; reflexivity.
  - destruct (array_zeroed buf c d); cbn [forget seen]; rewrite ?map_repeat; reflexivity.
Qed.

Lemma a_struct_loop_seen decs fd fd' buf d : (forall x c a, forget buf (fd x c a) = fd' x c (seen buf a)) ->
  forall n c l, forget_l buf (a_struct_loop decs fd buf d n c l) = struct_loop decs fd' buf d n c (map (seen buf) l).
Proof.
  intros He n. induction n as [|n IH]; intros c l; [reflexivity|]. cbn [a_struct_loop struct_loop]. cbn zeta.
  destruct (negb (has_byte buf c)); [reflexivity|].
  destruct (decode_string_bytes buf c) as [[key c1]|e|p|]; try reflexivity. destruct (negb _); [reflexivity|].
  destruct (find_field _ decs) as [x|].
  - rewrite nth_error_map. destruct (nth_error l (fd_idx x)) as [v0|]; [|reflexivity]. cbn [option_map].
    rewrite <- He. destruct (fd x c1 v0) as [[v r] w]. cbn [forget]. rewrite <- map_update.
    destruct r as [c2|e|p|]; try reflexivity. rewrite forget_l_then.
    destruct (negb _); [reflexivity|]. destruct (rd buf c2) as [b|e|p|]; try reflexivity.
    destruct (b =b "}"%byte); [reflexivity|]. apply IH.
  - destruct (skip_value buf c1 d) as [c2|e|p|]; try reflexivity.
    destruct (negb _); [reflexivity|]. destruct (rd buf c2) as [b|e|p|]; try reflexivity.
    destruct (b =b "}"%byte); [reflexivity|]. apply IH.
Qed.
Lemma a_struct_seen decs fd fd' buf c d a : (forall x c a, forget buf (fd x c a) = fd' x c (seen buf a)) ->
  forget buf (a_struct decs fd buf c d a) = dec_struct decs fd' buf c d (seen buf a).
Proof.
  intros He. unfold a_struct, dec_struct. destruct (struct_header buf c d) as [[c'|c']|e|p|]; try reflexivity.
  destruct (a_fields a) as [vals|] eqn:Q.
  - assert (seen buf a = VStruct (map (seen buf) vals)) as S.
    { destruct a as [v| | | | | |]; try discriminate Q; [destruct v; try discriminate Q|]; injection Q as <-; cbn [seen]; [rewrite seen_leaves|]; reflexivity. }
    rewrite S. destruct (negb _); [cbn [forget]; rewrite S; reflexivity|].
    destruct (rd buf c') as [b|e|p|]; try (cbn [forget]; rewrite S; reflexivity).
    destruct (b =b "}"%byte); [cbn [forget]; rewrite S; reflexivity|].
    rewrite <- (a_struct_loop_seen decs fd fd' buf (d + 1) He). destruct (a_struct_loop _ _ _ _ _ _ _) as [[l r] w]. reflexivity.
  - cbn [forget]. destruct a as [v| | | | | |]; try discriminate Q; try reflexivity. destruct v; try discriminate Q; reflexivity.
Qed.

Lemma a_ptr_seen E t ed ed' buf c a : (forall c a, forget buf (ed c a) = ed' c (seen buf a)) ->
  forget buf (a_ptr E t ed buf c a) = dec_ptr E t ed' buf c (seen buf a).
Proof.
  intros He. unfold a_ptr, dec_ptr. destruct (rd buf c) as [b|e|p|]; try reflexivity.
  destruct (b =b "N"%byte). { destruct (validate_null buf c); reflexivity. }
  destruct (a_elem E t a) as [v0|] eqn:Q.
  - assert (exists o, seen buf a = VPtr o /\ seen buf v0 = match o with Some v => v | None => zero E t end) as (o & -> & <-).
    { destruct a as [v| | | | | |]; try discriminate Q; [destruct v as [| | | | | | | | |[]| | |]; try discriminate Q|]; injection Q as <-; cbn [seen]; eexists; split; reflexivity. }
    rewrite <- He. destruct (ed c v0) as [[v r] w]. reflexivity.
  - cbn [forget]. destruct a as [v| | | | | |]; try discriminate Q; try reflexivity.
    destruct v as [| | | | | | | | |[]| | |]; try discriminate Q; reflexivity.
Qed.

(** The two decoders agree. *)
Theorem a_decode_f_seen X E buf : forall fuel t c d a,
  forget buf (a_decode_f X E fuel t buf c d a) = decode_f X E fuel t buf c d (seen buf a).
Proof.
  induction fuel as [|f IH]; intros t c d a; [reflexivity|]. cbn [a_decode_f decode_f]. cbn zeta.
  destruct (node_of E t) as [n|t0|id fs|t0|t0|n t0|kt vt| | |uk|ik| | | | |]; try (apply leaf_seen); try reflexivity.
  - apply a_unm_seen.
  - destruct (kind_of E t0); try reflexivity; (apply a_ptr_seen; intros; apply IH).
  - apply a_struct_seen. intros x c0 a0. destruct (fd_str x); [|apply IH].
    destruct (node_of E (fd_ty x)); try (apply leaf_seen). apply a_ptr_seen. intros; apply leaf_seen.
  - apply a_bytes_seen. intros a0. apply a_slice_seen. intros; apply IH.
  - apply a_slice_seen. intros; apply IH.
  - apply a_array_seen. intros; apply IH.
  - apply a_map_seen; intros c0; [apply a_key_seen|]. rewrite IH. reflexivity.
  - apply a_iface_seen.
Qed.
