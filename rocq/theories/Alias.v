(** Memory shared by a call of Unmarshal: which parts of the decoder's input
    buffer end up in the caller's hands.  The decoder of Decode.v, once more,
    with the memory of its byte slices made explicit. *)
From Coq Require Import Strings.String Strings.Byte ZArith List Bool.
From Verif Require Import Base GoTypes Strconv Tags Scan Decode Unmarshal.
Import ListNotations.
Open Scope Z_scope.

(** A slice [buf[start : start+len]] of the input buffer. *)
Record view := View { w_start : Z; w_len : Z }.

(** The buffer is handed out in two ways: as a []byte stored in the destination
    (bytes.go:47 rv.SetBytes), or as the argument of an UnmarshalPHP method
    (unmarshal_php.go:86, interface.go:118), which may keep it. *)
Inductive grant := GStored (w : view) | GPassed (w : view).
Definition granted (g : grant) : view := match g with GStored w | GPassed w => w end.

(** The destination, with its byte slices over the buffer shown as such.
    [ALeaf v] holds nothing of the buffer: strings are copies (string.go:39),
    and so are all values in interfaces; [ALeaf] also stands for whatever the
    destination held before the call.  A slice decoded element by element has an
    array of its own (slice.go:105, 121). *)
Inductive aval :=
| ALeaf (v : gval)
| AView (w : view)
| ASlice (l : list aval)
| AArr (l : list aval)
| AMap (m : list (gval * aval))
| AStruct (l : list aval)
| APtr (v : aval).

(** The contents of a slice of the buffer. *)
Definition contents (buf : bytes) (w : view) : bytes :=
  firstn (Z.to_nat (w_len w)) (skipn (Z.to_nat (w_start w)) buf).

(** What the caller sees in the destination while the buffer holds [buf]. *)
Fixpoint seen (buf : bytes) (a : aval) : gval :=
  match a with
  | ALeaf v => v
  | AView w => vbytes (contents buf w)
  | ASlice l => VSlice (Some (map (seen buf) l))
  | AArr l => VArr (map (seen buf) l)
  | AMap m => VMap (Some (map (fun kv => (fst kv, seen buf (snd kv))) m))
  | AStruct l => VStruct (map (seen buf) l)
  | APtr v => VPtr (Some (seen buf v))
  end.

(** The byte slices over the buffer in the destination, in order. *)
Fixpoint views (a : aval) : list view :=
  match a with
  | ALeaf _ => []
  | AView w => [w]
  | ASlice l | AArr l | AStruct l => flat_map views l
  | AMap m => flat_map (fun kv => views (snd kv)) m
  | APtr v => views v
  end.

(** Access to a destination that may be from before the call. *)
Definition a_fields (a : aval) : option (list aval) :=
  match a with AStruct l => Some l | ALeaf (VStruct l) => Some (map ALeaf l) | _ => None end.
Definition a_entries (a : aval) : option (list (gval * aval)) :=
  match a with
  | AMap m => Some m
  | ALeaf (VMap None) => Some []
  | ALeaf (VMap (Some m)) => Some (map (fun kv => (fst kv, ALeaf (snd kv))) m)
  | _ => None
  end.
Definition a_elem (E : env) (t : gty) (a : aval) : option aval :=
  match a with
  | APtr v => Some v
  | ALeaf (VPtr None) => Some (ALeaf (zero E t))
  | ALeaf (VPtr (Some v)) => Some (ALeaf v)
  | _ => None
  end.
(** reflect's SetMapIndex: an existing key is kept *)
Fixpoint a_set (k : gval) (v : aval) (m : list (gval * aval)) : list (gval * aval) :=
  match m with
  | [] => [(k, v)]
  | (k', v') :: m' => if key_eqb k' k then (k', v) :: m' else (k', v') :: a_set k v m'
  end.

(** The destination afterwards, the outcome, and what was handed out on the way,
    in order. *)
Definition ares : Type := aval * R Z * list grant.
(** a decoder that hands out nothing *)
Definition quiet (r : dres) : ares := let '(v, r) := r in (ALeaf v, r, []).
Definition a_then {A B : Type} (w : list grant) (r : A * B * list grant) : A * B * list grant :=
  let '(v, c, w') := r in (v, c, w ++ w').

(** a decoder of a type that contains no byte slices *)
Definition leaf (buf : bytes) (f : gval -> dres) (a : aval) : ares := quiet (f (seen buf a)).

(** unmarshal_php.go:45-95: [buf[start:end]] itself, not a copy, is passed to the
    method (unquoteBytes changes nothing: no PHP value starts with a quote) *)
Definition a_unm (X : Ext) (E : env) (n : nat) (buf : bytes) (cursor depth : Z) (a : aval) : ares :=
  match cend <- skip_value buf cursor depth ;; src <- sub buf cursor cend ;; ROk (src, cend) with
  | ROk (src, cend) =>
      let go :=
        match x_unmarshal X n (unquoted X src) (zero E (TName n)) with
        | (v, true) => (ALeaf v, ROk cend, [GPassed (View cursor (cend - cursor))])
        | (_, false) => (a, RErr EUser, [GPassed (View cursor (cend - cursor))])
        end in
      match src with
      | [] => go
      | c :: _ =>
          if (c =b "["%byte) || (c =b "{"%byte) || (c =b "-"%byte) || is_digit c
          then (a, RErr (EType cursor), [])
          else if (c =b "N"%byte) && bytes_eqb src (bs "N;") then (ALeaf (zero E (TName n)), ROk cend, [])
          else go
      end
  | r => (a, fail r, [])
  end.

(** interface.go:134-149 with decodePHPUnmarshaler (104-122): likewise *)
Definition a_iface (X : Ext) (E : env) (buf : bytes) (cursor depth : Z) (a : aval) : ares :=
  match a with
  | ALeaf (VIface (Some (TPtr t, VPtr (Some old)))) =>
      match has_unmarshal E t with
      | Some n =>
          match cend <- skip_value buf cursor depth ;; src <- sub buf cursor cend ;; ROk (src, cend) with
          | ROk (src, cend) =>
              if bytes_eqb src (bs "N;") then (ALeaf (VIface None), ROk cend, [])
              else
                let '(new, ok) := x_unmarshal X n (unquoted X src) old in
                (ALeaf (VIface (Some (TPtr t, VPtr (Some new)))),
                 if ok then ROk cend else RErr EUser,
                 [GPassed (View cursor (cend - cursor))])
          | r => (a, fail r, [])
          end
      | None => leaf buf (dec_iface X E buf cursor depth) a
      end
  | _ => leaf buf (dec_iface X E buf cursor depth) a
  end.

(** Map keys (map.go:94-99): only an Unmarshaler is given a part of the buffer *)
Definition a_key (X : Ext) (E : env) (kt : gty) (buf : bytes) (cursor depth : Z) : gval * R Z * list grant :=
  match key_node E kt with
  | KnUnm n => let '(a, r, w) := a_unm X E n buf cursor depth (ALeaf (zero E kt)) in (seen buf a, r, w)
  | _ => let '(v, r) := dec_key X E kt buf cursor depth in (v, r, [])
  end.

(** context.go:261-288 readString once more: where the content lies *)
Definition read_string_view (buf : bytes) (cursor : Z) : R (view * Z) :=
  '(slen, cend) <- read_length buf cursor ;;
  if negb (has_byte buf cend) then RErr (ESyntax cend (WEnd "string"))
  else
    c <- rd buf cend ;;
    if negb (c =b """"%byte) then RErr (ESyntax cend (WExpected "string quoted '""'" c))
    else
      let start := cend + 1 in
      if negb (has_bytes buf start (wrap64 (slen + 2))) then RErr (ESyntax start (WEnd "string"))
      else
        let cend := start + slen in
        c <- rd buf cend ;;
        if negb (c =b """"%byte) then RErr (ESyntax cend (WExpected "string quoted '""'" c))
        else
          let cursor := cend + 1 in
          c <- rd buf cursor ;;
          if negb (c =b ";"%byte) then RErr (ESyntax cursor (WExpected "string end ';'" c))
          else
            _ <- sub buf start cend ;;                     (* line 287: buf[start:end] *)
            ROk (View start (cend - start), cursor + 1).

(** string.go:44-74 decodeByte once more *)
Definition decode_string_view (buf : bytes) (cursor : Z) : R (option view * Z) :=
  if negb (has_byte buf cursor) then RErr (ESyntax cursor (WEnd "string"))
  else
    c <- rd buf cursor ;;
    if c =b "N"%byte then _ <- validate_null buf cursor ;; ROk (None, cursor + 2)
    else if (c =b "b"%byte) || (c =b "d"%byte) || (c =b "i"%byte) then RErr (EType cursor)
    else if c =b "s"%byte then
      '(w, cend) <- read_string_view buf (cursor + 1) ;; ROk (Some w, cend)
    else RErr (ESyntax cursor (WValue c)).

(** bytes.go:38-67 bytesDecoder.Decode: the destination is made to point into
    the buffer *)
Definition a_bytes (sd : aval -> ares) (buf : bytes) (cursor : Z) (a : aval) : ares :=
  match rd buf cursor with
  | ROk c =>
      if c =b "a"%byte then sd a
      else
        match decode_string_view buf cursor with
        | ROk (None, c) => (a, ROk c, [])
        | ROk (Some w, c) => (AView w, ROk c, [GStored w])
        | r => (a, fail r, [])
        end
  | r => (a, fail r, [])
  end.

(** map.go:90-118 *)
Fixpoint a_map_loop (kd : Z -> gval * R Z * list grant) (vd : Z -> ares) (buf : bytes) (n : nat) (cursor : Z)
    (m : list (gval * aval)) : list (gval * aval) * R Z * list grant :=
  match n with
  | O => (m, RFuel, [])
  | S n' =>
      if negb (has_byte buf cursor) then (m, RErr (ESyntax cursor (WEnd "map")), [])
      else
        let '(k, kr, w) := kd cursor in
        match kr with
        | ROk c1 =>
            if negb (has_byte buf c1) then (m, RErr (ESyntax c1 (WEnd "map value")), w)
            else
              let '(v, vr, w') := vd c1 in
              match vr with
              | ROk c2 =>
                  if negb (hashable k) then (m, RPanic PUnhashable, w ++ w')
                  else
                    let m' := a_set k v m in
                    if negb (has_byte buf c2) then (m', RErr (ESyntax c2 (WEnd "map")), w ++ w')
                    else
                      match rd buf c2 with
                      | ROk b => if b =b "}"%byte then (m', ROk (c2 + 1), w ++ w')
                                 else a_then (w ++ w') (a_map_loop kd vd buf n' c2 m')
                      | r => (m', fail r, w ++ w')
                      end
              | r => (m, fail r, w ++ w')
              end
        | r => (m, fail r, w)
        end
  end.

(** map.go:31-119 *)
Definition a_map (kd : Z -> gval * R Z * list grant) (vd : Z -> ares) (buf : bytes) (cursor depth : Z) (a : aval) : ares :=
  match map_header buf cursor depth with
  | ROk (HNull c) => (ALeaf (VMap None), ROk c, [])
  | ROk (HBody c) =>
      match a_entries a with
      | Some m =>
          if negb (has_byte buf c) then (AMap m, RErr (ESyntax c (WEnd "map")), [])
          else
            match rd buf c with
            | ROk b =>
                if b =b "}"%byte then (AMap m, ROk (c + 1), [])
                else let '(m', r, w) := a_map_loop kd vd buf (length buf) c m in (AMap m', r, w)
            | r => (AMap m, fail r, [])
            end
      | None => (a, RPanic PReflect, [])
      end
  | r => (a, fail r, [])
  end.

(** slice.go:107-142 *)
Fixpoint a_slice_loop (X : Ext) (E : env) (et : gty) (ed : Z -> aval -> ares) (buf : bytes)
    (n : nat) (cursor : Z) (slice : list aval) (rv : aval) : ares :=
  match n with
  | O => (rv, RFuel, [])
  | S n' =>
      let continue (slice' : list aval) (c : Z) : ares :=
        let rv' := ASlice slice' in
        if negb (has_byte buf c) then (rv', RErr (ESyntax c (WEnd "array")), [])
        else
          match rd buf c with
          | ROk b => if b =b "}"%byte then (rv', ROk (c + 1), [])
                     else a_slice_loop X E et ed buf n' c slice' rv'
          | r => (rv', fail r, [])
          end in
      if negb (has_byte buf cursor) then (rv, RErr (ESyntax cursor (WEnd "array")), [])
      else
        match read_int buf cursor with
        | ROk (idx, c) =>
            if negb (has_byte buf c) then (rv, RErr (ESyntax c (WEnd "array value")), [])
            else if idx <? blen slice then
              if bad_index idx (blen slice) then (rv, RPanic PIndex, []) else
              let '(v, r, w) := ed c (nth (Z.to_nat idx) slice (ALeaf VOther)) in
              let slice' := update slice (Z.to_nat idx) v in
              match r with
              | ROk c' => a_then w (continue slice' c')
              | r => (ASlice slice', fail r, w)
              end
            else
              let newlen := wrap64 (idx + 1) in
              if (newlen <? 0) || negb (x_slots X et newlen) then (rv, RPanic PAlloc, [])
              else if bad_index idx newlen then (rv, RPanic PIndex, [])
              else
                let '(v, r, w) := ed c (ALeaf (zero E et)) in
                match r with
                | ROk c' =>
                    a_then w (continue (slice ++ repeat (ALeaf (zero E et)) (Z.to_nat idx - length slice) ++ [v]) c')
                | r => (rv, fail r, w)
                end
        | r => (rv, fail r, [])
        end
  end.

(** slice.go:51-148 *)
Definition a_slice (X : Ext) (E : env) (et : gty) (ed : Z -> aval -> ares)
    (buf : bytes) (cursor depth : Z) (a : aval) : ares :=
  match slice_header buf cursor depth with
  | ROk (AhNull c) => (ALeaf (VSlice None), ROk c, [])
  | ROk (AhEmpty c) => (ALeaf (VSlice None), ROk c, [])
  | ROk (AhBody len c) =>
      if negb (x_slots X et len) then (a, RPanic PAlloc, [])
      else a_slice_loop X E et ed buf (length buf) c [] a
  | r => (a, fail r, [])
  end.

(** array.go:87-123 *)
Fixpoint a_array_loop (ed : Z -> aval -> ares) (buf : bytes) (depth : Z)
    (n : nat) (cursor : Z) (arr : list aval) : list aval * R Z * list grant :=
  match n with
  | O => (arr, RFuel, [])
  | S n' =>
      let continue (arr' : list aval) (c : Z) : list aval * R Z * list grant :=
        if negb (has_byte buf c) then (arr', RErr (ESyntax c (WEnd "array")), [])
        else
          match rd buf c with
          | ROk b => if b =b "}"%byte then (arr', ROk (c + 1), [])
                     else a_array_loop ed buf depth n' c arr'
          | r => (arr', fail r, [])
          end in
      if negb (has_byte buf cursor) then (arr, RErr (ESyntax cursor (WEnd "array")), [])
      else
        match read_int buf cursor with
        | ROk (idx, c) =>
            if negb (has_byte buf c) then (arr, RErr (ESyntax c (WEnd "array value")), [])
            else if idx <? blen arr then
              if bad_index idx (blen arr) then (arr, RPanic PIndex, []) else
              let '(v, r, w) := ed c (nth (Z.to_nat idx) arr (ALeaf VOther)) in
              let arr' := update arr (Z.to_nat idx) v in
              match r with
              | ROk c' => a_then w (continue arr' c')
              | r => (arr', fail r, w)
              end
            else
              match skip_value buf c depth with
              | ROk c' => continue arr c'
              | r => (arr, fail r, [])
              end
        | r => (arr, fail r, [])
        end
  end.

(** array.go:32-127 *)
Definition a_array (E : env) (n : nat) (et : gty) (ed : Z -> aval -> ares)
    (buf : bytes) (cursor depth : Z) (a : aval) : ares :=
  let z := repeat (ALeaf (zero E et)) n in
  let a0 := if array_zeroed buf cursor depth then AArr z else a in
  match array_header buf cursor depth with
  | ROk (AhNull c) => (a, ROk c, [])
  | ROk (AhEmpty c) => (AArr z, ROk c, [])
  | ROk (AhBody _ c) =>
      let '(l, r, w) := a_array_loop ed buf (depth + 1) (length buf) c z in (AArr l, r, w)
  | r => (a0, fail r, [])
  end.

(** struct.go:107-146 *)
Fixpoint a_struct_loop (decs : list fdec) (fd : fdec -> Z -> aval -> ares) (buf : bytes) (depth : Z)
    (n : nat) (cursor : Z) (vals : list aval) : list aval * R Z * list grant :=
  match n with
  | O => (vals, RFuel, [])
  | S n' =>
      let continue (vals' : list aval) (c : Z) : list aval * R Z * list grant :=
        if negb (has_byte buf c) then (vals', RErr (ESyntax c (WEnd "object")), [])
        else
          match rd buf c with
          | ROk b => if b =b "}"%byte then (vals', ROk (c + 1), [])
                     else a_struct_loop decs fd buf depth n' c vals'
          | r => (vals', fail r, [])
          end in
      if negb (has_byte buf cursor) then (vals, RErr (ESyntax cursor (WEnd "object")), [])
      else
        match decode_string_bytes buf cursor with
        | ROk (key, c) =>
            if negb (has_byte buf c) then (vals, RErr (ESyntax c (WEnd "object value")), [])
            else
              match find_field (match key with Some k => k | None => [] end) decs with
              | Some d =>
                  match nth_error vals (fd_idx d) with
                  | None => (vals, RPanic PReflect, [])
                  | Some v0 =>
                      let '(v, r, w) := fd d c v0 in
                      let vals' := update vals (fd_idx d) v in
                      match r with
                      | ROk c' => a_then w (continue vals' c')
                      | r => (vals', fail r, w)
                      end
                  end
              | None =>
                  match skip_value buf c depth with
                  | ROk c' => continue vals c'
                  | r => (vals, fail r, [])
                  end
              end
        | r => (vals, fail r, [])
        end
  end.

(** struct.go:49-147 *)
Definition a_struct (decs : list fdec) (fd : fdec -> Z -> aval -> ares)
    (buf : bytes) (cursor depth : Z) (a : aval) : ares :=
  match struct_header buf cursor depth with
  | ROk (HNull c) => (a, ROk c, [])
  | ROk (HBody c) =>
      match a_fields a with
      | Some vals =>
          if negb (has_byte buf c) then (a, RErr (ESyntax c (WEnd "object")), [])
          else
            match rd buf c with
            | ROk b =>
                if b =b "}"%byte then (a, ROk (c + 1), [])
                else
                  let '(l, r, w) := a_struct_loop decs fd buf (depth + 1) (length buf) c vals in
                  (AStruct l, r, w)
            | r => (a, fail r, [])
            end
      | None => (a, RPanic PReflect, [])
      end
  | r => (a, fail r, [])
  end.

(** ptr.go:30-53 *)
Definition a_ptr (E : env) (t : gty) (ed : Z -> aval -> ares) (buf : bytes) (cursor : Z) (a : aval) : ares :=
  match rd buf cursor with
  | ROk c =>
      if c =b "N"%byte then
        match validate_null buf cursor with
        | ROk _ => (ALeaf (VPtr None), ROk (cursor + 2), [])
        | r => (a, fail r, [])
        end
      else
        match a_elem E t a with
        | Some v0 => let '(v, r, w) := ed cursor v0 in (APtr v, r, w)
        | None => (a, RPanic PReflect, [])
        end
  | r => (a, fail r, [])
  end.

(** Decode of the decoder for type [t] (Decode.v: decode_f) *)
Fixpoint a_decode_f (X : Ext) (E : env) (fuel : nat) (t : gty) (buf : bytes) (cursor depth : Z)
    (a : aval) {struct fuel} : ares :=
  match fuel with
  | O => (a, RFuel, [])
  | S f =>
      let elem et := fun c v => a_decode_f X E f et buf c (depth + 1) v in
      match node_of E t with
      | NUnm n => a_unm X E n buf cursor depth a
      | NBool => leaf buf (dec_bool buf cursor) a
      | NInt k => leaf buf (dec_int k buf cursor) a
      | NUint k => leaf buf (dec_uint k buf cursor) a
      | NF32 => leaf buf (dec_float X true buf cursor) a
      | NF64 => leaf buf (dec_float X false buf cursor) a
      | NString => leaf buf (dec_string buf cursor) a
      | NAny => leaf buf (dec_iface_any X buf cursor depth) a
      | NIface => a_iface X E buf cursor depth a
      | NBytes et => a_bytes (a_slice X E et (elem et) buf cursor depth) buf cursor a
      | NSlice et => a_slice X E et (elem et) buf cursor depth a
      | NArray n et => a_array E n et (elem et) buf cursor depth a
      | NMap kt vt =>
          a_map (fun c => a_key X E kt buf c (depth + 1))
                (fun c => a_decode_f X E f vt buf c (depth + 1) (ALeaf (zero E vt)))
                buf cursor depth a
      | NStruct _ fs =>
          a_struct (field_decs X E 0 fs)
            (fun d c v =>
               if fd_str d then
                 match node_of E (fd_ty d) with
                 | NPtr t' => a_ptr E t' (fun c v => leaf buf (dec_wrapped X (node_of E t') buf c) v) buf c v
                 | nd => leaf buf (dec_wrapped X nd buf c) v
                 end
               else elem (fd_ty d) c v)
            buf cursor depth a
      | NPtr t' =>
          match kind_of E t' with
          | KPtr _ => (a, RErr (EUnsupportedType t), [])
          | _ => a_ptr E t' (fun c v => a_decode_f X E f t' buf c depth v) buf cursor a
          end
      | NInvalid => (a, RErr (EType cursor), [])
      end
  end.

Definition a_decode (X : Ext) (E : env) (t : gty) (buf : bytes) (cursor depth : Z) (a : aval) : ares :=
  a_decode_f X E (decode_fuel buf) t buf cursor depth a.

(** ** Unmarshal and the memory around it *)

(** The byte arrays of the program; a []byte is a piece of one of them, from
    [s_start], [s_len] bytes long, with room for [s_cap] bytes. *)
Definition arrays : Type := list bytes.
Record bslice := BSlice { s_array : nat; s_start : Z; s_len : Z; s_cap : Z }.
Definition array_of (M : arrays) (s : bslice) : bytes := nth (s_array s) M [].
Definition slice_read (M : arrays) (s : bslice) : bytes :=
  contents (array_of M s) (View (s_start s) (s_len s)).

(** unmarshal.go:28-52 Unmarshal of [data] into a *t that points to [v].
    src := make([]byte, len(data)); copy(src, data) (37-38): a new array, which
    becomes the context's buffer.  The result is the memory afterwards, the
    destination (its byte slices over array [length M]), the outcome and what was
    handed out. *)
Definition a_unmarshal (X : Ext) (E : env) (cfuel : nat) (M : arrays) (data : bslice) (t : gty) (v : gval)
    : arrays * aval * R unit * list grant :=
  let src := slice_read M data in
  match src with
  | [] => (M, ALeaf v, RErr EEmpty, [])
  | _ =>
      match compile_f X E cfuel [] t with
      | ROk _ =>
          let '(a, r, w) := a_decode X E t src 0 0 (ALeaf v) in
          (M ++ [src], a, c <- r ;; validate_end src c, w)
      | r => (M ++ [src], ALeaf v, r, [])
      end
  end.

(** The slice a view stands for.  buf[start:end] keeps the rest of the array as
    its capacity (Go: the capacity of a[low:high] is cap(a) - low), and
    make([]byte, n) has capacity n. *)
Definition slice_of (o : nat) (src : bytes) (w : view) : bslice :=
  BSlice o (w_start w) (w_len w) (blen src - w_start w).
