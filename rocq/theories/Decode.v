(** internal/decoder: the Decode methods, fused with the dispatch of
    compile.go (a decoder object is determined by its type, so decoding is
    written as a function of the type). *)
From Coq Require Import Strings.String Strings.Byte ZArith List Bool Floats.SpecFloat.
From Verif Require Import Base GoTypes Strconv Tags Scan.
Import ListNotations.
Open Scope Z_scope.

(** ** Dispatch (compile.go) *)

(** Which decoder compile.go:55-110 builds for a type. *)
Inductive node :=
| NUnm (n : nat) | NPtr (t : gty) | NStruct (id : nat) (fs : list field) | NBytes (t : gty)
| NSlice (t : gty) | NArray (n : nat) (t : gty) | NMap (k v : gty) | NAny | NIface
| NUint (k : ukind) | NInt (k : ikind) | NString | NBool | NF32 | NF64 | NInvalid.

(** compile.go:55-110 compile *)
Definition node_of (E : env) (t : gty) : node :=
  match has_unmarshal E t with
  | Some n => NUnm n
  | None =>
      match kind_of E t with
      | KPtr t' => NPtr t'
      | KStruct id fs => NStruct id fs
      | KSlice t' => match kind_of E t' with KUint U8 => NBytes t' | _ => NSlice t' end
      | KArray n t' => NArray n t'
      | KMap k v => NMap k v
      | KAny => NAny
      | KIface _ => NIface
      | KUint k => NUint k
      | KInt k => NInt k
      | KString => NString
      | KBool => NBool
      | KF32 => NF32
      | KF64 => NF64
      | KOther => NInvalid
      end
  end.

(** Which decoder compile.go:132-156 compileMapKey builds.  [KnPtr t]: the
    decoder of the pointee, applied to a key of pointer kind. *)
Inductive knode :=
| KnUnm (n : nat) | KnString | KnBool | KnInt (k : ikind) | KnUint (k : ukind)
| KnAny | KnIface | KnPtr (t : node) | KnInvalid.

Definition key_node (E : env) (t : gty) : knode :=
  match has_unmarshal E t with
  | Some n => KnUnm n
  | None =>
      match kind_of E t with
      | KString => KnString
      | _ =>
          match node_of E t with
          | NString => KnString
          | NAny => KnAny
          | NIface => KnIface
          | NBool => KnBool
          | NInt k => KnInt k
          | NUint k => KnUint k
          | NPtr t' =>
              match node_of E t' with
              | (NString | NAny | NIface | NBool | NInt _ | NUint _) as d => KnPtr d
              | _ => KnInvalid
              end
          | _ => KnInvalid
          end
      end
  end.

(** compile.go:112-130 isStringTagSupportedType *)
Definition string_tag_supported (E : env) (t : gty) : bool :=
  match has_unmarshal E t with
  | Some _ => false
  | None =>
      match kind_of E t with
      | KMap _ _ | KSlice _ | KArray _ _ | KStruct _ _ | KAny | KIface _ => false
      | _ => true
      end
  end.

(** A struct decoder's entry (struct.go:9-14 structFieldSet). *)
Record fdec := FDec { fd_key : bytes; fd_idx : nat; fd_ty : gty; fd_str : bool }.

(** compile.go:268-310: the field sets, in field order.  compile.go:296-301:
    the key is never empty-named when the tag gives one. *)
Fixpoint field_decs (X : Ext) (E : env) (i : nat) (fs : list field) : list fdec :=
  match fs with
  | [] => []
  | f :: fs' =>
      if is_ignored f then field_decs X E (S i) fs'
      else
        let t := tag_of X f in
        FDec (match tag_key t with [] => f_name f | k => k end) i (f_ty f)
             (tag_string t && string_tag_supported E (f_ty f))
          :: field_decs X E (S i) fs'
  end.

Definition find_field (key : bytes) (l : list fdec) : option fdec :=
  find (fun d => bytes_eqb (fd_key d) key) l.

(** ** Decoding *)

(** A decoder returns the new content of the destination (also on error) and
    the outcome. *)
Definition dres : Type := gval * R Z.

Definition fail {A B} (r : R A) : R B :=
  match r with ROk _ => RFuel | RErr e => RErr e | RPanic p => RPanic p | RFuel => RFuel end.

(** string.go:44-74 stringDecoder.decodeByte; None is nil (null) *)
Definition decode_string_bytes (buf : bytes) (cursor : Z) : R (option bytes * Z) :=
  if negb (has_byte buf cursor) then RErr (ESyntax cursor (WEnd "string"))
  else
    c <- rd buf cursor ;;
    if c =b "N"%byte then _ <- validate_null buf cursor ;; ROk (None, cursor + 2)
    else if (c =b "b"%byte) || (c =b "d"%byte) || (c =b "i"%byte) then RErr (EType cursor)
    else if c =b "s"%byte then
      '(s, cend) <- read_string buf (cursor + 1) ;; ROk (Some s, cend)
    else RErr (ESyntax cursor (WValue c)).

(** int.go:111-122 decodeByte; uint.go:39-50 decodeBytes *)
Definition decode_int_bytes (buf : bytes) (cursor : Z) : R (option bytes * Z) :=
  if negb (has_byte buf cursor) then RErr (ESyntax cursor (WEnd "integer"))
  else
    c <- rd buf cursor ;;
    if c =b "N"%byte then _ <- validate_null buf cursor ;; ROk (None, cursor + 2)
    else '(s, cend) <- read_integer_bytes buf cursor ;; ROk (Some s, cend).

(** float.go:20-37 decodeByte *)
Definition decode_float_bytes (buf : bytes) (cursor : Z) : R (option bytes * Z) :=
  if negb (has_byte buf cursor) then RErr (ESyntax cursor (WEnd "float"))
  else
    c <- rd buf cursor ;;
    if c =b "N"%byte then _ <- validate_null buf cursor ;; ROk (None, cursor + 2)
    else if c =b "d"%byte then '(s, cend) <- read_float_bytes buf cursor ;; ROk (Some s, cend)
    else RErr (ESyntax cursor (WExpected "float start with 'd' or 'N'" c)).

(** int.go:137-150 processBytes; [rv.OverflowInt] compares with the range of
    the destination's width *)
Definition process_int (k : ikind) (b : bytes) (cursor : Z) (rv : gval) : dres :=
  match parse_int64 b with
  | None => (rv, RErr (EType cursor))
  | Some z =>
      if (z <? - 2 ^ (ibits k - 1)) || (2 ^ (ibits k - 1) - 1 <? z) then (rv, RErr (EOverflow (OvInt z k)))
      else (VInt z, ROk cursor)
  end.

(** uint.go:65-78 processBytes *)
Definition process_uint (k : ukind) (b : bytes) (cursor : Z) (rv : gval) : dres :=
  match parse_uint64 b with
  | None => (rv, RErr (EType cursor))
  | Some z =>
      if 2 ^ ubits k - 1 <? z then (rv, RErr (EOverflow (OvUint z k)))
      else (VUint z, ROk cursor)
  end.

(** float.go:55-64: the text of a float *)
Definition parse_float (X : Ext) (b : bytes) : option spec_float :=
  if bytes_eqb b (bs "INF") then Some (S754_infinity false)
  else if bytes_eqb b (bs "-INF") then Some (S754_infinity true)
  else if bytes_eqb b (bs "NAN") then Some S754_nan
  else x_parse X b.

(** float.go:52-76 processBytes; [is32] is the destination's kind *)
Definition process_float (X : Ext) (is32 : bool) (b : bytes) (cursor : Z) (rv : gval) : dres :=
  match parse_float X b with
  | None => (rv, RErr (ESyntax cursor (WFloat b)))
  | Some f =>
      if is32 then
        if overflow_f32 f then (rv, RErr (EOverflow (OvFloat f))) else (VF32 (f32_of_f64 f), ROk cursor)
      else (VF64 f, ROk cursor)
  end.

(** The shape of intDecoder/uintDecoder/floatDecoder/stringDecoder.Decode
    (int.go:124-135, uint.go:52-63, float.go:39-50, string.go:31-42): read the
    text, keep the destination on null, else process it. *)
Definition dec_text (rd_text : R (option bytes * Z)) (process : bytes -> Z -> gval -> dres)
    (rv : gval) : dres :=
  match rd_text with
  | ROk (None, c) => (rv, ROk c)
  | ROk (Some b, c) => process b c rv
  | r => (rv, fail r)
  end.

Definition dec_int (k : ikind) (buf : bytes) (cursor : Z) (rv : gval) : dres :=
  dec_text (decode_int_bytes buf cursor) (process_int k) rv.
Definition dec_uint (k : ukind) (buf : bytes) (cursor : Z) (rv : gval) : dres :=
  dec_text (decode_int_bytes buf cursor) (process_uint k) rv.
Definition dec_float (X : Ext) (is32 : bool) (buf : bytes) (cursor : Z) (rv : gval) : dres :=
  dec_text (decode_float_bytes buf cursor) (process_float X is32) rv.
Definition dec_string (buf : bytes) (cursor : Z) (rv : gval) : dres :=
  dec_text (decode_string_bytes buf cursor) (fun b c _ => (VStr b, ROk c)) rv.

(** bool.go:18-41 boolDecoder.Decode *)
Definition dec_bool (buf : bytes) (cursor : Z) (rv : gval) : dres :=
  if negb (has_byte buf cursor) then (rv, RErr (ESyntax cursor (WEnd "bool")))
  else
    match rd buf cursor with
    | ROk c =>
        if c =b "b"%byte then
          match read_bool buf cursor with
          | ROk v => (VBool v, ROk (cursor + 4))
          | r => (rv, fail r)
          end
        else if c =b "N"%byte then
          match validate_null buf cursor with
          | ROk _ => (rv, ROk (cursor + 2))
          | r => (rv, fail r)
          end
        else (rv, RErr (ESyntax cursor (WEnd "bool")))
    | r => (rv, fail r)
    end.

(** *** Maps *)

(** What a container header turned out to be: null, or a body whose first byte
    after '{' is at the cursor. *)
Inductive hdr := HNull (c : Z) | HBody (c : Z).

(** map.go:33-75 (up to and including the '{'); [depth] is the decoder's
    argument, before depth++. *)
Definition map_header (buf : bytes) (cursor depth : Z) : R hdr :=
  if negb (has_byte buf cursor) then RErr (ESyntax cursor (WEnd "map"))
  else
    c <- rd buf cursor ;;
    if max_depth <? depth + 1 then RErr (ESyntax cursor (WDepth c))
    else if c =b "N"%byte then
      _ <- validate_null buf cursor ;; ROk (HNull (cursor + 2))
    else
      cur <- (if c =b "O"%byte then cend <- skip_class_name buf cursor ;; ROk (cend + 1)
              else if c =b "a"%byte then ROk (cursor + 1)
              else RErr (ESyntax cursor (WStart "map" c))) ;;
      '(_, cend) <- read_length buf cur ;;
      if negb (has_byte buf cend) then RErr (ESyntax cend (WEnd "map"))
      else
        c <- rd buf cend ;;
        if negb (c =b "{"%byte) then RErr (ESyntax cend (WExpected "{ character for map value" c))
        else ROk (HBody (cend + 1)).

(** map.go:90-118: the entry loop.  [kd]/[vd] decode a key/value at a cursor
    into a fresh zero value; [n] bounds the iterations. *)
Fixpoint map_loop (kd vd : Z -> dres) (buf : bytes) (n : nat) (cursor : Z)
    (m : list (gval * gval)) : list (gval * gval) * R Z :=
  match n with
  | O => (m, RFuel)
  | S n' =>
      if negb (has_byte buf cursor) then (m, RErr (ESyntax cursor (WEnd "map")))
      else
        let '(k, kr) := kd cursor in
        match kr with
        | ROk c1 =>
            if negb (has_byte buf c1) then (m, RErr (ESyntax c1 (WEnd "map value")))
            else
              let '(v, vr) := vd c1 in
              match vr with
              | ROk c2 =>
                  if negb (hashable k) then (m, RPanic PUnhashable)
                  else
                    let m' := map_set k v m in
                    if negb (has_byte buf c2) then (m', RErr (ESyntax c2 (WEnd "map")))
                    else
                      match rd buf c2 with
                      | ROk b => if b =b "}"%byte then (m', ROk (c2 + 1))
                                 else map_loop kd vd buf n' c2 m'
                      | r => (m', fail r)
                      end
              | r => (m, fail r)
              end
        | r => (m, fail r)
        end
  end.

(** map.go:31-119 mapDecoder.Decode; MakeMapWithSize (line 78) never panics and
    its size hint is not modelled *)
Definition dec_map (kd vd : Z -> dres) (buf : bytes) (cursor depth : Z) (rv : gval) : dres :=
  match map_header buf cursor depth with
  | ROk (HNull c) => (VMap None, ROk c)
  | ROk (HBody c) =>
      match rv with
      | VMap o =>
          let m := match o with None => [] | Some m => m end in
          if negb (has_byte buf c) then (VMap (Some m), RErr (ESyntax c (WEnd "map")))
          else
            match rd buf c with
            | ROk b =>
                if b =b "}"%byte then (VMap (Some m), ROk (c + 1))
                else let '(m', r) := map_loop kd vd buf (length buf) c m in (VMap (Some m'), r)
            | r => (VMap (Some m), fail r)
            end
      | _ => (rv, RPanic PReflect)
      end
  | r => (rv, fail r)
  end.

(** *** any *)

(** interface.go:247-273 mapKeyDecoder.Decode *)
Definition dec_any_key (buf : bytes) (cursor : Z) : dres :=
  match rd buf cursor with
  | ROk c =>
      if c =b "s"%byte then
        match dec_string buf cursor (VStr []) with
        | (v, ROk c') => (VIface (Some (TString, v)), ROk c')
        | (_, r) => (VIface None, r)
        end
      else if c =b "i"%byte then
        match dec_int I64 buf cursor (VInt 0) with
        | (v, ROk c') => (VIface (Some (TInt I64, v)), ROk c')
        | (_, r) => (VIface None, r)
        end
      else (VIface None, RErr (ESyntax cursor (WExpected "array key" c)))
  | r => (VIface None, fail r)
  end.

(** interface.go:173-240 decodeEmptyInterface: new dynamic type and value *)
Fixpoint dec_any_f (X : Ext) (fuel : nat) (buf : bytes) (cursor depth : Z)
    : R (option (gty * gval) * Z) :=
  match fuel with
  | O => RFuel
  | S f =>
      let vd c : dres :=
        match dec_any_f X f buf c (depth + 1) with
        | ROk (o, c') => (VIface o, ROk c')
        | r => (VIface None, fail r)
        end in
      let wrap (t : gty) (r : dres) : R (option (gty * gval) * Z) :=
        match r with
        | (v, ROk c) => ROk (Some (t, v), c)
        | (_, r) => fail r
        end in
      c <- rd buf cursor ;;
      if c =b "O"%byte then
        wrap (TMap TString TAny)
             (dec_map (fun c => dec_string buf c (VStr [])) vd buf cursor depth (VMap None))
      else if c =b "a"%byte then
        wrap (TMap TAny TAny)
             (dec_map (fun c => dec_any_key buf c) vd buf cursor depth (VMap None))
      else if c =b "d"%byte then
        wrap TF64 (dec_float X false buf cursor (VF64 (S754_zero false)))
      else if c =b "s"%byte then
        '(s, cend) <- read_string buf (cursor + 1) ;; ROk (Some (TString, VStr s), cend)
      else if c =b "i"%byte then wrap (TInt I64) (dec_int I64 buf cursor (VInt 0))
      else if c =b "b"%byte then
        v <- read_bool buf cursor ;; ROk (Some (TBool, VBool v), cursor + 4)
      else if c =b "N"%byte then
        _ <- validate_null buf cursor ;; ROk (None, cursor + 2)
      else RErr (ESyntax cursor (WValue c))
  end.

Definition dec_any (X : Ext) (buf : bytes) (cursor depth : Z) : R (option (gty * gval) * Z) :=
  dec_any_f X (S (length buf)) buf cursor depth.

(** decodeEmptyInterface on a destination: set on success only *)
Definition dec_iface_any (X : Ext) (buf : bytes) (cursor depth : Z) (rv : gval) : dres :=
  match dec_any X buf cursor depth with
  | ROk (o, c) => (VIface o, ROk c)
  | r => (rv, fail r)
  end.

(** *** Custom Unmarshalers *)

(** unmarshal_php.go:98-99: the guard of unquoteBytes; behind it, [x_unquote] *)
Definition unquote (X : Ext) (s : bytes) : option bytes :=
  match s with
  | c :: _ =>
      if (2 <=? blen s) && (c =b """"%byte) && (last s c =b """"%byte)
      then x_unquote X s else None
  | [] => None
  end.

Definition unquoted (X : Ext) (s : bytes) : bytes :=
  match unquote X s with Some s' => s' | None => s end.

(** unmarshal_php.go:45-95 unmarshalPHPDecoder.Decode for declared type [n] *)
Definition dec_unm (X : Ext) (E : env) (n : nat) (buf : bytes) (cursor depth : Z) (rv : gval) : dres :=
  match cend <- skip_value buf cursor depth ;; src <- sub buf cursor cend ;; ROk (src, cend) with
  | ROk (src, cend) =>
      let go := 
        match x_unmarshal X n (unquoted X src) (zero E (TName n)) with
        | (v, true) => (v, ROk cend)
        | (_, false) => (rv, RErr EUser)
        end in
      match src with
      | [] => go
      | c :: _ =>
          if (c =b "["%byte) || (c =b "{"%byte) || (c =b "-"%byte) || is_digit c
          then (rv, RErr (EType cursor))
          else if (c =b "N"%byte) && bytes_eqb src (bs "N;") then (zero E (TName n), ROk cend)
          else go
      end
  | r => (rv, fail r)
  end.

(** interface.go:134-149 Decode for an interface type with methods, with
    decodePHPUnmarshaler (interface.go:104-122).  The dynamic value implements
    Unmarshaler when it is a pointer to a declared type with UnmarshalPHP.
    Simplified: a declared type whose UnmarshalPHP has a value receiver also
    implements it when the interface holds the value itself and no pointer; such
    values are treated here like those that do not implement it.  A nil pointer
    in the interface is a panic here; in Go a method with a pointer receiver is
    called with nil, and what happens is up to it.
    (Lines 151-170 are for NumMethod() = 0 resp. unreachable.) *)
Definition dec_iface (X : Ext) (E : env) (buf : bytes) (cursor depth : Z) (rv : gval) : dres :=
  let plain :=
    match rd buf cursor with
    | ROk c =>
        if c =b "N"%byte then
          match validate_null buf cursor with
          | ROk _ => (VIface None, ROk (cursor + 2))
          | r => (rv, fail r)
          end
        else (rv, RErr (EType cursor))
    | r => (rv, fail r)
    end in
  match rv with
  | VIface (Some (TPtr t, VPtr p)) =>
      match has_unmarshal E t with
      | Some n =>
          match cend <- skip_value buf cursor depth ;; src <- sub buf cursor cend ;; ROk (src, cend) with
          | ROk (src, cend) =>
              if bytes_eqb src (bs "N;") then (VIface None, ROk cend)
              else
                match p with
                | None => (rv, RPanic PNilDeref)
                | Some old =>
                    let '(new, ok) := x_unmarshal X n (unquoted X src) old in
                    (VIface (Some (TPtr t, VPtr (Some new))),
                     if ok then ROk cend else RErr EUser)
                end
          | r => (rv, fail r)
          end
      | None => plain
      end
  | _ => plain
  end.

(** *** Map keys *)

(** map.go:94-99 with the decoder of [key_node]: decode into a fresh key *)
Definition dec_key (X : Ext) (E : env) (kt : gty) (buf : bytes) (cursor depth : Z) : dres :=
  let z := zero E kt in
  match key_node E kt with
  | KnUnm n => dec_unm X E n buf cursor depth z
  | KnString => dec_string buf cursor z
  | KnBool => dec_bool buf cursor z
  | KnInt k => dec_int k buf cursor z
  | KnUint k => dec_uint k buf cursor z
  | KnAny => dec_iface_any X buf cursor depth z
  | KnIface => dec_iface X E buf cursor depth z
  | KnPtr d =>
      (* the pointee's decoder runs on a key of pointer kind: null leaves it
         nil, any other accepted value ends in a reflect panic *)
      match d with
      | NString => dec_text (decode_string_bytes buf cursor) (fun _ _ rv => (rv, RPanic PReflect)) z
      | NBool => match dec_bool buf cursor VOther with
                 | (VBool _, ROk _) => (z, RPanic PReflect)
                 | (_, r) => (z, r)
                 end
      | NInt _ => dec_text (decode_int_bytes buf cursor)
                    (fun b c rv => match parse_int64 b with
                                   | None => (rv, RErr (EType c))
                                   | Some _ => (rv, RPanic PReflect) end) z
      | NUint _ => dec_text (decode_int_bytes buf cursor)
                    (fun b c rv => match parse_uint64 b with
                                   | None => (rv, RErr (EType c))
                                   | Some _ => (rv, RPanic PReflect) end) z
      | _ => match dec_any X buf cursor depth with
             | ROk (None, c) => (z, ROk c)
             | ROk (Some _, _) => (z, RPanic PReflect)
             | r => (z, fail r)
             end
      end
  | KnInvalid => (z, RErr (EType cursor))
  end.

(** *** Slices and arrays *)

(** slice.go:53-103 / array.go:34-84, up to and including the '{', and what the
    default case of array.go:124-125 and slice.go:145-146 returns: null, the empty
    array, or the body.  [what]: the word the messages have for the destination. *)
Inductive ahdr := AhNull (c : Z) | AhEmpty (c : Z) | AhBody (len c : Z).

Definition seq_header (what : string) (buf : bytes) (cursor depth : Z) : R ahdr :=
  if negb (has_byte buf cursor) then RErr (ESyntax cursor (WEnd what))
  else
    c <- rd buf cursor ;;
    if max_depth <? depth + 1 then RErr (ESyntax cursor (WDepth c))
    else if c =b "N"%byte then
      _ <- validate_null buf cursor ;; ROk (AhNull (cursor + 2))
    else if c =b "a"%byte then
      let cursor := cursor + 1 in
      if negb (has_byte buf cursor) then RErr (ESyntax cursor (WEnd "array length"))
      else
        c <- rd buf cursor ;;
        if negb (c =b ":"%byte) then RErr (ESyntax cursor (WExpected "':' before array length" c))
        else
          let cursor := cursor + 1 in
          if negb (has_byte buf cursor) then RErr (ESyntax cursor (WEnd "array length"))
          else
            c <- rd buf cursor ;;
            if c =b "0"%byte then
              _ <- validate_empty_array buf cursor ;; ROk (AhEmpty (cursor + 4))
            else
              '(len, cend) <- read_length_int buf (cursor - 1) ;;
              if negb (has_byte buf cend) then RErr (ESyntax cend (WEnd "array"))
              else
                c <- rd buf cend ;;
                if negb (c =b "{"%byte) then RErr (ESyntax cend (WArray c))
                else ROk (AhBody len (cend + 1))
    else RErr (ESyntax cursor (WEnd what)).
Definition array_header : bytes -> Z -> Z -> R ahdr := seq_header "array".

(** slice.go:143-144: the bytes for which a slice reports a number *)
Definition number_at (buf : bytes) (cursor : Z) : bool :=
  match rd buf cursor with ROk c => (c =b "-"%byte) || is_digit c | _ => false end.

(** slice.go:51-103 and 143-147: the same for slices, except that a number is
    an UnmarshalTypeError (slice.go:41-49 errNumber) instead of a syntax error *)
Definition slice_header (buf : bytes) (cursor depth : Z) : R ahdr :=
  if has_byte buf cursor && negb (max_depth <? depth + 1) && number_at buf cursor
  then RErr (EType cursor)
  else seq_header "slice" buf cursor depth.

(** Whether array.go:59 rv.SetZero() has run: the input is at least "a:" (and
    the depth check passed). *)
Definition array_zeroed (buf : bytes) (cursor depth : Z) : bool :=
  has_byte buf cursor && negb (max_depth <? depth + 1)
  && match rd buf cursor, rd buf (cursor + 1) with
     | ROk a, ROk b => (a =b "a"%byte) && (b =b ":"%byte)
     | _, _ => false
     end.

(** slice.go:107-142: the element loop.  [ed c v] decodes an element at [c]
    into a slot holding [v].  [slice] is the local variable, [rv] the
    destination: after the first element they share their backing array, so a
    failing decode into an existing slot is visible in [rv]. *)
Fixpoint slice_loop (X : Ext) (E : env) (et : gty) (ed : Z -> gval -> dres) (buf : bytes)
    (n : nat) (cursor : Z) (slice : list gval) (rv : gval) : dres :=
  match n with
  | O => (rv, RFuel)
  | S n' =>
      let continue (slice' : list gval) (c : Z) : dres :=
        let rv' := VSlice (Some slice') in
        if negb (has_byte buf c) then (rv', RErr (ESyntax c (WEnd "array")))
        else
          match rd buf c with
          | ROk b => if b =b "}"%byte then (rv', ROk (c + 1))
                     else slice_loop X E et ed buf n' c slice' rv'
          | r => (rv', fail r)
          end in
      if negb (has_byte buf cursor) then (rv, RErr (ESyntax cursor (WEnd "array")))
      else
        match read_int buf cursor with
        | ROk (idx, c) =>
            if negb (has_byte buf c) then (rv, RErr (ESyntax c (WEnd "array value")))
            else if idx <? blen slice then
              if bad_index idx (blen slice) then (rv, RPanic PIndex) else
              let '(v, r) := ed c (nth (Z.to_nat idx) slice VOther) in
              let slice' := update slice (Z.to_nat idx) v in
              match r with
              | ROk c' => continue slice' c'
              | r => (VSlice (Some slice'), fail r)
              end
            else
              let newlen := wrap64 (idx + 1) in
              if (newlen <? 0) || negb (x_slots X et newlen) then (rv, RPanic PAlloc)
              else if bad_index idx newlen then (rv, RPanic PIndex)
              else
                let '(v, r) := ed c (zero E et) in
                match r with
                | ROk c' =>
                    continue (slice ++ repeat (zero E et) (Z.to_nat idx - length slice) ++ [v]) c'
                | r => (rv, fail r)
                end
        | r => (rv, fail r)
        end
  end.

(** slice.go:51-148 sliceDecoder.Decode *)
Definition dec_slice (X : Ext) (E : env) (et : gty) (ed : Z -> gval -> dres)
    (buf : bytes) (cursor depth : Z) (rv : gval) : dres :=
  match slice_header buf cursor depth with
  | ROk (AhNull c) => (VSlice None, ROk c)
  | ROk (AhEmpty c) => (VSlice None, ROk c)
  | ROk (AhBody len c) =>
      if negb (x_slots X et len) then (rv, RPanic PAlloc)
      else slice_loop X E et ed buf (length buf) c [] rv
  | r => (rv, fail r)
  end.

(** array.go:87-123: the element loop; entries beyond the array are skipped *)
Fixpoint array_loop (ed : Z -> gval -> dres) (buf : bytes) (depth : Z)
    (n : nat) (cursor : Z) (arr : list gval) : list gval * R Z :=
  match n with
  | O => (arr, RFuel)
  | S n' =>
      let continue (arr' : list gval) (c : Z) : list gval * R Z :=
        if negb (has_byte buf c) then (arr', RErr (ESyntax c (WEnd "array")))
        else
          match rd buf c with
          | ROk b => if b =b "}"%byte then (arr', ROk (c + 1))
                     else array_loop ed buf depth n' c arr'
          | r => (arr', fail r)
          end in
      if negb (has_byte buf cursor) then (arr, RErr (ESyntax cursor (WEnd "array")))
      else
        match read_int buf cursor with
        | ROk (idx, c) =>
            if negb (has_byte buf c) then (arr, RErr (ESyntax c (WEnd "array value")))
            else if idx <? blen arr then
              if bad_index idx (blen arr) then (arr, RPanic PIndex) else
              let '(v, r) := ed c (nth (Z.to_nat idx) arr VOther) in
              let arr' := update arr (Z.to_nat idx) v in
              match r with
              | ROk c' => continue arr' c'
              | r => (arr', fail r)
              end
            else
              match skip_value buf c depth with
              | ROk c' => continue arr c'
              | r => (arr, fail r)
              end
        | r => (arr, fail r)
        end
  end.

(** array.go:32-127 arrayDecoder.Decode; [depth] before depth++ *)
Definition dec_array (E : env) (n : nat) (et : gty) (ed : Z -> gval -> dres)
    (buf : bytes) (cursor depth : Z) (rv : gval) : dres :=
  let z := repeat (zero E et) n in
  let rv0 := if array_zeroed buf cursor depth then VArr z else rv in
  match array_header buf cursor depth with
  | ROk (AhNull c) => (rv, ROk c)
  | ROk (AhEmpty c) => (VArr z, ROk c)
  | ROk (AhBody _ c) =>
      let '(l, r) := array_loop ed buf (depth + 1) (length buf) c z in (VArr l, r)
  | r => (rv0, fail r)
  end.

(** *** Structs *)

(** struct.go:51-96, up to and including the '{' *)
Definition struct_header (buf : bytes) (cursor depth : Z) : R hdr :=
  if negb (has_byte buf cursor) then RErr (ESyntax cursor (WEnd "object"))
  else
    c <- rd buf cursor ;;
    if max_depth <? depth + 1 then RErr (ESyntax cursor (WDepth c))
    else if c =b "N"%byte then
      _ <- validate_null buf cursor ;; ROk (HNull (cursor + 2))
    else
      cur <- (if c =b "O"%byte then cend <- skip_class_name buf cursor ;; ROk (cend + 1)
              else if c =b "a"%byte then ROk (cursor + 1)
              else RErr (ESyntax cursor (WValue c))) ;;
      if negb (has_byte buf cur) then RErr (ESyntax cur (WEnd "object length"))
      else
        c <- rd buf cur ;;
        if negb (c =b ":"%byte) then RErr (ESyntax cur (WValue c))
        else
          cend <- skip_length buf cur ;;
          if negb (has_byte buf cend) then RErr (ESyntax cend (WEnd "object"))
          else
            c <- rd buf cend ;;
            if negb (c =b "{"%byte) then RErr (ESyntax cend (WArray c))
            else ROk (HBody (cend + 1)).

(** struct.go:107-146: the entry loop.  [fd d c v] decodes field [d] at [c]
    into the field's current value. *)
Fixpoint struct_loop (decs : list fdec) (fd : fdec -> Z -> gval -> dres) (buf : bytes) (depth : Z)
    (n : nat) (cursor : Z) (vals : list gval) : list gval * R Z :=
  match n with
  | O => (vals, RFuel)
  | S n' =>
      let continue (vals' : list gval) (c : Z) : list gval * R Z :=
        if negb (has_byte buf c) then (vals', RErr (ESyntax c (WEnd "object")))
        else
          match rd buf c with
          | ROk b => if b =b "}"%byte then (vals', ROk (c + 1))
                     else struct_loop decs fd buf depth n' c vals'
          | r => (vals', fail r)
          end in
      if negb (has_byte buf cursor) then (vals, RErr (ESyntax cursor (WEnd "object")))
      else
        match decode_string_bytes buf cursor with
        | ROk (key, c) =>
            if negb (has_byte buf c) then (vals, RErr (ESyntax c (WEnd "object value")))
            else
              match find_field (match key with Some k => k | None => [] end) decs with
              | Some d =>
                  match nth_error vals (fd_idx d) with
                  | None => (vals, RPanic PReflect)
                  | Some v0 =>
                      let '(v, r) := fd d c v0 in
                      let vals' := update vals (fd_idx d) v in
                      match r with
                      | ROk c' => continue vals' c'
                      | r => (vals', fail r)
                      end
                  end
              | None =>
                  match skip_value buf c depth with
                  | ROk c' => continue vals c'
                  | r => (vals, fail r)
                  end
              end
        | r => (vals, fail r)
        end
  end.

(** struct.go:49-147 structDecoder.Decode *)
Definition dec_struct (decs : list fdec) (fd : fdec -> Z -> gval -> dres)
    (buf : bytes) (cursor depth : Z) (rv : gval) : dres :=
  match struct_header buf cursor depth with
  | ROk (HNull c) => (rv, ROk c)
  | ROk (HBody c) =>
      match rv with
      | VStruct vals =>
          if negb (has_byte buf c) then (rv, RErr (ESyntax c (WEnd "object")))
          else
            match rd buf c with
            | ROk b =>
                if b =b "}"%byte then (rv, ROk (c + 1))
                else
                  let '(l, r) := struct_loop decs fd buf (depth + 1) (length buf) c vals in
                  (VStruct l, r)
            | r => (rv, fail r)
            end
      | _ => (rv, RPanic PReflect)
      end
  | r => (rv, fail r)
  end.

(** *** Pointers and string-tagged fields *)

(** ptr.go:30-53 ptrDecoder.Decode *)
Definition dec_ptr (E : env) (t : gty) (ed : Z -> gval -> dres) (buf : bytes) (cursor : Z)
    (rv : gval) : dres :=
  match rd buf cursor with
  | ROk c =>
      if c =b "N"%byte then
        match validate_null buf cursor with
        | ROk _ => (VPtr None, ROk (cursor + 2))
        | r => (rv, fail r)
        end
      else
        match rv with
        | VPtr o =>
            let '(v, r) := ed cursor (match o with Some v => v | None => zero E t end) in
            (VPtr (Some v), r)
        | _ => (rv, RPanic PReflect)
        end
  | r => (rv, fail r)
  end.

(** wrapped_string.go:51-67 wrappedStringDecoder.Decode for a non-pointer type
    (DecodeString: lines 78-91, 103-106, 118-121, 133-136); other types are
    rejected by newWrappedStringDecoder when the type is compiled *)
Definition dec_wrapped (X : Ext) (nd : node) (buf : bytes) (cursor : Z) (rv : gval) : dres :=
  let keep_cursor (c : Z) (r : dres) : dres :=
    match r with (v, ROk _) => (v, ROk c) | r => r end in
  dec_text (decode_string_bytes buf cursor)
    (fun b c rv =>
       match nd with
       | NBool => match parse_bool b with
                  | Some v => (VBool v, ROk c)
                  | None => (rv, RErr (ESyntax cursor (WBool b)))
                  end
       | NF32 => keep_cursor c (process_float X true b cursor rv)
       | NF64 => keep_cursor c (process_float X false b cursor rv)
       | NUint k => keep_cursor c (process_uint k b cursor rv)
       | NInt k => keep_cursor c (process_int k b cursor rv)
       | _ => (rv, RErr (EUnsupportedType TOther))      (* never reached *)
       end) rv.

(** bytes.go:38-67 bytesDecoder.Decode; [sd] is the slice decoder *)
Definition dec_bytes (sd : gval -> dres) (buf : bytes) (cursor : Z) (rv : gval) : dres :=
  match rd buf cursor with
  | ROk c =>
      if c =b "a"%byte then sd rv
      else dec_text (decode_string_bytes buf cursor) (fun b c _ => (vbytes b, ROk c)) rv
  | r => (rv, fail r)
  end.

(** *** All together: Decode of the decoder for type [t] *)
Fixpoint decode_f (X : Ext) (E : env) (fuel : nat) (t : gty) (buf : bytes) (cursor depth : Z)
    (rv : gval) {struct fuel} : dres :=
  match fuel with
  | O => (rv, RFuel)
  | S f =>
      let elem et := fun c v => decode_f X E f et buf c (depth + 1) v in
      match node_of E t with
      | NUnm n => dec_unm X E n buf cursor depth rv
      | NBool => dec_bool buf cursor rv
      | NInt k => dec_int k buf cursor rv
      | NUint k => dec_uint k buf cursor rv
      | NF32 => dec_float X true buf cursor rv
      | NF64 => dec_float X false buf cursor rv
      | NString => dec_string buf cursor rv
      | NAny => dec_iface_any X buf cursor depth rv
      | NIface => dec_iface X E buf cursor depth rv
      | NBytes et => dec_bytes (dec_slice X E et (elem et) buf cursor depth) buf cursor rv
      | NSlice et => dec_slice X E et (elem et) buf cursor depth rv
      | NArray n et => dec_array E n et (elem et) buf cursor depth rv
      | NMap kt vt =>
          dec_map (fun c => dec_key X E kt buf c (depth + 1))
                  (fun c => decode_f X E f vt buf c (depth + 1) (zero E vt))
                  buf cursor depth rv
      | NStruct _ fs =>
          dec_struct (field_decs X E 0 fs)
            (fun d c v =>
               if fd_str d then
                 match node_of E (fd_ty d) with
                 | NPtr t' => dec_ptr E t' (fun c v => dec_wrapped X (node_of E t') buf c v) buf c v
                 | nd => dec_wrapped X nd buf c v
                 end
               else elem (fd_ty d) c v)
            buf cursor depth rv
      | NPtr t' =>
          match kind_of E t' with
          | KPtr _ => (rv, RErr (EUnsupportedType t))   (* rejected when compiled, ptr.go:17-21 *)
          | _ => dec_ptr E t' (fun c v => decode_f X E f t' buf c depth v) buf cursor rv
          end
      | NInvalid => (rv, RErr (EType cursor))       (* invalid.go:24-32 *)
      end
  end.

(** The recursion bound: two per input byte, one for a pointer. *)
Definition decode_fuel (buf : bytes) : nat := 2 * length buf + 2.

Definition decode (X : Ext) (E : env) (t : gty) (buf : bytes) (cursor depth : Z) (rv : gval) : dres :=
  decode_f X E (decode_fuel buf) t buf cursor depth rv.
