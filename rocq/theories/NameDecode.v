(** internal/decoder once more, with type errors in full: the decoder of Decode.v,
    in which every UnmarshalTypeError has its Value, Type, Struct and Field, and
    every error of a user's method is what the method returned, as
    unmarshal_php.go:30-39 changes it.

    The decoders that make no such errors, and the loops of the containers, which
    hand on the errors of their elements, are those of Decode.v. *)
From Coq Require Import Strings.String Strings.Byte ZArith List Bool Floats.SpecFloat.
From Verif Require Import Base GoTypes Strconv Tags Scan Decode Unmarshal.
Import ListNotations.
Open Scope Z_scope.

(** What the decoder asks of reflect and of the user's methods besides [Ext]:
    [rt.Name()] of a declared type, [rt.String()], and the error that
    UnmarshalPHP of declared type [n] returns for an input and a receiver. *)
Record Rtti := { r_name : nat -> bytes; r_string : gty -> bytes; r_error : nat -> bytes -> gval -> uerr }.

(** structName and fieldName of a decoder *)
Definition names : Type := bytes * bytes.

(** An UnmarshalTypeError that carries the names of its decoder: int.go:25-33,
    string.go:21-29, interface.go:124-132, invalid.go:24-32, slice.go:41-49. *)
Definition type_error (nm : names) (value : bytes) (t : gty) (offset : Z) : error :=
  ETypeAt offset (Detail value t (fst nm) (snd nm)).

(** string.go:44-74 stringDecoder.decodeByte *)
Definition decode_string_bytes_n (nm : names) (buf : bytes) (cursor : Z) : R (option bytes * Z) :=
  if negb (has_byte buf cursor) then RErr (ESyntax cursor (WEnd "string"))
  else
    c <- rd buf cursor ;;
    if c =b "N"%byte then _ <- validate_null buf cursor ;; ROk (None, cursor + 2)
    else if c =b "b"%byte then RErr (type_error nm (bs "bool") TString cursor)
    else if c =b "d"%byte then RErr (type_error nm (bs "float") TString cursor)
    else if c =b "i"%byte then RErr (type_error nm (bs "number") TString cursor)
    else if c =b "s"%byte then
      '(s, cend) <- read_string buf (cursor + 1) ;; ROk (Some s, cend)
    else RErr (ESyntax cursor (WValue c)).

(** int.go:137-150 processBytes of the decoder for type [t], with int.go:25-33
    typeError *)
Definition process_int_n (nm : names) (t : gty) (k : ikind) (b : bytes) (cursor : Z) (rv : gval) : dres :=
  match parse_int64 b with
  | None => (rv, RErr (type_error nm (bs "number " ++ b) t cursor))
  | Some _ => process_int k b cursor rv
  end.

(** uint.go:65-78 processBytes, with uint.go:26-32 typeError, which leaves Struct
    and Field empty *)
Definition process_uint_n (t : gty) (k : ukind) (b : bytes) (cursor : Z) (rv : gval) : dres :=
  match parse_uint64 b with
  | None => (rv, RErr (type_error ([], []) (bs "number " ++ b) t cursor))
  | Some _ => process_uint k b cursor rv
  end.

(** int.go:124-135, uint.go:52-63, string.go:31-42 *)
Definition dec_int_n (nm : names) (t : gty) (k : ikind) (buf : bytes) (cursor : Z) (rv : gval) : dres :=
  dec_text (decode_int_bytes buf cursor) (process_int_n nm t k) rv.
Definition dec_uint_n (t : gty) (k : ukind) (buf : bytes) (cursor : Z) (rv : gval) : dres :=
  dec_text (decode_int_bytes buf cursor) (process_uint_n t k) rv.
Definition dec_string_n (nm : names) (buf : bytes) (cursor : Z) (rv : gval) : dres :=
  dec_text (decode_string_bytes_n nm buf cursor) (fun b c _ => (VStr b, ROk c)) rv.

(** interface.go:247-273 mapKeyDecoder.Decode *)
Definition dec_any_key_n (nm : names) (buf : bytes) (cursor : Z) : dres :=
  match rd buf cursor with
  | ROk c =>
      if c =b "s"%byte then
        match dec_string_n nm buf cursor (VStr []) with
        | (v, ROk c') => (VIface (Some (TString, v)), ROk c')
        | (_, r) => (VIface None, r)
        end
      else if c =b "i"%byte then
        match dec_int_n nm (TInt I64) I64 buf cursor (VInt 0) with
        | (v, ROk c') => (VIface (Some (TInt I64, v)), ROk c')
        | (_, r) => (VIface None, r)
        end
      else (VIface None, RErr (ESyntax cursor (WExpected "array key" c)))
  | r => (VIface None, fail r)
  end.

(** interface.go:173-240 decodeEmptyInterface; interface.go:23-92: all decoders
    below an interface decoder have its names *)
Fixpoint dec_any_n_f (X : Ext) (nm : names) (fuel : nat) (buf : bytes) (cursor depth : Z)
    : R (option (gty * gval) * Z) :=
  match fuel with
  | O => RFuel
  | S f =>
      let vd c : dres :=
        match dec_any_n_f X nm f buf c (depth + 1) with
        | ROk (o, c') => (VIface o, ROk c')
        | r => (VIface None, fail r)
        end in
      let wrap (t : gty) (r : dres) : R (option (gty * gval) * Z) :=
        match r with
        | (v, ROk c) => ROk (Some (t, v), c)
        | (_, r) => fail r
        end in
      c <- rd buf cursor ;;
      if c =b "O"%byte then
        wrap (TMap TString TAny)
             (dec_map (fun c => dec_string_n nm buf c (VStr [])) vd buf cursor depth (VMap None))
      else if c =b "a"%byte then
        wrap (TMap TAny TAny)
             (dec_map (fun c => dec_any_key_n nm buf c) vd buf cursor depth (VMap None))
      else if c =b "d"%byte then
        wrap TF64 (dec_float X false buf cursor (VF64 (S754_zero false)))
      else if c =b "s"%byte then
        '(s, cend) <- read_string buf (cursor + 1) ;; ROk (Some (TString, VStr s), cend)
      else if c =b "i"%byte then wrap (TInt I64) (dec_int_n nm (TInt I64) I64 buf cursor (VInt 0))
      else if c =b "b"%byte then
        v <- read_bool buf cursor ;; ROk (Some (TBool, VBool v), cursor + 4)
      else if c =b "N"%byte then
        _ <- validate_null buf cursor ;; ROk (None, cursor + 2)
      else RErr (ESyntax cursor (WValue c))
  end.

Definition dec_any_n (X : Ext) (nm : names) (buf : bytes) (cursor depth : Z) : R (option (gty * gval) * Z) :=
  dec_any_n_f X nm (S (length buf)) buf cursor depth.

Definition dec_iface_any_n (X : Ext) (nm : names) (buf : bytes) (cursor depth : Z) (rv : gval) : dres :=
  match dec_any_n X nm buf cursor depth with
  | ROk (o, c) => (VIface o, ROk c)
  | r => (rv, fail r)
  end.

(** unmarshal_php.go:30-39 annotateError *)
Definition annotate (nm : names) (cursor : Z) (u : uerr) : uerr :=
  match u with
  | UeType o d => UeType o (Detail (dt_value d) (dt_type d) (fst nm) (snd nm))
  | UeSyntax _ => UeSyntax cursor
  | UeOther => UeOther
  end.

(** unmarshal_php.go:45-95 unmarshalPHPDecoder.Decode for declared type [n].
    Lines 54-72 make UnmarshalTypeErrors without names. *)
Definition dec_unm_n (X : Ext) (Q : Rtti) (E : env) (nm : names) (n : nat) (buf : bytes) (cursor depth : Z)
    (rv : gval) : dres :=
  match cend <- skip_value buf cursor depth ;; src <- sub buf cursor cend ;; ROk (src, cend) with
  | ROk (src, cend) =>
      let go := 
        match x_unmarshal X n (unquoted X src) (zero E (TName n)) with
        | (v, true) => (v, ROk cend)
        | (_, false) =>
            (rv, RErr (EUserAt (annotate nm cursor (r_error Q n (unquoted X src) (zero E (TName n))))))
        end in
      match src with
      | [] => go
      | c :: _ =>
          if c =b "["%byte then (rv, RErr (type_error ([], []) (bs "array") (TPtr (TName n)) cursor))
          else if c =b "{"%byte then (rv, RErr (type_error ([], []) (bs "object") (TPtr (TName n)) cursor))
          else if (c =b "-"%byte) || is_digit c
          then (rv, RErr (type_error ([], []) (bs "number") (TPtr (TName n)) cursor))
          else if (c =b "N"%byte) && bytes_eqb src (bs "N;") then (zero E (TName n), ROk cend)
          else go
      end
  | r => (rv, fail r)
  end.

(** interface.go:134-149 Decode for a destination of interface type [t] with
    methods; the error of the method is handed on as it is *)
Definition dec_iface_n (X : Ext) (Q : Rtti) (E : env) (nm : names) (t : gty) (buf : bytes) (cursor depth : Z)
    (rv : gval) : dres :=
  let plain :=
    match rd buf cursor with
    | ROk c =>
        if c =b "N"%byte then
          match validate_null buf cursor with
          | ROk _ => (VIface None, ROk (cursor + 2))
          | r => (rv, fail r)
          end
        else (rv, RErr (type_error nm (r_string Q t) t cursor))
    | r => (rv, fail r)
    end in
  match rv with
  | VIface (Some (TPtr t', VPtr p)) =>
      match has_unmarshal E t' with
      | Some n =>
          match cend <- skip_value buf cursor depth ;; src <- sub buf cursor cend ;; ROk (src, cend) with
          | ROk (src, cend) =>
              if bytes_eqb src (bs "N;") then (VIface None, ROk cend)
              else
                match p with
                | None => (rv, RPanic PNilDeref)
                | Some old =>
                    let '(new, ok) := x_unmarshal X n (unquoted X src) old in
                    (VIface (Some (TPtr t', VPtr (Some new))),
                     if ok then ROk cend else RErr (EUserAt (r_error Q n (unquoted X src) old)))
                end
          | r => (rv, fail r)
          end
      | None => plain
      end
  | _ => plain
  end.

(** map.go:94-99 with the decoder of [key_node]; behind a pointer the decoder of
    the pointee type [p] runs *)
Definition dec_key_n (X : Ext) (Q : Rtti) (E : env) (nm : names) (kt : gty) (buf : bytes) (cursor depth : Z) : dres :=
  let z := zero E kt in
  let p := match kind_of E kt with KPtr p => p | _ => kt end in
  match key_node E kt with
  | KnUnm n => dec_unm_n X Q E nm n buf cursor depth z
  | KnString => dec_string_n nm buf cursor z
  | KnBool => dec_bool buf cursor z
  | KnInt k => dec_int_n nm kt k buf cursor z
  | KnUint k => dec_uint_n kt k buf cursor z
  | KnAny => dec_iface_any_n X nm buf cursor depth z
  | KnIface => dec_iface_n X Q E nm kt buf cursor depth z
  | KnPtr d =>
      match d with
      | NString => dec_text (decode_string_bytes_n nm buf cursor) (fun _ _ rv => (rv, RPanic PReflect)) z
      | NBool => match dec_bool buf cursor VOther with
                 | (VBool _, ROk _) => (z, RPanic PReflect)
                 | (_, r) => (z, r)
                 end
      | NInt _ => dec_text (decode_int_bytes buf cursor)
                    (fun b c rv => match parse_int64 b with
                                   | None => (rv, RErr (type_error nm (bs "number " ++ b) p c))
                                   | Some _ => (rv, RPanic PReflect) end) z
      | NUint _ => dec_text (decode_int_bytes buf cursor)
                    (fun b c rv => match parse_uint64 b with
                                   | None => (rv, RErr (type_error ([], []) (bs "number " ++ b) p c))
                                   | Some _ => (rv, RPanic PReflect) end) z
      | _ => match dec_any_n X nm buf cursor depth with
             | ROk (None, c) => (z, ROk c)
             | ROk (Some _, _) => (z, RPanic PReflect)
             | r => (z, fail r)
             end
      end
  | KnInvalid => (z, RErr (type_error nm (bs "object") kt cursor))
  end.

(** slice.go:51-148 sliceDecoder.Decode; the error of lines 143-144 is
    slice.go:41-49 errNumber *)
Definition dec_slice_n (X : Ext) (E : env) (nm : names) (et : gty) (ed : Z -> gval -> dres)
    (buf : bytes) (cursor depth : Z) (rv : gval) : dres :=
  if has_byte buf cursor && negb (max_depth <? depth + 1) && number_at buf cursor
  then (rv, RErr (type_error nm (bs "number") (TSlice et) cursor))
  else dec_slice X E et ed buf cursor depth rv.

(** struct.go:107-146: the entry loop; [nm] are the names of the struct decoder,
    which its stringDecoder has (struct.go:26) *)
Fixpoint struct_loop_n (nm : names) (decs : list fdec) (fd : fdec -> Z -> gval -> dres) (buf : bytes) (depth : Z)
    (n : nat) (cursor : Z) (vals : list gval) : list gval * R Z :=
  match n with
  | O => (vals, RFuel)
  | S n' =>
      let continue (vals' : list gval) (c : Z) : list gval * R Z :=
        if negb (has_byte buf c) then (vals', RErr (ESyntax c (WEnd "object")))
        else
          match rd buf c with
          | ROk b => if b =b "}"%byte then (vals', ROk (c + 1))
                     else struct_loop_n nm decs fd buf depth n' c vals'
          | r => (vals', fail r)
          end in
      if negb (has_byte buf cursor) then (vals, RErr (ESyntax cursor (WEnd "object")))
      else
        match decode_string_bytes_n nm buf cursor with
        | ROk (key, c) =>
            if negb (has_byte buf c) then (vals, RErr (ESyntax c (WEnd "object value")))
            else
              match find_field (match key with Some k => k | None => [] end) decs with
              | Some d =>
                  match nth_error vals (fd_idx d) with
                  | None => (vals, RPanic PReflect)
                  | Some v0 =>
                      let '(v, r) := fd d c v0 in
                      let vals' := update vals (fd_idx d) v in
                      match r with
                      | ROk c' => continue vals' c'
                      | r => (vals', fail r)
                      end
                  end
              | None =>
                  match skip_value buf c depth with
                  | ROk c' => continue vals c'
                  | r => (vals, fail r)
                  end
              end
        | r => (vals, fail r)
        end
  end.

(** struct.go:49-147 structDecoder.Decode *)
Definition dec_struct_n (nm : names) (decs : list fdec) (fd : fdec -> Z -> gval -> dres)
    (buf : bytes) (cursor depth : Z) (rv : gval) : dres :=
  match struct_header buf cursor depth with
  | ROk (HNull c) => (rv, ROk c)
  | ROk (HBody c) =>
      match rv with
      | VStruct vals =>
          if negb (has_byte buf c) then (rv, RErr (ESyntax c (WEnd "object")))
          else
            match rd buf c with
            | ROk b =>
                if b =b "}"%byte then (rv, ROk (c + 1))
                else
                  let '(l, r) := struct_loop_n nm decs fd buf (depth + 1) (length buf) c vals in
                  (VStruct l, r)
            | r => (rv, fail r)
            end
      | _ => (rv, RPanic PReflect)
      end
  | r => (rv, fail r)
  end.

(** wrapped_string.go:51-67 wrappedStringDecoder.Decode for a type [t] that is no
    pointer *)
Definition dec_wrapped_n (X : Ext) (nm : names) (t : gty) (nd : node) (buf : bytes) (cursor : Z) (rv : gval) : dres :=
  let keep_cursor (c : Z) (r : dres) : dres :=
    match r with (v, ROk _) => (v, ROk c) | r => r end in
  dec_text (decode_string_bytes_n nm buf cursor)
    (fun b c rv =>
       match nd with
       | NBool => match parse_bool b with
                  | Some v => (VBool v, ROk c)
                  | None => (rv, RErr (ESyntax cursor (WBool b)))
                  end
       | NF32 => keep_cursor c (process_float X true b cursor rv)
       | NF64 => keep_cursor c (process_float X false b cursor rv)
       | NUint k => keep_cursor c (process_uint_n t k b cursor rv)
       | NInt k => keep_cursor c (process_int_n nm t k b cursor rv)
       | _ => (rv, RErr (EUnsupportedType TOther))      (* never reached *)
       end) rv.

(** bytes.go:38-67 bytesDecoder.Decode; [sd] is the slice decoder *)
Definition dec_bytes_n (nm : names) (sd : gval -> dres) (buf : bytes) (cursor : Z) (rv : gval) : dres :=
  match rd buf cursor with
  | ROk c =>
      if c =b "a"%byte then sd rv
      else dec_text (decode_string_bytes_n nm buf cursor) (fun b c _ => (vbytes b, ROk c)) rv
  | r => (rv, fail r)
  end.

(** compile.go:260-265: the struct types being compiled, innermost first, each
    with the names its decoder was given.  A struct type that is being compiled
    already is decoded by the decoder being built: it has the names of that one,
    and its fields were compiled when only the types outside of it were being
    compiled. *)
Fixpoint enter (id : nat) (nm : names) (all stack : list (nat * names)) : names * list (nat * names) :=
  match stack with
  | [] => (nm, (id, nm) :: all)
  | (id', nm') :: stack' => if Nat.eqb id id' then (nm', stack) else enter id nm all stack'
  end.

(** The name of the field that a structFieldSet is for (compile.go:284: fields are
    compiled with the struct type's name and their own) *)
Definition field_name (fs : list field) (d : fdec) : bytes :=
  match nth_error fs (fd_idx d) with Some f => f_name f | None => [] end.

(** Decode of the decoder for type [t] that was compiled with names [nm] when the
    struct types in [stack] were being compiled (compile.go:55-325: all other
    compile functions give their names to what they compile) *)
Fixpoint decode_n_f (X : Ext) (Q : Rtti) (E : env) (fuel : nat) (nm : names) (stack : list (nat * names)) (t : gty)
    (buf : bytes) (cursor depth : Z) (rv : gval) {struct fuel} : dres :=
  match fuel with
  | O => (rv, RFuel)
  | S f =>
      let elem et := fun c v => decode_n_f X Q E f nm stack et buf c (depth + 1) v in
      match node_of E t with
      | NUnm n => dec_unm_n X Q E nm n buf cursor depth rv
      | NBool => dec_bool buf cursor rv
      | NInt k => dec_int_n nm t k buf cursor rv
      | NUint k => dec_uint_n t k buf cursor rv
      | NF32 => dec_float X true buf cursor rv
      | NF64 => dec_float X false buf cursor rv
      | NString => dec_string_n nm buf cursor rv
      | NAny => dec_iface_any_n X nm buf cursor depth rv
      | NIface => dec_iface_n X Q E nm t buf cursor depth rv
      | NBytes et => dec_bytes_n nm (dec_slice_n X E nm et (elem et) buf cursor depth) buf cursor rv
      | NSlice et => dec_slice_n X E nm et (elem et) buf cursor depth rv
      | NArray n et => dec_array E n et (elem et) buf cursor depth rv
      | NMap kt vt =>
          dec_map (fun c => dec_key_n X Q E nm kt buf c (depth + 1))
                  (fun c => decode_n_f X Q E f nm stack vt buf c (depth + 1) (zero E vt))
                  buf cursor depth rv
      | NStruct id fs =>
          let '(nm', stack') := enter id nm stack stack in
          dec_struct_n nm' (field_decs X E 0 fs)
            (fun d c v =>
               let fnm := (r_name Q id, field_name fs d) in
               if fd_str d then
                 match node_of E (fd_ty d) with
                 | NPtr t' => dec_ptr E t' (fun c v => dec_wrapped_n X fnm t' (node_of E t') buf c v) buf c v
                 | nd => dec_wrapped_n X fnm (fd_ty d) nd buf c v
                 end
               else decode_n_f X Q E f fnm stack' (fd_ty d) buf c (depth + 1) v)
            buf cursor depth rv
      | NPtr t' =>
          match kind_of E t' with
          | KPtr _ => (rv, RErr (EUnsupportedType t))
          | _ => dec_ptr E t' (fun c v => decode_n_f X Q E f nm stack t' buf c depth v) buf cursor rv
          end
      | NInvalid => (rv, RErr (type_error nm (bs "object") t cursor))
      end
  end.

(** compile.go:47-53 compileHead: the type itself is compiled without names *)
Definition decode_n (X : Ext) (Q : Rtti) (E : env) (t : gty) (buf : bytes) (rv : gval) : dres :=
  decode_n_f X Q E (decode_fuel buf) ([], []) [] t buf 0 0 rv.

(** unmarshal.go:21-52 Unmarshal, with type errors in full *)
Definition unmarshal_n (X : Ext) (Q : Rtti) (E : env) (cfuel : nat) (data : bytes) (tg : target) : gval * R unit :=
  match data with
  | [] => (pointee tg, RErr EEmpty)
  | _ =>
      match tg with
      | TgNil => (VOther, RPanic PReflect)
      | TgVal t _ => (pointee tg, RErr (EInvalidTarget t))
      | TgNilPtr t => (pointee tg, RErr (EInvalidTarget (TPtr t)))
      | TgPtr t v =>
          match compile_f X E cfuel [] t with
          | ROk _ =>
              let '(v', r) := decode_n X Q E t data v in
              (v', c <- r ;; validate_end data c)
          | r => (v, r)
          end
      end
  end.

(** internal/errors/error.go:41-48 UnmarshalTypeError.Error, where [%s] of a type is
    its String() and [%d] of the offset its decimal digits *)
Definition type_error_message (Q : Rtti) (offset : Z) (d : detail) : bytes :=
  if negb (bytes_eqb (dt_struct d) []) || negb (bytes_eqb (dt_field d) []) then
    bs "php-serialize: cannot unmarshal " ++ dt_value d ++ bs " into Go struct field " ++
    dt_struct d ++ bs "." ++ dt_field d ++ bs " of type " ++ r_string Q (dt_type d) ++
    bs " (offset " ++ append_int offset ++ bs ")"
  else
    bs "php-serialize: cannot unmarshal " ++ dt_value d ++ bs " into Go value of type " ++
    r_string Q (dt_type d) ++ bs " (offset: " ++ append_int offset ++ bs ")".
