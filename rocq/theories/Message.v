(** The texts of the errors: internal/errors/error.go, internal/encoder/error.go and the
    errors made in place.  (UnmarshalTypeError: NameDecode.v.) *)
From Coq Require Import Strings.String Strings.Byte ZArith List Bool Floats.SpecFloat.
From Verif Require Import Base GoTypes Strconv.
Import ListNotations.
Open Scope Z_scope.

(** What the errors of strconv.ParseFloat and strconv.ParseBool say about a text; strconv
    is not modelled, so this is a parameter. *)
Record Words := { w_float : bytes -> bytes; w_bool : bytes -> bytes;
  (** reflect.Type.String *)
  w_type : gty -> bytes;
  (** reflect.Kind.String of the kinds that the model does not tell apart *)
  w_kind : gty -> bytes;
  (** fmt's [%v] of a float64 *)
  w_number : spec_float -> bytes }.

(** fmt's [%c] of a byte: the rune with that number, in UTF-8 (one byte below 128,
    two from there on) *)
Definition char (c : byte) : bytes :=
  let n := Byte.to_N c in
  let byte n := match Byte.of_N n with Some b => b | None => "000"%byte end in
  if (n <? 128)%N then [c] else [byte (192 + n / 64)%N; byte (128 + n mod 64)%N].

(** error.go:29 SyntaxError.Error of the errors made by error.go:69-123 and
    unmarshal.go:59-62 *)
Definition syntax_message (S : Words) (offset : Z) (w : why) : bytes :=
  match w with
  | WText msg => bs msg
  | WFloat t => w_float S t
  | WBool t => w_bool S t
  | WAfter c => bs "invalid character '" ++ char c ++ bs "' after top-level value"
  | WDepth c => bs "php-serialize: invalid character """ ++ char c ++ bs """ exceeded max depth"
  | WStart typ c => bs "php-serialize: unexpected " ++ char c ++ bs " at beginning of " ++ bs typ
  | WEnd what => bs "php-serialize: " ++ bs what ++ bs " unexpected end of input"
  | WExpected what c => bs "php-serialize: expecting " ++ bs what ++ bs ", get char '" ++ char c ++
                        bs "' instead at offset: " ++ append_int offset
  | WChar c context =>
      if c =b "000"%byte then bs "php-serialize: invalid character as " ++ bs context
      else bs "php-serialize: invalid character " ++ char c ++ bs " as " ++ bs context
  | WValue c => bs "php-serialize: invalid character '" ++ char c ++ bs "' looking for beginning of value"
  | WArray c => bs "php-serialize: invalid character '" ++ char c ++ bs "' looking for beginning of array"
  end.

(** reflect.Kind.String *)
Definition int_name (k : ikind) : bytes :=
  bs (match k with I8 => "int8" | I16 => "int16" | I32 => "int32" | I64 => "int64" | IInt => "int" end).
Definition uint_name (k : ukind) : bytes :=
  bs (match k with U8 => "uint8" | U16 => "uint16" | U32 => "uint32" | U64 => "uint64" | UUint => "uint" | UPtr => "uintptr" end).
Definition kind_name (S : Words) (E : env) (t : gty) : bytes :=
  match kind_of E t with
  | KBool => bs "bool" | KInt k => int_name k | KUint k => uint_name k
  | KF32 => bs "float32" | KF64 => bs "float64" | KString => bs "string"
  | KSlice _ => bs "slice" | KArray _ _ => bs "array" | KMap _ _ => bs "map" | KPtr _ => bs "ptr"
  | KAny | KIface _ => bs "interface" | KStruct _ _ => bs "struct" | KOther => w_kind S t
  end.

(** internal/encoder: error.go:7-29, compile.go:50 and 82-84, ptr.go:11, 65 and 93,
    struct.go:127 and 133, interface.go:61 and 119 *)
Definition cause_message (S : Words) (E : env) (c : cause) : bytes :=
  match c with
  | CType t => bs "failed to build encoder, unsupported type " ++ w_type S t ++ bs " (kind " ++ kind_name S E t ++ bs ")"
  | CString t => bs "failed to build encoder for struct field (as string), unsupported type " ++ w_type S t ++
                 bs " (kind " ++ kind_name S E t ++ bs ")"
  | CPtr t => bs "encoding nested ptr is not supported *" ++ w_type S t
  | CFieldPtr t => bs "encoding nested ptr is not supported " ++ w_type S t
  | CEmbedded t => bs "supported for Anonymous struct field has been removed: " ++ w_type S t
  | CKey t => bs "php serialize: unsupported type as key of map: " ++ w_type S t
  | CInside t => bs "php serialize: can't encode type (as part of an interface): " ++ w_type S t
  | CRecursive t => bs "php: try to encode recursive value of type " ++ w_type S t
  | CAsString t => bs "failed to encode " ++ kind_name S E t ++ bs " as string"
  end.

(** internal/errors/error.go:137-139 overflowError.Error *)
Definition over_message (S : Words) (o : over) : bytes :=
  match o with
  | OvInt z k => bs "php-serialize: " ++ append_int z ++ bs " overflow type " ++ int_name k
  | OvUint z k => bs "php-serialize: " ++ append_uint z ++ bs " overflow type " ++ uint_name k
  | OvFloat f => bs "php-serialize: " ++ w_number S f ++ bs " overflow type float32"
  end.

(** error.go:12-21 InvalidUnmarshalError.Error (the type is never nil here: Unmarshal
    panics on an untyped nil before) *)
Definition target_message (S : Words) (E : env) (t : gty) : bytes :=
  match kind_of E t with
  | KPtr _ => bs "php-serialize: Unmarshal(nil " ++ w_type S t ++ bs ")"
  | _ => bs "php-serialize: Unmarshal(non-pointer " ++ w_type S t ++ bs ")"
  end.

(** err.Error(), for the errors whose text the library chooses *)
Definition message (S : Words) (E : env) (e : error) : option bytes :=
  match e with
  | ESyntax o w => Some (syntax_message S o w)
  | EOverflow o => Some (over_message S o)
  | EUnsupportedType t => Some (bs "php-serialize: unsupported type: " ++ w_type S t)      (* error.go:56-58 *)
  | EInvalidTarget t => Some (target_message S E t)
  | EEmpty => Some (bs "empty bytes")                                                     (* unmarshal.go:23 *)
  | EAnonymous => Some (bs "anonymous struct field is not supported")                      (* compile.go:279 *)
  | EDuplicate t k => Some (bs "found duplicate keys for struct " ++ w_type S t ++ bs ": " ++ k)   (* compile.go:315 *)
  | EMarshal c => Some (cause_message S E c)
  | EType _ | ETypeAt _ _ | EUser | EUserAt _ => None
  end.
