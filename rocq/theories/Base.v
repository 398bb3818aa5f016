(** Go-level primitives shared by the whole model: bytes, results, indexing,
    64-bit wrap-around.  No theorem lives here. *)
From Coq Require Import Strings.String Strings.Byte ZArith List Bool Floats.SpecFloat.
From Verif Require Export GoType.
Import ListNotations.
Open Scope Z_scope.

(** A Go [[]byte] / [string] content. *)
Notation bytes := (list byte).

(** String literals as bytes; only used to write constants down. *)
Definition bs (s : string) : bytes := list_byte_of_string s.

Infix "=b" := Byte.eqb (at level 70).

(** [len(buf)] as an int64. *)
Definition blen {A} (b : list A) : Z := Z.of_nat (length b).

(** int64 two's complement wrap-around, used wherever the Go code adds an
    input-controlled number.  (Cursor increments by literal constants are
    written with plain [+]: the cursor is at most [len buf], and no Go slice is
    longer than 2^48 bytes.) *)
Definition wrap64 (z : Z) : Z := (z + 2 ^ 63) mod 2 ^ 64 - 2 ^ 63.
(** uint64 wrap-around. *)
Definition uwrap64 (z : Z) : Z := z mod 2 ^ 64.

Definition max_int64 : Z := 2 ^ 63 - 1.
Definition min_int64 : Z := - 2 ^ 63.

(** The ways a Go panic can arise in the modelled code. *)
Inductive panic :=
| PIndex        (* runtime: index or slice bounds out of range *)
| PAlloc        (* reflect.MakeSlice: negative or impossible size *)
| PUnhashable   (* runtime: hash of unhashable type *)
| PReflect      (* reflect: method called on a Value of the wrong kind/type, or zero Value *)
| PNilDeref.    (* nil pointer dereference / nil interface conversion *)

(** internal/errors/error.go UnmarshalTypeError without its Offset: Value, Type,
    Struct and Field *)
Record detail := Detail { dt_value : bytes; dt_type : gty; dt_struct : bytes; dt_field : bytes }.

(** What an UnmarshalPHP method can return for an error: errors that it got from
    a call of Unmarshal of its own, which the library looks into
    (unmarshal_php.go:30-39), or any other error. *)
Inductive uerr := UeType (offset : Z) (d : detail) | UeSyntax (offset : Z) | UeOther.

(** What a SyntaxError says, by the function of internal/errors/error.go that makes
    it; Message.v writes the messages out. *)
Inductive why :=
| WText (msg : string)                  (* error.go:69-71 ErrSyntax *)
| WFloat (text : bytes)                 (* the same, with the error of strconv.ParseFloat (float.go:66) *)
| WBool (text : bytes)                  (* the same, with the error of strconv.ParseBool (wrapped_string.go:81) *)
| WAfter (c : byte)                     (* the same, unmarshal.go:59-62 *)
| WDepth (c : byte)                     (* error.go:73-78 ErrExceededMaxDepth *)
| WStart (typ : string) (c : byte)      (* error.go:80-85 ErrUnexpectedStart *)
| WEnd (what : string)                  (* error.go:87-92 ErrUnexpectedEnd *)
| WExpected (what : string) (c : byte)  (* error.go:94-96 ErrUnexpected *)
| WChar (c : byte) (context : string)   (* error.go:98-109 ErrInvalidCharacter *)
| WValue (c : byte)                     (* error.go:111-116 ErrInvalidBeginningOfValue *)
| WArray (c : byte).                    (* error.go:118-123 ErrInvalidBeginningOfArray *)

(** internal/errors/error.go overflowError: the number and the kind that does not hold it *)
Inductive over :=
| OvInt (z : Z) (k : ikind)       (* int.go:144 *)
| OvUint (z : Z) (k : ukind)      (* uint.go:72 *)
| OvFloat (f : spec_float).       (* float.go:70; only float32 *)

(** What the encoder's errors say, by the place in internal/encoder that makes them;
    Message.v writes the messages out. *)
Inductive cause :=
| CType (t : gty)        (* compile.go:50: the type is not supported *)
| CString (t : gty)      (* compile.go:82-84: nor with the string option *)
| CPtr (t : gty)         (* ptr.go:11: a pointer to the pointer type [t] *)
| CFieldPtr (t : gty)    (* struct.go:127: a field of type [t], a pointer to a pointer *)
| CEmbedded (t : gty)    (* struct.go:133: an embedded struct *)
| CKey (t : gty)         (* error.go:15-21 UnsupportedTypeAsMapKeyError *)
| CInside (t : gty)      (* error.go:23-29 UnsupportedInterfaceTypeError *)
| CRecursive (t : gty)   (* ptr.go:65,93 and interface.go:61 *)
| CAsString (t : gty).   (* interface.go:119: the kind of [t] *)

(** Errors, by the Go type of the error, with what it carries; Message.v writes out the
    messages.  [EType] and [EUser] leave out what else the
    error has; Decode.v uses these.  [ETypeAt] and [EUserAt] are the same errors
    in full; NameDecode.v uses these. *)
Inductive error :=
| ESyntax (offset : Z) (w : why)   (* internal/errors/error.go:24-29 SyntaxError *)
| EType (offset : Z)          (* UnmarshalTypeError *)
| EOverflow (o : over)        (* overflowError *)
| EUnsupportedType (t : gty)  (* UnsupportedTypeError *)
| EInvalidTarget (t : gty)    (* InvalidUnmarshalError *)
| EEmpty                      (* "empty bytes" *)
| EUser                       (* error returned by a user method *)
| EAnonymous                  (* "anonymous struct field is not supported" *)
| EDuplicate (t : gty) (key : bytes)   (* "found duplicate keys" *)
| EMarshal (c : cause)        (* the errors made by internal/encoder *)
| ETypeAt (offset : Z) (d : detail)   (* UnmarshalTypeError, with all its fields *)
| EUserAt (u : uerr).                 (* error returned by a user method, which one *)

(** Outcome of a Go function returning [(A, error)]: the value, an error, a
    panic, or [RFuel] when the model's recursion bound was exhausted (proved
    unreachable for the decoder; for the encoder it stands for
    non-termination). *)
Inductive R (A : Type) :=
| ROk (a : A)
| RErr (e : error)
| RPanic (p : panic)
| RFuel.
Arguments ROk {A}. Arguments RErr {A}. Arguments RPanic {A}. Arguments RFuel {A}.

Definition bind {A B} (r : R A) (k : A -> R B) : R B :=
  match r with
  | ROk a => k a
  | RErr e => RErr e
  | RPanic p => RPanic p
  | RFuel => RFuel
  end.
Notation "x <- e ;; k" := (bind e (fun x => k)) (at level 61, e at next level, right associativity).
Notation "' p <- e ;; k" := (bind e (fun p => k)) (at level 61, p pattern, e at next level, right associativity).

(** [buf[i]]: panics when out of range. *)
Definition rd (buf : bytes) (i : Z) : R byte :=
  if (0 <=? i) then
    match nth_error buf (Z.to_nat i) with
    | Some b => ROk b
    | None => RPanic PIndex
    end
  else RPanic PIndex.

(** [buf[i:j]]: panics unless [0 <= i <= j <= len buf] (the modelled buffers
    have cap = len, unmarshal.go:37). *)
Definition sub (buf : bytes) (i j : Z) : R bytes :=
  if (0 <=? i) && (i <=? j) && (j <=? blen buf) then
    ROk (firstn (Z.to_nat (j - i)) (skipn (Z.to_nat i) buf))
  else RPanic PIndex.

Definition bytes_eqb (a b : bytes) : bool :=
  (fix go (a b : bytes) : bool :=
     match a, b with
     | [], [] => true
     | x :: a', y :: b' => (x =b y) && go a' b'
     | _, _ => false
     end) a b.

(** Decimal digits. *)
Definition is_digit (b : byte) : bool :=
  (48 <=? Z.of_N (Byte.to_N b)) && (Z.of_N (Byte.to_N b) <=? 57).
Definition digit_val (b : byte) : Z := Z.of_N (Byte.to_N b) - 48.
