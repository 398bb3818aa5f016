(** Specification: what the errors of Unmarshal about types and about numbers
    that do not fit say. *)
From Coq Require Import Strings.String Strings.Byte ZArith List Bool Floats.SpecFloat.
From Verif Require Import Base GoTypes Tags Grammar Denote Typing.
Import ListNotations.
Open Scope Z_scope.

Definition occurs (data s : bytes) : Prop := exists before after, data = before ++ s ++ after.

(** The error for a type [U] that is not supported (see [unsupported]): it names
    a pointer to a pointer, the type of a field that cannot have the string
    option (for a pointer: what it points to), or a struct and a key that two of
    its fields have. *)
Inductive rejected (X : Ext) (E : env) (U : gty) : error -> Prop :=
| rj_ptr t : plain E U (KPtr t) -> is_ptr E t = true -> rejected X E U (EUnsupportedType (TPtr t))
| rj_embedded id fs f :
    plain E U (KStruct id fs) -> In f fs -> is_ignored f = false ->
    f_anon f = true -> struct_or_ptr E (f_ty f) = true -> rejected X E U EAnonymous
| rj_string id fs f V :
    plain E U (KStruct id fs) -> In f fs -> is_ignored f = false ->
    string_tagged X E f = true -> ~ quotable E (f_ty f) ->
    V = f_ty f \/ plain E (f_ty f) (KPtr V) ->
    rejected X E U (EUnsupportedType V)
| rj_dup id fs f g i j k :
    plain E U (KStruct id fs) -> nth_error fs i = Some f -> nth_error fs j = Some g -> i <> j ->
    is_ignored f = false -> is_ignored g = false -> field_key X f = k -> field_key X g = k ->
    rejected X E U (EDuplicate U k).

(** [given X E data T k t]: the input has [t] for a number of kind [k] in a
    destination of type [T]: as a number where there is a [k] inside [T], or in a
    string for a field with the string option that is a [k] or points to one. *)
Inductive given (X : Ext) (E : env) (data : bytes) (T : gty) (k : kind) (t : bytes) : Prop :=
| gi_number U : inside E T U -> plain E U k ->
    occurs data (text (match k with KF32 | KF64 => LFloat t | _ => LInt t end)) -> given X E data T k t
| gi_string U id fs f V n : inside E T U -> plain E U (KStruct id fs) -> In f fs -> is_ignored f = false ->
    string_tagged X E f = true -> V = f_ty f \/ plain E (f_ty f) (KPtr V) -> plain E V k ->
    str_ok n t -> occurs data (text (LStr n t)) -> given X E data T k t.

(** The error names a number of the input that a number of that kind cannot hold. *)
Inductive overflows (X : Ext) (E : env) (data : bytes) (T : gty) : over -> Prop :=
| ov_int k t z : given X E data T (KInt k) t -> int_text t z -> int_range I64 z -> ~ int_range k z ->
    overflows X E data T (OvInt z k)
| ov_uint k t : given X E data T (KUint k) t -> numeral t -> uint_range U64 (num t) -> ~ uint_range k (num t) ->
    overflows X E data T (OvUint (num t) k)
| ov_float t f : given X E data T KF32 t -> float_text X t f -> overflow_f32 f = true ->
    overflows X E data T (OvFloat f).
