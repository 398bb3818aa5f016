(** Which calls an encoder makes: the call graph of Encode.v, without the
    results.  [calls g j j']: encoding [j] may encode [j'] directly; [g] tells
    whether the recursion check (ptr.go:58-105, interface.go:58-67) lies
    between them. *)
From Coq Require Import Strings.String Strings.Byte ZArith List Bool.
From Verif Require Import Base GoTypes Strconv Tags Memory EncCompile Encode.
Import ListNotations.
Open Scope Z_scope.

(** [Enc]: enc_f in some mode; [Str]: enc_as_string; [IStr]: enc_iface_str. *)
Inductive job := Enc (m : mode) (t : gty) (v : hval) | Str (t : gty) (v : hval) | IStr (t : gty) (v : hval).

Section Jobs.
  Context (X : Ext) (E : env) (H : heap) (ord : nat -> list (hval * hval) -> list (hval * hval)).

  Definition run (fuel : nat) (j : job) : M bytes :=
    match j with
    | Enc m t v => enc_f X E H ord fuel m t v
    | Str t v => enc_as_string X E H fuel t v
    | IStr t v => enc_iface_str X E H fuel t v
    end.

  (** struct.go:85-100, 137-164 *)
  Inductive field_calls (f : field) : hval -> bool -> job -> Prop :=
  | fc_ptr_str t' o i c : kind_of E (f_ty f) = KPtr t' -> tag_string (tag_of X f) = true -> cell H o i = Some c ->
      field_calls f (HPtr (Some (o, i))) false (Str t' c)
  | fc_ptr_struct t' o i c : kind_of E (f_ty f) = KPtr t' -> tag_string (tag_of X f) = false -> struct_kind (kind_of E t') = true ->
      cell H o i = Some c -> field_calls f (HPtr (Some (o, i))) true (Enc MType t' c)
  | fc_ptr t' o i c : kind_of E (f_ty f) = KPtr t' -> tag_string (tag_of X f) = false -> struct_kind (kind_of E t') = false ->
      cell H o i = Some c -> field_calls f (HPtr (Some (o, i))) false (Enc MType t' c)
  | fc_str v : ptr_kind (kind_of E (f_ty f)) = false -> tag_string (tag_of X f) = true -> field_calls f v false (Str (f_ty f) v)
  | fc_plain v : ptr_kind (kind_of E (f_ty f)) = false -> tag_string (tag_of X f) = false -> field_calls f v false (Enc MType (f_ty f) v).

  Inductive calls : bool -> job -> job -> Prop :=
  | c_shape t v : implements E t = false -> is_bytes t = false -> calls false (Enc MType t v) (Enc MShape t v)
  | c_field t id fs l f v g j : kind_of E t = KStruct id fs -> In (f, v) (combine fs l) -> enc_skipped X f = false ->
      field_calls f v g j -> calls g (Enc MShape t (HStruct l)) j
  | c_array t n t' l x : kind_of E t = KArray n t' -> In x l -> calls false (Enc MShape t (HArr l)) (Enc MType t' x)
  | c_slice t t' o i n l x : kind_of E t = KSlice t' -> cells H o i n = Some l -> In x l ->
      calls true (Enc MShape t (HSlice (Some (o, i, n)))) (Enc MType t' x)
  | c_map t k t' o m y x : kind_of E t = KMap k t' -> entries H o = Some m -> In (y, x) m ->
      calls true (Enc MShape t (HMap (Some o))) (Enc MType t' x)
  | c_iface t v : iface_kind (kind_of E t) = true -> calls false (Enc MShape t v) (Enc MIface t v)
  | c_ptr_iface t t' v : kind_of E t = KPtr t' -> iface_kind (kind_of E t') = true -> calls false (Enc MShape t v) (Enc MIface t v)
  | c_ptr_struct t t' o i c : kind_of E t = KPtr t' -> struct_kind (kind_of E t') = true -> cell H o i = Some c ->
      calls true (Enc MShape t (HPtr (Some (o, i)))) (Enc MShape t' c)
  | c_ptr_direct t t' o i c : kind_of E t = KPtr t' -> struct_kind (kind_of E t') = false -> ptr_direct (kind_of E t') = true ->
      cell H o i = Some c -> calls false (Enc MShape t (HPtr (Some (o, i)))) (Enc MShape t' c)
  | c_ptr t t' o i c : kind_of E t = KPtr t' -> iface_kind (kind_of E t') = false -> ptr_direct (kind_of E t') = false ->
      cell H o i = Some c -> calls false (Enc MShape t (HPtr (Some (o, i)))) (Enc MType t' c)
  | i_ptr t t' o i c : kind_of E t = KPtr t' -> cell H o i = Some c ->
      calls false (Enc MIface t (HPtr (Some (o, i)))) (Enc MIface t' c)
  | i_iface t t' v : iface_kind (kind_of E t) = true -> calls false (Enc MIface t (HIface (Some (t', v)))) (Enc MIface t' v)
  | i_slice_nil t t' : kind_of E t = KSlice t' -> iface_kind (kind_of E t') = false ->
      calls false (Enc MIface t (HSlice None)) (Enc MType t (HSlice None))
  | i_slice t t' o i n l x : kind_of E t = KSlice t' -> iface_kind (kind_of E t') = true -> cells H o i n = Some l -> In x l ->
      calls true (Enc MIface t (HSlice (Some (o, i, n)))) (Enc MIface t' x)
  | i_slice_typed t t' o i n : kind_of E t = KSlice t' -> iface_kind (kind_of E t') = false ->
      calls true (Enc MIface t (HSlice (Some (o, i, n)))) (Enc MType t (HSlice (Some (o, i, n))))
  | i_map t k t' o m y x : kind_of E t = KMap k t' -> entries H o = Some m -> In (y, x) m ->
      calls true (Enc MIface t (HMap (Some o))) (Enc (if iface_kind (kind_of E t') then MIface else MType) t' x)
  | i_struct t id fs v : kind_of E t = KStruct id fs -> calls false (Enc MIface t v) (Enc MType t v)
  | s_iface t v : iface_kind (kind_of E t) = true -> calls false (Str t v) (IStr t v)
  | q_ptr t t' o i c : kind_of E t = KPtr t' -> cell H o i = Some c -> calls false (IStr t (HPtr (Some (o, i)))) (IStr t' c)
  | q_iface t t' v : iface_kind (kind_of E t) = true -> calls false (IStr t (HIface (Some (t', v)))) (IStr t' v).
End Jobs.
