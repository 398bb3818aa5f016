(** Specification: values as the Go type system and runtime guarantee them, and
    the shapes of memory the termination theorems speak about. *)
From Coq Require Import Strings.String Strings.Byte ZArith List Bool Relations.Relation_Operators.
From Verif Require Import Base GoTypes Tags Denote Memory EncCompile Php Repr.
Import ListNotations.
Open Scope Z_scope.

(** ** What a value consists of *)

(** [part t v u w]: the value [v] of type [t] consists, among others, of [w] of
    type [u]: an element, a key, an entry, a field, what a pointer points to,
    what an interface holds. *)
Inductive part (E : env) (H : heap) (t : gty) : hval -> gty -> hval -> Prop :=
| pt_slice u o i n l x : kind_of E t = KSlice u -> cells H o i n = Some l -> In x l ->
    part E H t (HSlice (Some (o, i, n))) u x
| pt_array n u l x : kind_of E t = KArray n u -> In x l -> part E H t (HArr l) u x
| pt_key k u o m y x : kind_of E t = KMap k u -> entries H o = Some m -> In (y, x) m ->
    part E H t (HMap (Some o)) k y
| pt_entry k u o m y x : kind_of E t = KMap k u -> entries H o = Some m -> In (y, x) m ->
    part E H t (HMap (Some o)) u x
| pt_field id fs l f x : kind_of E t = KStruct id fs -> In (f, x) (combine fs l) ->
    part E H t (HStruct l) (f_ty f) x
| pt_ptr u o i c : kind_of E t = KPtr u -> cell H o i = Some c -> part E H t (HPtr (Some (o, i))) u c
| pt_iface u x : iface_kind (kind_of E t) = true -> part E H t (HIface (Some (u, x))) u x.
Inductive within (E : env) (H : heap) (t : gty) (v : hval) : gty -> hval -> Prop :=
| wi_refl : within E H t v t v
| wi_step u w u' w' : within E H t v u w -> part E H u w u' w' -> within E H t v u' w'.

(** [here t v]: [v] by itself (not what it consists of) is a value of type [t]. *)
Inductive here (E : env) (H : heap) (t : gty) : hval -> Prop :=
| hr_bool b : kind_of E t = KBool -> here E H t (HBool b)
| hr_int k z : kind_of E t = KInt k -> int_range k z -> here E H t (HInt z)
| hr_uint k z : kind_of E t = KUint k -> uint_range k z -> here E H t (HUint z)
| hr_f32 f : kind_of E t = KF32 -> here E H t (HF32 f)
| hr_f64 f : kind_of E t = KF64 -> here E H t (HF64 f)
| hr_str s : kind_of E t = KString -> here E H t (HStr s)
| hr_slice_nil u : kind_of E t = KSlice u -> here E H t (HSlice None)
| hr_slice u o i n l : kind_of E t = KSlice u -> cells H o i n = Some l -> here E H t (HSlice (Some (o, i, n)))
| hr_array n u l : kind_of E t = KArray n u -> length l = n -> here E H t (HArr l)
| hr_map_nil k u : kind_of E t = KMap k u -> here E H t (HMap None)
| hr_map k u o m : kind_of E t = KMap k u -> entries H o = Some m -> here E H t (HMap (Some o))
| hr_ptr_nil u : kind_of E t = KPtr u -> here E H t (HPtr None)
| hr_ptr u o i c : kind_of E t = KPtr u -> cell H o i = Some c -> here E H t (HPtr (Some (o, i)))
| hr_iface_nil : iface_kind (kind_of E t) = true -> here E H t (HIface None)
(* an interface never holds an interface; one with the method holds a Marshaler *)
| hr_iface u x : iface_kind (kind_of E t) = true -> iface_kind (kind_of E u) = false ->
    (marshaler E t = true -> marshaler E u = true) -> here E H t (HIface (Some (u, x)))
| hr_struct id fs l : kind_of E t = KStruct id fs -> length l = length fs -> here E H t (HStruct l)
| hr_other z : kind_of E t = KOther -> here E H t (HOther z).

(** [v] is a value of type [t] in memory [H]: it is one everywhere. *)
Definition well_typed (E : env) (H : heap) (t : gty) (v : hval) : Prop :=
  forall u w, within E H t v u w -> here E H u w.

(** ** Marshalers without a receiver *)

(** A nil pointer whose method has a value receiver; a nil interface with the
    method; such an interface holding such a pointer. *)
Inductive nil_marshaler (E : env) : gty -> hval -> Prop :=
| nm_ptr n d : nth_error E n = Some d -> d_marshal d = ValueRecv -> nil_marshaler E (TPtr (TName n)) (HPtr None)
| nm_nil t : iface_kind (kind_of E t) = true -> marshaler E t = true -> nil_marshaler E t (HIface None)
| nm_iface t u x : iface_kind (kind_of E t) = true -> marshaler E t = true -> nil_marshaler E u x ->
    nil_marshaler E t (HIface (Some (u, x))).
Definition no_nil_marshalers (E : env) (H : heap) (t : gty) (v : hval) : Prop :=
  forall u w, within E H t v u w -> ~ nil_marshaler E u w.

(** User methods return; they do not panic. *)
Definition methods_return (X : Ext) : Prop := forall n b H v, x_marshal X n b H v <> RFuel.
Definition methods_do_not_panic (X : Ext) : Prop := forall n b H v p, x_marshal X n b H v <> RPanic p.

(** ** Cycles *)

(** [direct v w]: [w] is found in [v] without entering a slice or a map. *)
Inductive direct (H : heap) : hval -> hval -> Prop :=
| di_field l x : In x l -> direct H (HStruct l) x
| di_elem l x : In x l -> direct H (HArr l) x
| di_iface t x : direct H (HIface (Some (t, x))) x
| di_ptr o i c : cell H o i = Some c -> direct H (HPtr (Some (o, i))) c.
(** Every cycle in memory passes through a slice or a map. *)
Definition container_cycles (H : heap) : Prop := forall v, ~ clos_trans hval (direct H) v v.

(** ** Types without interfaces *)

(** [n] itself (not what it contains) is encoded as an interface, or points to
    one, or is a struct with a field of interface type with the string option. *)
Inductive has_interface (X : Ext) (E : env) (n : node) : Prop :=
| hi_self : speaks E n = false -> iface_kind (kind_of E (snd n)) = true -> has_interface X E n
| hi_ptr u : speaks E n = false -> kind_of E (snd n) = KPtr u -> iface_kind (kind_of E u) = true -> has_interface X E n
| hi_string id fs f : speaks E n = false -> kind_of E (snd n) = KStruct id fs -> In f fs ->
    written_field X f = true -> tag_string (tag_of X f) = true ->
    iface_kind (kind_of E (elem_or_self E (f_ty f))) = true -> has_interface X E n.
Definition no_interfaces (X : Ext) (E : env) (t : gty) : Prop :=
  forall u, einside X E (false, t) u -> ~ has_interface X E u.

(** ** Values that contain themselves *)

(** [shown (t, v) (u, w)]: serializing [v] of type [t] includes serializing [w]
    of type [u]: an element, an entry, a field that is written, what a pointer
    points to, what an interface holds; nothing if [t] has a MarshalPHP method. *)
Inductive shown (X : Ext) (E : env) (H : heap) : gty * hval -> gty * hval -> Prop :=
| sn_slice t u o i n l x : marshaler E t = false -> kind_of E t = KSlice u -> cells H o i n = Some l -> In x l ->
    shown X E H (t, HSlice (Some (o, i, n))) (u, x)
| sn_array t n u l x : marshaler E t = false -> kind_of E t = KArray n u -> In x l -> shown X E H (t, HArr l) (u, x)
| sn_entry t k u o m y x : marshaler E t = false -> kind_of E t = KMap k u -> entries H o = Some m -> In (y, x) m ->
    shown X E H (t, HMap (Some o)) (u, x)
| sn_field t id fs l f x : marshaler E t = false -> kind_of E t = KStruct id fs -> In (f, x) (combine fs l) ->
    written_field X f = true -> (tag_omitempty (tag_of X f) = true -> ~ zero_value x) ->
    shown X E H (t, HStruct l) (f_ty f, x)
| sn_ptr t u o i c : marshaler E t = false -> kind_of E t = KPtr u -> cell H o i = Some c ->
    shown X E H (t, HPtr (Some (o, i))) (u, c)
| sn_iface t u x : marshaler E t = false -> iface_kind (kind_of E t) = true ->
    shown X E H (t, HIface (Some (u, x))) (u, x).
(** [v] contains, in what is serialized of it, something that contains itself. *)
Definition cyclic (X : Ext) (E : env) (H : heap) (t : gty) (v : hval) : Prop :=
  exists n, clos_refl_trans _ (shown X E H) (t, v) n /\ clos_trans _ (shown X E H) n n.
