(** Specification: which PHP value a Go value represents.

    [repr s t v p]: the value [v] of type [t], found in memory [H], represents
    the PHP value [p].  Memory may be shared or cyclic; the relation is
    inductive, so only values that unfold finitely represent anything.

    The parameter [enter] restricts which slices, maps and struct pointers may
    be entered, given what has been entered on the way ([s]); the boolean tells
    whether the container was found inside an interface.  With the trivial
    restriction ([anything]) the relation is the plain meaning of a value. *)
From Coq Require Import Strings.String Strings.Byte ZArith List Bool Floats.SpecFloat Permutation.
From Verif Require Import Base GoTypes Tags Denote Memory EncCompile Php.
Import ListNotations.
Open Scope Z_scope.

(** How floats are written: in exponent form when the magnitude is not zero and
    is below 1e-6 or at least 1e21 (both rounded to the precision at hand), in
    plain form otherwise. *)
Definition float_of_Z (single : bool) (z : Z) : spec_float :=
  if single then binary_normalize 24 128 z 0 false else binary_normalize 53 1024 z 0 false.
Definition millionth (single : bool) : spec_float :=
  if single then SFdiv 24 128 (float_of_Z true 1) (float_of_Z true (10 ^ 6))
  else SFdiv 53 1024 (float_of_Z false 1) (float_of_Z false (10 ^ 6)).
Definition exponent_form (single : bool) (f : spec_float) : bool :=
  match f with
  | S754_zero _ | S754_nan => false
  | S754_infinity _ => true
  | S754_finite _ m e =>
      SFltb (S754_finite false m e) (millionth single)
      || negb (SFltb (S754_finite false m e) (float_of_Z single (10 ^ 21)))
  end.
Definition float_text_of (X : Ext) (single : bool) (f : spec_float) : bytes :=
  x_fmt X (if exponent_form single f then "e"%byte else "f"%byte) single f.
Definition float_repr (X : Ext) (single : bool) (f : spec_float) : bytes :=
  match f with
  | S754_nan => bs "NAN"
  | S754_infinity false => bs "INF"
  | S754_infinity true => bs "-INF"
  | _ => float_text_of X single f
  end.

(** Scalars, by kind (uintptr is not supported). *)
Inductive scalar_repr (X : Ext) : kind -> hval -> php -> Prop :=
| sr_bool b : scalar_repr X KBool (HBool b) (PBool b)
| sr_int k z : int_range k z -> scalar_repr X (KInt k) (HInt z) (PInt z)
| sr_uint k z : k <> UPtr -> uint_range k z -> scalar_repr X (KUint k) (HUint z) (PInt z)
| sr_f32 f : scalar_repr X KF32 (HF32 f) (PFloat (float_repr X true f))
| sr_f64 f : scalar_repr X KF64 (HF64 f) (PFloat (float_repr X false f))
| sr_str s : scalar_repr X KString (HStr s) (PStr s).

Definition bool_word (b : bool) : bytes := if b then bs "true" else bs "false".

(** The string option inside an interface: exactly the builtin boolean and
    number types (through pointers and interfaces). *)
Inductive quoted_any (X : Ext) (E : env) (H : heap) : gty -> hval -> php -> Prop :=
| qa_ptr_nil t t' : kind_of E t = KPtr t' -> quoted_any X E H t (HPtr None) PNull
| qa_ptr t t' o i c p : kind_of E t = KPtr t' -> cell H o i = Some c ->
    quoted_any X E H t' c p -> quoted_any X E H t (HPtr (Some (o, i))) p
| qa_nil t : iface_kind (kind_of E t) = true -> quoted_any X E H t (HIface None) PNull
| qa_iface t t' v p : iface_kind (kind_of E t) = true ->
    quoted_any X E H t' v p -> quoted_any X E H t (HIface (Some (t', v))) p
| qa_bool b : quoted_any X E H TBool (HBool b) (PStr (bool_word b))
| qa_int k z : int_range k z -> quoted_any X E H (TInt k) (HInt z) (PStr (decimal z))
| qa_uint k z : k <> UPtr -> uint_range k z -> quoted_any X E H (TUint k) (HUint z) (PStr (decimal z))
| qa_f32 f : quoted_any X E H TF32 (HF32 f) (PStr (float_text_of X true f))
| qa_f64 f : quoted_any X E H TF64 (HF64 f) (PStr (float_text_of X false f)).

(** The string option on a field, by kind. *)
Inductive quoted_repr (X : Ext) (E : env) (H : heap) (t : gty) : hval -> php -> Prop :=
| qr_bool b : kind_of E t = KBool -> quoted_repr X E H t (HBool b) (PStr (bool_word b))
| qr_int k z : kind_of E t = KInt k -> int_range k z -> quoted_repr X E H t (HInt z) (PStr (decimal z))
| qr_uint k z : kind_of E t = KUint k -> uint_range k z -> quoted_repr X E H t (HUint z) (PStr (decimal z))
| qr_f32 f : kind_of E t = KF32 -> quoted_repr X E H t (HF32 f) (PStr (float_text_of X true f))
| qr_f64 f : kind_of E t = KF64 -> quoted_repr X E H t (HF64 f) (PStr (float_text_of X false f))
| qr_str s : kind_of E t = KString -> quoted_repr X E H t (HStr s) (PStr s)
| qr_iface v p : iface_kind (kind_of E t) = true -> quoted_any X E H t v p -> quoted_repr X E H t v p.

(** A field takes part unless it is unexported or named "-". *)
Definition written_field (X : Ext) (f : field) : bool :=
  f_exported f && negb (bytes_eqb (tag_key (tag_of X f)) (bs "-")).

(** Zero values. *)
Inductive zero_value : hval -> Prop :=
| zv_bool : zero_value (HBool false)
| zv_int : zero_value (HInt 0)
| zv_uint : zero_value (HUint 0)
| zv_f32 s : zero_value (HF32 (S754_zero s))
| zv_f64 s : zero_value (HF64 (S754_zero s))
| zv_str : zero_value (HStr [])
| zv_slice : zero_value (HSlice None)
| zv_map : zero_value (HMap None)
| zv_ptr : zero_value (HPtr None)
| zv_iface : zero_value (HIface None)
| zv_arr l : Forall zero_value l -> zero_value (HArr l)
| zv_struct l : Forall zero_value l -> zero_value (HStruct l)
| zv_other : zero_value (HOther true).

(** Kinds: plain data, map keys, what the string option may apply to, and the
    pointer elements encoded by structure. *)
Definition plain_kind (k : kind) : bool :=
  match k with
  | KBool | KInt _ | KF32 | KF64 | KString | KUint (U8 | U16 | U32 | U64 | UUint) => true
  | _ => false
  end.
Definition key_kind (k : kind) : bool :=
  match k with KInt _ | KString | KUint (U8 | U16 | U32 | U64 | UUint) => true | _ => false end.
Definition quotable (k : kind) : bool := plain_kind k || iface_kind k.
Definition by_structure (k : kind) : bool :=
  plain_kind k || match k with KStruct _ _ | KMap _ _ => true | _ => false end.

(** Go's method sets: the method set of a declared type holds the methods
    declared with it as receiver, that of a pointer to it also those declared
    with the pointer, that of an interface type the methods it lists; no other
    type has methods.  [marshaler E t]: MarshalPHP is in the method set of [t]. *)
Definition receiver_of (E : env) (t : gty) : recv :=
  match t with TName n => match nth_error E n with Some d => d_marshal d | None => NoMethod end | _ => NoMethod end.
Definition marshaler (E : env) (t : gty) : bool :=
  match receiver_of E t, kind_of E t with
  | ValueRecv, _ => true
  | _, KIface lists => lists
  | _, _ => false
  end
  || match t with
     | TPtr t' => match receiver_of E t' with NoMethod => false | _ => true end
     | _ => false
     end.
(** The type []byte itself, which is a text: no declared type is. *)
Definition bytes_type (t : gty) : bool := gty_eqb t (TSlice (TUint U8)).

(** What MarshalPHP says: the method of a value, of a pointer, of the value
    behind a pointer, of the content of an interface. *)
Inductive says (X : Ext) (E : env) (H : heap) : gty -> hval -> bytes -> Prop :=
| sy_value n v b : x_marshal X n false H v = ROk b ->
    iface_kind (kind_of E (TName n)) = false -> says X E H (TName n) v b
| sy_pointer n d p b : nth_error E n = Some d -> d_marshal d = PointerRecv ->
    x_marshal X n true H (HPtr p) = ROk b -> says X E H (TPtr (TName n)) (HPtr p) b
| sy_pointee n d o i c b : nth_error E n = Some d -> d_marshal d = ValueRecv -> cell H o i = Some c ->
    x_marshal X n false H c = ROk b -> says X E H (TPtr (TName n)) (HPtr (Some (o, i))) b
| sy_iface t t' v b : iface_kind (kind_of E t) = true -> iface_kind (kind_of E t') = false ->
    says X E H t' v b -> says X E H t (HIface (Some (t', v))) b.

Definition elem_or_self (E : env) (t : gty) : gty :=
  match kind_of E t with KPtr t' => t' | _ => t end.

(** ** Types Marshal accepts *)

(** A type is normally encoded by its MarshalPHP method if it has one.  The
    element of a pointer whose own type has no methods (a declared pointer
    type) is taken by structure even if it has. *)
Definition node : Type := bool * gty.       (* by structure?, type *)
Definition speaks (E : env) (n : node) : bool := if fst n then false else marshaler E (snd n).

(** [epart n u]: encoding an [n] may encode a [u] directly below it. *)
Inductive epart (X : Ext) (E : env) (n : node) : node -> Prop :=
| ep_ptr u : speaks E n = false -> kind_of E (snd n) = KPtr u -> iface_kind (kind_of E u) = false ->
    epart X E n (by_structure (kind_of E u), u)
| ep_slice u : speaks E n = false -> (fst n || negb (bytes_type (snd n))) = true -> kind_of E (snd n) = KSlice u ->
    epart X E n (false, u)
| ep_array k u : speaks E n = false -> kind_of E (snd n) = KArray k u -> epart X E n (false, u)
| ep_map k u : speaks E n = false -> kind_of E (snd n) = KMap k u -> epart X E n (false, u)
| ep_field id fs f : speaks E n = false -> kind_of E (snd n) = KStruct id fs -> In f fs ->
    written_field X f = true -> tag_string (tag_of X f) = false ->
    epart X E n (false, elem_or_self E (f_ty f)).
Inductive einside (X : Ext) (E : env) (n : node) : node -> Prop :=
| ei_refl : einside X E n n
| ei_step u w : einside X E n u -> epart X E u w -> einside X E n w.

(** [n] itself (not what it contains) cannot be encoded. *)
Inductive unencodable (X : Ext) (E : env) (n : node) : Prop :=
| ue_uintptr : speaks E n = false -> kind_of E (snd n) = KUint UPtr -> unencodable X E n
| ue_other : speaks E n = false -> kind_of E (snd n) = KOther -> unencodable X E n
| ue_ptr u w : speaks E n = false -> kind_of E (snd n) = KPtr u -> kind_of E u = KPtr w -> unencodable X E n
| ue_key k u : speaks E n = false -> kind_of E (snd n) = KMap k u -> key_kind (kind_of E k) = false ->
    unencodable X E n
| ue_embedded id fs f : speaks E n = false -> kind_of E (snd n) = KStruct id fs -> In f fs ->
    written_field X f = true -> f_anon f = true -> struct_kind (kind_of E (f_ty f)) = true ->
    unencodable X E n
| ue_field_ptr id fs f u w : speaks E n = false -> kind_of E (snd n) = KStruct id fs -> In f fs ->
    written_field X f = true -> kind_of E (f_ty f) = KPtr u -> kind_of E u = KPtr w -> unencodable X E n
| ue_string id fs f : speaks E n = false -> kind_of E (snd n) = KStruct id fs -> In f fs ->
    written_field X f = true -> tag_string (tag_of X f) = true ->
    quotable (kind_of E (elem_or_self E (f_ty f))) = false -> unencodable X E n.

(** No array type inside [t] contains itself. *)
Definition finite_arrays (X : Ext) (E : env) (t : gty) : Prop :=
  forall a k u, einside X E (false, t) a -> speaks E a = false -> kind_of E (snd a) = KArray k u -> ~ einside X E (false, u) a.
Definition encodable (X : Ext) (E : env) (t : gty) : Prop :=
  (forall u, einside X E (false, t) u -> ~ unencodable X E u) /\ finite_arrays X E t.

(** ** The relation *)

(** Map keys: strings and integers. *)
Definition key_repr (X : Ext) (k : kind) (v : hval) (p : php) : Prop := key_kind k = true /\ scalar_repr X k v p.

Section Repr.
  Context (X : Ext) (E : env) (H : heap) {S : Type} (enter : S -> bool -> addr -> S -> Prop).

  Inductive repr : S -> gty -> hval -> php -> Prop :=
  (* a Marshaler speaks for itself *)
  | rp_marshaler s t v b :
      marshaler E t = true -> says X E H t v b -> repr s t v (PRaw b)
  (* []byte is a string *)
  | rp_bytes s t v b :
      marshaler E t = false -> bytes_type t = true -> byte_slice H v = Some b -> repr s t v (PStr b)
  | rp_shape s t v p : marshaler E t = false -> bytes_type t = false -> shape s t v p -> repr s t v p
  (* by structure *)
  with shape : S -> gty -> hval -> php -> Prop :=
  | sh_scalar s t v p : scalar_repr X (kind_of E t) v p -> shape s t v p
  (* structs are arrays keyed by field name *)
  | sh_struct s t id fs l ps :
      kind_of E t = KStruct id fs -> fields s fs l ps -> shape s t (HStruct l) (PArr ps)
  (* arrays and slices are arrays keyed 0, 1, 2, ... *)
  | sh_array s t n t' l ps :
      kind_of E t = KArray n t' -> length l = n -> elems s false t' 0 l ps -> shape s t (HArr l) (PArr ps)
  | sh_slice_nil s t t' : kind_of E t = KSlice t' -> shape s t (HSlice None) PNull
  | sh_slice s s' t t' o i n l ps :
      kind_of E t = KSlice t' -> cells H o i n = Some l ->
      enter s false (cell_at X o i) s' -> elems s' false t' 0 l ps ->
      shape s t (HSlice (Some (o, i, n))) (PArr ps)
  (* maps are arrays in some order *)
  | sh_map_nil s t k t' : kind_of E t = KMap k t' -> shape s t (HMap None) PNull
  | sh_map s s' t k t' o m l ps :
      kind_of E t = KMap k t' -> entries H o = Some m -> Permutation m l ->
      enter s false (map_at X o) s' -> pairs s' false (kind_of E k) t' l ps ->
      shape s t (HMap (Some o)) (PArr ps)
  (* interfaces: what they hold *)
  | sh_iface s t v p : iface_kind (kind_of E t) = true -> inner s t v p -> shape s t v p
  | sh_ptr_iface s t t' v p :
      kind_of E t = KPtr t' -> iface_kind (kind_of E t') = true -> inner s t v p -> shape s t v p
  (* pointers: null, or what they point to *)
  | sh_ptr_nil s t t' :
      kind_of E t = KPtr t' -> iface_kind (kind_of E t') = false -> shape s t (HPtr None) PNull
  | sh_ptr_struct s s' t t' o i c p :
      kind_of E t = KPtr t' -> struct_kind (kind_of E t') = true ->
      cell H o i = Some c -> enter s false (cell_at X o i) s' -> shape s' t' c p ->
      shape s t (HPtr (Some (o, i))) p
  | sh_ptr_direct s t t' o i c p :
      kind_of E t = KPtr t' -> struct_kind (kind_of E t') = false -> by_structure (kind_of E t') = true ->
      cell H o i = Some c -> shape s t' c p -> shape s t (HPtr (Some (o, i))) p
  | sh_ptr s t t' o i c p :
      kind_of E t = KPtr t' -> by_structure (kind_of E t') = false -> iface_kind (kind_of E t') = false ->
      cell H o i = Some c -> repr s t' c p -> shape s t (HPtr (Some (o, i))) p
  (* inside an interface: pointers and interfaces are looked through *)
  with inner : S -> gty -> hval -> php -> Prop :=
  | in_ptr_nil s t t' : kind_of E t = KPtr t' -> inner s t (HPtr None) PNull
  | in_ptr s t t' o i c p :
      kind_of E t = KPtr t' -> cell H o i = Some c -> inner s t' c p -> inner s t (HPtr (Some (o, i))) p
  | in_nil s t : iface_kind (kind_of E t) = true -> inner s t (HIface None) PNull
  | in_iface s t t' v p :
      iface_kind (kind_of E t) = true -> inner s t' v p -> inner s t (HIface (Some (t', v))) p
  | in_scalar s t v p : scalar_repr X (kind_of E t) v p -> inner s t v p
  | in_slice_nil s t t' :
      kind_of E t = KSlice t' -> iface_kind (kind_of E t') = true -> inner s t (HSlice None) PNull
  | in_slice s s' t t' o i n l ps :
      kind_of E t = KSlice t' -> iface_kind (kind_of E t') = true -> cells H o i n = Some l ->
      enter s true (cell_at X o i) s' -> elems s' true t' 0 l ps ->
      inner s t (HSlice (Some (o, i, n))) (PArr ps)
  | in_slice_typed_nil s t t' p :
      kind_of E t = KSlice t' -> iface_kind (kind_of E t') = false -> encodable X E t ->
      repr s t (HSlice None) p -> inner s t (HSlice None) p
  | in_slice_typed s s' t t' o i n p :
      kind_of E t = KSlice t' -> iface_kind (kind_of E t') = false -> encodable X E t ->
      enter s true (cell_at X o i) s' -> repr s' t (HSlice (Some (o, i, n))) p ->
      inner s t (HSlice (Some (o, i, n))) p
  | in_map_nil s t k t' :
      kind_of E t = KMap k t' -> key_kind (kind_of E k) = true -> inner s t (HMap None) PNull
  | in_map_empty s s' t k t' o :
      kind_of E t = KMap k t' -> key_kind (kind_of E k) = true -> entries H o = Some [] ->
      enter s true (map_at X o) s' -> inner s t (HMap (Some o)) (PArr [])
  | in_map s s' t k t' o m l ps :
      kind_of E t = KMap k t' -> key_kind (kind_of E k) = true -> entries H o = Some m -> m <> [] ->
      (iface_kind (kind_of E t') = true \/ encodable X E t') ->
      Permutation m l -> enter s true (map_at X o) s' ->
      pairs s' (iface_kind (kind_of E t')) (kind_of E k) t' l ps ->
      inner s t (HMap (Some o)) (PArr ps)
  | in_struct s t id fs v p :
      kind_of E t = KStruct id fs -> encodable X E t -> repr s t v p -> inner s t v p
  (* elements, keyed from i; the boolean: inside an interface *)
  with elems : S -> bool -> gty -> Z -> list hval -> list (php * php) -> Prop :=
  | el_nil s b t i : elems s b t i [] []
  | el_cons s t i v l p ps :
      repr s t v p -> elems s false t (i + 1) l ps -> elems s false t i (v :: l) ((PInt i, p) :: ps)
  | el_cons_in s t i v l p ps :
      inner s t v p -> elems s true t (i + 1) l ps -> elems s true t i (v :: l) ((PInt i, p) :: ps)
  (* map entries *)
  with pairs : S -> bool -> kind -> gty -> list (hval * hval) -> list (php * php) -> Prop :=
  | pa_nil s b k t : pairs s b k t [] []
  | pa_cons s k t kv v l kp p ps :
      key_repr X k kv kp -> repr s t v p -> pairs s false k t l ps ->
      pairs s false k t ((kv, v) :: l) ((kp, p) :: ps)
  | pa_cons_in s k t kv v l kp p ps :
      key_repr X k kv kp -> inner s t v p -> pairs s true k t l ps ->
      pairs s true k t ((kv, v) :: l) ((kp, p) :: ps)
  (* fields, in declaration order *)
  with fields : S -> list field -> list hval -> list (php * php) -> Prop :=
  | fl_nil s : fields s [] [] []
  | fl_skip s f fs v l ps :
      written_field X f = false -> fields s fs l ps -> fields s (f :: fs) (v :: l) ps
  | fl_omit s f fs v l ps :
      written_field X f = true -> tag_omitempty (tag_of X f) = true -> zero_value v ->
      fields s fs l ps -> fields s (f :: fs) (v :: l) ps
  | fl_write s f fs v l p ps :
      written_field X f = true -> (tag_omitempty (tag_of X f) = true -> ~ zero_value v) ->
      field_val s f v p -> fields s fs l ps ->
      fields s (f :: fs) (v :: l) ((PStr (field_key X f), p) :: ps)
  with field_val : S -> field -> hval -> php -> Prop :=
  | fv_nil s f t' : kind_of E (f_ty f) = KPtr t' -> field_val s f (HPtr None) PNull
  | fv_ptr_struct s s' f t' o i c p :
      kind_of E (f_ty f) = KPtr t' -> tag_string (tag_of X f) = false ->
      struct_kind (kind_of E t') = true -> cell H o i = Some c ->
      enter s false (cell_at X o i) s' -> repr s' t' c p -> field_val s f (HPtr (Some (o, i))) p
  | fv_ptr s f t' o i c p :
      kind_of E (f_ty f) = KPtr t' -> tag_string (tag_of X f) = false ->
      struct_kind (kind_of E t') = false -> cell H o i = Some c -> repr s t' c p ->
      field_val s f (HPtr (Some (o, i))) p
  | fv_plain s f v p :
      ptr_kind (kind_of E (f_ty f)) = false -> tag_string (tag_of X f) = false ->
      repr s (f_ty f) v p -> field_val s f v p
  | fv_ptr_quoted s f t' o i c p :
      kind_of E (f_ty f) = KPtr t' -> tag_string (tag_of X f) = true -> cell H o i = Some c ->
      quoted_repr X E H t' c p -> field_val s f (HPtr (Some (o, i))) p
  | fv_quoted s f v p :
      ptr_kind (kind_of E (f_ty f)) = false -> tag_string (tag_of X f) = true ->
      quoted_repr X E H (f_ty f) v p -> field_val s f v p.
End Repr.

Scheme repr_mut := Minimality for repr Sort Prop
  with shape_mut := Minimality for shape Sort Prop
  with inner_mut := Minimality for inner Sort Prop
  with elems_mut := Minimality for elems Sort Prop
  with pairs_mut := Minimality for pairs Sort Prop
  with fields_mut := Minimality for fields Sort Prop
  with field_val_mut := Minimality for field_val Sort Prop.
Combined Scheme repr_ind7 from repr_mut, shape_mut, inner_mut, elems_mut, pairs_mut, fields_mut, field_val_mut.

(** No restriction: the plain meaning of a value. *)
Definition anything (s : unit) (inside : bool) (a : addr) (s' : unit) : Prop := True.
Definition Represents (X : Ext) (E : env) (H : heap) (t : gty) (v : hval) (p : php) : Prop :=
  repr X E H anything tt t v p.

(** A struct field's value. *)
Definition FieldRepresents (X : Ext) (E : env) (H : heap) (f : field) (v : hval) (p : php) : Prop :=
  field_val X E H anything tt f v p.

(** At most 1000 slices, maps and struct pointers nested in each other outside
    interfaces, and no slice or map inside an interface that lies inside
    itself. *)
Definition nested_1000 (s : Z * list addr) (inside : bool) (a : addr) (s' : Z * list addr) : Prop :=
  if inside then ~ In a (snd s) /\ s' = (fst s, a :: snd s)
  else fst s < 1000 /\ s' = (fst s + 1, snd s).
(** Any nesting; every slice, map and struct pointer differs from all those it
    lies in.  (A slice with non-interface elements found inside an interface is
    entered twice, so this excludes it.) *)
Definition apart (s : list addr) (inside : bool) (a : addr) (s' : list addr) : Prop :=
  ~ In a s /\ s' = a :: s.
