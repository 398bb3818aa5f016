(** Specification: PHP data that a trip through Go leaves as it is. *)
From Coq Require Import Strings.String Strings.Byte ZArith List Bool Floats.SpecFloat Permutation.
From Verif Require Import Base GoTypes Tags Denote Memory EncCompile Php Repr RoundTrip.
Import ListNotations.
Open Scope Z_scope.

Section Mirror.
  Context (X : Ext) (E : env).

  (** A type of kind [k] without methods. *)
  Definition simple (T : gty) (k : kind) : Prop :=
    has_unmarshal E T = None /\ marshaler E T = false /\ kind_of E T = k.

  (** A field with the string option: the PHP data is the text of a boolean or
      number. *)
  Inductive mirrors_text : gty -> php -> gval -> Prop :=
  | mt_bool T b : simple T KBool -> mirrors_text T (PStr (bool_word b)) (VBool b)
  | mt_int T k z : simple T (KInt k) -> int_range k z -> mirrors_text T (PStr (decimal z)) (VInt z)
  | mt_uint T k z : simple T (KUint k) -> uint_range k z -> mirrors_text T (PStr (decimal z)) (VUint z)
  | mt_f64 T t f : simple T KF64 -> float_text X t f -> float_text_of X false f = t -> mirrors_text T (PStr t) (VF64 f)
  | mt_f32 T t f : simple T KF32 -> float_text X t f -> overflow_f32 f = false ->
      float_text_of X true (f32_of_f64 f) = t -> mirrors_text T (PStr t) (VF32 (f32_of_f64 f)).

  (** [mirrors T p w]: [w] is the value of type [T] that says the same as [p].
      - Booleans, integers that fit and strings always have one; floats when they
        are written the way Go writes them.
      - null is a nil pointer, slice, map or interface.
      - A list 0, 1, 2, ... is a slice if it is not empty, and an array of its
        length.
      - Any array with different keys is a map.
      - A struct wants its fields, in the order of their declaration; a field
        with omitempty is there if and only if it is not empty. *)
  Inductive mirrors : gty -> php -> gval -> Prop :=
  | mi_bool T b : simple T KBool -> mirrors T (PBool b) (VBool b)
  | mi_int T k z : simple T (KInt k) -> int_range k z -> mirrors T (PInt z) (VInt z)
  | mi_uint T k z : simple T (KUint k) -> k <> UPtr -> uint_range k z -> mirrors T (PInt z) (VUint z)
  | mi_f64 T t f : simple T KF64 -> float_text X t f -> float_repr X false f = t -> mirrors T (PFloat t) (VF64 f)
  | mi_f32 T t f : simple T KF32 -> float_text X t f -> overflow_f32 f = false ->
      float_repr X true (f32_of_f64 f) = t -> mirrors T (PFloat t) (VF32 (f32_of_f64 f))
  | mi_str T s : simple T KString -> mirrors T (PStr s) (VStr s)
  | mi_bytes T s : bytes_type T = true -> mirrors T (PStr s) (vbytes s)
  | mi_slice_null T t : simple T (KSlice t) -> bytes_type T = false -> mirrors T PNull (VSlice None)
  | mi_slice T t ps ws : simple T (KSlice t) -> bytes_type T = false -> ps <> [] ->
      mirrors_list t 0 ps ws -> mirrors T (PArr ps) (VSlice (Some ws))
  | mi_array T n t ps ws : simple T (KArray n t) -> length ps = n ->
      mirrors_list t 0 ps ws -> mirrors T (PArr ps) (VArr ws)
  | mi_map_null T k t : simple T (KMap k t) -> mirrors T PNull (VMap None)
  | mi_map T k t ps ws : simple T (KMap k t) -> distinct ws ->
      mirrors_map k t ps ws -> mirrors T (PArr ps) (VMap (Some ws))
  | mi_struct T id fs ps ws : simple T (KStruct id fs) ->
      mirrors_fields fs ps ws -> mirrors T (PArr ps) (VStruct ws)
  | mi_ptr_null T t : simple T (KPtr t) -> mirrors T PNull (VPtr None)
  | mi_ptr T t p w : simple T (KPtr t) -> p <> PNull -> mirrors t p w -> mirrors T p (VPtr (Some w))
  | mi_iface_null T k : simple T k -> iface_kind k = true -> mirrors T PNull (VIface None)
  (* any: scalars only *)
  | mi_any T t p w : simple T KAny -> In t [TBool; TInt I64; TF64; TString] -> mirrors t p w -> mirrors T p (VIface (Some (t, w)))
  with mirrors_list : gty -> Z -> list (php * php) -> list gval -> Prop :=
  | ml_nil t i : mirrors_list t i [] []
  | ml_cons t i p ps w ws : mirrors t p w -> mirrors_list t (i + 1) ps ws -> mirrors_list t i ((PInt i, p) :: ps) (w :: ws)
  with mirrors_map : gty -> gty -> list (php * php) -> list (gval * gval) -> Prop :=
  | mm_nil k t : mirrors_map k t [] []
  | mm_cons k t kp p ps kw w ws : key_kind (kind_of E k) = true -> mirrors k kp kw -> mirrors t p w -> mirrors_map k t ps ws ->
      mirrors_map k t ((kp, p) :: ps) ((kw, w) :: ws)
  with mirrors_fields : list field -> list (php * php) -> list gval -> Prop :=
  | mf_nil : mirrors_fields [] [] []
  | mf_skip f fs ps ws : written_field X f = false -> mirrors_fields fs ps ws ->
      mirrors_fields (f :: fs) ps (zero E (f_ty f) :: ws)
  | mf_omit f fs ps ws : written_field X f = true -> tag_omitempty (tag_of X f) = true -> mirrors_fields fs ps ws ->
      mirrors_fields (f :: fs) ps (zero E (f_ty f) :: ws)
  | mf_write f fs p ps w ws : written_field X f = true -> (tag_omitempty (tag_of X f) = true -> ~ blank w) ->
      mirrors_field f p w -> mirrors_fields fs ps ws ->
      mirrors_fields (f :: fs) ((PStr (field_key X f), p) :: ps) (w :: ws)
  with mirrors_field : field -> php -> gval -> Prop :=
  | mv_plain f p w : tag_string (tag_of X f) = false -> mirrors (f_ty f) p w -> mirrors_field f p w
  | mv_text f p w : tag_string (tag_of X f) = true -> mirrors_text (f_ty f) p w -> mirrors_field f p w
  | mv_text_nil f k : tag_string (tag_of X f) = true -> simple (f_ty f) k -> iface_kind k = true -> mirrors_field f PNull (VIface None)
  | mv_text_null f t : tag_string (tag_of X f) = true -> simple (f_ty f) (KPtr t) -> mirrors_field f PNull (VPtr None)
  | mv_text_ptr f t p w : tag_string (tag_of X f) = true -> simple (f_ty f) (KPtr t) -> mirrors_text t p w ->
      mirrors_field f p (VPtr (Some w)).

  (** The same PHP data, except that arrays which Go keeps in maps may have their
      entries in another order. *)
  Inductive reordered : gty -> php -> php -> Prop :=
  | re_same T p : reordered T p p
  | re_slice T t ps qs : kind_of E T = KSlice t ->
      Forall2 (fun a b => fst a = fst b /\ reordered t (snd a) (snd b)) ps qs -> reordered T (PArr ps) (PArr qs)
  | re_array T n t ps qs : kind_of E T = KArray n t ->
      Forall2 (fun a b => fst a = fst b /\ reordered t (snd a) (snd b)) ps qs -> reordered T (PArr ps) (PArr qs)
  | re_map T k t ps ps' qs : kind_of E T = KMap k t -> Permutation ps ps' ->
      Forall2 (fun a b => fst a = fst b /\ reordered t (snd a) (snd b)) ps' qs -> reordered T (PArr ps) (PArr qs)
  | re_struct T id fs ps qs : kind_of E T = KStruct id fs ->
      Forall2 (fun a b => fst a = fst b /\ exists f, In f fs /\ written_field X f = true /\ fst a = PStr (field_key X f) /\
                          reordered (f_ty f) (snd a) (snd b)) ps qs -> reordered T (PArr ps) (PArr qs)
  | re_ptr T t p q : kind_of E T = KPtr t -> reordered t p q -> reordered T p q.
End Mirror.

Scheme mirrors_mut := Minimality for mirrors Sort Prop
  with mirrors_list_mut := Minimality for mirrors_list Sort Prop
  with mirrors_map_mut := Minimality for mirrors_map Sort Prop
  with mirrors_fields_mut := Minimality for mirrors_fields Sort Prop
  with mirrors_field_mut := Minimality for mirrors_field Sort Prop.
Combined Scheme mirrors_ind5 from mirrors_mut, mirrors_list_mut, mirrors_map_mut, mirrors_fields_mut, mirrors_field_mut.
