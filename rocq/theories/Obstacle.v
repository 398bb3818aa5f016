(** Specification: what Marshal comes to in a value, and what stops it there (C70). *)
From Coq Require Import Strings.String Strings.Byte ZArith List Bool Relations.Relation_Operators.
From Verif Require Import Base GoTypes Tags Denote Memory EncCompile Php Repr Positions.
Import ListNotations.
Open Scope Z_scope.

(** ** Types that cannot be encoded, and what the error says of them *)

(** [n] itself cannot be encoded ([unencodable] in Repr.v); the error. *)
Inductive blamed (X : Ext) (E : env) (n : node) : cause -> Prop :=
| bm_uintptr : speaks E n = false -> kind_of E (snd n) = KUint UPtr -> blamed X E n (CType (snd n))
| bm_other : speaks E n = false -> kind_of E (snd n) = KOther -> blamed X E n (CType (snd n))
| bm_ptr u w : speaks E n = false -> kind_of E (snd n) = KPtr u -> kind_of E u = KPtr w -> blamed X E n (CPtr u)
| bm_key k u : speaks E n = false -> kind_of E (snd n) = KMap k u -> key_kind (kind_of E k) = false ->
    blamed X E n (CKey k)
| bm_embedded id fs f : speaks E n = false -> kind_of E (snd n) = KStruct id fs -> In f fs ->
    written_field X f = true -> f_anon f = true -> struct_kind (kind_of E (f_ty f)) = true ->
    blamed X E n (CEmbedded (f_ty f))
| bm_field_ptr id fs f u w : speaks E n = false -> kind_of E (snd n) = KStruct id fs -> In f fs ->
    written_field X f = true -> kind_of E (f_ty f) = KPtr u -> kind_of E u = KPtr w -> blamed X E n (CFieldPtr (f_ty f))
| bm_string id fs f : speaks E n = false -> kind_of E (snd n) = KStruct id fs -> In f fs ->
    written_field X f = true -> tag_string (tag_of X f) = true ->
    quotable (kind_of E (elem_or_self E (f_ty f))) = false -> blamed X E n (CString (elem_or_self E (f_ty f))).
(** Inside the type [t] there is a type of which [c] is said. *)
Definition faulty (X : Ext) (E : env) (t : gty) (c : cause) : Prop :=
  exists n, einside X E (false, t) n /\ blamed X E n c.

(** ** Nesting *)

(** What is known on the way: the addresses recorded, and the number of slices,
    maps and struct pointers entered outside interfaces. *)
Definition trail : Type := list addr * Z.
(** Slices and maps inside interfaces are recorded, and so is everything from the
    1001st container on; what is recorded is not entered again. *)
Definition recorded (s : trail) (inside : bool) : Prop := inside = true \/ 1000 <= snd s.
Definition enters (s : trail) (inside : bool) (a : addr) (s' : trail) : Prop :=
  (recorded s inside -> ~ In a (fst s) /\ fst s' = a :: fst s) /\ (~ recorded s inside -> fst s' = fst s) /\
  snd s' = snd s + (if inside then 0 else 1).
Definition refused (s : trail) (inside : bool) (a : addr) : Prop := recorded s inside /\ In a (fst s).

(** ** Places *)

(** How a value is taken: by its type, by its kind, as a field, as the content of an
    interface, as a text (the string option), as the content of an interface as a text. *)
Inductive way := ByType | ByKind | AsField (f : field) | Inside | AsText | AsTextInside.
Record place_in := At { by_ : way; trail_ : trail; type_ : gty; value_ : hval }.

Section Places.
  Context (X : Ext) (E : env) (H : heap).

  (** One step down. *)
  Inductive below : place_in -> place_in -> Prop :=
  | bl_type s t v : marshaler E t = false -> bytes_type t = false -> below (At ByType s t v) (At ByKind s t v)
  | bl_array s t n u l x : kind_of E t = KArray n u -> In x l -> below (At ByKind s t (HArr l)) (At ByType s u x)
  | bl_slice s s' t u o i n l x : kind_of E t = KSlice u -> cells H o i n = Some l -> enters s false (cell_at X o i) s' -> In x l ->
      below (At ByKind s t (HSlice (Some (o, i, n)))) (At ByType s' u x)
  | bl_map s s' t k u o m y x : kind_of E t = KMap k u -> entries H o = Some m -> enters s false (map_at X o) s' -> In (y, x) m ->
      below (At ByKind s t (HMap (Some o))) (At ByType s' u x)
  | bl_struct s t id fs l f x : kind_of E t = KStruct id fs -> In (f, x) (combine fs l) ->
      written_field X f = true -> (tag_omitempty (tag_of X f) = true -> ~ zero_value x) ->
      below (At ByKind s t (HStruct l)) (At (AsField f) s (f_ty f) x)
  | bl_field s f t v : ptr_kind (kind_of E t) = false -> tag_string (tag_of X f) = false ->
      below (At (AsField f) s t v) (At ByType s t v)
  | bl_field_ptr s f t u o i c : kind_of E t = KPtr u -> tag_string (tag_of X f) = false -> struct_kind (kind_of E u) = false ->
      cell H o i = Some c -> below (At (AsField f) s t (HPtr (Some (o, i)))) (At ByType s u c)
  | bl_field_struct s s' f t u o i c : kind_of E t = KPtr u -> tag_string (tag_of X f) = false -> struct_kind (kind_of E u) = true ->
      cell H o i = Some c -> enters s false (cell_at X o i) s' ->
      below (At (AsField f) s t (HPtr (Some (o, i)))) (At ByType s' u c)
  | bl_field_text s f t v : ptr_kind (kind_of E t) = false -> tag_string (tag_of X f) = true ->
      below (At (AsField f) s t v) (At AsText s t v)
  | bl_field_ptr_text s f t u o i c : kind_of E t = KPtr u -> tag_string (tag_of X f) = true -> cell H o i = Some c ->
      below (At (AsField f) s t (HPtr (Some (o, i)))) (At AsText s u c)
  | bl_ptr_struct s s' t u o i c : kind_of E t = KPtr u -> struct_kind (kind_of E u) = true -> cell H o i = Some c ->
      enters s false (cell_at X o i) s' -> below (At ByKind s t (HPtr (Some (o, i)))) (At ByKind s' u c)
  | bl_ptr_kind s t u o i c : kind_of E t = KPtr u -> struct_kind (kind_of E u) = false -> by_structure (kind_of E u) = true ->
      cell H o i = Some c -> below (At ByKind s t (HPtr (Some (o, i)))) (At ByKind s u c)
  | bl_ptr s t u o i c : kind_of E t = KPtr u -> by_structure (kind_of E u) = false -> iface_kind (kind_of E u) = false ->
      cell H o i = Some c -> below (At ByKind s t (HPtr (Some (o, i)))) (At ByType s u c)
  | bl_iface s t v : iface_kind (kind_of E t) = true -> below (At ByKind s t v) (At Inside s t v)
  | bl_ptr_iface s t u v : kind_of E t = KPtr u -> iface_kind (kind_of E u) = true -> below (At ByKind s t v) (At Inside s t v)
  (* the content of an interface *)
  | bl_in_iface s t u x : iface_kind (kind_of E t) = true -> below (At Inside s t (HIface (Some (u, x)))) (At Inside s u x)
  | bl_in_ptr s t u o i c : kind_of E t = KPtr u -> cell H o i = Some c -> below (At Inside s t (HPtr (Some (o, i)))) (At Inside s u c)
  | bl_in_slice s s' t u o i n l x : kind_of E t = KSlice u -> iface_kind (kind_of E u) = true -> cells H o i n = Some l ->
      enters s true (cell_at X o i) s' -> In x l -> below (At Inside s t (HSlice (Some (o, i, n)))) (At Inside s' u x)
  | bl_in_slice_typed s s' t u o i n : kind_of E t = KSlice u -> iface_kind (kind_of E u) = false -> encodable X E t ->
      enters s true (cell_at X o i) s' -> below (At Inside s t (HSlice (Some (o, i, n)))) (At ByType s' t (HSlice (Some (o, i, n))))
  | bl_in_slice_nil s t u : kind_of E t = KSlice u -> iface_kind (kind_of E u) = false -> encodable X E t ->
      below (At Inside s t (HSlice None)) (At ByType s t (HSlice None))
  | bl_in_map s s' t k u o m y x : kind_of E t = KMap k u -> key_kind (kind_of E k) = true -> iface_kind (kind_of E u) = true ->
      entries H o = Some m -> enters s true (map_at X o) s' -> In (y, x) m -> below (At Inside s t (HMap (Some o))) (At Inside s' u x)
  | bl_in_map_typed s s' t k u o m y x : kind_of E t = KMap k u -> key_kind (kind_of E k) = true -> iface_kind (kind_of E u) = false ->
      encodable X E u -> entries H o = Some m -> enters s true (map_at X o) s' -> In (y, x) m ->
      below (At Inside s t (HMap (Some o))) (At ByType s' u x)
  | bl_in_struct s t id fs v : kind_of E t = KStruct id fs -> encodable X E t -> below (At Inside s t v) (At ByType s t v)
  (* the string option *)
  | bl_text s t v : iface_kind (kind_of E t) = true -> below (At AsText s t v) (At AsTextInside s t v)
  | bl_text_iface s t u x : iface_kind (kind_of E t) = true -> below (At AsTextInside s t (HIface (Some (u, x)))) (At AsTextInside s u x)
  | bl_text_ptr s t u o i c : kind_of E t = KPtr u -> cell H o i = Some c ->
      below (At AsTextInside s t (HPtr (Some (o, i)))) (At AsTextInside s u c).
  (** Marshal of [v] comes to [q]. *)
  Definition reached (t : gty) (v : hval) (q : place_in) : Prop := clos_refl_trans _ below (At ByType ([], 0) t v) q.

  (** ** What stops Marshal at a place *)

  (** A kind the content of an interface may not have. *)
  Definition not_inside (k : kind) : Prop :=
    match k with KArray _ _ | KUint UPtr | KOther => True | _ => False end.
  (** The types that are written as texts inside an interface. *)
  Definition text_type (t : gty) : Prop :=
    match t with TBool | TInt _ | TUint (U8 | U16 | U32 | U64 | UUint) | TF32 | TF64 => True | _ => False end.

  Inductive obstacle : place_in -> error -> Prop :=
  (* a method returns an error *)
  | ob_method s t v e : marshaler E t = true -> refuses X E H t v e -> obstacle (At ByType s t v) e
  (* something lies inside itself *)
  | ob_slice s t u o i n : kind_of E t = KSlice u -> refused s false (cell_at X o i) ->
      obstacle (At ByKind s t (HSlice (Some (o, i, n)))) (EMarshal (CRecursive t))
  | ob_map s t k u o : kind_of E t = KMap k u -> refused s false (map_at X o) ->
      obstacle (At ByKind s t (HMap (Some o))) (EMarshal (CRecursive t))
  | ob_ptr s t u o i : kind_of E t = KPtr u -> struct_kind (kind_of E u) = true -> refused s false (cell_at X o i) ->
      obstacle (At ByKind s t (HPtr (Some (o, i)))) (EMarshal (CRecursive t))
  | ob_field s f t u o i : kind_of E t = KPtr u -> tag_string (tag_of X f) = false -> struct_kind (kind_of E u) = true ->
      refused s false (cell_at X o i) -> obstacle (At (AsField f) s t (HPtr (Some (o, i)))) (EMarshal (CRecursive t))
  | ob_in_slice s t u o i n : kind_of E t = KSlice u -> refused s true (cell_at X o i) ->
      obstacle (At Inside s t (HSlice (Some (o, i, n)))) (EMarshal (CRecursive t))
  | ob_in_map s t k u o : kind_of E t = KMap k u -> refused s true (map_at X o) ->
      obstacle (At Inside s t (HMap (Some o))) (EMarshal (CRecursive t))
  (* the content of an interface cannot be encoded *)
  | ob_inside s t v : not_inside (kind_of E t) -> obstacle (At Inside s t v) (EMarshal (CInside t))
  | ob_key_nil s t k u : kind_of E t = KMap k u -> key_kind (kind_of E k) = false ->
      obstacle (At Inside s t (HMap None)) (EMarshal (CKey k))
  | ob_key s s' t k u o : kind_of E t = KMap k u -> key_kind (kind_of E k) = false -> enters s true (map_at X o) s' ->
      obstacle (At Inside s t (HMap (Some o))) (EMarshal (CKey k))
  | ob_slice_type_nil s t u c : kind_of E t = KSlice u -> iface_kind (kind_of E u) = false -> faulty X E t c ->
      obstacle (At Inside s t (HSlice None)) (EMarshal c)
  | ob_slice_type s s' t u o i n c : kind_of E t = KSlice u -> iface_kind (kind_of E u) = false -> faulty X E t c ->
      enters s true (cell_at X o i) s' -> obstacle (At Inside s t (HSlice (Some (o, i, n)))) (EMarshal c)
  | ob_map_type s s' t k u o m c : kind_of E t = KMap k u -> key_kind (kind_of E k) = true -> iface_kind (kind_of E u) = false ->
      entries H o = Some m -> m <> [] -> faulty X E u c -> enters s true (map_at X o) s' ->
      obstacle (At Inside s t (HMap (Some o))) (EMarshal c)
  | ob_struct_type s t id fs v c : kind_of E t = KStruct id fs -> faulty X E t c -> obstacle (At Inside s t v) (EMarshal c)
  (* the string option does not apply to the content of an interface *)
  | ob_text s t v : ptr_kind (kind_of E t) = false -> iface_kind (kind_of E t) = false -> ~ text_type t ->
      obstacle (At AsTextInside s t v) (EMarshal (CAsString t)).

  (** MarshalPHP panics: it has no receiver, or does so itself. *)
  Inductive collapses : gty -> hval -> panic -> Prop :=
  | cl_nil t : iface_kind (kind_of E t) = true -> collapses t (HIface None) PNilDeref
  | cl_nil_ptr n d : nth_error E n = Some d -> d_marshal d = ValueRecv -> collapses (TPtr (TName n)) (HPtr None) PNilDeref
  | cl_value n v p : x_marshal X n false H v = RPanic p -> iface_kind (kind_of E (TName n)) = false -> collapses (TName n) v p
  | cl_pointer n d q p : nth_error E n = Some d -> d_marshal d = PointerRecv ->
      x_marshal X n true H (HPtr q) = RPanic p -> collapses (TPtr (TName n)) (HPtr q) p
  | cl_pointee n d o i c p : nth_error E n = Some d -> d_marshal d = ValueRecv -> cell H o i = Some c ->
      x_marshal X n false H c = RPanic p -> collapses (TPtr (TName n)) (HPtr (Some (o, i))) p
  | cl_iface t u x p : iface_kind (kind_of E t) = true -> iface_kind (kind_of E u) = false -> collapses u x p ->
      collapses t (HIface (Some (u, x))) p.
  Inductive accident : place_in -> panic -> Prop :=
  | ac_method s t v p : marshaler E t = true -> collapses t v p -> accident (At ByType s t v) p.
End Places.
