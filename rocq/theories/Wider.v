(** Specification: destination types that are compatible with an older one, and
    values that hold the same data.  Nothing here refers to the decoder. *)
From Coq Require Import Strings.Byte ZArith List Bool Floats.SpecFloat.
From Verif Require Import Base GoTypes Grammar Denote.
Import ListNotations.
Open Scope Z_scope.

(** The key [k] occurs somewhere in the serialized value: in itself or deep
    inside it (a null key counts as the empty string). *)
Inductive mentions : lval -> bytes -> Prop :=
| mn_arr n es kp q k : In (kp, q) es -> key_text kp k -> mentions (LArr n es) k
| mn_obj cn cls n es kp q k : In (kp, q) es -> key_text kp k -> mentions (LObj cn cls n es) k
| mn_arr_in n es kp q k : In (kp, q) es -> mentions q k -> mentions (LArr n es) k
| mn_obj_in cn cls n es kp q k : In (kp, q) es -> mentions q k -> mentions (LObj cn cls n es) k.

Section Wider.
  Context (X : Ext) (E : env).

  (** Kinds that stay as they are. *)
  Definition flat_kind (k : kind) : bool :=
    match k with KBool | KF32 | KF64 | KString | KAny | KIface _ => true | _ => false end.

  (** Map keys: the same type, or the same kind with at least as many bits. *)
  Definition wider_key (k k' : gty) : Prop :=
    k = k' \/
    exists a a', plain E k a /\ plain E k' a' /\
      match a, a' with
      | KInt i, KInt i' => ibits i <= ibits i'
      | KUint u, KUint u' => ubits u <= ubits u'
      | KString, KString | KBool, KBool => True
      | _, _ => False
      end.

  (** [wider new T T']: [T'] is [T] after one or more of these changes, anywhere
      inside it: types get other names; integers get more bits, unsigned ones
      become signed ones with more bits, float32 becomes float64; structs get
      other Go names for their fields, another order of fields, or more fields,
      the keys of which are in [new].  Coinductive, so that types may be
      recursive. *)
  CoInductive wider (new : bytes -> Prop) : gty -> gty -> Prop :=
  | wd_unm T n : has_unmarshal E T = Some n -> wider new T T
  | wd_flat T T' k : plain E T k -> plain E T' k -> flat_kind k = true -> wider new T T'
  | wd_int T T' k k' : plain E T (KInt k) -> plain E T' (KInt k') -> ibits k <= ibits k' -> wider new T T'
  | wd_uint T T' k k' : plain E T (KUint k) -> plain E T' (KUint k') -> ubits k <= ubits k' -> wider new T T'
  | wd_signed T T' k k' : plain E T (KUint k) -> plain E T' (KInt k') -> ubits k < ibits k' -> wider new T T'
  | wd_float T T' : plain E T KF32 -> plain E T' KF64 -> wider new T T'
  | wd_slice T T' t t' : plain E T (KSlice t) -> plain E T' (KSlice t') -> is_byte E t = is_byte E t' ->
      wider new t t' -> wider new T T'
  | wd_array T T' n t t' : plain E T (KArray n t) -> plain E T' (KArray n t') -> wider new t t' -> wider new T T'
  | wd_map T T' k k' t t' : plain E T (KMap k t) -> plain E T' (KMap k' t') -> wider_key k k' ->
      wider new t t' -> wider new T T'
  | wd_ptr T T' t t' : plain E T (KPtr t) -> plain E T' (KPtr t') -> wider new t t' -> wider new T T'
  | wd_struct T T' id id' fs fs' : plain E T (KStruct id fs) -> plain E T' (KStruct id' fs') ->
      (forall key i f, lookup X fs key = Some (i, f) ->
         exists i' f', lookup X fs' key = Some (i', f') /\ string_tagged X E f = string_tagged X E f' /\
                       wider new (f_ty f) (f_ty f')) ->
      (forall key, lookup X fs key = None -> lookup X fs' key <> None -> new key) ->
      wider new T T'.

  (** [same_data T T' v v']: the value [v] of type [T] and the value [v'] of type
      [T'] hold the same data.  For structs: under every key of [T]. *)
  Inductive same_data : gty -> gty -> gval -> gval -> Prop :=
  | sa_unm T n v : has_unmarshal E T = Some n -> same_data T T v v
  | sa_flat T T' k v : plain E T k -> plain E T' k -> flat_kind k = true -> same_data T T' v v
  | sa_int T T' k k' z : plain E T (KInt k) -> plain E T' (KInt k') -> same_data T T' (VInt z) (VInt z)
  | sa_uint T T' k k' z : plain E T (KUint k) -> plain E T' (KUint k') -> same_data T T' (VUint z) (VUint z)
  | sa_signed T T' k k' z : plain E T (KUint k) -> plain E T' (KInt k') -> same_data T T' (VUint z) (VInt z)
  | sa_float T T' f : plain E T KF32 -> plain E T' KF64 -> same_data T T' (VF32 (f32_of_f64 f)) (VF64 f)
  | sa_slice_nil T T' t t' : plain E T (KSlice t) -> plain E T' (KSlice t') -> same_data T T' (VSlice None) (VSlice None)
  | sa_slice T T' t t' l l' : plain E T (KSlice t) -> plain E T' (KSlice t') -> Forall2 (same_data t t') l l' ->
      same_data T T' (VSlice (Some l)) (VSlice (Some l'))
  | sa_array T T' n t t' l l' : plain E T (KArray n t) -> plain E T' (KArray n t') -> Forall2 (same_data t t') l l' ->
      same_data T T' (VArr l) (VArr l')
  | sa_map_nil T T' k k' t t' : plain E T (KMap k t) -> plain E T' (KMap k' t') -> same_data T T' (VMap None) (VMap None)
  | sa_map T T' k k' t t' m m' : plain E T (KMap k t) -> plain E T' (KMap k' t') ->
      Forall2 (fun a b => fst a = fst b /\ same_data t t' (snd a) (snd b)) m m' ->
      same_data T T' (VMap (Some m)) (VMap (Some m'))
  | sa_ptr_nil T T' t t' : plain E T (KPtr t) -> plain E T' (KPtr t') -> same_data T T' (VPtr None) (VPtr None)
  | sa_ptr T T' t t' v v' : plain E T (KPtr t) -> plain E T' (KPtr t') -> same_data t t' v v' ->
      same_data T T' (VPtr (Some v)) (VPtr (Some v'))
  | sa_struct T T' id id' fs fs' l l' : plain E T (KStruct id fs) -> plain E T' (KStruct id' fs') ->
      (forall key i f, lookup X fs key = Some (i, f) ->
         exists i' f' x x', lookup X fs' key = Some (i', f') /\ nth_error l i = Some x /\ nth_error l' i' = Some x' /\
                            same_data (f_ty f) (f_ty f') x x') ->
      same_data T T' (VStruct l) (VStruct l').
End Wider.
