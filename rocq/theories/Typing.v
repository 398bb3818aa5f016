(** Specification: well-typed Go values and well-formed type environments. *)
From Coq Require Import Strings.String Strings.Byte ZArith List Bool Floats.SpecFloat.
From Verif Require Import Base GoTypes Tags Grammar Denote.
Import ListNotations.
Open Scope Z_scope.

(** [v] is a value of type [T].  An interface with methods never holds a nil
    pointer (calling a method on it is the user's business). *)
Inductive typed (E : env) : gty -> gval -> Prop :=
| ty_bool T b : kind_of E T = KBool -> typed E T (VBool b)
| ty_int T k z : kind_of E T = KInt k -> int_range k z -> typed E T (VInt z)
| ty_uint T k z : kind_of E T = KUint k -> uint_range k z -> typed E T (VUint z)
| ty_f32 T f : kind_of E T = KF32 -> typed E T (VF32 f)
| ty_f64 T f : kind_of E T = KF64 -> typed E T (VF64 f)
| ty_str T s : kind_of E T = KString -> typed E T (VStr s)
| ty_slice_nil T t : kind_of E T = KSlice t -> typed E T (VSlice None)
| ty_slice T t l : kind_of E T = KSlice t -> Forall (typed E t) l -> typed E T (VSlice (Some l))
| ty_arr T n t l : kind_of E T = KArray n t -> length l = n -> Forall (typed E t) l -> typed E T (VArr l)
| ty_map_nil T k t : kind_of E T = KMap k t -> typed E T (VMap None)
| ty_map T k t m : kind_of E T = KMap k t ->
    Forall (fun e => typed E k (fst e) /\ typed E t (snd e)) m -> typed E T (VMap (Some m))
| ty_ptr_nil T t : kind_of E T = KPtr t -> typed E T (VPtr None)
| ty_ptr T t v : kind_of E T = KPtr t -> typed E t v -> typed E T (VPtr (Some v))
| ty_any_nil T : kind_of E T = KAny -> typed E T (VIface None)
| ty_any T t v : kind_of E T = KAny -> typed E t v -> typed E T (VIface (Some (t, v)))
| ty_iface_nil T m : kind_of E T = KIface m -> typed E T (VIface None)
| ty_iface T m t v : kind_of E T = KIface m -> typed E t v -> v <> VPtr None ->
    typed E T (VIface (Some (t, v)))
| ty_struct T id fs l : kind_of E T = KStruct id fs ->
    Forall2 (fun f v => typed E (f_ty f) v) fs l -> typed E T (VStruct l)
| ty_other T : kind_of E T = KOther -> typed E T VOther.

(** Declared types occurring by value (not behind a pointer, slice, map or
    interface). *)
Fixpoint by_value (t : gty) : list nat :=
  match t with TName n => [n] | TArray _ t' => by_value t' | _ => [] end.
Definition decl_names (d : decl) : list nat :=
  match d_under d with UStruct fs => flat_map (fun f => by_value (f_ty f)) fs | UTy t => by_value t end.

(** What Go's type checker guarantees: no type contains itself by value (so by
    value nesting has a rank), and underlying types are not themselves names. *)
Definition go_env (E : env) : Prop :=
  (exists rank : nat -> nat, forall n d, nth_error E n = Some d ->
     (rank n <= length E)%nat /\
     forall m, In m (decl_names d) -> nth_error E m <> None -> (rank m < rank n)%nat) /\
  (forall n d t m, nth_error E n = Some d -> d_under d = UTy t -> t <> TName m).

(** UnmarshalPHP methods leave their receiver well typed. *)
Definition user_ok (X : Ext) (E : env) : Prop :=
  forall n b v, typed E (TName n) v -> typed E (TName n) (fst (x_unmarshal X n b v)).

(** [component E T U]: Unmarshal into a [T] may store into a [U] directly
    below it.  [inside] is its reflexive-transitive closure. *)
Inductive component (E : env) (T : gty) : gty -> Prop :=
| co_ptr t : plain E T (KPtr t) -> component E T t
| co_slice t : plain E T (KSlice t) -> component E T t
| co_array n t : plain E T (KArray n t) -> component E T t
| co_key k t : plain E T (KMap k t) -> component E T k
| co_val k t : plain E T (KMap k t) -> component E T t
| co_field id fs f : plain E T (KStruct id fs) -> In f fs -> is_ignored f = false -> component E T (f_ty f).
Inductive inside (E : env) (T : gty) : gty -> Prop :=
| in_refl : inside E T T
| in_step U V : inside E T U -> component E U V -> inside E T V.

(** Types all of whose values can be hashed. *)
Inductive hash_ty (E : env) : gty -> Prop :=
| ht_scalar T : scalar_kind (kind_of E T) = true -> hash_ty E T
| ht_ptr T t : kind_of E T = KPtr t -> hash_ty E T
| ht_array T n t : kind_of E T = KArray n t -> hash_ty E t -> hash_ty E T
| ht_struct T id fs : kind_of E T = KStruct id fs -> Forall (fun f => hash_ty E (f_ty f)) fs -> hash_ty E T.

(** Map key types that cannot make a decoded key unhashable or mistyped: not
    any, not a pointer; and an Unmarshaler must be hashable by type. *)
Definition safe_key (E : env) (k : gty) : Prop :=
  match has_unmarshal E k with
  | Some _ => hash_ty E k
  | None => match kind_of E k with KAny | KPtr _ => False | _ => True end
  end.
Definition keys_safe (E : env) (T : gty) : Prop :=
  forall U k t, inside E T U -> plain E U (KMap k t) -> safe_key E k.

Definition slice_free (E : env) (T : gty) : Prop :=
  forall U t, inside E T U -> ~ plain E U (KSlice t).

(** Some run of decimal digits in the input denotes [n]. *)
Definition written (data : bytes) (n : Z) : Prop :=
  exists pre ds post, data = pre ++ ds ++ post /\ numeral ds /\ num ds = n.
(** The allocator can provide slices of every type inside [T] as long as the
    numbers written in the input (plus one), and none is MaxInt64 or more. *)
Definition allocatable (X : Ext) (E : env) (T : gty) (data : bytes) : Prop :=
  forall U t n, inside E T U -> plain E U (KSlice t) -> written data n ->
    n < max_int64 /\ x_slots X t n = true /\ x_slots X t (n + 1) = true.

(** ** Destination types Unmarshal rejects *)

(** What the string option can be put on: booleans, numbers, pointers to them. *)
Definition number_kind (k : kind) : bool :=
  match k with KBool | KInt _ | KUint _ | KF32 | KF64 => true | _ => false end.
Definition quotable (E : env) (T : gty) : Prop :=
  (exists k, plain E T k /\ number_kind k = true) \/
  (exists t k, plain E T (KPtr t) /\ plain E t k /\ number_kind k = true).
Definition struct_or_ptr (E : env) (T : gty) : bool :=
  match kind_of E T with
  | KStruct _ _ => true
  | KPtr t => match kind_of E t with KStruct _ _ => true | _ => false end
  | _ => false
  end.

(** [T] itself (not what it contains) is not supported: a pointer to a pointer,
    or a struct with an embedded struct, a misplaced string option or two fields
    with one key. *)
Inductive unsupported (X : Ext) (E : env) (T : gty) : Prop :=
| us_ptr t : plain E T (KPtr t) -> is_ptr E t = true -> unsupported X E T
| us_embedded id fs f :
    plain E T (KStruct id fs) -> In f fs -> is_ignored f = false ->
    f_anon f = true -> struct_or_ptr E (f_ty f) = true -> unsupported X E T
| us_string id fs f :
    plain E T (KStruct id fs) -> In f fs -> is_ignored f = false ->
    string_tagged X E f = true -> ~ quotable E (f_ty f) -> unsupported X E T
| us_dup id fs f g i j :
    plain E T (KStruct id fs) -> nth_error fs i = Some f -> nth_error fs j = Some g -> i <> j ->
    is_ignored f = false -> is_ignored g = false -> field_key X f = field_key X g ->
    unsupported X E T.

(** [within_ty E U V]: [V] is the type of a part of a [U], reached through slices,
    arrays, maps and pointers alone *)
Inductive within_ty (E : env) (U : gty) : gty -> Prop :=
| wi_step V : component E U V -> struct_kind (kind_of E U) = false -> within_ty E U V
| wi_more V W : within_ty E U V -> component E V W -> struct_kind (kind_of E V) = false -> within_ty E U W.
(** Recursive types inside [T] go through structs: no type inside [T] contains
    itself through slices, arrays, maps and pointers alone. *)
Definition grounded (E : env) (T : gty) : Prop :=
  forall U, inside E T U -> ~ within_ty E U U.

Definition supported (X : Ext) (E : env) (T : gty) : Prop :=
  (forall U, inside E T U -> ~ unsupported X E U) /\ grounded E T.

(** Every declared type mentioned in a type. *)
Fixpoint names (t : gty) : list nat :=
  match t with
  | TName n => [n]
  | TSlice t' | TArray _ t' | TPtr t' => names t'
  | TMap k v => names k ++ names v
  | _ => []
  end.
(** A sufficient condition for all types: a declared type that is not a struct
    (nor an Unmarshaler) does not mention itself, directly or indirectly. *)
Definition ranked (E : env) : Prop :=
  exists rank : nat -> nat, forall n d t m,
    nth_error E n = Some d -> d_under d = UTy t -> d_unmarshal d = false -> In m (names t) ->
    (rank m < rank n)%nat.
