(** Specification: what storing a serialized value into a Go destination means.

    [store d T p v w]: the serialized value [p], met at nesting depth [d], can
    be stored into a destination of type [T] holding [v], which then holds [w].
    No cursors, buffers or error handling: this is the meaning of a successful
    Unmarshal. *)
From Coq Require Import Strings.String Strings.Byte ZArith List Bool Floats.SpecFloat.
From Verif Require Import Base GoTypes Tags Grammar.
Import ListNotations.
Open Scope Z_scope.

(** Deepest array/object nesting accepted. *)
Definition limit : Z := 10000.

Definition int_range (k : ikind) (z : Z) : Prop := - 2 ^ (ibits k - 1) <= z < 2 ^ (ibits k - 1).
Definition uint_range (k : ukind) (z : Z) : Prop := 0 <= z < 2 ^ ubits k.

(** The float a text denotes: PHP's spellings of the special values, otherwise
    whatever strconv.ParseFloat makes of it. *)
Definition float_text (X : Ext) (t : bytes) (f : spec_float) : Prop :=
  (t = bs "INF" /\ f = S754_infinity false) \/
  (t = bs "-INF" /\ f = S754_infinity true) \/
  (t = bs "NAN" /\ f = S754_nan) \/
  (t <> bs "INF" /\ t <> bs "-INF" /\ t <> bs "NAN" /\ x_parse X t = Some f).

(** The entries of an array or object, with its declared count. *)
Inductive body_of : lval -> bytes -> list (lval * lval) -> Prop :=
| body_arr n es : body_of (LArr n es) n es
| body_obj cn cls n es :
    numeral cn -> num cn = blen cls -> body_of (LObj cn cls n es) n es.

(** An array index. *)
Definition index_text (t : bytes) (i : nat) : Prop :=
  int_text t (Z.of_nat i) /\ Z.of_nat i <= max_int64.

(** A string, with its declared length. *)
Definition str_ok (n s : bytes) : Prop := numeral n /\ num n = blen s.

(** Entries are taken in order: *)
Section Entries.
  (** into a map: later entries replace earlier ones with an equal key *)
  Inductive map_entries (K V : lval -> gval -> Prop)
    : list (gval * gval) -> list (lval * lval) -> list (gval * gval) -> Prop :=
  | me_nil m : map_entries K V m [] m
  | me_cons m k p es kv vv m' :
      K k kv -> V p vv -> hashable kv = true ->
      map_entries K V (map_set kv vv m) es m' -> map_entries K V m ((k, p) :: es) m'.

  (** into a slice: it grows, with zero values, to hold every index met *)
  Inductive slice_entries (slots : Z -> bool) (zv : gval) (V : lval -> gval -> gval -> Prop)
    : list gval -> list (lval * lval) -> list gval -> Prop :=
  | se_nil l : slice_entries slots zv V l [] l
  | se_in l t i p es old v l' :
      index_text t i -> nth_error l i = Some old -> V p old v ->
      slice_entries slots zv V (update l i v) es l' ->
      slice_entries slots zv V l ((LInt t, p) :: es) l'
  | se_grow l t i p es v l' :
      index_text t i -> (length l <= i)%nat ->
      Z.of_nat i < max_int64 -> slots (Z.of_nat i + 1) = true -> V p zv v ->
      slice_entries slots zv V (l ++ repeat zv (i - length l) ++ [v]) es l' ->
      slice_entries slots zv V l ((LInt t, p) :: es) l'.

  (** into a fixed array: indexes beyond it are ignored *)
  Inductive array_entries (d : Z) (V : lval -> gval -> gval -> Prop)
    : list gval -> list (lval * lval) -> list gval -> Prop :=
  | ae_nil l : array_entries d V l [] l
  | ae_in l t i p es old v l' :
      index_text t i -> nth_error l i = Some old -> V p old v ->
      array_entries d V (update l i v) es l' ->
      array_entries d V l ((LInt t, p) :: es) l'
  | ae_out l t z p es l' :
      int_text t z -> blen l <= z <= max_int64 -> strict d p ->
      array_entries d V l es l' ->
      array_entries d V l ((LInt t, p) :: es) l'.
End Entries.

(** Storing into [any]: the dynamic type and value it ends up holding. *)
Inductive any_key : lval -> gval -> Prop :=
| ak_str n s : str_ok n s -> any_key (LStr n s) (VIface (Some (TString, VStr s)))
| ak_int t z : int_text t z -> int_range I64 z ->
               any_key (LInt t) (VIface (Some (TInt I64, VInt z))).
Inductive obj_key : lval -> gval -> Prop :=
| ok_str n s : str_ok n s -> obj_key (LStr n s) (VStr s)
| ok_null : obj_key LNull (VStr []).

Inductive any_val (X : Ext) : Z -> lval -> gval -> Prop :=
| av_null d : any_val X d LNull (VIface None)
| av_bool d b : any_val X d (LBool b) (VIface (Some (TBool, VBool b)))
| av_int d t z : int_text t z -> int_range I64 z ->
                 any_val X d (LInt t) (VIface (Some (TInt I64, VInt z)))
| av_float d t f : t <> [] -> ~ In ";"%byte t -> float_text X t f ->
                   any_val X d (LFloat t) (VIface (Some (TF64, VF64 f)))
| av_str d n s : str_ok n s -> any_val X d (LStr n s) (VIface (Some (TString, VStr s)))
| av_arr d n es m :
    d < limit -> numeral n -> num n <= max_int64 ->
    map_entries any_key (any_val X (d + 1)) [] es m ->
    any_val X d (LArr n es) (VIface (Some (TMap TAny TAny, VMap (Some m))))
| av_obj d cn cls n es m :
    d < limit -> body_of (LObj cn cls n es) n es -> numeral n -> num n <= max_int64 ->
    map_entries obj_key (any_val X (d + 1)) [] es m ->
    any_val X d (LObj cn cls n es) (VIface (Some (TMap TString TAny, VMap (Some m)))).

Section Store.
  Context (X : Ext) (E : env).

  Definition scalar_kind (k : kind) : bool :=
    match k with KBool | KInt _ | KUint _ | KF32 | KF64 | KString => true | _ => false end.

  Definition plain (T : gty) (k : kind) : Prop := has_unmarshal E T = None /\ kind_of E T = k.
  Definition is_byte (T : gty) : bool := match kind_of E T with KUint U8 => true | _ => false end.
  Definition is_ptr (T : gty) : bool := match kind_of E T with KPtr _ => true | _ => false end.

  (** The key of a struct field; a field takes part unless it is unexported or
      tagged "-". *)
  Definition field_key (f : field) : bytes :=
    match tag_key (tag_of X f) with [] => f_name f | k => k end.

  (** The field a key names: the first one taking part under that key. *)
  Fixpoint lookup_from (i : nat) (fs : list field) (k : bytes) : option (nat * field) :=
    match fs with
    | [] => None
    | f :: fs' => if negb (is_ignored f) && bytes_eqb (field_key f) k then Some (i, f)
                  else lookup_from (S i) fs' k
    end.
  Definition lookup := lookup_from 0.

  (** A string-tagged field: booleans, integers, floats, and pointers to them,
      are written as strings. *)
  Definition string_tagged (f : field) : bool :=
    tag_string (tag_of X f)
    && match has_unmarshal E (f_ty f), kind_of E (f_ty f) with
       | None, (KMap _ _ | KSlice _ | KArray _ _ | KStruct _ _ | KAny | KIface _) => false
       | None, _ => true
       | _, _ => false
       end.

  (** What strconv.ParseBool accepts. *)
  Inductive bool_text : bytes -> bool -> Prop :=
  | bt_true t : In t (map bs ["1"; "t"; "T"; "true"; "TRUE"; "True"]%string) -> bool_text t true
  | bt_false t : In t (map bs ["0"; "f"; "F"; "false"; "FALSE"; "False"]%string) -> bool_text t false.

  Inductive quoted_scalar (T : gty) : bytes -> gval -> Prop :=
  | qs_bool t b : plain T KBool -> bool_text t b -> quoted_scalar T t (VBool b)
  | qs_int k t z : plain T (KInt k) -> int_text t z -> int_range k z -> quoted_scalar T t (VInt z)
  | qs_uint k t : plain T (KUint k) -> numeral t -> uint_range k (num t) ->
                  quoted_scalar T t (VUint (num t))
  | qs_f64 t f : plain T KF64 -> float_text X t f -> quoted_scalar T t (VF64 f)
  | qs_f32 t f : plain T KF32 -> float_text X t f -> overflow_f32 f = false ->
                 quoted_scalar T t (VF32 (f32_of_f64 f)).

  Inductive store_quoted (T : gty) : lval -> gval -> gval -> Prop :=
  | sq_ptr_null t v : plain T (KPtr t) -> store_quoted T LNull v (VPtr None)
  | sq_ptr t n s o w :
      plain T (KPtr t) -> str_ok n s -> quoted_scalar t s w ->
      store_quoted T (LStr n s) (VPtr o) (VPtr (Some w))
  | sq_null v : is_ptr T = false -> store_quoted T LNull v v
  | sq_str n s v w : is_ptr T = false -> str_ok n s -> quoted_scalar T s w ->
                     store_quoted T (LStr n s) v w.

  (** A struct body: entries whose key names no field are skipped (they must
      be strictly well formed); a null key counts as the empty string. *)
  Inductive key_text : lval -> bytes -> Prop :=
  | kt_str n s : str_ok n s -> key_text (LStr n s) s
  | kt_null : key_text LNull [].

  Inductive struct_entries (d : Z) (fs : list field) (V : gty -> lval -> gval -> gval -> Prop)
    : list gval -> list (lval * lval) -> list gval -> Prop :=
  | ste_nil l : struct_entries d fs V l [] l
  | ste_known l kp k i f p es old v l' :
      key_text kp k -> lookup fs k = Some (i, f) -> nth_error l i = Some old ->
      string_tagged f = false -> V (f_ty f) p old v ->
      struct_entries d fs V (update l i v) es l' ->
      struct_entries d fs V l ((kp, p) :: es) l'
  | ste_quoted l kp k i f p es old v l' :
      key_text kp k -> lookup fs k = Some (i, f) -> nth_error l i = Some old ->
      string_tagged f = true -> store_quoted (f_ty f) p old v ->
      struct_entries d fs V (update l i v) es l' ->
      struct_entries d fs V l ((kp, p) :: es) l'
  | ste_unknown l kp k p es l' :
      key_text kp k -> lookup fs k = None -> strict d p ->
      struct_entries d fs V l es l' ->
      struct_entries d fs V l ((kp, p) :: es) l'.

  (** Types usable as map keys. *)
  Definition key_kind (T : gty) : Prop :=
    has_unmarshal E T <> None \/
    match kind_of E T with
    | KString | KBool | KInt _ | KUint _ | KAny | KIface _ => True
    | _ => False
    end.

  Inductive store : Z -> gty -> lval -> gval -> gval -> Prop :=
  (* custom Unmarshalers get the raw text *)
  | sto_unm_null d T n v :
      has_unmarshal E T = Some n -> store d T LNull v (zero E T)
  | sto_unm d T n p v w :
      has_unmarshal E T = Some n -> p <> LNull -> strict d p ->
      x_unmarshal X n (text p) (zero E T) = (w, true) -> store d T p v w
  (* scalars *)
  | sto_scalar_null d T k v : plain T k -> scalar_kind k = true -> store d T LNull v v
  | sto_bool d T b v : plain T KBool -> store d T (LBool b) v (VBool b)
  | sto_int d T k t z v :
      plain T (KInt k) -> int_text t z -> int_range k z -> store d T (LInt t) v (VInt z)
  | sto_uint d T k t v :
      plain T (KUint k) -> numeral t -> uint_range k (num t) -> store d T (LInt t) v (VUint (num t))
  | sto_f64 d T t f v :
      plain T KF64 -> t <> [] -> ~ In ";"%byte t -> float_text X t f -> store d T (LFloat t) v (VF64 f)
  | sto_f32 d T t f v :
      plain T KF32 -> t <> [] -> ~ In ";"%byte t -> float_text X t f -> overflow_f32 f = false ->
      store d T (LFloat t) v (VF32 (f32_of_f64 f))
  | sto_string d T n s v : plain T KString -> str_ok n s -> store d T (LStr n s) v (VStr s)
  (* interfaces *)
  | sto_any d T p v w : plain T KAny -> any_val X d p w -> store d T p v w
  | sto_iface_unm_null d T m t n p v :
      plain T (KIface m) -> v = VIface (Some (TPtr t, VPtr p)) -> has_unmarshal E t = Some n ->
      store d T LNull v (VIface None)
  | sto_iface_unm d T m t n p v old new :
      plain T (KIface m) -> v = VIface (Some (TPtr t, VPtr (Some old))) -> has_unmarshal E t = Some n ->
      p <> LNull -> strict d p -> x_unmarshal X n (text p) old = (new, true) ->
      store d T p v (VIface (Some (TPtr t, VPtr (Some new))))
  | sto_iface_null d T m v :
      plain T (KIface m) ->
      (forall t n p, v = VIface (Some (TPtr t, VPtr p)) -> has_unmarshal E t <> Some n) ->
      store d T LNull v (VIface None)
  (* byte slices, from strings *)
  | sto_bytes_null d T t v : plain T (KSlice t) -> is_byte t = true -> store d T LNull v v
  | sto_bytes d T t n s v :
      plain T (KSlice t) -> is_byte t = true -> str_ok n s -> store d T (LStr n s) v (vbytes s)
  (* slices *)
  | sto_slice_null d T t v :
      plain T (KSlice t) -> is_byte t = false -> d < limit -> store d T LNull v (VSlice None)
  | sto_slice_empty d T t v :
      plain T (KSlice t) -> d < limit -> store d T (LArr (bs "0") []) v (VSlice None)
  | sto_slice d T t n es v l :
      plain T (KSlice t) -> d < limit -> numeral n -> hd_error n <> Some "0"%byte ->
      num n <= max_int64 -> x_slots X t (num n) = true -> es <> [] ->
      slice_entries (x_slots X t) (zero E t) (store (d + 1) t) [] es l ->
      store d T (LArr n es) v (VSlice (Some l))
  (* arrays *)
  | sto_array_null d T n t v : plain T (KArray n t) -> d < limit -> store d T LNull v v
  | sto_array_empty d T n t v :
      plain T (KArray n t) -> d < limit ->
      store d T (LArr (bs "0") []) v (VArr (repeat (zero E t) n))
  | sto_array d T k t n es v l :
      plain T (KArray k t) -> d < limit -> numeral n -> hd_error n <> Some "0"%byte ->
      num n <= max_int64 -> es <> [] ->
      array_entries (d + 1) (store (d + 1) t) (repeat (zero E t) k) es l ->
      store d T (LArr n es) v (VArr l)
  (* maps *)
  | sto_map_null d T k t v : plain T (KMap k t) -> d < limit -> store d T LNull v (VMap None)
  | sto_map d T k t p n es o m :
      plain T (KMap k t) -> d < limit -> body_of p n es -> numeral n -> num n <= max_int64 ->
      map_entries (store_key (d + 1) k) (fun q w => store (d + 1) t q (zero E t) w)
                  (match o with Some m0 => m0 | None => [] end) es m ->
      store d T p (VMap o) (VMap (Some m))
  (* structs *)
  | sto_struct_null d T id fs v : plain T (KStruct id fs) -> d < limit -> store d T LNull v v
  | sto_struct d T id fs p n es l l' :
      plain T (KStruct id fs) -> d < limit -> body_of p n es -> numeral n ->
      struct_entries (d + 1) fs (store (d + 1)) l es l' ->
      store d T p (VStruct l) (VStruct l')
  (* pointers: allocated when nil *)
  | sto_ptr_null d T t v : plain T (KPtr t) -> is_ptr t = false -> store d T LNull v (VPtr None)
  | sto_ptr d T t p o w :
      plain T (KPtr t) -> is_ptr t = false -> p <> LNull ->
      store d t p (match o with Some v => v | None => zero E t end) w ->
      store d T p (VPtr o) (VPtr (Some w))
  with store_key : Z -> gty -> lval -> gval -> Prop :=
  | sk_plain d T p w : key_kind T -> store d T p (zero E T) w -> store_key d T p w
  | sk_ptr_null d T t : plain T (KPtr t) -> has_unmarshal E t = None -> key_kind t ->
                        store_key d T LNull (zero E T).
End Store.
