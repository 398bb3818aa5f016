(** Specification: what an UnmarshalTypeError says (C62). *)
From Coq Require Import Strings.String Strings.Byte ZArith List Bool.
From Verif Require Import Base GoTypes Tags Grammar Denote Context.
Import ListNotations.
Open Scope Z_scope.

(** What is around a place: the name of the innermost struct type and the name of
    its field, both empty outside of all structs; and which struct types are
    around it. *)
Record around := Around { in_struct : bytes; in_field : bytes; in_types : list nat }.
Definition nowhere : around := Around [] [] [].

Section Names.
  (** [name]: the names of the declared types; [show]: types, printed *)
  Context (X : Ext) (E : env) (name : nat -> bytes) (show : gty -> bytes).

  (** [site A d T v pre A' d' t old put]: as [Context.context], with what is around
      both ends; places in values read into an empty interface are not among
      these *)
  Inductive site : around -> Z -> gty -> gval -> bytes -> around -> Z -> gty -> gval -> (gval -> gval) -> Prop :=
  | si_here A d T v : site A d T v [] A d T v (fun w => w)
  | si_ptr A d T t o pre A' d' u old put :
      plain E T (KPtr t) -> is_ptr E t = false -> pre <> [] ->
      site A d t (match o with Some v => v | None => zero E t end) pre A' d' u old put ->
      site A d T (VPtr o) pre A' d' u old (fun w => VPtr (Some (put w)))
  (* this is where the names come from *)
  | si_field A d T id fs l p n es l' kp k i f old pre A' d' u old' put :
      plain E T (KStruct id fs) -> d < limit -> body_of p n es -> numeral n ->
      struct_entries X E (d + 1) fs (store X E (d + 1)) l es l' ->
      key_text kp k -> lookup X fs k = Some (i, f) -> nth_error l' i = Some old ->
      string_tagged X E f = false ->
      site (Around (name id) (f_name f) (id :: in_types A)) (d + 1) (f_ty f) old pre A' d' u old' put ->
      site A d T (VStruct l) (opening p ++ entries es ++ text kp ++ pre) A' d' u old'
        (fun w => VStruct (update l' i (put w)))
  | si_value A d T k t p n es o m kp kv pre A' d' u old put :
      plain E T (KMap k t) -> d < limit -> body_of p n es -> numeral n -> num n <= max_int64 ->
      map_entries (store_key X E (d + 1) k) (fun q w => store X E (d + 1) t q (zero E t) w)
                  (match o with Some m0 => m0 | None => [] end) es m ->
      store_key X E (d + 1) k kp kv ->
      site A (d + 1) t (zero E t) pre A' d' u old put ->
      site A d T (VMap o) (opening p ++ entries es ++ text kp ++ pre) A' d' u old (fun _ => VMap (Some m))
  | si_again A d T t n es v l ti i old pre A' d' u old' put :
      plain E T (KSlice t) -> d < limit -> numeral n -> hd_error n <> Some "0"%byte ->
      num n <= max_int64 -> x_slots X t (num n) = true ->
      slice_entries (x_slots X t) (zero E t) (store X E (d + 1) t) [] es l ->
      index_text ti i -> nth_error l i = Some old ->
      site A (d + 1) t old pre A' d' u old' put ->
      site A d T v (opening (LArr n es) ++ entries es ++ text (LInt ti) ++ pre) A' d' u old'
        (fun w => VSlice (Some (update l i (put w))))
  | si_element A d T t n es v l ti i pre A' d' u old put :
      plain E T (KSlice t) -> d < limit -> numeral n -> hd_error n <> Some "0"%byte ->
      num n <= max_int64 -> x_slots X t (num n) = true ->
      slice_entries (x_slots X t) (zero E t) (store X E (d + 1) t) [] es l ->
      index_text ti i -> (length l <= i)%nat -> Z.of_nat i < max_int64 -> x_slots X t (Z.of_nat i + 1) = true ->
      site A (d + 1) t (zero E t) pre A' d' u old put ->
      site A d T v (opening (LArr n es) ++ entries es ++ text (LInt ti) ++ pre) A' d' u old
        (fun _ => match es with [] => v | _ => VSlice (Some l) end)
  | si_slot A d T c t n es v l ti i old pre A' d' u old' put :
      plain E T (KArray c t) -> d < limit -> numeral n -> hd_error n <> Some "0"%byte ->
      num n <= max_int64 ->
      array_entries (d + 1) (store X E (d + 1) t) (repeat (zero E t) c) es l ->
      index_text ti i -> nth_error l i = Some old ->
      site A (d + 1) t old pre A' d' u old' put ->
      site A d T v (opening (LArr n es) ++ entries es ++ text (LInt ti) ++ pre) A' d' u old'
        (fun w => VArr (update l i (put w))).

  (** ** Data that does not fit a type *)

  (** The values that begin with a byte, where they are no strings *)
  Inductive word : byte -> bytes -> Prop :=
  | wd_bool : word "b"%byte (bs "bool")
  | wd_float : word "d"%byte (bs "float")
  | wd_int : word "i"%byte (bs "number").

  (** Texts that are no int64 *)
  Definition no_int64 (s : bytes) : Prop := forall z, int_text s z -> ~ (min_int64 <= z <= max_int64).
  Definition no_uint64 (s : bytes) : Prop := numeral s -> 2 ^ 64 <= num s.

  (** the detail of an error at a place *)
  Definition says (A : around) (value : bytes) (t : gty) : detail := Detail value t (in_struct A) (in_field A).
  Definition says_nowhere (value : bytes) (t : gty) : detail := Detail value t [] [].

  (** no pointer to a value with an UnmarshalPHP method *)
  Definition no_unmarshaler (v : gval) : Prop :=
    forall t p, v = VIface (Some (TPtr t, VPtr p)) -> has_unmarshal E t = None.

  (** [key_mismatch A kt data off det]: [data] begins with no key of type [kt] *)
  Inductive key_mismatch (A : around) : gty -> bytes -> Z -> detail -> Prop :=
  | km_string kt b w rest : plain E kt KString -> word b w -> key_mismatch A kt (b :: rest) 0 (says A w TString)
  | km_int kt k s z rest : plain E kt (KInt k) -> int_text s z -> no_int64 s ->
      key_mismatch A kt (text (LInt s) ++ rest) (blen (text (LInt s))) (says A (bs "number " ++ s) kt)
  | km_uint kt k s z rest : plain E kt (KUint k) -> int_text s z -> no_uint64 s ->
      key_mismatch A kt (text (LInt s) ++ rest) (blen (text (LInt s))) (says_nowhere (bs "number " ++ s) kt)
  | km_none kt b rest : has_unmarshal E kt = None -> b <> "}"%byte ->
      match kind_of E kt with KF32 | KF64 | KStruct _ _ | KSlice _ | KArray _ _ | KMap _ _ | KOther => True | _ => False end ->
      key_mismatch A kt (b :: rest) 0 (says A (bs "object") kt).

  (** [mismatch A d T v data off det w]: in a [T] that holds [v], at depth [d], the
      data cannot be stored.  The type error has offset [off] and says [det], and
      the [T] is left with [w]. *)
  Inductive mismatch (A : around) : Z -> gty -> gval -> bytes -> Z -> detail -> gval -> Prop :=
  | mm_int d T k v s z rest : plain E T (KInt k) -> int_text s z -> no_int64 s ->
      mismatch A d T v (text (LInt s) ++ rest) (blen (text (LInt s))) (says A (bs "number " ++ s) T) v
  (* an unsigned integer: the error says nothing about the place *)
  | mm_uint d T k v s z rest : plain E T (KUint k) -> int_text s z -> no_uint64 s ->
      mismatch A d T v (text (LInt s) ++ rest) (blen (text (LInt s))) (says_nowhere (bs "number " ++ s) T) v
  | mm_string d T v b w rest : plain E T KString -> word b w ->
      mismatch A d T v (b :: rest) 0 (says A w TString) v
  | mm_bytes d T t v b w rest : plain E T (KSlice t) -> is_byte E t = true -> word b w ->
      mismatch A d T v (b :: rest) 0 (says A w TString) v
  | mm_slice d T t v b rest : plain E T (KSlice t) -> is_byte E t = false -> d < limit -> b = "-"%byte \/ is_digit b = true ->
      mismatch A d T v (b :: rest) 0 (says A (bs "number") (TSlice t)) v
  | mm_iface d T m v b rest : plain E T (KIface m) -> no_unmarshaler v -> b <> "N"%byte ->
      mismatch A d T v (b :: rest) 0 (says A (show T) T) v
  | mm_other d T v b rest : plain E T KOther ->
      mismatch A d T v (b :: rest) 0 (says A (bs "object") T) v
  | mm_any d T v pre d' s z rest : plain E T KAny -> any_context X d pre d' -> int_text s z -> no_int64 s ->
      mismatch A d T v (pre ++ text (LInt s) ++ rest) (blen (pre ++ text (LInt s))) (says A (bs "number " ++ s) (TInt I64)) v
  (* a key of a map *)
  | mm_key d T k t p n es o m data off det :
      plain E T (KMap k t) -> d < limit -> body_of p n es -> numeral n -> num n <= max_int64 ->
      map_entries (store_key X E (d + 1) k) (fun q w => store X E (d + 1) t q (zero E t) w)
                  (match o with Some m0 => m0 | None => [] end) es m ->
      key_mismatch A k data off det ->
      mismatch A d T (VMap o) (opening p ++ entries es ++ data) (blen (opening p ++ entries es) + off) det (VMap (Some m))
  (* a key of a struct, unless the struct is inside of another one of its type *)
  | mm_field_key d T id fs p n es l l' b w rest :
      plain E T (KStruct id fs) -> ~ In id (in_types A) -> d < limit -> body_of p n es -> numeral n ->
      struct_entries X E (d + 1) fs (store X E (d + 1)) l es l' -> word b w ->
      mismatch A d T (VStruct l) (opening p ++ entries es ++ b :: rest) (blen (opening p ++ entries es))
        (says A w TString) (VStruct l')
  (* a string-tagged field *)
  | mm_tagged d T id fs p n es l l' kp k i f old kd m s rest :
      plain E T (KStruct id fs) -> d < limit -> body_of p n es -> numeral n ->
      struct_entries X E (d + 1) fs (store X E (d + 1)) l es l' ->
      key_text kp k -> lookup X fs k = Some (i, f) -> nth_error l' i = Some old -> string_tagged X E f = true ->
      plain E (f_ty f) (KInt kd) -> str_ok m s -> no_int64 s ->
      mismatch A d T (VStruct l) (opening p ++ entries es ++ text kp ++ text (LStr m s) ++ rest)
        (blen (opening p ++ entries es ++ text kp))
        (says (Around (name id) (f_name f) []) (bs "number " ++ s) (f_ty f)) (VStruct l')
  | mm_tagged_uint d T id fs p n es l l' kp k i f old kd m s rest :
      plain E T (KStruct id fs) -> d < limit -> body_of p n es -> numeral n ->
      struct_entries X E (d + 1) fs (store X E (d + 1)) l es l' ->
      key_text kp k -> lookup X fs k = Some (i, f) -> nth_error l' i = Some old -> string_tagged X E f = true ->
      plain E (f_ty f) (KUint kd) -> str_ok m s -> no_uint64 s ->
      mismatch A d T (VStruct l) (opening p ++ entries es ++ text kp ++ text (LStr m s) ++ rest)
        (blen (opening p ++ entries es ++ text kp)) (says_nowhere (bs "number " ++ s) (f_ty f)) (VStruct l')
  (* behind a pointer *)
  | mm_ptr d T t o data off det w :
      plain E T (KPtr t) -> is_ptr E t = false -> hd_error data <> Some "N"%byte ->
      mismatch A d t (match o with Some v => v | None => zero E t end) data off det w ->
      mismatch A d T (VPtr o) data off det (VPtr (Some w)).

  (** ** The names there are *)

  (** [named T nm t]: inside a [T] there may be a [t] around which the innermost
      struct type and field have these names *)
  Inductive named (T : gty) : bytes * bytes -> gty -> Prop :=
  | na_top : named T ([], []) T
  | na_ptr nm U t : named T nm U -> plain E U (KPtr t) -> named T nm t
  | na_slice nm U t : named T nm U -> plain E U (KSlice t) -> named T nm t
  | na_array nm U c t : named T nm U -> plain E U (KArray c t) -> named T nm t
  | na_key nm U k t : named T nm U -> plain E U (KMap k t) -> named T nm k
  | na_value nm U k t : named T nm U -> plain E U (KMap k t) -> named T nm t
  | na_field nm U id fs f : named T nm U -> plain E U (KStruct id fs) -> In f fs -> is_ignored f = false ->
      named T (name id, f_name f) (f_ty f).

  (** [tells T d]: [d] is about a place that there may be in a [T].  The type it
      gives is the one at that place, with string for all strings and int64 in
      empty interfaces. *)
  Inductive tells (T : gty) : detail -> Prop :=
  | te_int nm t k s : named T nm t -> kind_of E t = KInt k -> tells T (Detail (bs "number " ++ s) t (fst nm) (snd nm))
  | te_uint nm t k s : named T nm t -> kind_of E t = KUint k -> tells T (Detail (bs "number " ++ s) t [] [])
  | te_string nm t b w : named T nm t -> word b w ->
      match kind_of E t with KString | KSlice _ | KStruct _ _ | KAny | KIface _ => True | _ => False end ->
      tells T (Detail w TString (fst nm) (snd nm))
  | te_tagged nm U id fs f b w : named T nm U -> plain E U (KStruct id fs) -> In f fs -> is_ignored f = false ->
      string_tagged X E f = true -> word b w -> tells T (Detail w TString (name id) (f_name f))
  | te_slice nm t et : named T nm t -> kind_of E t = KSlice et -> tells T (Detail (bs "number") (TSlice et) (fst nm) (snd nm))
  | te_any nm t s : named T nm t -> iface_kind (kind_of E t) = true -> tells T (Detail (bs "number " ++ s) (TInt I64) (fst nm) (snd nm))
  | te_iface nm t m : named T nm t -> kind_of E t = KIface m -> tells T (Detail (show t) t (fst nm) (snd nm))
  | te_other nm t : named T nm t -> tells T (Detail (bs "object") t (fst nm) (snd nm)).

  (** An error of an UnmarshalPHP method, as it comes out of Unmarshal: that of a
      value with the method is changed to say where the value is; that of a value
      behind an interface is as it was. *)
  Definition renamed (nm : bytes * bytes) (u u' : uerr) : Prop :=
    match u with
    | UeType o d => u' = UeType o (Detail (dt_value d) (dt_type d) (fst nm) (snd nm))
    | UeSyntax _ => exists o, u' = UeSyntax o
    | UeOther => u' = UeOther
    end.
  Inductive passes_on (T : gty) (returns : nat -> bytes -> gval -> uerr) : uerr -> Prop :=
  | po_value nm t n data u : named T nm t -> has_unmarshal E t = Some n ->
      renamed nm (returns n data (zero E t)) u -> passes_on T returns u
  | po_iface nm t m n data old : named T nm t -> kind_of E t = KIface m -> has_unmarshal E (TName n) = Some n ->
      passes_on T returns (returns n data old).

  (** An error of Unmarshal with a destination of type [T] *)
  Definition explained (T : gty) (returns : nat -> bytes -> gval -> uerr) (e : error) : Prop :=
    match e with
    | ETypeAt _ d => tells T d
    | EUserAt u => passes_on T returns u
    | EType _ | EUser => False          (* there are none without details *)
    | _ => True
    end.
End Names.

(** What there is of an error without the details *)
Definition forget (e : error) : error :=
  match e with ETypeAt o _ => EType o | EUserAt _ => EUser | e => e end.
Definition forget_r (r : R unit) : R unit := match r with RErr e => RErr (forget e) | r => r end.
