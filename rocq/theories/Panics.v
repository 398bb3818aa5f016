(** Specification: where and why Unmarshal panics (C63).

    [blast X E d t old rest p w]: a decoder that reads [rest] into a destination
    of type [t] holding [old], at nesting depth [d], panics with [p], right here
    and not in a part of the destination, and leaves [w]. *)
From Coq Require Import Strings.String Strings.Byte ZArith List Bool.
From Verif Require Import Base GoTypes Grammar Denote Context.
Import ListNotations.
Open Scope Z_scope.

Section Panics.
  Context (X : Ext) (E : env).

  (** A value that cannot be a map key of type pointer to [t] (only null can),
      which is found out too late: any value that [t] could hold; for integers,
      one of 64 bits whatever the size of [t] is. *)
  Inductive odd_key (d : Z) (t : gty) : lval -> Prop :=
  | odd_string n s : plain E t KString -> str_ok n s -> odd_key d t (LStr n s)
  | odd_bool b : plain E t KBool -> odd_key d t (LBool b)
  | odd_int k s z : plain E t (KInt k) -> int_text s z -> int_range I64 z -> odd_key d t (LInt s)
  | odd_uint k s : plain E t (KUint k) -> numeral s -> uint_range U64 (num s) -> odd_key d t (LInt s)
  | odd_any p w : plain E t KAny -> p <> LNull -> any_val X d p w -> odd_key d t p
  | odd_iface m p w : plain E t (KIface m) -> p <> LNull -> any_val X d p w -> odd_key d t p.

  Inductive blast : Z -> gty -> gval -> bytes -> panic -> gval -> Prop :=
  (* the declared number of elements is more than can be allocated *)
  | bl_count d T t n es v rest :
      plain E T (KSlice t) -> d < limit -> numeral n -> hd_error n <> Some "0"%byte ->
      num n <= max_int64 -> x_slots X t (num n) = false ->
      blast d T v (opening (LArr n es) ++ rest) PAlloc v
  (* an index is more than a slice can be grown to *)
  | bl_index d T t n es v l ti i rest :
      plain E T (KSlice t) -> d < limit -> numeral n -> hd_error n <> Some "0"%byte ->
      num n <= max_int64 -> x_slots X t (num n) = true ->
      slice_entries (x_slots X t) (zero E t) (store X E (d + 1) t) [] es l ->
      index_text ti i -> (length l <= i)%nat ->
      ~ (Z.of_nat i < max_int64 /\ x_slots X t (Z.of_nat i + 1) = true) -> rest <> [] ->
      blast d T v (opening (LArr n es) ++ entries es ++ text (LInt ti) ++ rest) PAlloc
        (match es with [] => v | _ => VSlice (Some l) end)
  (* a map with keys of pointer type, and a key that is not null *)
  | bl_key d T k t u p n es o m kp rest :
      plain E T (KMap k t) -> d < limit -> body_of p n es -> numeral n -> num n <= max_int64 ->
      map_entries (store_key X E (d + 1) k) (fun q w => store X E (d + 1) t q (zero E t) w)
                  (match o with Some m0 => m0 | None => [] end) es m ->
      plain E k (KPtr u) -> odd_key (d + 1) u kp ->
      blast d T (VMap o) (opening p ++ entries es ++ text kp ++ rest) PReflect (VMap (Some m))
  (* a map with keys of interface type (or that a method makes), and a key that
     is a map, or holds one: found out after the value has been read *)
  | bl_unhashable d T k t p n es o m kp kv q w rest :
      plain E T (KMap k t) -> d < limit -> body_of p n es -> numeral n -> num n <= max_int64 ->
      map_entries (store_key X E (d + 1) k) (fun q w => store X E (d + 1) t q (zero E t) w)
                  (match o with Some m0 => m0 | None => [] end) es m ->
      store_key X E (d + 1) k kp kv -> hashable kv = false ->
      store X E (d + 1) t q (zero E t) w ->
      blast d T (VMap o) (opening p ++ entries es ++ text kp ++ text q ++ rest) PUnhashable (VMap (Some m))
  (* a pointer to a destination of one of these kinds *)
  | bl_ptr d T t o rest p w :
      plain E T (KPtr t) -> is_ptr E t = false ->
      blast d t (match o with Some v => v | None => zero E t end) rest p w ->
      blast d T (VPtr o) rest p (VPtr (Some w)).

  (** Somewhere in [data], read into a [T] that holds [v]. *)
  Definition panics_at (d : Z) (T : gty) (v : gval) (data : bytes) (p : panic) (w : gval) : Prop :=
    exists pre rest d' t old put w',
      data = pre ++ rest /\ context X E d T v pre d' t old put /\ blast d' t old rest p w' /\ w = put w'.
End Panics.
