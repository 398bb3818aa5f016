(** Specification: a place inside an input (C61).

    [context X E d T v pre d' t old put]: a decoder that reads [pre] into a
    destination of type [T] holding [v], at nesting depth [d], has accepted all
    of [pre] and next reads a value of type [t] into a destination holding [old],
    at depth [d']; if that leaves [w] there, and the decoder stops, then the whole
    destination holds [put w]. *)
From Coq Require Import Strings.String Strings.Byte ZArith List Bool.
From Verif Require Import Base GoTypes Grammar Denote.
Import ListNotations.
Open Scope Z_scope.

(** [e'] is the error [e], found [k] bytes further on in a longer input; [data]
    is the shorter one.  (About an offset outside of the input, see C59, nothing
    is said.) *)
Definition moved (data : bytes) (k : Z) (e e' : error) : Prop :=
  match e with
  | ESyntax o w => exists o', e' = ESyntax o' w /\ (0 <= o <= blen data -> o' = o + k)
  | EType o => e' = EType (o + k)
  | _ => e' = e
  end.

(** The number of '{' in an input; no value in it is nested deeper than that. *)
Definition braces (data : bytes) : Z := blen (filter (fun c => c =b "{"%byte) data).

(** The text of an array or an object up to and including the '{'. *)
Definition opening (p : lval) : bytes :=
  match p with
  | LArr n _ => bs "a:" ++ n ++ bs ":{"
  | LObj cn cls n _ => bs "O:" ++ cn ++ bs ":""" ++ cls ++ bs """:" ++ n ++ bs ":{"
  | _ => []
  end.

(** The text of key-value pairs *)
Definition entries (es : list (lval * lval)) : bytes := flat_map (fun e => text (fst e) ++ text (snd e)) es.

(** Places in values read into an empty interface *)
Inductive any_context (X : Ext) : Z -> bytes -> Z -> Prop :=
| ac_here d : any_context X d [] d
| ac_array d n es m k kv pre d' :
    d < limit -> numeral n -> num n <= max_int64 ->
    map_entries any_key (any_val X (d + 1)) [] es m -> any_key k kv ->
    any_context X (d + 1) pre d' ->
    any_context X d (opening (LArr n es) ++ entries es ++ text k ++ pre) d'
| ac_object d cn cls n es m k kv pre d' :
    d < limit -> body_of (LObj cn cls n es) n es -> numeral n -> num n <= max_int64 ->
    map_entries obj_key (any_val X (d + 1)) [] es m -> obj_key k kv ->
    any_context X (d + 1) pre d' ->
    any_context X d (opening (LObj cn cls n es) ++ entries es ++ text k ++ pre) d'.

Section Context.
  Context (X : Ext) (E : env).

  Inductive context : Z -> gty -> gval -> bytes -> Z -> gty -> gval -> (gval -> gval) -> Prop :=
  | cx_here d T v : context d T v [] d T v (fun w => w)
  (* behind a pointer: a nil pointer has been replaced by a new one *)
  | cx_ptr d T t o pre d' u old put :
      plain E T (KPtr t) -> is_ptr E t = false -> pre <> [] ->
      context d t (match o with Some v => v | None => zero E t end) pre d' u old put ->
      context d T (VPtr o) pre d' u old (fun w => VPtr (Some (put w)))
  (* in a field: the fields before it have been stored *)
  | cx_field d T id fs l p n es l' kp k i f old pre d' u old' put :
      plain E T (KStruct id fs) -> d < limit -> body_of p n es -> numeral n ->
      struct_entries X E (d + 1) fs (store X E (d + 1)) l es l' ->
      key_text kp k -> lookup X fs k = Some (i, f) -> nth_error l' i = Some old ->
      string_tagged X E f = false ->
      context (d + 1) (f_ty f) old pre d' u old' put ->
      context d T (VStruct l) (opening p ++ entries es ++ text kp ++ pre) d' u old'
        (fun w => VStruct (update l' i (put w)))
  (* in a map value: the entries before it have been stored, this one is not *)
  | cx_value d T k t p n es o m kp kv pre d' u old put :
      plain E T (KMap k t) -> d < limit -> body_of p n es -> numeral n -> num n <= max_int64 ->
      map_entries (store_key X E (d + 1) k) (fun q w => store X E (d + 1) t q (zero E t) w)
                  (match o with Some m0 => m0 | None => [] end) es m ->
      store_key X E (d + 1) k kp kv ->
      context (d + 1) t (zero E t) pre d' u old put ->
      context d T (VMap o) (opening p ++ entries es ++ text kp ++ pre) d' u old (fun _ => VMap (Some m))
  (* in a slice element that has been there before: it is changed *)
  | cx_again d T t n es v l ti i old pre d' u old' put :
      plain E T (KSlice t) -> d < limit -> numeral n -> hd_error n <> Some "0"%byte ->
      num n <= max_int64 -> x_slots X t (num n) = true ->
      slice_entries (x_slots X t) (zero E t) (store X E (d + 1) t) [] es l ->
      index_text ti i -> nth_error l i = Some old ->
      context (d + 1) t old pre d' u old' put ->
      context d T v (opening (LArr n es) ++ entries es ++ text (LInt ti) ++ pre) d' u old'
        (fun w => VSlice (Some (update l i (put w))))
  (* in a new slice element: the slice has the elements before it *)
  | cx_element d T t n es v l ti i pre d' u old put :
      plain E T (KSlice t) -> d < limit -> numeral n -> hd_error n <> Some "0"%byte ->
      num n <= max_int64 -> x_slots X t (num n) = true ->
      slice_entries (x_slots X t) (zero E t) (store X E (d + 1) t) [] es l ->
      index_text ti i -> (length l <= i)%nat -> Z.of_nat i < max_int64 -> x_slots X t (Z.of_nat i + 1) = true ->
      context (d + 1) t (zero E t) pre d' u old put ->
      context d T v (opening (LArr n es) ++ entries es ++ text (LInt ti) ++ pre) d' u old
        (fun _ => match es with [] => v | _ => VSlice (Some l) end)
  (* in an array element; elements not mentioned are zero *)
  | cx_slot d T c t n es v l ti i old pre d' u old' put :
      plain E T (KArray c t) -> d < limit -> numeral n -> hd_error n <> Some "0"%byte ->
      num n <= max_int64 ->
      array_entries (d + 1) (store X E (d + 1) t) (repeat (zero E t) c) es l ->
      index_text ti i -> nth_error l i = Some old ->
      context (d + 1) t old pre d' u old' put ->
      context d T v (opening (LArr n es) ++ entries es ++ text (LInt ti) ++ pre) d' u old'
        (fun w => VArr (update l i (put w)))
  (* in a value read into an empty interface: nothing has been stored *)
  | cx_any d T v pre d' :
      plain E T KAny -> any_context X d pre d' -> context d T v pre d' T v (fun w => w).
End Context.
