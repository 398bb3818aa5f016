(** Specification: values which a trip through Marshal and Unmarshal leaves as
    they are for the next Marshal. *)
From Coq Require Import List Bool.
From Verif Require Import Base GoTypes Tags Denote Memory EncCompile Php Repr RoundTrip.
Import ListNotations.

(** [bare T w]: nothing in [w], of type [T], is other than empty except in
    fields that are never written. *)
Inductive bare (X : Ext) (E : env) : gty -> gval -> Prop :=
| ba_blank T v : blank v -> bare X E T v
| ba_arr T n t l : kind_of E T = KArray n t -> Forall (bare X E t) l -> bare X E T (VArr l)
| ba_struct T id fs l :
    kind_of E T = KStruct id fs ->
    Forall (fun x => written_field X (fst x) = false \/ bare X E (f_ty (fst x)) (snd x)) (combine fs l) ->
    bare X E T (VStruct l).

(** [settled T w]: the tree [w], of type [T], contains
    - no empty slice that is not nil, other than a []byte,
    - no pointer to a nil slice or map,
    - no omitempty field that is written only because of fields that are not.
    Fields that are not written may hold anything. *)
Inductive settled (X : Ext) (E : env) : gty -> gval -> Prop :=
| st_scalar T v : scalar v = true -> settled X E T v
| st_bytes T l : bytes_type T = true -> settled X E T (VSlice l)
| st_slice_nil T : settled X E T (VSlice None)
| st_slice T t l : kind_of E T = KSlice t -> l <> [] -> Forall (settled X E t) l -> settled X E T (VSlice (Some l))
| st_arr T n t l : kind_of E T = KArray n t -> Forall (settled X E t) l -> settled X E T (VArr l)
| st_map_nil T : settled X E T (VMap None)
| st_map T k t m : kind_of E T = KMap k t -> Forall (fun e => settled X E t (snd e)) m -> settled X E T (VMap (Some m))
| st_ptr_nil T : settled X E T (VPtr None)
| st_ptr T t v : kind_of E T = KPtr t -> ~ written_null E t v -> settled X E t v -> settled X E T (VPtr (Some v))
| st_struct T id fs l :
    kind_of E T = KStruct id fs ->
    Forall (fun x => left_out X (fst x) (snd x) \/
      (settled X E (f_ty (fst x)) (snd x) /\
       (tag_omitempty (tag_of X (fst x)) = true -> ~ bare X E (f_ty (fst x)) (snd x)))) (combine fs l) ->
    settled X E T (VStruct l).
