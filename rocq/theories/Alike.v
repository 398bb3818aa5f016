(** Specification: values that differ only in where they lie in memory. *)
From Coq Require Import Strings.String Strings.Byte ZArith List Bool Floats.SpecFloat Permutation.
From Verif Require Import Base GoTypes Memory.
Import ListNotations.
Open Scope Z_scope.

(** [alike H H' v v']: the value [v], with what it refers to in memory [H], is
    the same as the value [v'], with what it refers to in memory [H'].  Equal
    are the scalars, the lengths, the dynamic types of interfaces and what is
    nil; free are the addresses, which of them coincide, what lies behind the
    end of a slice, and the order in which a map's entries are listed.  The
    relation is coinductive: cyclic values can be alike. *)
CoInductive alike (H H' : heap) : hval -> hval -> Prop :=
| ak_bool b : alike H H' (HBool b) (HBool b)
| ak_int z : alike H H' (HInt z) (HInt z)
| ak_uint z : alike H H' (HUint z) (HUint z)
| ak_f32 f : alike H H' (HF32 f) (HF32 f)
| ak_f64 f : alike H H' (HF64 f) (HF64 f)
| ak_str s : alike H H' (HStr s) (HStr s)
| ak_slice_nil : alike H H' (HSlice None) (HSlice None)
| ak_slice o i o' i' n l l' :
    cells H o i n = Some l -> cells H' o' i' n = Some l' -> Forall2 (alike H H') l l' ->
    alike H H' (HSlice (Some (o, i, n))) (HSlice (Some (o', i', n)))
| ak_arr l l' : Forall2 (alike H H') l l' -> alike H H' (HArr l) (HArr l')
| ak_map_nil : alike H H' (HMap None) (HMap None)
| ak_map o o' m m1 m' :
    entries H o = Some m -> entries H' o' = Some m' -> Permutation m1 m' ->
    Forall2 (fun e e' => alike H H' (fst e) (fst e') /\ alike H H' (snd e) (snd e')) m m1 ->
    alike H H' (HMap (Some o)) (HMap (Some o'))
| ak_ptr_nil : alike H H' (HPtr None) (HPtr None)
| ak_ptr o i o' i' c c' :
    cell H o i = Some c -> cell H' o' i' = Some c' -> alike H H' c c' ->
    alike H H' (HPtr (Some (o, i))) (HPtr (Some (o', i')))
| ak_iface_nil : alike H H' (HIface None) (HIface None)
| ak_iface t v v' : alike H H' v v' -> alike H H' (HIface (Some (t, v))) (HIface (Some (t, v')))
| ak_struct l l' : Forall2 (alike H H') l l' -> alike H H' (HStruct l) (HStruct l')
| ak_other z : alike H H' (HOther z) (HOther z).

(** MarshalPHP methods do not depend on where values lie either. *)
Definition methods_alike (X : Ext) (H H' : heap) : Prop :=
  forall n ptr v v', alike H H' v v' -> x_marshal X n ptr H' v' = x_marshal X n ptr H v.

(** No map has two entries, so there is only one order. *)
Definition no_order (H : heap) : Prop := forall o m, entries H o = Some m -> (length m <= 1)%nat.
