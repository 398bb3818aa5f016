(** Specification: how deeply a Go value is nested (C90). *)
From Coq Require Import List ZArith.
From Verif Require Import Base GoTypes.
Import ListNotations.

(** The greatest number of slices, maps and pointers one inside the other. *)
Fixpoint levels (w : gval) : nat :=
  match w with
  | VSlice (Some l) => S (list_max (map levels l))
  | VArr l | VStruct l => list_max (map levels l)
  | VMap (Some m) => S (list_max (map (fun e => match e with (_, x) => levels x end) m))
  | VPtr (Some x) => S (levels x)
  | VIface (Some (_, x)) => levels x
  | _ => O
  end.
