(** Specification: what a Go map holds (C69). *)
From Coq Require Import List.
From Verif Require Import Base GoTypes.
Import ListNotations.

(** The value under the key [q]: Go's m[q], ok. *)
Definition at_key (q : gval) (m : list (gval * gval)) : option gval :=
  option_map snd (find (fun e => key_eqb (fst e) q) m).
(** The entries of a map value; a nil map has none. *)
Definition held (o : option (list (gval * gval))) : list (gval * gval) := match o with Some m => m | None => [] end.
