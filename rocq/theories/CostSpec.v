(** Specification: how much room an input asks for. *)
From Coq Require Import Strings.Byte ZArith List Bool.
From Verif Require Import Base Grammar Php.
Import ListNotations.
Open Scope Z_scope.

(** The room a key asks for when it is an index: up to it.  (The only negative
    text that is an index is that of zero.) *)
Definition up_to (k : lval) : Z :=
  match k with
  | LInt t => match t with b :: _ => if b =b "-"%byte then 1 else num t + 1 | [] => 0 end
  | _ => 0
  end.

(** What the numbers in a serialized value add up to: the counts its arrays and
    objects declare and, if [slices], also its indexes. *)
Fixpoint declared (slices : bool) (p : lval) : Z :=
  let entries (es : list (lval * lval)) :=
    fold_right (fun e a => (if slices then up_to (fst e) else 0) + declared slices (fst e) + declared slices (snd e) + a) 0 es in
  match p with
  | LArr n es | LObj _ _ n es => num n + entries es
  | _ => 0
  end.

(** The entries are written at indexes [i], [i + 1], ... *)
Fixpoint in_order (i : Z) (es : list (lval * lval)) : Prop :=
  match es with
  | [] => True
  | (k, _) :: es => (exists t, k = LInt t /\ int_text t i) /\ in_order (i + 1) es
  end.

(** A list of [n] nulls from index [i]: i:0;N;i:1;N;... *)
Fixpoint nulls (i : Z) (n : nat) : list (lval * lval) :=
  match n with O => [] | S n => (LInt (decimal i), LNull) :: nulls (i + 1) n end.
Definition null_list (n : nat) : lval := LArr (decimal (Z.of_nat n)) (nulls 0 n).
