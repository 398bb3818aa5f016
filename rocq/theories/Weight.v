(** Specification for C80: how much there is to write. *)
From Coq Require Import Strings.String Strings.Byte ZArith List Bool.
From Verif Require Import Base Php.
Import ListNotations.
Open Scope Z_scope.

(** One for each value, key and entry, and what their texts and digits take;
    for what a MarshalPHP method wrote, its length. *)
Fixpoint weight (p : php) : Z :=
  match p with
  | PNull | PBool _ => 1
  | PInt z => blen (decimal z)
  | PFloat t => 1 + blen t
  | PStr s => 1 + blen s
  | PArr es => 1 + fold_right (fun e n => 1 + weight (fst e) + weight (snd e) + n) 0 es
  | PRaw b => 1 + blen b
  end.
