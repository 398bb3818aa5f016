(** Specification: PHP values, and PHP's serialize() of them. *)
From Coq Require Import Strings.String Strings.Byte ZArith List Bool Decimal.
From Coq Require Import Numbers.DecimalString.
From Verif Require Import Base Grammar.
Import ListNotations.
Open Scope Z_scope.

(** [PFloat t] is the float written [t]; [PArr] lists the entries of an array
    in order; [PRaw b] stands for whatever value a custom Marshaler chose to
    write as [b]. *)
Inductive php :=
| PNull | PBool (b : bool) | PInt (z : Z) | PFloat (t : bytes) | PStr (s : bytes)
| PArr (es : list (php * php)) | PRaw (b : bytes).

(** Decimal notation (the standard library's printing of integers). *)
Definition decimal (z : Z) : bytes := bs (NilZero.string_of_int (Z.to_int z)).

Fixpoint serialize (p : php) : bytes :=
  let all (es : list (php * php)) :=
    flat_map (fun e => serialize (fst e) ++ serialize (snd e)) es in
  match p with
  | PNull => bs "N;"
  | PBool b => if b then bs "b:1;" else bs "b:0;"
  | PInt z => bs "i:" ++ decimal z ++ bs ";"
  | PFloat t => bs "d:" ++ t ++ bs ";"
  | PStr s => bs "s:" ++ decimal (blen s) ++ bs ":" ++ quote ++ s ++ quote ++ bs ";"
  | PArr es => bs "a:" ++ decimal (blen es) ++ bs ":{" ++ all es ++ bs "}"
  | PRaw b => b
  end.

(** No custom Marshaler was involved. *)
Fixpoint raw_free (p : php) : bool :=
  match p with
  | PRaw _ => false
  | PArr es => forallb (fun e => raw_free (fst e) && raw_free (snd e)) es
  | _ => true
  end.

(** The syntax tree (Grammar.v) of the serialized form. *)
Fixpoint syntax (p : php) : lval :=
  match p with
  | PNull => LNull
  | PBool b => LBool b
  | PInt z => LInt (decimal z)
  | PFloat t => LFloat t
  | PStr s => LStr (decimal (blen s)) s
  | PArr es => LArr (decimal (blen es)) (map (fun e => (syntax (fst e), syntax (snd e))) es)
  | PRaw _ => LNull
  end.

(** Float texts are not empty and contain no semicolon. *)
Fixpoint float_texts_ok (p : php) : bool :=
  match p with
  | PFloat t => negb (match t with [] => true | _ => false end) && negb (existsb (Byte.eqb ";"%byte) t)
  | PArr es => forallb (fun e => float_texts_ok (fst e) && float_texts_ok (snd e)) es
  | _ => true
  end.

(** Nothing a Marshaler wrote, and float texts as they should be. *)
Definition php_ok (p : php) : Prop := raw_free p = true /\ float_texts_ok p = true.

(** How deep arrays are nested. *)
Fixpoint array_depth (p : php) : Z :=
  match p with
  | PArr es => 1 + fold_right (fun e m => Z.max (Z.max (array_depth (fst e)) (array_depth (snd e))) m) 0 es
  | _ => 0
  end.
