(** Specification: the grammar of serialized values.

    An [lval] is the syntax tree of one serialized value, as written: numbers
    keep their digits, arrays keep the element count they declare.  [text]
    writes it down.  Nothing here refers to the decoder. *)
From Coq Require Import Strings.String Strings.Byte ZArith List Bool.
From Verif Require Import Base.
Import ListNotations.
Open Scope Z_scope.

Inductive lval :=
| LNull
| LBool (b : bool)
| LInt (t : bytes)                                        (* i:t; *)
| LFloat (t : bytes)                                      (* d:t; *)
| LStr (n : bytes) (s : bytes)                            (* s:n:"s"; *)
| LArr (n : bytes) (es : list (lval * lval))              (* a:n:{...} *)
| LObj (cn cls : bytes) (n : bytes) (es : list (lval * lval)).  (* O:cn:"cls":n:{...} *)

Definition quote : bytes := [""""%byte].

Fixpoint text (p : lval) : bytes :=
  let body (es : list (lval * lval)) :=
    flat_map (fun e => text (fst e) ++ text (snd e)) es in
  match p with
  | LNull => bs "N;"
  | LBool true => bs "b:1;"
  | LBool false => bs "b:0;"
  | LInt t => bs "i:" ++ t ++ bs ";"
  | LFloat t => bs "d:" ++ t ++ bs ";"
  | LStr n s => bs "s:" ++ n ++ bs ":" ++ quote ++ s ++ quote ++ bs ";"
  | LArr n es => bs "a:" ++ n ++ bs ":{" ++ body es ++ bs "}"
  | LObj cn cls n es =>
      bs "O:" ++ cn ++ bs ":" ++ quote ++ cls ++ quote ++ bs ":" ++ n ++ bs ":{" ++ body es ++ bs "}"
  end.

(** Numerals: one or more decimal digits, and the number they denote. *)
Definition numeral (ds : bytes) : Prop := ds <> [] /\ forallb is_digit ds = true.
Definition num (ds : bytes) : Z := fold_left (fun a d => 10 * a + digit_val d) ds 0.

(** Text of a signed integer and the number it denotes. *)
Inductive int_text : bytes -> Z -> Prop :=
| it_pos ds : numeral ds -> int_text ds (num ds)
| it_neg ds : numeral ds -> int_text ("-"%byte :: ds) (- num ds).

(** Well formed: integers are integer texts, float texts are non-empty and stop
    at the semicolon, declared string lengths are right (and fit an int64),
    declared counts are numerals (of any value). *)
Inductive wf : lval -> Prop :=
| wf_null : wf LNull
| wf_bool b : wf (LBool b)
| wf_int t z : int_text t z -> wf (LInt t)
| wf_float t : t <> [] -> ~ In ";"%byte t -> wf (LFloat t)
| wf_str n s : numeral n -> num n = blen s -> wf (LStr n s)
| wf_arr n es : numeral n -> Forall (fun e => wf (fst e) /\ wf (snd e)) es -> wf (LArr n es)
| wf_obj cn cls n es :
    numeral cn -> num cn = blen cls -> numeral n ->
    Forall (fun e => wf (fst e) /\ wf (snd e)) es -> wf (LObj cn cls n es).

(** Strictly well formed at nesting depth [d]: in addition every declared count
    is the number of entries, and nesting stays within 10000. *)
Inductive strict : Z -> lval -> Prop :=
| st_null d : strict d LNull
| st_bool d b : strict d (LBool b)
| st_int d t z : int_text t z -> strict d (LInt t)
| st_float d t : t <> [] -> ~ In ";"%byte t -> strict d (LFloat t)
| st_str d n s : numeral n -> num n = blen s -> strict d (LStr n s)
| st_arr d n es :
    d < 10000 -> numeral n -> num n = blen es ->
    Forall (fun e => strict (d + 1) (fst e) /\ strict (d + 1) (snd e)) es -> strict d (LArr n es)
| st_obj d cn cls n es :
    d < 10000 -> numeral cn -> num cn = blen cls -> numeral n -> num n = blen es ->
    Forall (fun e => strict (d + 1) (fst e) /\ strict (d + 1) (snd e)) es ->
    strict d (LObj cn cls n es).

(** How deep arrays and objects are nested. *)
Fixpoint nesting (p : lval) : Z :=
  let body (es : list (lval * lval)) :=
    fold_right (fun e m => Z.max (Z.max (nesting (fst e)) (nesting (snd e))) m) 0 es in
  match p with
  | LArr _ es | LObj _ _ _ es => 1 + body es
  | _ => 0
  end.

(** Inputs of realistic length: 2^62 bytes would be 4 exabytes. *)
Definition small (data : bytes) : Prop := blen data < 2 ^ 62.
