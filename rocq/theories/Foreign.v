(** Specification: data with something in it that is no serialized value of the
    sorts Unmarshal knows, such as references (C88).  Nothing here refers to the
    decoder. *)
From Coq Require Import Strings.String Strings.Byte ZArith List Bool.
From Verif Require Import Base GoTypes Grammar Denote Context.
Import ListNotations.
Open Scope Z_scope.

(** [foreign data]: where a value or a key is expected, at the top or inside
    arrays and objects at any depth, after entries that are well formed, stands a
    byte that begins no null, bool, int, float, string, array or object (and does
    not end the array or object).  What follows it does not matter. *)
Inductive foreign : bytes -> Prop :=
| fo_here c r : ~ In c (bs "NbidsaO}") -> foreign (c :: r)
| fo_key p n es t : body_of p n es -> wf p -> foreign t -> foreign (opening p ++ entries es ++ t)
| fo_value p n es k t : body_of p n es -> wf p -> wf k -> foreign t -> foreign (opening p ++ entries es ++ text k ++ t).

(** What else PHP's serialize may write for a value (the formats in PHP's
    ext/standard/var_unserializer.re): references to earlier values, enum cases,
    objects of classes that serialize themselves, and strings with escapes. *)
Inductive php_only : bytes -> Prop :=
| po_same n : numeral n -> php_only (bs "r:" ++ n ++ bs ";")                          (* the same object as value n *)
| po_ref n : numeral n -> php_only (bs "R:" ++ n ++ bs ";")                           (* a reference to value n *)
| po_enum n s : numeral n -> num n = blen s -> php_only (bs "E:" ++ n ++ bs ":""" ++ s ++ bs """;")
| po_custom cn cls n s : numeral cn -> num cn = blen cls -> numeral n -> num n = blen s ->
    php_only (bs "C:" ++ cn ++ bs ":""" ++ cls ++ bs """:" ++ n ++ bs ":{" ++ s ++ bs "}")
| po_escaped n s : numeral n -> php_only (bs "S:" ++ n ++ bs ":""" ++ s ++ bs """;").
