(** Specification: the offsets in the errors of Unmarshal (internal/errors/error.go:24-39:
    SyntaxError.Offset, UnmarshalTypeError.Offset). *)
From Coq Require Import Strings.String Strings.Byte ZArith List Bool.
From Verif Require Import Base Grammar Denote.
Import ListNotations.
Open Scope Z_scope.

(** The offset an error carries, if any. *)
Definition offset_of (e : error) : option Z :=
  match e with ESyntax o _ | EType o => Some o | _ => None end.

(** In [data], after [before], an object begins whose class name is said to be
    longer than the rest of the input: O:<number>: and a quote, with fewer than
    <number>+2 bytes after the quote.  [o] is the 64-bit sum where that name would end. *)
Definition class_end (data : bytes) (o : Z) : Prop := exists before ds rest,
  data = before ++ bs "O:" ++ ds ++ bs ":""" ++ rest /\ numeral ds /\ num ds <= max_int64 /\
  blen rest < num ds + 2 /\ o = wrap64 (blen before + 2 + blen ds + 1 + num ds + 1).
