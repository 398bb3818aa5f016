(** What strconv promises about floats: the number a text denotes, and the float
    nearest to it.  Used to say what becomes of a float32 (C42).

    Numbers are compared in whole units of 2^-1200, which every float32, every
    float64 and every number half way between two of them is a multiple of. *)
From Coq Require Import Strings.String Strings.Byte ZArith List Bool Floats.SpecFloat.
From Verif Require Import Base GoTypes Grammar.
Import ListNotations.
Open Scope Z_scope.

(** m * 2^e *)
Definition in_units (m e : Z) : Z := m * 2 ^ (e + 1200).

(** The numbers m * 2^e with m of [prec] bits: 24 and 128 for float32, 53 and 1024
    for float64 (non-negative ones). *)
Definition representable (prec emax x : Z) : Prop :=
  exists m e, 0 <= m < 2 ^ prec /\ 3 - emax - prec <= e <= emax - prec /\ x = in_units m e.

(** a/b rounds to m * 2^e: it is below the number half way between the largest float
    and the next power of two, no float is closer, and if another one is equally
    close then m is even.  [bounded] says that m and e are how a float is stored. *)
Definition rounds_to (prec emax a b : Z) (m : positive) (e : Z) : Prop :=
  let far x := Z.abs (a * 2 ^ 1200 - b * x) in
  bounded prec emax m e = true /\
  2 * (a * 2 ^ 1200) < b * in_units (2 ^ (prec + 1) - 1) (emax - prec) /\
  forall x, representable prec emax x -> x <> in_units (Zpos m) e ->
    far (in_units (Zpos m) e) < far x \/ far (in_units (Zpos m) e) = far x /\ Z.even (Zpos m) = true.

(** a/b rounds to zero: no float is closer. *)
Definition rounds_to_zero (prec emax a b : Z) : Prop :=
  forall x, representable prec emax x -> Z.abs (a * 2 ^ 1200 - b * 0) <= Z.abs (a * 2 ^ 1200 - b * x).
(** a/b is too large for a float: it is not below the number half way between the
    largest float and the next power of two. *)
Definition rounds_to_infinity (prec emax a b : Z) : Prop :=
  b * in_units (2 ^ (prec + 1) - 1) (emax - prec) <= 2 * (a * 2 ^ 1200).

(** The text denotes the number a/b, or - a/b if the sign is [true]. *)
Inductive exponent : bytes -> Z -> Prop :=
| ex_none : exponent [] 0
| ex_plus ds : numeral ds -> exponent ("e"%byte :: "+"%byte :: ds) (num ds)
| ex_minus ds : numeral ds -> exponent ("e"%byte :: "-"%byte :: ds) (- num ds).
Inductive denotes : bytes -> bool -> Z -> Z -> Prop :=
| den (s : bool) ip fp et k a b :
    numeral ip -> forallb is_digit fp = true -> exponent et k ->
    a = num (ip ++ fp) * 10 ^ Z.max 0 (k - blen fp) -> b = 10 ^ Z.max 0 (blen fp - k) ->
    denotes ((if s then ["-"%byte] else []) ++ ip ++ (match fp with [] => [] | _ => "."%byte :: fp end) ++ et) s a b.

(** The float64 m' * 2^e' lies half way between the float32 m * 2^e and another one. *)
Definition midway (m : positive) (e : Z) (m' : positive) (e' : Z) : Prop :=
  exists x, representable 24 128 x /\ x <> in_units (Zpos m) e /\
  2 * in_units (Zpos m') e' = in_units (Zpos m) e + x.
(** ... is greater than the largest float32 *)
Definition too_large (m' : positive) (e' : Z) : Prop :=
  in_units (2 ^ 24 - 1) 104 < in_units (Zpos m') e'.
