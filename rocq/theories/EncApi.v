(** The outcomes of a call of Marshal, as a caller sees them.

    [marshal] (Encode.v) takes a bound on its recursion; here the bound is
    abstracted away, as in Api.v: a call has an outcome if it has it for some
    bound (and then for every larger one, see EncFacts.v), and it diverges if
    no bound suffices.  [H] is the memory, [ord] the iteration orders the
    runtime chooses for maps, [c] the encoder context the call is given. *)
From Coq Require Import Strings.String Strings.Byte ZArith List Bool Permutation.
From Verif Require Import Base GoTypes Encode.
Import ListNotations.
Open Scope Z_scope.

Section EncApi.
  Context (X : Ext) (E : env) (H : heap) (ord : nat -> list (hval * hval) -> list (hval * hval)).

  (** The runtime iterates over every entry once. *)
  Definition fair_order : Prop := forall n m, Permutation m (ord n m).

  (** Marshal(v), for v of type [t], returns [b] *)
  Definition MarshalsIn (c : st) (t : gty) (v : hval) (b : bytes) : Prop :=
    exists f, snd (marshal X E H ord f c (Some (t, v))) = ROk b.
  Definition MarshalFailsIn (c : st) (t : gty) (v : hval) (e : error) : Prop :=
    exists f, snd (marshal X E H ord f c (Some (t, v))) = RErr e.
  Definition MarshalPanicsIn (c : st) (t : gty) (v : hval) (p : panic) : Prop :=
    exists f, snd (marshal X E H ord f c (Some (t, v))) = RPanic p.
  Definition MarshalDivergesIn (c : st) (t : gty) (v : hval) : Prop :=
    forall f, snd (marshal X E H ord f c (Some (t, v))) = RFuel.
  (** ... on a new context *)
  Definition Marshals := MarshalsIn st0.
  Definition MarshalFails := MarshalFailsIn st0.
  Definition MarshalPanics := MarshalPanicsIn st0.
  Definition MarshalDiverges := MarshalDivergesIn st0.
End EncApi.

(** What strconv.AppendFloat writes is not empty and contains no semicolon. *)
Definition fmt_ok (X : Ext) : Prop :=
  forall c single f, x_fmt X c single f <> [] /\ ~ In ";"%byte (x_fmt X c single f).
