(** The outcomes of a call of Unmarshal, as a caller sees them.

    [unmarshal] (Unmarshal.v) takes a bound on the recursion that compiles the
    destination type; here the bound is abstracted away: a call has an outcome
    if it has it for some bound (it then has it for every larger bound, see
    CompileFacts.v), and it diverges if no bound suffices. *)
From Coq Require Import Strings.String Strings.Byte ZArith List Bool.
From Verif Require Import Base GoTypes Unmarshal.
Import ListNotations.
Open Scope Z_scope.

Section Api.
  Context (X : Ext) (E : env).

  (** [Unmarshal(data, &x)], where x has type [T] and holds [v], returns nil
      and x then holds [w] *)
  Definition Decodes (data : bytes) (T : gty) (v w : gval) : Prop :=
    exists cf, unmarshal X E cf data (TgPtr T v) = (w, ROk tt).
  (** ... returns an error and x then holds [w] *)
  Definition Fails (data : bytes) (T : gty) (v w : gval) : Prop :=
    exists cf e, unmarshal X E cf data (TgPtr T v) = (w, RErr e).
  (** ... panics *)
  Definition Panics (data : bytes) (T : gty) (v : gval) (p : panic) : Prop :=
    exists cf, snd (unmarshal X E cf data (TgPtr T v)) = RPanic p.
  (** ... never returns *)
  Definition Diverges (data : bytes) (T : gty) (v : gval) : Prop :=
    forall cf, snd (unmarshal X E cf data (TgPtr T v)) = RFuel.
End Api.
