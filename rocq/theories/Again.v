(** Specification: the destination types for which a decode does not look at
    what the destination holds, other than to keep it. *)
From Coq Require Import Strings.Byte ZArith List Bool.
From Verif Require Import Base GoTypes Grammar Denote Typing.
Import ListNotations.
Open Scope Z_scope.

(** No interface with methods is decoded into: what such an interface holds
    decides whether, and by which method, a value is accepted. *)
Definition no_ifaces (E : env) (T : gty) : Prop :=
  forall U m, inside E T U -> ~ plain E U (KIface m).

(** Map keys are strings, booleans or integers (not any: a NaN in an any is
    different from every key, itself included; nor a type with its own
    UnmarshalPHP). *)
Definition simple_keys (E : env) (T : gty) : Prop :=
  forall U k t, inside E T U -> plain E U (KMap k t) ->
    exists kk, plain E k kk /\ match kk with KString | KBool | KInt _ | KUint _ => True | _ => False end.
