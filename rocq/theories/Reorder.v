(** Specification for C84: inputs that differ in the order of entries, and values
    that look the same to a program. *)
From Coq Require Import Strings.String Strings.Byte ZArith List Bool.
From Verif Require Import Base GoTypes Tags Grammar Denote Typing MapSpec.
Import ListNotations.
Open Scope Z_scope.

(** Different keys: different integers, different strings, or one of each. *)
Inductive key_is : lval -> Z + bytes -> Prop :=
| ki_int t z : int_text t z -> key_is (LInt t) (inl z)
| ki_str n s : str_ok n s -> key_is (LStr n s) (inr s).
Definition different (k1 k2 : lval) : Prop := exists a b, key_is k1 a /\ key_is k2 b /\ a <> b.

(** The same entries in another order, with values related by [R]: neighbours may
    change places, again and again, if their keys are different. *)
Inductive shuffled (R : lval -> lval -> Prop) : list (lval * lval) -> list (lval * lval) -> Prop :=
| shu_nil : shuffled R [] []
| shu_cons k p q es es' : R p q -> shuffled R es es' -> shuffled R ((k, p) :: es) ((k, q) :: es')
| shu_swap k1 p1 q1 k2 p2 q2 es es' : different k1 k2 -> R p1 q1 -> R p2 q2 -> shuffled R es es' ->
    shuffled R ((k1, p1) :: (k2, p2) :: es) ((k2, q2) :: (k1, q1) :: es')
| shu_trans a b c : shuffled R a b -> shuffled R b c -> shuffled R a c.

(** The same data, with the entries of arrays and objects in another order, at
    any depth. *)
Inductive reordered : lval -> lval -> Prop :=
| reo_null : reordered LNull LNull
| reo_bool b : reordered (LBool b) (LBool b)
| reo_int t : reordered (LInt t) (LInt t)
| reo_float t : reordered (LFloat t) (LFloat t)
| reo_str n s : reordered (LStr n s) (LStr n s)
| reo_arr n es es' : shuffled reordered es es' -> reordered (LArr n es) (LArr n es')
| reo_obj cn cls n es es' : shuffled reordered es es' -> reordered (LObj cn cls n es) (LObj cn cls n es').

(** What a program can do to look into a value: take an element or a field, look
    up a key of a map, follow a pointer or open an interface. *)
Inductive look := Element (i : nat) | Key (q : gval) | Follow.
Definition into (s : look) (v : gval) : option gval :=
  match s, v with
  | Element i, (VSlice (Some l) | VArr l | VStruct l) => nth_error l i
  | Key q, VMap (Some m) => at_key q m
  | Follow, (VPtr (Some u) | VIface (Some (_, u))) => Some u
  | _, _ => None
  end.
Fixpoint walk (path : list look) (v : gval) : option gval :=
  match path with [] => Some v | s :: path => match into s v with Some u => walk path u | None => None end end.
(** What it sees there at once: a scalar, a length, whether it is nil, the type
    an interface holds. *)
Definition blank (l : list gval) : list gval := map (fun _ => VOther) l.
Definition face (v : gval) : gval :=
  match v with
  | VSlice (Some l) => VSlice (Some (blank l)) | VArr l => VArr (blank l) | VStruct l => VStruct (blank l)
  | VMap (Some m) => VMap (Some []) | VPtr (Some _) => VPtr (Some VOther) | VIface (Some (t, _)) => VIface (Some (t, VOther))
  | _ => v
  end.
(** Two values look the same if every way of looking into them shows the same. *)
Definition looks_same (v v' : gval) : Prop := forall path, option_map face (walk path v) = option_map face (walk path v').

(** No method of the program's own takes part in the decoding. *)
Definition no_methods (E : env) (T : gty) : Prop :=
  forall U, inside E T U -> has_unmarshal E U = None /\ forall m, kind_of E U <> KIface m.
(** A shorter slice fits whenever a longer one does. *)
Definition shorter_fits (X : Ext) : Prop := forall t m n, 0 <= m <= n -> x_slots X t n = true -> x_slots X t m = true.
