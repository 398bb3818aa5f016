(** Specification: vocabulary for the properties of particular destinations
    (struct entries, null, any, slices and arrays). *)
From Coq Require Import Strings.String Strings.Byte ZArith List Bool Floats.SpecFloat.
From Verif Require Import Base GoTypes Tags Grammar Denote.
Import ListNotations.
Open Scope Z_scope.

(** The name an entry of a struct body is written under (a null key counts as
    the empty name). *)
Definition entry_key (e : lval * lval) : bytes := match fst e with LStr _ s => s | _ => [] end.

(** What null leaves in a destination of type [T] that held [v]. *)
Definition null_result (E : env) (T : gty) (v w : gval) : Prop :=
  match has_unmarshal E T with
  | Some _ => w = zero E T
  | None =>
      match kind_of E T with
      | KBool | KInt _ | KUint _ | KF32 | KF64 | KString | KArray _ _ | KStruct _ _ => w = v
      | KSlice t => if is_byte E t then w = v else w = VSlice None
      | KMap _ _ => w = VMap None
      | KPtr _ => w = VPtr None
      | KAny | KIface _ => w = VIface None
      | KOther => False
      end
  end.

(** No two entries of a Go map have equal keys. *)
Inductive distinct_keys : list (gval * gval) -> Prop :=
| dk_nil : distinct_keys []
| dk_cons k v m : Forall (fun e => key_eqb (fst e) k = false) m -> distinct_keys m -> distinct_keys ((k, v) :: m).

(** The values an [any] can be given: nil, bool, int64, float64, string,
    map[any]any with int64 or string keys, map[string]any; and nothing else at
    any depth. *)
Inductive php_any : gval -> Prop :=
| pa_nil : php_any (VIface None)
| pa_bool b : php_any (VIface (Some (TBool, VBool b)))
| pa_int z : int_range I64 z -> php_any (VIface (Some (TInt I64, VInt z)))
| pa_float f : php_any (VIface (Some (TF64, VF64 f)))
| pa_str s : php_any (VIface (Some (TString, VStr s)))
| pa_map m :
    Forall (fun e => php_key (fst e) /\ php_any (snd e)) m -> distinct_keys m ->
    php_any (VIface (Some (TMap TAny TAny, VMap (Some m))))
| pa_obj m :
    Forall (fun e => (exists s, fst e = VStr s) /\ php_any (snd e)) m -> distinct_keys m ->
    php_any (VIface (Some (TMap TString TAny, VMap (Some m))))
with php_key : gval -> Prop :=
| pk_int z : int_range I64 z -> php_key (VIface (Some (TInt I64, VInt z)))
| pk_str s : php_key (VIface (Some (TString, VStr s))).

(** The element at index [i] of a sequence: the entries written at that index,
    in order, each stored (by [V]) over the result of the one before. *)
Inductive landed (V : lval -> gval -> gval -> Prop) (i : nat) : list (lval * lval) -> gval -> gval -> Prop :=
| la_nil v : landed V i [] v v
| la_here t p es v v1 v2 :
    int_text t (Z.of_nat i) -> V p v v1 -> landed V i es v1 v2 -> landed V i ((LInt t, p) :: es) v v2
| la_other t z p es v v2 :
    int_text t z -> z <> Z.of_nat i -> landed V i es v v2 -> landed V i ((LInt t, p) :: es) v v2.

(** [is] are the indexes the entries are written at. *)
Definition indexes (es : list (lval * lval)) (is : list nat) : Prop :=
  Forall2 (fun e i => exists t, fst e = LInt t /\ index_text t i) es is.
