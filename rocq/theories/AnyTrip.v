(** Specification: a PHP value held in an [any] variable. *)
From Coq Require Import Strings.String Strings.Byte ZArith List Bool Floats.SpecFloat.
From Verif Require Import Base GoTypes Denote Memory Php RoundTrip.
Import ListNotations.
Open Scope Z_scope.

Definition in_any (t : gty) (v : gval) : gval := VIface (Some (t, v)).

(** A map built by assigning the entries one after the other. *)
Definition assigned (l : list (gval * gval)) : list (gval * gval) :=
  fold_left (fun m e => map_set (fst e) (snd e) m) l [].

(** Array keys: a string, or an int64. *)
Inductive any_key_of : php -> gval -> Prop :=
| ako_str s : any_key_of (PStr s) (in_any TString (VStr s))
| ako_int z : int_range I64 z -> any_key_of (PInt z) (in_any (TInt I64) (VInt z)).

(** null, bool, int64, float64, string, and map[any]any for arrays. *)
Inductive any_of (X : Ext) : php -> gval -> Prop :=
| ao_null : any_of X PNull (VIface None)
| ao_bool b : any_of X (PBool b) (in_any TBool (VBool b))
| ao_int z : int_range I64 z -> any_of X (PInt z) (in_any (TInt I64) (VInt z))
| ao_float t f : float_text X t f -> any_of X (PFloat t) (in_any TF64 (VF64 f))
| ao_str s : any_of X (PStr s) (in_any TString (VStr s))
| ao_arr es ws :
    Forall2 (fun e x => any_key_of (fst e) (fst x) /\ any_of X (snd e) (snd x)) es ws ->
    any_of X (PArr es) (in_any (TMap TAny TAny) (VMap (Some (assigned ws)))).

(** The integers and the float texts in a PHP value. *)
Fixpoint ints (p : php) : list Z :=
  match p with
  | PInt z => [z]
  | PArr es => flat_map (fun e => ints (fst e) ++ ints (snd e)) es
  | _ => []
  end.
Fixpoint floats (p : php) : list bytes :=
  match p with
  | PFloat t => [t]
  | PArr es => flat_map (fun e => floats (fst e) ++ floats (snd e)) es
  | _ => []
  end.

(** [Marshal(x)], where x is an [any] variable holding [w]: the argument Marshal
    gets, laid out in memory [H]. *)
Inductive passed (H : heap) : gval -> option (gty * hval) -> Prop :=
| pd_nil : passed H (VIface None) None
| pd_some t x v : RoundTrip.holds H v x -> passed H (in_any t x) (Some (t, v)).
