(** Specification: what PHP's serialize() writes for values without references,
    enum cases and classes that serialize themselves, and what a Go program finds
    in an empty interface that holds the same (C89).  Nothing here refers to the
    decoder. *)
From Coq Require Import Strings.String Strings.Byte ZArith List Bool Floats.SpecFloat.
From Verif Require Import Base GoTypes Grammar Denote Php.
Import ListNotations.
Open Scope Z_scope.

Definition php_string (s : bytes) : lval := LStr (decimal (blen s)) s.
Definition php_int (z : Z) : lval := LInt (decimal z).

(** Keys of arrays are 64-bit integers and strings, names of properties strings. *)
Inductive data_key : lval -> Prop :=
| dk_int z : int_range I64 z -> data_key (php_int z)
| dk_str s : data_key (php_string s).
Inductive property_name : lval -> Prop :=
| pn_str s : property_name (php_string s).

(** The keys of an array differ; counts and lengths are true.  The texts of floats
    are texts that strconv.ParseFloat accepts, or INF, -INF or NAN. *)
Inductive php_data (X : Ext) : lval -> Prop :=
| pd_null : php_data X LNull
| pd_bool b : php_data X (LBool b)
| pd_int z : int_range I64 z -> php_data X (php_int z)
| pd_float t f : t <> [] -> ~ In ";"%byte t -> float_text X t f -> php_data X (LFloat t)
| pd_str s : php_data X (php_string s)
| pd_arr es : NoDup (map fst es) -> Forall (fun e => data_key (fst e) /\ php_data X (snd e)) es ->
    php_data X (LArr (decimal (blen es)) es)
| pd_obj cls es : NoDup (map fst es) -> Forall (fun e => property_name (fst e) /\ php_data X (snd e)) es ->
    php_data X (LObj (decimal (blen cls)) cls (decimal (blen es)) es).

(** [has_data p w]: the empty interface [w] holds what [p] says: null is nil; bool,
    int64, float64 and string are themselves; an array is a map[any]any and an
    object a map[string]any, with exactly the entries written. *)
Inductive has_data (X : Ext) : lval -> gval -> Prop :=
| hd_null : has_data X LNull (VIface None)
| hd_bool b : has_data X (LBool b) (VIface (Some (TBool, VBool b)))
| hd_int z : has_data X (php_int z) (VIface (Some (TInt I64, VInt z)))
| hd_float t f : float_text X t f -> has_data X (LFloat t) (VIface (Some (TF64, VF64 f)))
| hd_str s : has_data X (php_string s) (VIface (Some (TString, VStr s)))
| hd_arr n es m :
    Forall2 (fun e x =>
      ((exists z, fst e = php_int z /\ fst x = VIface (Some (TInt I64, VInt z))) \/
       (exists s, fst e = php_string s /\ fst x = VIface (Some (TString, VStr s)))) /\ has_data X (snd e) (snd x)) es m ->
    has_data X (LArr n es) (VIface (Some (TMap TAny TAny, VMap (Some m))))
| hd_obj cn cls n es m :
    Forall2 (fun e x => (exists s, fst e = php_string s /\ fst x = VStr s) /\ has_data X (snd e) (snd x)) es m ->
    has_data X (LObj cn cls n es) (VIface (Some (TMap TString TAny, VMap (Some m)))).

(** Data without floats and objects, which is what has only one text. *)
Inductive plain_data : lval -> Prop :=
| pl_null : plain_data LNull
| pl_bool b : plain_data (LBool b)
| pl_int z : plain_data (php_int z)
| pl_str s : plain_data (php_string s)
| pl_arr es : Forall (fun e => plain_data (snd e)) es -> plain_data (LArr (decimal (blen es)) es).

(** The entries of a PHP list: keys 0, 1, 2, ... in order. *)
Fixpoint listed (i : nat) (ps : list lval) : list (lval * lval) :=
  match ps with [] => [] | p :: ps' => (php_int (Z.of_nat i), p) :: listed (S i) ps' end.
