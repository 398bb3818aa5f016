(** What the text of an error has to name, independently of how it is put. *)
From Coq Require Import Strings.String Strings.Byte ZArith List Bool Floats.SpecFloat.
From Verif Require Import Base GoTypes Php Message.
Import ListNotations.
Open Scope Z_scope.

(** [names ps m]: the text [m] contains the texts [ps], in this order and apart
    from each other. *)
Inductive names : list bytes -> bytes -> Prop :=
| nm_nil m : names [] m
| nm_cons a p ps r : names ps r -> names (p :: ps) (a ++ p ++ r).

(** Go's names of the kinds of integers: the word and the number of bits. *)
Definition int_kind_name (k : ikind) : bytes :=
  bs "int" ++ match k with IInt => [] | _ => decimal (ibits k) end.
Definition uint_kind_name (k : ukind) : bytes :=
  bs "uint" ++ match k with UUint => [] | UPtr => bs "ptr" | _ => decimal (ubits k) end.

(** Go's names of all kinds (reflect.Kind.String). *)
Definition kind_word (S : Words) (E : env) (t : gty) : bytes :=
  match kind_of E t with
  | KInt k => int_kind_name k
  | KUint k => uint_kind_name k
  | KOther => w_kind S t
  | k => bs (match k with
    | KBool => "bool" | KF32 => "float32" | KF64 => "float64" | KString => "string" | KSlice _ => "slice"
    | KArray _ _ => "array" | KMap _ _ => "map" | KPtr _ => "ptr" | KStruct _ _ => "struct" | _ => "interface"
    end)
  end.

(** The facts an error carries: the number that does not fit and the kind of
    the place, the type that is not supported, the struct and the key that two
    of its fields have, the byte found and where it was. *)
Definition facts (S : Words) (E : env) (e : error) : list bytes :=
  match e with
  | EOverflow (OvInt z k) => [decimal z; int_kind_name k]
  | EOverflow (OvUint z k) => [decimal z; uint_kind_name k]
  | EOverflow (OvFloat f) => [w_number S f; bs "float32"]
  | EUnsupportedType t | EInvalidTarget t => [w_type S t]
  | EDuplicate t k => [w_type S t; k]
  | EMarshal (CType t | CString t) => [w_type S t; kind_word S E t]
  | EMarshal (CPtr t | CFieldPtr t | CEmbedded t | CKey t | CInside t | CRecursive t) => [w_type S t]
  | EMarshal (CAsString t) => [kind_word S E t]
  | ESyntax o (WExpected what c) => [bs what; char c; decimal o]
  | ESyntax _ (WStart what c) => [char c; bs what]
  | ESyntax _ (WAfter c | WDepth c | WValue c | WArray c) => [char c]
  | ESyntax _ (WChar c what) => if c =b "000"%byte then [bs what] else [char c; bs what]
  | ESyntax _ (WEnd what) => [bs what]
  | ESyntax _ (WText what) => [bs what]
  | ESyntax _ (WFloat t) => [w_float S t]
  | ESyntax _ (WBool t) => [w_bool S t]
  | EEmpty | EAnonymous | EType _ | ETypeAt _ _ | EUser | EUserAt _ => []
  end.
