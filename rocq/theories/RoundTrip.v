(** Specification: the value held in memory, and what is left of it after
    Marshal and Unmarshal. *)
From Coq Require Import Strings.String Strings.Byte ZArith List Bool Floats.SpecFloat Permutation.
From Verif Require Import Base GoTypes Tags Grammar Denote Typing Memory EncCompile Php Repr.
Import ListNotations.
Open Scope Z_scope.

(** ** Trees *)

(** The keys of a map are pairwise different. *)
Definition distinct (m : list (gval * gval)) : Prop :=
  ForallOrdPairs (fun a b => key_eqb (fst a) (fst b) = false) m.

(** [holds H v w]: the value [v], with all it refers to in memory [H], is the
    tree [w].  A cyclic value is no tree. *)
Inductive holds (H : heap) : hval -> gval -> Prop :=
| ho_bool b : holds H (HBool b) (VBool b)
| ho_int z : holds H (HInt z) (VInt z)
| ho_uint z : holds H (HUint z) (VUint z)
| ho_f32 f : holds H (HF32 f) (VF32 f)
| ho_f64 f : holds H (HF64 f) (VF64 f)
| ho_str s : holds H (HStr s) (VStr s)
| ho_slice_nil : holds H (HSlice None) (VSlice None)
| ho_slice o i n l ws :
    cells H o i n = Some l -> Forall2 (holds H) l ws -> holds H (HSlice (Some (o, i, n))) (VSlice (Some ws))
| ho_arr l ws : Forall2 (holds H) l ws -> holds H (HArr l) (VArr ws)
| ho_map_nil : holds H (HMap None) (VMap None)
| ho_map o m ws :
    entries H o = Some m -> distinct ws ->
    Forall2 (fun e x => holds H (fst e) (fst x) /\ holds H (snd e) (snd x)) m ws ->
    holds H (HMap (Some o)) (VMap (Some ws))
| ho_ptr_nil : holds H (HPtr None) (VPtr None)
| ho_ptr o i c w : cell H o i = Some c -> holds H c w -> holds H (HPtr (Some (o, i))) (VPtr (Some w))
| ho_iface_nil : holds H (HIface None) (VIface None)
| ho_iface t v w : holds H v w -> holds H (HIface (Some (t, v))) (VIface (Some (t, w)))
| ho_struct l ws : Forall2 (holds H) l ws -> holds H (HStruct l) (VStruct ws)
(* only the nil ones: a tree has nothing to say about the others *)
| ho_other : holds H (HOther true) VOther.

(** Go's notion of an empty value (reflect.Value.IsZero, with -0 counted as 0). *)
Inductive blank : gval -> Prop :=
| bl_bool : blank (VBool false)
| bl_int : blank (VInt 0)
| bl_uint : blank (VUint 0)
| bl_f32 s : blank (VF32 (S754_zero s))
| bl_f64 s : blank (VF64 (S754_zero s))
| bl_str : blank (VStr [])
| bl_slice : blank (VSlice None)
| bl_map : blank (VMap None)
| bl_ptr : blank (VPtr None)
| bl_iface : blank (VIface None)
| bl_arr l : Forall blank l -> blank (VArr l)
| bl_struct l : Forall blank l -> blank (VStruct l)
| bl_other : blank VOther.

(** The scalars in a tree, and how deep slices, arrays, maps and structs are
    nested in it. *)
Fixpoint leaves (w : gval) : list gval :=
  match w with
  | VSlice (Some l) | VArr l | VStruct l => flat_map leaves l
  | VMap (Some m) => flat_map (fun e => leaves (fst e) ++ leaves (snd e)) m
  | VPtr (Some w') | VIface (Some (_, w')) => leaves w'
  | _ => [w]
  end.
Fixpoint levels (w : gval) : Z :=
  match w with
  | VSlice (Some l) | VArr l | VStruct l => 1 + fold_right (fun x m => Z.max (levels x) m) 0 l
  | VMap (Some l) => 1 + fold_right (fun e m => Z.max (levels (snd e)) m) 0 l
  | VPtr (Some w') | VIface (Some (_, w')) => levels w'
  | _ => 0
  end.

(** What strconv must get right for a float: parsing what was formatted gives
    the float back (for a float32, without overflow and after rounding). *)
Definition strconv_exact (X : Ext) (w : gval) : Prop :=
  forall c, c = "e"%byte \/ c = "f"%byte ->
  match w with
  | VF64 f => float_text X (x_fmt X c false f) f
  | VF32 f => exists g, float_text X (x_fmt X c true f) g /\ overflow_f32 g = false /\ f32_of_f64 g = f
  | _ => True
  end.

(** ** Types *)

(** Plain data: no methods, no interfaces, chan, func or complex; maps keyed by
    strings and integers. *)
Definition data_kind (E : env) (k : kind) : bool :=
  match k with
  | KAny | KIface _ | KOther => false
  | KMap t _ => key_kind (kind_of E t)
  | _ => true
  end.
Definition data_type (E : env) (T : gty) : Prop :=
  forall U, inside E T U ->
    has_unmarshal E U = None /\ marshaler E U = false /\ data_kind E (kind_of E U) = true.

(** ** What is left of a value *)

Section Survives.
  Context (X : Ext) (E : env).

  (** A field that is not written. *)
  Definition left_out (f : field) (v : gval) : Prop :=
    written_field X f = false \/ (tag_omitempty (tag_of X f) = true /\ blank v).
  (** Nil slices (except []byte) and nil maps are written as null. *)
  Inductive written_null (T : gty) : gval -> Prop :=
  | wn_slice t : kind_of E T = KSlice t -> bytes_type T = false -> written_null T (VSlice None)
  | wn_map k t : kind_of E T = KMap k t -> written_null T (VMap None).

  Definition scalar (v : gval) : bool :=
    match v with VBool _ | VInt _ | VUint _ | VF32 _ | VF64 _ | VStr _ => true | _ => false end.

  (** [survives T v w]: [v], of type [T], comes back as [w].  It is [v] again,
      except that
      - a nil []byte comes back empty, any other empty slice comes back nil;
      - the order of map entries (which has no meaning) may differ;
      - a pointer to a nil slice or map comes back nil;
      - fields that are not written come back zero. *)
  Inductive survives : gty -> gval -> gval -> Prop :=
  | sv_scalar T v : scalar v = true -> survives T v v
  | sv_bytes_nil T : bytes_type T = true -> survives T (VSlice None) (VSlice (Some []))
  | sv_bytes T l : bytes_type T = true -> survives T (VSlice (Some l)) (VSlice (Some l))
  | sv_slice_nil T t : kind_of E T = KSlice t -> bytes_type T = false -> survives T (VSlice None) (VSlice None)
  | sv_slice_empty T t : kind_of E T = KSlice t -> bytes_type T = false -> survives T (VSlice (Some [])) (VSlice None)
  | sv_slice T t l l' :
      kind_of E T = KSlice t -> bytes_type T = false -> l <> [] -> Forall2 (survives t) l l' ->
      survives T (VSlice (Some l)) (VSlice (Some l'))
  | sv_arr T n t l l' : kind_of E T = KArray n t -> Forall2 (survives t) l l' -> survives T (VArr l) (VArr l')
  | sv_map_nil T k t : kind_of E T = KMap k t -> survives T (VMap None) (VMap None)
  | sv_map T k t m m1 m' :
      kind_of E T = KMap k t -> Permutation m m1 ->
      Forall2 (fun e x => fst x = fst e /\ survives t (snd e) (snd x)) m1 m' ->
      survives T (VMap (Some m)) (VMap (Some m'))
  | sv_ptr_nil T t : kind_of E T = KPtr t -> survives T (VPtr None) (VPtr None)
  | sv_ptr_null T t v : kind_of E T = KPtr t -> written_null t v -> survives T (VPtr (Some v)) (VPtr None)
  | sv_ptr T t v w : kind_of E T = KPtr t -> ~ written_null t v -> survives t v w ->
      survives T (VPtr (Some v)) (VPtr (Some w))
  | sv_struct T id fs l l' :
      kind_of E T = KStruct id fs -> length l = length fs ->
      Forall2 (fun x w => (left_out (fst x) (snd x) /\ w = zero E (f_ty (fst x))) \/
                          (~ left_out (fst x) (snd x) /\ survives (f_ty (fst x)) (snd x) w)) (combine fs l) l' ->
      survives T (VStruct l) (VStruct l').
End Survives.

(** Equal up to the order of map entries. *)
Inductive same : gval -> gval -> Prop :=
| sa_eq v : same v v
| sa_slice l l' : Forall2 same l l' -> same (VSlice (Some l)) (VSlice (Some l'))
| sa_arr l l' : Forall2 same l l' -> same (VArr l) (VArr l')
| sa_struct l l' : Forall2 same l l' -> same (VStruct l) (VStruct l')
| sa_ptr v w : same v w -> same (VPtr (Some v)) (VPtr (Some w))
| sa_map m m1 m' :
    Permutation m m1 -> Forall2 (fun e x => fst e = fst x /\ same (snd e) (snd x)) m1 m' ->
    same (VMap (Some m)) (VMap (Some m')).
