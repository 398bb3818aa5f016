(** Specification: what memory holds, and what can be reached in it. *)
From Coq Require Import Strings.String Strings.Byte ZArith List Bool Floats.SpecFloat.
From Verif Require Import Base GoTypes MemDecode.
Import ListNotations.
Open Scope Z_scope.

(** ** Memory that holds a tree *)

(** [rep M d g fp]: in memory [M], the content [d] of a variable unfolds to the
    tree [g]; [fp] lists the allocations met on the way, as often as they are
    met.  Nothing is shared when [fp] has no duplicates. *)
Inductive rep (M : memory) : mval -> gval -> list nat -> Prop :=
| rp_bool b : rep M (DBool b) (VBool b) []
| rp_int z : rep M (DInt z) (VInt z) []
| rp_uint z : rep M (DUint z) (VUint z) []
| rp_f32 f : rep M (DF32 f) (VF32 f) []
| rp_f64 f : rep M (DF64 f) (VF64 f) []
| rp_str s : rep M (DStr s) (VStr s) []
| rp_slice_nil : rep M (DSlice None) (VSlice None) []
| rp_slice o i n l gs fp : nth_error M o = Some (OCells l) -> (i + n <= length l)%nat ->
    reps M (firstn n (skipn i l)) gs fp -> rep M (DSlice (Some (o, i, n))) (VSlice (Some gs)) (o :: fp)
| rp_arr l gs fp : reps M l gs fp -> rep M (DArr l) (VArr gs) fp
| rp_map_nil : rep M (DMap None) (VMap None) []
| rp_map o m gm fp : nth_error M o = Some (OMap m) -> rep_pairs M m gm fp ->
    rep M (DMap (Some o)) (VMap (Some gm)) (o :: fp)
| rp_ptr_nil : rep M (DPtr None) (VPtr None) []
| rp_ptr o d g fp : nth_error M o = Some (OCells [d]) -> rep M d g fp ->
    rep M (DPtr (Some (Loc o 0 []))) (VPtr (Some g)) (o :: fp)
| rp_iface_nil : rep M (DIface None) (VIface None) []
| rp_iface t d g fp : rep M d g fp -> rep M (DIface (Some (t, d))) (VIface (Some (t, g))) fp
| rp_struct l gs fp : reps M l gs fp -> rep M (DStruct l) (VStruct gs) fp
| rp_other : rep M DOther VOther []
with reps (M : memory) : list mval -> list gval -> list nat -> Prop :=
| rs_nil : reps M [] [] []
| rs_cons d g fp l gs fp' : rep M d g fp -> reps M l gs fp' -> reps M (d :: l) (g :: gs) (fp ++ fp')
with rep_pairs (M : memory) : list (mval * mval) -> list (gval * gval) -> list nat -> Prop :=
| rq_nil : rep_pairs M [] [] []
| rq_cons k gk fk v gv fv l gs fp : rep M k gk fk -> rep M v gv fv -> rep_pairs M l gs fp ->
    rep_pairs M ((k, v) :: l) ((gk, gv) :: gs) ((fk ++ fv) ++ fp).

(** A variable of allocation [o] holds the tree [g], and no allocation occurs
    twice: no two pointers, maps or slices in it share memory, and none of them
    leads back to the variable. *)
Definition holds (M : memory) (L : loc) (g : gval) (fp : list nat) : Prop :=
  exists d, read M L = Some d /\ rep M d g fp /\ NoDup fp /\ ~ In (l_obj L) fp.

(** [M'] comes from [M] by replacing what [L] holds by the tree [g'] (stored as
    [d']), in the memory [L] led to and new memory, without sharing: the
    allocation of [L] differs at [L] only, and all other allocations that [L]
    did not lead to are as before. *)
Record out (M : memory) (L : loc) (fp : list nat) (M' : memory) (d' : mval) (g' : gval) (fp' : list nat) : Prop := Out {
  out_rep : rep M' d' g' fp';
  out_nodup : NoDup fp';
  out_here : nth_error M' (l_obj L) = option_map (obj_put (l_cell L) (l_path L) d') (nth_error M (l_obj L));
  out_len : (length M <= length M')%nat;
  out_frame : forall o, (o < length M)%nat -> o <> l_obj L -> ~ In o fp -> nth_error M' o = nth_error M o;
  out_fp : forall o, In o fp' -> In o fp \/ (length M <= o)%nat }.
Definition updated (M : memory) (L : loc) (fp : list nat) (M' : memory) (g' : gval) : Prop :=
  exists d' fp', out M L fp M' d' g' fp'.

(** UnmarshalPHP methods do to a receiver without sharing what [x_unmarshal X]
    says. *)
Definition methods_as (X : Ext) (U : method) : Prop :=
  forall n b M L g fp, holds M L g fp ->
  snd (U n b M L) = snd (x_unmarshal X n b g) /\ updated M L fp (fst (U n b M L)) (fst (x_unmarshal X n b g)).

(** ** Reachable variables *)

(** Variables that can be reached from [L]: its fields and array elements, what
    pointers point to, and what pointers inside interfaces point to.  Neither
    elements of slices nor entries of maps. *)
Inductive leads (M : memory) (L : loc) : loc -> Prop :=
| le_here : leads M L L
| le_part Q k : leads M L Q -> leads M L (at_sub Q k)
| le_ptr Q p : leads M L Q -> read M Q = Some (DPtr (Some p)) -> leads M L p
| le_iface Q t p : leads M L Q -> read M Q = Some (DIface (Some (t, DPtr (Some p)))) -> leads M L p.
(** Maps held by reachable variables. *)
Definition leads_map (M : memory) (L : loc) (o : nat) : Prop :=
  exists Q, leads M L Q /\ read M Q = Some (DMap (Some o)).

(** One variable lies inside the other. *)
Definition overlap (P Q : loc) : Prop :=
  l_obj P = l_obj Q /\ l_cell P = l_cell Q /\
  exists r, l_path P = l_path Q ++ r \/ l_path Q = l_path P ++ r.

(** ** Which memory may change *)

(** The references directly in a value point to variables in [A] and maps in [B]. *)
Definition refs_in (A : loc -> Prop) (B : nat -> Prop) (d : mval) : Prop :=
  match d with
  | DPtr (Some p) | DIface (Some (_, DPtr (Some p))) => A p
  | DMap (Some o) => B o
  | _ => True
  end.
Definition fine (A : loc -> Prop) (B : nat -> Prop) (d : mval) : Prop :=
  forall q x, get_path q d = Some x -> refs_in A B x.
Definition fine_obj (A : loc -> Prop) (B : nat -> Prop) (ob : mobj) : Prop :=
  forall i q x, obj_get ob i q = Some x -> refs_in A B x.

(** Memory [M'] comes from [M] by stores into variables in [A], stores into maps
    in [B] and new allocations; every pointer and map stored in a variable is
    itself in [A] or [B]. *)
Inductive evolves (A : loc -> Prop) (B : nat -> Prop) (M : memory) : memory -> Prop :=
| ev_same : evolves A B M M
| ev_write M1 L d : evolves A B M M1 -> A L -> fine A B d -> evolves A B M (write M1 L d)
| ev_map M1 o m m' : evolves A B M M1 -> B o -> nth_error M1 o = Some (OMap m) -> evolves A B M (update M1 o (OMap m'))
| ev_alloc M1 ob : evolves A B M M1 -> fine_obj A B ob -> evolves A B M (M1 ++ [ob]).

(** What can be reached from [L], and all memory allocated later. *)
Definition mine (M : memory) (L : loc) (Q : loc) : Prop := leads M L Q \/ (length M <= l_obj Q)%nat.
Definition mine_map (M : memory) (L : loc) (o : nat) : Prop := leads_map M L o \/ (length M <= o)%nat.

(** User methods write only to memory they can reach from their receiver, and
    store only references to such memory. *)
Definition modest (U : method) : Prop :=
  forall n b M L, evolves (mine M L) (mine_map M L) M (fst (U n b M L)).
