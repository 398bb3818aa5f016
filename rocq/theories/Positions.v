(** Specification: where a value stands when it is marshalled. *)
From Coq Require Import Strings.String Strings.Byte ZArith List Bool.
From Verif Require Import Base GoTypes Memory EncCompile Repr.
Import ListNotations.
Open Scope Z_scope.

(** Types whose values are encoded alike as themselves and inside an
    interface: no arrays, no Marshalers except structs, and no pointers to
    Marshalers. *)
Inductive alike (E : env) : gty -> Prop :=
| al_plain T : plain_kind (kind_of E T) = true -> marshaler E T = false -> alike E T
| al_slice T t : kind_of E T = KSlice t -> marshaler E T = false ->
    (iface_kind (kind_of E t) = true -> marshaler E t = false) -> alike E T
| al_map T k t : kind_of E T = KMap k t -> marshaler E T = false ->
    (iface_kind (kind_of E t) = true -> marshaler E t = false) -> alike E T
| al_struct T id fs : kind_of E T = KStruct id fs -> alike E T
| al_iface T : iface_kind (kind_of E T) = true -> marshaler E T = false -> alike E T
| al_ptr T t : kind_of E T = KPtr t -> marshaler E T = false -> marshaler E t = false ->
    alike E t -> alike E T.

(** Fewer than [n] slices, maps and struct pointers nested in each other, each
    at an address different from those it lies in. *)
Definition apart_below (n : Z) (s : Z * list addr) (inside : bool) (a : addr) (s' : Z * list addr) : Prop :=
  fst s < n /\ ~ In a (snd s) /\ s' = (fst s + 1, a :: snd s).

(** MarshalPHP returns an error ([says] in Repr.v is for its result). *)
Inductive refuses (X : Ext) (E : env) (H : heap) : gty -> hval -> error -> Prop :=
| rf_value n v e : x_marshal X n false H v = RErr e ->
    iface_kind (kind_of E (TName n)) = false -> refuses X E H (TName n) v e
| rf_pointer n d p e : nth_error E n = Some d -> d_marshal d = PointerRecv ->
    x_marshal X n true H (HPtr p) = RErr e -> refuses X E H (TPtr (TName n)) (HPtr p) e
| rf_pointee n d o i c e : nth_error E n = Some d -> d_marshal d = ValueRecv -> cell H o i = Some c ->
    x_marshal X n false H c = RErr e -> refuses X E H (TPtr (TName n)) (HPtr (Some (o, i))) e
| rf_iface t t' v e : iface_kind (kind_of E t) = true -> iface_kind (kind_of E t') = false ->
    refuses X E H t' v e -> refuses X E H t (HIface (Some (t', v))) e.
