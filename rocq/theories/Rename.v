(** Specification: source types of the same structure under other names.  Nothing
    here refers to the encoder. *)
From Coq Require Import Strings.Byte ZArith List Bool.
From Verif Require Import Base GoTypes Tags Denote Repr.
Import ListNotations.
Open Scope Z_scope.

Section Rename.
  Context (X : Ext) (E : env).

  (** The same scalar kind, with at least as many bits. *)
  Definition room (k k' : kind) : Prop :=
    match k, k' with
    | KBool, KBool | KF32, KF32 | KF64, KF64 | KString, KString => True
    | KInt i, KInt i' => ibits i <= ibits i'
    | KUint u, KUint u' => u <> UPtr /\ u' <> UPtr /\ ubits u <= ubits u'
    | _, _ => False
    end.

  (** No MarshalPHP method, and not the type []byte. *)
  Definition by_kind (t : gty) (k : kind) : Prop :=
    marshaler E t = false /\ bytes_type t = false /\ kind_of E t = k.

  (** What the tag and the name of a field say to Marshal is the same. *)
  Definition same_tag (f f' : field) : Prop :=
    field_key X f = field_key X f' /\ tag_string (tag_of X f) = tag_string (tag_of X f') /\
    tag_omitempty (tag_of X f) = tag_omitempty (tag_of X f').

  (** [renamed T T']: [T'] is [T] under another name, or with other names for the
      types and fields inside it (but the same keys, in the same order), or with
      more bits for integers.  Coinductive, so that types may be recursive. *)
  CoInductive renamed : gty -> gty -> Prop :=
  | rn_same T : renamed T T
  | rn_scalar T T' k k' : by_kind T k -> by_kind T' k' -> room k k' -> renamed T T'
  | rn_iface T T' k k' : by_kind T k -> by_kind T' k' -> iface_kind k = true -> iface_kind k' = true -> renamed T T'
  | rn_slice T T' t t' : by_kind T (KSlice t) -> by_kind T' (KSlice t') -> renamed t t' -> renamed T T'
  | rn_array T T' n t t' : by_kind T (KArray n t) -> by_kind T' (KArray n t') -> renamed t t' -> renamed T T'
  | rn_map T T' k k' t t' : by_kind T (KMap k t) -> by_kind T' (KMap k' t') ->
      (k = k' \/ room (kind_of E k) (kind_of E k')) -> renamed t t' -> renamed T T'
  | rn_ptr T T' t t' : by_kind T (KPtr t) -> by_kind T' (KPtr t') -> renamed t t' -> renamed T T'
  | rn_struct T T' id id' fs fs' : by_kind T (KStruct id fs) -> by_kind T' (KStruct id' fs') ->
      length fs = length fs' ->
      (forall i f f', nth_error fs i = Some f -> nth_error fs' i = Some f' ->
         written_field X f = written_field X f' /\
         (written_field X f = true -> same_tag f f' /\ renamed (f_ty f) (f_ty f'))) ->
      renamed T T'.
End Rename.
