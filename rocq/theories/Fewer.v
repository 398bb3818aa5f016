(** Specification: destination types that know only some of the fields, and data
    whose counts are true.  Nothing here refers to the decoder. *)
From Coq Require Import Strings.Byte ZArith List Bool.
From Verif Require Import Base GoTypes Grammar Denote Wider.
Import ListNotations.
Open Scope Z_scope.

(** Every array and object in the serialized value, also deep inside it, says how
    many entries it has, as PHP and Marshal do. *)
Inductive counted : lval -> Prop :=
| cd_null : counted LNull
| cd_bool b : counted (LBool b)
| cd_int t : counted (LInt t)
| cd_float t : counted (LFloat t)
| cd_str n s : counted (LStr n s)
| cd_arr n es : num n = blen es -> Forall (fun e => counted (fst e) /\ counted (snd e)) es -> counted (LArr n es)
| cd_obj cn cls n es : num n = blen es -> Forall (fun e => counted (fst e) /\ counted (snd e)) es -> counted (LObj cn cls n es).

Section Fewer.
  Context (X : Ext) (E : env).

  (** Map keys: the same type, or the same kind of scalar under another name. *)
  Definition same_key (k k' : gty) : Prop :=
    k = k' \/
    exists a, plain E k a /\ plain E k' a /\
      match a with KInt _ | KUint _ | KString | KBool => True | _ => False end.

  (** [fewer T T']: [T] is [T'] without some of the fields of its structs, anywhere
      inside it; types and Go fields may have other names, fields another order.
      Coinductive, so that types may be recursive. *)
  CoInductive fewer : gty -> gty -> Prop :=
  | fe_unm T n : has_unmarshal E T = Some n -> fewer T T
  | fe_scalar T T' k : plain E T k -> plain E T' k ->
      match k with KInt _ | KUint _ => True | _ => flat_kind k = true end -> fewer T T'
  | fe_slice T T' t t' : plain E T (KSlice t) -> plain E T' (KSlice t') -> is_byte E t = is_byte E t' ->
      fewer t t' -> fewer T T'
  | fe_array T T' n t t' : plain E T (KArray n t) -> plain E T' (KArray n t') -> fewer t t' -> fewer T T'
  | fe_map T T' k k' t t' : plain E T (KMap k t) -> plain E T' (KMap k' t') -> same_key k k' ->
      fewer t t' -> fewer T T'
  | fe_ptr T T' t t' : plain E T (KPtr t) -> plain E T' (KPtr t') -> fewer t t' -> fewer T T'
  | fe_struct T T' id id' fs fs' : plain E T (KStruct id fs) -> plain E T' (KStruct id' fs') ->
      (forall key i f, lookup X fs key = Some (i, f) ->
         exists i' f', lookup X fs' key = Some (i', f') /\ string_tagged X E f = string_tagged X E f' /\
                       fewer (f_ty f) (f_ty f')) ->
      fewer T T'.
End Fewer.
