(** Specification: the keys of PHP arrays, and which of the values that can be
    written down PHP has (C67, C68). *)
From Coq Require Import Strings.String Strings.Byte ZArith List Bool.
From Verif Require Import Base GoTypes Denote Memory Php Repr Values.
Import ListNotations.
Open Scope Z_scope.

(** A PHP array is keyed by 64-bit integers and strings; a string that is the
    decimal notation of a 64-bit integer (no leading zeros, no plus sign, no -0)
    is that integer. *)
Inductive key := KI (z : Z) | KS (s : bytes).
Definition int64 (z : Z) : Prop := min_int64 <= z <= max_int64.
Inductive php_key : php -> key -> Prop :=
| pk_int z : int64 z -> php_key (PInt z) (KI z)
| pk_num z : int64 z -> php_key (PStr (decimal z)) (KI z)
| pk_str s : (forall z, int64 z -> s <> decimal z) -> php_key (PStr s) (KS s).

(** PHP has the value: integers have 64 bits, and the keys of every array are keys
    and differ, so no entry is lost when the array is read.  What a custom Marshaler wrote is
    not looked at. *)
Inductive php_value : php -> Prop :=
| pv_null : php_value PNull
| pv_bool b : php_value (PBool b)
| pv_int z : int64 z -> php_value (PInt z)
| pv_float t : php_value (PFloat t)
| pv_str s : php_value (PStr s)
| pv_raw b : php_value (PRaw b)
| pv_arr es ks : Forall2 (fun e k => php_key (fst e) k) es ks -> NoDup ks ->
    Forall (fun e => php_value (snd e)) es -> php_value (PArr es).

(** ** Go values *)

(** The Go runtime keeps the keys of a map different. *)
Definition maps_keyed (H : heap) : Prop := forall o m, entries H o = Some m -> NoDup (map fst m).
(** No unsigned number above MaxInt64 is in [v]. *)
Definition numbers_fit (E : env) (H : heap) (t : gty) (v : hval) : Prop :=
  forall u z, within E H t v u (HUint z) -> z <= max_int64.
(** No struct in [v] has two fields that are written under one key. *)
Definition fields_differ (X : Ext) (E : env) (H : heap) (t : gty) (v : hval) : Prop :=
  forall u w id fs, within E H t v u w -> kind_of E u = KStruct id fs ->
    NoDup (map (field_key X) (filter (written_field X) fs)).

(** ** Through PHP *)

(** What PHP's serialize() writes for the array key [k]. *)
Definition key_php (k : key) : php := match k with KI z => PInt z | KS s => PStr s end.
(** [through reprint p q]: PHP reads [p] (with unserialize()) and writes it again (with
    serialize()) as [q]; it writes floats as [reprint] says. *)
Inductive through (reprint : bytes -> bytes) : php -> php -> Prop :=
| th_null : through reprint PNull PNull
| th_bool b : through reprint (PBool b) (PBool b)
| th_int z : int64 z -> through reprint (PInt z) (PInt z)
| th_float t : through reprint (PFloat t) (PFloat (reprint t))
| th_str s : through reprint (PStr s) (PStr s)
| th_arr es es' ks : Forall2 (fun e k => php_key (fst e) k) es ks -> NoDup ks -> map fst es' = map key_php ks ->
    Forall2 (fun e e' => through reprint (snd e) (snd e')) es es' -> through reprint (PArr es) (PArr es').

(** No key that is a string in Go is a number to PHP: neither a key of a map in [v] nor
    the name of a field that is written. *)
Definition numeric (s : bytes) : Prop := exists z, int64 z /\ s = decimal z.
Definition plain_names (X : Ext) (E : env) (H : heap) (t : gty) (v : hval) : Prop :=
  (forall u o m s x, within E H t v u (HMap (Some o)) -> entries H o = Some m -> In (HStr s, x) m -> ~ numeric s) /\
  (forall u w id fs f, within E H t v u w -> kind_of E u = KStruct id fs -> In f fs -> written_field X f = true ->
     ~ numeric (field_key X f)).
