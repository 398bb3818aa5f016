(** Specification: what a struct tag says.  Independent of Tags.v: commas separate
    words; names are sequences of allowed characters, encoded in UTF-8. *)
From Coq Require Import Strings.String Strings.Byte ZArith NArith List Bool.
From Verif Require Import Base GoTypes.
Import ListNotations.
Open Scope Z_scope.

(** [t] consists of the words [ws], separated by commas. *)
Fixpoint commas (ws : list bytes) : bytes :=
  match ws with [] => [] | [w] => w | w :: ws => w ++ ","%byte :: commas ws end.
Definition words (t : bytes) (ws : list bytes) : Prop :=
  ws <> [] /\ t = commas ws /\ Forall (fun w => ~ In ","%byte w) ws.

(** Unicode scalar values and their encoding (RFC 3629). *)
Definition scalar_value (r : N) : Prop := (r < 55296 \/ 57344 <= r < 1114112)%N.
Definition byte_of (n : N) : byte := match Byte.of_N n with Some b => b | None => "000"%byte end.
Definition utf8 (r : N) : bytes :=
  map byte_of
    (if r <? 128 then [r]
     else if r <? 2048 then [192 + r / 64; 128 + r mod 64]
     else if r <? 65536 then [224 + r / 4096; 128 + r / 64 mod 64; 128 + r mod 64]
     else [240 + r / 262144; 128 + r / 4096 mod 64; 128 + r / 64 mod 64; 128 + r mod 64])%N.

(** The characters of a name: ASCII letters and digits, the punctuation below,
    and what the unicode package calls a letter or digit (U+FFFD, which stands
    for what is not UTF-8, is not one). *)
Definition punctuation : bytes := bs "!#$%&()*+-./:<=>?@[]^_{|}~ ".
Definition name_char (X : Ext) (r : N) : Prop :=
  (exists b, In b punctuation /\ r = Byte.to_N b) \/
  (48 <= r <= 57)%N \/ (65 <= r <= 90)%N \/ (97 <= r <= 122)%N \/
  (128 <= r /\ scalar_value r /\ r <> 65533)%N /\ x_letter X r = true.
Definition valid_name (X : Ext) (s : bytes) : Prop :=
  exists rs, rs <> [] /\ Forall (name_char X) rs /\ s = flat_map utf8 rs.

(** The key of a field: the first word of its tag if that is a valid name,
    otherwise the name of the field. *)
Inductive named (X : Ext) (f : field) : bytes -> Prop :=
| nm_tag w ws : words (f_tag f) (w :: ws) -> valid_name X w -> named X f w
| nm_field w ws : words (f_tag f) (w :: ws) -> ~ valid_name X w -> named X f (f_name f).
(** The options: the other words. *)
Definition with_option (f : field) (o : bytes) : Prop := exists w ws, words (f_tag f) (w :: ws) /\ In o ws.
