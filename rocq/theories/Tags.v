(** internal/runtime/struct_field.go: struct tags. *)
From Coq Require Import Strings.String Strings.Byte ZArith NArith List Bool.
From Verif Require Import Base GoTypes.
Import ListNotations.
Open Scope Z_scope.

(** strings.Split(tag, ","): always at least one piece. *)
Fixpoint split_comma (s : bytes) : list bytes :=
  match s with
  | [] => [[]]
  | c :: s' =>
      if c =b ","%byte then [] :: split_comma s'
      else match split_comma s' with
           | p :: ps => (c :: p) :: ps
           | [] => [[c]]
           end
  end.

(** The runes a Go [range] over a string yields: utf8.DecodeRuneInString
    repeatedly; an invalid or incomplete sequence yields U+FFFD and advances by
    one byte. *)
Definition rune_error : N := 65533.
Definition cont_byte (lo hi : N) (b : byte) : bool :=
  (lo <=? Byte.to_N b)%N && (Byte.to_N b <=? hi)%N.
Definition low6 (b : byte) : N := N.land (Byte.to_N b) 63.

(** utf8.DecodeRuneInString on a non-empty string: rune and width. *)
Definition decode_rune (c : byte) (rest : bytes) : N * nat :=
  let n := Byte.to_N c in
  if (n <? 128)%N then (n, 1%nat)
  else if (n <? 194)%N then (rune_error, 1%nat)
  else if (n <? 224)%N then
    match rest with
    | b1 :: _ =>
        if cont_byte 128 191 b1 then (N.lor (N.shiftl (N.land n 31) 6) (low6 b1), 2%nat)
        else (rune_error, 1%nat)
    | _ => (rune_error, 1%nat)
    end
  else if (n <? 240)%N then
    let lo := if (n =? 224)%N then 160%N else 128%N in
    let hi := if (n =? 237)%N then 159%N else 191%N in
    match rest with
    | b1 :: b2 :: _ =>
        if cont_byte lo hi b1 && cont_byte 128 191 b2 then
          (N.lor (N.lor (N.shiftl (N.land n 15) 12) (N.shiftl (low6 b1) 6)) (low6 b2), 3%nat)
        else (rune_error, 1%nat)
    | _ => (rune_error, 1%nat)
    end
  else if (n <? 245)%N then
    let lo := if (n =? 240)%N then 144%N else 128%N in
    let hi := if (n =? 244)%N then 143%N else 191%N in
    match rest with
    | b1 :: b2 :: b3 :: _ =>
        if cont_byte lo hi b1 && cont_byte 128 191 b2 && cont_byte 128 191 b3 then
          (N.lor (N.lor (N.lor (N.shiftl (N.land n 7) 18) (N.shiftl (low6 b1) 12))
                        (N.shiftl (low6 b2) 6)) (low6 b3), 4%nat)
        else (rune_error, 1%nat)
    | _ => (rune_error, 1%nat)
    end
  else (rune_error, 1%nat).

Fixpoint runes_f (fuel : nat) (s : bytes) : list N :=
  match fuel, s with
  | S f, c :: rest =>
      let '(r, w) := decode_rune c rest in
      r :: runes_f f (skipn (w - 1) rest)
  | _, _ => []
  end.
Definition runes (s : bytes) : list N := runes_f (length s) s.

Definition tag_punct : bytes := bs "!#$%&()*+-./:<=>?@[]^_{|}~ ".

(** struct_field.go:54-58, one rune: allowed punctuation, letter or digit.
    ASCII letters and digits are decided here, other runes by [x_letter]. *)
Definition tag_rune_ok (X : Ext) (r : N) : bool :=
  existsb (fun b => (Byte.to_N b =? r)%N) tag_punct
  || (if (r <? 128)%N then
        ((48 <=? r)%N && (r <=? 57)%N) || ((65 <=? r)%N && (r <=? 90)%N)
        || ((97 <=? r)%N && (r <=? 122)%N)
      else if (r =? rune_error)%N then false
      else x_letter X r).

(** struct_field.go:48-63 isValidTag *)
Definition is_valid_tag (X : Ext) (s : bytes) : bool :=
  match s with
  | [] => false
  | _ => forallb (tag_rune_ok X) (runes s)
  end.

(** struct_field.go:13-21 IsIgnoredStructField *)
Definition is_ignored (f : field) : bool :=
  negb (f_exported f) || bytes_eqb (f_tag f) (bs "-").

Record tag := Tag { tag_key : bytes; tag_omitempty : bool; tag_string : bool }.

(** struct_field.go:65-87 StructTagFromField *)
Definition tag_of (X : Ext) (f : field) : tag :=
  match split_comma (f_tag f) with
  | [] => Tag (f_name f) false false
  | name :: opts =>
      Tag (match name with
           | [] => f_name f
           | _ => if is_valid_tag X name then name else f_name f
           end)
          (existsb (bytes_eqb (bs "omitempty")) opts)
          (existsb (bytes_eqb (bs "string")) opts)
  end.
