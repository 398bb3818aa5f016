(** The number formatting and parsing the library does or calls. *)
From Coq Require Import Strings.String Strings.Byte ZArith List Bool.
From Verif Require Import Base.
Import ListNotations.
Open Scope Z_scope.

Definition digit_byte (d : Z) : byte :=
  match Byte.of_N (Z.to_N (48 + d)) with Some b => b | None => "0"%byte end.

Fixpoint dec_f (fuel : nat) (n : Z) : bytes :=
  match fuel with
  | O => []
  | S f => if n <? 10 then [digit_byte n]
           else dec_f f (n / 10) ++ [digit_byte (n mod 10)]
  end.

(** strconv.AppendUint(nil, n, 10) for n >= 0 (Go standard library: decimal,
    no leading zeros). *)
Definition append_uint (n : Z) : bytes := dec_f (S (Z.to_nat (Z.log2 n))) n.

(** strconv.AppendInt(nil, n, 10). *)
Definition append_int (n : Z) : bytes :=
  if n <? 0 then "-"%byte :: append_uint (- n) else append_uint n.

(** internal/decoder/int.go:58-60: strip leading zeros *)
Fixpoint strip_zeros (b : bytes) : bytes :=
  match b with
  | c :: b' => if c =b "0"%byte then strip_zeros b' else b
  | [] => []
  end.

(** internal/decoder/int.go:69-74: the accumulation loop, uint64 arithmetic;
    [pow10i64[len(buf)-i-1]] is [10^(length of the remaining suffix - 1)]. *)
Fixpoint sum_digits (b : bytes) (value : Z) : option Z :=
  match b with
  | [] => Some value
  | c :: b' =>
      if is_digit c then
        sum_digits b' (uwrap64 (value + uwrap64 (digit_val c * 10 ^ blen b')))
      else None
  end.

(** internal/decoder/int.go:45-90 parseInt64; None is any error. *)
Definition parse_int64 (buf : bytes) : option Z :=
  match buf with
  | [] => None
  | c :: rest =>
      let negative := c =b "-"%byte in
      let body := if negative then rest else buf in
      match body with
      | [] => None
      | _ =>
          match strip_zeros body with
          | [] => Some 0
          | ds =>
              if 19 <? blen ds then None
              else
                match sum_digits ds 0 with
                | None => None
                | Some value =>
                    let limit := if negative then 2 ^ 63 else 2 ^ 63 - 1 in
                    if limit <? value then None
                    else if negative then
                      (if value =? 2 ^ 63 then Some (- 2 ^ 63) else Some (wrap64 (- wrap64 value)))
                    else Some (wrap64 value)
                end
          end
      end
  end.

(** strconv.ParseUint(s, 10, 64) (Go standard library, loop with cutoff
    maxUint64/10+1); None is any error. *)
Fixpoint parse_uint_loop (b : bytes) (n : Z) : option Z :=
  match b with
  | [] => Some n
  | c :: b' =>
      if is_digit c then
        if (2 ^ 64 - 1) / 10 + 1 <=? n then None
        else
          let n10 := uwrap64 (n * 10) in
          let n1 := uwrap64 (n10 + digit_val c) in
          if n1 <? n10 then None else parse_uint_loop b' n1
      else None
  end.
Definition parse_uint64 (b : bytes) : option Z :=
  match b with [] => None | _ => parse_uint_loop b 0 end.

(** strconv.ParseBool. *)
Definition parse_bool (b : bytes) : option bool :=
  if existsb (bytes_eqb b) (map bs ["1"; "t"; "T"; "true"; "TRUE"; "True"]%string) then Some true
  else if existsb (bytes_eqb b) (map bs ["0"; "f"; "F"; "false"; "FALSE"; "False"]%string) then Some false
  else None.
