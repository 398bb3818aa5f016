(** Specification: what the messages of syntax errors say about the input
    (C64, C65, C66). *)
From Coq Require Import Strings.String Strings.Byte ZArith List Bool.
From Verif Require Import Base Grammar Offsets.
Import ListNotations.
Open Scope Z_scope.

(** [data[i]] is [c]. *)
Definition byte_at (data : bytes) (i : Z) (c : byte) : Prop :=
  0 <= i /\ nth_error data (Z.to_nat i) = Some c.
(** From [i] on, [data] begins with [s]. *)
Definition text_at (data : bytes) (i : Z) (s : bytes) : Prop :=
  exists before after, data = before ++ s ++ after /\ blen before = i.
Definition digit_at (data : bytes) (i : Z) : Prop := exists c, byte_at data i c /\ is_digit c = true.

(** What a message of the form "expecting ..., get char ..." can say it expects, and
    the bytes that would have been right. *)
Definition wanted : list (string * list byte) :=
  [("':' before length", [":"%byte]); ("':' after length", [":"%byte]);
   ("class name quoted '""'", [""""%byte]); ("':' after class name", [":"%byte]);
   ("':' before array length", [":"%byte]); ("empty array end with '}'", ["}"%byte]);
   ("string quoted '""'", [""""%byte]); ("string end ';'", [";"%byte]);
   ("'i' to start an integer", ["i"%byte]); ("int separator ':'", [":"%byte]); ("';' after integer", [";"%byte]);
   ("'d' to start a float", ["d"%byte]); ("float separator ':'", [":"%byte]); ("float start with 'd' or 'N'", ["d"; "N"]%byte);
   ("{ character for map value", ["{"%byte]); ("array key", ["s"; "i"]%byte); ("'}' after array", ["}"%byte])]%string.

(** "unexpected end of input" is said although the input goes on; what is wrong is
    the byte where a bool, a slice, an array or a class name should begin. *)
Definition mistaken (data : bytes) (o : Z) (what : string) : Prop := exists c, byte_at data o c /\
  ((what = "bool" /\ ~ In c ["b"; "N"]%byte) \/
   ((what = "slice" \/ what = "array") /\ ~ In c ["a"; "N"]%byte) \/
   (what = "class name" /\ c <> """"%byte))%string.

(** What is true of an input, when the error for it has the offset [o] and says [w].
    Where a message names a character, this says where that is: mostly, but not
    always, at [o]. *)
Definition claims (data : bytes) (o : Z) (w : why) : Prop :=
  match w with
  | WExpected what c => exists l, In (what, l) wanted /\ byte_at data o c /\ ~ In c l
  | WStart typ c => typ = "map"%string /\ byte_at data o c /\ ~ In c ["a"; "O"; "N"]%byte
  | WValue c => byte_at data o c
  | WArray c => byte_at data o c /\ c <> "{"%byte
  (* one byte before *)
  | WAfter c => byte_at data (o - 1) c
  (* the next byte; for a bool, the next, the one after it, or the one at [o] *)
  | WChar c context =>
      (context = "null" /\ byte_at data o "N" /\ byte_at data (o + 1) c /\ c <> ";"%byte \/
       context = "bool" /\ byte_at data o "b" /\ byte_at data (o + 1) c /\ c <> ":"%byte \/
       context = "bool" /\ text_at data o (bs "b:") /\ byte_at data (o + 2) c /\ ~ In c ["0"; "1"]%byte \/
       context = "bool" /\ text_at data (o - 3) (bs "b:") /\ byte_at data o c /\ c <> ";"%byte)%string
  (* the byte at [o]; in a part of the input that is skipped, it is always 'a', and the byte
     at [o - 1] is that, or the quote at the end of a class name *)
  | WDepth c => byte_at data o c \/ c = "a"%byte /\ (byte_at data (o - 1) "a" \/ byte_at data (o - 1) """")
  (* the input ends there, or at most three bytes later; or in a string whose
     content begins there; or in a class name; or it does not end at all *)
  | WEnd what =>
      0 <= o <= blen data /\ blen data < o + 4 \/
      what = "string"%string /\ (exists ds rest, numeral ds /\ text_at data (o - 2 - blen ds) (ds ++ bs ":""" ++ rest) /\
                                          blen data = o + blen rest /\ blen rest < num ds + 2) \/
      what = "class name"%string /\ class_end data o \/
      mistaken data o what
  | WText msg =>
      (msg = "php-serialize: length requires at least one digit" /\ byte_at data (o - 1) ":" /\ ~ digit_at data o \/
       msg = "php-serialize: integer requires at least one digit" /\
         (text_at data (o - 2) (bs "i:") \/ text_at data (o - 3) (bs "i:-")) /\ ~ digit_at data o \/
       msg = "php-serialize: float requires a value" /\ text_at data (o - 2) (bs "d:;") \/
       msg = "php-serialize: invalid length" /\
         (exists ds, text_at data (o - 1) (bs ":" ++ ds ++ bs ":") /\ numeral ds /\ max_int64 < num ds) \/
       msg = "php-serialize: invalid array index" /\
         (exists t z, text_at data (o - 2) (bs "i:" ++ t ++ bs ";") /\ int_text t z /\ (z < 0 \/ max_int64 < z)))%string
  (* the text of a float, which ends right before [o]; or, of a field with the option
     "string", the content of the string that begins at [o] *)
  | WFloat t => text_at data (o - 3 - blen t) (bs "d:" ++ t ++ bs ";") \/
      exists ds, text_at data o (bs "s:" ++ ds ++ bs ":""" ++ t ++ bs """;")
  | WBool t => exists ds, text_at data o (bs "s:" ++ ds ++ bs ":""" ++ t ++ bs """;")
  end.

(** The messages that report that digits are missing. *)
Definition missing : list string :=
  ["php-serialize: length requires at least one digit";
   "php-serialize: integer requires at least one digit"]%string.

(** An error that does not tell whether [data] is wrong or only not complete:
    it says "unexpected end of input", of a string or within three bytes of the
    end, or it misses digits right at the end. *)
Definition unfinished (data : bytes) (e : error) : Prop :=
  match e with
  | ESyntax o (WEnd what) => what = "string"%string \/ blen data < o + 4
  | ESyntax o (WText msg) => o = blen data /\ In msg missing
  | _ => False
  end.
