(** internal/decoder/context.go: the scanning primitives of the decoder. *)
From Coq Require Import Strings.String Strings.Byte ZArith List Bool.
From Verif Require Import Base Strconv.
Import ListNotations.
Open Scope Z_scope.

(** internal/decoder/type.go:13 *)
Definition max_depth : Z := 10000.

(** context.go:52-54 hasByte *)
Definition has_byte (buf : bytes) (cursor : Z) : bool :=
  (0 <=? cursor) && (cursor <? blen buf).

(** context.go:56-58 hasBytes *)
Definition has_bytes (buf : bytes) (cursor size : Z) : bool :=
  (0 <=? cursor) && (0 <=? size) && (cursor <=? blen buf - size).

(** The loops [for hasByte(buf, cursor) && p(buf[cursor]) { cursor++ }] at
    context.go:71-73, 309-311, 339-341.  [n] bounds the iterations; [length
    buf] of them always suffice. *)
Fixpoint scan_while (p : byte -> bool) (buf : bytes) (n : nat) (cursor : Z) : R Z :=
  match n with
  | O => ROk cursor
  | S n' =>
      if has_byte buf cursor then
        c <- rd buf cursor ;;
        if p c then scan_while p buf n' (cursor + 1) else ROk cursor
      else ROk cursor
  end.

(** context.go:61-88 skipLengthWithBothColon *)
Definition skip_length (buf : bytes) (cursor : Z) : R Z :=
  if negb (has_byte buf cursor) then RErr (ESyntax cursor (WEnd "length"))
  else
    c <- rd buf cursor ;;
    if negb (c =b ":"%byte) then RErr (ESyntax cursor (WExpected "':' before length" c))
    else
      let start := cursor + 1 in
      cur <- scan_while is_digit buf (length buf) start ;;
      if cur =? start then RErr (ESyntax cur (WText "php-serialize: length requires at least one digit"))
      else if negb (has_byte buf cur) then RErr (ESyntax cur (WEnd "length"))
      else
        c <- rd buf cur ;;
        if negb (c =b ":"%byte) then RErr (ESyntax cur (WExpected "':' after length" c))
        else ROk (cur + 1).

(** context.go:234-244 readLength: (length, cursor after the second colon) *)
Definition read_length (buf : bytes) (cursor : Z) : R (Z * Z) :=
  cend <- skip_length buf cursor ;;
  digits <- sub buf (cursor + 1) (cend - 1) ;;
  match parse_int64 digits with
  | None => RErr (ESyntax (cursor + 1) (WText "php-serialize: invalid length"))
  | Some l => if l <? 0 then RErr (ESyntax (cursor + 1) (WText "php-serialize: invalid length")) else ROk (l, cend)
  end.

(** context.go:247-258 readLengthInt; int is 64 bits, so the extra check
    int64(int(length)) != length never fires. *)
Definition read_length_int (buf : bytes) (cursor : Z) : R (Z * Z) :=
  read_length buf cursor.

(** context.go:91-114 skipClassName: position of the quote closing the class
    name *)
Definition skip_class_name (buf : bytes) (cursor : Z) : R Z :=
  if negb (has_byte buf cursor) then RErr (ESyntax cursor (WEnd "object"))
  else
    c <- rd buf cursor ;;
    if negb (c =b "O"%byte) then RErr (ESyntax cursor (WEnd "object"))
    else
      '(class_len, start) <- read_length buf (cursor + 1) ;;
      if negb (has_byte buf start) then RErr (ESyntax start (WEnd "class name"))
      else
        c <- rd buf start ;;
        if negb (c =b """"%byte) then RErr (ESyntax start (WEnd "class name"))
        else
          let cend := wrap64 (start + class_len + 1) in
          if negb (has_bytes buf cend 2) then RErr (ESyntax cend (WEnd "class name"))
          else
            c <- rd buf cend ;;
            if negb (c =b """"%byte) then RErr (ESyntax cend (WExpected "class name quoted '""'" c))
            else
              c <- rd buf (cend + 1) ;;
              if negb (c =b ":"%byte) then RErr (ESyntax (cend + 1) (WExpected "':' after class name" c))
              else ROk cend.

(** context.go:223-231 validateNull *)
Definition validate_null (buf : bytes) (cursor : Z) : R unit :=
  if blen buf <=? cursor + 1 then RErr (ESyntax cursor (WEnd "null"))
  else
    c <- rd buf (cursor + 1) ;;
    if negb (c =b ";"%byte) then RErr (ESyntax cursor (WChar c "null")) else ROk tt.

(** context.go:204-221 validateEmptyArray *)
Definition validate_empty_array (buf : bytes) (cursor : Z) : R unit :=
  if blen buf <? cursor + 4 then RErr (ESyntax cursor (WEnd "array"))
  else
    c <- rd buf (cursor + 1) ;;
    if negb (c =b ":"%byte) then RErr (ESyntax (cursor + 1) (WExpected "':' before array length" c))
    else
      c <- rd buf (cursor + 2) ;;
      if negb (c =b "{"%byte) then RErr (ESyntax (cursor + 2) (WArray c))
      else
        c <- rd buf (cursor + 3) ;;
        if negb (c =b "}"%byte) then RErr (ESyntax (cursor + 3) (WExpected "empty array end with '}'" c)) else ROk tt.

(** context.go:261-288 readString: (content, cursor after ';') *)
Definition read_string (buf : bytes) (cursor : Z) : R (bytes * Z) :=
  '(slen, cend) <- read_length buf cursor ;;
  if negb (has_byte buf cend) then RErr (ESyntax cend (WEnd "string"))
  else
    c <- rd buf cend ;;
    if negb (c =b """"%byte) then RErr (ESyntax cend (WExpected "string quoted '""'" c))
    else
      let start := cend + 1 in
      if negb (has_bytes buf start (wrap64 (slen + 2))) then RErr (ESyntax start (WEnd "string"))
      else
        let cend := start + slen in
        c <- rd buf cend ;;
        if negb (c =b """"%byte) then RErr (ESyntax cend (WExpected "string quoted '""'" c))
        else
          let cursor := cend + 1 in
          c <- rd buf cursor ;;
          if negb (c =b ";"%byte) then RErr (ESyntax cursor (WExpected "string end ';'" c))
          else
            s <- sub buf start cend ;;
            ROk (s, cursor + 1).

(** context.go:290-322 readIntegerBytes: (text between "i:" and ";", cursor after) *)
Definition read_integer_bytes (buf : bytes) (cursor : Z) : R (bytes * Z) :=
  if negb (has_byte buf cursor) then RErr (ESyntax cursor (WEnd "integer"))
  else
    c <- rd buf cursor ;;
    if negb (c =b "i"%byte) then RErr (ESyntax cursor (WExpected "'i' to start an integer" c))
    else if negb (has_bytes buf cursor 3) then RErr (ESyntax cursor (WEnd "integer"))
    else
      c <- rd buf (cursor + 1) ;;
      if negb (c =b ":"%byte) then RErr (ESyntax (cursor + 1) (WExpected "int separator ':'" c))
      else
        let start := cursor + 2 in
        c <- rd buf start ;;
        let digit_start := if c =b "-"%byte then start + 1 else start in
        cur <- scan_while is_digit buf (length buf) digit_start ;;
        if cur =? digit_start then RErr (ESyntax cur (WText "php-serialize: integer requires at least one digit"))
        else if negb (has_byte buf cur) then RErr (ESyntax cur (WEnd "integer"))
        else
          c <- rd buf cur ;;
          if negb (c =b ";"%byte) then RErr (ESyntax cur (WExpected "';' after integer" c))
          else
            s <- sub buf start cur ;;
            ROk (s, cur + 1).

(** context.go:324-349 readFloatBytes *)
Definition read_float_bytes (buf : bytes) (cursor : Z) : R (bytes * Z) :=
  if negb (has_byte buf cursor) then RErr (ESyntax cursor (WEnd "float"))
  else
    c <- rd buf cursor ;;
    if negb (c =b "d"%byte) then RErr (ESyntax cursor (WExpected "'d' to start a float" c))
    else if negb (has_bytes buf cursor 3) then RErr (ESyntax cursor (WEnd "float"))
    else
      c <- rd buf (cursor + 1) ;;
      if negb (c =b ":"%byte) then RErr (ESyntax (cursor + 1) (WExpected "float separator ':'" c))
      else
        let start := cursor + 2 in
        cur <- scan_while (fun c => negb (c =b ";"%byte)) buf (length buf) start ;;
        if cur =? start then RErr (ESyntax cur (WText "php-serialize: float requires a value"))
        else if negb (has_byte buf cur) then RErr (ESyntax cur (WEnd "float"))
        else
          s <- sub buf start cur ;;
          ROk (s, cur + 1).

(** context.go:351-378 readBool *)
Definition read_bool (buf : bytes) (cursor : Z) : R bool :=
  if negb (has_bytes buf cursor 4) then RErr (ESyntax cursor (WEnd "bool"))
  else
    c <- rd buf cursor ;;
    if negb (c =b "b"%byte) then RErr (ESyntax cursor (WChar c "bool"))
    else
      c <- rd buf (cursor + 1) ;;
      if negb (c =b ":"%byte) then RErr (ESyntax cursor (WChar c "bool"))
      else
        c <- rd buf (cursor + 2) ;;
        v <- (if c =b "1"%byte then ROk true
              else if c =b "0"%byte then ROk false
              else RErr (ESyntax cursor (WChar c "bool"))) ;;
        c <- rd buf (cursor + 3) ;;
        if negb (c =b ";"%byte) then RErr (ESyntax (cursor + 3) (WChar c "bool"))
        else ROk v.

(** context.go:119-122 skipInt *)
Definition skip_int (buf : bytes) (cursor : Z) : R Z :=
  '(_, cend) <- read_integer_bytes buf cursor ;; ROk cend.

(** context.go:124-130 skipString *)
Definition skip_string (buf : bytes) (cursor : Z) : R Z :=
  if negb (has_byte buf cursor) then RErr (ESyntax cursor (WEnd "string"))
  else
    c <- rd buf cursor ;;
    if negb (c =b "s"%byte) then RErr (ESyntax cursor (WEnd "string"))
    else '(_, cend) <- read_string buf (cursor + 1) ;; ROk cend.

(** context.go:148-157: the loop [for range length] of skipArray; [n] bounds
    the iterations (each consumes input, so [length buf] suffice). *)
Fixpoint skip_entries (skip : Z -> R Z) (n : nat) (len cursor : Z) : R Z :=
  if len <=? 0 then ROk cursor
  else
    match n with
    | O => RFuel
    | S n' =>
        c1 <- skip cursor ;;
        c2 <- skip c1 ;;
        skip_entries skip n' (len - 1) c2
    end.

(** context.go:132-165 skipArray; [skip] is skipValue at the same depth *)
Definition skip_array (skip : Z -> R Z) (buf : bytes) (cursor depth : Z) : R Z :=
  if max_depth <? depth then RErr (ESyntax cursor (WDepth "a"%byte))
  else
    '(len, cend) <- read_length buf cursor ;;
    if negb (has_byte buf cend) then RErr (ESyntax cend (WEnd "array"))
    else
      c <- rd buf cend ;;
      if negb (c =b "{"%byte) then RErr (ESyntax cend (WArray c))
      else
        cur <- skip_entries skip (length buf) len (cend + 1) ;;
        if negb (has_byte buf cur) then RErr (ESyntax cur (WEnd "array"))
        else
          c <- rd buf cur ;;
          if negb (c =b "}"%byte) then RErr (ESyntax cur (WExpected "'}' after array" c))
          else ROk (cur + 1).

(** context.go:167-201 skipValue *)
Fixpoint skip_value_f (fuel : nat) (buf : bytes) (cursor depth : Z) : R Z :=
  match fuel with
  | O => RFuel
  | S f =>
      let arr cur := skip_array (fun c => skip_value_f f buf c (depth + 1)) buf (cur + 1) (depth + 1) in
      if negb (has_byte buf cursor) then RErr (ESyntax cursor (WEnd "value"))
      else
        c <- rd buf cursor ;;
        if c =b "O"%byte then cend <- skip_class_name buf cursor ;; arr cend
        else if c =b "a"%byte then arr cursor
        else if c =b "s"%byte then skip_string buf cursor
        else if c =b "d"%byte then '(_, cend) <- read_float_bytes buf cursor ;; ROk cend
        else if c =b "i"%byte then skip_int buf cursor
        else if c =b "b"%byte then _ <- read_bool buf cursor ;; ROk (cursor + 4)
        else if c =b "N"%byte then _ <- validate_null buf cursor ;; ROk (cursor + 2)
        else RErr (ESyntax cursor (WValue c))
  end.

(** Nesting is bounded by the input length. *)
Definition skip_value (buf : bytes) (cursor depth : Z) : R Z :=
  skip_value_f (S (length buf)) buf cursor depth.

(** internal/decoder/int.go:152-163 readInt: (array index, cursor after) *)
Definition read_int (buf : bytes) (cursor : Z) : R (Z * Z) :=
  '(b, cend) <- read_integer_bytes buf cursor ;;
  match parse_int64 b with
  | None => RErr (ESyntax (cursor + 2) (WText "php-serialize: invalid array index"))
  | Some v => if v <? 0 then RErr (ESyntax (cursor + 2) (WText "php-serialize: invalid array index")) else ROk (v, cend)
  end.
