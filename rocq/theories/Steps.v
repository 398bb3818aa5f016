(** How much of its input a call of Unmarshal looks at: the scanner of Scan.v and
    the decoder of Decode.v, once more, counting.

    Counted are the bytes read: one for every [buf[i]], [j - i] for every
    [buf[i:j]] (which is copied, compared or parsed afterwards).  The scanner and
    the decoder are written here without the input: they have its length [len],
    [get] for [buf[i]] and [cut] for [buf[i:j]], and nothing else, so that nothing
    can be read without being counted.  Every loop of the decoder reads at least
    one byte per round.  Not counted is work that does not depend on the input
    (zero values) and the room for maps and slices, see Cost.v. *)
From Coq Require Import Strings.String Strings.Byte ZArith List Bool Floats.SpecFloat.
From Verif Require Import Base GoTypes Strconv Tags Scan Decode Unmarshal.
Import ListNotations.
Open Scope Z_scope.

(** An outcome, and the number of bytes read. *)
Definition T (A : Type) : Type := R A * Z.
Definition t_ok {A} (a : A) : T A := (ROk a, 0).
Definition t_err {A} (e : error) : T A := (RErr e, 0).
Definition t_bind {A B} (m : T A) (k : A -> T B) : T B :=
  let '(r, n) := m in
  match r with
  | ROk a => let '(r', n') := k a in (r', n + n')
  | RErr e => (RErr e, n)
  | RPanic p => (RPanic p, n)
  | RFuel => (RFuel, n)
  end.
Notation "x <~ e ;; k" := (t_bind e (fun x => k)) (at level 61, e at next level, right associativity).
Notation "' p <~ e ;; k" := (t_bind e (fun p => k)) (at level 61, p pattern, e at next level, right associativity).

(** Decoders: what the destination (or the part of it a loop works on) holds
    afterwards, the outcome, and the number of bytes read. *)
Definition tres (V : Type) : Type := V * R Z * Z.
Definition t_free {V} (v : V) (r : R Z) : tres V := (v, r, 0).
(** a step that reads: go on, or stop and leave [v] *)
Definition t_on {A V} (m : T A) (v : V) (k : A -> tres V) : tres V :=
  let '(r, n) := m in
  match r with
  | ROk a => let '(v', r', n') := k a in (v', r', n + n')
  | r => (v, fail r, n)
  end.
(** a step that decodes: go on, or stop and leave [bad u] *)
Definition t_then {U V} (m : tres U) (bad : U -> V) (k : U -> Z -> tres V) : tres V :=
  let '(u, r, n) := m in
  match r with
  | ROk c => let '(v', r', n') := k u c in (v', r', n + n')
  | r => (bad u, fail r, n)
  end.
(** change what is returned of the destination *)
Definition t_map {U V} (g : U -> V) (m : tres U) : tres V := let '(u, r, n) := m in (g u, r, n).

Section Steps.
  Context (len : Z) (get : Z -> R byte) (cut : Z -> Z -> R bytes).

  (** buf[i] and buf[i:j] *)
  Definition look (i : Z) : T byte := (get i, 1).
  Definition take (i j : Z) : T bytes := (cut i j, Z.max 0 (j - i)).

  (** context.go:52-58 hasByte, hasBytes *)
  Definition has (cursor : Z) : bool := (0 <=? cursor) && (cursor <? len).
  Definition hass (cursor size : Z) : bool := (0 <=? cursor) && (0 <=? size) && (cursor <=? len - size).
  Definition size : nat := Z.to_nat len.

  (** ** Scan.v *)

  (** context.go:71-73, 309-311, 339-341 *)
  Fixpoint t_scan (p : byte -> bool) (n : nat) (cursor : Z) : T Z :=
    match n with
    | O => t_ok cursor
    | S n' =>
        if has cursor then
          c <~ look cursor ;;
          if p c then t_scan p n' (cursor + 1) else t_ok cursor
        else t_ok cursor
    end.

  (** context.go:61-88 skipLengthWithBothColon *)
  Definition t_skip_length (cursor : Z) : T Z :=
    if negb (has cursor) then t_err (ESyntax cursor (WEnd "length"))
    else
      c <~ look cursor ;;
      if negb (c =b ":"%byte) then t_err (ESyntax cursor (WExpected "':' before length" c))
      else
        let start := cursor + 1 in
        cur <~ t_scan is_digit size start ;;
        if cur =? start then t_err (ESyntax cur (WText "php-serialize: length requires at least one digit"))
        else if negb (has cur) then t_err (ESyntax cur (WEnd "length"))
        else
          c <~ look cur ;;
          if negb (c =b ":"%byte) then t_err (ESyntax cur (WExpected "':' after length" c))
          else t_ok (cur + 1).

  (** context.go:234-258 readLength, readLengthInt *)
  Definition t_read_length (cursor : Z) : T (Z * Z) :=
    cend <~ t_skip_length cursor ;;
    digits <~ take (cursor + 1) (cend - 1) ;;
    match parse_int64 digits with
    | None => t_err (ESyntax (cursor + 1) (WText "php-serialize: invalid length"))
    | Some l => if l <? 0 then t_err (ESyntax (cursor + 1) (WText "php-serialize: invalid length")) else t_ok (l, cend)
    end.

  (** context.go:91-114 skipClassName *)
  Definition t_class_name (cursor : Z) : T Z :=
    if negb (has cursor) then t_err (ESyntax cursor (WEnd "object"))
    else
      c <~ look cursor ;;
      if negb (c =b "O"%byte) then t_err (ESyntax cursor (WEnd "object"))
      else
        '(class_len, start) <~ t_read_length (cursor + 1) ;;
        if negb (has start) then t_err (ESyntax start (WEnd "class name"))
        else
          c <~ look start ;;
          if negb (c =b """"%byte) then t_err (ESyntax start (WEnd "class name"))
          else
            let cend := wrap64 (start + class_len + 1) in
            if negb (hass cend 2) then t_err (ESyntax cend (WEnd "class name"))
            else
              c <~ look cend ;;
              if negb (c =b """"%byte) then t_err (ESyntax cend (WExpected "class name quoted '""'" c))
              else
                c <~ look (cend + 1) ;;
                if negb (c =b ":"%byte) then t_err (ESyntax (cend + 1) (WExpected "':' after class name" c))
                else t_ok cend.

  (** context.go:223-231 validateNull *)
  Definition t_null (cursor : Z) : T unit :=
    if len <=? cursor + 1 then t_err (ESyntax cursor (WEnd "null"))
    else
      c <~ look (cursor + 1) ;;
      if negb (c =b ";"%byte) then t_err (ESyntax cursor (WChar c "null")) else t_ok tt.

  (** context.go:204-221 validateEmptyArray *)
  Definition t_empty_array (cursor : Z) : T unit :=
    if len <? cursor + 4 then t_err (ESyntax cursor (WEnd "array"))
    else
      c <~ look (cursor + 1) ;;
      if negb (c =b ":"%byte) then t_err (ESyntax (cursor + 1) (WExpected "':' before array length" c))
      else
        c <~ look (cursor + 2) ;;
        if negb (c =b "{"%byte) then t_err (ESyntax (cursor + 2) (WArray c))
        else
          c <~ look (cursor + 3) ;;
          if negb (c =b "}"%byte) then t_err (ESyntax (cursor + 3) (WExpected "empty array end with '}'" c)) else t_ok tt.

  (** context.go:261-288 readString *)
  Definition t_read_string (cursor : Z) : T (bytes * Z) :=
    '(slen, cend) <~ t_read_length cursor ;;
    if negb (has cend) then t_err (ESyntax cend (WEnd "string"))
    else
      c <~ look cend ;;
      if negb (c =b """"%byte) then t_err (ESyntax cend (WExpected "string quoted '""'" c))
      else
        let start := cend + 1 in
        if negb (hass start (wrap64 (slen + 2))) then t_err (ESyntax start (WEnd "string"))
        else
          let cend := start + slen in
          c <~ look cend ;;
          if negb (c =b """"%byte) then t_err (ESyntax cend (WExpected "string quoted '""'" c))
          else
            let cursor := cend + 1 in
            c <~ look cursor ;;
            if negb (c =b ";"%byte) then t_err (ESyntax cursor (WExpected "string end ';'" c))
            else
              s <~ take start cend ;;
              t_ok (s, cursor + 1).

  (** context.go:290-322 readIntegerBytes *)
  Definition t_integer (cursor : Z) : T (bytes * Z) :=
    if negb (has cursor) then t_err (ESyntax cursor (WEnd "integer"))
    else
      c <~ look cursor ;;
      if negb (c =b "i"%byte) then t_err (ESyntax cursor (WExpected "'i' to start an integer" c))
      else if negb (hass cursor 3) then t_err (ESyntax cursor (WEnd "integer"))
      else
        c <~ look (cursor + 1) ;;
        if negb (c =b ":"%byte) then t_err (ESyntax (cursor + 1) (WExpected "int separator ':'" c))
        else
          let start := cursor + 2 in
          c <~ look start ;;
          let digit_start := if c =b "-"%byte then start + 1 else start in
          cur <~ t_scan is_digit size digit_start ;;
          if cur =? digit_start then t_err (ESyntax cur (WText "php-serialize: integer requires at least one digit"))
          else if negb (has cur) then t_err (ESyntax cur (WEnd "integer"))
          else
            c <~ look cur ;;
            if negb (c =b ";"%byte) then t_err (ESyntax cur (WExpected "';' after integer" c))
            else
              s <~ take start cur ;;
              t_ok (s, cur + 1).

  (** context.go:324-349 readFloatBytes *)
  Definition t_float_bytes (cursor : Z) : T (bytes * Z) :=
    if negb (has cursor) then t_err (ESyntax cursor (WEnd "float"))
    else
      c <~ look cursor ;;
      if negb (c =b "d"%byte) then t_err (ESyntax cursor (WExpected "'d' to start a float" c))
      else if negb (hass cursor 3) then t_err (ESyntax cursor (WEnd "float"))
      else
        c <~ look (cursor + 1) ;;
        if negb (c =b ":"%byte) then t_err (ESyntax (cursor + 1) (WExpected "float separator ':'" c))
        else
          let start := cursor + 2 in
          cur <~ t_scan (fun c => negb (c =b ";"%byte)) size start ;;
          if cur =? start then t_err (ESyntax cur (WText "php-serialize: float requires a value"))
          else if negb (has cur) then t_err (ESyntax cur (WEnd "float"))
          else
            s <~ take start cur ;;
            t_ok (s, cur + 1).

  (** context.go:351-378 readBool *)
  Definition t_read_bool (cursor : Z) : T bool :=
    if negb (hass cursor 4) then t_err (ESyntax cursor (WEnd "bool"))
    else
      c <~ look cursor ;;
      if negb (c =b "b"%byte) then t_err (ESyntax cursor (WChar c "bool"))
      else
        c <~ look (cursor + 1) ;;
        if negb (c =b ":"%byte) then t_err (ESyntax cursor (WChar c "bool"))
        else
          c <~ look (cursor + 2) ;;
          v <~ (if c =b "1"%byte then t_ok true
                else if c =b "0"%byte then t_ok false
                else t_err (ESyntax cursor (WChar c "bool"))) ;;
          c <~ look (cursor + 3) ;;
          if negb (c =b ";"%byte) then t_err (ESyntax (cursor + 3) (WChar c "bool"))
          else t_ok v.

  (** context.go:124-130 skipString *)
  Definition t_skip_string (cursor : Z) : T Z :=
    if negb (has cursor) then t_err (ESyntax cursor (WEnd "string"))
    else
      c <~ look cursor ;;
      if negb (c =b "s"%byte) then t_err (ESyntax cursor (WEnd "string"))
      else '(_, cend) <~ t_read_string (cursor + 1) ;; t_ok cend.

  (** context.go:148-157 *)
  Fixpoint t_skip_entries (skip : Z -> T Z) (n : nat) (count cursor : Z) : T Z :=
    if count <=? 0 then t_ok cursor
    else
      match n with
      | O => (RFuel, 0)
      | S n' =>
          c1 <~ skip cursor ;;
          c2 <~ skip c1 ;;
          t_skip_entries skip n' (count - 1) c2
      end.

  (** context.go:132-165 skipArray *)
  Definition t_skip_array (skip : Z -> T Z) (cursor depth : Z) : T Z :=
    if max_depth <? depth then t_err (ESyntax cursor (WDepth "a"%byte))
    else
      '(count, cend) <~ t_read_length cursor ;;
      if negb (has cend) then t_err (ESyntax cend (WEnd "array"))
      else
        c <~ look cend ;;
        if negb (c =b "{"%byte) then t_err (ESyntax cend (WArray c))
        else
          cur <~ t_skip_entries skip size count (cend + 1) ;;
          if negb (has cur) then t_err (ESyntax cur (WEnd "array"))
          else
            c <~ look cur ;;
            if negb (c =b "}"%byte) then t_err (ESyntax cur (WExpected "'}' after array" c))
            else t_ok (cur + 1).

  (** context.go:167-201 skipValue, with 119-122 skipInt *)
  Fixpoint t_skip_f (fuel : nat) (cursor depth : Z) : T Z :=
    match fuel with
    | O => (RFuel, 0)
    | S f =>
        let arr cur := t_skip_array (fun c => t_skip_f f c (depth + 1)) (cur + 1) (depth + 1) in
        if negb (has cursor) then t_err (ESyntax cursor (WEnd "value"))
        else
          c <~ look cursor ;;
          if c =b "O"%byte then cend <~ t_class_name cursor ;; arr cend
          else if c =b "a"%byte then arr cursor
          else if c =b "s"%byte then t_skip_string cursor
          else if c =b "d"%byte then '(_, cend) <~ t_float_bytes cursor ;; t_ok cend
          else if c =b "i"%byte then '(_, cend) <~ t_integer cursor ;; t_ok cend
          else if c =b "b"%byte then _ <~ t_read_bool cursor ;; t_ok (cursor + 4)
          else if c =b "N"%byte then _ <~ t_null cursor ;; t_ok (cursor + 2)
          else t_err (ESyntax cursor (WValue c))
    end.
  Definition t_skip (cursor depth : Z) : T Z := t_skip_f (S size) cursor depth.

  (** int.go:152-163 readInt *)
  Definition t_read_int (cursor : Z) : T (Z * Z) :=
    '(b, cend) <~ t_integer cursor ;;
    match parse_int64 b with
    | None => t_err (ESyntax (cursor + 2) (WText "php-serialize: invalid array index"))
    | Some v => if v <? 0 then t_err (ESyntax (cursor + 2) (WText "php-serialize: invalid array index")) else t_ok (v, cend)
    end.

  (** ** Decode.v *)

  (** string.go:44-74 *)
  Definition t_string_bytes (cursor : Z) : T (option bytes * Z) :=
    if negb (has cursor) then t_err (ESyntax cursor (WEnd "string"))
    else
      c <~ look cursor ;;
      if c =b "N"%byte then _ <~ t_null cursor ;; t_ok (None, cursor + 2)
      else if (c =b "b"%byte) || (c =b "d"%byte) || (c =b "i"%byte) then t_err (EType cursor)
      else if c =b "s"%byte then
        '(s, cend) <~ t_read_string (cursor + 1) ;; t_ok (Some s, cend)
      else t_err (ESyntax cursor (WValue c)).

  (** int.go:111-122, uint.go:39-50 *)
  Definition t_int_bytes (cursor : Z) : T (option bytes * Z) :=
    if negb (has cursor) then t_err (ESyntax cursor (WEnd "integer"))
    else
      c <~ look cursor ;;
      if c =b "N"%byte then _ <~ t_null cursor ;; t_ok (None, cursor + 2)
      else '(s, cend) <~ t_integer cursor ;; t_ok (Some s, cend).

  (** float.go:20-37 *)
  Definition t_dec_float_bytes (cursor : Z) : T (option bytes * Z) :=
    if negb (has cursor) then t_err (ESyntax cursor (WEnd "float"))
    else
      c <~ look cursor ;;
      if c =b "N"%byte then _ <~ t_null cursor ;; t_ok (None, cursor + 2)
      else if c =b "d"%byte then '(s, cend) <~ t_float_bytes cursor ;; t_ok (Some s, cend)
      else t_err (ESyntax cursor (WExpected "float start with 'd' or 'N'" c)).

  (** int.go:124-135, uint.go:52-63, float.go:39-50, string.go:31-42: nothing is
      read beyond the text *)
  Definition t_text (m : T (option bytes * Z)) (process : bytes -> Z -> gval -> dres) (rv : gval) : tres gval :=
    let '(r, n) := m in let '(v, x) := dec_text r process rv in (v, x, n).

  Definition t_int (k : ikind) (cursor : Z) (rv : gval) : tres gval := t_text (t_int_bytes cursor) (process_int k) rv.
  Definition t_uint (k : ukind) (cursor : Z) (rv : gval) : tres gval := t_text (t_int_bytes cursor) (process_uint k) rv.
  Definition t_float (X : Ext) (is32 : bool) (cursor : Z) (rv : gval) : tres gval :=
    t_text (t_dec_float_bytes cursor) (process_float X is32) rv.
  Definition t_string (cursor : Z) (rv : gval) : tres gval :=
    t_text (t_string_bytes cursor) (fun b c _ => (VStr b, ROk c)) rv.

  (** bool.go:18-41 *)
  Definition t_bool (cursor : Z) (rv : gval) : tres gval :=
    if negb (has cursor) then t_free rv (RErr (ESyntax cursor (WEnd "bool")))
    else
      t_on (look cursor) rv (fun c =>
        if c =b "b"%byte then t_on (t_read_bool cursor) rv (fun v => t_free (VBool v) (ROk (cursor + 4)))
        else if c =b "N"%byte then t_on (t_null cursor) rv (fun _ => t_free rv (ROk (cursor + 2)))
        else t_free rv (RErr (ESyntax cursor (WEnd "bool")))).

  (** map.go:33-75 *)
  Definition t_map_header (cursor depth : Z) : T hdr :=
    if negb (has cursor) then t_err (ESyntax cursor (WEnd "map"))
    else
      c <~ look cursor ;;
      if max_depth <? depth + 1 then t_err (ESyntax cursor (WDepth c))
      else if c =b "N"%byte then _ <~ t_null cursor ;; t_ok (HNull (cursor + 2))
      else
        cur <~ (if c =b "O"%byte then cend <~ t_class_name cursor ;; t_ok (cend + 1)
                else if c =b "a"%byte then t_ok (cursor + 1)
                else t_err (ESyntax cursor (WStart "map" c))) ;;
        '(_, cend) <~ t_read_length cur ;;
        if negb (has cend) then t_err (ESyntax cend (WEnd "map"))
        else
          c <~ look cend ;;
          if negb (c =b "{"%byte) then t_err (ESyntax cend (WExpected "{ character for map value" c))
          else t_ok (HBody (cend + 1)).

  (** map.go:90-118 *)
  Fixpoint t_map_loop (kd vd : Z -> tres gval) (n : nat) (cursor : Z) (m : list (gval * gval))
      : tres (list (gval * gval)) :=
    match n with
    | O => t_free m RFuel
    | S n' =>
        if negb (has cursor) then t_free m (RErr (ESyntax cursor (WEnd "map")))
        else
          t_then (kd cursor) (fun _ => m) (fun k c1 =>
            if negb (has c1) then t_free m (RErr (ESyntax c1 (WEnd "map value")))
            else
              t_then (vd c1) (fun _ => m) (fun v c2 =>
                if negb (hashable k) then t_free m (RPanic PUnhashable)
                else
                  let m' := map_set k v m in
                  if negb (has c2) then t_free m' (RErr (ESyntax c2 (WEnd "map")))
                  else
                    t_on (look c2) m' (fun b =>
                      if b =b "}"%byte then t_free m' (ROk (c2 + 1)) else t_map_loop kd vd n' c2 m')))
    end.

  (** map.go:31-119 *)
  Definition t_dec_map (kd vd : Z -> tres gval) (cursor depth : Z) (rv : gval) : tres gval :=
    t_on (t_map_header cursor depth) rv (fun h =>
      match h with
      | HNull c => t_free (VMap None) (ROk c)
      | HBody c =>
          match rv with
          | VMap o =>
              let m := match o with None => [] | Some m => m end in
              if negb (has c) then t_free (VMap (Some m)) (RErr (ESyntax c (WEnd "map")))
              else
                t_on (look c) (VMap (Some m)) (fun b =>
                  if b =b "}"%byte then t_free (VMap (Some m)) (ROk (c + 1))
                  else t_map (fun m' => VMap (Some m')) (t_map_loop kd vd size c m))
          | _ => t_free rv (RPanic PReflect)
          end
      end).

  (** interface.go:247-273 *)
  Definition t_any_key (cursor : Z) : tres gval :=
    t_on (look cursor) (VIface None) (fun c =>
      if c =b "s"%byte then
        t_then (t_string cursor (VStr [])) (fun _ => VIface None) (fun v c' => t_free (VIface (Some (TString, v))) (ROk c'))
      else if c =b "i"%byte then
        t_then (t_int I64 cursor (VInt 0)) (fun _ => VIface None) (fun v c' => t_free (VIface (Some (TInt I64, v))) (ROk c'))
      else t_free (VIface None) (RErr (ESyntax cursor (WExpected "array key" c)))).

  (** interface.go:173-240 decodeEmptyInterface, on a destination that holds [rv] *)
  Fixpoint t_any_f (X : Ext) (fuel : nat) (cursor depth : Z) (rv : gval) : tres gval :=
    match fuel with
    | O => t_free rv RFuel
    | S f =>
        let vd c : tres gval := t_any_f X f c (depth + 1) (VIface None) in
        let wrap (t : gty) (r : tres gval) : tres gval :=
          t_then r (fun _ => rv) (fun v c => t_free (VIface (Some (t, v))) (ROk c)) in
        t_on (look cursor) rv (fun c =>
          if c =b "O"%byte then
            wrap (TMap TString TAny) (t_dec_map (fun c => t_string c (VStr [])) vd cursor depth (VMap None))
          else if c =b "a"%byte then
            wrap (TMap TAny TAny) (t_dec_map (fun c => t_any_key c) vd cursor depth (VMap None))
          else if c =b "d"%byte then wrap TF64 (t_float X false cursor (VF64 (S754_zero false)))
          else if c =b "s"%byte then
            t_on (t_read_string (cursor + 1)) rv (fun '(s, cend) => t_free (VIface (Some (TString, VStr s))) (ROk cend))
          else if c =b "i"%byte then wrap (TInt I64) (t_int I64 cursor (VInt 0))
          else if c =b "b"%byte then
            t_on (t_read_bool cursor) rv (fun v => t_free (VIface (Some (TBool, VBool v))) (ROk (cursor + 4)))
          else if c =b "N"%byte then
            t_on (t_null cursor) rv (fun _ => t_free (VIface None) (ROk (cursor + 2)))
          else t_free rv (RErr (ESyntax cursor (WValue c))))
    end.
  Definition t_any (X : Ext) (cursor depth : Z) (rv : gval) : tres gval := t_any_f X (S size) cursor depth rv.

  (** unmarshal_php.go:45-95, interface.go:104-122: the raw value and the cursor after it *)
  Definition t_raw (cursor depth : Z) : T (bytes * Z) :=
    cend <~ t_skip cursor depth ;; src <~ take cursor cend ;; t_ok (src, cend).

  (** unmarshal_php.go:45-95; what the method reads of its argument is its own affair *)
  Definition t_unm (X : Ext) (E : env) (n : nat) (cursor depth : Z) (rv : gval) : tres gval :=
    t_on (t_raw cursor depth) rv (fun '(src, cend) =>
      let go :=
        match x_unmarshal X n (unquoted X src) (zero E (TName n)) with
        | (v, true) => t_free v (ROk cend)
        | (_, false) => t_free rv (RErr EUser)
        end in
      match src with
      | [] => go
      | c :: _ =>
          if (c =b "["%byte) || (c =b "{"%byte) || (c =b "-"%byte) || is_digit c
          then t_free rv (RErr (EType cursor))
          else if (c =b "N"%byte) && bytes_eqb src (bs "N;") then t_free (zero E (TName n)) (ROk cend)
          else go
      end).

  (** interface.go:134-149 *)
  Definition t_iface (X : Ext) (E : env) (cursor depth : Z) (rv : gval) : tres gval :=
    let plain :=
      t_on (look cursor) rv (fun c =>
        if c =b "N"%byte then t_on (t_null cursor) rv (fun _ => t_free (VIface None) (ROk (cursor + 2)))
        else t_free rv (RErr (EType cursor))) in
    match rv with
    | VIface (Some (TPtr t, VPtr p)) =>
        match has_unmarshal E t with
        | Some n =>
            t_on (t_raw cursor depth) rv (fun '(src, cend) =>
              if bytes_eqb src (bs "N;") then t_free (VIface None) (ROk cend)
              else
                match p with
                | None => t_free rv (RPanic PNilDeref)
                | Some old =>
                    let '(new, ok) := x_unmarshal X n (unquoted X src) old in
                    t_free (VIface (Some (TPtr t, VPtr (Some new)))) (if ok then ROk cend else RErr EUser)
                end)
        | None => plain
        end
    | _ => plain
    end.

  (** map.go:94-99 *)
  Definition t_key (X : Ext) (E : env) (kt : gty) (cursor depth : Z) : tres gval :=
    let z := zero E kt in
    match key_node E kt with
    | KnUnm n => t_unm X E n cursor depth z
    | KnString => t_string cursor z
    | KnBool => t_bool cursor z
    | KnInt k => t_int k cursor z
    | KnUint k => t_uint k cursor z
    | KnAny => t_any X cursor depth z
    | KnIface => t_iface X E cursor depth z
    | KnPtr d =>
        match d with
        | NString => t_text (t_string_bytes cursor) (fun _ _ rv => (rv, RPanic PReflect)) z
        | NBool => t_then (t_bool cursor VOther) (fun _ => z) (fun v c =>
                     match v with VBool _ => t_free z (RPanic PReflect) | _ => t_free z (ROk c) end)
        | NInt _ => t_text (t_int_bytes cursor)
                      (fun b c rv => match parse_int64 b with
                                     | None => (rv, RErr (EType c))
                                     | Some _ => (rv, RPanic PReflect) end) z
        | NUint _ => t_text (t_int_bytes cursor)
                      (fun b c rv => match parse_uint64 b with
                                     | None => (rv, RErr (EType c))
                                     | Some _ => (rv, RPanic PReflect) end) z
        | _ => t_then (t_any X cursor depth VOther) (fun _ => z) (fun v c =>
                 match v with VIface (Some _) => t_free z (RPanic PReflect) | _ => t_free z (ROk c) end)
        end
    | KnInvalid => t_free z (RErr (EType cursor))
    end.

  (** slice.go:53-103, array.go:34-84 *)
  Definition t_seq_header (what : string) (cursor depth : Z) : T ahdr :=
    if negb (has cursor) then t_err (ESyntax cursor (WEnd what))
    else
      c <~ look cursor ;;
      if max_depth <? depth + 1 then t_err (ESyntax cursor (WDepth c))
      else if c =b "N"%byte then
        _ <~ t_null cursor ;; t_ok (AhNull (cursor + 2))
      else if c =b "a"%byte then
        let cursor := cursor + 1 in
        if negb (has cursor) then t_err (ESyntax cursor (WEnd "array length"))
        else
          c <~ look cursor ;;
          if negb (c =b ":"%byte) then t_err (ESyntax cursor (WExpected "':' before array length" c))
          else
            let cursor := cursor + 1 in
            if negb (has cursor) then t_err (ESyntax cursor (WEnd "array length"))
            else
              c <~ look cursor ;;
              if c =b "0"%byte then
                _ <~ t_empty_array cursor ;; t_ok (AhEmpty (cursor + 4))
              else
                '(count, cend) <~ t_read_length (cursor - 1) ;;
                if negb (has cend) then t_err (ESyntax cend (WEnd "array"))
                else
                  c <~ look cend ;;
                  if negb (c =b "{"%byte) then t_err (ESyntax cend (WArray c))
                  else t_ok (AhBody count (cend + 1))
      else t_err (ESyntax cursor (WEnd what)).

  (** slice.go:51-103 and 143-147.  (The Go code reads buf[cursor] once; here it is
      read again for a number.) *)
  Definition t_slice_header (cursor depth : Z) : T ahdr :=
    if has cursor && negb (max_depth <? depth + 1) then
      c <~ look cursor ;;
      if (c =b "-"%byte) || is_digit c then t_err (EType cursor) else t_seq_header "slice" cursor depth
    else t_seq_header "slice" cursor depth.

  (** slice.go:107-142 *)
  Fixpoint t_slice_loop (X : Ext) (E : env) (et : gty) (ed : Z -> gval -> tres gval)
      (n : nat) (cursor : Z) (slice : list gval) (rv : gval) : tres gval :=
    match n with
    | O => t_free rv RFuel
    | S n' =>
        let continue (slice' : list gval) (c : Z) : tres gval :=
          let rv' := VSlice (Some slice') in
          if negb (has c) then t_free rv' (RErr (ESyntax c (WEnd "array")))
          else
            t_on (look c) rv' (fun b =>
              if b =b "}"%byte then t_free rv' (ROk (c + 1))
              else t_slice_loop X E et ed n' c slice' rv') in
        if negb (has cursor) then t_free rv (RErr (ESyntax cursor (WEnd "array")))
        else
          t_on (t_read_int cursor) rv (fun '(idx, c) =>
            if negb (has c) then t_free rv (RErr (ESyntax c (WEnd "array value")))
            else if idx <? blen slice then
              if bad_index idx (blen slice) then t_free rv (RPanic PIndex) else
              t_then (ed c (nth (Z.to_nat idx) slice VOther))
                     (fun v => VSlice (Some (update slice (Z.to_nat idx) v)))
                     (fun v c' => continue (update slice (Z.to_nat idx) v) c')
            else
              let newlen := wrap64 (idx + 1) in
              if (newlen <? 0) || negb (x_slots X et newlen) then t_free rv (RPanic PAlloc)
              else if bad_index idx newlen then t_free rv (RPanic PIndex)
              else
                t_then (ed c (zero E et)) (fun _ => rv)
                       (fun v c' => continue (slice ++ repeat (zero E et) (Z.to_nat idx - length slice) ++ [v]) c'))
    end.

  (** slice.go:51-148 *)
  Definition t_slice (X : Ext) (E : env) (et : gty) (ed : Z -> gval -> tres gval)
      (cursor depth : Z) (rv : gval) : tres gval :=
    t_on (t_slice_header cursor depth) rv (fun h =>
      match h with
      | AhNull c => t_free (VSlice None) (ROk c)
      | AhEmpty c => t_free (VSlice None) (ROk c)
      | AhBody count c =>
          if negb (x_slots X et count) then t_free rv (RPanic PAlloc)
          else t_slice_loop X E et ed size c [] rv
      end).

  (** array.go:87-123 *)
  Fixpoint t_array_loop (ed : Z -> gval -> tres gval) (depth : Z) (n : nat) (cursor : Z) (arr : list gval)
      : tres (list gval) :=
    match n with
    | O => t_free arr RFuel
    | S n' =>
        let continue (arr' : list gval) (c : Z) : tres (list gval) :=
          if negb (has c) then t_free arr' (RErr (ESyntax c (WEnd "array")))
          else
            t_on (look c) arr' (fun b =>
              if b =b "}"%byte then t_free arr' (ROk (c + 1)) else t_array_loop ed depth n' c arr') in
        if negb (has cursor) then t_free arr (RErr (ESyntax cursor (WEnd "array")))
        else
          t_on (t_read_int cursor) arr (fun '(idx, c) =>
            if negb (has c) then t_free arr (RErr (ESyntax c (WEnd "array value")))
            else if idx <? blen arr then
              if bad_index idx (blen arr) then t_free arr (RPanic PIndex) else
              t_then (ed c (nth (Z.to_nat idx) arr VOther))
                     (fun v => update arr (Z.to_nat idx) v)
                     (fun v c' => continue (update arr (Z.to_nat idx) v) c')
            else t_on (t_skip c depth) arr (fun c' => continue arr c'))
    end.

  (** array.go:32-127.  Whether rv is zeroed (the input begins with "a:") is found
      out by reading the two bytes once more here. *)
  Definition t_zeroed (cursor depth : Z) : T bool :=
    if has cursor && negb (max_depth <? depth + 1) then
      let '(a, n) := look cursor in
      let '(b, n') := look (cursor + 1) in
      (ROk (match a, b with ROk a, ROk b => (a =b "a"%byte) && (b =b ":"%byte) | _, _ => false end), n + n')
    else t_ok false.
  Definition t_array (E : env) (n : nat) (et : gty) (ed : Z -> gval -> tres gval)
      (cursor depth : Z) (rv : gval) : tres gval :=
    let z := repeat (zero E et) n in
    t_on (t_zeroed cursor depth) rv (fun zeroed =>
      t_on (t_seq_header "array" cursor depth) (if zeroed then VArr z else rv) (fun h =>
        match h with
        | AhNull c => t_free rv (ROk c)
        | AhEmpty c => t_free (VArr z) (ROk c)
        | AhBody _ c => t_map VArr (t_array_loop ed (depth + 1) size c z)
        end)).

  (** struct.go:51-96 *)
  Definition t_struct_header (cursor depth : Z) : T hdr :=
    if negb (has cursor) then t_err (ESyntax cursor (WEnd "object"))
    else
      c <~ look cursor ;;
      if max_depth <? depth + 1 then t_err (ESyntax cursor (WDepth c))
      else if c =b "N"%byte then _ <~ t_null cursor ;; t_ok (HNull (cursor + 2))
      else
        cur <~ (if c =b "O"%byte then cend <~ t_class_name cursor ;; t_ok (cend + 1)
                else if c =b "a"%byte then t_ok (cursor + 1)
                else t_err (ESyntax cursor (WValue c))) ;;
        if negb (has cur) then t_err (ESyntax cur (WEnd "object length"))
        else
          c <~ look cur ;;
          if negb (c =b ":"%byte) then t_err (ESyntax cur (WValue c))
          else
            cend <~ t_skip_length cur ;;
            if negb (has cend) then t_err (ESyntax cend (WEnd "object"))
            else
              c <~ look cend ;;
              if negb (c =b "{"%byte) then t_err (ESyntax cend (WArray c))
              else t_ok (HBody (cend + 1)).

  (** struct.go:107-146; finding the field by its name reads the name, which has
      been counted when it was taken *)
  Fixpoint t_struct_loop (decs : list fdec) (fd : fdec -> Z -> gval -> tres gval) (depth : Z)
      (n : nat) (cursor : Z) (vals : list gval) : tres (list gval) :=
    match n with
    | O => t_free vals RFuel
    | S n' =>
        let continue (vals' : list gval) (c : Z) : tres (list gval) :=
          if negb (has c) then t_free vals' (RErr (ESyntax c (WEnd "object")))
          else
            t_on (look c) vals' (fun b =>
              if b =b "}"%byte then t_free vals' (ROk (c + 1)) else t_struct_loop decs fd depth n' c vals') in
        if negb (has cursor) then t_free vals (RErr (ESyntax cursor (WEnd "object")))
        else
          t_on (t_string_bytes cursor) vals (fun '(key, c) =>
            if negb (has c) then t_free vals (RErr (ESyntax c (WEnd "object value")))
            else
              match find_field (match key with Some k => k | None => [] end) decs with
              | Some d =>
                  match nth_error vals (fd_idx d) with
                  | None => t_free vals (RPanic PReflect)
                  | Some v0 =>
                      t_then (fd d c v0) (fun v => update vals (fd_idx d) v)
                             (fun v c' => continue (update vals (fd_idx d) v) c')
                  end
              | None => t_on (t_skip c depth) vals (fun c' => continue vals c')
              end)
    end.

  (** struct.go:49-147 *)
  Definition t_struct (decs : list fdec) (fd : fdec -> Z -> gval -> tres gval)
      (cursor depth : Z) (rv : gval) : tres gval :=
    t_on (t_struct_header cursor depth) rv (fun h =>
      match h with
      | HNull c => t_free rv (ROk c)
      | HBody c =>
          match rv with
          | VStruct vals =>
              if negb (has c) then t_free rv (RErr (ESyntax c (WEnd "object")))
              else
                t_on (look c) rv (fun b =>
                  if b =b "}"%byte then t_free rv (ROk (c + 1))
                  else t_map VStruct (t_struct_loop decs fd (depth + 1) size c vals))
          | _ => t_free rv (RPanic PReflect)
          end
      end).

  (** ptr.go:30-53 *)
  Definition t_ptr (E : env) (t : gty) (ed : Z -> gval -> tres gval) (cursor : Z) (rv : gval) : tres gval :=
    t_on (look cursor) rv (fun c =>
      if c =b "N"%byte then t_on (t_null cursor) rv (fun _ => t_free (VPtr None) (ROk (cursor + 2)))
      else
        match rv with
        | VPtr o => t_map (fun v => VPtr (Some v)) (ed cursor (match o with Some v => v | None => zero E t end))
        | _ => t_free rv (RPanic PReflect)
        end).

  (** wrapped_string.go:51-67 *)
  Definition t_wrapped (X : Ext) (nd : node) (cursor : Z) (rv : gval) : tres gval :=
    let keep_cursor (c : Z) (r : dres) : dres :=
      match r with (v, ROk _) => (v, ROk c) | r => r end in
    t_text (t_string_bytes cursor)
      (fun b c rv =>
         match nd with
         | NBool => match parse_bool b with
                    | Some v => (VBool v, ROk c)
                    | None => (rv, RErr (ESyntax cursor (WBool b)))
                    end
         | NF32 => keep_cursor c (process_float X true b cursor rv)
         | NF64 => keep_cursor c (process_float X false b cursor rv)
         | NUint k => keep_cursor c (process_uint k b cursor rv)
         | NInt k => keep_cursor c (process_int k b cursor rv)
         | _ => (rv, RErr (EUnsupportedType TOther))
         end) rv.

  (** bytes.go:38-67 *)
  Definition t_bytes (sd : gval -> tres gval) (cursor : Z) (rv : gval) : tres gval :=
    t_on (look cursor) rv (fun c =>
      if c =b "a"%byte then sd rv
      else t_text (t_string_bytes cursor) (fun b c _ => (vbytes b, ROk c)) rv).

  (** Decode of the decoder for type [t] *)
  Fixpoint t_decode_f (X : Ext) (E : env) (fuel : nat) (t : gty) (cursor depth : Z) (rv : gval)
      {struct fuel} : tres gval :=
    match fuel with
    | O => t_free rv RFuel
    | S f =>
        let elem et := fun c v => t_decode_f X E f et c (depth + 1) v in
        match node_of E t with
        | NUnm n => t_unm X E n cursor depth rv
        | NBool => t_bool cursor rv
        | NInt k => t_int k cursor rv
        | NUint k => t_uint k cursor rv
        | NF32 => t_float X true cursor rv
        | NF64 => t_float X false cursor rv
        | NString => t_string cursor rv
        | NAny => t_any X cursor depth rv
        | NIface => t_iface X E cursor depth rv
        | NBytes et => t_bytes (t_slice X E et (elem et) cursor depth) cursor rv
        | NSlice et => t_slice X E et (elem et) cursor depth rv
        | NArray n et => t_array E n et (elem et) cursor depth rv
        | NMap kt vt =>
            t_dec_map (fun c => t_key X E kt c (depth + 1))
                      (fun c => t_decode_f X E f vt c (depth + 1) (zero E vt))
                      cursor depth rv
        | NStruct _ fs =>
            t_struct (field_decs X E 0 fs)
              (fun d c v =>
                 if fd_str d then
                   match node_of E (fd_ty d) with
                   | NPtr t' => t_ptr E t' (fun c v => t_wrapped X (node_of E t') c v) c v
                   | nd => t_wrapped X nd c v
                   end
                 else elem (fd_ty d) c v)
              cursor depth rv
        | NPtr t' =>
            match kind_of E t' with
            | KPtr _ => t_free rv (RErr (EUnsupportedType t))
            | _ => t_ptr E t' (fun c v => t_decode_f X E f t' c depth v) cursor rv
            end
        | NInvalid => t_free rv (RErr (EType cursor))
        end
    end.

  (** unmarshal.go:54-63 *)
  Definition t_end (cursor : Z) : T unit :=
    if len =? cursor then t_ok tt
    else c <~ look cursor ;; t_err (ESyntax (cursor + 1) (WAfter c)).
End Steps.

(** unmarshal.go:21-52 for a non-nil pointer to [v] of type [t]: the pointee
    afterwards, the outcome, and the number of bytes read, including those of the
    copy that is made first (line 37-38) *)
Definition t_unmarshal (X : Ext) (E : env) (cfuel : nat) (data : bytes) (t : gty) (v : gval)
    : gval * R unit * Z :=
  match data with
  | [] => (v, RErr EEmpty, 0)
  | _ =>
      match compile_f X E cfuel [] t with
      | ROk _ =>
          let '(v', r, n) := t_decode_f (blen data) (rd data) (sub data) X E (decode_fuel data) t 0 0 v in
          let '(r', n') :=
            match r with
            | ROk c => t_end (blen data) (rd data) c
            | r => (fail r, 0)
            end in
          (v', r', blen data + n + n')
      | r => (v, r, blen data)
      end
  end.
