(** How much memory a call of Unmarshal asks for: the decoder of Decode.v, once
    more, with its requests for room for maps and slices recorded.

    Recorded are the requests whose size is taken from a number in the input:
    reflect.MakeMapWithSize (map.go:78) and reflect.MakeSlice (slice.go:105 and
    122).  Not recorded are copies of parts of the input (strings, the buffer),
    values whose size depends on the destination type only (at most a fixed
    number per value read), and what UnmarshalPHP methods allocate. *)
From Coq Require Import Strings.String Strings.Byte ZArith List Bool Floats.SpecFloat.
From Verif Require Import Base GoTypes Strconv Tags Scan Decode Unmarshal.
Import ListNotations.
Open Scope Z_scope.

(** Room for [n] entries or elements is asked for. *)
Inductive request := QMap (n : Z) | QSlice (n : Z).
Definition amount (q : request) : Z := match q with QMap n | QSlice n => n end.
Definition total (w : list request) : Z := fold_right (fun q a => amount q + a) 0 w.

(** The destination afterwards, the outcome, and the requests in order. *)
Definition cres : Type := gval * R Z * list request.
(** a decoder that makes no requests *)
Definition free (r : dres) : cres := let '(v, r) := r in (v, r, []).
Definition c_then {A B : Type} (w : list request) (r : A * B * list request) : A * B * list request :=
  let '(v, c, w') := r in (v, c, w ++ w').

(** map.go:33-75, with the declared length *)
Inductive chdr := ChNull (c : Z) | ChBody (len c : Z).
Definition c_map_header (buf : bytes) (cursor depth : Z) : R chdr :=
  if negb (has_byte buf cursor) then RErr (ESyntax cursor (WEnd "map"))
  else
    c <- rd buf cursor ;;
    if max_depth <? depth + 1 then RErr (ESyntax cursor (WDepth c))
    else if c =b "N"%byte then
      _ <- validate_null buf cursor ;; ROk (ChNull (cursor + 2))
    else
      cur <- (if c =b "O"%byte then cend <- skip_class_name buf cursor ;; ROk (cend + 1)
              else if c =b "a"%byte then ROk (cursor + 1)
              else RErr (ESyntax cursor (WStart "map" c))) ;;
      '(len, cend) <- read_length buf cur ;;
      if negb (has_byte buf cend) then RErr (ESyntax cend (WEnd "map"))
      else
        c <- rd buf cend ;;
        if negb (c =b "{"%byte) then RErr (ESyntax cend (WExpected "{ character for map value" c))
        else ROk (ChBody len (cend + 1)).

(** map.go:90-118 *)
Fixpoint c_map_loop (kd vd : Z -> cres) (buf : bytes) (n : nat) (cursor : Z)
    (m : list (gval * gval)) : list (gval * gval) * R Z * list request :=
  match n with
  | O => (m, RFuel, [])
  | S n' =>
      if negb (has_byte buf cursor) then (m, RErr (ESyntax cursor (WEnd "map")), [])
      else
        let '(k, kr, w) := kd cursor in
        match kr with
        | ROk c1 =>
            if negb (has_byte buf c1) then (m, RErr (ESyntax c1 (WEnd "map value")), w)
            else
              let '(v, vr, w') := vd c1 in
              match vr with
              | ROk c2 =>
                  if negb (hashable k) then (m, RPanic PUnhashable, w ++ w')
                  else
                    let m' := map_set k v m in
                    if negb (has_byte buf c2) then (m', RErr (ESyntax c2 (WEnd "map")), w ++ w')
                    else
                      match rd buf c2 with
                      | ROk b => if b =b "}"%byte then (m', ROk (c2 + 1), w ++ w')
                                 else c_then (w ++ w') (c_map_loop kd vd buf n' c2 m')
                      | r => (m', fail r, w ++ w')
                      end
              | r => (m, fail r, w ++ w')
              end
        | r => (m, fail r, w)
        end
  end.

(** map.go:31-119.  Lines 77-79: a nil map is made with room for as many entries
    as are declared.  (The runtime ignores a number that exceeds the address
    space; it is recorded all the same.) *)
Definition c_map (kd vd : Z -> cres) (buf : bytes) (cursor depth : Z) (rv : gval) : cres :=
  match c_map_header buf cursor depth with
  | ROk (ChNull c) => (VMap None, ROk c, [])
  | ROk (ChBody len c) =>
      match rv with
      | VMap o =>
          let m := match o with None => [] | Some m => m end in
          let w := match o with None => [QMap len] | Some _ => [] end in
          if negb (has_byte buf c) then (VMap (Some m), RErr (ESyntax c (WEnd "map")), w)
          else
            match rd buf c with
            | ROk b =>
                if b =b "}"%byte then (VMap (Some m), ROk (c + 1), w)
                else let '(m', r, w') := c_map_loop kd vd buf (length buf) c m in (VMap (Some m'), r, w ++ w')
            | r => (VMap (Some m), fail r, w)
            end
      | _ => (rv, RPanic PReflect, [])
      end
  | r => (rv, fail r, [])
  end.

(** interface.go:173-240 decodeEmptyInterface *)
Fixpoint c_any_f (X : Ext) (fuel : nat) (buf : bytes) (cursor depth : Z)
    : R (option (gty * gval) * Z) * list request :=
  match fuel with
  | O => (RFuel, [])
  | S f =>
      let vd c : cres :=
        let '(r, w) := c_any_f X f buf c (depth + 1) in
        match r with
        | ROk (o, c') => (VIface o, ROk c', w)
        | r => (VIface None, fail r, w)
        end in
      let wrap (t : gty) (r : cres) : R (option (gty * gval) * Z) * list request :=
        let '(v, r, w) := r in
        match r with
        | ROk c => (ROk (Some (t, v), c), w)
        | r => (fail r, w)
        end in
      match rd buf cursor with
      | ROk c =>
          if c =b "O"%byte then
            wrap (TMap TString TAny)
                 (c_map (fun c => free (dec_string buf c (VStr []))) vd buf cursor depth (VMap None))
          else if c =b "a"%byte then
            wrap (TMap TAny TAny)
                 (c_map (fun c => free (dec_any_key buf c)) vd buf cursor depth (VMap None))
          else if c =b "d"%byte then
            wrap TF64 (free (dec_float X false buf cursor (VF64 (S754_zero false))))
          else if c =b "s"%byte then
            ('(s, cend) <- read_string buf (cursor + 1) ;; ROk (Some (TString, VStr s), cend), [])
          else if c =b "i"%byte then wrap (TInt I64) (free (dec_int I64 buf cursor (VInt 0)))
          else if c =b "b"%byte then
            (v <- read_bool buf cursor ;; ROk (Some (TBool, VBool v), cursor + 4), [])
          else if c =b "N"%byte then
            (_ <- validate_null buf cursor ;; ROk (None, cursor + 2), [])
          else (RErr (ESyntax cursor (WValue c)), [])
      | r => (fail r, [])
      end
  end.
Definition c_any (X : Ext) (buf : bytes) (cursor depth : Z) : R (option (gty * gval) * Z) * list request :=
  c_any_f X (S (length buf)) buf cursor depth.
Definition c_iface_any (X : Ext) (buf : bytes) (cursor depth : Z) (rv : gval) : cres :=
  let '(r, w) := c_any X buf cursor depth in
  match r with
  | ROk (o, c) => (VIface o, ROk c, w)
  | r => (rv, fail r, w)
  end.

(** Map keys (map.go:94-99): only those of interface type can contain maps (Decode.v: dec_key) *)
Definition c_key (X : Ext) (E : env) (kt : gty) (buf : bytes) (cursor depth : Z) : cres :=
  let w :=
    match key_node E kt with
    | KnAny => snd (c_any X buf cursor depth)
    | KnPtr d =>
        match d with
        | NString | NBool | NInt _ | NUint _ => []
        | _ => snd (c_any X buf cursor depth)
        end
    | _ => []
    end in
  let '(v, r) := dec_key X E kt buf cursor depth in (v, r, w).

(** slice.go:107-142.  Lines 121-125: whenever an index is at or beyond the
    length, a new slice is made with room up to that index, and the elements so
    far are copied. *)
Fixpoint c_slice_loop (X : Ext) (E : env) (et : gty) (ed : Z -> gval -> cres) (buf : bytes)
    (n : nat) (cursor : Z) (slice : list gval) (rv : gval) : cres :=
  match n with
  | O => (rv, RFuel, [])
  | S n' =>
      let continue (slice' : list gval) (c : Z) : cres :=
        let rv' := VSlice (Some slice') in
        if negb (has_byte buf c) then (rv', RErr (ESyntax c (WEnd "array")), [])
        else
          match rd buf c with
          | ROk b => if b =b "}"%byte then (rv', ROk (c + 1), [])
                     else c_slice_loop X E et ed buf n' c slice' rv'
          | r => (rv', fail r, [])
          end in
      if negb (has_byte buf cursor) then (rv, RErr (ESyntax cursor (WEnd "array")), [])
      else
        match read_int buf cursor with
        | ROk (idx, c) =>
            if negb (has_byte buf c) then (rv, RErr (ESyntax c (WEnd "array value")), [])
            else if idx <? blen slice then
              if bad_index idx (blen slice) then (rv, RPanic PIndex, []) else
              let '(v, r, w) := ed c (nth (Z.to_nat idx) slice VOther) in
              let slice' := update slice (Z.to_nat idx) v in
              match r with
              | ROk c' => c_then w (continue slice' c')
              | r => (VSlice (Some slice'), fail r, w)
              end
            else
              let newlen := wrap64 (idx + 1) in
              if (newlen <? 0) || negb (x_slots X et newlen) then (rv, RPanic PAlloc, [])
              else if bad_index idx newlen then (rv, RPanic PIndex, [])
              else
                let '(v, r, w) := ed c (zero E et) in
                let w := QSlice newlen :: w in
                match r with
                | ROk c' =>
                    c_then w (continue (slice ++ repeat (zero E et) (Z.to_nat idx - length slice) ++ [v]) c')
                | r => (rv, fail r, w)
                end
        | r => (rv, fail r, [])
        end
  end.

(** slice.go:51-148; line 105 *)
Definition c_slice (X : Ext) (E : env) (et : gty) (ed : Z -> gval -> cres)
    (buf : bytes) (cursor depth : Z) (rv : gval) : cres :=
  match slice_header buf cursor depth with
  | ROk (AhNull c) => (VSlice None, ROk c, [])
  | ROk (AhEmpty c) => (VSlice None, ROk c, [])
  | ROk (AhBody len c) =>
      if negb (x_slots X et len) then (rv, RPanic PAlloc, [])
      else c_then [QSlice len] (c_slice_loop X E et ed buf (length buf) c [] rv)
  | r => (rv, fail r, [])
  end.

(** bytes.go:38-67 *)
Definition c_bytes (sd : gval -> cres) (buf : bytes) (cursor : Z) (rv : gval) : cres :=
  match rd buf cursor with
  | ROk c =>
      if c =b "a"%byte then sd rv
      else free (dec_text (decode_string_bytes buf cursor) (fun b c _ => (vbytes b, ROk c)) rv)
  | r => (rv, fail r, [])
  end.

(** array.go:87-123 *)
Fixpoint c_array_loop (ed : Z -> gval -> cres) (buf : bytes) (depth : Z)
    (n : nat) (cursor : Z) (arr : list gval) : list gval * R Z * list request :=
  match n with
  | O => (arr, RFuel, [])
  | S n' =>
      let continue (arr' : list gval) (c : Z) : list gval * R Z * list request :=
        if negb (has_byte buf c) then (arr', RErr (ESyntax c (WEnd "array")), [])
        else
          match rd buf c with
          | ROk b => if b =b "}"%byte then (arr', ROk (c + 1), [])
                     else c_array_loop ed buf depth n' c arr'
          | r => (arr', fail r, [])
          end in
      if negb (has_byte buf cursor) then (arr, RErr (ESyntax cursor (WEnd "array")), [])
      else
        match read_int buf cursor with
        | ROk (idx, c) =>
            if negb (has_byte buf c) then (arr, RErr (ESyntax c (WEnd "array value")), [])
            else if idx <? blen arr then
              if bad_index idx (blen arr) then (arr, RPanic PIndex, []) else
              let '(v, r, w) := ed c (nth (Z.to_nat idx) arr VOther) in
              let arr' := update arr (Z.to_nat idx) v in
              match r with
              | ROk c' => c_then w (continue arr' c')
              | r => (arr', fail r, w)
              end
            else
              match skip_value buf c depth with
              | ROk c' => continue arr c'
              | r => (arr, fail r, [])
              end
        | r => (arr, fail r, [])
        end
  end.

(** array.go:32-127 *)
Definition c_array (E : env) (n : nat) (et : gty) (ed : Z -> gval -> cres)
    (buf : bytes) (cursor depth : Z) (rv : gval) : cres :=
  let z := repeat (zero E et) n in
  let rv0 := if array_zeroed buf cursor depth then VArr z else rv in
  match array_header buf cursor depth with
  | ROk (AhNull c) => (rv, ROk c, [])
  | ROk (AhEmpty c) => (VArr z, ROk c, [])
  | ROk (AhBody _ c) =>
      let '(l, r, w) := c_array_loop ed buf (depth + 1) (length buf) c z in (VArr l, r, w)
  | r => (rv0, fail r, [])
  end.

(** struct.go:107-146 *)
Fixpoint c_struct_loop (decs : list fdec) (fd : fdec -> Z -> gval -> cres) (buf : bytes) (depth : Z)
    (n : nat) (cursor : Z) (vals : list gval) : list gval * R Z * list request :=
  match n with
  | O => (vals, RFuel, [])
  | S n' =>
      let continue (vals' : list gval) (c : Z) : list gval * R Z * list request :=
        if negb (has_byte buf c) then (vals', RErr (ESyntax c (WEnd "object")), [])
        else
          match rd buf c with
          | ROk b => if b =b "}"%byte then (vals', ROk (c + 1), [])
                     else c_struct_loop decs fd buf depth n' c vals'
          | r => (vals', fail r, [])
          end in
      if negb (has_byte buf cursor) then (vals, RErr (ESyntax cursor (WEnd "object")), [])
      else
        match decode_string_bytes buf cursor with
        | ROk (key, c) =>
            if negb (has_byte buf c) then (vals, RErr (ESyntax c (WEnd "object value")), [])
            else
              match find_field (match key with Some k => k | None => [] end) decs with
              | Some d =>
                  match nth_error vals (fd_idx d) with
                  | None => (vals, RPanic PReflect, [])
                  | Some v0 =>
                      let '(v, r, w) := fd d c v0 in
                      let vals' := update vals (fd_idx d) v in
                      match r with
                      | ROk c' => c_then w (continue vals' c')
                      | r => (vals', fail r, w)
                      end
                  end
              | None =>
                  match skip_value buf c depth with
                  | ROk c' => continue vals c'
                  | r => (vals, fail r, [])
                  end
              end
        | r => (vals, fail r, [])
        end
  end.

(** struct.go:49-147 *)
Definition c_struct (decs : list fdec) (fd : fdec -> Z -> gval -> cres)
    (buf : bytes) (cursor depth : Z) (rv : gval) : cres :=
  match struct_header buf cursor depth with
  | ROk (HNull c) => (rv, ROk c, [])
  | ROk (HBody c) =>
      match rv with
      | VStruct vals =>
          if negb (has_byte buf c) then (rv, RErr (ESyntax c (WEnd "object")), [])
          else
            match rd buf c with
            | ROk b =>
                if b =b "}"%byte then (rv, ROk (c + 1), [])
                else
                  let '(l, r, w) := c_struct_loop decs fd buf (depth + 1) (length buf) c vals in
                  (VStruct l, r, w)
            | r => (rv, fail r, [])
            end
      | _ => (rv, RPanic PReflect, [])
      end
  | r => (rv, fail r, [])
  end.

(** ptr.go:30-53 *)
Definition c_ptr (E : env) (t : gty) (ed : Z -> gval -> cres) (buf : bytes) (cursor : Z) (rv : gval) : cres :=
  match rd buf cursor with
  | ROk c =>
      if c =b "N"%byte then
        match validate_null buf cursor with
        | ROk _ => (VPtr None, ROk (cursor + 2), [])
        | r => (rv, fail r, [])
        end
      else
        match rv with
        | VPtr o =>
            let '(v, r, w) := ed cursor (match o with Some v => v | None => zero E t end) in
            (VPtr (Some v), r, w)
        | _ => (rv, RPanic PReflect, [])
        end
  | r => (rv, fail r, [])
  end.

(** Decode of the decoder for type [t] (Decode.v: decode_f) *)
Fixpoint c_decode_f (X : Ext) (E : env) (fuel : nat) (t : gty) (buf : bytes) (cursor depth : Z)
    (rv : gval) {struct fuel} : cres :=
  match fuel with
  | O => (rv, RFuel, [])
  | S f =>
      let elem et := fun c v => c_decode_f X E f et buf c (depth + 1) v in
      match node_of E t with
      | NUnm n => free (dec_unm X E n buf cursor depth rv)
      | NBool => free (dec_bool buf cursor rv)
      | NInt k => free (dec_int k buf cursor rv)
      | NUint k => free (dec_uint k buf cursor rv)
      | NF32 => free (dec_float X true buf cursor rv)
      | NF64 => free (dec_float X false buf cursor rv)
      | NString => free (dec_string buf cursor rv)
      | NAny => c_iface_any X buf cursor depth rv
      | NIface => free (dec_iface X E buf cursor depth rv)
      | NBytes et => c_bytes (c_slice X E et (elem et) buf cursor depth) buf cursor rv
      | NSlice et => c_slice X E et (elem et) buf cursor depth rv
      | NArray n et => c_array E n et (elem et) buf cursor depth rv
      | NMap kt vt =>
          c_map (fun c => c_key X E kt buf c (depth + 1))
                (fun c => c_decode_f X E f vt buf c (depth + 1) (zero E vt))
                buf cursor depth rv
      | NStruct _ fs =>
          c_struct (field_decs X E 0 fs)
            (fun d c v =>
               if fd_str d then
                 match node_of E (fd_ty d) with
                 | NPtr t' => free (dec_ptr E t' (fun c v => dec_wrapped X (node_of E t') buf c v) buf c v)
                 | nd => free (dec_wrapped X nd buf c v)
                 end
               else elem (fd_ty d) c v)
            buf cursor depth rv
      | NPtr t' =>
          match kind_of E t' with
          | KPtr _ => (rv, RErr (EUnsupportedType t), [])
          | _ => c_ptr E t' (fun c v => c_decode_f X E f t' buf c depth v) buf cursor rv
          end
      | NInvalid => (rv, RErr (EType cursor), [])
      end
  end.
Definition c_decode (X : Ext) (E : env) (t : gty) (buf : bytes) (cursor depth : Z) (rv : gval) : cres :=
  c_decode_f X E (decode_fuel buf) t buf cursor depth rv.

(** unmarshal.go:21-52 for a non-nil pointer to [v] of type [t]: the pointee
    afterwards, the outcome and the requests *)
Definition c_unmarshal (X : Ext) (E : env) (cfuel : nat) (data : bytes) (t : gty) (v : gval)
    : gval * R unit * list request :=
  match data with
  | [] => (v, RErr EEmpty, [])
  | _ =>
      match compile_f X E cfuel [] t with
      | ROk _ =>
          let '(v', r, w) := c_decode X E t data 0 0 v in
          (v', c <- r ;; validate_end data c, w)
      | r => (v, r, [])
      end
  end.
