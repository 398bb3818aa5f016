(** Unmarshal with a limit on how deep its calls may nest.

    The decoders of Decode.v, with the number of calls that may still be made
    inside of each other as an argument: of decodeEmptyInterface, skipValue and
    the Decode methods (each of these is a bounded number of Go frames).  In
    Decode.v the recursion of each of them has a bound of its own, which grows
    with the input.  [RFuel] stands for the limit being reached. *)
From Coq Require Import Strings.String Strings.Byte ZArith List Bool Floats.SpecFloat.
From Verif Require Import Base GoTypes Strconv Tags Scan Decode Unmarshal.
Import ListNotations.
Open Scope Z_scope.

Section Limited.
  (** skipValue and decodeEmptyInterface, as they are called *)
  Context (skip : bytes -> Z -> Z -> R Z) (any : bytes -> Z -> Z -> R (option (gty * gval) * Z)).

(** interface.go:124-149, 173-240 for an empty interface *)
Definition s_dec_iface_any (X : Ext) (buf : bytes) (cursor depth : Z) (rv : gval) : dres :=
  match any buf cursor depth with
  | ROk (o, c) => (VIface o, ROk c)
  | r => (rv, fail r)
  end.

(** unmarshal_php.go:45-95 unmarshalPHPDecoder.Decode *)
Definition s_dec_unm (X : Ext) (E : env) (n : nat) (buf : bytes) (cursor depth : Z) (rv : gval) : dres :=
  match cend <- skip buf cursor depth ;; src <- sub buf cursor cend ;; ROk (src, cend) with
  | ROk (src, cend) =>
      let go := 
        match x_unmarshal X n (unquoted X src) (zero E (TName n)) with
        | (v, true) => (v, ROk cend)
        | (_, false) => (rv, RErr EUser)
        end in
      match src with
      | [] => go
      | c :: _ =>
          if (c =b "["%byte) || (c =b "{"%byte) || (c =b "-"%byte) || is_digit c
          then (rv, RErr (EType cursor))
          else if (c =b "N"%byte) && bytes_eqb src (bs "N;") then (zero E (TName n), ROk cend)
          else go
      end
  | r => (rv, fail r)
  end.

(** interface.go:104-149 interfaceDecoder.Decode for an interface with methods *)
Definition s_dec_iface (X : Ext) (E : env) (buf : bytes) (cursor depth : Z) (rv : gval) : dres :=
  let plain :=
    match rd buf cursor with
    | ROk c =>
        if c =b "N"%byte then
          match validate_null buf cursor with
          | ROk _ => (VIface None, ROk (cursor + 2))
          | r => (rv, fail r)
          end
        else (rv, RErr (EType cursor))
    | r => (rv, fail r)
    end in
  match rv with
  | VIface (Some (TPtr t, VPtr p)) =>
      match has_unmarshal E t with
      | Some n =>
          match cend <- skip buf cursor depth ;; src <- sub buf cursor cend ;; ROk (src, cend) with
          | ROk (src, cend) =>
              if bytes_eqb src (bs "N;") then (VIface None, ROk cend)
              else
                match p with
                | None => (rv, RPanic PNilDeref)
                | Some old =>
                    let '(new, ok) := x_unmarshal X n (unquoted X src) old in
                    (VIface (Some (TPtr t, VPtr (Some new))),
                     if ok then ROk cend else RErr EUser)
                end
          | r => (rv, fail r)
          end
      | None => plain
      end
  | _ => plain
  end.

(** map.go:94-99 with the decoder of [key_node] *)
Definition s_dec_key (X : Ext) (E : env) (kt : gty) (buf : bytes) (cursor depth : Z) : dres :=
  let z := zero E kt in
  match key_node E kt with
  | KnUnm n => s_dec_unm X E n buf cursor depth z
  | KnString => dec_string buf cursor z
  | KnBool => dec_bool buf cursor z
  | KnInt k => dec_int k buf cursor z
  | KnUint k => dec_uint k buf cursor z
  | KnAny => s_dec_iface_any X buf cursor depth z
  | KnIface => s_dec_iface X E buf cursor depth z
  | KnPtr d =>
      (* the pointee's decoder runs on a key of pointer kind: null leaves it
         nil, any other accepted value ends in a reflect panic *)
      match d with
      | NString => dec_text (decode_string_bytes buf cursor) (fun _ _ rv => (rv, RPanic PReflect)) z
      | NBool => match dec_bool buf cursor VOther with
                 | (VBool _, ROk _) => (z, RPanic PReflect)
                 | (_, r) => (z, r)
                 end
      | NInt _ => dec_text (decode_int_bytes buf cursor)
                    (fun b c rv => match parse_int64 b with
                                   | None => (rv, RErr (EType c))
                                   | Some _ => (rv, RPanic PReflect) end) z
      | NUint _ => dec_text (decode_int_bytes buf cursor)
                    (fun b c rv => match parse_uint64 b with
                                   | None => (rv, RErr (EType c))
                                   | Some _ => (rv, RPanic PReflect) end) z
      | _ => match any buf cursor depth with
             | ROk (None, c) => (z, ROk c)
             | ROk (Some _, _) => (z, RPanic PReflect)
             | r => (z, fail r)
             end
      end
  | KnInvalid => (z, RErr (EType cursor))
  end.

(** array.go:87-123 *)
Fixpoint s_array_loop (ed : Z -> gval -> dres) (buf : bytes) (depth : Z)
    (n : nat) (cursor : Z) (arr : list gval) : list gval * R Z :=
  match n with
  | O => (arr, RFuel)
  | S n' =>
      let continue (arr' : list gval) (c : Z) : list gval * R Z :=
        if negb (has_byte buf c) then (arr', RErr (ESyntax c (WEnd "array")))
        else
          match rd buf c with
          | ROk b => if b =b "}"%byte then (arr', ROk (c + 1))
                     else s_array_loop ed buf depth n' c arr'
          | r => (arr', fail r)
          end in
      if negb (has_byte buf cursor) then (arr, RErr (ESyntax cursor (WEnd "array")))
      else
        match read_int buf cursor with
        | ROk (idx, c) =>
            if negb (has_byte buf c) then (arr, RErr (ESyntax c (WEnd "array value")))
            else if idx <? blen arr then
              if bad_index idx (blen arr) then (arr, RPanic PIndex) else
              let '(v, r) := ed c (nth (Z.to_nat idx) arr VOther) in
              let arr' := update arr (Z.to_nat idx) v in
              match r with
              | ROk c' => continue arr' c'
              | r => (arr', fail r)
              end
            else
              match skip buf c depth with
              | ROk c' => continue arr c'
              | r => (arr, fail r)
              end
        | r => (arr, fail r)
        end
  end.

(** array.go:32-127 arrayDecoder.Decode *)
Definition s_dec_array (E : env) (n : nat) (et : gty) (ed : Z -> gval -> dres)
    (buf : bytes) (cursor depth : Z) (rv : gval) : dres :=
  let z := repeat (zero E et) n in
  let rv0 := if array_zeroed buf cursor depth then VArr z else rv in
  match array_header buf cursor depth with
  | ROk (AhNull c) => (rv, ROk c)
  | ROk (AhEmpty c) => (VArr z, ROk c)
  | ROk (AhBody _ c) =>
      let '(l, r) := s_array_loop ed buf (depth + 1) (length buf) c z in (VArr l, r)
  | r => (rv0, fail r)
  end.

(** struct.go:107-146 *)
Fixpoint s_struct_loop (decs : list fdec) (fd : fdec -> Z -> gval -> dres) (buf : bytes) (depth : Z)
    (n : nat) (cursor : Z) (vals : list gval) : list gval * R Z :=
  match n with
  | O => (vals, RFuel)
  | S n' =>
      let continue (vals' : list gval) (c : Z) : list gval * R Z :=
        if negb (has_byte buf c) then (vals', RErr (ESyntax c (WEnd "object")))
        else
          match rd buf c with
          | ROk b => if b =b "}"%byte then (vals', ROk (c + 1))
                     else s_struct_loop decs fd buf depth n' c vals'
          | r => (vals', fail r)
          end in
      if negb (has_byte buf cursor) then (vals, RErr (ESyntax cursor (WEnd "object")))
      else
        match decode_string_bytes buf cursor with
        | ROk (key, c) =>
            if negb (has_byte buf c) then (vals, RErr (ESyntax c (WEnd "object value")))
            else
              match find_field (match key with Some k => k | None => [] end) decs with
              | Some d =>
                  match nth_error vals (fd_idx d) with
                  | None => (vals, RPanic PReflect)
                  | Some v0 =>
                      let '(v, r) := fd d c v0 in
                      let vals' := update vals (fd_idx d) v in
                      match r with
                      | ROk c' => continue vals' c'
                      | r => (vals', fail r)
                      end
                  end
              | None =>
                  match skip buf c depth with
                  | ROk c' => continue vals c'
                  | r => (vals, fail r)
                  end
              end
        | r => (vals, fail r)
        end
  end.

(** struct.go:49-147 structDecoder.Decode *)
Definition s_dec_struct (decs : list fdec) (fd : fdec -> Z -> gval -> dres)
    (buf : bytes) (cursor depth : Z) (rv : gval) : dres :=
  match struct_header buf cursor depth with
  | ROk (HNull c) => (rv, ROk c)
  | ROk (HBody c) =>
      match rv with
      | VStruct vals =>
          if negb (has_byte buf c) then (rv, RErr (ESyntax c (WEnd "object")))
          else
            match rd buf c with
            | ROk b =>
                if b =b "}"%byte then (rv, ROk (c + 1))
                else
                  let '(l, r) := s_struct_loop decs fd buf (depth + 1) (length buf) c vals in
                  (VStruct l, r)
            | r => (rv, fail r)
            end
      | _ => (rv, RPanic PReflect)
      end
  | r => (rv, fail r)
  end.

(** Decode of the decoder for type [t]; [elem_at]: Decode of the decoders it calls *)
Definition s_decode_body (X : Ext) (E : env) (elem_at : gty -> bytes -> Z -> Z -> gval -> dres) (t : gty) (buf : bytes) (cursor depth : Z)
    (rv : gval) : dres :=
      let elem et := fun c v => elem_at et buf c (depth + 1) v in
      match node_of E t with
      | NUnm n => s_dec_unm X E n buf cursor depth rv
      | NBool => dec_bool buf cursor rv
      | NInt k => dec_int k buf cursor rv
      | NUint k => dec_uint k buf cursor rv
      | NF32 => dec_float X true buf cursor rv
      | NF64 => dec_float X false buf cursor rv
      | NString => dec_string buf cursor rv
      | NAny => s_dec_iface_any X buf cursor depth rv
      | NIface => s_dec_iface X E buf cursor depth rv
      | NBytes et => dec_bytes (dec_slice X E et (elem et) buf cursor depth) buf cursor rv
      | NSlice et => dec_slice X E et (elem et) buf cursor depth rv
      | NArray n et => s_dec_array E n et (elem et) buf cursor depth rv
      | NMap kt vt =>
          dec_map (fun c => s_dec_key X E kt buf c (depth + 1))
                  (fun c => elem_at vt buf c (depth + 1) (zero E vt))
                  buf cursor depth rv
      | NStruct _ fs =>
          s_dec_struct (field_decs X E 0 fs)
            (fun d c v =>
               if fd_str d then
                 match node_of E (fd_ty d) with
                 | NPtr t' => dec_ptr E t' (fun c v => dec_wrapped X (node_of E t') buf c v) buf c v
                 | nd => dec_wrapped X nd buf c v
                 end
               else elem (fd_ty d) c v)
            buf cursor depth rv
      | NPtr t' =>
          match kind_of E t' with
          | KPtr _ => (rv, RErr (EUnsupportedType t))   (* rejected when compiled, ptr.go:17-21 *)
          | _ => dec_ptr E t' (fun c v => elem_at t' buf c depth v) buf cursor rv
          end
      | NInvalid => (rv, RErr (EType cursor))       (* invalid.go:24-32 *)
      end.
End Limited.

(** At most [n] calls inside of each other. *)
Fixpoint s_decode (X : Ext) (E : env) (n : nat) (t : gty) (buf : bytes) (cursor depth : Z) (rv : gval) {struct n} : dres :=
  match n with
  | O => (rv, RFuel)
  | S n' => s_decode_body (skip_value_f n') (dec_any_f X n') X E (s_decode X E n') t buf cursor depth rv
  end.
(** unmarshal.go:21-52 Unmarshal, for a pointer to a [t] that holds [v] *)
Definition s_unmarshal (X : Ext) (E : env) (cfuel n : nat) (data : bytes) (t : gty) (v : gval) : gval * R unit :=
  match data with
  | [] => (v, RErr EEmpty)
  | _ =>
      match compile_f X E cfuel [] t with
      | ROk _ =>
          let '(v', r) := s_decode X E n t data 0 0 v in
          (v', c <- r ;; validate_end data c)
      | r => (v, r)
      end
  end.
