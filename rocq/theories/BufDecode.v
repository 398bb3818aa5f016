(** The decoder with its input buffer as state.

    Unmarshal decodes a private copy of its argument (unmarshal.go:37-38), and
    hands [buf[start:end]] of that copy, not a copy of the piece, to
    UnmarshalPHP (unmarshal_php.go:52, interface.go:110).  The method can write
    to it, and, since the capacity of the piece reaches to the end of the
    buffer, [append] to it writes over the bytes that are decoded next.

    [Decode.v] leaves the buffer alone.  Here every decoder returns the buffer
    as it leaves it.  Decoders that cannot call a method (everything but
    unmarshal_php.go, interface.go:104-122 and the containers) are those of
    [Decode.v], applied to the current buffer. *)
From Coq Require Import Strings.String Strings.Byte ZArith List Bool Floats.SpecFloat.
From Verif Require Import Base GoTypes Strconv Tags Scan Decode Unmarshal.
Import ListNotations.
Open Scope Z_scope.

(** What UnmarshalPHP of declared type [n] does: called with argument [arg],
    which is the buffer's bytes from [start] to [cend], and with the receiver's
    value, it returns the receiver's new value and whether it succeeded, and
    leaves the buffer with the given content. *)
Definition method : Type := nat -> bytes -> bytes -> Z -> Z -> gval -> (gval * bool) * bytes.

Definition bres (A : Type) : Type := bytes * (A * R Z).

Section Buf.
  Context (X : Ext) (E : env) (meth : method).

  Definition pure_b (d : bytes -> Z -> gval -> dres) (buf : bytes) (cursor : Z) (rv : gval) : bres gval :=
    (buf, d buf cursor rv).

  (** unmarshal_php.go:45-95 unmarshalPHPDecoder.Decode *)
  Definition dec_unm_b (n : nat) (buf : bytes) (cursor depth : Z) (rv : gval) : bres gval :=
    match cend <- skip_value buf cursor depth ;; src <- sub buf cursor cend ;; ROk (src, cend) with
    | ROk (src, cend) =>
        let go :=
          let '((v, ok), buf') := meth n (unquoted X src) buf cursor cend (zero E (TName n)) in
          (buf', if ok then (v, ROk cend) else (rv, RErr EUser)) in
        match src with
        | [] => go
        | c :: _ =>
            if (c =b "["%byte) || (c =b "{"%byte) || (c =b "-"%byte) || is_digit c
            then (buf, (rv, RErr (EType cursor)))
            else if (c =b "N"%byte) && bytes_eqb src (bs "N;") then (buf, (zero E (TName n), ROk cend))
            else go
        end
    | r => (buf, (rv, fail r))
    end.

  (** interface.go:134-149 with decodePHPUnmarshaler (interface.go:104-122) *)
  Definition dec_iface_b (buf : bytes) (cursor depth : Z) (rv : gval) : bres gval :=
    match rv with
    | VIface (Some (TPtr t, VPtr p)) =>
        match has_unmarshal E t with
        | Some n =>
            match cend <- skip_value buf cursor depth ;; src <- sub buf cursor cend ;; ROk (src, cend) with
            | ROk (src, cend) =>
                if bytes_eqb src (bs "N;") then (buf, (VIface None, ROk cend))
                else
                  match p with
                  | None => (buf, (rv, RPanic PNilDeref))
                  | Some old =>
                      let '((new, ok), buf') := meth n (unquoted X src) buf cursor cend old in
                      (buf', (VIface (Some (TPtr t, VPtr (Some new))),
                              if ok then ROk cend else RErr EUser))
                  end
            | r => (buf, (rv, fail r))
            end
        | None => (buf, dec_iface X E buf cursor depth rv)
        end
    | _ => (buf, dec_iface X E buf cursor depth rv)
    end.

  (** map.go:94-99 with the decoder of [key_node]; only a type's own
      UnmarshalPHP is called for a key: the interface keys are fresh, so nil *)
  Definition dec_key_b (kt : gty) (buf : bytes) (cursor depth : Z) : bres gval :=
    match key_node E kt with
    | KnUnm n => dec_unm_b n buf cursor depth (zero E kt)
    | KnIface => dec_iface_b buf cursor depth (zero E kt)
    | _ => (buf, dec_key X E kt buf cursor depth)
    end.

  (** map.go:90-118 *)
  Fixpoint map_loop_b (kd vd : bytes -> Z -> bres gval) (n : nat) (buf : bytes) (cursor : Z)
      (m : list (gval * gval)) : bres (list (gval * gval)) :=
    match n with
    | O => (buf, (m, RFuel))
    | S n' =>
        if negb (has_byte buf cursor) then (buf, (m, RErr (ESyntax cursor (WEnd "map"))))
        else
          let '(buf1, (k, kr)) := kd buf cursor in
          match kr with
          | ROk c1 =>
              if negb (has_byte buf1 c1) then (buf1, (m, RErr (ESyntax c1 (WEnd "map value"))))
              else
                let '(buf2, (v, vr)) := vd buf1 c1 in
                match vr with
                | ROk c2 =>
                    if negb (hashable k) then (buf2, (m, RPanic PUnhashable))
                    else
                      let m' := map_set k v m in
                      if negb (has_byte buf2 c2) then (buf2, (m', RErr (ESyntax c2 (WEnd "map"))))
                      else
                        match rd buf2 c2 with
                        | ROk b => if b =b "}"%byte then (buf2, (m', ROk (c2 + 1)))
                                   else map_loop_b kd vd n' buf2 c2 m'
                        | r => (buf2, (m', fail r))
                        end
                | r => (buf2, (m, fail r))
                end
          | r => (buf1, (m, fail r))
          end
    end.

  (** map.go:31-119 mapDecoder.Decode *)
  Definition dec_map_b (kd vd : bytes -> Z -> bres gval) (buf : bytes) (cursor depth : Z) (rv : gval) : bres gval :=
    match map_header buf cursor depth with
    | ROk (HNull c) => (buf, (VMap None, ROk c))
    | ROk (HBody c) =>
        match rv with
        | VMap o =>
            let m := match o with None => [] | Some m => m end in
            if negb (has_byte buf c) then (buf, (VMap (Some m), RErr (ESyntax c (WEnd "map"))))
            else
              match rd buf c with
              | ROk b =>
                  if b =b "}"%byte then (buf, (VMap (Some m), ROk (c + 1)))
                  else let '(buf', (m', r)) := map_loop_b kd vd (length buf) buf c m in (buf', (VMap (Some m'), r))
              | r => (buf, (VMap (Some m), fail r))
              end
        | _ => (buf, (rv, RPanic PReflect))
        end
    | r => (buf, (rv, fail r))
    end.

  (** slice.go:107-142 *)
  Fixpoint slice_loop_b (et : gty) (ed : bytes -> Z -> gval -> bres gval)
      (n : nat) (buf : bytes) (cursor : Z) (slice : list gval) (rv : gval) : bres gval :=
    match n with
    | O => (buf, (rv, RFuel))
    | S n' =>
        let continue (buf : bytes) (slice' : list gval) (c : Z) : bres gval :=
          let rv' := VSlice (Some slice') in
          if negb (has_byte buf c) then (buf, (rv', RErr (ESyntax c (WEnd "array"))))
          else
            match rd buf c with
            | ROk b => if b =b "}"%byte then (buf, (rv', ROk (c + 1)))
                       else slice_loop_b et ed n' buf c slice' rv'
            | r => (buf, (rv', fail r))
            end in
        if negb (has_byte buf cursor) then (buf, (rv, RErr (ESyntax cursor (WEnd "array"))))
        else
          match read_int buf cursor with
          | ROk (idx, c) =>
              if negb (has_byte buf c) then (buf, (rv, RErr (ESyntax c (WEnd "array value"))))
              else if idx <? blen slice then
                if bad_index idx (blen slice) then (buf, (rv, RPanic PIndex)) else
                let '(buf', (v, r)) := ed buf c (nth (Z.to_nat idx) slice VOther) in
                let slice' := update slice (Z.to_nat idx) v in
                match r with
                | ROk c' => continue buf' slice' c'
                | r => (buf', (VSlice (Some slice'), fail r))
                end
              else
                let newlen := wrap64 (idx + 1) in
                if (newlen <? 0) || negb (x_slots X et newlen) then (buf, (rv, RPanic PAlloc))
                else if bad_index idx newlen then (buf, (rv, RPanic PIndex))
                else
                  let '(buf', (v, r)) := ed buf c (zero E et) in
                  match r with
                  | ROk c' =>
                      continue buf' (slice ++ repeat (zero E et) (Z.to_nat idx - length slice) ++ [v]) c'
                  | r => (buf', (rv, fail r))
                  end
          | r => (buf, (rv, fail r))
          end
    end.

  (** slice.go:51-148 sliceDecoder.Decode *)
  Definition dec_slice_b (et : gty) (ed : bytes -> Z -> gval -> bres gval)
      (buf : bytes) (cursor depth : Z) (rv : gval) : bres gval :=
    match slice_header buf cursor depth with
    | ROk (AhNull c) => (buf, (VSlice None, ROk c))
    | ROk (AhEmpty c) => (buf, (VSlice None, ROk c))
    | ROk (AhBody len c) =>
        if negb (x_slots X et len) then (buf, (rv, RPanic PAlloc))
        else slice_loop_b et ed (length buf) buf c [] rv
    | r => (buf, (rv, fail r))
    end.

  (** array.go:87-123 *)
  Fixpoint array_loop_b (ed : bytes -> Z -> gval -> bres gval) (depth : Z)
      (n : nat) (buf : bytes) (cursor : Z) (arr : list gval) : bres (list gval) :=
    match n with
    | O => (buf, (arr, RFuel))
    | S n' =>
        let continue (buf : bytes) (arr' : list gval) (c : Z) : bres (list gval) :=
          if negb (has_byte buf c) then (buf, (arr', RErr (ESyntax c (WEnd "array"))))
          else
            match rd buf c with
            | ROk b => if b =b "}"%byte then (buf, (arr', ROk (c + 1)))
                       else array_loop_b ed depth n' buf c arr'
            | r => (buf, (arr', fail r))
            end in
        if negb (has_byte buf cursor) then (buf, (arr, RErr (ESyntax cursor (WEnd "array"))))
        else
          match read_int buf cursor with
          | ROk (idx, c) =>
              if negb (has_byte buf c) then (buf, (arr, RErr (ESyntax c (WEnd "array value"))))
              else if idx <? blen arr then
                if bad_index idx (blen arr) then (buf, (arr, RPanic PIndex)) else
                let '(buf', (v, r)) := ed buf c (nth (Z.to_nat idx) arr VOther) in
                let arr' := update arr (Z.to_nat idx) v in
                match r with
                | ROk c' => continue buf' arr' c'
                | r => (buf', (arr', fail r))
                end
              else
                match skip_value buf c depth with
                | ROk c' => continue buf arr c'
                | r => (buf, (arr, fail r))
                end
          | r => (buf, (arr, fail r))
          end
    end.

  (** array.go:32-127 arrayDecoder.Decode *)
  Definition dec_array_b (n : nat) (et : gty) (ed : bytes -> Z -> gval -> bres gval)
      (buf : bytes) (cursor depth : Z) (rv : gval) : bres gval :=
    let z := repeat (zero E et) n in
    let rv0 := if array_zeroed buf cursor depth then VArr z else rv in
    match array_header buf cursor depth with
    | ROk (AhNull c) => (buf, (rv, ROk c))
    | ROk (AhEmpty c) => (buf, (VArr z, ROk c))
    | ROk (AhBody _ c) =>
        let '(buf', (l, r)) := array_loop_b ed (depth + 1) (length buf) buf c z in (buf', (VArr l, r))
    | r => (buf, (rv0, fail r))
    end.

  (** struct.go:107-146 *)
  Fixpoint struct_loop_b (decs : list fdec) (fd : fdec -> bytes -> Z -> gval -> bres gval) (depth : Z)
      (n : nat) (buf : bytes) (cursor : Z) (vals : list gval) : bres (list gval) :=
    match n with
    | O => (buf, (vals, RFuel))
    | S n' =>
        let continue (buf : bytes) (vals' : list gval) (c : Z) : bres (list gval) :=
          if negb (has_byte buf c) then (buf, (vals', RErr (ESyntax c (WEnd "object"))))
          else
            match rd buf c with
            | ROk b => if b =b "}"%byte then (buf, (vals', ROk (c + 1)))
                       else struct_loop_b decs fd depth n' buf c vals'
            | r => (buf, (vals', fail r))
            end in
        if negb (has_byte buf cursor) then (buf, (vals, RErr (ESyntax cursor (WEnd "object"))))
        else
          match decode_string_bytes buf cursor with
          | ROk (key, c) =>
              if negb (has_byte buf c) then (buf, (vals, RErr (ESyntax c (WEnd "object value"))))
              else
                match find_field (match key with Some k => k | None => [] end) decs with
                | Some d =>
                    match nth_error vals (fd_idx d) with
                    | None => (buf, (vals, RPanic PReflect))
                    | Some v0 =>
                        let '(buf', (v, r)) := fd d buf c v0 in
                        let vals' := update vals (fd_idx d) v in
                        match r with
                        | ROk c' => continue buf' vals' c'
                        | r => (buf', (vals', fail r))
                        end
                    end
                | None =>
                    match skip_value buf c depth with
                    | ROk c' => continue buf vals c'
                    | r => (buf, (vals, fail r))
                    end
                end
          | r => (buf, (vals, fail r))
          end
    end.

  (** struct.go:49-147 structDecoder.Decode *)
  Definition dec_struct_b (decs : list fdec) (fd : fdec -> bytes -> Z -> gval -> bres gval)
      (buf : bytes) (cursor depth : Z) (rv : gval) : bres gval :=
    match struct_header buf cursor depth with
    | ROk (HNull c) => (buf, (rv, ROk c))
    | ROk (HBody c) =>
        match rv with
        | VStruct vals =>
            if negb (has_byte buf c) then (buf, (rv, RErr (ESyntax c (WEnd "object"))))
            else
              match rd buf c with
              | ROk b =>
                  if b =b "}"%byte then (buf, (rv, ROk (c + 1)))
                  else
                    let '(buf', (l, r)) := struct_loop_b decs fd (depth + 1) (length buf) buf c vals in
                    (buf', (VStruct l, r))
              | r => (buf, (rv, fail r))
              end
        | _ => (buf, (rv, RPanic PReflect))
        end
    | r => (buf, (rv, fail r))
    end.

  (** ptr.go:30-53 ptrDecoder.Decode *)
  Definition dec_ptr_b (t : gty) (ed : bytes -> Z -> gval -> bres gval) (buf : bytes) (cursor : Z)
      (rv : gval) : bres gval :=
    match rd buf cursor with
    | ROk c =>
        if c =b "N"%byte then
          match validate_null buf cursor with
          | ROk _ => (buf, (VPtr None, ROk (cursor + 2)))
          | r => (buf, (rv, fail r))
          end
        else
          match rv with
          | VPtr o =>
              let '(buf', (v, r)) := ed buf cursor (match o with Some v => v | None => zero E t end) in
              (buf', (VPtr (Some v), r))
          | _ => (buf, (rv, RPanic PReflect))
          end
    | r => (buf, (rv, fail r))
    end.

  (** bytes.go:38-67 bytesDecoder.Decode *)
  Definition dec_bytes_b (sd : bytes -> gval -> bres gval) (buf : bytes) (cursor : Z) (rv : gval) : bres gval :=
    match rd buf cursor with
    | ROk c =>
        if c =b "a"%byte then sd buf rv
        else (buf, dec_text (decode_string_bytes buf cursor) (fun b c _ => (vbytes b, ROk c)) rv)
    | r => (buf, (rv, fail r))
    end.

  (** Decode of the decoder for type [t] *)
  Fixpoint decode_b (fuel : nat) (t : gty) (buf : bytes) (cursor depth : Z) (rv : gval) {struct fuel} : bres gval :=
    match fuel with
    | O => (buf, (rv, RFuel))
    | S f =>
        let elem et := fun buf c v => decode_b f et buf c (depth + 1) v in
        match node_of E t with
        | NUnm n => dec_unm_b n buf cursor depth rv
        | NIface => dec_iface_b buf cursor depth rv
        | NBytes et => dec_bytes_b (fun buf => dec_slice_b et (elem et) buf cursor depth) buf cursor rv
        | NSlice et => dec_slice_b et (elem et) buf cursor depth rv
        | NArray n et => dec_array_b n et (elem et) buf cursor depth rv
        | NMap kt vt =>
            dec_map_b (fun buf c => dec_key_b kt buf c (depth + 1))
                      (fun buf c => decode_b f vt buf c (depth + 1) (zero E vt))
                      buf cursor depth rv
        | NStruct _ fs =>
            dec_struct_b (field_decs X E 0 fs)
              (fun d buf c v =>
                 if fd_str d then
                   match node_of E (fd_ty d) with
                   | NPtr t' => (buf, dec_ptr E t' (fun c v => dec_wrapped X (node_of E t') buf c v) buf c v)
                   | nd => (buf, dec_wrapped X nd buf c v)
                   end
                 else elem (fd_ty d) buf c v)
              buf cursor depth rv
        | NPtr t' =>
            match kind_of E t' with
            | KPtr _ => (buf, (rv, RErr (EUnsupportedType t)))
            | _ => dec_ptr_b t' (fun buf c v => decode_b f t' buf c depth v) buf cursor rv
            end
        | _ => (buf, decode_f X E (S f) t buf cursor depth rv)   (* calls no method *)
        end
    end.

  (** unmarshal.go:23-63 Unmarshal: what becomes of the private copy, with the
      destination and the outcome *)
  Definition unmarshal_b (cfuel : nat) (data : bytes) (tg : target) : bytes * (gval * R unit) :=
    match data with
    | [] => (data, (pointee tg, RErr EEmpty))
    | _ =>
        match tg with
        | TgNil => (data, (VOther, RPanic PReflect))
        | TgVal t _ => (data, (pointee tg, RErr (EInvalidTarget t)))
        | TgNilPtr t => (data, (pointee tg, RErr (EInvalidTarget (TPtr t))))
        | TgPtr t v =>
            match compile_f X E cfuel [] t with
            | ROk _ =>
                let '(src, (v', r)) := decode_b (decode_fuel data) t data 0 0 v in
                (src, (v', c <- r ;; validate_end src c))
            | r => (data, (v, r))
            end
        end
    end.
End Buf.
