(** Model of the encoder: internal/encoder/*.go.

    Marshal walks values in memory ([hval] in a [heap]): slices, maps and
    pointers are addresses, so sharing and cycles are real.  An encoder is the
    interpretation of a type; it appends bytes (here: returns the bytes it
    appends) and uses the context's Seen set and StackDepth. *)
From Coq Require Import Strings.String Strings.Byte ZArith List Bool Floats.SpecFloat.
From Verif Require Import Base GoTypes Strconv Tags Memory EncCompile.
Import ListNotations.
Open Scope Z_scope.

(** ** State *)

(** context.go:20-25 Ctx (Seen and StackDepth; the buffers are the subject of
    Pool.v), and the number of map iterations begun: map iteration order is
    chosen anew by the runtime each time. *)
Record st := St { seen : list addr; depth : Z; iters : nat }.
Definition st0 : st := St [] 0 0.

(** A computation returning [(A, error)], or panicking, or diverging. *)
Definition M (A : Type) : Type := st -> st * R A.
Definition ret {A} (a : A) : M A := fun s => (s, ROk a).
Definition stop {A} (r : R A) : M A := fun s => (s, r).
Definition lift {A} (r : R A) : M A := fun s => (s, r).
Definition bindM {A B} (m : M A) (k : A -> M B) : M B := fun s =>
  match m s with
  | (s', ROk a) => k a s'
  | (s', RErr e) => (s', RErr e)
  | (s', RPanic p) => (s', RPanic p)
  | (s', RFuel) => (s', RFuel)
  end.
Notation "x <== e ;; k" := (bindM e (fun x => k)) (at level 61, e at next level, right associativity).

(** ctx.Seen[p], delete(ctx.Seen, p) *)
Definition has (a : addr) (l : list addr) : bool := existsb (Z.eqb a) l.
Definition drop (a : addr) (l : list addr) : list addr := filter (fun b => negb (a =? b)) l.

(** ** Zero values *)

(** reflect.Value.IsZero (Go 1.22 and later: -0.0 is zero; go.mod asks for 1.25) *)
Fixpoint hzero (v : hval) : bool :=
  match v with
  | HBool b => negb b
  | HInt z | HUint z => z =? 0
  | HF32 f | HF64 f => SFeqb f (S754_zero false)
  | HStr s => match s with [] => true | _ => false end
  | HSlice None | HMap None | HPtr None | HIface None => true
  | HSlice (Some _) | HMap (Some _) | HPtr (Some _) | HIface (Some _) => false
  | HArr l | HStruct l => forallb hzero l
  | HOther z => z       (* not encodable, but a struct that has an unexported one may be *)
  end.

(** ** Output *)

(** common.go:9-11 *)
Definition out_null : bytes := bs "N;".
(** common.go:5-7 *)
Definition out_empty : bytes := bs "a:0:{}".
(** common.go:13-17 appendStringHead *)
Definition out_string_head (n : Z) : bytes := bs "s:" ++ append_int n ++ bs ":".
(** common.go:19-23 appendArrayBegin *)
Definition out_array_begin (n : Z) : bytes := bs "a:" ++ append_int n ++ bs ":{".
(** int.go:8-10 encodeInt, 12-16 appendIntBytes *)
Definition out_int (z : Z) : bytes := bs "i:" ++ append_int z ++ bs ";".
(** uint.go:8-12 encodeUint *)
Definition out_uint (z : Z) : bytes := bs "i:" ++ append_uint z ++ bs ";".
(** bool.go:7-16 encodeBool *)
Definition out_bool (b : bool) : bytes := bs "b:" ++ (if b then bs "1" else bs "0") ++ bs ";".
(** string.go:11-22 encodeString, appendPhpStringVariable; bytes.go:10-17 encodeBytes *)
Definition out_string (s : bytes) : bytes :=
  bs "s:" ++ append_int (blen s) ++ bs ":""" ++ s ++ bs """;".

(** float.go:27-33, 46-51, 94-100, 114-119: 'e' for a non-zero magnitude below
    1e-6 or at least 1e21.  The constants are 1e-6 and 1e21 as float64 and as
    float32.  NaN satisfies [abs != 0] and neither comparison. *)
Definition f64_1e6m : spec_float := S754_finite false 4722366482869645 (-72).
Definition f64_1e21 : spec_float := S754_finite false 7629394531250000 17.
Definition f32_1e6m : spec_float := S754_finite false 8796093 (-43).
Definition f32_1e21 : spec_float := S754_finite false 14210855 46.
Definition float_format (single : bool) (f : spec_float) : byte :=
  let x := SFabs f in
  let lo := if single then f32_1e6m else f64_1e6m in
  let hi := if single then f32_1e21 else f64_1e21 in
  if negb (SFeqb x (S754_zero false)) && (SFltb x lo || SFleb hi x) then "e"%byte else "f"%byte.

(** float.go:10-18 encodeFloat32/encodeFloat64, 20-69 appendFloat32/appendFloat64 *)
Definition out_float (X : Ext) (single : bool) (f : spec_float) : bytes :=
  match f with
  | S754_nan => bs "d:NAN;"
  | S754_infinity false => bs "d:INF;"
  | S754_infinity true => bs "d:-INF;"
  | _ => bs "d:" ++ x_fmt X (float_format single f) single f ++ bs ";"
  end.

(** bool_as_string.go:7-13 compileBoolAsString, encodeBoolAsString, 15-20 appendBoolAsString *)
Definition out_bool_str (b : bool) : bytes :=
  if b then bs "s:4:""true"";" else bs "s:5:""false"";".

(** int_as_string.go:53-65 iterativeDigitsCount: the loop; a 64-bit number has
    at most 19 digits *)
Fixpoint digits_loop (fuel : nat) (number count : Z) : Z :=
  match fuel with
  | O => count
  | S f => if number =? 0 then count else digits_loop f (Z.quot number 10) (count + 1)
  end.
Definition int_digits (number : Z) : Z :=
  digits_loop 20 number (if number <=? 0 then 1 else 0).
(** uint_at_string.go:24-36 uintDigitsCount *)
Definition uint_digits (number : Z) : Z :=
  if number =? 0 then 1 else digits_loop 20 number 0.
(** int_as_string.go:9-44: the encoder for each width, all of them the same; 46-51
    appendIntAsString *)
Definition out_int_str (z : Z) : bytes :=
  out_string_head (int_digits z) ++ bs """" ++ append_int z ++ bs """;".
(** uint_at_string.go:8-14 compileUintAsString, encodeUintAsString, 16-22 appendUintAsString *)
Definition out_uint_str (z : Z) : bytes :=
  out_string_head (uint_digits z) ++ bs """" ++ append_uint z ++ bs """;".
(** float.go:71-88 compileFloatAsString and its encoders, 90-128
    appendFloat32AsString/appendFloat64AsString *)
Definition out_float_str (X : Ext) (single : bool) (f : spec_float) : bytes :=
  let buf := x_fmt X (float_format single f) single f in
  out_string_head (blen buf) ++ bs """" ++ buf ++ bs """;".

(** ** Encoders *)

Section Encode.
  Context (X : Ext) (E : env) (H : heap) (ord : nat -> list (hval * hval) -> list (hval * hval)).

  (** A value of the wrong shape for its type (including a number its kind
      cannot hold), or a dangling address: cannot happen in Go; reflect would
      panic. *)
  Definition bad {A} : M A := stop (RPanic PReflect).

  (** The numbers a signed or unsigned kind can hold. *)
  Definition int_ok (k : ikind) (z : Z) : bool :=
    (- 2 ^ (ibits k - 1) <=? z) && (z <? 2 ^ (ibits k - 1)).
  Definition uint_ok (k : ukind) (z : Z) : bool := (0 <=? z) && (z <? 2 ^ ubits k).

  (** encodeBool/Int/Uint/Float32/Float64/String, chosen by kind *)
  Definition enc_scalar (k : kind) (v : hval) : M bytes :=
    match k, v with
    | KBool, HBool b => ret (out_bool b)
    | KInt k, HInt z => if int_ok k z then ret (out_int z) else bad
    | KUint UPtr, _ => bad                        (* never chosen for uintptr *)
    | KUint k, HUint z => if uint_ok k z then ret (out_uint z) else bad
    | KF32, HF32 f => ret (out_float X true f)
    | KF64, HF64 f => ret (out_float X false f)
    | KString, HStr s => ret (out_string s)
    | _, _ => bad
    end.

  (** marshal_php.go:13-22 [rv.Interface().(Marshaler).MarshalPHP()]: on a nil
      interface the type assertion panics; a value method called through a nil
      pointer panics. *)
  Definition call_method (t : gty) (v : hval) : R bytes :=
    match t with
    | TName n => x_marshal X n false H v
    | TPtr (TName n) =>
        match nth_error E n with
        | Some d =>
            match d_marshal d, v with
            | PointerRecv, HPtr _ => x_marshal X n true H v
            | ValueRecv, HPtr None => RPanic PNilDeref
            | ValueRecv, HPtr (Some (o, i)) =>
                match cell H o i with Some c => x_marshal X n false H c | None => RPanic PReflect end
            | _, _ => RPanic PReflect
            end
        | None => RPanic PReflect
        end
    | _ => RPanic PReflect
    end.
  Definition call_marshal (t : gty) (v : hval) : R bytes :=
    if iface_kind (kind_of E t) then
      match v with
      | HIface None => RPanic PNilDeref
      | HIface (Some (t', v')) =>
          (* an interface never holds an interface *)
          if iface_kind (kind_of E t') then RPanic PReflect else call_method t' v'
      | _ => RPanic PReflect
      end
    else call_method t v.

  (** ptr.go:58-76 and 86-105: one more level; from the 1001st on, the address
      is recorded and must not be recorded already *)
  Definition check_rec (t : gty) (a : addr) (body : M bytes) : M bytes := fun s =>
    let d := depth s + 1 in
    if 1000 <? d then
      if has a (seen s) then (s, RErr (EMarshal (CRecursive t)))
      else
        let '(s', r) := body (St (a :: seen s) d (iters s)) in
        (St (drop a (seen s')) (depth s' - 1) (iters s'), r)
    else
      let '(s', r) := body (St (seen s) d (iters s)) in
      (St (seen s') (depth s' - 1) (iters s'), r).

  (** interface.go:58-67 reflectRecursiveValue on a non-nil value *)
  Definition check_seen (t : gty) (a : addr) (body : M bytes) : M bytes := fun s =>
    if has a (seen s) then (s, RErr (EMarshal (CRecursive t)))
    else
      let '(s', r) := body (St (a :: seen s) (depth s) (iters s)) in
      (St (drop a (seen s')) (depth s') (iters s'), r).

  (** slice.go:24-31, slice_reflect.go:27-33, array.go:29-35 *)
  Fixpoint enc_elems (enc : hval -> M bytes) (i : Z) (l : list hval) : M bytes :=
    match l with
    | [] => ret []
    | v :: l' =>
        b <== enc v ;;
        b' <== enc_elems enc (i + 1) l' ;;
        ret (out_int i ++ b ++ b')
    end.
  Definition enc_seq (enc : hval -> M bytes) (l : list hval) : M bytes :=
    b <== enc_elems enc 0 l ;; ret (out_array_begin (blen l) ++ b ++ bs "}").

  (** compile.go:53-64 compileMapKey: the encoder of a map key, by kind (map.go
      and map_reflect.go never come to it with another kind) *)
  Definition enc_key (kk : kind) (k : hval) : M bytes :=
    if enc_key_kind kk then enc_scalar kk k else stop (RErr (EMarshal (CKey TOther))).

  (** map.go:47-59, map_reflect.go:65-77 and 113-125 *)
  Fixpoint enc_pairs (kk : kind) (enc : hval -> M bytes) (l : list (hval * hval)) : M bytes :=
    match l with
    | [] => ret []
    | (k, v) :: l' =>
        kb <== enc_key kk k ;;
        b <== enc v ;;
        b' <== enc_pairs kk enc l' ;;
        ret (kb ++ b ++ b')
    end.
  (** rv.MapRange(): the entries, in an order chosen by the runtime *)
  Definition range (m : list (hval * hval)) : M (list (hval * hval)) := fun s =>
    (St (seen s) (depth s) (S (iters s)), ROk (ord (iters s) m)).
  Definition enc_map (kk : kind) (enc : hval -> M bytes) (m : list (hval * hval)) : M bytes :=
    l <== range m ;;
    b <== enc_pairs kk enc l ;;
    ret (out_array_begin (blen m) ++ b ++ bs "}").

  (** interface.go:75-120 reflectInterfaceValueAsString *)
  Fixpoint enc_iface_str (fuel : nat) (t : gty) (v : hval) : M bytes :=
    match fuel with
    | O => stop RFuel
    | S f =>
        match kind_of E t, v with
        | KPtr _, HPtr None => ret out_null
        | KPtr t', HPtr (Some (o, i)) =>
            match cell H o i with Some c => enc_iface_str f t' c | None => bad end
        | (KAny | KIface _), HIface None => ret out_null
        | (KAny | KIface _), HIface (Some (t', v')) => enc_iface_str f t' v'
        | (KPtr _ | KAny | KIface _), _ => bad
        | _, _ =>
            match t, v with                       (* the type switch: exact types *)
            | TBool, HBool b => ret (out_bool_str b)
            | TUint UPtr, _ => stop (RErr (EMarshal (CAsString t)))
            | TUint k, HUint z => if uint_ok k z then ret (out_uint_str z) else bad
            | TInt k, HInt z => if int_ok k z then ret (out_int_str z) else bad
            | TF32, HF32 x => ret (out_float_str X true x)
            | TF64, HF64 x => ret (out_float_str X false x)
            | (TBool | TUint _ | TInt _ | TF32 | TF64), _ => bad
            | _, _ => stop (RErr (EMarshal (CAsString t)))
            end
        end
    end.

  (** compile.go:66-85 compileAsString: the encoder chosen by kind *)
  Definition enc_as_string (fuel : nat) (t : gty) (v : hval) : M bytes :=
    match kind_of E t, v with
    | KBool, HBool b => ret (out_bool_str b)
    | KInt k, HInt z => if int_ok k z then ret (out_int_str z) else bad
    | KUint k, HUint z => if uint_ok k z then ret (out_uint_str z) else bad
    | KF32, HF32 f => ret (out_float_str X true f)
    | KF64, HF64 f => ret (out_float_str X false f)
    | KString, HStr s => ret (out_string s)
    | (KAny | KIface _), _ => enc_iface_str fuel t v
    | _, _ => bad
    end.

  (** struct_field.go:30-32 Name *)
  Definition enc_name (f : field) : bytes :=
    match tag_key (tag_of X f) with [] => f_name f | k => k end.

  (** struct.go:85-100 and 137-164: the value of one field.  [enc] is the
      encoder of a type. *)
  Definition enc_field (fuel : nat) (enc : gty -> hval -> M bytes) (f : field) (v : hval) : M bytes :=
    let str := tag_string (tag_of X f) in
    match kind_of E (f_ty f) with
    | KPtr t' =>
        match v with
        | HPtr None => ret out_null
        | HPtr (Some (o, i)) =>
            match cell H o i with
            | None => bad
            | Some c =>
                if str then enc_as_string fuel t' c
                else if struct_kind (kind_of E t') then check_rec (f_ty f) (cell_at X o i) (enc t' c)
                else enc t' c
            end
        | _ => bad
        end
    | _ => if str then enc_as_string fuel (f_ty f) v else enc (f_ty f) v
    end.

  (** struct.go:74-100: names and values of the fields written, and their number *)
  Fixpoint enc_fields (fuel : nat) (enc : gty -> hval -> M bytes) (fs : list field) (l : list hval)
      : M (Z * bytes) :=
    match fs, l with
    | [], [] => ret (0, [])
    | f :: fs', v :: l' =>
        if enc_skipped X f then enc_fields fuel enc fs' l'
        else if tag_omitempty (tag_of X f) && hzero v then enc_fields fuel enc fs' l'
        else
          b <== enc_field fuel enc f v ;;
          r <== enc_fields fuel enc fs' l' ;;
          ret (fst r + 1, out_string (enc_name f) ++ b ++ snd r)
    | _, _ => bad
    end.
  (** struct.go:102-106 *)
  Definition enc_struct (fuel : nat) (enc : gty -> hval -> M bytes) (fs : list field) (l : list hval)
      : M bytes :=
    r <== enc_fields fuel enc fs l ;; ret (out_array_begin (fst r) ++ snd r ++ bs "}").

  (** compileWithCache at run time (slice_reflect.go:39, map_reflect.go:96,
      struct_reflect.go:8): failure of the compilation is returned *)
  Definition compile_now (fuel : nat) (t : gty) : M unit :=
    _ <== lift (ecompile_f X E fuel false [] t) ;; ret tt.

  (** The three ways a value can be encoded:
      - [MType]: by the encoder compiled for its type (compile.go:14-51);
      - [MShape]: the same from compile.go:23 on, i.e. by kind, which is where
        ptr.go:12-32 goes directly for the element types it lists;
      - [MIface]: by reflectInterfaceValue (interface.go:16-56), which looks at
        the dynamic type; following a pointer or interface is a recursive call. *)
  Inductive mode := MType | MShape | MIface.

  Fixpoint enc_f (fuel : nat) (m : mode) (t : gty) (v : hval) {struct fuel} : M bytes :=
    match fuel with
    | O => stop RFuel
    | S f =>
        match m with
        | MType =>
            if implements E t then lift (call_marshal t v)          (* compile.go:15-17 *)
            else if is_bytes t then                                 (* 19-21 *)
              match byte_slice H v with Some b => ret (out_string b) | None => bad end
            else enc_f f MShape t v
        | MShape =>
            match kind_of E t with
            | KStruct _ fs =>
                (* struct.go:27-29, 31-55, 72-107 *)
                match v with HStruct l => enc_struct f (enc_f f MType) fs l | _ => bad end
            | KArray n t' =>                                          (* array.go:7-39 *)
                match v with
                | HArr l => if Nat.eqb (length l) n then enc_seq (enc_f f MType t') l else bad
                | _ => bad
                end
            | KSlice t' =>                                            (* slice.go:7-36 *)
                match v with
                | HSlice None => ret out_null
                | HSlice (Some (o, i, n)) =>
                    match cells H o i n with
                    | Some l => check_rec t (cell_at X o i) (enc_seq (enc_f f MType t') l)
                    | None => bad
                    end
                | _ => bad
                end
            | KMap kt vt =>                                           (* map.go:8-65 *)
                match v with
                | HMap None => ret out_null
                | HMap (Some o) =>
                    match entries H o with
                    | Some m => check_rec t (map_at X o) (enc_map (kind_of E kt) (enc_f f MType vt) m)
                    | None => bad
                    end
                | _ => bad
                end
            | KAny | KIface _ => enc_f f MIface t v                    (* interface.go:10-14 *)
            | KPtr t' =>
                if iface_kind (kind_of E t') then enc_f f MIface t v          (* ptr.go:24-25 *)
                else
                  match v with
                  | HPtr None => ret out_null
                  | HPtr (Some (o, i)) =>
                      match cell H o i with
                      | None => bad
                      | Some c =>
                          if struct_kind (kind_of E t') then check_rec t (cell_at X o i) (enc_f f MShape t' c)
                          else if ptr_direct (kind_of E t') then enc_f f MShape t' c
                          else enc_f f MType t' c
                      end
                  | _ => bad
                  end
            | k => if enc_scalar_kind k then enc_scalar k v else stop (RErr (EMarshal (CType t)))
            end
        | MIface =>
            match kind_of E t with
            | KPtr t' =>                                              (* 20-24 *)
                match v with
                | HPtr None => ret out_null
                | HPtr (Some (o, i)) =>
                    match cell H o i with Some c => enc_f f MIface t' c | None => bad end
                | _ => bad
                end
            | KAny | KIface _ =>
                match v with
                | HIface None => ret out_null
                | HIface (Some (t', v')) => enc_f f MIface t' v'
                | _ => bad
                end
            | KSlice t' =>                                            (* 48, slice_reflect.go:7-45 *)
                (* a nil slice is put into Seen under the nil pointer and taken
                   out again, with nothing encoded in between *)
                match v with
                | HSlice None =>
                    if iface_kind (kind_of E t') then ret out_null
                    else (_ <== compile_now f t ;; enc_f f MType t v)
                | HSlice (Some (o, i, n)) =>
                    check_seen t (cell_at X o i)
                      (if iface_kind (kind_of E t') then
                         match cells H o i n with Some l => enc_seq (enc_f f MIface t') l | None => bad end
                       else (_ <== compile_now f t ;; enc_f f MType t v))
                | _ => bad
                end
            | KMap kt vt =>                                           (* 50, map_reflect.go:9-128 *)
                match v with
                | HMap None =>
                    if enc_key_kind (kind_of E kt) then ret out_null else stop (RErr (EMarshal (CKey kt)))
                | HMap (Some o) =>
                    check_seen t (map_at X o)
                      (if enc_key_kind (kind_of E kt) then
                         match entries H o with
                         | None => bad
                         | Some [] => ret out_empty
                         | Some m =>
                             if iface_kind (kind_of E vt) then enc_map (kind_of E kt) (enc_f f MIface vt) m
                             else (_ <== compile_now f vt ;; enc_map (kind_of E kt) (enc_f f MType vt) m)
                         end
                       else stop (RErr (EMarshal (CKey kt))))
                | _ => bad
                end
            | KStruct _ _ => _ <== compile_now f t ;; enc_f f MType t v     (* 52, struct_reflect.go:7-14 *)
            | k => if enc_scalar_kind k then enc_scalar k v else stop (RErr (EMarshal (CInside t)))
            end
        end
    end.

  (** marshal.go:25-37 encode and 7-23 Marshal.  [None] is an untyped nil
      argument.  The context comes from a pool (context.go:27-36): [s] is the
      one the call got, and the one it gives back is returned. *)
  Definition marshal (fuel : nat) (s : st) (arg : option (gty * hval)) : st * R bytes :=
    match arg with
    | None => (s, ROk out_null)
    | Some (t, v) => (_ <== compile_now fuel t ;; enc_f fuel MType t v) s
    end.
End Encode.
