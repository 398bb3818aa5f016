(** The buffer operations of every encoder: for each function of Encode.v, the
    script (Pool.v) of what it does to its output, in the order of the code.

    Encode.v says which bytes an encoder appends; here every [append], every
    struct buffer taken from the pool, every use of the context's small buffer
    and every call of a MarshalPHP method is recorded.  Consecutive appends of
    fixed pieces to the same buffer are one [Emit]. *)
From Coq Require Import Strings.String Strings.Byte ZArith List Bool Floats.SpecFloat.
From Verif Require Import Base GoTypes Strconv Tags Memory EncCompile Encode Pool.
Import ListNotations.
Open Scope Z_scope.

(** A computation that also leaves a script. *)
Definition W (A : Type) : Type := st -> st * R A * list cmd.
Definition wret {A} (a : A) : W A := fun s => (s, ROk a, []).
Definition emit (x : bytes) : W unit := fun s => (s, ROk tt, [Emit x]).
(** [return b, err], or a panic *)
Definition wlift {A} (r : R A) : W A := fun s =>
  (s, r, match r with RErr e => [Fail e] | RPanic p => [Crash p] | _ => [] end).
Definition wbind {A B} (m : W A) (k : A -> W B) : W B := fun s =>
  match m s with
  | (s', ROk a, tr) => let '(s'', r, tr') := k a s' in (s'', r, tr ++ tr')
  | (s', RErr e, tr) => (s', RErr e, tr)
  | (s', RPanic p, tr) => (s', RPanic p, tr)
  | (s', RFuel, tr) => (s', RFuel, tr)
  end.
Notation "x <-- e ;; k" := (wbind e (fun x => k)) (at level 61, e at next level, right associativity).
Notation "e ;;; k" := (wbind e (fun _ => k)) (at level 61, right associativity).
Definition wbad {A} : W A := wlift (RPanic PReflect).

Section Script.
  Context (X : Ext) (E : env) (H : heap) (ord : nat -> list (hval * hval) -> list (hval * hval)).
  (** What MarshalPHP does when called by the encoder of type [t] on [v]: it may
      call Marshal itself. *)
  Context (method : gty -> hval -> cmd).

  (** float.go:82-128: the digits go to ctx.smallBuffer first, then to the output *)
  Definition w_float_str (single : bool) (f : spec_float) : W unit := fun s =>
    let buf := x_fmt X (float_format single f) single f in
    (s, ROk tt, [Small (out_string_head (blen buf) ++ bs """") buf (bs """;")]).

  (** marshal_php.go:15-20 *)
  Definition w_method (t : gty) (v : hval) : W unit := fun s =>
    match call_marshal X E H t v with
    | ROk _ => (s, ROk tt, [method t v])
    | RErr e => (s, RErr e, [method t v])
    | RPanic p => (s, RPanic p, [method t v])
    | RFuel => (s, RFuel, [])
    end.

  (** the encoders of scalars: see [enc_scalar] *)
  Definition w_scalar (k : kind) (v : hval) : W unit :=
    match k, v with
    | KBool, HBool b => emit (out_bool b)
    | KInt k, HInt z => if int_ok k z then emit (out_int z) else wbad
    | KUint UPtr, _ => wbad
    | KUint k, HUint z => if uint_ok k z then emit (out_uint z) else wbad
    | KF32, HF32 f => emit (out_float X true f)
    | KF64, HF64 f => emit (out_float X false f)
    | KString, HStr s => emit (out_string s)
    | _, _ => wbad
    end.

  (** ptr.go:58-76 and 86-105; interface.go:58-67: no output *)
  Definition w_rec (t : gty) (a : addr) (body : W unit) : W unit := fun s =>
    let d := depth s + 1 in
    if 1000 <? d then
      if has a (seen s) then (s, RErr (EMarshal (CRecursive t)), [Fail (EMarshal (CRecursive t))])
      else
        let '(s', r, tr) := body (St (a :: seen s) d (iters s)) in
        (St (drop a (seen s')) (depth s' - 1) (iters s'), r, tr)
    else
      let '(s', r, tr) := body (St (seen s) d (iters s)) in
      (St (seen s') (depth s' - 1) (iters s'), r, tr).
  Definition w_seen (t : gty) (a : addr) (body : W unit) : W unit := fun s =>
    if has a (seen s) then (s, RErr (EMarshal (CRecursive t)), [Fail (EMarshal (CRecursive t))])
    else
      let '(s', r, tr) := body (St (a :: seen s) (depth s) (iters s)) in
      (St (drop a (seen s')) (depth s') (iters s'), r, tr).

  (** slice.go:21-33, slice_reflect.go:25-35, array.go:26-37: the header first *)
  Fixpoint w_elems (enc : hval -> W unit) (i : Z) (l : list hval) : W unit :=
    match l with
    | [] => wret tt
    | v :: l' => emit (out_int i) ;;; enc v ;;; w_elems enc (i + 1) l'
    end.
  Definition w_seq (enc : hval -> W unit) (l : list hval) : W unit :=
    emit (out_array_begin (blen l)) ;;; w_elems enc 0 l ;;; emit (bs "}").

  (** compile.go:53-64 *)
  Definition w_key (kk : kind) (k : hval) : W unit :=
    if enc_key_kind kk then w_scalar kk k else wlift (RErr (EMarshal (CKey TOther))).
  (** map.go:43-61, map_reflect.go:61-79 and 109-127 *)
  Fixpoint w_pairs (kk : kind) (enc : hval -> W unit) (l : list (hval * hval)) : W unit :=
    match l with
    | [] => wret tt
    | (k, v) :: l' => w_key kk k ;;; enc v ;;; w_pairs kk enc l'
    end.
  Definition w_range (m : list (hval * hval)) : W (list (hval * hval)) := fun s =>
    (St (seen s) (depth s) (S (iters s)), ROk (ord (iters s) m), []).
  Definition w_map (kk : kind) (enc : hval -> W unit) (m : list (hval * hval)) : W unit :=
    emit (out_array_begin (blen m)) ;;; l <-- w_range m ;; w_pairs kk enc l ;;; emit (bs "}").

  (** interface.go:75-120 *)
  Fixpoint w_iface_str (fuel : nat) (t : gty) (v : hval) : W unit :=
    match fuel with
    | O => wlift RFuel
    | S f =>
        match kind_of E t, v with
        | KPtr _, HPtr None => emit out_null
        | KPtr t', HPtr (Some (o, i)) =>
            match cell H o i with Some c => w_iface_str f t' c | None => wbad end
        | (KAny | KIface _), HIface None => emit out_null
        | (KAny | KIface _), HIface (Some (t', v')) => w_iface_str f t' v'
        | (KPtr _ | KAny | KIface _), _ => wbad
        | _, _ =>
            match t, v with
            | TBool, HBool b => emit (out_bool_str b)
            | TUint UPtr, _ => wlift (RErr (EMarshal (CAsString t)))
            | TUint k, HUint z => if uint_ok k z then emit (out_uint_str z) else wbad
            | TInt k, HInt z => if int_ok k z then emit (out_int_str z) else wbad
            | TF32, HF32 x => w_float_str true x
            | TF64, HF64 x => w_float_str false x
            | (TBool | TUint _ | TInt _ | TF32 | TF64), _ => wbad
            | _, _ => wlift (RErr (EMarshal (CAsString t)))
            end
        end
    end.

  (** compile.go:66-85 *)
  Definition w_as_string (fuel : nat) (t : gty) (v : hval) : W unit :=
    match kind_of E t, v with
    | KBool, HBool b => emit (out_bool_str b)
    | KInt k, HInt z => if int_ok k z then emit (out_int_str z) else wbad
    | KUint k, HUint z => if uint_ok k z then emit (out_uint_str z) else wbad
    | KF32, HF32 f => w_float_str true f
    | KF64, HF64 f => w_float_str false f
    | KString, HStr s => emit (out_string s)
    | (KAny | KIface _), _ => w_iface_str fuel t v
    | _, _ => wbad
    end.

  (** struct.go:85-100 and 137-164 *)
  Definition w_field (fuel : nat) (enc : gty -> hval -> W unit) (f : field) (v : hval) : W unit :=
    let str := tag_string (tag_of X f) in
    match kind_of E (f_ty f) with
    | KPtr t' =>
        match v with
        | HPtr None => emit out_null
        | HPtr (Some (o, i)) =>
            match cell H o i with
            | None => wbad
            | Some c =>
                if str then w_as_string fuel t' c
                else if struct_kind (kind_of E t') then w_rec (f_ty f) (cell_at X o i) (enc t' c)
                else enc t' c
            end
        | _ => wbad
        end
    | _ => if str then w_as_string fuel (f_ty f) v else enc (f_ty f) v
    end.
  (** struct.go:74-100: what goes to structBuffer, and the number of fields *)
  Fixpoint w_fields (fuel : nat) (enc : gty -> hval -> W unit) (fs : list field) (l : list hval) : W Z :=
    match fs, l with
    | [], [] => wret 0
    | f :: fs', v :: l' =>
        if enc_skipped X f then w_fields fuel enc fs' l'
        else if tag_omitempty (tag_of X f) && hzero v then w_fields fuel enc fs' l'
        else
          emit (out_string (enc_name X f)) ;;; w_field fuel enc f v ;;;
          n <-- w_fields fuel enc fs' l' ;; wret (n + 1)
    | _, _ => wbad
    end.
  (** struct.go:63-107: the fields go to a buffer of their own, taken from the
      pool; the header, which needs their number, is written when they are done *)
  Definition w_struct (fuel : nat) (enc : gty -> hval -> W unit) (fs : list field) (l : list hval) : W unit := fun s =>
    match w_fields fuel enc fs l s with
    | (s', ROk n, body) => (s', ROk tt, [Struct (out_array_begin n) body])
    | (s', RErr e, body) => (s', RErr e, [Struct [] body])        (* the header is never written *)
    | (s', RPanic p, body) => (s', RPanic p, [Struct [] body])
    | (s', RFuel, body) => (s', RFuel, [Struct [] body])
    end.

  (** compileWithCache at run time *)
  Definition w_compile (fuel : nat) (t : gty) : W unit :=
    _ <-- wlift (ecompile_f X E fuel false [] t) ;; wret tt.

  (** See [enc_f]. *)
  Fixpoint w_f (fuel : nat) (m : mode) (t : gty) (v : hval) {struct fuel} : W unit :=
    match fuel with
    | O => wlift RFuel
    | S f =>
        match m with
        | MType =>
            if implements E t then w_method t v
            else if is_bytes t then
              match byte_slice H v with Some b => emit (out_string b) | None => wbad end
            else w_f f MShape t v
        | MShape =>
            match kind_of E t with
            | KStruct _ fs =>
                match v with HStruct l => w_struct f (w_f f MType) fs l | _ => wbad end
            | KArray n t' =>
                match v with
                | HArr l => if Nat.eqb (length l) n then w_seq (w_f f MType t') l else wbad
                | _ => wbad
                end
            | KSlice t' =>
                match v with
                | HSlice None => emit out_null
                | HSlice (Some (o, i, n)) =>
                    match cells H o i n with
                    | Some l => w_rec t (cell_at X o i) (w_seq (w_f f MType t') l)
                    | None => wbad
                    end
                | _ => wbad
                end
            | KMap kt vt =>
                match v with
                | HMap None => emit out_null
                | HMap (Some o) =>
                    match entries H o with
                    | Some m => w_rec t (map_at X o) (w_map (kind_of E kt) (w_f f MType vt) m)
                    | None => wbad
                    end
                | _ => wbad
                end
            | KAny | KIface _ => w_f f MIface t v
            | KPtr t' =>
                if iface_kind (kind_of E t') then w_f f MIface t v
                else
                  match v with
                  | HPtr None => emit out_null
                  | HPtr (Some (o, i)) =>
                      match cell H o i with
                      | None => wbad
                      | Some c =>
                          if struct_kind (kind_of E t') then w_rec t (cell_at X o i) (w_f f MShape t' c)
                          else if ptr_direct (kind_of E t') then w_f f MShape t' c
                          else w_f f MType t' c
                      end
                  | _ => wbad
                  end
            | k => if enc_scalar_kind k then w_scalar k v else wlift (RErr (EMarshal (CType t)))
            end
        | MIface =>
            match kind_of E t with
            | KPtr t' =>
                match v with
                | HPtr None => emit out_null
                | HPtr (Some (o, i)) =>
                    match cell H o i with Some c => w_f f MIface t' c | None => wbad end
                | _ => wbad
                end
            | KAny | KIface _ =>
                match v with
                | HIface None => emit out_null
                | HIface (Some (t', v')) => w_f f MIface t' v'
                | _ => wbad
                end
            | KSlice t' =>
                match v with
                | HSlice None =>
                    if iface_kind (kind_of E t') then emit out_null
                    else (w_compile f t ;;; w_f f MType t v)
                | HSlice (Some (o, i, n)) =>
                    w_seen t (cell_at X o i)
                      (if iface_kind (kind_of E t') then
                         match cells H o i n with Some l => w_seq (w_f f MIface t') l | None => wbad end
                       else (w_compile f t ;;; w_f f MType t v))
                | _ => wbad
                end
            | KMap kt vt =>
                match v with
                | HMap None =>
                    if enc_key_kind (kind_of E kt) then emit out_null else wlift (RErr (EMarshal (CKey kt)))
                | HMap (Some o) =>
                    w_seen t (map_at X o)
                      (if enc_key_kind (kind_of E kt) then
                         match entries H o with
                         | None => wbad
                         | Some [] => emit out_empty
                         | Some m =>
                             if iface_kind (kind_of E vt) then w_map (kind_of E kt) (w_f f MIface vt) m
                             else (w_compile f vt ;;; w_map (kind_of E kt) (w_f f MType vt) m)
                         end
                       else wlift (RErr (EMarshal (CKey kt))))
                | _ => wbad
                end
            | KStruct _ _ => w_compile f t ;;; w_f f MType t v
            | k => if enc_scalar_kind k then w_scalar k v else wlift (RErr (EMarshal (CInside t)))
            end
        end
    end.

  (** marshal.go:25-37: encode; 7-23: Marshal, whose own use of the context is in
      Pool.v.  [None]: the bound [fuel] is too small. *)
  Definition script (fuel : nat) (s : st) (t : gty) (v : hval) : option (list cmd) :=
    match (w_compile fuel t ;;; w_f fuel MType t v) s with
    | (_, RFuel, _) => None
    | (_, _, tr) => Some tr
    end.

  (** MarshalPHP, as the encoder of [t] calls it, does [method t v] and comes out
      as [call_marshal] (Encode.v) says. *)
  Definition method_scripts : Prop := forall t v,
    match call_marshal X E H t v with
    | ROk b => result (method t v) = Good b
    | RErr e => result (method t v) = Bad e
    | RPanic p => result (method t v) = Panics p
    | RFuel => True
    end.
End Script.
