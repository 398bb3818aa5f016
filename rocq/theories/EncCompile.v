(** Model of the encoder's compilation of types:
    internal/encoder/compile.go, struct.go:31-54 and 110-169, slice.go:7-19,
    map.go:8-36, array.go:7-23, ptr.go:8-40, marshal_php.go.

    Only success, failure and divergence of compilation are modelled here: the
    closure a compilation returns is determined by the type, and Encode.v
    interprets the type directly. *)
From Coq Require Import Strings.String Strings.Byte ZArith List Bool.
From Verif Require Import Base GoTypes Tags.
Import ListNotations.
Open Scope Z_scope.

(** compile.go:15 [rt.Implements(marshalerType)]: a declared type with a value
    receiver method, a pointer to a declared type with either receiver, an
    interface type with the method. *)
Definition implements (E : env) (t : gty) : bool :=
  match t with
  | TName n =>
      match nth_error E n with
      | Some d =>
          match d_marshal d, d_under d with
          | ValueRecv, _ => true
          | _, UTy (TIface m) => m
          | _, _ => false
          end
      | None => false
      end
  | TPtr (TName n) =>
      match nth_error E n with
      | Some d => match d_marshal d with NoMethod => false | _ => true end
      | None => false
      end
  | TIface m => m
  | _ => false
  end.

(** compile.go:19 [rt == bytesType]: exactly []byte, not a type whose
    underlying type is []byte. *)
Definition is_bytes (t : gty) : bool :=
  match t with TSlice (TUint U8) => true | _ => false end.

(** The kinds compile.go:24-35 encodes directly (uintptr is not among them). *)
Definition enc_scalar_kind (k : kind) : bool :=
  match k with
  | KBool | KInt _ | KF32 | KF64 | KString => true
  | KUint UPtr => false
  | KUint _ => true
  | _ => false
  end.

(** map.go:19-25, map_reflect.go:26-32, compile.go:53-64: map key kinds *)
Definition enc_key_kind (k : kind) : bool :=
  match k with
  | KString | KInt _ => true
  | KUint UPtr => false
  | KUint _ => true
  | _ => false
  end.

(** compile.go:66-85 compileAsString *)
Definition as_string_kind (k : kind) : bool := enc_scalar_kind k || iface_kind k.

(** struct.go:116: the field is skipped *)
Definition enc_skipped (X : Ext) (f : field) : bool :=
  bytes_eqb (tag_key (tag_of X f)) (bs "-") || negb (f_exported f).

Definition mem_ty (t : gty) (l : list gty) : bool := existsb (gty_eqb t) l.

(** struct.go:113-166, the loop over fields; [comp] compiles a type.  The
    condition of line 132 never holds for a pointer (a kind is not both Ptr and
    Struct), so only embedded struct values are rejected. *)
Fixpoint ecompile_fields (X : Ext) (E : env)
    (comp : list gty -> gty -> R (list gty)) (seen : list gty) (fs : list field) : R (list gty) :=
  match fs with
  | [] => ROk seen
  | f :: fs' =>
      if enc_skipped X f then ecompile_fields X E comp seen fs'
      else
        let k := kind_of E (f_ty f) in
        let target := match k with KPtr t' => t' | _ => f_ty f end in
        if (match k with KPtr t' => ptr_kind (kind_of E t') | _ => false end) then RErr (EMarshal (CFieldPtr (f_ty f)))
        else if f_anon f && struct_kind k then RErr (EMarshal (CEmbedded (f_ty f)))
        else if tag_string (tag_of X f) then
          if as_string_kind (kind_of E target) then ecompile_fields X E comp seen fs'
          else RErr (EMarshal (CString target))
        else
          seen' <- comp seen target ;;
          ecompile_fields X E comp seen' fs'
  end.

(** ptr.go:12-32: element kinds for which compilePtr chooses the encoder by
    kind, without going through compile (so methods are not looked at). *)
Definition ptr_direct (k : kind) : bool :=
  enc_scalar_kind k || struct_kind k || match k with KMap _ _ => true | _ => false end.

(** compile.go:14-51 compile; with [direct], only from line 23 on (compileStruct,
    compileMap or a scalar encoder called from compilePtr).  [seen] is
    compileSeenMap: the struct, slice and map types met so far in this
    compilation; the Go map is shared, so it is threaded.  Array elements are
    compiled by compileWithCache (array.go:14,19), i.e. from an empty [seen]
    (Cache.v shows that the cache is transparent).  [RFuel] for every fuel means
    that the Go code recurses for ever. *)
Fixpoint ecompile_f (X : Ext) (E : env) (fuel : nat) (direct : bool) (seen : list gty) (t : gty)
    : R (list gty) :=
  match fuel with
  | O => RFuel
  | S f =>
      if negb direct && implements E t then ROk seen
      else if negb direct && is_bytes t then ROk seen
      else
        match kind_of E t with
        | KBool | KInt _ | KF32 | KF64 | KString => ROk seen
        | KUint UPtr => RErr (EMarshal (CType t))
        | KUint _ => ROk seen
        | KStruct _ fs =>                                 (* struct.go:31-54 *)
            if mem_ty t seen then ROk seen
            else ecompile_fields X E (ecompile_f X E f false) (t :: seen) fs
        | KArray _ t' => _ <- ecompile_f X E f false [] t' ;; ROk seen
        | KSlice t' =>                                    (* slice.go:7-17 *)
            if mem_ty t seen then ROk seen else ecompile_f X E f false (t :: seen) t'
        | KMap kt vt =>                                   (* map.go:8-36 *)
            if mem_ty t seen then ROk seen
            else if enc_key_kind (kind_of E kt) then ecompile_f X E f false (t :: seen) vt
            else RErr (EMarshal (CKey kt))
        | KAny | KIface _ => ROk seen
        | KPtr t' =>                                      (* ptr.go:8-40 *)
            match kind_of E t' with
            | KPtr _ => RErr (EMarshal (CPtr t'))
            | KAny | KIface _ => ROk seen
            | k => ecompile_f X E f (ptr_direct k) seen t'
            end
        | KOther => RErr (EMarshal (CType t))
        end
  end.
