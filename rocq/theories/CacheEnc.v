(** The encoder's type compilation as a program using the cache: EncCompile.v
    with the calls of compileWithCache (array.go:14,19) made visible.  What is
    cached for a type is that it compiles; the closure is determined by the type
    (see EncCompile.v). *)
From Coq Require Import Strings.String Strings.Byte ZArith List Bool.
From Verif Require Import Base GoTypes Tags EncCompile Cache.
Import ListNotations.

Fixpoint bindP {A B} (p : prog gty unit A) (k : A -> prog gty unit B) : prog gty unit B :=
  match p with
  | Done (ROk a) => k a
  | Done (RErr e) => Done (RErr e)
  | Done (RPanic e) => Done (RPanic e)
  | Done RFuel => Done RFuel
  | Ask t c => Ask t (fun r => bindP (c r) k)
  end.

(** struct.go:113-166 *)
Fixpoint cprog_fields (X : Ext) (E : env) (comp : list gty -> gty -> prog gty unit (list gty))
    (seen : list gty) (fs : list field) : prog gty unit (list gty) :=
  match fs with
  | [] => Done (ROk seen)
  | f :: fs' =>
      if enc_skipped X f then cprog_fields X E comp seen fs'
      else
        let k := kind_of E (f_ty f) in
        let target := match k with KPtr t' => t' | _ => f_ty f end in
        if (match k with KPtr t' => ptr_kind (kind_of E t') | _ => false end) then Done (RErr (EMarshal (CFieldPtr (f_ty f))))
        else if f_anon f && struct_kind k then Done (RErr (EMarshal (CEmbedded (f_ty f))))
        else if tag_string (tag_of X f) then
          if as_string_kind (kind_of E target) then cprog_fields X E comp seen fs'
          else Done (RErr (EMarshal (CString target)))
        else bindP (comp seen target) (fun seen' => cprog_fields X E comp seen' fs')
  end.

(** compile.go:14-51 and what it calls *)
Fixpoint cprog (X : Ext) (E : env) (fuel : nat) (direct : bool) (seen : list gty) (t : gty)
    : prog gty unit (list gty) :=
  match fuel with
  | O => Done RFuel
  | S f =>
      if negb direct && implements E t then Done (ROk seen)
      else if negb direct && is_bytes t then Done (ROk seen)
      else
        match kind_of E t with
        | KBool | KInt _ | KF32 | KF64 | KString => Done (ROk seen)
        | KUint UPtr => Done (RErr (EMarshal (CType t)))
        | KUint _ => Done (ROk seen)
        | KStruct _ fs =>
            if mem_ty t seen then Done (ROk seen)
            else cprog_fields X E (cprog X E f false) (t :: seen) fs
        | KArray _ t' => Ask t' (fun r => Done (_ <- r ;; ROk seen))     (* through the cache *)
        | KSlice t' =>
            if mem_ty t seen then Done (ROk seen) else cprog X E f false (t :: seen) t'
        | KMap kt vt =>
            if mem_ty t seen then Done (ROk seen)
            else if enc_key_kind (kind_of E kt) then cprog X E f false (t :: seen) vt
            else Done (RErr (EMarshal (CKey kt)))
        | KAny | KIface _ => Done (ROk seen)
        | KPtr t' =>
            match kind_of E t' with
            | KPtr _ => Done (RErr (EMarshal (CPtr t')))
            | KAny | KIface _ => Done (ROk seen)
            | k => cprog X E f (ptr_direct k) seen t'
            end
        | KOther => Done (RErr (EMarshal (CType t)))
        end
  end.
(** compile.go:10-12 compileType *)
Definition compile_type (X : Ext) (E : env) (fuel : nat) (t : gty) : prog gty unit unit :=
  bindP (cprog X E fuel false [] t) (fun _ => Done (ROk tt)).
