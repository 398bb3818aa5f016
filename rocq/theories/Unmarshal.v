(** unmarshal.go and the type-compilation phase of internal/decoder/compile.go. *)
From Coq Require Import Strings.String Strings.Byte ZArith List Bool.
From Verif Require Import Base GoTypes Strconv Tags Scan Decode.
Import ListNotations.
Open Scope Z_scope.

(** ** Compiling the destination type *)

Definition mem (n : nat) (l : list nat) : bool := existsb (Nat.eqb n) l.

(** wrapped_string.go:23-49 newWrappedStringDecoder (and ptrDecoder.wrapString,
    138-142): the type named in the error; is a string-tagged decoder available for
    this decoder? *)
Definition wrap_type (E : env) (t : gty) : gty := match node_of E t with NPtr t' => t' | _ => t end.
Definition wrap_ok (E : env) (t : gty) : bool :=
  let scalar nd := match nd with NBool | NF32 | NF64 | NUint _ | NInt _ => true | _ => false end in
  match node_of E t with
  | NPtr t' => scalar (node_of E t')
  | nd => scalar nd
  end.

(** compile.go:312-320: the first key that another field had before *)
Fixpoint first_dup (seen : list bytes) (l : list bytes) : option bytes :=
  match l with
  | [] => None
  | k :: l' => if existsb (bytes_eqb k) seen then Some k else first_dup (k :: seen) l'
  end.

(** compile.go:270-310: the field loop; [comp] compiles a field type *)
Fixpoint compile_fields (X : Ext) (E : env) (comp : gty -> R unit) (fs : list field) : R unit :=
  match fs with
  | [] => ROk tt
  | f :: fs' =>
      if is_ignored f then compile_fields X E comp fs'
      else if f_anon f && (match kind_of E (f_ty f) with
                           | KStruct _ _ => true
                           | KPtr t' => match kind_of E t' with KStruct _ _ => true | _ => false end
                           | _ => false
                           end)
      then RErr EAnonymous
      else
        _ <- comp (f_ty f) ;;
        if tag_string (tag_of X f) && string_tag_supported E (f_ty f) && negb (wrap_ok E (f_ty f))
        then RErr (EUnsupportedType (wrap_type E (f_ty f)))
        else compile_fields X E comp fs'
  end.

(** compile.go:55-110 compile, 132-164 compileMapKey/compilePtr, 226-254
    compileSlice/Array/Map, 260-325 compileStruct.  [stack] is
    structTypeToDecoder: the structs being compiled.  The recursion of the Go
    code is bounded by [fuel]; RFuel for every fuel means the Go code recurses
    for ever. *)
Fixpoint compile_f (X : Ext) (E : env) (fuel : nat) (stack : list nat) (t : gty) : R unit :=
  match fuel with
  | O => RFuel
  | S f =>
      match has_unmarshal E t with
      | Some _ => ROk tt
      | None =>
          match kind_of E t with
          | KPtr t' =>
              _ <- compile_f X E f stack t' ;;
              match kind_of E t' with KPtr _ => RErr (EUnsupportedType (TPtr t')) | _ => ROk tt end
          | KStruct id fs =>
              if mem id stack then ROk tt
              else
                _ <- compile_fields X E (compile_f X E f (id :: stack)) fs ;;
                match first_dup [] (map fd_key (field_decs X E 0 fs)) with
                | Some k => RErr (EDuplicate t k)
                | None => ROk tt
                end
          | KSlice t' =>
              match kind_of E t' with KUint U8 => ROk tt | _ => compile_f X E f stack t' end
          | KArray _ t' => compile_f X E f stack t'
          | KMap k v =>
              _ <- (match has_unmarshal E k with
                    | Some _ => ROk tt
                    | None => match kind_of E k with
                              | KString => ROk tt
                              | _ => compile_f X E f stack k
                              end
                    end) ;;
              compile_f X E f stack v
          | _ => ROk tt
          end
      end
  end.

(** ** Unmarshal *)

(** The second argument of Unmarshal: untyped nil, a non-pointer value, a nil
    pointer, or a pointer to a value of the given type. *)
Inductive target :=
| TgNil | TgVal (t : gty) (v : gval) | TgNilPtr (t : gty) | TgPtr (t : gty) (v : gval).

Definition pointee (tg : target) : gval :=
  match tg with TgPtr _ v => v | TgVal _ v => v | _ => VOther end.

(** unmarshal.go:54-63 validateEndBuf *)
Definition validate_end (src : bytes) (cursor : Z) : R unit :=
  if blen src =? cursor then ROk tt
  else c <- rd src cursor ;; RErr (ESyntax (cursor + 1) (WAfter c)).

(** unmarshal.go:21-52 Unmarshal: the pointee afterwards, and the outcome.
    [cfuel] bounds the recursion of type compilation.  The input is copied
    (37-38), so the caller's slice is not touched. *)
Definition unmarshal (X : Ext) (E : env) (cfuel : nat) (data : bytes) (tg : target) : gval * R unit :=
  match data with
  | [] => (pointee tg, RErr EEmpty)
  | _ =>
      match tg with
      | TgNil => (VOther, RPanic PReflect)          (* line 32: rv.Type() on the zero Value *)
      | TgVal t _ => (pointee tg, RErr (EInvalidTarget t))
      | TgNilPtr t => (pointee tg, RErr (EInvalidTarget (TPtr t)))
      | TgPtr t v =>
          match compile_f X E cfuel [] t with
          | ROk _ =>
              let '(v', r) := decode X E t data 0 0 v in
              (v', c <- r ;; validate_end data c)
          | r => (v, r)
          end
      end
  end.
