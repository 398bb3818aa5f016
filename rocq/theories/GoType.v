(** Go types (reflect.Type). *)

(** Signed kinds; [IInt] is Go's int, 64 bits wide (64-bit platforms only). *)
Inductive ikind := I8 | I16 | I32 | I64 | IInt.
Inductive ukind := U8 | U16 | U32 | U64 | UUint | UPtr.

(** A Go type.  Named types (and every struct type, named or not) are
    references into a type environment, which is how recursive types arise.
    [TAny] is any interface type without methods; [TIface m] is an interface
    type with methods, [m] telling whether MarshalPHP is one of them.
    [TOther] is chan, func, complex or unsafe.Pointer. *)
Inductive gty :=
| TBool | TInt (k : ikind) | TUint (k : ukind) | TF32 | TF64 | TString
| TSlice (t : gty) | TArray (n : nat) (t : gty) | TMap (k v : gty) | TPtr (t : gty)
| TAny | TIface (has_marshal : bool) | TOther
| TName (n : nat).
