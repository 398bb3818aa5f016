(** Go types, type environments, values (as trees) and the external world. *)
From Coq Require Import Strings.String Strings.Byte ZArith List Bool Floats.SpecFloat.
From Verif Require Import Base.
Import ListNotations.
Open Scope Z_scope.

(** ** Types (reflect.Type); the types themselves are in GoType.v *)

Definition ibits (k : ikind) : Z :=
  match k with I8 => 8 | I16 => 16 | I32 => 32 | I64 | IInt => 64 end.
Definition ubits (k : ukind) : Z :=
  match k with U8 => 8 | U16 => 16 | U32 => 32 | U64 | UUint | UPtr => 64 end.

(** reflect.StructField: name, exported?, embedded?, value of the php tag
    ("" when absent, i.e. [Tag.Get("php")]), type. *)
Record field := Field {
  f_name : bytes; f_exported : bool; f_anon : bool; f_tag : bytes; f_ty : gty }.

Inductive under := UStruct (fs : list field) | UTy (t : gty).

(** Receiver of a declared MarshalPHP method, if any. *)
Inductive recv := NoMethod | ValueRecv | PointerRecv.

(** A type declaration: underlying type, MarshalPHP method, and whether *T has
    an UnmarshalPHP method (with either receiver). *)
Record decl := Decl { d_under : under; d_marshal : recv; d_unmarshal : bool }.

Definition env := list decl.

(** [rt.Kind()] together with the components Elem/Key/Len/Field. *)
Inductive kind :=
| KBool | KInt (k : ikind) | KUint (k : ukind) | KF32 | KF64 | KString
| KSlice (t : gty) | KArray (n : nat) (t : gty) | KMap (k v : gty) | KPtr (t : gty)
| KAny | KIface (has_marshal : bool) | KOther
| KStruct (id : nat) (fs : list field).

Definition kind0 (t : gty) : kind :=
  match t with
  | TBool => KBool | TInt k => KInt k | TUint k => KUint k | TF32 => KF32 | TF64 => KF64
  | TString => KString | TSlice t => KSlice t | TArray n t => KArray n t
  | TMap k v => KMap k v | TPtr t => KPtr t | TAny => KAny | TIface m => KIface m
  | TOther => KOther | TName _ => KOther
  end.

Definition kind_of (E : env) (t : gty) : kind :=
  match t with
  | TName n =>
      match nth_error E n with
      | Some d => match d_under d with UStruct fs => KStruct n fs | UTy t' => kind0 t' end
      | None => KOther
      end
  | _ => kind0 t
  end.

(** [rt.Kind() == reflect.Interface], [reflect.Struct], [reflect.Ptr] *)
Definition iface_kind (k : kind) : bool := match k with KAny | KIface _ => true | _ => false end.
Definition struct_kind (k : kind) : bool := match k with KStruct _ _ => true | _ => false end.
Definition ptr_kind (k : kind) : bool := match k with KPtr _ => true | _ => false end.

(** [reflect.PointerTo(rt).Implements(Unmarshaler)]: true exactly for declared
    types with an UnmarshalPHP method (a pointer to a pointer, or to an
    interface, has no methods). *)
Definition has_unmarshal (E : env) (t : gty) : option nat :=
  match t with
  | TName n => match nth_error E n with
               | Some d => if d_unmarshal d then Some n else None
               | None => None
               end
  | _ => None
  end.

(** ** Values, as trees *)

(** [VSlice None] is a nil slice; maps list their entries in some order with
    pairwise different keys; [VIface (Some (T, v))] is an interface holding [v]
    of dynamic type [T].  Floats are IEEE values (SpecFloat), with one NaN. *)
Inductive gval :=
| VBool (b : bool) | VInt (z : Z) | VUint (z : Z)
| VF32 (f : spec_float) | VF64 (f : spec_float) | VStr (s : bytes)
| VSlice (o : option (list gval)) | VArr (l : list gval)
| VMap (o : option (list (gval * gval)))
| VPtr (o : option gval) | VIface (o : option (gty * gval))
| VStruct (l : list gval) | VOther.

(** A []byte holding [b]. *)
Definition byte_val (b : byte) : gval := VUint (Z.of_N (Byte.to_N b)).
Definition vbytes (b : bytes) : gval := VSlice (Some (map byte_val b)).

(** [reflect.Zero(t)].  [fuel] bounds the by-value nesting of declared types;
    Go forbids by-value recursion, so the length of the environment always
    suffices. *)
Fixpoint zero_f (fuel : nat) (E : env) : gty -> gval :=
  fix z (t : gty) : gval :=
    match t with
    | TBool => VBool false
    | TInt _ => VInt 0
    | TUint _ => VUint 0
    | TF32 => VF32 (S754_zero false)
    | TF64 => VF64 (S754_zero false)
    | TString => VStr []
    | TSlice _ => VSlice None
    | TArray n t' => VArr (repeat (z t') n)
    | TMap _ _ => VMap None
    | TPtr _ => VPtr None
    | TAny | TIface _ => VIface None
    | TOther => VOther
    | TName n =>
        match fuel with
        | O => VOther
        | S f =>
            match nth_error E n with
            | Some d =>
                match d_under d with
                | UStruct fs => VStruct (map (fun fd => zero_f f E (f_ty fd)) fs)
                | UTy t' => zero_f f E t'
                end
            | None => VOther
            end
        end
    end.
Definition zero (E : env) (t : gty) : gval := zero_f (S (length E)) E t.

(** ** Go maps and slices at run time *)

(** Whether the runtime can hash the value (else SetMapIndex panics). *)
Fixpoint hashable (v : gval) : bool :=
  match v with
  | VSlice _ | VMap _ | VOther => false
  | VIface (Some (_, v')) => hashable v'
  | VArr l | VStruct l => forallb hashable l
  | _ => true
  end.

Fixpoint gty_eqb (a b : gty) : bool :=
  match a, b with
  | TBool, TBool | TF32, TF32 | TF64, TF64 | TString, TString | TAny, TAny | TOther, TOther => true
  | TInt j, TInt k => match j, k with
                      | I8, I8 | I16, I16 | I32, I32 | I64, I64 | IInt, IInt => true
                      | _, _ => false end
  | TUint j, TUint k => match j, k with
                        | U8, U8 | U16, U16 | U32, U32 | U64, U64 | UUint, UUint | UPtr, UPtr => true
                        | _, _ => false end
  | TSlice a', TSlice b' | TPtr a', TPtr b' => gty_eqb a' b'
  | TArray n a', TArray m b' => Nat.eqb n m && gty_eqb a' b'
  | TMap k a', TMap k' b' => gty_eqb k k' && gty_eqb a' b'
  | TIface m, TIface m' => Bool.eqb m m'
  | TName n, TName m => Nat.eqb n m
  | _, _ => false
  end.

(** Go's == on (hashable) key values.  Pointer keys never arise except nil. *)
Fixpoint key_eqb (a b : gval) : bool :=
  let all := fix all (x y : list gval) : bool :=
    match x, y with
    | [], [] => true
    | u :: x', v :: y' => key_eqb u v && all x' y'
    | _, _ => false
    end in
  match a, b with
  | VBool x, VBool y => Bool.eqb x y
  | VInt x, VInt y | VUint x, VUint y => x =? y
  | VF32 x, VF32 y | VF64 x, VF64 y => SFeqb x y
  | VStr x, VStr y => bytes_eqb x y
  | VPtr None, VPtr None => true
  | VIface None, VIface None => true
  | VIface (Some (t, x)), VIface (Some (u, y)) => gty_eqb t u && key_eqb x y
  | VArr x, VArr y | VStruct x, VStruct y => all x y
  | _, _ => false
  end.

(** reflect.Value.SetMapIndex: replace the entry with an equal key, or add one. *)
Fixpoint map_set (k v : gval) (m : list (gval * gval)) : list (gval * gval) :=
  match m with
  | [] => [(k, v)]
  | (k', v') :: m' => if key_eqb k' k then (k', v) :: m' else (k', v') :: map_set k v m'
  end.

(** Assignment to element [i] of a list of cells. *)
Fixpoint update {A} (l : list A) (i : nat) (a : A) : list A :=
  match l, i with
  | [], _ => []
  | _ :: l', O => a :: l'
  | x :: l', S i' => x :: update l' i' a
  end.

(** reflect.Value.Index(i) on a slice or array of length [n] panics unless
    0 <= i < n. *)
Definition bad_index (i n : Z) : bool := (i <? 0) || (n <=? i).

(** ** Values in memory (what Marshal walks) *)

(** Places in memory: cell [i] of allocation [o], or the header of map [o].
    Where the runtime has put a place is up to [x_addr] below, which need not be
    injective: a pointer to a field of a struct (or to an element of an array
    value) is modelled as a pointer to an allocation of its own, which holds the
    same value and may have the same address as the struct.  (Marshal only reads
    memory, so one copy more is not observable; addresses are.)  Objects of size
    zero may share an address, too. *)
Inductive place := ACell (o i : nat) | AMap (o : nat).
(** unsafe.Pointer, uintptr *)
Notation addr := Z.

Inductive hval :=
| HBool (b : bool) | HInt (z : Z) | HUint (z : Z)
| HF32 (f : spec_float) | HF64 (f : spec_float) | HStr (s : bytes)
| HSlice (p : option (nat * nat * nat))       (* allocation, first cell, length *)
| HArr (l : list hval)
| HMap (p : option nat)
| HPtr (p : option (nat * nat))                (* allocation, cell *)
| HIface (o : option (gty * hval))
| HStruct (l : list hval)
| HOther (nil : bool).                         (* a chan, func, complex number, ...: is it the zero value? *)

Inductive alloc := Cells (l : list hval) | MapObj (l : list (hval * hval)).
Definition heap := list alloc.

(** ** The external world *)

(** Everything the modelled code calls but does not define.  Theorems quantify
    over all of it; assumptions about it appear as explicit premises. *)
Record Ext := {
  (** strconv.AppendFloat(nil, f, fmt, -1, 32|64) *)
  x_fmt : byte -> bool -> spec_float -> bytes;
  (** strconv.ParseFloat(s, 64); None when it returns an error *)
  x_parse : bytes -> option spec_float;
  (** unicode.IsLetter || unicode.IsDigit, consulted for runes >= 128 only *)
  x_letter : N -> bool;
  (** UnmarshalPHP of declared type n on argument bytes and a receiver
      pointing to the given value: new value of the receiver, and whether it
      returned nil.  User methods are assumed to return. *)
  x_unmarshal : nat -> bytes -> gval -> gval * bool;
  (** unquoteBytes of unmarshal_php.go:97-211 on an argument that starts and
      ends with a quote (proved never to be called) *)
  x_unquote : bytes -> option bytes;
  (** whether reflect.MakeSlice can allocate that many elements (it panics
      when the size exceeds the address space) *)
  x_slots : gty -> Z -> bool;
  (** MarshalPHP of declared type n; the flag tells a pointer receiver *)
  x_marshal : nat -> bool -> heap -> hval -> R bytes;
  (** the address of a place (any function: nothing is assumed about it) *)
  x_addr : place -> addr
}.
(** Data pointers of slices and pointers to variables; map headers. *)
Definition cell_at (X : Ext) (o i : nat) : addr := x_addr X (ACell o i).
Definition map_at (X : Ext) (o : nat) : addr := x_addr X (AMap o).

(** ** Floats: the conversions reflect performs *)

(** float64 -> float32 rounding (reflect.Value.SetFloat on a Float32) *)
Definition f32_of_f64 (f : spec_float) : spec_float :=
  match f with
  | S754_finite s m e => binary_normalize 24 128 (if s then Z.neg m else Z.pos m) e s
  | _ => f
  end.
(** math.MaxFloat32 and math.MaxFloat64 as float64 *)
Definition max_f32 : spec_float := S754_finite false 9007198717870080 75.
Definition max_f64 : spec_float := S754_finite false 9007199254740991 971.
(** reflect.Value.OverflowFloat on a Float32: overflowFloat32 of package reflect *)
Definition overflow_f32 (f : spec_float) : bool :=
  let x := SFabs f in SFltb max_f32 x && SFleb x max_f64.
