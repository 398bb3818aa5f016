(** The Decode methods once more, now over memory with locations: pointers,
    maps and slices of the destination are references, so destinations may
    share memory or be cyclic, and a store through one path is seen through the
    others.  Decode.v treats the destination as a tree. *)
From Coq Require Import Strings.String Strings.Byte ZArith List Bool Floats.SpecFloat.
From Verif Require Import Base GoTypes Strconv Tags Scan Decode Unmarshal.
Import ListNotations.
Open Scope Z_scope.

(** ** Memory *)

(** Where a variable is: an allocation, a cell of it (an element of a backing
    array), and the field and array indices that lead into the cell.  What
    reflect.Value with flagAddr denotes, and what a Go pointer points to. *)
Record loc := Loc { l_obj : nat; l_cell : nat; l_path : list nat }.

(** The content of a variable.  A slice refers to [n] cells of an allocation
    (slices of array-valued fields are not represented; Unmarshal never looks
    at the elements of a slice it finds in the destination). *)
Inductive mval :=
| DBool (b : bool) | DInt (z : Z) | DUint (z : Z)
| DF32 (f : spec_float) | DF64 (f : spec_float) | DStr (s : bytes)
| DSlice (o : option (nat * nat * nat))
| DArr (l : list mval)
| DMap (o : option nat)
| DPtr (o : option loc)
| DIface (o : option (gty * mval))
| DStruct (l : list mval) | DOther.

Inductive mobj := OCells (l : list mval) | OMap (m : list (mval * mval)).
Definition memory := list mobj.

(** Fields and array elements inside a value. *)
Definition parts (d : mval) : option (list mval) :=
  match d with DArr l | DStruct l => Some l | _ => None end.
Definition with_parts (d : mval) (l : list mval) : mval :=
  match d with DArr _ => DArr l | DStruct _ => DStruct l | _ => d end.
Fixpoint get_path (p : list nat) (d : mval) : option mval :=
  match p with
  | [] => Some d
  | k :: p' =>
      match parts d with
      | Some l => match nth_error l k with Some x => get_path p' x | None => None end
      | None => None
      end
  end.
Fixpoint put_path (p : list nat) (v d : mval) : mval :=
  match p with
  | [] => v
  | k :: p' =>
      match parts d with
      | Some l => match nth_error l k with
                  | Some x => with_parts d (update l k (put_path p' v x))
                  | None => d
                  end
      | None => d
      end
  end.

(** Load and store of a variable. *)
Definition obj_get (ob : mobj) (i : nat) (p : list nat) : option mval :=
  match ob with
  | OCells l => match nth_error l i with Some d => get_path p d | None => None end
  | OMap _ => None
  end.
Definition obj_put (i : nat) (p : list nat) (v : mval) (ob : mobj) : mobj :=
  match ob with
  | OCells l => match nth_error l i with
                | Some d => OCells (update l i (put_path p v d))
                | None => ob
                end
  | OMap _ => ob
  end.
Definition read (M : memory) (L : loc) : option mval :=
  match nth_error M (l_obj L) with Some ob => obj_get ob (l_cell L) (l_path L) | None => None end.
Definition write (M : memory) (L : loc) (v : mval) : memory :=
  match nth_error M (l_obj L) with
  | Some ob => update M (l_obj L) (obj_put (l_cell L) (l_path L) v ob)
  | None => M
  end.

(** reflect.Value.Field and Index on an array: the variable inside. *)
Definition at_sub (L : loc) (k : nat) : loc := Loc (l_obj L) (l_cell L) (l_path L ++ [k]).
(** The variable of a new allocation with one cell (reflect.New), before it is
    allocated. *)
Definition new_at (M : memory) : loc := Loc (length M) 0 [].
Definition new_cell (M : memory) (d : mval) : memory := M ++ [OCells [d]].

(** ** Values as memory *)

(** A value without references (in particular every zero value), as it lies in
    memory. *)
Fixpoint plain_val (g : gval) : mval :=
  match g with
  | VBool b => DBool b | VInt z => DInt z | VUint z => DUint z
  | VF32 f => DF32 f | VF64 f => DF64 f | VStr s => DStr s
  | VSlice _ => DSlice None | VMap _ => DMap None | VPtr _ => DPtr None | VIface _ => DIface None
  | VArr l => DArr (map plain_val l) | VStruct l => DStruct (map plain_val l)
  | VOther => DOther
  end.
(** reflect.Zero *)
Definition dzero (E : env) (t : gty) : mval := plain_val (zero E t).

(** A newly made value: the allocations it needs, all of them new. *)
Fixpoint build (g : gval) (M : memory) {struct g} : mval * memory :=
  let all := fix all (l : list gval) (M : memory) : list mval * memory :=
    match l with
    | [] => ([], M)
    | x :: l' => let '(d, M1) := build x M in let '(ds, M2) := all l' M1 in (d :: ds, M2)
    end in
  let pairs := fix pairs (l : list (gval * gval)) (M : memory) : list (mval * mval) * memory :=
    match l with
    | [] => ([], M)
    | (k, v) :: l' =>
        let '(dk, M1) := build k M in
        let '(dv, M2) := build v M1 in
        let '(ds, M3) := pairs l' M2 in ((dk, dv) :: ds, M3)
    end in
  match g with
  | VSlice (Some l) => let '(ds, M1) := all l M in (DSlice (Some (length M1, 0%nat, length ds)), M1 ++ [OCells ds])
  | VMap (Some m) => let '(ds, M1) := pairs m M in (DMap (Some (length M1)), M1 ++ [OMap ds])
  | VPtr (Some v) => let '(d, M1) := build v M in (DPtr (Some (new_at M1)), new_cell M1 d)
  | VIface (Some (t, v)) => let '(d, M1) := build v M in (DIface (Some (t, d)), M1)
  | VArr l => let '(ds, M1) := all l M in (DArr ds, M1)
  | VStruct l => let '(ds, M1) := all l M in (DStruct ds, M1)
  | _ => (plain_val g, M)
  end.

(** ** Map keys in memory *)

Definition loc_eqb (a b : loc) : bool :=
  Nat.eqb (l_obj a) (l_obj b) && Nat.eqb (l_cell a) (l_cell b)
  && (if list_eq_dec Nat.eq_dec (l_path a) (l_path b) then true else false).

(** Whether the runtime can hash the value. *)
Fixpoint mhashable (v : mval) : bool :=
  match v with
  | DSlice _ | DMap _ | DOther => false
  | DIface (Some (_, v')) => mhashable v'
  | DArr l | DStruct l => forallb mhashable l
  | _ => true
  end.
(** Go's == on keys; pointers are equal if they point to the same variable. *)
Fixpoint mkey_eqb (a b : mval) : bool :=
  let all := fix all (x y : list mval) : bool :=
    match x, y with
    | [], [] => true
    | u :: x', v :: y' => mkey_eqb u v && all x' y'
    | _, _ => false
    end in
  match a, b with
  | DBool x, DBool y => Bool.eqb x y
  | DInt x, DInt y | DUint x, DUint y => x =? y
  | DF32 x, DF32 y | DF64 x, DF64 y => SFeqb x y
  | DStr x, DStr y => bytes_eqb x y
  | DPtr None, DPtr None => true
  | DPtr (Some p), DPtr (Some q) => loc_eqb p q
  | DIface None, DIface None => true
  | DIface (Some (t, x)), DIface (Some (u, y)) => gty_eqb t u && mkey_eqb x y
  | DArr x, DArr y | DStruct x, DStruct y => all x y
  | _, _ => false
  end.
(** reflect.Value.SetMapIndex on the entries of the map object *)
Fixpoint mmap_set (k v : mval) (m : list (mval * mval)) : list (mval * mval) :=
  match m with
  | [] => [(k, v)]
  | (k', v') :: m' => if mkey_eqb k' k then (k', v) :: m' else (k', v') :: mmap_set k v m'
  end.

(** ** User methods *)

(** UnmarshalPHP of declared type [n] called with the given bytes on a pointer
    to the given variable: memory afterwards, and whether it returned nil.  It
    may read and write memory.  (Decode.v has the method as a function on
    values; the theorems say how the two must be related.) *)
Definition method := nat -> bytes -> memory -> loc -> memory * bool.

(** ** The decoders *)

(** Memory afterwards and the outcome. *)
Definition hres : Type := memory * R Z.

(** A decoder that does not look at the destination: it leaves it alone or
    stores a newly made value.  [dec] is its definition in Decode.v, which on
    [VOther] therefore returns [VOther] or the value to store.
    int.go:124-150, uint.go:52-78, float.go:39-76, string.go:31-42,
    bool.go:18-41, bytes.go:38-67 for strings, wrapped_string.go:51-67,
    interface.go:173-240 (in which nothing but the result is observable). *)
Definition h_new (dec : gval -> dres) (M : memory) (L : loc) : hres :=
  match dec VOther with
  | (VOther, r) => (M, r)
  | (v, r) => let '(d, M1) := build v M in (write M1 L d, r)
  end.

(** unmarshal_php.go:45-95 unmarshalPHPDecoder.Decode *)
Definition h_unm (U : method) (X : Ext) (E : env) (n : nat) (buf : bytes) (cursor depth : Z)
    (M : memory) (L : loc) : hres :=
  match cend <- skip_value buf cursor depth ;; src <- sub buf cursor cend ;; ROk (src, cend) with
  | ROk (src, cend) =>
      let go :=                                                (* lines 82-93 *)
        match U n (unquoted X src) (new_cell M (dzero E (TName n))) (new_at M) with
        | (M1, true) =>
            match read M1 (new_at M) with
            | Some d => (write M1 L d, ROk cend)               (* rv.Set(v.Elem()) *)
            | None => (M1, RPanic PNilDeref)
            end
        | (M1, false) => (M1, RErr EUser)
        end in
      match src with
      | [] => go
      | c :: _ =>
          if (c =b "["%byte) || (c =b "{"%byte) || (c =b "-"%byte) || is_digit c
          then (M, RErr (EType cursor))
          else if (c =b "N"%byte) && bytes_eqb src (bs "N;")
          then (write M L (dzero E (TName n)), ROk cend)       (* line 76 *)
          else go
      end
  | r => (M, fail r)
  end.

(** interface.go:134-149, 104-122 for an interface type with methods *)
Definition h_iface (U : method) (X : Ext) (E : env) (buf : bytes) (cursor depth : Z)
    (M : memory) (L : loc) : hres :=
  let plain :=
    match rd buf cursor with
    | ROk c =>
        if c =b "N"%byte then
          match validate_null buf cursor with
          | ROk _ => (write M L (DIface None), ROk (cursor + 2))
          | r => (M, fail r)
          end
        else (M, RErr (EType cursor))
    | r => (M, fail r)
    end in
  match read M L with
  | Some (DIface (Some (TPtr t, DPtr p))) =>
      match has_unmarshal E t with
      | Some n =>
          match cend <- skip_value buf cursor depth ;; src <- sub buf cursor cend ;; ROk (src, cend) with
          | ROk (src, cend) =>
              if bytes_eqb src (bs "N;") then (write M L (DIface None), ROk cend)
              else
                match p with
                | None => (M, RPanic PNilDeref)
                | Some Lp =>
                    let '(M1, ok) := U n (unquoted X src) M Lp in
                    (M1, if ok then ROk cend else RErr EUser)
                end
          | r => (M, fail r)
          end
      | None => plain
      end
  | _ => plain
  end.

(** map.go:94-99: a new key is decoded; [None] as value when decoding fails.
    Keys other than Unmarshalers are newly made values. *)
Definition h_key (U : method) (X : Ext) (E : env) (kt : gty) (buf : bytes) (cursor depth : Z)
    (M : memory) : memory * R (mval * Z) :=
  match key_node E kt with
  | KnUnm n =>
      let Lk := new_at M in
      let '(M1, r) := h_unm U X E n buf cursor depth (new_cell M (dzero E kt)) Lk in
      (M1, match r with
           | ROk c => match read M1 Lk with Some d => ROk (d, c) | None => RPanic PNilDeref end
           | r => fail r
           end)
  | _ =>
      let '(g, r) := dec_key X E kt buf cursor depth in
      match r with
      | ROk c => let '(d, M1) := build g M in (M1, ROk (d, c))
      | r => (M, fail r)
      end
  end.

(** map.go:90-118: the entry loop.  [kd] decodes a key, [vd] a value into the
    given variable; [vz] is the zero value of the value type. *)
Fixpoint h_map_loop (kd : Z -> memory -> memory * R (mval * Z)) (vd : Z -> memory -> loc -> hres)
    (vz : mval) (buf : bytes) (n : nat) (cursor : Z) (M : memory) (L : loc) : hres :=
  match n with
  | O => (M, RFuel)
  | S n' =>
      if negb (has_byte buf cursor) then (M, RErr (ESyntax cursor (WEnd "map")))
      else
        let '(M1, kr) := kd cursor M in
        match kr with
        | ROk (k, c1) =>
            if negb (has_byte buf c1) then (M1, RErr (ESyntax c1 (WEnd "map value")))
            else
              let Lv := new_at M1 in                               (* v := reflect.New *)
              let '(M2, vr) := vd c1 (new_cell M1 vz) Lv in
              match vr with
              | ROk c2 =>
                  match read M2 Lv with
                  | None => (M2, RPanic PNilDeref)
                  | Some v =>
                      if negb (mhashable k) then (M2, RPanic PUnhashable)
                      else
                        match read M2 L with                       (* rv.SetMapIndex *)
                        | Some (DMap (Some o)) =>
                            match nth_error M2 o with
                            | Some (OMap m) =>
                                let M3 := update M2 o (OMap (mmap_set k v m)) in
                                if negb (has_byte buf c2) then (M3, RErr (ESyntax c2 (WEnd "map")))
                                else
                                  match rd buf c2 with
                                  | ROk b => if b =b "}"%byte then (M3, ROk (c2 + 1))
                                             else h_map_loop kd vd vz buf n' c2 M3 L
                                  | r => (M3, fail r)
                                  end
                            | _ => (M2, RPanic PNilDeref)
                            end
                        | _ => (M2, RPanic PNilDeref)
                        end
                  end
              | r => (M2, fail r)
              end
        | r => (M1, fail r)
        end
  end.

(** map.go:31-119 mapDecoder.Decode *)
Definition h_map (kd : Z -> memory -> memory * R (mval * Z)) (vd : Z -> memory -> loc -> hres)
    (vz : mval) (buf : bytes) (cursor depth : Z) (M : memory) (L : loc) : hres :=
  match map_header buf cursor depth with
  | ROk (HNull c) => (write M L (DMap None), ROk c)
  | ROk (HBody c) =>
      match read M L with
      | Some (DMap o) =>
          let M1 := match o with
                    | None => write (M ++ [OMap []]) L (DMap (Some (length M)))   (* lines 77-79 *)
                    | Some _ => M
                    end in
          if negb (has_byte buf c) then (M1, RErr (ESyntax c (WEnd "map")))
          else
            match rd buf c with
            | ROk b =>
                if b =b "}"%byte then (M1, ROk (c + 1))
                else h_map_loop kd vd vz buf (length buf) c M1 L
            | r => (M1, fail r)
            end
      | _ => (M, RPanic PReflect)
      end
  | r => (M, fail r)
  end.

(** slice.go:107-142: the element loop.  [o] is the allocation of the local
    variable [slice], whose length is the number of its cells. *)
Fixpoint h_slice_loop (X : Ext) (et : gty) (z : mval) (ed : Z -> memory -> loc -> hres) (buf : bytes)
    (n : nat) (cursor : Z) (o : nat) (M : memory) (L : loc) : hres :=
  match n with
  | O => (M, RFuel)
  | S n' =>
      let continue (o : nat) (M : memory) (c : Z) : hres :=
        match nth_error M o with
        | Some (OCells l) =>
            let M := write M L (DSlice (Some (o, 0%nat, length l))) in          (* rv.Set(slice) *)
            if negb (has_byte buf c) then (M, RErr (ESyntax c (WEnd "array")))
            else
              match rd buf c with
              | ROk b => if b =b "}"%byte then (M, ROk (c + 1))
                         else h_slice_loop X et z ed buf n' c o M L
              | r => (M, fail r)
              end
        | _ => (M, RPanic PNilDeref)
        end in
      if negb (has_byte buf cursor) then (M, RErr (ESyntax cursor (WEnd "array")))
      else
        match read_int buf cursor with
        | ROk (idx, c) =>
            if negb (has_byte buf c) then (M, RErr (ESyntax c (WEnd "array value")))
            else
              match nth_error M o with
              | Some (OCells l) =>
                  if idx <? blen l then
                    if bad_index idx (blen l) then (M, RPanic PIndex) else
                    match ed c M (Loc o (Z.to_nat idx) []) with
                    | (M1, ROk c') => continue o M1 c'
                    | (M1, r) => (M1, fail r)
                    end
                  else
                    let newlen := wrap64 (idx + 1) in
                    if (newlen <? 0) || negb (x_slots X et newlen) then (M, RPanic PAlloc)
                    else if bad_index idx newlen then (M, RPanic PIndex)
                    else
                      (* MakeSlice and reflect.Copy *)
                      let o' := length M in
                      let M1 := M ++ [OCells (l ++ repeat z (Z.to_nat idx - length l) ++ [z])] in
                      match ed c M1 (Loc o' (Z.to_nat idx) []) with
                      | (M2, ROk c') => continue o' M2 c'
                      | (M2, r) => (M2, fail r)
                      end
              | _ => (M, RPanic PNilDeref)
              end
        | r => (M, fail r)
        end
  end.

(** slice.go:51-148 sliceDecoder.Decode *)
Definition h_slice (X : Ext) (et : gty) (z : mval) (ed : Z -> memory -> loc -> hres)
    (buf : bytes) (cursor depth : Z) (M : memory) (L : loc) : hres :=
  match slice_header buf cursor depth with
  | ROk (AhNull c) => (write M L (DSlice None), ROk c)
  | ROk (AhEmpty c) => (write M L (DSlice None), ROk c)
  | ROk (AhBody len c) =>
      if negb (x_slots X et len) then (M, RPanic PAlloc)
      else h_slice_loop X et z ed buf (length buf) c (length M) (M ++ [OCells []]) L   (* line 105 *)
  | r => (M, fail r)
  end.

(** array.go:87-123: the element loop over an array of [len] elements *)
Fixpoint h_array_loop (ed : Z -> memory -> loc -> hres) (buf : bytes) (depth : Z) (len : nat)
    (n : nat) (cursor : Z) (M : memory) (L : loc) : hres :=
  match n with
  | O => (M, RFuel)
  | S n' =>
      let continue (M : memory) (c : Z) : hres :=
        if negb (has_byte buf c) then (M, RErr (ESyntax c (WEnd "array")))
        else
          match rd buf c with
          | ROk b => if b =b "}"%byte then (M, ROk (c + 1))
                     else h_array_loop ed buf depth len n' c M L
          | r => (M, fail r)
          end in
      if negb (has_byte buf cursor) then (M, RErr (ESyntax cursor (WEnd "array")))
      else
        match read_int buf cursor with
        | ROk (idx, c) =>
            if negb (has_byte buf c) then (M, RErr (ESyntax c (WEnd "array value")))
            else if idx <? Z.of_nat len then
              if bad_index idx (Z.of_nat len) then (M, RPanic PIndex) else
              match ed c M (at_sub L (Z.to_nat idx)) with
              | (M1, ROk c') => continue M1 c'
              | (M1, r) => (M1, fail r)
              end
            else
              match skip_value buf c depth with
              | ROk c' => continue M c'
              | r => (M, fail r)
              end
        | r => (M, fail r)
        end
  end.

(** array.go:32-127 arrayDecoder.Decode *)
Definition h_array (n : nat) (z : mval) (ed : Z -> memory -> loc -> hres)
    (buf : bytes) (cursor depth : Z) (M : memory) (L : loc) : hres :=
  let M0 := if array_zeroed buf cursor depth then write M L (DArr (repeat z n)) else M in
  match array_header buf cursor depth with
  | ROk (AhNull c) => (M, ROk c)
  | ROk (AhEmpty c) => (M0, ROk c)
  | ROk (AhBody _ c) => h_array_loop ed buf (depth + 1) n (length buf) c M0 L
  | r => (M0, fail r)
  end.

(** struct.go:107-146: the entry loop *)
Fixpoint h_struct_loop (decs : list fdec) (fd : fdec -> Z -> memory -> loc -> hres) (buf : bytes)
    (depth : Z) (n : nat) (cursor : Z) (M : memory) (L : loc) : hres :=
  match n with
  | O => (M, RFuel)
  | S n' =>
      let continue (M : memory) (c : Z) : hres :=
        if negb (has_byte buf c) then (M, RErr (ESyntax c (WEnd "object")))
        else
          match rd buf c with
          | ROk b => if b =b "}"%byte then (M, ROk (c + 1))
                     else h_struct_loop decs fd buf depth n' c M L
          | r => (M, fail r)
          end in
      if negb (has_byte buf cursor) then (M, RErr (ESyntax cursor (WEnd "object")))
      else
        match decode_string_bytes buf cursor with
        | ROk (key, c) =>
            if negb (has_byte buf c) then (M, RErr (ESyntax c (WEnd "object value")))
            else
              match find_field (match key with Some k => k | None => [] end) decs with
              | Some d =>
                  match read M (at_sub L (fd_idx d)) with
                  | None => (M, RPanic PReflect)
                  | Some _ =>
                      match fd d c M (at_sub L (fd_idx d)) with
                      | (M1, ROk c') => continue M1 c'
                      | (M1, r) => (M1, fail r)
                      end
                  end
              | None =>
                  match skip_value buf c depth with
                  | ROk c' => continue M c'
                  | r => (M, fail r)
                  end
              end
        | r => (M, fail r)
        end
  end.

(** struct.go:49-147 structDecoder.Decode *)
Definition h_struct (decs : list fdec) (fd : fdec -> Z -> memory -> loc -> hres)
    (buf : bytes) (cursor depth : Z) (M : memory) (L : loc) : hres :=
  match struct_header buf cursor depth with
  | ROk (HNull c) => (M, ROk c)
  | ROk (HBody c) =>
      match read M L with
      | Some (DStruct _) =>
          if negb (has_byte buf c) then (M, RErr (ESyntax c (WEnd "object")))
          else
            match rd buf c with
            | ROk b =>
                if b =b "}"%byte then (M, ROk (c + 1))
                else h_struct_loop decs fd buf (depth + 1) (length buf) c M L
            | r => (M, fail r)
            end
      | _ => (M, RPanic PReflect)
      end
  | r => (M, fail r)
  end.

(** ptr.go:30-53 ptrDecoder.Decode; [z] is the zero value of the pointee *)
Definition h_ptr (z : mval) (ed : Z -> memory -> loc -> hres) (buf : bytes) (cursor : Z)
    (M : memory) (L : loc) : hres :=
  match rd buf cursor with
  | ROk c =>
      if c =b "N"%byte then
        match validate_null buf cursor with
        | ROk _ => (write M L (DPtr None), ROk (cursor + 2))
        | r => (M, fail r)
        end
      else
        match read M L with
        | Some (DPtr (Some Lp)) => ed cursor M Lp
        | Some (DPtr None) => ed cursor (write (new_cell M z) L (DPtr (Some (new_at M)))) (new_at M)
        | _ => (M, RPanic PReflect)
        end
  | r => (M, fail r)
  end.

(** bytes.go:38-67 bytesDecoder.Decode; [sd] is the slice decoder.  (That the
    bytes of a decoded string lie in the input buffer is the subject of
    Alias.v; here they are a new allocation.) *)
Definition h_bytes (sd : memory -> loc -> hres) (buf : bytes) (cursor : Z) (M : memory) (L : loc) : hres :=
  match rd buf cursor with
  | ROk c =>
      if c =b "a"%byte then sd M L
      else h_new (dec_bytes (fun g => (g, RFuel)) buf cursor) M L
  | r => (M, fail r)
  end.

(** compile.go:55-110: Decode of the decoder for type [t] *)
Fixpoint hdecode_f (U : method) (X : Ext) (E : env) (fuel : nat) (t : gty) (buf : bytes) (cursor depth : Z)
    (M : memory) (L : loc) {struct fuel} : hres :=
  match fuel with
  | O => (M, RFuel)
  | S f =>
      let elem et := fun c M L => hdecode_f U X E f et buf c (depth + 1) M L in
      match node_of E t with
      | NUnm n => h_unm U X E n buf cursor depth M L
      | NBool => h_new (dec_bool buf cursor) M L
      | NInt k => h_new (dec_int k buf cursor) M L
      | NUint k => h_new (dec_uint k buf cursor) M L
      | NF32 => h_new (dec_float X true buf cursor) M L
      | NF64 => h_new (dec_float X false buf cursor) M L
      | NString => h_new (dec_string buf cursor) M L
      | NAny => h_new (dec_iface_any X buf cursor depth) M L
      | NIface => h_iface U X E buf cursor depth M L
      | NBytes et => h_bytes (h_slice X et (dzero E et) (elem et) buf cursor depth) buf cursor M L
      | NSlice et => h_slice X et (dzero E et) (elem et) buf cursor depth M L
      | NArray n et => h_array n (dzero E et) (elem et) buf cursor depth M L
      | NMap kt vt =>
          h_map (fun c M => h_key U X E kt buf c (depth + 1) M) (elem vt) (dzero E vt)
                buf cursor depth M L
      | NStruct _ fs =>
          h_struct (field_decs X E 0 fs)
            (fun d c M L =>
               if fd_str d then
                 match node_of E (fd_ty d) with
                 | NPtr t' => h_ptr (dzero E t') (fun c => h_new (dec_wrapped X (node_of E t') buf c)) buf c M L
                 | nd => h_new (dec_wrapped X nd buf c) M L
                 end
               else elem (fd_ty d) c M L)
            buf cursor depth M L
      | NPtr t' =>
          match kind_of E t' with
          | KPtr _ => (M, RErr (EUnsupportedType t))
          | _ => h_ptr (dzero E t') (fun c M L => hdecode_f U X E f t' buf c depth M L) buf cursor M L
          end
      | NInvalid => (M, RErr (EType cursor))
      end
  end.
Definition hdecode (U : method) (X : Ext) (E : env) (t : gty) (buf : bytes) (cursor depth : Z)
    (M : memory) (L : loc) : hres :=
  hdecode_f U X E (decode_fuel buf) t buf cursor depth M L.

(** ** Unmarshal *)

(** The second argument of Unmarshal; a pointer is a location. *)
Inductive htarget := HtNil | HtVal (t : gty) | HtNilPtr (t : gty) | HtPtr (t : gty) (L : loc).

(** unmarshal.go:21-52 Unmarshal *)
Definition hunmarshal (U : method) (X : Ext) (E : env) (cfuel : nat) (data : bytes)
    (M : memory) (tg : htarget) : memory * R unit :=
  match data with
  | [] => (M, RErr EEmpty)
  | _ =>
      match tg with
      | HtNil => (M, RPanic PReflect)
      | HtVal t => (M, RErr (EInvalidTarget t))
      | HtNilPtr t => (M, RErr (EInvalidTarget (TPtr t)))
      | HtPtr t L =>
          match compile_f X E cfuel [] t with
          | ROk _ =>
              let '(M1, r) := hdecode U X E t data 0 0 M L in
              (M1, c <- r ;; validate_end data c)
          | r => (M, r)
          end
      end
  end.
