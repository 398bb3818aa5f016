(** Reading Go memory: the semantics of dereferencing, slicing and ranging. *)
From Coq Require Import Strings.String Strings.Byte ZArith NArith List Bool.
From Verif Require Import Base GoTypes.
Import ListNotations.
Open Scope Z_scope.

Definition cell (H : heap) (o i : nat) : option hval :=
  match nth_error H o with Some (Cells l) => nth_error l i | _ => None end.
(** the elements of a slice *)
Definition cells (H : heap) (o i n : nat) : option (list hval) :=
  match nth_error H o with
  | Some (Cells l) => if Nat.leb (i + n) (length l) then Some (firstn n (skipn i l)) else None
  | _ => None
  end.
(** the entries of a map *)
Definition entries (H : heap) (o : nat) : option (list (hval * hval)) :=
  match nth_error H o with Some (MapObj m) => Some m | _ => None end.

(** the bytes of a []byte (reflect.Value.Bytes); nil gives none *)
Fixpoint bytes_of_cells (l : list hval) : option bytes :=
  match l with
  | [] => Some []
  | HUint z :: l' =>
      match (if 0 <=? z then Byte.of_N (Z.to_N z) else None), bytes_of_cells l' with
      | Some b, Some bs => Some (b :: bs)
      | _, _ => None
      end
  | _ => None
  end.
Definition byte_slice (H : heap) (v : hval) : option bytes :=
  match v with
  | HSlice None => Some []
  | HSlice (Some (o, i, n)) =>
      match cells H o i n with Some l => bytes_of_cells l | None => None end
  | _ => None
  end.

