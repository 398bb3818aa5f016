(** Go byte slices: writing through them and appending to them. *)
From Coq Require Import Strings.String Strings.Byte ZArith List Bool.
From Verif Require Import Base GoTypes Alias.
Import ListNotations.
Open Scope Z_scope.

(** [l] with [b] written over it from position [p] on *)
Definition poke (l : bytes) (p : Z) (b : bytes) : bytes :=
  firstn (Z.to_nat p) l ++ b ++ skipn (Z.to_nat p + length b) l.
Definition store_array (M : arrays) (o : nat) (l : bytes) : arrays := update M o l.

(** s[i] = b; an index outside the slice panics *)
Inductive writes (M : arrays) (s : bslice) : arrays -> Prop :=
| wr i b : 0 <= i < s_len s ->
    writes M s (store_array M (s_array s) (poke (array_of M s) (s_start s + i) [b])).

(** append(s, b...): in place if the capacity suffices, else in a new array that
    starts with the old contents and has some spare room *)
Inductive appends (M : arrays) (s : bslice) (b : bytes) : arrays -> bslice -> Prop :=
| ap_place : s_len s + blen b <= s_cap s ->
    appends M s b (store_array M (s_array s) (poke (array_of M s) (s_start s + s_len s) b))
                  (BSlice (s_array s) (s_start s) (s_len s + blen b) (s_cap s))
| ap_move spare : s_cap s < s_len s + blen b ->
    appends M s b (M ++ [slice_read M s ++ b ++ spare])
                  (BSlice (length M) 0 (s_len s + blen b) (s_len s + blen b + blen spare)).

(** Any use of the slice variable [s]: writes through it and s = append(s, ...),
    [n] bytes appended in all. *)
Inductive mutates (M : arrays) (s : bslice) : nat -> arrays -> bslice -> Prop :=
| mu_none : mutates M s 0 M s
| mu_write n M1 s1 M2 : mutates M s n M1 s1 -> writes M1 s1 M2 -> mutates M s n M2 s1
| mu_append n M1 s1 b M2 s2 : mutates M s n M1 s1 -> appends M1 s1 b M2 s2 -> mutates M s (n + length b) M2 s2.

(** A slice that lies in its array. *)
Definition in_memory (M : arrays) (s : bslice) : Prop :=
  (s_array s < length M)%nat /\ 0 <= s_start s /\ 0 <= s_len s <= s_cap s /\ s_start s + s_cap s <= blen (array_of M s).
