(** The caches of compiled types under concurrency:
    internal/encoder/compile_cache.go and internal/decoder/compile.go:12-46.

    Threads are interleaved step by step (sequentially consistent).  Map objects
    live in a heap, so that reads and writes of them are visible; the published
    pointer is read and written atomically (atomic.Pointer). *)
From Coq Require Import List Bool Permutation.
From Verif Require Import Base.
Import ListNotations.

Set Implicit Arguments.

(** Compiling a type is a program whose only interaction with the cache is
    asking for other types (compile_cache.go:45-47 compileWithCache, called by
    array.go:14,19 while compiling).  The decoder's never asks. *)
Inductive prog (K V A : Type) : Type :=
| Done (r : R A)
| Ask (k : K) (cont : R V -> prog K V A).
Arguments Done {K V A}. Arguments Ask {K V A}.

Section Cache.
  Context (K V : Type) (keq : K -> K -> bool) (compile : K -> prog K V V).

  (** Go maps as association lists *)
  Definition gomap : Type := list (K * V).
  Fixpoint mget (k : K) (m : gomap) : option V :=
    match m with
    | [] => None
    | (k', v) :: m' => if keq k k' then Some v else mget k m'
    end.
  Definition mput (k : K) (v : V) (m : gomap) : gomap := (k, v) :: m.

  (** Where a call of compileToGetEncoderSlowPath (compile_cache.go:21-32) or
      CompileToGetDecoder (compile.go:21-35) stands.  [m], [new]: map objects. *)
  Inductive pc :=
  | Load                                              (* before line 22 *)
  | Look (m : nat)                                    (* before line 23 *)
  | Comp (m : nat) (p : prog K V V)                   (* in line 26 *)
  | Wait (m : nat) (k : K) (cont : R V -> prog K V V) (* in line 26, in a nested call for [k] *)
  | Make (m : nat) (v : V)                            (* before line 35 *)
  | Fill (m : nat) (v : V) (new : nat) (todo : list (K * V)) (* lines 36-40 *)
  | Publish (v : V) (new : nat).                      (* before line 42 *)
  Record frame := Frame { f_key : K; f_pc : pc }.

  (** A goroutine: calls in progress (innermost first), calls still to be made,
      and calls completed with their results. *)
  Record thread := Thread { t_stack : list frame; t_todo : list K; t_done : list (K * R V) }.
  Record state := State { maps : list gomap; current : nat; threads : list thread }.

  (** How one step touches map objects other than by allocating them. *)
  Inductive access := ARead (m : nat) | AWrite (m : nat).

  Fixpoint update {A} (i : nat) (x : A) (l : list A) : list A :=
    match l, i with
    | [], _ => []
    | _ :: l', O => x :: l'
    | y :: l', S i' => y :: update i' x l'
    end.

  (** One step of the call on top of a stack: what becomes of the heap, the
      published pointer and the call ([inl]: its new position, [inr]: its
      result). *)
  Inductive fstep (k : K) : list gomap -> nat -> pc -> list access -> list gomap -> nat -> pc + R V -> Prop :=
  (* opcodeMap := *cachedEncoderMap.Load() *)
  | fs_load h cur : fstep k h cur Load [] h cur (inl (Look cur))
  (* if codeSet, exists := opcodeMap[rt]; exists { return codeSet, nil } *)
  | fs_hit h cur m mm v : nth_error h m = Some mm -> mget k mm = Some v ->
      fstep k h cur (Look m) [ARead m] h cur (inr (ROk v))
  | fs_miss h cur m mm : nth_error h m = Some mm -> mget k mm = None ->
      fstep k h cur (Look m) [ARead m] h cur (inl (Comp m (compile k)))
  (* codeSet, err := compileType(rt) *)
  | fs_ok h cur m v : fstep k h cur (Comp m (Done (ROk v))) [] h cur (inl (Make m v))
  | fs_err h cur m e : fstep k h cur (Comp m (Done (RErr e))) [] h cur (inr (RErr e))
  (* a compilation that does not return, or panics, never stores *)
  | fs_panic h cur m e : fstep k h cur (Comp m (Done (RPanic e))) [] h cur (inr (RPanic e))
  | fs_fuel h cur m : fstep k h cur (Comp m (Done RFuel)) [] h cur (inr RFuel)
  (* storeEncoder: a new map, to be filled with the old entries (in the order of
     [range]) and the new one (first in the encoder, last in the decoder) *)
  | fs_make h cur m mm v todo : nth_error h m = Some mm -> Permutation todo ((k, v) :: mm) ->
      fstep k h cur (Make m v) [ARead m] (h ++ [[]]) cur (inl (Fill m v (length h) todo))
  | fs_fill h cur m v new mm k' v' todo : nth_error h new = Some mm ->
      fstep k h cur (Fill m v new ((k', v') :: todo)) [ARead m; AWrite new] (update new (mput k' v' mm) h) cur (inl (Fill m v new todo))
  | fs_filled h cur m v new : fstep k h cur (Fill m v new []) [] h cur (inl (Publish v new))
  (* cachedEncoderMap.Store(&newEncoderMap) *)
  | fs_publish h cur v new : fstep k h cur (Publish v new) [] h new (inr (ROk v)).

  (** One step of a goroutine. *)
  Inductive tstep : list gomap -> nat -> thread -> list access -> list gomap -> nat -> thread -> Prop :=
  | ts_call h cur k todo done :
      tstep h cur (Thread [] (k :: todo) done) [] h cur (Thread [Frame k Load] todo done)
  | ts_step h cur k p fs todo done a h' cur' p' : fstep k h cur p a h' cur' (inl p') ->
      tstep h cur (Thread (Frame k p :: fs) todo done) a h' cur' (Thread (Frame k p' :: fs) todo done)
  (* compileWithCache called while compiling *)
  | ts_ask h cur k m k' cont fs todo done :
      tstep h cur (Thread (Frame k (Comp m (Ask k' cont)) :: fs) todo done) [] h cur
        (Thread (Frame k' Load :: Frame k (Wait m k' cont) :: fs) todo done)
  | ts_answer h cur k p a h' cur' r k1 m cont fs todo done : fstep k h cur p a h' cur' (inr r) ->
      tstep h cur (Thread (Frame k p :: Frame k1 (Wait m k cont) :: fs) todo done) a h' cur'
        (Thread (Frame k1 (Comp m (cont r)) :: fs) todo done)
  | ts_return h cur k p a h' cur' r todo done : fstep k h cur p a h' cur' (inr r) ->
      tstep h cur (Thread [Frame k p] todo done) a h' cur' (Thread [] todo ((k, r) :: done)).

  (** A step of the whole program: some goroutine steps. *)
  Inductive step (s : state) (i : nat) (a : list access) : state -> Prop :=
  | st_step th h' cur' th' : nth_error (threads s) i = Some th ->
      tstep (maps s) (current s) th a h' cur' th' ->
      step s i a (State h' cur' (update i th' (threads s))).

  (** compile_cache.go:12-15, compile.go:16-19 init: the empty map is published;
      the goroutines have calls to make. *)
  Definition start (calls : list (list K)) : state :=
    State [[]] 0 (map (fun l => Thread [] l []) calls).
  Inductive steps : state -> state -> Prop :=
  | steps_refl s : steps s s
  | steps_step s i a s' s'' : steps s s' -> step s' i a s'' -> steps s s''.
  Definition reachable (calls : list (list K)) (s : state) : Prop := steps (start calls) s.

  (** ** Specification: compiling without any cache. *)
  Inductive Runs : prog K V V -> R V -> Prop :=
  | runs_done r : Runs (Done r) r
  | runs_ask k cont r r' : Runs (compile k) r -> Runs (cont r) r' -> Runs (Ask k cont) r'.
  Definition Compiles (k : K) (r : R V) : Prop := Runs (compile k) r.
End Cache.
Arguments Load {K V}. Arguments Look {K V}. Arguments Comp {K V}. Arguments Wait {K V}.
Arguments Make {K V}. Arguments Fill {K V}. Arguments Publish {K V}.
