(** The pool of decoding contexts under concurrency and nesting:
    internal/decoder/context.go:10-33 and unmarshal.go:37-51.

    Goroutines are interleaved step by step (sequentially consistent).  Contexts
    and input buffers live in heaps. *)
From Coq Require Import Strings.Byte List Permutation.
From Verif Require Import Base GoTypes.
Import ListNotations.

(** What happens between TakeRuntimeContext and the deferred
    ReleaseRuntimeContext, as far as other calls are concerned: reading ctx.Buf,
    changing the bytes in it (nothing in the package does, but an UnmarshalPHP
    method is given a piece of it), calling Unmarshal from an UnmarshalPHP
    method, and the end: a result, an error or a panic.  What a decoder does
    with the bytes is arbitrary. *)
Definition outcome : Type := gval * R unit.  (* the destination afterwards, and nil, an error or a panic *)
Inductive prog :=
| PDone (r : outcome)
| PBuf (k : bytes -> prog)
| PWrite (f : bytes -> bytes) (p : prog)
| PCall (data : bytes) (body : prog) (k : outcome -> prog).

(** Specification: the result of the program alone, on a buffer of its own. *)
Fixpoint alone (p : prog) (buf : bytes) : outcome :=
  match p with
  | PDone r => r
  | PBuf k => alone (k buf) buf
  | PWrite f p => alone p (f buf)
  | PCall data body k => alone (k (alone body data)) buf
  end.

(** Where a call stands; [c]: its context. *)
Inductive pc :=
| FTake                            (* before unmarshal.go:44 *)
| FSet (c : nat)                   (* before line 46 *)
| FRun (c : nat) (p : prog)        (* in line 47 *)
| FSub (c : nat) (k : outcome -> prog)  (* in line 47, in a nested call of Unmarshal *)
| FClear (c : nat) (r : outcome)    (* in the deferred call, before context.go:29 *)
| FPut (c b : nat) (r : outcome).   (* before context.go:32; [b]: the buffer it had *)
(** A call of Unmarshal with its data and what decoding into its destination does *)
Record frame := Frame { f_data : bytes; f_body : prog; f_pc : pc }.

(** A goroutine (calls in progress, innermost first, and calls still to be
    made), a context in the pool, or a completed call with its result and the
    buffer it used. *)
Inductive item :=
| Thread (stack : list frame) (todo : list (bytes * prog))
| Pooled (c : nat)
| Result (data : bytes) (body : prog) (r : outcome) (b : nat).

(** [ctxs]: the Buf fields of the contexts, nil or a buffer; [bufs]: the bytes of
    the buffers. *)
Record world := World { ctxs : list (option nat); bufs : list bytes }.

Fixpoint set {A} (i : nat) (x : A) (l : list A) : list A :=
  match l, i with
  | [], _ => []
  | _ :: l', O => x :: l'
  | y :: l', S i' => y :: set i' x l'
  end.

(** ctx.Buf *)
Definition buffer (w : world) (c : nat) : bytes :=
  match nth_error (ctxs w) c with
  | Some (Some b) => match nth_error (bufs w) b with Some x => x | None => [] end
  | _ => []
  end.

(** One step: which items take part, and what they become. *)
Inductive local : world -> list item -> world -> list item -> Prop :=
| lo_start w d p todo :
    local w [Thread [] ((d, p) :: todo)] w [Thread [Frame d p FTake] todo]
| lo_take_new w d p fs todo :                                    (* context.go:19 *)
    local w [Thread (Frame d p FTake :: fs) todo]
      (World (ctxs w ++ [None]) (bufs w)) [Thread (Frame d p (FSet (length (ctxs w))) :: fs) todo]
| lo_take w d p fs todo c :                                      (* context.go:25 *)
    local w [Thread (Frame d p FTake :: fs) todo; Pooled c] w [Thread (Frame d p (FSet c) :: fs) todo]
| lo_set w d p fs todo c :                                       (* unmarshal.go:37-38, 46 *)
    local w [Thread (Frame d p (FSet c) :: fs) todo]
      (World (set c (Some (length (bufs w))) (ctxs w)) (bufs w ++ [d]))
      [Thread (Frame d p (FRun c p) :: fs) todo]
| lo_buf w d p fs todo c k :
    local w [Thread (Frame d p (FRun c (PBuf k)) :: fs) todo] w [Thread (Frame d p (FRun c (k (buffer w c))) :: fs) todo]
| lo_write w d p fs todo c f q b :
    nth_error (ctxs w) c = Some (Some b) ->
    local w [Thread (Frame d p (FRun c (PWrite f q)) :: fs) todo]
      (World (ctxs w) (set b (f (buffer w c)) (bufs w))) [Thread (Frame d p (FRun c q) :: fs) todo]
| lo_call w d p fs todo c d' p' k :
    local w [Thread (Frame d p (FRun c (PCall d' p' k)) :: fs) todo] w
      [Thread (Frame d' p' FTake :: Frame d p (FSub c k) :: fs) todo]
| lo_done w d p fs todo c r :
    local w [Thread (Frame d p (FRun c (PDone r)) :: fs) todo] w [Thread (Frame d p (FClear c r) :: fs) todo]
| lo_clear w d p fs todo c r b :                                 (* context.go:29-31 *)
    nth_error (ctxs w) c = Some (Some b) ->
    local w [Thread (Frame d p (FClear c r) :: fs) todo]
      (World (set c None (ctxs w)) (bufs w)) [Thread (Frame d p (FPut c b r) :: fs) todo]
| lo_put w d p todo c b r :                                      (* context.go:32 *)
    local w [Thread [Frame d p (FPut c b r)] todo] w [Thread [] todo; Pooled c; Result d p r b]
| lo_put_sub w d p d' p' c' k fs todo c b r :
    local w [Thread (Frame d p (FPut c b r) :: Frame d' p' (FSub c' k) :: fs) todo] w
      [Thread (Frame d' p' (FRun c' (k r)) :: fs) todo; Pooled c; Result d p r b]
| lo_gc w c : local w [Pooled c] w [].                           (* sync.Pool may drop anything *)

Definition state : Type := world * list item.
Inductive step : state -> state -> Prop :=
| st w items taken rest w' put :
    Permutation items (taken ++ rest) -> local w taken w' put -> step (w, items) (w', put ++ rest).
Inductive steps : state -> state -> Prop :=
| ss_refl s : steps s s
| ss_step s1 s2 s3 : steps s1 s2 -> step s2 s3 -> steps s1 s3.

(** The start: no contexts, any number of goroutines with any calls to make. *)
Definition start (jobs : list (list (bytes * prog))) : state := (World [] [], map (Thread []) jobs).

(** Specification: the contexts held by calls in progress, and those in the pool. *)
Definition ctx_of (f : frame) : list nat :=
  match f_pc f with
  | FTake => []
  | FSet c | FRun c _ | FSub c _ | FClear c _ | FPut c _ _ => [c]
  end.
Definition owned (i : item) : list nat :=
  match i with
  | Thread fs _ => flat_map ctx_of fs
  | Pooled c => [c]
  | Result _ _ _ _ => []
  end.
Definition own (l : list item) : list nat := flat_map owned l.

