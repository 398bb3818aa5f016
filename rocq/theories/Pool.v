(** Buffer pools under concurrency: internal/encoder/marshal.go, context.go,
    buffer.go and their use in struct.go:63-107 and float.go:82-128.

    Memory consists of backing arrays; a []byte is an array and a length (every
    slice here starts at offset 0).  The state is a multiset of items: the
    contexts and buffers in the pools, the goroutines, and the slices that
    Marshal has returned.  A step takes some items and puts others in their
    place; goroutines are interleaved step by step.

    What an encoder does to its output is abstracted to a script: append, encode
    a struct through a pooled buffer, use the small buffer, call a MarshalPHP
    method that calls Marshal itself any number of times (and appends what that
    returns: marshal_php.go:15-20), fail or panic.  The theorems hold for every
    script; EncScript.v gives the script of every call of Marshal. *)
From Coq Require Import Strings.String Strings.Byte ZArith List Bool Permutation Arith.
From Verif Require Import Base.
Import ListNotations.
Local Open Scope nat_scope.

(** ** Scripts and what they should produce *)

Inductive outcome := Good (x : bytes) | Bad (e : error) | Panics (p : panic).
Inductive cmd :=
| Emit (x : bytes)                                   (* b = append(b, x...) *)
| Small (pre t post : bytes)                         (* t is written to the small buffer first *)
| Struct (head : bytes) (body : list cmd)            (* struct.go:63-107 *)
| Call (body : list cmd) (next : outcome -> cmd)       (* MarshalPHP: calls Marshal and goes on depending on the result *)
| Fail (e : error)
| Crash (p : panic).

Definition and_then (r : outcome) (f : bytes -> outcome) : outcome :=
  match r with Good x => f x | Bad e => Bad e | Panics p => Panics p end.
(** Specification: the result of a Marshal call performing a script. *)
Fixpoint result (c : cmd) : outcome :=
  let fix results (l : list cmd) : outcome :=
    match l with
    | [] => Good []
    | c :: l' => and_then (result c) (fun x => and_then (results l') (fun y => Good (x ++ y)))
    end in
  match c with
  | Emit x => Good x
  | Small pre t post => Good (pre ++ t ++ post)
  | Struct head body => and_then (results body) (fun x => Good (head ++ x ++ bs "}"))
  | Call body next => result (next (results body))
  | Fail e => Bad e
  | Crash p => Panics p
  end.
Fixpoint results (l : list cmd) : outcome :=
  match l with
  | [] => Good []
  | c :: l' => and_then (result c) (fun x => and_then (results l') (fun y => Good (x ++ y)))
  end.

(** ** Memory *)

Record slice := Slice { arr : nat; len : nat }.
Definition memory : Type := list bytes.
Definition content (h : memory) (s : slice) : bytes :=
  match nth_error h (arr s) with Some a => firstn (len s) a | None => [] end.
(** s[:0] *)
Definition empty (s : slice) : slice := Slice (arr s) 0.
Fixpoint store {A} (i : nat) (x : A) (l : list A) : list A :=
  match l, i with
  | [], _ => []
  | _ :: l', O => x :: l'
  | y :: l', S i' => y :: store i' x l'
  end.
(** [s' = append(s, x...)]: in place if the capacity suffices, else in a new
    array of any sufficient capacity. *)
Inductive appended (h : memory) (s : slice) (x : bytes) : memory -> slice -> Prop :=
| ap_fits a : nth_error h (arr s) = Some a -> len s + length x <= length a ->
    appended h s x (store (arr s) (firstn (len s) a ++ x ++ skipn (len s + length x) a) h) (Slice (arr s) (len s + length x))
| ap_grows a pad : nth_error h (arr s) = Some a -> length a < len s + length x ->
    appended h s x (h ++ [firstn (len s) a ++ x ++ pad]) (Slice (length h) (len s + length x)).

(** ** Items *)

(** context.go:20-25 Ctx (Seen and StackDepth: see EncApi.v) *)
Record ctx := Ctx { c_buf : slice; c_small : slice }.
Inductive owner := OCtx (c : ctx) | OBuf (buf : slice).
Inductive frame :=
(* a Marshal call or a struct encoder: its output so far, its script and what is left of it *)
| FRun (o : owner) (b : slice) (all rest : list cmd)
(* a struct encoder that still has to put its buffer back *)
| FFree (b : slice)
(* a Marshal call that still has to put its context back before it returns *)
| FRet (c : ctx) (all : list cmd) (dst : slice).
Inductive item :=
| PoolCtx (c : ctx)
| PoolBuf (b : slice)
| Thread (stack : list frame) (todo : list (list cmd))
(* a call that has returned: its script, its result, and for success the slice
   returned with what the caller should find in it now *)
| Returned (all : list cmd) (r : outcome) (held : option (slice * bytes)).

(** ctxPool.Get: something from the pool, or a new one (context.go:8-16,27-32);
    [made]: the memory and the context, with the items taken. *)
Inductive get_ctx (h : memory) : list item -> memory -> ctx -> Prop :=
| gc_pool c : get_ctx h [PoolCtx c] h c
| gc_new a b : get_ctx h [] (h ++ [a; b]) (Ctx (Slice (length h) 0) (Slice (S (length h)) 0)).
(** bufferPool.Get (buffer.go:9-18) *)
Inductive get_buf (h : memory) : list item -> memory -> slice -> Prop :=
| gb_pool b : get_buf h [PoolBuf b] h b
| gb_new a : get_buf h [] (h ++ [a]) (Slice (length h) 0).

(** The small buffer a frame uses: that of the innermost Marshal call. *)
Fixpoint small_of (fs : list frame) : option slice :=
  match fs with
  | FRun (OCtx c) _ _ _ :: _ => Some (c_small c)
  | FRun (OBuf _) _ _ _ :: fs' => small_of fs'
  | _ => None
  end.

Section Steps.
  (** may callers write to the slices they were given? *)
  Context (callers_write : Prop).

  Inductive local (h : memory) : list item -> memory -> list item -> Prop :=
  (* Marshal: ctx := newCtx(); b := ctx.Buf[:0] (marshal.go:8-10) *)
  | l_marshal taken h' c all todo : get_ctx h taken h' c ->
      local h (Thread [] (all :: todo) :: taken) h' [Thread [FRun (OCtx c) (empty (c_buf c)) all all] todo]
  | l_nested taken h' c o b all body next rest fs todo : get_ctx h taken h' c ->
      local h (Thread (FRun o b all (Call body next :: rest) :: fs) todo :: taken) h'
        [Thread (FRun (OCtx c) (empty (c_buf c)) body body :: FRun o b all (Call body next :: rest) :: fs) todo]
  (* b = append(b, x...) *)
  | l_emit h' b' o b all x rest fs todo : appended h b x h' b' ->
      local h [Thread (FRun o b all (Emit x :: rest) :: fs) todo] h' [Thread (FRun o b' all rest :: fs) todo]
  (* float.go:90-128: buf = strconv.AppendFloat(ctx.smallBuffer[:0], ...); b = append(b, ... buf ...) *)
  | l_small h' h'' s s' b' o b all pre t post rest fs todo :
      small_of (FRun o b all (Small pre t post :: rest) :: fs) = Some s ->
      appended h (empty s) t h' s' -> appended h' b (pre ++ content h' s' ++ post) h'' b' ->
      local h [Thread (FRun o b all (Small pre t post :: rest) :: fs) todo] h'' [Thread (FRun o b' all rest :: fs) todo]
  (* buf := newBuffer(); structBuffer := buf.b (struct.go:67-69, buffer.go:13-18) *)
  | l_struct taken h' buf o b all head body rest fs todo : get_buf h taken h' buf ->
      local h (Thread (FRun o b all (Struct head body :: rest) :: fs) todo :: taken) h'
        [Thread (FRun (OBuf (empty buf)) (empty buf) body body :: FRun o b all (Struct head body :: rest) :: fs) todo]
  (* struct.go:102-106: b = append(b, header, structBuffer..., '}'); buf.b = structBuffer *)
  | l_close h' b' buf sb body o b all head body' rest fs todo :
      appended h b (head ++ content h sb ++ bs "}") h' b' ->
      local h [Thread (FRun (OBuf buf) sb body [] :: FRun o b all (Struct head body' :: rest) :: fs) todo] h'
        [Thread (FFree sb :: FRun o b' all rest :: fs) todo]
  (* the deferred freeBuffer(buf) *)
  | l_free b fs todo : local h [Thread (FFree b :: fs) todo] h [PoolBuf b; Thread fs todo]
  (* struct.go:97-99: return b, err; the deferred freeBuffer puts the buffer back as it was *)
  | l_struct_fails e buf sb body r o b all head body' rest fs todo :
      local h [Thread (FRun (OBuf buf) sb body (Fail e :: r) :: FRun o b all (Struct head body' :: rest) :: fs) todo] h
        [PoolBuf buf; Thread (FRun o b all (Fail e :: rest) :: fs) todo]
  | l_struct_panics p buf sb body r o b all head body' rest fs todo :
      local h [Thread (FRun (OBuf buf) sb body (Crash p :: r) :: FRun o b all (Struct head body' :: rest) :: fs) todo] h
        [PoolBuf buf; Thread (FRun o b all (Crash p :: rest) :: fs) todo]
  (* marshal.go:16-17: dst := make([]byte, len(b)); copy(dst, b); 19: ctx.Buf = b *)
  | l_copy c b all fs todo :
      local h [Thread (FRun (OCtx c) b all [] :: fs) todo] (h ++ [content h b])
        [Thread (FRet (Ctx b (c_small c)) all (Slice (length h) (len b)) :: fs) todo]
  (* marshal.go:20-22: freeCtx(ctx); return dst, nil *)
  | l_return c all dst todo :
      local h [Thread [FRet c all dst] todo] h
        [PoolCtx c; Returned all (Good (content h dst)) (Some (dst, content h dst)); Thread [] todo]
  | l_return_nested c body dst o b all body' next rest fs todo :
      local h [Thread (FRet c body dst :: FRun o b all (Call body' next :: rest) :: fs) todo] h
        [PoolCtx c; Returned body (Good (content h dst)) (Some (dst, content h dst));
         Thread (FRun o b all (next (Good (content h dst)) :: rest) :: fs) todo]
  (* marshal.go:11-14: freeCtx(ctx); return nil, err (ctx.Buf as it was) *)
  | l_fails e c b all r todo :
      local h [Thread [FRun (OCtx c) b all (Fail e :: r)] todo] h [PoolCtx c; Returned all (Bad e) None; Thread [] todo]
  | l_fails_nested e c b body r o b1 all body' next rest fs todo :
      local h [Thread (FRun (OCtx c) b body (Fail e :: r) :: FRun o b1 all (Call body' next :: rest) :: fs) todo] h
        [PoolCtx c; Returned body (Bad e) None; Thread (FRun o b1 all (next (Bad e) :: rest) :: fs) todo]
  (* a panic passes through Marshal: the context is lost *)
  | l_panics p c b all r todo :
      local h [Thread [FRun (OCtx c) b all (Crash p :: r)] todo] h [Returned all (Panics p) None; Thread [] todo]
  | l_panics_nested p c b body r o b1 all body' next rest fs todo :
      local h [Thread (FRun (OCtx c) b body (Crash p :: r) :: FRun o b1 all (Call body' next :: rest) :: fs) todo] h
        [Returned body (Panics p) None; Thread (FRun o b1 all (next (Panics p) :: rest) :: fs) todo]
  (* sync.Pool may drop what it holds *)
  | l_drop_ctx c : local h [PoolCtx c] h []
  | l_drop_buf b : local h [PoolBuf b] h []
  (* a caller writes to a slice Marshal gave them *)
  | l_write all r dst now now' a : callers_write -> nth_error h (arr dst) = Some a -> length now' = len dst ->
      local h [Returned all r (Some (dst, now))] (store (arr dst) (now' ++ skipn (len dst) a) h)
        [Returned all r (Some (dst, now'))].

  Record state := State { mem : memory; items : list item }.
  Inductive step (s : state) : state -> Prop :=
  | st_local taken rest h' put : Permutation (items s) (taken ++ rest) -> local (mem s) taken h' put ->
      step s (State h' (put ++ rest)).
  Inductive reachable (calls : list (list (list cmd))) : state -> Prop :=
  | re_start : reachable calls (State [] (map (Thread []) calls))
  | re_step s s' : reachable calls s -> step s s' -> reachable calls s'.
End Steps.
