(** Concurrency: the caches of compiled types (C43) and the buffer pools (C44). *)
From Coq Require Import Strings.String Strings.Byte ZArith List Bool Lia Permutation.
From Verif Require Import Base GoTypes Unmarshal EncCompile EncCompileFacts Cache CacheFacts CacheEnc CacheEncFacts CacheRun.
From Verif Require Pool PoolFacts.
Import ListNotations.
Local Open Scope nat_scope.

(** ** C43 The caches are transparent: however the goroutines are interleaved,
    a call that has returned has the result compiling its type gives without any
    cache ([Compiles], Cache.v).  For every compiler and every key type. *)
Theorem C43_transparent : forall K V keq compile, (forall a b : K, keq a b = true -> a = b) ->
  forall calls s i th k (r : R V), reachable keq compile calls s ->
  nth_error (threads s) i = Some th -> In (k, r) (t_done th) -> Compiles compile k r.
Proof. intros K V keq compile Hk. exact (cache_transparent keq compile Hk). Qed.
Print Assumptions C43_transparent.

(** The map that is published at some point never changes afterwards, and holds
    only results of compilation. *)
Theorem C43_immutable : forall K V keq compile, (forall a b : K, keq a b = true -> a = b) ->
  forall calls (s s' : state K V), reachable keq compile calls s -> steps keq compile s s' ->
  exists m, nth_error (maps s) (current s) = Some m /\ nth_error (maps s') (current s) = Some m /\
    Forall (fun e => Compiles compile (fst e) (ROk (snd e))) m.
Proof.
  intros K V keq compile Hk calls s s' Q St. destruct (cache_immutable keq compile Hk calls s s' Q St) as (A & m & B & C).
  exists m. repeat split; [exact B|congruence|exact C].
Qed.
Print Assumptions C43_immutable.

(** No data race: when one goroutine is about to write a map object, no other
    goroutine is about to read or write it. *)
Theorem C43_race_free : forall K V keq compile, (forall a b : K, keq a b = true -> a = b) ->
  forall calls (s : state K V) i j a a' s1 s2 m, reachable keq compile calls s -> i <> j ->
  step keq compile s i a s1 -> step keq compile s j a' s2 ->
  In (AWrite m) a -> ~ In (ARead m) a' /\ ~ In (AWrite m) a'.
Proof. intros K V keq compile Hk. exact (cache_race_free keq compile Hk). Qed.
Print Assumptions C43_race_free.

(** No goroutine ever waits for another. *)
Theorem C43_progress : forall K V keq compile, (forall a b : K, keq a b = true -> a = b) ->
  forall calls (s : state K V) i th, reachable keq compile calls s -> nth_error (threads s) i = Some th ->
  t_stack th <> [] \/ t_todo th <> [] -> exists a s', step keq compile s i a s'.
Proof. intros K V keq compile Hk. exact (cache_progress keq compile Hk). Qed.
Print Assumptions C43_progress.

(** The decoder: the compiler of Unmarshal.v. *)
Theorem C43_decoder : forall X E fuel calls s i th t r,
  reachable gty_eqb (fun t => Done (compile_f X E fuel [] t)) calls s ->
  nth_error (threads s) i = Some th -> In (t, r) (t_done th) -> r = compile_f X E fuel [] t.
Proof.
  intros X E fuel calls s i th t r Q Hth Hi.
  pose proof (cache_transparent gty_eqb _ (fun a b => proj1 (gty_eqb_eq a b)) calls s i th t r Q Hth Hi) as C.
  unfold Compiles in C. inversion C; subst. reflexivity.
Qed.
Print Assumptions C43_decoder.

(** The encoder, which consults the cache while compiling arrays: a call accepts
    a type, or rejects it with an error, exactly as the compiler without cache
    that the theorems about Marshal use (EncCompile.v). *)
Theorem C43_encoder : forall X E fuel calls s i th t r, reachable gty_eqb (compile_type X E fuel) calls s ->
  nth_error (threads s) i = Some th -> In (t, r) (t_done th) -> r <> RFuel ->
  exists f, accepted (ecompile_f X E f false [] t) = r.
Proof. exact encoder_cache. Qed.
Print Assumptions C43_encoder.

(** A schedule in which two goroutines compile at the same time and one update
    is lost: both calls return their results, the published map has one entry. *)
Example C43_lost_update : forall X E,
  exists s th0 th1, reachable gty_eqb (compile_type X E 2) [[TBool]; [TArray 2 TString]] s /\
    nth_error (threads s) 0 = Some th0 /\ nth_error (threads s) 1 = Some th1 /\
    t_done th0 = [(TBool, ROk tt)] /\ t_done th1 = [(TArray 2 TString, ROk tt)] /\
    nth_error (maps s) (current s) = Some [(TBool, tt)].
Proof.
  intros X E. destruct (run gty_eqb (compile_type X E 2) ([0; 0; 0] ++ repeat 1 30 ++ repeat 0 20) (start unit [[TBool]; [TArray 2 TString]])) as [s|] eqn:Q; vm_compute in Q; [|discriminate Q].
  injection Q as Q. exists s. do 2 eexists. split; [|subst s; cbn; repeat split].
  apply (run_reachable gty_eqb (compile_type X E 2) (fun a b => proj1 (gty_eqb_eq a b)) _ ([0; 0; 0] ++ repeat 1 30 ++ repeat 0 20)).
  subst s. vm_compute. reflexivity.
Qed.

(** ** C44 Pooled buffers never leak between calls.  However the goroutines are
    interleaved, whatever the pools return or drop, and whatever callers write to
    the slices they were given: a call that has returned has returned the result
    of its own script ([results], Pool.v), and the slice it returned holds exactly
    what its caller has left in it ([now]: the result, unless the caller wrote). *)
Theorem C44_isolated : forall W calls s all r held, Pool.reachable W calls s -> In (Pool.Returned all r held) (Pool.items s) ->
  r = Pool.results all /\
  match held with Some (sl, now) => Pool.content (Pool.mem s) sl = now | None => forall x, r <> Pool.Good x end.
Proof. exact PoolFacts.pools_isolate. Qed.
Print Assumptions C44_isolated.
(** If callers do not write, the slice holds the result for ever. *)
Theorem C44_stable : forall calls s all r sl now, Pool.reachable False calls s ->
  In (Pool.Returned all r (Some (sl, now))) (Pool.items s) -> Pool.results all = Pool.Good (Pool.content (Pool.mem s) sl).
Proof. exact PoolFacts.pools_stable. Qed.
Print Assumptions C44_stable.
(** Slices returned by different calls share no memory. *)
Theorem C44_apart : forall W calls s all1 r1 s1 n1 all2 r2 s2 n2, Pool.reachable W calls s ->
  In (Pool.Returned all1 r1 (Some (s1, n1))) (Pool.items s) -> In (Pool.Returned all2 r2 (Some (s2, n2))) (Pool.items s) ->
  Pool.arr s1 = Pool.arr s2 -> (all1, r1, s1, n1) = (all2, r2, s2, n2).
Proof. exact PoolFacts.pools_apart. Qed.
Print Assumptions C44_apart.
(** A goroutine with something to do can always go on. *)
Theorem C44_progress : forall W calls s fs todo, Pool.reachable W calls s -> In (Pool.Thread fs todo) (Pool.items s) -> fs <> [] \/ todo <> [] ->
  exists h' put rest, Permutation (Pool.items s) (Pool.Thread fs todo :: rest) /\
    Pool.local W (Pool.mem s) [Pool.Thread fs todo] h' put /\ Pool.step W s (Pool.State h' (put ++ rest)).
Proof. exact PoolFacts.pools_progress. Qed.
Print Assumptions C44_progress.
(** The second call gets the context the first has put back and overwrites its
    buffer; what the first returned is not affected. *)
Section Example44.
  Import Pool.
  Let z : bytes := repeat "000"%byte 2.
  Let A : list cmd := [Emit (bs "a")].
  Let B : list cmd := [Emit (bs "b")].
  Example C44_example : forall W, exists s, reachable W [[A; B]] s /\
    nth_error (mem s) 0 = Some (bs "b" ++ repeat "000"%byte 1) /\
    In (Returned A (Good (bs "a")) (Some (Slice 2 1, bs "a"))) (items s) /\ content (mem s) (Slice 2 1) = bs "a" /\
    In (Returned B (Good (bs "b")) (Some (Slice 3 1, bs "b"))) (items s) /\ content (mem s) (Slice 3 1) = bs "b".
  Proof.
    intros W.
    assert (reachable W [[A; B]] (State [] [Thread [] [A; B]])) as R by apply re_start.
    assert (reachable W [[A; B]] (State [z; z] [Thread [FRun (OCtx (Ctx (Slice 0 0) (Slice 1 0))) (Slice 0 0) A A] [B]])) as R1.
    { eapply re_step; [exact R|]. eapply (st_local W (State [] _) [_] [] _ [_]); [apply Permutation_refl|]. apply (l_marshal W [] []). apply (gc_new [] z z). }
    assert (reachable W [[A; B]] (State [bs "a" ++ repeat "000"%byte 1; z] [Thread [FRun (OCtx (Ctx (Slice 0 0) (Slice 1 0))) (Slice 0 1) A []] [B]])) as R2.
    { eapply re_step; [exact R1|]. eapply (st_local W (State [z; z] _) [_] [] _ [_]); [apply Permutation_refl|]. apply l_emit.
      apply (ap_fits [z; z] (Slice 0 0) (bs "a") z); [reflexivity|cbn; lia]. }
    assert (reachable W [[A; B]] (State [bs "a" ++ repeat "000"%byte 1; z; bs "a"] [Thread [FRet (Ctx (Slice 0 1) (Slice 1 0)) A (Slice 2 1)] [B]])) as R3.
    { eapply re_step; [exact R2|]. eapply (st_local W (State _ _) [_] [] _ [_]); [apply Permutation_refl|]. apply (l_copy W [bs "a" ++ repeat "000"%byte 1; z] (Ctx (Slice 0 0) (Slice 1 0)) (Slice 0 1) A [] [B]). }
    assert (reachable W [[A; B]] (State [bs "a" ++ repeat "000"%byte 1; z; bs "a"]
      [PoolCtx (Ctx (Slice 0 1) (Slice 1 0)); Returned A (Good (bs "a")) (Some (Slice 2 1, bs "a")); Thread [] [B]])) as R4.
    { eapply re_step; [exact R3|]. eapply (st_local W (State _ _) [_] [] _ [_; _; _]); [apply Permutation_refl|]. apply (l_return W [bs "a" ++ repeat "000"%byte 1; z; bs "a"] (Ctx (Slice 0 1) (Slice 1 0)) A (Slice 2 1) [B]). }
    assert (reachable W [[A; B]] (State [bs "a" ++ repeat "000"%byte 1; z; bs "a"]
      [Thread [FRun (OCtx (Ctx (Slice 0 1) (Slice 1 0))) (Slice 0 0) B B] []; Returned A (Good (bs "a")) (Some (Slice 2 1, bs "a"))])) as R5.
    { eapply re_step; [exact R4|]. eapply (st_local W (State _ _) [Thread [] [B]; PoolCtx (Ctx (Slice 0 1) (Slice 1 0))] [_] _ [_]).
      - cbn [items app]. eapply perm_trans; [|apply perm_swap]. apply perm_skip. apply perm_swap.
      - apply l_marshal. apply gc_pool. }
    assert (reachable W [[A; B]] (State [bs "b" ++ repeat "000"%byte 1; z; bs "a"]
      [Thread [FRun (OCtx (Ctx (Slice 0 1) (Slice 1 0))) (Slice 0 1) B []] []; Returned A (Good (bs "a")) (Some (Slice 2 1, bs "a"))])) as R6.
    { eapply re_step; [exact R5|]. eapply (st_local W (State [bs "a" ++ repeat "000"%byte 1; z; bs "a"] _) [_] [_] _ [_]); [apply Permutation_refl|]. apply l_emit.
      apply (ap_fits [bs "a" ++ repeat "000"%byte 1; z; bs "a"] (Slice 0 0) (bs "b") (bs "a" ++ repeat "000"%byte 1)); [reflexivity|cbn; lia]. }
    assert (reachable W [[A; B]] (State [bs "b" ++ repeat "000"%byte 1; z; bs "a"; bs "b"]
      [Thread [FRet (Ctx (Slice 0 1) (Slice 1 0)) B (Slice 3 1)] []; Returned A (Good (bs "a")) (Some (Slice 2 1, bs "a"))])) as R7.
    { eapply re_step; [exact R6|]. eapply (st_local W (State _ _) [_] [_] _ [_]); [apply Permutation_refl|]. apply (l_copy W [bs "b" ++ repeat "000"%byte 1; z; bs "a"] (Ctx (Slice 0 1) (Slice 1 0)) (Slice 0 1) B [] []). }
    eexists. split; [|split; [|split; [|split; [|split]]]].
    - eapply re_step; [exact R7|]. eapply (st_local W (State _ _) [_] [_] _ [_; _; _]); [apply Permutation_refl|].
      apply (l_return W [bs "b" ++ repeat "000"%byte 1; z; bs "a"; bs "b"] (Ctx (Slice 0 1) (Slice 1 0)) B (Slice 3 1) []).
    - reflexivity.
    - cbn. auto 10.
    - reflexivity.
    - cbn. auto 10.
    - reflexivity.
  Qed.
End Example44.
