(** C52: calls of Unmarshal that run at the same time, inside each other or one
    after another share the pool of contexts, and do not notice.
    Model and specification: DecPool.v. *)
From Coq Require Import Strings.Byte List Permutation ZArith.
From Verif Require Import Base GoTypes Decode Unmarshal DecPool DecPoolFacts.
Import ListNotations.

(** Every completed call, outermost or nested, has the outcome it would have
    alone, whatever the schedule, and whatever the methods of other calls do to
    the bytes they are given. *)
Theorem C52_isolated : forall jobs w items d p r b, steps (start jobs) (w, items) ->
  In (Result d p r b) items -> r = alone p d.
Proof.
  intros jobs w items d p r b H Hi. pose proof (inv_steps _ _ H (inv_start jobs)) as [_ _ _ _ G].
  cbn in G. rewrite Forall_forall in G. apply (G _ Hi).
Qed.
Print Assumptions C52_isolated.
(** In particular the outcome Unmarshal.v gives. *)
Theorem C52_unmarshal : forall X E fuel tg jobs w items d p r b, (forall data, alone p data = unmarshal X E fuel data tg) ->
  steps (start jobs) (w, items) -> In (Result d p r b) items -> r = unmarshal X E fuel d tg.
Proof. intros X E fuel tg jobs w items d p r b Hp H Hi. rewrite <- Hp. eapply C52_isolated; eassumption. Qed.
Print Assumptions C52_unmarshal.
(** The copy of the input that a completed call worked on, into which decoded
    byte slices point, is never changed by a later call. *)
Theorem C52_kept : forall jobs w items w' items' d p r b, steps (start jobs) (w, items) -> In (Result d p r b) items ->
  steps (w, items) (w', items') ->
  In (Result d p r b) items' /\ (exists x, nth_error (bufs w) b = Some x /\ nth_error (bufs w') b = Some x).
Proof.
  intros jobs w items w' items' d p r b H Hi H'. pose proof (inv_steps _ _ H (inv_start jobs)) as Is.
  destruct (steps_result _ _ _ _ _ _ Is H' Hi) as [H1 H2]. split; [exact H1|]. cbn in H2. rewrite H2.
  destruct Is as [_ _ _ _ G]. rewrite Forall_forall in G. destruct (G _ Hi) as [_ [Hl _]]. cbn in Hl.
  destruct (nth_error (bufs w) b) as [x|] eqn:Q; [eauto|]. apply nth_error_None in Q. exfalso. eapply Nat.lt_irrefl, Nat.lt_le_trans; eassumption.
Qed.
Print Assumptions C52_kept.
(** No context is held twice, and no buffer belongs to two contexts: the steps
    of different calls never touch the same memory. *)
Theorem C52_exclusive : forall jobs w items, steps (start jobs) (w, items) ->
  NoDup (own items) /\
  (forall c c' b, nth_error (ctxs w) c = Some (Some b) -> nth_error (ctxs w) c' = Some (Some b) -> c = c') /\
  (forall d p r b c, In (Result d p r b) items -> nth_error (ctxs w) c <> Some (Some b)).
Proof.
  intros jobs w items H. destruct (inv_steps _ _ H (inv_start jobs)) as [N _ _ J G]. split; [exact N|]. split; [exact J|].
  intros d p r b c Hi. rewrite Forall_forall in G. destruct (G _ Hi) as [_ [_ Hr]]. apply Hr.
Qed.
Print Assumptions C52_exclusive.
(** A context in the pool keeps no data of a previous call alive. *)
Theorem C52_pool_clean : forall jobs w items c, steps (start jobs) (w, items) -> In (Pooled c) items -> nth_error (ctxs w) c = Some None.
Proof. intros jobs w items c H Hi. exact (pool_clean _ _ c H (start_clean jobs) (inv_start jobs) Hi). Qed.
Print Assumptions C52_pool_clean.
(** No call waits for another: whatever the state, a goroutine that has work left
    can take a step. *)
Theorem C52_no_waiting : forall jobs w items fs todo, steps (start jobs) (w, items) -> In (Thread fs todo) items ->
  fs <> [] \/ todo <> [] -> exists taken w' put, In (Thread fs todo) taken /\ local w taken w' put /\ incl taken items.
Proof. intros jobs w items fs todo H Hi. exact (progress _ _ _ (inv_steps _ _ H (inv_start jobs)) Hi). Qed.
Print Assumptions C52_no_waiting.
(** Two goroutines: one calls Unmarshal from a method that then spoils its
    bytes; the other takes the context the nested call has put back. *)
Definition inner : prog := PBuf (fun x => PDone (VStr x, ROk tt)).
Definition outer : prog := PCall [x02] inner (fun r => PBuf (fun x => PWrite (fun _ => [x09]) (PBuf (fun y =>
  PDone (VStr (x ++ y ++ match fst r with VStr z => z | _ => [] end), ROk tt))))).
Definition jobs : list (list (bytes * prog)) := [[([x01], outer)]; [([x03], inner)]].
Lemma go w taken w' put rest items s : local w taken w' put -> Permutation items (taken ++ rest) ->
  steps (w', put ++ rest) s -> steps (w, items) s.
Proof.
  intros L P H. assert (steps (w, items) (w', put ++ rest)) as H0 by (eapply ss_step; [apply ss_refl|econstructor; eassumption]).
  remember (w', put ++ rest) as m eqn:Q. induction H; subst; [exact H0|]. eapply ss_step; [apply IHsteps; [reflexivity|exact H0]|eassumption].
Qed.
Example C52_run : exists w items, steps (start jobs) (w, items) /\
  In (Result [x01] outer (VStr [x01; x09; x02], ROk tt) 0%nat) items /\
  In (Result [x02] inner (VStr [x02], ROk tt) 1%nat) items /\
  In (Result [x03] inner (VStr [x03], ROk tt) 2%nat) items /\ length (ctxs w) = 2%nat.
Proof.
  do 2 eexists. split.
  { unfold start, jobs. cbn [map].
    do 10 (eapply (go _ [_] _ _ [_]); [|apply Permutation_refl|]; [econstructor; reflexivity|cbn -[inner outer]]).
    eapply (go _ [_] _ _ [_; _; _]); [|apply Permutation_sym, (Permutation_cons_append [_; _; _])|]; [econstructor; reflexivity|cbn -[inner outer]].
    eapply (go _ [_; _] _ _ [_; _]); [|apply perm_skip, perm_swap|]; [apply lo_take|cbn -[inner outer]].
    do 4 (eapply (go _ [_] _ _ [_; _]); [|apply Permutation_refl|]; [econstructor; reflexivity|cbn -[inner outer]]).
    eapply (go _ [_] _ _ [_; _]); [|apply Permutation_refl|]; [econstructor; reflexivity|cbn -[inner outer]].
    eapply (go _ [_] _ _ [_; _; _; _]); [|apply Permutation_sym, (Permutation_middle [_; _; _] [_])|]; [econstructor; reflexivity|cbn -[inner outer]].
    do 5 (eapply (go _ [_] _ _ [_; _; _; _]); [|apply Permutation_refl|]; [econstructor; reflexivity|cbn -[inner outer]]).
    apply ss_refl. }
  cbn. tauto.
Qed.
