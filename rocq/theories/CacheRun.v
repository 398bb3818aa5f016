(** An executable scheduler for Cache.v: runs concrete schedules. *)
From Coq Require Import List Bool Permutation.
From Verif Require Import Base Cache.
Import ListNotations.

Section Run.
  Context {K V : Type} (keq : K -> K -> bool) (compile : K -> prog K V V).

  (** The next step of a call, with the entries of the old map copied in the
      order they are stored. *)
  Definition fnext (k : K) (h : list (gomap K V)) (cur : nat) (p : pc K V)
      : option (list access * list (gomap K V) * nat * (pc K V + R V)) :=
    match p with
    | Load => Some ([], h, cur, inl (Look cur))
    | Look m =>
        match nth_error h m with
        | None => None
        | Some mm =>
            match mget keq k mm with
            | Some v => Some ([ARead m], h, cur, inr (ROk v))
            | None => Some ([ARead m], h, cur, inl (Comp m (compile k)))
            end
        end
    | Comp m (Done (ROk v)) => Some ([], h, cur, inl (Make m v))
    | Comp m (Done (RErr e)) => Some ([], h, cur, inr (RErr e))
    | Comp m (Done (RPanic e)) => Some ([], h, cur, inr (RPanic e))
    | Comp m (Done RFuel) => Some ([], h, cur, inr RFuel)
    | Comp m (Ask _ _) => None
    | Wait _ _ _ => None
    | Make m v =>
        match nth_error h m with
        | None => None
        | Some mm => Some ([ARead m], h ++ [[]], cur, inl (Fill m v (length h) ((k, v) :: mm)))
        end
    | Fill m v new ((k', v') :: todo) =>
        match nth_error h new with
        | None => None
        | Some mm => Some ([ARead m; AWrite new], update new (mput k' v' mm) h, cur, inl (Fill m v new todo))
        end
    | Fill m v new [] => Some ([], h, cur, inl (Publish v new))
    | Publish v new => Some ([], h, new, inr (ROk v))
    end.
  Lemma fnext_step k h cur p a h' cur' x : fnext k h cur p = Some (a, h', cur', x) -> fstep keq compile k h cur p a h' cur' x.
  Proof.
    unfold fnext. intros Q. destruct p as [|m|m [[v|e|e|]|k' c]|m k' c|m v|m v new [|[k' v'] todo]|v new]; try discriminate Q;
      repeat (match type of Q with context [match ?e with _ => _ end] => destruct e eqn:? end; try discriminate Q);
      injection Q as <- <- <- <-; econstructor; eauto.
  Qed.
  Definition tnext (h : list (gomap K V)) (cur : nat) (th : thread K V)
      : option (list access * list (gomap K V) * nat * thread K V) :=
    match th with
    | Thread [] [] _ => None
    | Thread [] (k :: todo) done => Some ([], h, cur, Thread [Frame k Load] todo done)
    | Thread (Frame k (Comp m (Ask k' cont)) :: fs) todo done =>
        Some ([], h, cur, Thread (Frame k' Load :: Frame k (Wait m k' cont) :: fs) todo done)
    | Thread (Frame k p :: fs) todo done =>
        match fnext k h cur p with
        | None => None
        | Some (a, h', cur', inl p') => Some (a, h', cur', Thread (Frame k p' :: fs) todo done)
        | Some (a, h', cur', inr r) =>
            match fs with
            | [] => Some (a, h', cur', Thread [] todo ((k, r) :: done))
            | Frame k1 (Wait m k2 cont) :: fs' =>
                if keq k k2 then Some (a, h', cur', Thread (Frame k1 (Comp m (cont r)) :: fs') todo done) else None
            | _ => None
            end
        end
    end.
  Hypothesis keq_ok : forall a b, keq a b = true -> a = b.
  Lemma tnext_step h cur th a h' cur' th' : tnext h cur th = Some (a, h', cur', th') -> tstep keq compile h cur th a h' cur' th'.
  Proof.
    destruct th as [[|[k p] fs] todo done]; cbn [tnext].
    - destruct todo as [|k todo]; intros Q; [discriminate|]. injection Q as <- <- <- <-. apply ts_call.
    - intros Q.
      assert (forall r, fnext k h cur p = r -> match r with
        | None => None
        | Some (a, h', cur', inl p') => Some (a, h', cur', Thread (Frame k p' :: fs) todo done)
        | Some (a, h', cur', inr r) =>
            match fs with
            | [] => Some (a, h', cur', Thread [] todo ((k, r) :: done))
            | Frame k1 (Wait m k2 cont) :: fs' =>
                if keq k k2 then Some (a, h', cur', Thread (Frame k1 (Comp m (cont r)) :: fs') todo done) else None
            | _ => None
            end
        end = Some (a, h', cur', th') -> tstep keq compile h cur (Thread (Frame k p :: fs) todo done) a h' cur' th') as G.
      { intros r Hr G. destruct r as [[[[a1 h1] c1] [p1|r1]]|]; [| |discriminate]; apply fnext_step in Hr.
        - injection G as <- <- <- <-. apply ts_step. exact Hr.
        - destruct fs as [|[k1 p1] fs]; [injection G as <- <- <- <-; apply ts_return; exact Hr|].
          destruct p1; try discriminate G. destruct (keq k k0) eqn:Ek; [|discriminate]. injection G as <- <- <- <-.
          apply keq_ok in Ek. subst k0. apply ts_answer. exact Hr. }
      destruct p as [|m|m [r|k' c]|m k' c|m v|m v new todo'|v new]; try (exact (G _ eq_refl Q)).
      injection Q as <- <- <- <-. apply ts_ask.
  Qed.
  Fixpoint run (sched : list nat) (s : state K V) : option (state K V) :=
    match sched with
    | [] => Some s
    | i :: sched' =>
        match nth_error (threads s) i with
        | None => None
        | Some th =>
            match tnext (maps s) (current s) th with
            | None => run sched' s                       (* nothing to do *)
            | Some (a, h', cur', th') => run sched' (State h' cur' (update i th' (threads s)))
            end
        end
    end.
  Lemma run_steps calls sched : forall s s', reachable keq compile calls s -> run sched s = Some s' -> reachable keq compile calls s'.
  Proof.
    induction sched as [|i sched IH]; cbn [run]; intros s s' Hr Q; [injection Q as <-; exact Hr|].
    destruct (nth_error (threads s) i) as [th|] eqn:Hth; [|discriminate]. destruct (tnext (maps s) (current s) th) as [[[[a h'] cur'] th']|] eqn:T; [|exact (IH _ _ Hr Q)].
    refine (IH _ _ _ Q). eapply steps_step; [exact Hr|]. econstructor; [exact Hth|]. apply tnext_step. exact T.
  Qed.
  Lemma run_reachable calls sched s : run sched (start V calls) = Some s -> reachable keq compile calls s.
  Proof. apply run_steps. apply steps_refl. Qed.
End Run.
