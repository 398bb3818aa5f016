(** The caches are transparent under every schedule. *)
From Coq Require Import List Bool Permutation Lia Arith.
From Verif Require Import Base Cache.
Import ListNotations.

Section Lists.
  Context {A : Type}.
  Lemma update_len i (x : A) l : length (update i x l) = length l.
  Proof. revert i. induction l as [|y l IH]; intros [|i]; cbn; auto. Qed.
  Lemma update_same i (x y : A) l : nth_error l i = Some y -> nth_error (update i x l) i = Some x.
  Proof. revert i. induction l as [|z l IH]; intros [|i] Q; try discriminate; cbn in *; auto. Qed.
  Lemma update_other i j (x : A) l : i <> j -> nth_error (update i x l) j = nth_error l j.
  Proof. revert i j. induction l as [|z l IH]; intros [|i] [|j] Q; cbn; auto; try congruence. Qed.
  Lemma update_split i (x y : A) l : nth_error l i = Some y -> exists a b, l = a ++ y :: b /\ update i x l = a ++ x :: b /\ length a = i.
  Proof.
    revert i. induction l as [|z l IH]; intros [|i] Q; try discriminate; cbn in *.
    - injection Q as ->. exists [], l. auto.
    - destruct (IH i Q) as (a & b & -> & E & L). exists (z :: a), b. rewrite E. cbn. auto.
  Qed.
End Lists.

Section CacheFacts.
  Context {K V : Type} (keq : K -> K -> bool) (compile : K -> prog K V V).
  Hypothesis keq_ok : forall a b, keq a b = true -> a = b.
  Notation Compiles := (Compiles compile).
  Notation Runs := (Runs compile).

  Lemma runs_det p : forall r, Runs p r -> forall r', Runs p r' -> r = r'.
  Proof.
    intros r Q. induction Q as [r|k cont r r1 Q1 IH1 Q2 IH2]; intros r' Q'; inversion Q'; subst; auto.
    match goal with A : Runs (compile k) ?x |- _ => assert (x = r) as -> by (symmetry; auto) end. auto.
  Qed.

  Definition sound (m : list (K * V)) : Prop := Forall (fun e => Compiles (fst e) (ROk (snd e))) m.
  Lemma sound_get m k v : sound m -> mget keq k m = Some v -> Compiles k (ROk v).
  Proof.
    induction 1 as [|[k' v'] m Hh Hm IH]; cbn; [discriminate|]. destruct (keq k k') eqn:Q; [|exact IH].
    intros [= <-]. rewrite (keq_ok _ _ Q). exact Hh.
  Qed.

  (** Map objects a thread is still filling. *)
  Definition owned_pc (p : pc K V) : list nat :=
    match p with Fill _ _ new _ | Publish _ new => [new] | _ => [] end.
  Definition owned_frames (l : list (frame K V)) : list nat := flat_map (fun f => owned_pc (f_pc f)) l.
  Definition owned (ts : list (thread K V)) : list nat := flat_map (fun t => owned_frames (t_stack t)) ts.

  (** Map objects published so far: every other one. *)
  Definition published (s : state K V) (m : nat) : Prop := m < length (maps s) /\ ~ In m (owned (threads s)).

  Section Good.
    Context (h : list (gomap K V)) (own : list nat).
    Definition pub (m : nat) : Prop := m < length h /\ ~ In m own.
    Definition good_pc (k : K) (p : pc K V) : Prop :=
      match p with
      | Load => True
      | Look m => pub m
      | Comp m p => pub m /\ forall r, Runs p r -> Compiles k r
      | Wait m k' cont => pub m /\ forall r r', Compiles k' r -> Runs (cont r) r' -> Compiles k r'
      | Make m v => pub m /\ Compiles k (ROk v)
      | Fill m v new todo => pub m /\ Compiles k (ROk v) /\ sound todo
      | Publish v new => Compiles k (ROk v)
      end.
    (** Only the innermost call runs; the others wait for the one above. *)
    Fixpoint good_stack (asked : option K) (l : list (frame K V)) : Prop :=
      match l with
      | [] => True
      | f :: l' => match asked with
                   | None => match f_pc f with Wait _ _ _ => False | _ => True end
                   | Some k => exists m cont, f_pc f = Wait m k cont
                   end /\ good_pc (f_key f) (f_pc f) /\ good_stack (Some (f_key f)) l'
      end.
    Definition good_thread (t : thread K V) : Prop :=
      good_stack None (t_stack t) /\ Forall (fun e => Compiles (fst e) (snd e)) (t_done t).
  End Good.

  Record inv (s : state K V) : Prop := {
    inv_current : pub (maps s) (owned (threads s)) (current s);
    inv_nodup : NoDup (owned (threads s));
    inv_owned : forall m, In m (owned (threads s)) -> m < length (maps s);
    inv_sound : Forall sound (maps s);
    inv_threads : Forall (good_thread (maps s) (owned (threads s))) (threads s) }.

  Lemma good_pc_mono h own h' own' k p : (forall m, pub h own m -> pub h' own' m) -> good_pc h own k p -> good_pc h' own' k p.
  Proof. intros Hm. destruct p; cbn; intuition. Qed.
  Lemma good_stack_mono h own h' own' l : (forall m, pub h own m -> pub h' own' m) -> forall k, good_stack h own k l -> good_stack h' own' k l.
  Proof.
    intros Hm. induction l as [|f l IH]; intros k; cbn; [auto|]. intros (H1 & H2 & H3). split; [exact H1|]. split; [|apply IH; exact H3].
    eapply good_pc_mono; eassumption.
  Qed.
  Lemma good_thread_mono h own h' own' t : (forall m, pub h own m -> pub h' own' m) -> good_thread h own t -> good_thread h' own' t.
  Proof. intros Hm [H1 H2]. split; [eapply good_stack_mono; eassumption|exact H2]. Qed.

  (** What one step of a call does to the heap and to what the call owns. *)
  Inductive effect (h : list (gomap K V)) (cur : nat) (own : list nat) : list (gomap K V) -> nat -> list nat -> Prop :=
  | ef_none : effect h cur own h cur own
  | ef_new : own = [] -> effect h cur own (h ++ [[]]) cur [length h]
  | ef_write new mm e : own = [new] -> nth_error h new = Some mm -> Compiles (fst e) (ROk (snd e)) ->
      effect h cur own (update new (e :: mm) h) cur own
  | ef_publish new : own = [new] -> effect h cur own h new [].
  Definition owned_next (x : pc K V + R V) : list nat := match x with inl p => owned_pc p | inr _ => [] end.

  Lemma fstep_effect h own cur k p a h' cur' x : Forall sound h -> good_pc h own k p -> pub h own cur ->
    fstep keq compile k h cur p a h' cur' x -> effect h cur (owned_pc p) h' cur' (owned_next x).
  Proof.
    intros Hs Hg Hc Q. destruct Q; cbn; try (constructor; auto; fail). apply (ef_write h cur [new] new mm (k', v')); auto.
    destruct Hg as (_ & _ & Ht). inversion Ht; subst. assumption.
  Qed.
  Lemma fstep_good h own cur k p a h' cur' p' own' : Forall sound h -> good_pc h own k p -> pub h own cur ->
    (forall m, pub h own m -> pub h' own' m) ->
    fstep keq compile k h cur p a h' cur' (inl p') -> good_pc h' own' k p' /\ match p' with Wait _ _ _ => False | _ => True end.
  Proof.
    intros Hs Hg Hc Hm Q. inversion Q; subst; cbn in *.
    - auto.
    - split; [|auto]. split; [auto|]. intros r Hr. exact Hr.
    - split; [|auto]. destruct Hg as [Hg Hr]. split; [auto|]. apply Hr. constructor.
    - split; [|auto]. destruct Hg as [Hg Hr]. split; [auto|]. split; [exact Hr|]. unfold sound. match goal with A : Permutation _ _ |- _ => rewrite A end. constructor; [exact Hr|].
      eapply (proj1 (Forall_forall _ _) Hs). eapply nth_error_In. eassumption.
    - split; [|auto]. destruct Hg as (Hg & Hr & Ht). split; [auto|]. split; [exact Hr|]. inversion Ht; subst. assumption.
    - tauto.
  Qed.
  Lemma fstep_result h own cur k p a h' cur' r : Forall sound h -> good_pc h own k p -> pub h own cur ->
    fstep keq compile k h cur p a h' cur' (inr r) -> Compiles k r.
  Proof.
    intros Hs Hg Hc Q. inversion Q; subst; cbn in *; try (apply (proj2 Hg); constructor); auto.
    eapply sound_get; [|eassumption]. eapply (proj1 (Forall_forall _ _) Hs). eapply nth_error_In. eassumption.
  Qed.

  (** What one step of a thread does. *)
  Lemma tstep_effect h own cur th a h' cur' th' : Forall sound h -> good_thread h own th -> pub h own cur ->
    tstep keq compile h cur th a h' cur' th' ->
    exists rest own1 own2, owned_frames (t_stack th) = own1 ++ rest /\ owned_frames (t_stack th') = own2 ++ rest /\ effect h cur own1 h' cur' own2.
  Proof.
    intros Hs [Hg Hd] Hc Q. destruct Q; cbn [t_stack] in *.
    - exists [], [], []. repeat split. constructor.
    - cbn in Hg. destruct Hg as (_ & Hg & _). exists (owned_frames fs), (owned_pc p), (owned_pc p'). repeat split.
      exact (fstep_effect _ _ _ _ _ _ _ _ _ Hs Hg Hc H).
    - exists (owned_frames fs), [], []. repeat split. constructor.
    - cbn in Hg. destruct Hg as (_ & Hg & _). exists (owned_frames fs), (owned_pc p), []. repeat split.
      exact (fstep_effect _ _ _ _ _ _ _ _ _ Hs Hg Hc H).
    - cbn in Hg. destruct Hg as (_ & Hg & _). exists [], (owned_pc p), []. repeat split.
      exact (fstep_effect _ _ _ _ _ _ _ _ _ Hs Hg Hc H).
  Qed.
  Lemma tstep_good h own cur th a h' cur' th' own' : Forall sound h -> good_thread h own th -> pub h own cur ->
    (forall m, pub h own m -> pub h' own' m) ->
    tstep keq compile h cur th a h' cur' th' -> good_thread h' own' th'.
  Proof.
    intros Hs [Hg Hd] Hc Hm Q. destruct Q; cbn [t_stack t_done] in *; cbn in Hg.
    - split; cbn; auto.
    - destruct Hg as (Hw & Hg & Hr). destruct (fstep_good _ _ _ _ _ _ _ _ _ own' Hs Hg Hc Hm H) as [G W].
      split; [|exact Hd]. cbn. split; [exact W|]. split; [exact G|]. eapply good_stack_mono; eassumption.
    - destruct Hg as (_ & (Hp & Hg) & Hr). split; [|exact Hd]. cbn. split; [auto|]. split; [auto|]. split; [eauto|]. split.
      + split; [auto|]. intros r r' Hk Hr'. apply Hg. econstructor; eassumption.
      + eapply good_stack_mono; eassumption.
    - destruct Hg as (_ & Hg & _ & (Hp & Hw) & Hr). split; [|exact Hd]. cbn. split; [auto|]. split.
      + split; [auto|]. intros r' Hr'. eapply Hw; [|exact Hr']. exact (fstep_result _ _ _ _ _ _ _ _ _ Hs Hg Hc H).
      + eapply good_stack_mono; eassumption.
    - destruct Hg as (_ & Hg & _). split; [exact I|]. constructor; [|exact Hd]. cbn. exact (fstep_result _ _ _ _ _ _ _ _ _ Hs Hg Hc H).
  Qed.
  Lemma owned_split l i th : nth_error l i = Some th -> exists a b, (l = a ++ th :: b /\ length a = i) /\
    owned l = owned a ++ owned_frames (t_stack th) ++ owned b /\
    forall th', update i th' l = a ++ th' :: b /\ owned (update i th' l) = owned a ++ owned_frames (t_stack th') ++ owned b.
  Proof.
    intros Q. destruct (update_split i th th l Q) as (a & b & -> & _ & L). exists a, b. split; [auto|].
    split; [unfold owned; rewrite flat_map_app; reflexivity|]. intros th'.
    destruct (update_split i th' th _ Q) as (a' & b' & E & U & L').
    assert (a' = a /\ b' = b) as [-> ->].
    { rewrite <- L in L'. clear - E L'. revert a' L' E. induction a as [|x a IH]; intros [|y a'] L' E; try discriminate; cbn in *.
      - injection E as E. auto.
      - injection L' as L'. injection E as -> E. destruct (IH a' L' E) as [-> ->]. auto. }
    rewrite U. split; [reflexivity|]. unfold owned. rewrite flat_map_app. reflexivity.
  Qed.

  Lemma effect_pub h cur own1 h' cur' own2 rest : effect h cur own1 h' cur' own2 ->
    (forall m, In m (own1 ++ rest) -> m < length h) -> NoDup (own1 ++ rest) -> pub h (own1 ++ rest) cur -> Forall sound h ->
    (forall m, pub h (own1 ++ rest) m -> pub h' (own2 ++ rest) m) /\ NoDup (own2 ++ rest) /\
    (forall m, In m (own2 ++ rest) -> m < length h') /\ pub h' (own2 ++ rest) cur' /\ Forall sound h' /\
    (forall m, pub h (own1 ++ rest) m -> nth_error h' m = nth_error h m).
  Proof.
    intros Q Ho Hn Hc Hs. destruct Q as [| -> |new mm e -> Hm He|new -> ]; cbn [app] in *.
    - intuition.
    - assert (forall m, pub h rest m -> pub (h ++ [[]]) (length h :: rest) m) as Hp.
      { intros m [L N]. split; [rewrite app_length; cbn; lia|]. intros [<-|I]; [lia|contradiction]. }
      split; [exact Hp|]. split; [constructor; [intros I; apply Ho in I; lia|exact Hn]|].
      split; [intros m [<-|I]; rewrite app_length; cbn; [lia|apply Ho in I; lia]|].
      split; [auto|]. split; [apply Forall_app; split; [exact Hs|constructor; constructor]|].
      intros m [L _]. apply nth_error_app1. exact L.
    - unfold gomap in *. assert (length (update new (e :: mm) h) = length h) as L by apply update_len.
      split; [intros m [A B]; split; [exact (eq_ind_r (fun n => _ < n) A L)|exact B]|]. split; [exact Hn|]. split; [intros m I; exact (eq_ind_r (fun n => m < n) (Ho m I) L)|].
      split; [destruct Hc as [A B]; split; [exact (eq_ind_r (fun n => _ < n) A L)|exact B]|].
      destruct (update_split new (e :: mm) mm h Hm) as (a & b & E & U & _). split.
      + rewrite U. rewrite E in Hs. apply Forall_app in Hs. destruct Hs as [S1 S2]. inversion S2; subst. apply Forall_app. split; [exact S1|].
        constructor; [constructor; assumption|assumption].
      + intros m [_ N]. apply update_other. intros <-. apply N. left. reflexivity.
    - inversion Hn as [|x l Hx Hl]; subst. split; [intros m [A B]; split; [exact A|intros I; apply B; right; exact I]|].
      split; [exact Hl|]. split; [intros m I; apply Ho; right; exact I|]. split; [split; [apply Ho; left; reflexivity|exact Hx]|]. auto.
  Qed.
  Lemma pub_perm h l l' m : Permutation l l' -> pub h l m -> pub h l' m.
  Proof. intros P [A B]. split; [exact A|]. intros I. apply B. eapply Permutation_in; [symmetry; exact P|exact I]. Qed.

  Lemma step_inv_published s i a s' : inv s -> step keq compile s i a s' ->
    inv s' /\ forall m, published s m -> published s' m /\ nth_error (maps s') m = nth_error (maps s) m.
  Proof.
    intros [I1 I2 I3 I4 I5] Q. destruct Q as [th h' cur' th' Hth Q].
    destruct (owned_split _ _ _ Hth) as (pre & post & [El _] & Eo & Eu). destruct (Eu th') as [Eu1 Eu2]. clear Eu.
    assert (good_thread (maps s) (owned (threads s)) th) as Hg.
    { eapply (proj1 (Forall_forall _ _) I5). eapply nth_error_In. exact Hth. }
    destruct (tstep_effect _ _ _ _ _ _ _ _ I4 Hg I1 Q) as (rest & own1 & own2 & E1 & E2 & Ef).
    assert (Permutation (owned (threads s)) (own1 ++ (rest ++ owned pre ++ owned post))) as P1.
    { rewrite Eo, E1. rewrite Permutation_app_comm. rewrite <- !app_assoc. apply Permutation_app_head. apply Permutation_app_head. apply Permutation_app_comm. }
    assert (Permutation (owned (update i th' (threads s))) (own2 ++ (rest ++ owned pre ++ owned post))) as P2.
    { rewrite Eu2, E2. rewrite Permutation_app_comm. rewrite <- !app_assoc. apply Permutation_app_head. apply Permutation_app_head. apply Permutation_app_comm. }
    destruct (effect_pub _ _ _ _ _ _ (rest ++ owned pre ++ owned post) Ef) as (R1 & R2 & R3 & R4 & R5 & R6).
    { intros m Hm. apply I3. eapply Permutation_in; [symmetry; exact P1|exact Hm]. }
    { eapply Permutation_NoDup; eassumption. }
    { eapply pub_perm; eassumption. }
    { exact I4. }
    assert (forall m, pub (maps s) (owned (threads s)) m -> pub h' (owned (update i th' (threads s))) m) as Hm.
    { intros m Hm. eapply pub_perm; [symmetry; exact P2|]. apply R1. eapply pub_perm; eassumption. }
    split.
    - split; cbn [maps current threads].
      + eapply pub_perm; [symmetry; exact P2|exact R4].
      + eapply Permutation_NoDup; [symmetry; exact P2|exact R2].
      + intros m I. apply R3. eapply Permutation_in; eassumption.
      + exact R5.
      + assert (Forall (good_thread h' (owned (update i th' (threads s)))) (threads s)) as I6.
        { eapply Forall_impl; [|exact I5]. intros t. apply good_thread_mono. exact Hm. }
        pose proof (tstep_good _ _ _ _ _ _ _ _ _ I4 Hg I1 Hm Q) as G. clear - I6 G El Eu1.
        revert I6 G. generalize (owned (update i th' (threads s))). intros o I6 G. rewrite Eu1. rewrite El in I6.
        apply Forall_app in I6. destruct I6 as [F1 F2]. inversion F2; subst. apply Forall_app. split; [exact F1|constructor; assumption].
    - intros m Hp. split; [apply Hm; exact Hp|]. apply R6. eapply pub_perm; eassumption.
  Qed.
  Lemma start_inv calls : inv (start V calls).
  Proof.
    assert (owned (map (fun l => Thread (V := V) [] l []) calls) = []) as E by (induction calls; cbn; auto).
    split; cbn [start maps current threads]; rewrite ?E.
    - split; [cbn; lia|intros []].
    - constructor.
    - intros m [].
    - repeat constructor.
    - apply Forall_forall. intros t Ht. apply in_map_iff in Ht. destruct Ht as (l & <- & _). split; [exact I|constructor].
  Qed.
  Lemma reachable_inv calls s : reachable keq compile calls s -> inv s.
  Proof.
    unfold reachable. intros Q. remember (start V calls) as s0 eqn:E. revert E. induction Q as [s|s i a s' s'' Q IH St]; intros ->; [apply start_inv|].
    exact (proj1 (step_inv_published _ _ _ _ (IH eq_refl) St)).
  Qed.

  (** Every completed call has the result of compiling without a cache. *)
  Theorem cache_transparent calls s i th k r : reachable keq compile calls s ->
    nth_error (threads s) i = Some th -> In (k, r) (t_done th) -> Compiles k r.
  Proof.
    intros Q Hth Hi. apply reachable_inv in Q. pose proof (proj1 (Forall_forall _ _) (inv_threads _ Q) th (nth_error_In _ _ Hth)) as [_ Hd].
    exact (proj1 (Forall_forall _ _) Hd _ Hi).
  Qed.
  (** A map that is or has been published never changes. *)
  Lemma steps_published s s' : steps keq compile s s' -> inv s -> inv s' /\ forall m, published s m -> published s' m /\ nth_error (maps s') m = nth_error (maps s) m.
  Proof.
    intros Q. induction Q as [s|s i a s' s'' Q IH St]; intros Hi; [split; auto|]. destruct (IH Hi) as [I1 I2].
    destruct (step_inv_published _ _ _ _ I1 St) as [J1 J2]. split; [exact J1|]. intros m Hm. destruct (I2 m Hm) as [A B]. destruct (J2 m A) as [C D].
    split; [exact C|congruence].
  Qed.
  Theorem cache_immutable calls s s' : reachable keq compile calls s -> steps keq compile s s' ->
    nth_error (maps s') (current s) = nth_error (maps s) (current s) /\ exists m, nth_error (maps s) (current s) = Some m /\ sound m.
  Proof.
    intros Q St. pose proof (reachable_inv _ _ Q) as Hi. destruct (steps_published _ _ St Hi) as [_ Hp]. split; [apply Hp; exact (inv_current _ Hi)|].
    destruct (inv_current _ Hi) as [L _]. destruct (nth_error (maps s) (current s)) as [m|] eqn:E; [|apply nth_error_None in E; lia].
    exists m. split; [reflexivity|]. eapply (proj1 (Forall_forall _ _) (inv_sound _ Hi)). eapply nth_error_In. exact E.
  Qed.

  (** No data race: a map object one goroutine writes to next is not touched by
      any other goroutine's next step. *)
  Lemma tstep_reads h own cur th a h' cur' th' m : Forall sound h -> good_thread h own th -> tstep keq compile h cur th a h' cur' th' ->
    (In (ARead m) a -> pub h own m) /\ (In (AWrite m) a -> In m (owned_frames (t_stack th))).
  Proof.
    intros Hs [Hg _] Q.
    assert (forall k p a x, good_pc h own k p -> fstep keq compile k h cur p a h' cur' x -> (In (ARead m) a -> pub h own m) /\ (In (AWrite m) a -> In m (owned_pc p))) as F.
    { intros k p a' x Hp F. destruct F; cbn in *; split; intros J; intuition congruence. }
    destruct Q; cbn [t_stack] in *; cbn in Hg; try (split; intros []);
      (destruct Hg as (_ & Hg & _); destruct (F _ _ _ _ Hg H) as [F1 F2]; split; [exact F1|intros J; cbn; apply in_or_app; left; auto]).
  Qed.
  Lemma nodup_apart (l : list (thread K V)) i j t1 t2 m : NoDup (owned l) -> i <> j -> nth_error l i = Some t1 -> nth_error l j = Some t2 ->
    In m (owned_frames (t_stack t1)) -> In m (owned_frames (t_stack t2)) -> False.
  Proof.
    intros N D H1 H2 I1 I2. destruct (owned_split _ _ _ H1) as (a & b & [El La] & Eo & _). rewrite Eo in N.
    assert (In m (owned a ++ owned b)) as J.
    { assert (forall x, In t2 x -> In m (owned x)) as W.
      { intros x I. unfold owned. apply in_flat_map. exists t2. auto. }
      rewrite El in H2. apply in_or_app. destruct (Nat.lt_ge_cases j (length a)) as [Lt|Ge].
      - rewrite nth_error_app1 in H2 by exact Lt. left. apply W. eapply nth_error_In. exact H2.
      - rewrite nth_error_app2 in H2 by exact Ge. destruct (j - length a) as [|d] eqn:Ed; [lia|]. cbn in H2. right. apply W. eapply nth_error_In. exact H2. }
    apply in_split in I1. destruct I1 as (p & q & E). rewrite E, <- app_assoc in N. cbn [app] in N. rewrite app_assoc in N. apply NoDup_remove_2 in N.
    apply N. apply in_app_or in J. rewrite !in_app_iff. tauto.
  Qed.
  Theorem cache_race_free calls s i j a a' s1 s2 m : reachable keq compile calls s -> i <> j ->
    step keq compile s i a s1 -> step keq compile s j a' s2 -> In (AWrite m) a -> ~ In (ARead m) a' /\ ~ In (AWrite m) a'.
  Proof.
    intros Q D S1 S2 W. apply reachable_inv in Q. destruct Q as [I1 I2 I3 I4 I5].
    destruct S1 as [th h' cur' th' Hth T1]. destruct S2 as [th2 h2 cur2 th2' Hth2 T2].
    pose proof (proj1 (Forall_forall _ _) I5 th (nth_error_In _ _ Hth)) as G1. pose proof (proj1 (Forall_forall _ _) I5 th2 (nth_error_In _ _ Hth2)) as G2.
    destruct (tstep_reads _ _ _ _ _ _ _ _ m I4 G1 T1) as [_ F1]. destruct (tstep_reads _ _ _ _ _ _ _ _ m I4 G2 T2) as [F2 F3].
    specialize (F1 W). split; intros J.
    - apply F2 in J. destruct J as [_ J]. apply J. unfold owned. apply in_flat_map. exists th. split; [eapply nth_error_In; exact Hth|exact F1].
    - apply F3 in J. exact (nodup_apart _ _ _ _ _ _ I2 D Hth Hth2 F1 J).
  Qed.

  (** No goroutine is ever blocked. *)
  Theorem cache_progress calls s i th : reachable keq compile calls s -> nth_error (threads s) i = Some th ->
    t_stack th <> [] \/ t_todo th <> [] -> exists a s', step keq compile s i a s'.
  Proof.
    intros Q Hth Hw. apply reachable_inv in Q. destruct Q as [I1 I2 I3 I4 I5].
    pose proof (proj1 (Forall_forall _ _) I5 th (nth_error_In _ _ Hth)) as G.
    assert (exists a h' cur' th', tstep keq compile (maps s) (current s) th a h' cur' th') as (a & h' & cur' & th' & T).
    2: { exists a. eexists. econstructor; eassumption. }
    assert (forall m, pub (maps s) (owned (threads s)) m -> exists mm, nth_error (maps s) m = Some mm) as L.
    { intros m [A _]. destruct (nth_error (maps s) m) eqn:E; [eauto|apply nth_error_None in E; lia]. }
    destruct th as [st todo done]. cbn in *. destruct G as [G _]. destruct st as [|[k p] fs].
    { destruct todo as [|k todo]; [tauto|]. do 4 eexists. constructor. }
    cbn in G. destruct G as (W & Gp & Gr). clear Hw.
    assert (exists a h' cur' x, fstep keq compile k (maps s) (current s) p a h' cur' x \/ exists m k' cont, p = Comp m (Ask k' cont)) as (a & h' & cur' & x & F).
    { destruct p as [|m|m [r|k' cont]|m k' cont|m v|m v new [|[k' v'] todo']|v new]; cbn in Gp; try contradiction.
      - do 4 eexists. left. constructor.
      - destruct (L m Gp) as [mm E]. destruct (mget keq k mm) eqn:Eg; do 4 eexists; left; econstructor; eassumption.
      - destruct r; do 4 eexists; left; constructor.
      - exists [], [], 0, (inr RFuel). right. eauto.
      - destruct (L m (proj1 Gp)) as [mm E]. do 4 eexists. left. econstructor; [eassumption|reflexivity].
      - do 4 eexists. left. constructor.
      - assert (new < length (maps s)) as Ln.
        { apply I3. unfold owned. apply in_flat_map. eexists. split; [eapply nth_error_In; exact Hth|]. cbn. auto. }
        destruct (nth_error (maps s) new) as [mm|] eqn:E; [|apply nth_error_None in E; lia]. do 4 eexists. left. econstructor. eassumption.
      - do 4 eexists. left. constructor. }
    destruct F as [F|(m & k' & cont & ->)]; [|do 4 eexists; apply ts_ask].
    destruct x as [p'|r]; [do 4 eexists; eapply ts_step; exact F|].
    destruct fs as [|[k1 p1] fs]; [do 4 eexists; apply ts_return; exact F|].
    cbn in Gr. destruct Gr as ((m & cont & ->) & _). do 4 eexists. eapply ts_answer. exact F.
  Qed.
End CacheFacts.
