(** Compiling through the cache is compiling (EncCompile.v). *)
From Coq Require Import Strings.String Strings.Byte ZArith List Bool Lia.
From Verif Require Import Base GoTypes Tags EncCompile Php Repr EncCompileFacts Cache CacheFacts CacheEnc.
Import ListNotations.

Section Facts.
  Context (X : Ext) (E : env) (fuel : nat).
  Definition accepted {A} (r : R A) : R unit := _ <- r ;; ROk tt.
  (** the outcome of compiling [t] *)
  Definition outcome (t : gty) (r : R unit) : Prop := r = RFuel \/ exists f, accepted (ecompile_f X E f false [] t) = r.

  Inductive runs {A} : prog gty unit A -> R A -> Prop :=
  | ru_done r : runs (Done r) r
  | ru_ask t c r r' : outcome t r -> runs (c r) r' -> runs (Ask t c) r'.
  Lemma runs_bind {A B} (p : prog gty unit A) (k : A -> prog gty unit B) r : runs (bindP p k) r ->
    exists ra, runs p ra /\ match ra with ROk a => runs (k a) r | RErr e => r = RErr e | RPanic e => r = RPanic e | RFuel => r = RFuel end.
  Proof.
    revert r. induction p as [ra|t c IH]; intros r Q.
    - exists ra. split; [constructor|]. destruct ra; cbn in Q; [exact Q|inversion Q; auto..].
    - cbn in Q. inversion Q; subst. match goal with A : runs (bindP _ _) _ |- _ => apply IH in A; destruct A as (ra & A1 & A2) end.
      exists ra. split; [econstructor; eassumption|exact A2].
  Qed.

  Lemma fields_runs f fs : (forall s t r, runs (cprog X E f false s t) r -> r <> RFuel -> exists f', ecompile_f X E f' false s t = r) ->
    forall s r, runs (cprog_fields X E (cprog X E f false) s fs) r -> r <> RFuel ->
    exists f', ecompile_fields X E (ecompile_f X E f' false) s fs = r.
  Proof.
    intros IH. induction fs as [|g fs IHf]; intros s r Q Hr; cbn [cprog_fields] in Q.
    { inversion Q; subst. exists 0%nat. reflexivity. }
    cbn [ecompile_fields]. destruct (enc_skipped X g); [apply IHf; assumption|].
    set (k := kind_of E (f_ty g)) in *. set (tg := match k with KPtr t' => t' | _ => f_ty g end) in *.
    destruct (match k with KPtr t' => ptr_kind (kind_of E t') | _ => false end); [inversion Q; exists 0%nat; reflexivity|].
    destruct (f_anon g && struct_kind k); [inversion Q; exists 0%nat; reflexivity|].
    destruct (tag_string (tag_of X g)).
    { destruct (as_string_kind (kind_of E tg)); [apply IHf; assumption|inversion Q; exists 0%nat; reflexivity]. }
    apply runs_bind in Q. destruct Q as (ra & Q1 & Q2).
    assert (ra <> RFuel) as Hra by (intros ->; congruence).
    destruct (IH _ _ _ Q1 Hra) as [f1 E1]. destruct ra as [s'|e|e|]; [|subst r; exists f1; rewrite E1; reflexivity..|congruence].
    destruct (IHf _ _ Q2 Hr) as [f2 E2]. exists (Nat.max f1 f2).
    rewrite (ecompile_mono X E f1 false s tg ltac:(congruence) (Nat.max f1 f2) ltac:(lia)), E1. cbn [bind].
    rewrite <- E2. apply ecompile_fields_mono; [|congruence]. intros s1 t1 Hn. apply ecompile_mono; [exact Hn|lia].
  Qed.
  Lemma cprog_runs : forall f b s t r, runs (cprog X E f b s t) r -> r <> RFuel -> exists f', ecompile_f X E f' b s t = r.
  Proof.
    induction f as [|f IH]; intros b s t r Q Hr; cbn [cprog] in Q; [inversion Q; congruence|].
    assert (forall f' x, (exists f'', f' = S f'') -> x = r -> ecompile_f X E f' b s t = x -> exists f', ecompile_f X E f' b s t = r) as W.
    { intros f' x _ <- Q'. eauto. }
    assert (forall g : nat -> R (list gty), (forall n, ecompile_f X E (S n) b s t = g n) -> (exists n, g n = r) -> exists f', ecompile_f X E f' b s t = r) as V.
    { intros g Hg [n Hn]. exists (S n). rewrite Hg. exact Hn. }
    destruct (negb b && implements E t) eqn:Q1.
    { inversion Q; subst. exists 1%nat. cbn [ecompile_f]. rewrite Q1. reflexivity. }
    destruct (negb b && is_bytes t) eqn:Q2.
    { inversion Q; subst. exists 1%nat. cbn [ecompile_f]. rewrite Q1, Q2. reflexivity. }
    destruct (kind_of E t) as [| |u| | | |t'|n t'|k v|t'| | | |id fs] eqn:Qk;
      try (inversion Q; subst; exists 1%nat; cbn [ecompile_f]; rewrite Q1, Q2, Qk; reflexivity).
    - destruct u; (inversion Q; subst; exists 1%nat; cbn [ecompile_f]; rewrite Q1, Q2, Qk; reflexivity).
    - destruct (mem_ty t s) eqn:Qm; [inversion Q; subst; exists 1%nat; cbn [ecompile_f]; rewrite Q1, Q2, Qk, Qm; reflexivity|].
      destruct (IH _ _ _ _ Q Hr) as [f' E']. exists (S f'). cbn [ecompile_f]. rewrite Q1, Q2, Qk, Qm. exact E'.
    - inversion Q as [|? ? r0 ? Ho Q']; subst. inversion Q'; subst. destruct Ho as [->|[f' Ho]]; [exfalso; apply Hr; reflexivity|].
      exists (S f'). cbn [ecompile_f]. rewrite Q1, Q2, Qk. unfold accepted in Ho. rewrite <- Ho. destruct (ecompile_f X E f' false [] t'); reflexivity.
    - destruct (mem_ty t s) eqn:Qm; [inversion Q; subst; exists 1%nat; cbn [ecompile_f]; rewrite Q1, Q2, Qk, Qm; reflexivity|].
      destruct (enc_key_kind (kind_of E k)) eqn:Qe; [|inversion Q; subst; exists 1%nat; cbn [ecompile_f]; rewrite Q1, Q2, Qk, Qm, Qe; reflexivity].
      destruct (IH _ _ _ _ Q Hr) as [f' E']. exists (S f'). cbn [ecompile_f]. rewrite Q1, Q2, Qk, Qm, Qe. exact E'.
    - destruct (kind_of E t') eqn:Qt;
        try (inversion Q; subst; exists 1%nat; cbn [ecompile_f]; rewrite Q1, Q2, Qk, Qt; reflexivity);
        destruct (IH _ _ _ _ Q Hr) as [f' E']; exists (S f'); cbn [ecompile_f]; rewrite Q1, Q2, Qk, Qt; exact E'.
    - destruct (mem_ty t s) eqn:Qm; [inversion Q; subst; exists 1%nat; cbn [ecompile_f]; rewrite Q1, Q2, Qk, Qm; reflexivity|].
      destruct (fields_runs f fs (fun s t r => IH false s t r) _ _ Q Hr) as [f' E']. exists (S f'). cbn [ecompile_f]. rewrite Q1, Q2, Qk, Qm. exact E'.
  Qed.
  Lemma type_outcome t r : runs (compile_type X E fuel t) r -> outcome t r.
  Proof.
    intros Q. apply runs_bind in Q. destruct Q as (ra & Q1 & Q2). destruct ra as [s|e|e|]; [inversion Q2; subst|subst r..].
    - right. destruct (cprog_runs _ _ _ _ _ Q1 ltac:(discriminate)) as [f' E']. exists f'. rewrite E'. reflexivity.
    - right. destruct (cprog_runs _ _ _ _ _ Q1 ltac:(discriminate)) as [f' E']. exists f'. rewrite E'. reflexivity.
    - right. destruct (cprog_runs _ _ _ _ _ Q1 ltac:(discriminate)) as [f' E']. exists f'. rewrite E'. reflexivity.
    - left. reflexivity.
  Qed.
  Lemma runs_runs p r : Runs (compile_type X E fuel) p r -> runs p r.
  Proof. induction 1 as [r|t c r r' Q1 IH1 Q2 IH2]; [constructor|]. econstructor; [|exact IH2]. apply type_outcome. exact IH1. Qed.

  Theorem encoder_cache calls s i th t r : reachable gty_eqb (compile_type X E fuel) calls s ->
    nth_error (threads s) i = Some th -> In (t, r) (t_done th) -> r <> RFuel -> exists f, accepted (ecompile_f X E f false [] t) = r.
  Proof.
    intros Q Hth Hi Hr. assert (outcome t r) as [->|Ho]; [|congruence|exact Ho].
    apply type_outcome, runs_runs. exact (cache_transparent gty_eqb _ (fun a b => proj1 (gty_eqb_eq a b)) calls s i th t r Q Hth Hi).
  Qed.
End Facts.
