(** Properties of Unmarshal, part 27: data that it does not understand (C88). *)
From Coq Require Import Strings.String Strings.Byte ZArith List Bool Lia.
From Verif Require Import Base GoTypes Tags Unmarshal Grammar Denote Context NumFacts ScanFacts TextFacts Typing Api CompileFacts UnmFacts StoreFacts Foreign Props1 Demo.
Import ListNotations.
Open Scope Z_scope.

Lemma foreign_first t : foreign t -> exists c r, t = c :: r /\ c <> "}"%byte.
Proof.
  intros F. destruct F as [c r Hc|p n es t B _ _|p n es k t B _ _ _].
  - exists c, r. split; [reflexivity|]. intros ->. apply Hc. cbn. tauto.
  - destruct B; cbn; eexists _, _; (split; [reflexivity|discriminate]).
  - destruct B; cbn; eexists _, _; (split; [reflexivity|discriminate]).
Qed.
(** An array that is whole and one that is not differ. *)
Lemma entries_apart t : forall es es' s, wf_entries es -> wf_entries es' ->
  (forall c r, t = c :: r -> c <> "}"%byte) -> t <> [] -> (forall q s', wf q -> text q ++ s' <> t) ->
  body es' ++ "}"%byte :: s <> body es ++ t.
Proof.
  induction es as [|[k v] es IH]; intros es' s He He' Hb Hn Ht EQ.
  - rewrite body_nil in EQ. destruct es' as [|[k' v'] es'].
    + rewrite body_nil in EQ. exact (Hb _ _ (eq_sym EQ) eq_refl).
    + rewrite body_cons in EQ. destruct (Forall_inv He') as [Hk _]. exact (Ht k' _ Hk EQ).
  - destruct es' as [|[k' v'] es'].
    + rewrite body_nil, body_cons in EQ. symmetry in EQ. apply letter_brace in EQ. exact EQ.
    + rewrite !body_cons in EQ. destruct (Forall_inv He) as [Hk Hv]. pose proof (Forall_inv_tail He) as He1. destruct (Forall_inv He') as [Hk' Hv']. pose proof (Forall_inv_tail He') as He1'. cbn [fst snd] in *.
      destruct (text_inj _ _ _ _ Hk' Hk EQ) as [-> EQ1]. destruct (text_inj _ _ _ _ Hv' Hv EQ1) as [-> EQ2].
      exact (IH es' s He1 He1' Hb Hn Ht EQ2).
Qed.
Lemma value_apart t : forall es es' k s, wf_entries es -> wf_entries es' -> wf k ->
  (forall q s', wf q -> text q ++ s' <> t) -> body es' ++ "}"%byte :: s <> body es ++ text k ++ t.
Proof.
  induction es as [|[k v] es IH]; intros es' k0 s He He' Hk0 Ht EQ.
  - rewrite body_nil in EQ. destruct es' as [|[k' v'] es'].
    + rewrite body_nil in EQ. symmetry in EQ. apply letter_brace in EQ. exact EQ.
    + rewrite body_cons in EQ. destruct (Forall_inv He') as [Hk Hv]. cbn [fst snd] in *. destruct (text_inj _ _ _ _ Hk Hk0 EQ) as [_ EQ1]. exact (Ht v' _ Hv EQ1).
  - destruct es' as [|[k' v'] es'].
    + rewrite body_nil, body_cons in EQ. symmetry in EQ. apply letter_brace in EQ. exact EQ.
    + rewrite !body_cons in EQ. destruct (Forall_inv He) as [Hk Hv]. pose proof (Forall_inv_tail He) as He1. destruct (Forall_inv He') as [Hk' Hv']. pose proof (Forall_inv_tail He') as He1'. cbn [fst snd] in *.
      destruct (text_inj _ _ _ _ Hk' Hk EQ) as [-> EQ1]. destruct (text_inj _ _ _ _ Hv' Hv EQ1) as [-> EQ2].
      exact (IH es' k0 s He1 He1' Hk0 Ht EQ2).
Qed.
(** The opening of an array or object tells which one it is. *)
Lemma opening_inv p n es q s r : body_of p n es -> wf p -> wf q -> text q ++ s = opening p ++ r ->
  wf_entries es /\ exists es', wf_entries es' /\ body es' ++ "}"%byte :: s = r.
Proof.
  intros B Hp Hq EQ. pose proof EQ as EL. destruct (text_letter q) as [x Hx]. rewrite Hx in EL. destruct B as [n es|cn cls n es Hcn Hlen].
  - inversion Hp as [| | | | |n1 es1 Hn He|]; subst n1 es1. split; [exact He|]. cbn in EL. injection EL as EL _.
    assert (opening (LArr n es) ++ r = "a"%byte :: ":"%byte :: n ++ ":"%byte :: "{"%byte :: r) as T by (cbn; rewrite <- app_assoc; reflexivity).
    rewrite T in EQ. destruct q as [|b|t|t|n' s'|n' es'|cn' cls' n' es']; try discriminate EL.
    inversion Hq as [| | | | |n1 es1 Hn' He'|]; subst n1 es1.
    rewrite text_arr in EQ. injection EQ as EQ. destruct (numeral_inj _ _ _ _ Hn' Hn EQ) as [_ E1]. injection E1 as E1. exists es'. split; assumption.
  - inversion Hp as [| | | | | |cn1 cls1 n1 es1 _ _ Hn He]; subst cn1 cls1 n1 es1. split; [exact He|]. cbn in EL. injection EL as EL _.
    assert (opening (LObj cn cls n es) ++ r = "O"%byte :: ":"%byte :: cn ++ ":"%byte :: qt :: cls ++ qt :: ":"%byte :: n ++ ":"%byte :: "{"%byte :: r) as T.
    { cbn. rewrite <- app_assoc. cbn. rewrite <- app_assoc. cbn. rewrite <- app_assoc. reflexivity. }
    rewrite T in EQ. destruct q as [|b|t|t|n' s'|n' es'|cn' cls' n' es']; try discriminate EL.
    inversion Hq as [| | | | | |cn1 cls1 n1 es1 Hcn' Hl' Hn' He']; subst cn1 cls1 n1 es1.
    rewrite text_obj in EQ. injection EQ as EQ. destruct (numeral_inj _ _ _ _ Hcn' Hcn EQ) as [-> E1]. injection E1 as E1.
    destruct (len_inj cls' cls _ _ ltac:(unfold blen in *; lia) E1) as [-> E2]. injection E2 as E2.
    destruct (numeral_inj _ _ _ _ Hn' Hn E2) as [_ E3]. injection E3 as E3. exists es'. split; assumption.
Qed.
Lemma foreign_no_text t : foreign t -> forall q s, wf q -> text q ++ s <> t.
Proof.
  intros F. induction F as [c r Hc|p n es t B Hp F IH|p n es k t B Hp Hk F IH]; intros q s Hq EQ.
  - destruct (text_letter q) as [x Hx]. rewrite Hx in EQ. injection EQ as EQ _. apply Hc. subst c. destruct q; cbn; tauto.
  - destruct (opening_inv _ _ _ _ _ _ B Hp Hq EQ) as (He & es' & He' & EB). destruct (foreign_first t F) as (c & r & Et & Hc).
    refine (entries_apart t es es' s He He' _ _ IH EB).
    + intros c' r' E'. congruence.
    + congruence.
  - destruct (opening_inv _ _ _ _ _ _ B Hp Hq EQ) as (He & es' & He' & EB). exact (value_apart t es es' k s He He' Hk IH EB).
Qed.

(** ** C88 Data that is not understood is never accepted.

    Whatever the destination, even one that ignores the place where it stands. *)
Theorem C88_rejected : forall X E data T v w, small data -> foreign data -> ~ Decodes X E data T v w.
Proof.
  intros X E data T v w Hsm F H. apply decodes_inv in H as (_ & p & -> & H); [|exact Hsm].
  apply (foreign_no_text _ F p [] (store_wf X E _ _ _ _ _ H)). apply app_nil_r.
Qed.
Print Assumptions C88_rejected.
(** In particular the values only PHP understands, wherever they stand. *)
Theorem C88_php_only : forall t r, php_only t -> foreign (t ++ r).
Proof. intros t r H. destruct H; cbn; apply fo_here; cbn; intuition discriminate. Qed.
Print Assumptions C88_php_only.
(** It is an error if the destination is one where Unmarshal never panics (C03;
    which data makes it panic elsewhere is C63). *)
Theorem C88_error : forall X E data T v, small data -> go_env E -> user_ok X E -> supported X E T ->
  slice_free E T -> keys_safe E T -> typed E T v -> foreign data -> exists w, Fails X E data T v w.
Proof.
  intros X E data T v Hsm He Hu Hs Hf Hk Hv F. apply (compile_iff X E T) in Hs as [cf Hc].
  destruct (unmarshal X E cf data (TgPtr T v)) as [w r] eqn:Q. exists w. destruct r as [[]|e|p|].
  - destruct (C88_rejected X E data T v w Hsm F). exists cf. exact Q.
  - exists cf, e. exact Q.
  - destruct (C03_no_panic X E data T v p Hsm He Hu Hf Hk Hv). exists cf. rewrite Q. reflexivity.
  - destruct (C01_accepted_type_returns X E cf data T v Hsm Hc). rewrite Q. reflexivity.
Qed.
Print Assumptions C88_error.

(** array('a' => 7, 'zzz' => array(0 => true, 1 => &$ref)) where Node has no field zzz *)
Definition data88 : bytes := bs "a:2:{s:1:""a"";i:7;s:3:""zzz"";a:2:{i:0;b:1;i:1;R:2;}}".
Example C88_example : small data88 /\ foreign data88 /\
  go_env Ed /\ user_ok Xd Ed /\ supported Xd Ed (TName 4) /\ slice_free Ed (TName 4) /\ keys_safe Ed (TName 4) /\ typed Ed (TName 4) (zero Ed (TName 4)) /\
  php_only (bs "R:2;").
Proof.
  assert (forall d, is_digit d = true -> numeral [d]) as D by (intros d Hd; split; [discriminate|cbn; rewrite Hd; reflexivity]).
  split; [reflexivity|]. split.
  { apply (fo_value (LArr (bs "2") [(LStr (bs "1") (bs "a"), LInt (bs "7"))]) (bs "2") [(LStr (bs "1") (bs "a"), LInt (bs "7"))] (LStr (bs "3") (bs "zzz"))
      (bs "a:2:{i:0;b:1;i:1;R:2;}}")).
    - apply body_arr.
    - apply wf_arr; [apply D; reflexivity|]. constructor; [|constructor]. split; [apply wf_str; [apply D; reflexivity|reflexivity]|eapply wf_int, it_pos, D; reflexivity].
    - apply wf_str; [apply D; reflexivity|reflexivity].
    - apply (fo_value (LArr (bs "2") [(LInt (bs "0"), LBool true)]) (bs "2") [(LInt (bs "0"), LBool true)] (LInt (bs "1")) (bs "R:2;}}")).
      + apply body_arr.
      + apply wf_arr; [apply D; reflexivity|]. constructor; [|constructor]. split; [eapply wf_int, it_pos, D; reflexivity|apply wf_bool].
      + eapply wf_int, it_pos, D; reflexivity.
      + apply (C88_php_only (bs "R:2;") (bs "}}")). apply (po_ref (bs "2")), D. reflexivity. }
  destruct C03_example as (A & B & C & F & G). split; [exact A|]. split; [exact B|]. split; [apply (compile_supported Xd Ed 9); vm_compute; reflexivity|].
  split; [exact C|]. split; [exact F|]. split; [exact G|]. apply (po_ref (bs "2")), D. reflexivity.
Qed.
