(** The grammar is unambiguous: texts of well formed values are prefix-free. *)
From Coq Require Import Strings.String Strings.Byte ZArith List Bool Lia.
From Verif Require Import Base GoTypes Tags Grammar Denote NumFacts ScanFacts.
Import ListNotations.
Open Scope Z_scope.

Lemma span_inj (p : byte -> bool) a a' x r r' :
  forallb p a = true -> forallb p a' = true -> p x = false ->
  a ++ x :: r = a' ++ x :: r' -> a = a' /\ r = r'.
Proof.
  revert a'; induction a as [|b a IH]; destruct a' as [|b' a']; cbn; intros Ha Ha' Hx E.
  - injection E as ->. auto.
  - injection E as <- _. apply andb_true_iff in Ha' as [H _]. congruence.
  - injection E as -> _. apply andb_true_iff in Ha as [H _]. congruence.
  - injection E as -> E. apply andb_true_iff in Ha as [_ Ha]. apply andb_true_iff in Ha' as [_ Ha'].
    destruct (IH a' Ha Ha' Hx E) as [-> ->]. auto.
Qed.
Lemma numeral_inj a a' r r' : numeral a -> numeral a' -> a ++ ":"%byte :: r = a' ++ ":"%byte :: r' -> a = a' /\ r = r'.
Proof. intros [_ H] [_ H']. apply (span_inj is_digit); auto. Qed.

Lemma len_inj {A} (a a' : list A) r r' : length a = length a' -> a ++ r = a' ++ r' -> a = a' /\ r = r'.
Proof.
  revert a'; induction a as [|x a IH]; destruct a' as [|x' a']; cbn; try discriminate; auto.
  intros [= L] [= -> E]. destruct (IH a' L E) as [-> ->]. auto.
Qed.

Lemma int_text_nosemi t z : int_text t z -> forallb (fun c => negb (c =b ";"%byte)) t = true.
Proof.
  assert (forall ds, forallb is_digit ds = true -> forallb (fun c => negb (c =b ";"%byte)) ds = true) as G.
  { induction ds as [|b ds IH]; cbn; auto. intros H. apply andb_true_iff in H as [H1 H2].
    rewrite (IH H2), andb_true_r. apply negb_true_iff, eqb_neq. intros ->. discriminate H1. }
  intros H. inversion H as [? [_ Hd]|? [_ Hd]]; subst; cbn; auto.
Qed.

Lemma letter_inj p q s s' : text p ++ s = text q ++ s' -> letter p = letter q.
Proof. destruct (text_letter p) as [r ->], (text_letter q) as [r' ->]. cbn. congruence. Qed.
Lemma letter_brace p s s' : text p ++ s <> "}"%byte :: s'.
Proof. destruct (text_letter p) as [r ->]. cbn. intros [= E _]. destruct p; discriminate E. Qed.

Definition wf_entries (es : list (lval * lval)) : Prop := Forall (fun e => wf (fst e) /\ wf (snd e)) es.

Lemma text_inj_f : forall n p q s s', (length (text p) <= n)%nat -> wf p -> wf q ->
  text p ++ s = text q ++ s' -> p = q /\ s = s'.
Proof.
  induction n as [|n IH]; intros p q s s' HL Hp Hq E; [pose proof (text_pos p); lia|].
  assert (forall es fs r r', (length (body es) <= n)%nat -> wf_entries es -> wf_entries fs ->
    body es ++ "}"%byte :: r = body fs ++ "}"%byte :: r' -> es = fs /\ r = r') as B.
  { induction es as [|[k v] es IHes]; intros [|[k' v'] fs] r r' HB He Hf EB.
    - injection EB as ->. auto.
    - rewrite body_nil, body_cons in EB. symmetry in EB. apply letter_brace in EB. destruct EB.
    - rewrite body_nil, body_cons in EB. apply letter_brace in EB. destruct EB.
    - rewrite !body_cons in EB. inversion He as [|? ? [Hk Hv] He']; inversion Hf as [|? ? [Hk' Hv'] Hf']; subst.
      cbn [fst snd] in *.
      assert (length (body ((k, v) :: es)) = length (text k) + length (text v) + length (body es))%nat as EL.
      { unfold body. cbn [flat_map fst snd]. rewrite !app_length. lia. }
      destruct (IH k k' _ _ ltac:(lia) Hk Hk' EB) as [-> EB'].
      destruct (IH v v' _ _ ltac:(lia) Hv Hv' EB') as [-> EB''].
      destruct (IHes fs r r' ltac:(lia) He' Hf' EB'') as [-> ->]. auto. }
  pose proof (letter_inj _ _ _ _ E) as EL.
  inversion Hp; subst; inversion Hq; subst; try discriminate EL; clear EL.
  - rewrite !text_null in E. injection E as ->. auto.
  - rewrite !text_bool in E. injection E as E ->. split; [|reflexivity]. destruct b, b0; cbn in E; congruence.
  - rewrite !text_int in E. injection E as E.
    destruct (span_inj (fun c => negb (c =b ";"%byte)) t t0 ";"%byte s s') as [-> ->]; auto;
      eapply int_text_nosemi; eauto.
  - rewrite !text_float in E. injection E as E.
    destruct (span_inj (fun c => negb (c =b ";"%byte)) t t0 ";"%byte s s') as [-> ->]; auto;
      apply nosemi_forallb; auto.
  - rewrite !text_str in E. injection E as E. destruct (numeral_inj _ _ _ _ H H1 E) as [-> E1].
    injection E1 as E1. destruct (len_inj s0 s1 _ _ ltac:(unfold blen in *; lia) E1) as [-> E2].
    injection E2 as ->. auto.
  - rewrite !text_arr in E. injection E as E. destruct (numeral_inj _ _ _ _ H H1 E) as [-> E1].
    injection E1 as E1. pose proof (text_arr n1 es []) as T. rewrite app_nil_r in T. rewrite T in HL.
    cbn [length] in HL. rewrite app_length in HL. cbn [length] in HL. rewrite app_length in HL.
    destruct (B es es0 _ _ ltac:(lia) H0 H2 E1) as [-> ->]. auto.
  - rewrite !text_obj in E. injection E as E. destruct (numeral_inj _ _ _ _ H H3 E) as [-> E1].
    injection E1 as E1. destruct (len_inj cls cls0 _ _ ltac:(unfold blen in *; lia) E1) as [-> E2].
    injection E2 as E2. destruct (numeral_inj _ _ _ _ H1 H5 E2) as [-> E3]. injection E3 as E3.
    pose proof (text_obj cn0 cls0 n1 es []) as T. rewrite app_nil_r in T. rewrite T in HL.
    cbn [length] in HL. repeat (rewrite app_length in HL; cbn [length] in HL).
    destruct (B es es0 _ _ ltac:(lia) H2 H6 E3) as [-> ->]. auto.
Qed.
Lemma text_inj p q s s' : wf p -> wf q -> text p ++ s = text q ++ s' -> p = q /\ s = s'.
Proof. intros. eapply text_inj_f; eauto. Qed.

(** Strict values are well formed. *)
Lemma strict_wf_f : forall n d p, (length (text p) <= n)%nat -> strict d p -> wf p.
Proof.
  induction n as [|n IH]; intros d p HL Hp; [pose proof (text_pos p); lia|].
  assert (forall es, (length (body es) <= n)%nat ->
    Forall (fun e => strict (d + 1) (fst e) /\ strict (d + 1) (snd e)) es -> wf_entries es) as B.
  { induction es as [|[k v] es IHes]; intros HB HF; [constructor|].
    inversion HF as [|? ? [Hk Hv] HF']; subst. cbn [fst snd] in *.
    assert (length (body ((k, v) :: es)) = length (text k) + length (text v) + length (body es))%nat as EL.
    { unfold body. cbn [flat_map fst snd]. rewrite !app_length. lia. }
    constructor; [split; cbn; eapply IH; eauto; lia|apply IHes; auto; lia]. }
  inversion Hp; subst; econstructor; eauto; apply B; auto.
  - pose proof (text_arr n0 es []) as T. rewrite app_nil_r in T. rewrite T in HL.
    cbn [length] in HL. repeat (rewrite app_length in HL; cbn [length] in HL). lia.
  - pose proof (text_obj cn cls n0 es []) as T. rewrite app_nil_r in T. rewrite T in HL.
    cbn [length] in HL. repeat (rewrite app_length in HL; cbn [length] in HL). lia.
Qed.
Lemma strict_wf d p : strict d p -> wf p.
Proof. eapply strict_wf_f. reflexivity. Qed.

(** Stored values are well formed. *)
Lemma any_val_wf_f X : forall n d p w, (length (text p) <= n)%nat -> any_val X d p w -> wf p.
Proof.
  induction n as [|n IH]; intros d p w HL Hp; [pose proof (text_pos p); lia|].
  assert (forall (K : lval -> gval -> Prop) m es m', (forall k w, K k w -> wf k) -> (length (body es) <= n)%nat ->
    map_entries K (any_val X (d + 1)) m es m' -> wf_entries es) as B.
  { intros K m es m' HK HB H. induction H as [|m k v es kv vv m' Hk Hv _ H IHH]; [constructor|].
    assert (length (body ((k, v) :: es)) = length (text k) + length (text v) + length (body es))%nat as EL.
    { unfold body. cbn [flat_map fst snd]. rewrite !app_length. lia. }
    constructor; [split; cbn; [eauto|eapply IH; eauto; lia]|apply IHH; lia]. }
  assert (forall k w, any_key k w -> wf k) as KA by (intros k w' Hk; inversion Hk; subst; econstructor; eauto; apply H).
  assert (forall k w, obj_key k w -> wf k) as KO by (intros k w' Hk; inversion Hk; subst; econstructor; eauto; apply H).
  inversion Hp; subst; try (econstructor; eauto; fail).
  - constructor; apply H.
  - constructor; auto. eapply B; [| |eauto]; auto.
    pose proof (text_arr n0 es []) as T. rewrite app_nil_r in T. rewrite T in HL.
    cbn [length] in HL. repeat (rewrite app_length in HL; cbn [length] in HL). lia.
  - inversion H0; subst. constructor; auto. eapply B; [| |eauto]; auto.
    pose proof (text_obj cn cls n0 es []) as T. rewrite app_nil_r in T. rewrite T in HL.
    cbn [length] in HL. repeat (rewrite app_length in HL; cbn [length] in HL). lia.
Qed.
Lemma any_val_wf X d p w : any_val X d p w -> wf p.
Proof. eapply any_val_wf_f. reflexivity. Qed.

Lemma body_len k v es : length (body ((k, v) :: es)) = (length (text k) + length (text v) + length (body es))%nat.
Proof. unfold body. cbn [flat_map fst snd]. rewrite !app_length. lia. Qed.
Lemma arr_len n es : (length (body es) + 3 <= length (text (LArr n es)))%nat.
Proof.
  pose proof (text_arr n es []) as T. rewrite app_nil_r in T. rewrite T.
  cbn [length]. repeat (rewrite app_length; cbn [length]). lia.
Qed.
Lemma obj_len cn cls n es : (length (body es) + 3 <= length (text (LObj cn cls n es)))%nat.
Proof.
  pose proof (text_obj cn cls n es []) as T. rewrite app_nil_r in T. rewrite T.
  cbn [length]. repeat (rewrite app_length; cbn [length]). lia.
Qed.
Lemma body_of_len p n es : body_of p n es -> (length (body es) + 3 <= length (text p))%nat.
Proof. intros H. inversion H; subst; [apply arr_len|apply obj_len]. Qed.

Section StoreWf.
  Context (X : Ext) (E : env).

  Lemma store_quoted_wf T p v w : store_quoted X E T p v w -> wf p.
  Proof. intros H. inversion H; subst; try constructor; match goal with H : str_ok _ _ |- _ => apply H end. Qed.

  Lemma body_of_wf p n es : body_of p n es -> numeral n -> wf_entries es -> wf p.
  Proof. intros H. inversion H; subst; intros; constructor; auto. Qed.

  Lemma store_wf_f : forall n,
    (forall d T p v w, (length (text p) <= n)%nat -> store X E d T p v w -> wf p) /\
    (forall d T p w, (length (text p) <= n)%nat -> store_key X E d T p w -> wf p).
  Proof.
    induction n as [|n [IHs IHk]]; [split; intros; pose proof (text_pos p); lia|].
    assert (forall d T p v w, (length (text p) <= S n)%nat -> is_ptr E T = false -> store X E d T p v w -> wf p) as G.
    { intros d T p v w HL Hnp H.
      inversion H; subst; try (constructor; fail); try (econstructor; eauto; fail);
        try (eapply strict_wf; eauto; fail); try (eapply any_val_wf; eauto; fail);
        try (constructor; apply H1; fail); try (constructor; apply H2; fail).
      - eapply wf_int. apply it_pos. exact H1.
      - apply wf_arr; [split; [discriminate|reflexivity]|constructor].
      - constructor; auto. pose proof (arr_len n0 es) as LA.
        assert (length (body es) <= n)%nat as LB by lia. clear - IHs H7 LB.
        induction H7; [constructor|..]; rewrite body_len in LB; constructor;
          try (split; cbn; [econstructor; apply H|eapply IHs; eauto; lia]); apply IHslice_entries; lia.
      - apply wf_arr; [split; [discriminate|reflexivity]|constructor].
      - constructor; auto. pose proof (arr_len n0 es) as LA.
        assert (length (body es) <= n)%nat as LB by lia. clear - IHs H6 LB.
        induction H6; [constructor|..]; rewrite body_len in LB; constructor; try (apply IHarray_entries; lia).
        + split; cbn; [econstructor; apply H|eapply IHs; eauto; lia].
        + split; cbn; [econstructor; apply H|eapply strict_wf; eauto].
      - eapply body_of_wf; eauto. apply body_of_len in H2.
        assert (length (body es) <= n)%nat as LB by lia. clear - IHs IHk H5 LB.
        induction H5; [constructor|]. rewrite body_len in LB. constructor; [|apply IHmap_entries; lia].
        split; cbn; [eapply IHk; eauto; lia|eapply IHs; eauto; lia].
      - eapply body_of_wf; eauto. apply body_of_len in H2.
        assert (length (body es) <= n)%nat as LB by lia. clear - IHs H4 LB.
        assert (forall kp k, key_text kp k -> wf kp) as KT by (intros kp k HK; inversion HK; subst; constructor; apply H).
        induction H4; [constructor|..]; rewrite body_len in LB; (constructor; [|apply IHstruct_entries; lia]);
          (split; cbn; [eauto|]).
        + eapply IHs; eauto; lia.
        + eapply store_quoted_wf; eauto.
        + eapply strict_wf; eauto.
      - unfold is_ptr in Hnp. destruct H0 as [_ Hk]. rewrite Hk in Hnp. discriminate. }
    assert (forall d T p v w, (length (text p) <= S n)%nat -> store X E d T p v w -> wf p) as G'.
    { intros d T p v w HL H. destruct (is_ptr E T) eqn:Ep; [|eapply G; eauto].
      unfold is_ptr in Ep.
      inversion H; subst; try (eapply strict_wf; eauto; fail); try (constructor; fail);
        try (match goal with HH : plain _ _ _ |- _ => destruct HH as [_ Hk]; rewrite Hk in Ep; discriminate end).
      eapply G; eauto. }
    split; [exact G'|].
    intros d T p w HL H. inversion H; subst; [eapply G'; eauto|constructor].
  Qed.
  Lemma store_wf d T p v w : store X E d T p v w -> wf p.
  Proof. apply (proj1 (store_wf_f _) d T p v w (le_n _)). Qed.
End StoreWf.
