(** Skipping a value accepts exactly the strict grammar. *)
From Coq Require Import Strings.String Strings.Byte ZArith List Bool Lia.
From Verif Require Import Base Strconv Scan Grammar NumFacts ScanFacts.
Import ListNotations.
Open Scope Z_scope.

Lemma pos_text buf c p s : pos buf c (text p ++ s) -> pos buf (c + blen (text p)) s.
Proof. intros H. eapply pos_app; [exact H|reflexivity]. Qed.

Definition value_at (S : lval -> Prop) (buf : bytes) (s : bytes) (c' : Z) : Prop :=
  exists p s', S p /\ s = text p ++ s' /\ pos buf c' s'.

Lemma skip_entries_out buf skip (P : lval -> Prop) (L : nat) :
  (forall c s, pos buf c s -> (length s < L)%nat -> outcome (skip c) (value_at P buf s)) ->
  forall n len c s, pos buf c s -> (length s < n)%nat -> (length s < L)%nat ->
  outcome (skip_entries skip n len c) (fun c' => exists es s',
    Z.max 0 len = blen es /\ Forall (fun e => P (fst e) /\ P (snd e)) es /\
    s = body es ++ s' /\ pos buf c' s').
Proof.
  intros Hs n. induction n as [|n IH]; intros len c s H Hn HL; [lia|].
  cbn [skip_entries]. destruct (len <=? 0) eqn:E.
  - apply Z.leb_le in E. cbn [outcome]. exists [], s. split; [cbn; lia|]. auto.
  - apply Z.leb_gt in E.
    eapply outcome_bind; [apply Hs; eassumption|]. intros c1 (k & s1 & Hk & -> & H1).
    rewrite app_length in *. pose proof (text_pos k) as Tk.
    eapply outcome_bind; [apply Hs; [eassumption|lia]|]. intros c2 (p & s2 & Hp & -> & H2).
    rewrite app_length in *. pose proof (text_pos p) as Tp.
    eapply outcome_imp; [apply IH; [eassumption|lia|lia]|].
    intros c' (es & s' & Hl & HF & -> & H'). exists ((k, p) :: es), s'. split; [rewrite blen_cons; lia|].
    split; [constructor; auto|]. split; [rewrite body_cons; reflexivity|exact H'].
Qed.

Lemma skip_value_f_out buf : small buf -> forall fuel c d s,
  pos buf c s -> (length s < fuel)%nat ->
  outcome (skip_value_f fuel buf c d) (value_at (strict d) buf s).
Proof.
  intros Hsm fuel. induction fuel as [|f IH]; intros c d s H HL; [lia|].
  cbn [skip_value_f]. destruct s as [|b s]; [rewrite (pos_has_nil _ _ H); exact I|].
  assert (forall cur s0, pos buf (cur + 1) s0 -> (length s0 <= length s)%nat ->
    outcome (skip_array (fun c0 => skip_value_f f buf c0 (d + 1)) buf (cur + 1) (d + 1))
      (fun c' => exists n es s', d < 10000 /\ numeral n /\ num n = blen es /\
         Forall (fun e => strict (d + 1) (fst e) /\ strict (d + 1) (snd e)) es /\
         s0 = ":"%byte :: n ++ ":"%byte :: "{"%byte :: body es ++ "}"%byte :: s' /\ pos buf c' s')) as Harr.
  { intros cur s0 H0 L0.
    unfold skip_array. destruct (max_depth <? d + 1) eqn:E; [exact I|].
    apply Z.ltb_ge in E. unfold max_depth in E.
    eapply outcome_bind; [apply read_length_out; exact H0|].
    intros [n c1] (ds & s1 & Hd & -> & -> & Hn & -> & H1). cbn beta iota.
    destruct s1 as [|b1 s1]; [rewrite (pos_has_nil _ _ H1); exact I|].
    rdn H1. destruct (b1 =b "{"%byte) eqn:Eb; cbn [negb]; [|exact I]. apply eqb_eq in Eb as ->.
    pose proof (pos_cons _ _ _ _ H1) as H2.
    cbn [length] in HL, L0. rewrite app_length in L0. cbn [length] in L0.
    eapply outcome_bind.
    { eapply (skip_entries_out buf _ (strict (d + 1)) f); [|exact H2| |lia].
      - intros c' s' H' L'. apply IH; [exact H'|lia].
      - pose proof (pos_len _ _ _ H2) as L2. apply pos_nonneg in H1. unfold blen in L2 at 1 3.
        apply pos_nonneg in H0. lia. }
    intros c2 (es & s2 & Hl & HF & -> & H3). cbn beta.
    destruct s2 as [|b2 s2]; [rewrite (pos_has_nil _ _ H3); exact I|].
    rdn H3. destruct (b2 =b "}"%byte) eqn:Eb; cbn [negb]; [|exact I]. apply eqb_eq in Eb as ->.
    cbn [outcome]. exists ds, es, s2. repeat split; auto; try apply Hd; try lia.
    eapply pos_cons; exact H3. }
  rdn H.
  destruct (b =b "O"%byte) eqn:E0.
  { apply eqb_eq in E0 as ->. eapply outcome_bind; [apply class_name_out; [exact Hsm|exact H]|].
    intros c1 (cn & cls & s1 & Hcn & Hcl & Es & H1). cbn beta.
    eapply outcome_imp; [apply Harr; [exact H1|]|].
    - injection Es as ->. cbn [length]. rewrite app_length. cbn [length]. rewrite app_length. cbn [length]. lia.
    - intros c' (n & es & s' & Hd & Hn & Hl & HF & E & H'). injection E as ->. rewrite Es.
      exists (LObj cn cls n es), s'. repeat split; auto.
      + constructor; auto.
      + rewrite text_obj. reflexivity. }
  destruct (b =b "a"%byte) eqn:E1.
  { apply eqb_eq in E1 as ->. eapply outcome_imp; [apply Harr; [eapply pos_cons; exact H|lia]|].
    intros c' (n & es & s' & Hd & Hn & Hl & HF & -> & H'). exists (LArr n es), s'. repeat split; auto.
    + constructor; auto.
    + rewrite text_arr. reflexivity. }
  destruct (b =b "s"%byte) eqn:E2.
  { apply eqb_eq in E2 as ->. unfold skip_string. rdn H. change ("s"%byte =b "s"%byte) with true. cbn [negb].
    eapply outcome_bind; [apply read_string_out; [exact Hsm|eapply pos_cons; exact H]|].
    intros [str c'] (ds & s' & Hd & Hl & -> & H'). exists (LStr ds str), s'. repeat split; auto.
    + constructor; auto.
    + rewrite text_str. reflexivity. }
  destruct (b =b "d"%byte) eqn:E3.
  { eapply outcome_bind; [apply float_out; exact H|].
    intros [t c'] (s' & Ht & -> & H'). exists (LFloat t), s'. repeat split; auto.
    + destruct Ht. constructor; auto.
    + rewrite text_float. reflexivity. }
  destruct (b =b "i"%byte) eqn:E4.
  { unfold skip_int. eapply outcome_bind; [apply integer_out; exact H|].
    intros [t c'] (z & s' & Ht & -> & H'). exists (LInt t), s'. repeat split; auto.
    + econstructor; eauto.
    + rewrite text_int. reflexivity. }
  destruct (b =b "b"%byte) eqn:E5.
  { eapply outcome_bind; [apply bool_out; exact H|].
    intros v (s' & -> & H'). exists (LBool v), s'. repeat split; auto.
    + econstructor; eauto.
    + rewrite text_bool. reflexivity. }
  destruct (b =b "N"%byte) eqn:E6; [|exact I].
  apply eqb_eq in E6 as ->. eapply outcome_bind; [eapply null_out; exact H|].
  intros _ (s' & -> & H'). exists LNull, s'. repeat split; auto. constructor.
Qed.

Lemma skip_value_out buf c d s : small buf -> pos buf c s ->
  outcome (skip_value buf c d) (value_at (strict d) buf s).
Proof.
  intros Hsm H. unfold skip_value. apply skip_value_f_out; auto.
  pose proof (pos_len _ _ _ H) as L. apply pos_nonneg in H. unfold blen in L. lia.
Qed.

Lemma skip_entries_ok buf skip (P : lval -> Prop) :
  forall (es : list (lval * lval)),
  (forall c p s, P p -> (length (text p) <= length (body es))%nat -> pos buf c (text p ++ s) ->
     exists c', skip c = ROk c' /\ pos buf c' s) ->
  Forall (fun e => P (fst e) /\ P (snd e)) es ->
  forall n c s, pos buf c (body es ++ s) -> (length (body es) <= n)%nat ->
  exists c', skip_entries skip n (blen es) c = ROk c' /\ pos buf c' s.
Proof.
  induction es as [|[k p] es IH]; intros Hs HF n c s H Hn.
  - exists c. split; [destruct n; reflexivity|exact H].
  - rewrite body_cons in H. inversion HF as [|? ? [Hk Hp] HF']; subst. cbn [fst snd] in Hk, Hp.
    assert (length (body ((k, p) :: es)) = length (text k) + length (text p) + length (body es))%nat as EL.
    { unfold body. cbn [flat_map fst snd]. rewrite !app_length. lia. }
    pose proof (text_pos k) as Tk. pose proof (text_pos p) as Tp.
    destruct n as [|n]; [lia|]. cbn [skip_entries].
    replace (blen ((k, p) :: es) <=? 0) with false by (symmetry; apply Z.leb_gt; rewrite blen_cons; pose proof (blen_nonneg es); lia).
    destruct (Hs c k _ Hk ltac:(lia) H) as (c1 & -> & H1). cbn [bind].
    destruct (Hs c1 p _ Hp ltac:(lia) H1) as (c2 & -> & H2). cbn [bind].
    rewrite blen_cons. replace (1 + blen es - 1) with (blen es) by lia.
    apply IH; auto; [|lia]. intros c' p' s' Hp' L' H'. apply (Hs c' p' s'); auto. lia.
Qed.

Lemma skip_array_ok buf skip (P : lval -> Prop) n es c d s :
  (forall c p s, P p -> (length (text p) <= length (body es))%nat -> pos buf c (text p ++ s) ->
     exists c', skip c = ROk c' /\ pos buf c' s) ->
  Forall (fun e => P (fst e) /\ P (snd e)) es -> numeral n -> num n = blen es -> d <= 10000 ->
  small buf ->
  pos buf c (":"%byte :: n ++ ":"%byte :: "{"%byte :: body es ++ "}"%byte :: s) ->
  exists c', skip_array skip buf c d = ROk c' /\ pos buf c' s.
Proof.
  intros Hs HF Hn Hl Hd Hsm H. unfold skip_array.
  replace (max_depth <? d) with false by (symmetry; apply Z.ltb_ge; unfold max_depth; lia).
  assert (length es <= length (body es))%nat as LB.
  { clear. induction es as [|[k p] es IH]; [cbn; lia|]. unfold body in *. cbn [flat_map fst snd length]. rewrite !app_length.
    pose proof (text_pos k). lia. }
  assert (length (body es) < length buf)%nat as LB2.
  { apply pos_len in H as L. apply pos_nonneg in H. rewrite blen_cons, blen_app, !blen_cons, blen_app in L. unfold blen in L. lia. }
  assert (2 ^ 62 < max_int64) as HM by reflexivity. unfold small in Hsm.
  destruct (read_length_ok _ _ _ _ H Hn ltac:(unfold blen in *; lia)) as [-> H1]. cbn [bind].
  rdn H1. change ("{"%byte =b "{"%byte) with true. cbn [negb].
  pose proof (pos_cons _ _ _ _ H1) as H2. rewrite Hl.
  destruct (skip_entries_ok buf skip P es Hs HF (length buf) _ _ H2 ltac:(lia)) as (c2 & -> & H3). cbn [bind].
  rdn H3. change ("}"%byte =b "}"%byte) with true. cbn [negb].
  eexists. split; [reflexivity|]. eapply pos_cons. exact H3.
Qed.

Lemma skip_value_f_ok buf : small buf -> forall fuel p d c s,
  strict d p -> pos buf c (text p ++ s) -> (length (text p) <= fuel)%nat ->
  exists c', skip_value_f fuel buf c d = ROk c' /\ pos buf c' s.
Proof.
  intros Hsm fuel. induction fuel as [|f IH]; intros p d c s Hp H HL; [pose proof (text_pos p); lia|].
  cbn [skip_value_f]. inversion Hp; subst.
  - rewrite text_null in H. rdn H. cbn -[validate_null]. apply null_ok in H as [-> H]. cbn [bind]. eauto.
  - rewrite text_bool in H. rdn H. cbn -[read_bool]. apply bool_ok in H as [-> H]. cbn [bind]. eauto.
  - rewrite text_int in H. rdn H. cbn -[read_integer_bytes]. unfold skip_int.
    destruct (integer_ok _ _ _ _ _ H H0) as (c' & -> & H'). cbn [bind]. eauto.
  - rewrite text_float in H. rdn H. cbn -[read_float_bytes].
    destruct (float_ok _ _ _ _ H ltac:(split; auto)) as (c' & -> & H'). cbn [bind]. eauto.
  - rewrite text_str in H. rdn H. unfold skip_string. rdn H. cbn -[read_string].
    destruct (read_string_ok _ _ _ _ _ Hsm (pos_cons _ _ _ _ H) H0 H1) as (c' & -> & H'). cbn [bind]. eauto.
  - rewrite text_arr in H. rdn H. cbn -[skip_array].
    apply (skip_array_ok buf _ (strict (d + 1)) n es); auto; [|lia|eapply pos_cons; exact H].
    intros c' p' s' Hp' L' H'. apply (IH p'); auto.
    pose proof (text_arr n es []) as T. rewrite app_nil_r in T. rewrite T in HL.
    cbn [length] in HL. rewrite app_length in HL. cbn [length] in HL. rewrite app_length in HL. lia.
  - rewrite text_obj in H. rdn H. cbn -[skip_array skip_class_name].
    destruct (class_name_ok _ _ _ _ _ Hsm H H1 H2) as (c1 & -> & H1'). cbn [bind].
    apply (skip_array_ok buf _ (strict (d + 1)) n es); auto; [|lia].
    intros c' p' s' Hp' L' H'. apply (IH p'); auto.
    pose proof (text_obj cn cls n es []) as T. rewrite app_nil_r in T. rewrite T in HL.
    cbn [length] in HL. rewrite app_length in HL. cbn [length] in HL. rewrite app_length in HL.
    cbn [length] in HL. rewrite app_length in HL. cbn [length] in HL. rewrite app_length in HL. lia.
Qed.
Lemma skip_value_ok buf c d p s : small buf -> strict d p -> pos buf c (text p ++ s) ->
  exists c', skip_value buf c d = ROk c' /\ pos buf c' s.
Proof.
  intros Hsm Hp H. eapply skip_value_f_ok; eauto.
  pose proof (pos_len _ _ _ H) as L. apply pos_nonneg in H. rewrite blen_app in L. unfold blen in L. lia.
Qed.
