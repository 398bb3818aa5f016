(** Where and why Unmarshal panics: proofs. *)
From Coq Require Import Strings.String Strings.Byte ZArith List Bool Lia Floats.SpecFloat.
From Verif Require Import Base GoTypes Strconv Tags Scan Decode Unmarshal Grammar Denote Typing Api NumFacts ScanFacts SkipFacts Sound SoundT
  TextFacts Complete CompileFacts UnmFacts Context LocalFacts ShiftFacts SliceHead ContextFacts Safe Panics.
Import ListNotations.
Open Scope Z_scope.

(** ** Headers, up to the '{' *)
Definition opens (maxlen : bool) (buf s : bytes) (h : hdr) : Prop :=
  match h with
  | HNull _ => True
  | HBody c' => exists n mk s', numeral n /\ (maxlen = true -> num n <= max_int64) /\ header_mk n mk /\
      (forall es, s = opening (mk es) ++ s') /\ (length s' + 2 <= length s)%nat /\ pos buf c' s'
  end.
Definition aopens (buf s : bytes) (h : ahdr) : Prop :=
  match h with
  | AhBody len c' => exists n s', numeral n /\ len = num n /\ num n <= max_int64 /\
      hd_error n <> Some "0"%byte /\ (forall es, s = opening (LArr n es) ++ s') /\
      (length s' + 2 <= length s)%nat /\ pos buf c' s'
  | _ => True
  end.

Lemma prefix_opens e buf c b s : small buf -> pos buf c (b :: s) ->
  outcome (if b =b "O"%byte then cend <- skip_class_name buf c ;; ROk (cend + 1)
           else if b =b "a"%byte then ROk (c + 1) else RErr e)
    (fun cur => exists s1, pos buf cur s1 /\ (length s1 <= length s)%nat /\
       forall n r, s1 = ":"%byte :: n ++ ":"%byte :: "{"%byte :: r ->
         exists mk, header_mk n mk /\ forall es, b :: s = opening (mk es) ++ r).
Proof.
  intros Hsm H. destruct (b =b "O"%byte) eqn:E.
  { apply eqb_eq in E as ->. eapply outcome_bind; [apply class_name_out; eassumption|].
    intros cend (cn & cls & s' & Hcn & Hcl & Es & H'). cbn [outcome].
    exists (":"%byte :: s'). split; [exact H'|]. split.
    - injection Es as ->. cbn [length]. rewrite app_length. cbn [length]. rewrite app_length. cbn [length]. lia.
    - intros n r En. injection En as ->. exists (LObj cn cls n). split; [right; eauto|].
      intros es. rewrite opening_obj. exact Es. }
  destruct (b =b "a"%byte) eqn:E1; [|exact I]. apply eqb_eq in E1 as ->. cbn [outcome].
  exists s. split; [eapply pos_cons; exact H|]. split; [lia|].
  intros n r ->. exists (LArr n). split; [left; reflexivity|]. intros es. rewrite opening_arr. reflexivity.
Qed.
Lemma map_header_opens buf c d s : small buf -> pos buf c s ->
  outcome (map_header buf c d) (fun h => d < limit /\ opens true buf s h).
Proof.
  intros Hsm H. unfold map_header. destruct s as [|b s]; [rewrite (pos_has_nil _ _ H); exact I|]. rdn H.
  destruct (max_depth <? d + 1) eqn:Ed; [exact I|]. apply Z.ltb_ge in Ed.
  assert (d < limit) as Hd by (unfold max_depth, limit in *; lia).
  destruct (b =b "N"%byte) eqn:E.
  { apply eqb_eq in E as ->. eapply outcome_bind; [eapply null_out; exact H|]. intros _ _. cbn. auto. }
  eapply outcome_bind; [apply prefix_opens; eassumption|].
  intros cur (s1 & H1 & L1 & K). cbn beta.
  eapply outcome_bind; [apply read_length_out; exact H1|].
  intros [n c1] (ds & s2 & Hds & -> & -> & Hn & -> & H2). cbn beta iota.
  destruct s2 as [|x s2]; [rewrite (pos_has_nil _ _ H2); exact I|]. rdn H2.
  destruct (x =b "{"%byte) eqn:E2; cbn [negb]; [|exact I]. apply eqb_eq in E2 as ->.
  cbn [outcome]. split; [exact Hd|]. destruct (K ds s2 eq_refl) as (mk & Hmk & Kmk).
  exists ds, mk, s2. split; [exact Hds|]. split; [lia|]. split; [exact Hmk|]. split; [exact Kmk|].
  split; [|eapply pos_cons; exact H2].
  cbn [length] in L1 |- *. rewrite app_length in L1. cbn [length] in L1. lia.
Qed.
Lemma struct_header_opens buf c d s : small buf -> pos buf c s ->
  outcome (struct_header buf c d) (fun h => d < limit /\ opens false buf s h).
Proof.
  intros Hsm H. unfold struct_header. destruct s as [|b s]; [rewrite (pos_has_nil _ _ H); exact I|]. rdn H.
  destruct (max_depth <? d + 1) eqn:Ed; [exact I|]. apply Z.ltb_ge in Ed.
  assert (d < limit) as Hd by (unfold max_depth, limit in *; lia).
  destruct (b =b "N"%byte) eqn:E.
  { apply eqb_eq in E as ->. eapply outcome_bind; [eapply null_out; exact H|]. intros _ _. cbn. auto. }
  eapply outcome_bind; [apply prefix_opens; eassumption|].
  intros cur (s1 & H1 & L1 & K). cbn beta.
  destruct s1 as [|x s1]; [rewrite (pos_has_nil _ _ H1); exact I|]. rdn H1.
  destruct (x =b ":"%byte) eqn:E0; cbn [negb]; [|exact I].
  eapply outcome_bind; [apply skip_length_out; exact H1|].
  intros c1 (ds & s2 & Hds & Es & -> & H2). cbn beta iota.
  destruct s2 as [|y s2]; [rewrite (pos_has_nil _ _ H2); exact I|]. rdn H2.
  destruct (y =b "{"%byte) eqn:E2; cbn [negb]; [|exact I]. apply eqb_eq in E2 as ->.
  cbn [outcome]. split; [exact Hd|]. rewrite Es in L1. destruct (K ds s2 Es) as (mk & Hmk & Kmk).
  exists ds, mk, s2. split; [exact Hds|]. split; [discriminate|]. split; [exact Hmk|]. split; [exact Kmk|].
  split; [|eapply pos_cons; exact H2].
  cbn [length] in L1 |- *. rewrite app_length in L1. cbn [length] in L1. lia.
Qed.
Lemma array_header_opens buf c d s : pos buf c s ->
  outcome (array_header buf c d) (fun h => d < limit /\ aopens buf s h).
Proof.
  intros H. unfold array_header, seq_header. destruct s as [|b s]; [rewrite (pos_has_nil _ _ H); exact I|]. rdn H.
  destruct (max_depth <? d + 1) eqn:Ed; [exact I|]. apply Z.ltb_ge in Ed.
  assert (d < limit) as Hd by (unfold max_depth, limit in *; lia).
  destruct (b =b "N"%byte) eqn:E.
  { apply eqb_eq in E as ->. eapply outcome_bind; [eapply null_out; exact H|]. intros _ _. cbn. auto. }
  destruct (b =b "a"%byte) eqn:Ea; [|exact I]. apply eqb_eq in Ea as ->.
  pose proof (pos_cons _ _ _ _ H) as H1. cbn zeta.
  destruct s as [|x s]; [rewrite (pos_has_nil _ _ H1); exact I|]. rdn H1.
  destruct (x =b ":"%byte) eqn:E0; cbn [negb]; [|exact I]. apply eqb_eq in E0 as ->.
  pose proof (pos_cons _ _ _ _ H1) as H2.
  destruct s as [|y s]; [rewrite (pos_has_nil _ _ H2); exact I|]. rdn H2.
  destruct (y =b "0"%byte) eqn:Ey.
  { apply eqb_eq in Ey as ->. eapply outcome_bind; [eapply empty_array_out; exact H2|]. intros _ _. cbn [outcome]. cbn. auto. }
  replace (c + 1 + 1 - 1) with (c + 1) by lia. unfold read_length_int.
  eapply outcome_bind; [apply read_length_out; exact H1|].
  intros [n c1] (ds & s2 & Hds & Es & -> & Hn & -> & H3). cbn beta iota.
  destruct s2 as [|z s2]; [rewrite (pos_has_nil _ _ H3); exact I|]. rdn H3.
  destruct (z =b "{"%byte) eqn:E2; cbn [negb]; [|exact I]. apply eqb_eq in E2 as ->.
  cbn [outcome]. split; [exact Hd|]. exists ds, s2. split; [exact Hds|]. split; [reflexivity|]. split; [lia|].
  injection Es as Es.
  split.
  { destruct ds as [|d0 ds]; [discriminate|]. cbn. cbn [app] in Es. injection Es as -> _.
    apply eqb_neq in Ey. congruence. }
  split; [intros es; rewrite opening_arr, Es; reflexivity|].
  split; [|eapply pos_cons; exact H3]. rewrite Es. cbn [length]. rewrite app_length. cbn [length]. lia.
Qed.
Lemma slice_header_opens buf c d s : pos buf c s ->
  outcome (slice_header buf c d) (fun h => d < limit /\ aopens buf s h).
Proof.
  intros H. destruct (slice_header_cases buf c d) as [->|(e0 & -> & _)]; [apply array_header_opens, H|exact I].
Qed.

(** ** Success satisfies [Q], panics satisfy [P] *)
Definition pout {A} (r : A * R Z) (Q : A -> Prop) (P : panic -> A -> Prop) : Prop :=
  match snd r with ROk _ => Q (fst r) | RPanic p => P p (fst r) | _ => True end.
Lemma pout_imp {A} (r : A * R Z) (Q Q' : A -> Prop) (P P' : panic -> A -> Prop) :
  pout r Q P -> (forall a, Q a -> Q' a) -> (forall p a, P p a -> P' p a) -> pout r Q' P'.
Proof. unfold pout. destruct (snd r); auto. Qed.
(** a decoder that panics on indexes only, and never does *)
Lemma pout_leaf {A} (r : A * R Z) (Q : A -> Prop) B P : okp r Q -> dout r B -> pout r Q P.
Proof. unfold okp, dout, pout. destruct (snd r); auto. intros -> H. congruence. Qed.

Lemma leaf_both {A} (r : A * R Z) (Q : A -> Prop) B : okp r Q -> dout r B ->
  dout r (fun w c => B w c /\ Q w) /\ forall w p, r <> (w, RPanic p).
Proof.
  unfold okp, dout. destruct r as [w0 r]. cbn [fst snd]. destruct r; intros HQ HB; split; auto; intros w p' Q0; try congruence.
Qed.

Lemma map_loop_pout buf (kd vd : Z -> dres) (K V : lval -> gval -> Prop) (TK TV : gval -> Prop) (L : nat) :
  (forall c s, pos buf c s -> s <> [] -> (length s <= L)%nat -> dout (kd c) (fun w c' => reads K buf s w c' /\ TK w)) ->
  (forall c s, pos buf c s -> s <> [] -> (length s <= L)%nat -> dout (vd c) (fun w c' => reads V buf s w c' /\ TV w)) ->
  forall n c m s, pos buf c s -> (length s < n)%nat -> (length s <= L)%nat ->
  Forall (fun e => TK (fst e) /\ TV (snd e)) m ->
  pout (map_loop kd vd buf n c m) (Forall (fun e => TK (fst e) /\ TV (snd e)))
    (fun p m' => exists es s1 c1, s = entries es ++ s1 /\ map_entries K V m es m' /\ pos buf c1 s1 /\ s1 <> [] /\
       ((exists k, kd c1 = (k, RPanic p)) \/
        exists kp kv s2 c2, K kp kv /\ s1 = text kp ++ s2 /\ pos buf c2 s2 /\ s2 <> [] /\
          ((exists v, vd c2 = (v, RPanic p)) \/
           exists q w s3, V q w /\ s2 = text q ++ s3 /\ hashable kv = false /\ p = PUnhashable))).
Proof.
  intros Hk Hv n. induction n as [|n IH]; intros c m s H Hn HL Hm; [exact I|].
  cbn [map_loop]. destruct s as [|b0 s0] eqn:Es0; [rewrite (pos_has_nil _ _ H); exact I|].
  rdn H. assert (s <> []) as Hne by (subst; discriminate). rewrite <- Es0 in *. clear Es0 b0 s0.
  pose proof (Hk c s H Hne HL) as DK. destruct (kd c) as [k [c1|e|p|]] eqn:Ek; try exact I.
  2:{ unfold pout. cbn [snd fst]. exists [], s, c. repeat split; auto; [constructor|]. left. exists k. exact Ek. }
  unfold dout in DK. cbn [fst snd] in DK. destruct DK as [(kp & s1 & HK & Es & H1) TKk].
  pose proof (text_pos kp) as Tk. assert (length s = length (text kp) + length s1)%nat as L1 by (rewrite Es; apply app_length).
  destruct s1 as [|b1 s1'] eqn:Es1; [rewrite (pos_has_nil _ _ H1); exact I|].
  rdn H1. assert (s1 <> []) as Hne1 by (subst; discriminate). rewrite <- Es1 in *. clear Es1 b1 s1'.
  pose proof (Hv c1 s1 H1 Hne1 ltac:(lia)) as DV. destruct (vd c1) as [v [c2|e|p|]] eqn:Ev; try exact I.
  2:{ unfold pout. cbn [snd fst fail]. exists [], s, c. repeat split; auto; [constructor|]. right. exists kp, k, s1, c1. repeat split; auto. left. exists v. exact Ev. }
  unfold dout in DV. cbn [fst snd] in DV. destruct DV as [(q & s2 & HV & Es' & H2) TVv].
  pose proof (text_pos q) as Tq. assert (length s1 = length (text q) + length s2)%nat as L2 by (rewrite Es'; apply app_length).
  destruct (hashable k) eqn:Hh; cbn [negb].
  2:{ unfold pout. cbn [snd fst]. exists [], s, c. repeat split; auto; [constructor|]. right. exists kp, k, s1, c1. repeat split; auto. right. exists q, v, s2. auto. }
  assert (Forall (fun e => TK (fst e) /\ TV (snd e)) (map_set k v m)) as Hm' by (apply map_set_all; auto).
  destruct s2 as [|b2 s2'] eqn:Es2; [rewrite (pos_has_nil _ _ H2); exact I|].
  rdn H2. rewrite <- Es2 in *. destruct (b2 =b "}"%byte); [exact Hm'|].
  eapply pout_imp; [apply (IH c2 _ s2 H2 ltac:(lia) ltac:(lia) Hm')|auto|].
  intros p m' (es & s3 & c3 & E3 & Hme & R). exists ((kp, q) :: es), s3, c3. split; [|split; [econstructor; eauto|exact R]].
  rewrite Es, Es', E3. cbn [entries flat_map fst snd]. rewrite <- !app_assoc. reflexivity.
Qed.

Lemma slice_loop_pout X E et buf (ed : Z -> gval -> dres) (V : lval -> gval -> gval -> Prop) (TV : gval -> Prop) (L : nat) :
  TV (zero E et) ->
  (forall c s old, pos buf c s -> s <> [] -> (length s <= L)%nat -> TV old -> dout (ed c old) (fun w c' => reads (fun p w => V p old w) buf s w c' /\ TV w)) ->
  forall n c l rv s, pos buf c s -> (length s < n)%nat -> (length s <= L)%nat -> Forall TV l ->
  pout (slice_loop X E et ed buf n c l rv) (fun w => exists l', w = VSlice (Some l') /\ Forall TV l')
    (fun p w => exists es l1 ti i s1 c1, s = entries es ++ text (LInt ti) ++ s1 /\
       slice_entries (x_slots X et) (zero E et) V l es l1 /\ index_text ti i /\ pos buf c1 s1 /\ s1 <> [] /\
       ((exists old v, nth_error l1 i = Some old /\ TV old /\ ed c1 old = (v, RPanic p) /\ w = VSlice (Some (update l1 i v))) \/
        ((length l1 <= i)%nat /\ w = match es with [] => rv | _ => VSlice (Some l1) end /\
         ((Z.of_nat i < max_int64 /\ x_slots X et (Z.of_nat i + 1) = true /\ exists v, ed c1 (zero E et) = (v, RPanic p)) \/
          (~ (Z.of_nat i < max_int64 /\ x_slots X et (Z.of_nat i + 1) = true) /\ p = PAlloc))))).
Proof.
  intros Hz He n. induction n as [|n IH]; intros c l rv s H Hn HL Hl; [exact I|].
  cbn [slice_loop]. destruct s as [|b0 s0] eqn:Es0; [rewrite (pos_has_nil _ _ H); exact I|].
  rdn H. rewrite <- Es0 in *. clear Es0 b0 s0.
  pose proof (read_int_out _ _ _ H) as RI. pose proof (rok_read_int buf c) as RK.
  destruct (read_int buf c) as [[idx c1]|e|p|]; try exact I; [|cbn in RI, RK; tauto]. clear RK.
  cbn [outcome] in RI. destruct RI as (t & s1 & Ht & Hidx & Es & H1).
  destruct s1 as [|b1 s1'] eqn:Es1; [rewrite (pos_has_nil _ _ H1); exact I|].
  rdn H1. assert (s1 <> []) as Hne1 by (subst; discriminate). rewrite <- Es1 in *. clear Es1 b1 s1'.
  assert (S (length s1) <= length s)%nat as L1.
  { subst s. cbn [length]. rewrite app_length. cbn [length]. lia. }
  rewrite <- text_int in Es.
  assert (index_text t (Z.to_nat idx)) as Hit by (unfold index_text; rewrite Z2Nat.id by lia; split; [exact Ht|lia]).
  set (PP := fun p w => exists es l1 ti i s1 c1, s = entries es ++ text (LInt ti) ++ s1 /\
       slice_entries (x_slots X et) (zero E et) V l es l1 /\ index_text ti i /\ pos buf c1 s1 /\ s1 <> [] /\
       ((exists old v, nth_error l1 i = Some old /\ TV old /\ ed c1 old = (v, RPanic p) /\ w = VSlice (Some (update l1 i v))) \/
        ((length l1 <= i)%nat /\ w = match es with [] => rv | _ => VSlice (Some l1) end /\
         ((Z.of_nat i < max_int64 /\ x_slots X et (Z.of_nat i + 1) = true /\ exists v, ed c1 (zero E et) = (v, RPanic p)) \/
          (~ (Z.of_nat i < max_int64 /\ x_slots X et (Z.of_nat i + 1) = true) /\ p = PAlloc))))).
  assert (forall l1 (pv : lval) s2 c2, Forall TV l1 -> s1 = text pv ++ s2 -> pos buf c2 s2 ->
    (forall es l', slice_entries (x_slots X et) (zero E et) V l1 es l' -> slice_entries (x_slots X et) (zero E et) V l ((LInt t, pv) :: es) l') ->
    pout (if negb (has_byte buf c2) then (VSlice (Some l1), RErr (ESyntax c2 (WEnd "array")))
          else match rd buf c2 with
               | ROk b => if b =b "}"%byte then (VSlice (Some l1), ROk (c2 + 1))
                          else slice_loop X E et ed buf n c2 l1 (VSlice (Some l1))
               | r => (VSlice (Some l1), fail r)
               end) (fun w => exists l', w = VSlice (Some l') /\ Forall TV l') PP) as CONT.
  { intros l1 pv s2 c2 Hl1 E2 H2 HS. destruct s2 as [|b s2']; [rewrite (pos_has_nil _ _ H2); exact I|].
    rdn H2. destruct (b =b "}"%byte) eqn:Eb; [exists l1; auto|].
    assert (length s1 = length (text pv) + length (b :: s2'))%nat as EL by (rewrite E2; apply app_length).
    eapply pout_imp; [apply (IH c2 l1 (VSlice (Some l1)) _ H2 ltac:(lia) ltac:(lia) Hl1)|auto|].
    intros p w (es & l2 & ti & i & s3 & c3 & E3 & Hse & Hi & H3 & Hne3 & R). exists ((LInt t, pv) :: es), l2, ti, i, s3, c3.
    split; [rewrite Es, E2, E3; cbn [entries flat_map fst snd]; rewrite <- !app_assoc; reflexivity|].
    split; [apply HS; exact Hse|]. split; [exact Hi|]. split; [exact H3|]. split; [exact Hne3|].
    destruct R as [R|(R1 & -> & R2)]; [left; exact R|right]. split; [exact R1|]. split; [|exact R2].
    destruct es; [|reflexivity]. inversion Hse; subst. reflexivity. }
  destruct (idx <? blen l) eqn:Ei.
  - apply Z.ltb_lt in Ei. rewrite index_ok by lia.
    assert (Z.to_nat idx < length l)%nat as Hlt by (unfold blen in Ei; lia).
    assert (TV (nth (Z.to_nat idx) l VOther)) as Told by (rewrite Forall_forall in Hl; apply Hl, nth_In, Hlt).
    pose proof (He c1 s1 (nth (Z.to_nat idx) l VOther) H1 Hne1 ltac:(lia) Told) as D.
    pose proof (nth_error_nth_lt l (Z.to_nat idx) VOther Hlt) as Hnth.
    destruct (ed c1 (nth (Z.to_nat idx) l VOther)) as [v [c2|e|p|]] eqn:Ed; try exact I.
    + destruct D as [(pv & s2 & Vp & E2 & H2) Tv]. cbn [fst] in Vp, Tv.
      apply (CONT _ pv s2 c2); auto.
      * apply Forall_update; auto.
      * intros es l' Hse. eapply se_in with (i := Z.to_nat idx); eauto.
    + unfold pout. cbn [snd fst fail]. exists [], l, t, (Z.to_nat idx), s1, c1. split; [exact Es|]. split; [constructor|].
      split; [exact Hit|]. split; [exact H1|]. split; [exact Hne1|]. left. exists (nth (Z.to_nat idx) l VOther), v. auto.
  - apply Z.ltb_ge in Ei. assert (length l <= Z.to_nat idx)%nat as Hlen by (unfold blen in Ei; lia).
    destruct ((wrap64 (idx + 1) <? 0) || negb (x_slots X et (wrap64 (idx + 1)))) eqn:Ew.
    { unfold pout. cbn [snd fst fail]. exists [], l, t, (Z.to_nat idx), s1, c1. split; [exact Es|]. split; [constructor|].
      split; [exact Hit|]. split; [exact H1|]. split; [exact Hne1|]. right. split; [exact Hlen|]. split; [reflexivity|]. right. split; [|reflexivity].
      rewrite Z2Nat.id by lia. intros [Q1 Q2]. rewrite wrap64_id in Ew by (unfold min_int64; lia). rewrite Q2 in Ew.
      apply orb_true_iff in Ew as [Ew|Ew]; [apply Z.ltb_lt in Ew; lia|discriminate]. }
    apply orb_false_iff in Ew as [Ew1 Ew2]. apply Z.ltb_ge in Ew1. apply negb_false_iff in Ew2.
    assert (idx < max_int64) as Hlt.
    { destruct (Z.eq_dec idx max_int64) as [->|]; [|lia]. exfalso. revert Ew1. vm_compute. tauto. }
    rewrite wrap64_id in Ew2 |- * by (unfold min_int64; lia). rewrite index_ok by lia.
    pose proof (He c1 s1 (zero E et) H1 Hne1 ltac:(lia) Hz) as D.
    destruct (ed c1 (zero E et)) as [v [c2|e|p|]] eqn:Ed; try exact I.
    + destruct D as [(pv & s2 & Vp & E2 & H2) Tv]. cbn [fst] in Vp, Tv.
      apply (CONT _ pv s2 c2); auto.
      * apply Forall_app. split; [exact Hl|]. apply Forall_app. split; [|auto].
        apply Forall_forall. intros x Hx. apply repeat_spec in Hx as ->. exact Hz.
      * intros es l' Hse. eapply se_grow with (i := Z.to_nat idx); eauto; rewrite ?Z2Nat.id by lia; auto.
    + unfold pout. cbn [snd fst fail]. exists [], l, t, (Z.to_nat idx), s1, c1. split; [exact Es|]. split; [constructor|].
      split; [exact Hit|]. split; [exact H1|]. split; [exact Hne1|]. right. split; [exact Hlen|]. split; [reflexivity|]. left.
      rewrite Z2Nat.id by lia. repeat split; eauto.
Qed.

Lemma array_loop_pout buf d (ed : Z -> gval -> dres) (V : lval -> gval -> gval -> Prop) (TV : gval -> Prop) (L : nat) : small buf ->
  (forall c s old, pos buf c s -> s <> [] -> (length s <= L)%nat -> TV old -> dout (ed c old) (fun w c' => reads (fun p w => V p old w) buf s w c' /\ TV w)) ->
  forall n c l s, pos buf c s -> (length s < n)%nat -> (length s <= L)%nat -> Forall TV l ->
  pout (array_loop ed buf d n c l) (fun l' => length l' = length l /\ Forall TV l')
    (fun p w => exists es l1 ti i s1 c1 old v, s = entries es ++ text (LInt ti) ++ s1 /\
       array_entries d V l es l1 /\ index_text ti i /\ pos buf c1 s1 /\ s1 <> [] /\
       nth_error l1 i = Some old /\ TV old /\ ed c1 old = (v, RPanic p) /\ w = update l1 i v).
Proof.
  intros Hsm He n. induction n as [|n IH]; intros c l s H Hn HL Hl; [exact I|].
  cbn [array_loop]. destruct s as [|b0 s0] eqn:Es0; [rewrite (pos_has_nil _ _ H); exact I|].
  rdn H. rewrite <- Es0 in *. clear Es0 b0 s0.
  pose proof (read_int_out _ _ _ H) as RI. pose proof (rok_read_int buf c) as RK.
  destruct (read_int buf c) as [[idx c1]|e|p|]; try exact I; [|cbn in RI, RK; tauto]. clear RK.
  cbn [outcome] in RI. destruct RI as (t & s1 & Ht & Hidx & Es & H1).
  destruct s1 as [|b1 s1'] eqn:Es1; [rewrite (pos_has_nil _ _ H1); exact I|].
  rdn H1. assert (s1 <> []) as Hne1 by (subst; discriminate). rewrite <- Es1 in *. clear Es1 b1 s1'.
  assert (S (length s1) <= length s)%nat as L1.
  { subst s. cbn [length]. rewrite app_length. cbn [length]. lia. }
  rewrite <- text_int in Es.
  assert (index_text t (Z.to_nat idx)) as Hit by (unfold index_text; rewrite Z2Nat.id by lia; split; [exact Ht|lia]).
  set (PP := fun p w => exists es l1 ti i s1 c1 old v, s = entries es ++ text (LInt ti) ++ s1 /\
       array_entries d V l es l1 /\ index_text ti i /\ pos buf c1 s1 /\ s1 <> [] /\
       nth_error l1 i = Some old /\ TV old /\ ed c1 old = (v, RPanic p) /\ w = update l1 i v).
  assert (forall l1 (pv : lval) s2 c2, length l1 = length l -> Forall TV l1 -> s1 = text pv ++ s2 -> pos buf c2 s2 ->
    (forall es l', array_entries d V l1 es l' -> array_entries d V l ((LInt t, pv) :: es) l') ->
    pout (if negb (has_byte buf c2) then (l1, RErr (ESyntax c2 (WEnd "array")))
          else match rd buf c2 with
               | ROk b => if b =b "}"%byte then (l1, ROk (c2 + 1)) else array_loop ed buf d n c2 l1
               | r => (l1, fail r)
               end) (fun l' => length l' = length l /\ Forall TV l') PP) as CONT.
  { intros l1 pv s2 c2 Hlen Hl1 E2 H2 HS. destruct s2 as [|b s2']; [rewrite (pos_has_nil _ _ H2); exact I|].
    rdn H2. destruct (b =b "}"%byte) eqn:Eb; [cbn; auto|].
    assert (length s1 = length (text pv) + length (b :: s2'))%nat as EL by (rewrite E2; apply app_length).
    eapply pout_imp; [apply (IH c2 l1 _ H2 ltac:(lia) ltac:(lia) Hl1)|rewrite Hlen; auto|].
    intros p w (es & l2 & ti & i & s3 & c3 & old & v & E3 & Hse & R). exists ((LInt t, pv) :: es), l2, ti, i, s3, c3, old, v.
    split; [rewrite Es, E2, E3; cbn [entries flat_map fst snd]; rewrite <- !app_assoc; reflexivity|].
    split; [apply HS; exact Hse|exact R]. }
  destruct (idx <? blen l) eqn:Ei.
  - apply Z.ltb_lt in Ei. rewrite index_ok by lia.
    assert (Z.to_nat idx < length l)%nat as Hlt by (unfold blen in Ei; lia).
    assert (TV (nth (Z.to_nat idx) l VOther)) as Told by (rewrite Forall_forall in Hl; apply Hl, nth_In, Hlt).
    pose proof (He c1 s1 (nth (Z.to_nat idx) l VOther) H1 Hne1 ltac:(lia) Told) as D.
    pose proof (nth_error_nth_lt l (Z.to_nat idx) VOther Hlt) as Hnth.
    destruct (ed c1 (nth (Z.to_nat idx) l VOther)) as [v [c2|e|p|]] eqn:Ed; try exact I.
    + destruct D as [(pv & s2 & Vp & E2 & H2) Tv]. cbn [fst] in Vp, Tv.
      apply (CONT _ pv s2 c2); auto.
      * apply update_length.
      * apply Forall_update; auto.
      * intros es l' Hse. eapply ae_in with (i := Z.to_nat idx); eauto.
    + unfold pout. cbn [snd fst fail]. exists [], l, t, (Z.to_nat idx), s1, c1, (nth (Z.to_nat idx) l VOther), v. split; [exact Es|]. split; [constructor|].
      split; [exact Hit|]. repeat split; auto.
  - apply Z.ltb_ge in Ei. pose proof (rok_skip_value buf c1 d) as RK.
    pose proof (skip_value_out buf c1 d s1 Hsm H1) as D.
    destruct (skip_value buf c1 d) as [c2|e|p|]; try exact I; [|cbn in D, RK; tauto].
    destruct D as (pv & s2 & Vp & E2 & H2).
    apply (CONT _ pv s2 c2); auto. intros es l' Hse. eapply ae_out; eauto. lia.
Qed.

Lemma struct_loop_pout X E fs buf d (fd : fdec -> Z -> gval -> dres) (V : gty -> lval -> gval -> gval -> Prop) (L : nat) :
  small buf ->
  (forall c s old k i f, pos buf c s -> s <> [] -> (length s <= L)%nat -> typed E (f_ty f) old ->
     string_tagged X E f = false ->
     dout (fd (FDec k i (f_ty f) false) c old) (fun w c' => reads (fun p w => V (f_ty f) p old w) buf s w c' /\ typed E (f_ty f) w)) ->
  (forall c s old k i f, pos buf c s -> s <> [] -> typed E (f_ty f) old -> string_tagged X E f = true ->
     dout (fd (FDec k i (f_ty f) true) c old) (fun w c' => reads (fun p w => store_quoted X E (f_ty f) p old w) buf s w c' /\ typed E (f_ty f) w) /\
     forall w p, fd (FDec k i (f_ty f) true) c old <> (w, RPanic p)) ->
  forall n c l s, pos buf c s -> (length s < n)%nat -> (length s <= L)%nat -> Forall2 (fun f v => typed E (f_ty f) v) fs l ->
  pout (struct_loop (field_decs X E 0 fs) fd buf d n c l) (Forall2 (fun f v => typed E (f_ty f) v) fs)
    (fun p w => exists es l1 kp k i f s1 c1 old v, s = entries es ++ text kp ++ s1 /\
       struct_entries X E d fs V l es l1 /\ key_text kp k /\ lookup X fs k = Some (i, f) /\ nth_error l1 i = Some old /\
       string_tagged X E f = false /\ pos buf c1 s1 /\ s1 <> [] /\
       typed E (f_ty f) old /\ fd (FDec k i (f_ty f) false) c1 old = (v, RPanic p) /\ w = update l1 i v).
Proof.
  intros Hsm He Hq n. induction n as [|n IH]; intros c l s H Hn HL Hl; [exact I|].
  cbn [struct_loop]. destruct s as [|b0 s0] eqn:Es0; [rewrite (pos_has_nil _ _ H); exact I|].
  rdn H. rewrite <- Es0 in *. clear Es0 b0 s0.
  pose proof (string_bytes_out _ _ _ Hsm H) as RI. pose proof (rok_string_bytes buf c) as RK.
  destruct (decode_string_bytes buf c) as [[key c1]|e|p|]; try exact I; [|cbn in RI, RK; tauto]. clear RK.
  cbn [outcome] in RI. destruct RI as (kp & s1 & Es & H1 & Hkp).
  set (k := match key with Some k => k | None => [] end).
  assert (key_text kp k) as Hk.
  { subst k. destruct key as [b|]; [destruct Hkp as (nn & -> & Hs)|subst kp]; constructor; auto. }
  clear Hkp. clearbody k.
  destruct s1 as [|b1 s1'] eqn:Es1; [rewrite (pos_has_nil _ _ H1); exact I|].
  rdn H1. assert (s1 <> []) as Hne1 by (subst; discriminate). rewrite <- Es1 in *. clear Es1 b1 s1'.
  pose proof (text_pos kp) as Tk.
  assert (length s = length (text kp) + length s1)%nat as L1 by (rewrite Es; apply app_length).
  set (PP := fun p w => exists es l1 kp k i f s1 c1 old v, s = entries es ++ text kp ++ s1 /\
       struct_entries X E d fs V l es l1 /\ key_text kp k /\ lookup X fs k = Some (i, f) /\ nth_error l1 i = Some old /\
       string_tagged X E f = false /\ pos buf c1 s1 /\ s1 <> [] /\
       typed E (f_ty f) old /\ fd (FDec k i (f_ty f) false) c1 old = (v, RPanic p) /\ w = update l1 i v).
  assert (forall l1 (pv : lval) s2 c2, Forall2 (fun f v => typed E (f_ty f) v) fs l1 -> s1 = text pv ++ s2 -> pos buf c2 s2 ->
    (forall es l', struct_entries X E d fs V l1 es l' -> struct_entries X E d fs V l ((kp, pv) :: es) l') ->
    pout (if negb (has_byte buf c2) then (l1, RErr (ESyntax c2 (WEnd "object")))
          else match rd buf c2 with
               | ROk b => if b =b "}"%byte then (l1, ROk (c2 + 1)) else struct_loop (field_decs X E 0 fs) fd buf d n c2 l1
               | r => (l1, fail r)
               end) (Forall2 (fun f v => typed E (f_ty f) v) fs) PP) as CONT.
  { intros l1 pv s2 c2 Hl1 E2 H2 HS. destruct s2 as [|b s2']; [rewrite (pos_has_nil _ _ H2); exact I|].
    rdn H2. destruct (b =b "}"%byte) eqn:Eb; [exact Hl1|].
    assert (length s1 = length (text pv) + length (b :: s2'))%nat as EL by (rewrite E2; apply app_length).
    eapply pout_imp; [apply (IH c2 l1 _ H2 ltac:(lia) ltac:(lia) Hl1)|auto|].
    intros p w (es & l2 & kp2 & k2 & i & f & s3 & c3 & old & v & E3 & Hse & R). exists ((kp, pv) :: es), l2, kp2, k2, i, f, s3, c3, old, v.
    split; [rewrite Es, E2, E3; cbn [entries flat_map fst snd]; rewrite <- !app_assoc; reflexivity|].
    split; [apply HS; exact Hse|exact R]. }
  rewrite find_field_lookup. fold (lookup X fs k). destruct (lookup X fs k) as [[i f]|] eqn:El.
  - cbn [fd_idx]. assert (Hlk := El). apply lookup_from_spec in El as (j' & Ej & Hn0 & Hig & Hfk). cbn in Ej. subst j'.
    destruct (Forall2_nth E _ _ _ _ Hl Hn0) as (old & En & Hold). rewrite En.
    destruct (string_tagged X E f) eqn:Est.
    + destruct (Hq c1 s1 old k i f H1 Hne1 Hold Est) as [D NP].
      destruct (fd (FDec k i (f_ty f) true) c1 old) as [v [c2|e|p|]]; try exact I; [|exfalso; eapply NP; reflexivity].
      destruct D as [(pv & s2 & Vp & E2 & H2) Tv]. cbn [fst] in Vp, Tv.
      apply (CONT _ pv s2 c2); auto; [eapply Forall2_update; eauto|].
      intros es l' Hse. eapply ste_quoted; eauto.
    + pose proof (He c1 s1 old k i f H1 Hne1 ltac:(lia) Hold Est) as D.
      destruct (fd (FDec k i (f_ty f) false) c1 old) as [v [c2|e|p|]] eqn:Ed; try exact I.
      * destruct D as [(pv & s2 & Vp & E2 & H2) Tv]. cbn [fst] in Vp, Tv.
        apply (CONT _ pv s2 c2); auto; [eapply Forall2_update; eauto|].
        intros es l' Hse. eapply ste_known; eauto.
      * unfold pout. cbn [snd fst fail]. exists [], l, kp, k, i, f, s1, c1, old, v. split; [exact Es|]. split; [constructor|]. repeat split; auto.
  - pose proof (rok_skip_value buf c1 d) as RK.
    pose proof (skip_value_out buf c1 d s1 Hsm H1) as D.
    destruct (skip_value buf c1 d) as [c2|e|p|]; try exact I; [|cbn in D, RK; tauto].
    destruct D as (pv & s2 & Vp & E2 & H2).
    apply (CONT _ pv s2 c2); auto. intros es l' Hse. eapply ste_unknown; eauto.
Qed.

(** ** Map keys *)
Section Typed.
  Context (X : Ext) (E : env) (buf : bytes).
  Hypothesis Henv : go_env E.
  Hypothesis Huser : user_ok X E.
  Hypothesis Hsmall : small buf.

  Lemma dec_key_pout k c d s : pos buf c s -> s <> [] ->
    pout (dec_key X E k buf c d) (typed E k)
      (fun p _ => p = PReflect /\ exists u kp s', plain E k (KPtr u) /\ odd_key X E d u kp /\ s = text kp ++ s').
  Proof.
    intros H Hne. pose proof (key_out X E k buf c d s Hsmall H Hne) as KO. pose proof (zero_typed E k Henv) as Hz.
    assert (forall P, okp (dec_key X E k buf c d) (typed E k) -> pout (dec_key X E k buf c d) (typed E k) P) as LEAF
      by (intros P0 HO; exact (pout_leaf _ _ _ _ HO KO)).
    destruct (has_unmarshal E k) as [n|] eqn:Hu.
    { apply LEAF. unfold dec_key, key_node. rewrite Hu. apply dec_unm_safe; auto. }
    destruct (kind_of E k) as [|ik|uk| | | |t|m t|kk t|t| |m| |id fs] eqn:Ek;
      try (apply LEAF; unfold dec_key, key_node, node_of; rewrite Hu, Ek; exact I).
    - apply LEAF. unfold dec_key, key_node, node_of. rewrite Hu, Ek. apply dec_bool_safe; auto.
    - apply LEAF. unfold dec_key, key_node, node_of. rewrite Hu, Ek. apply dec_int_safe; auto.
    - apply LEAF. unfold dec_key, key_node, node_of. rewrite Hu, Ek. apply dec_uint_safe; auto.
    - apply LEAF. unfold dec_key, key_node, node_of. rewrite Hu, Ek. apply dec_string_safe; auto.
    - apply LEAF. unfold dec_key, key_node, node_of. rewrite Hu, Ek. destruct (kind_of E t) as [| |[]| | | | | | | | | | |]; exact I.
    - assert (plain E k (KPtr t)) as Hp by (split; auto).
      unfold dec_key, key_node. rewrite Hu, Ek, (node_of_plain E k _ Hp). cbn iota.
      pose proof (node_plain E t) as NT.
      destruct (node_of E t) as [n1|t1|id1 fs1|t1|t1|n1 t1|kt1 vt1| | |uk1|ik1| | | | |] eqn:Ent; try exact I.
      + pose proof (any_out X buf c d s Hsmall H Hne) as O. pose proof (any_safe_top X E buf c d) as OS.
        destruct (dec_any X buf c d) as [[[o|] c']|e|p|]; try exact I; [|exact Hz|cbn in O, OS; congruence].
        destruct O as (p & s' & Hv & Es & H'). unfold pout. cbn [snd]. split; [reflexivity|]. exists t, p, s'. split; [exact Hp|]. split; [|exact Es].
        eapply odd_any; [exact NT| |exact Hv]. intros ->. inversion Hv.
      + pose proof (any_out X buf c d s Hsmall H Hne) as O. pose proof (any_safe_top X E buf c d) as OS.
        destruct (dec_any X buf c d) as [[[o|] c']|e|p|]; try exact I; [|exact Hz|cbn in O, OS; congruence].
        destruct O as (p & s' & Hv & Es & H'). unfold pout. cbn [snd]. split; [reflexivity|]. exists t, p, s'. split; [exact Hp|]. split; [|exact Es].
        destruct NT as [mm NT]. eapply odd_iface; [exact NT| |exact Hv]. intros ->. inversion Hv.
      + unfold dec_text. pose proof (int_bytes_out buf c s H) as O. destruct (decode_int_bytes buf c) as [[[b|] c']|e|p|]; try exact I; [|exact Hz|cbn in O; tauto].
        destruct O as (p & s' & Es & H' & -> & z & Hzt). destruct (parse_uint64 b) as [u|] eqn:Ep; [|exact I].
        apply parse_uint64_iff in Ep as (Hn & -> & Hr). unfold pout. cbn [snd]. split; [reflexivity|]. exists t, (LInt b), s'. split; [exact Hp|]. split; [|exact Es].
        eapply odd_uint; [exact NT|exact Hn|]. pose proof (num_nonneg b (proj2 Hn)). unfold uint_range. cbn. lia.
      + unfold dec_text. pose proof (int_bytes_out buf c s H) as O. destruct (decode_int_bytes buf c) as [[[b|] c']|e|p|]; try exact I; [|exact Hz|cbn in O; tauto].
        destruct O as (p & s' & Es & H' & -> & z & Hzt). destruct (parse_int64 b) as [u|] eqn:Ep; [|exact I].
        apply parse_int64_some in Ep as (Ht & Hr). unfold pout. cbn [snd]. split; [reflexivity|]. exists t, (LInt b), s'. split; [exact Hp|]. split; [|exact Es].
        eapply odd_int; [exact NT|exact Ht|]. unfold int_range, min_int64, max_int64 in *. cbn. lia.
      + unfold dec_text. pose proof (string_bytes_out buf c s Hsmall H) as O. destruct (decode_string_bytes buf c) as [[[b|] c']|e|p|]; try exact I; [|exact Hz|cbn in O; tauto].
        destruct O as (p & s' & Es & H' & n & -> & Hs). unfold pout. cbn [snd]. split; [reflexivity|]. exists t, (LStr n b), s'. split; [exact Hp|]. split; [|exact Es].
        apply odd_string; [exact NT|exact Hs].
      + pose proof (dec_bool_out buf c VOther s H) as D.
        destruct (dec_bool buf c VOther) as [w r] eqn:Edb. unfold dout in D. cbn [fst snd] in D.
        destruct r as [c'|e|p|].
        * destruct D as (p & s' & Es & H' & [[-> ->]|(b & -> & ->)]); [exact Hz|].
          unfold pout. cbn [snd]. split; [reflexivity|]. exists t, (LBool b), s'. split; [exact Hp|]. split; [|exact Es]. apply odd_bool. exact NT.
        * destruct w; exact I.
        * exfalso. apply D. unfold dec_bool in Edb. pose proof (rok_rd buf c) as R1. pose proof (rok_bool buf c) as R2. pose proof (rok_null buf c) as R3.
          destruct (negb _); [congruence|]. destruct (rd buf c); cbn in *; try congruence.
          destruct (_ =b _); [destruct (read_bool buf c); cbn in *; congruence|]. destruct (_ =b _); [|congruence]. destruct (validate_null buf c); cbn in *; congruence.
        * destruct w; exact I.
    - apply LEAF. unfold dec_key, key_node, node_of. rewrite Hu, Ek. apply dec_iface_any_safe; auto.
    - apply LEAF. unfold dec_key, key_node, node_of. rewrite Hu, Ek. eapply dec_iface_safe; eauto.
  Qed.

  (** ** The whole decoder *)
  Lemma panics_here d T v s p w : blast X E d T v s p w -> panics_at X E d T v s p w.
  Proof. intros H. exists [], s, d, T, v, (fun w => w), w. repeat split; auto. constructor. Qed.

  Lemma context_nil d T v d' t old put : context X E d T v [] d' t old put -> d' = d /\ t = T /\ old = v /\ forall w, put w = w.
  Proof.
    remember [] as pre eqn:Ep. intros H. assert (forall p n es s, body_of p n es -> opening p ++ s = [] -> False) as O.
    { intros p n es s Hb Q. apply opening_len in Hb. apply app_eq_nil in Q as [Q _]. rewrite Q in Hb. cbn in Hb. lia. }
    destruct H as [| | | | | | |dd TT vv pre dd' Hpl Hac]; auto; try congruence;
      try (exfalso; eapply O; [|exact Ep]; first [eassumption|constructor]; fail).
    destruct Hac; auto; exfalso; (eapply O; [|exact Ep]; first [eassumption|constructor]).
  Qed.

  Lemma decode_f_pout : forall fuel T c d rv s, pos buf c s -> s <> [] -> (2 * length s + ptr_cost E T < fuel)%nat -> typed E T rv ->
    pout (decode_f X E fuel T buf c d rv) (typed E T) (panics_at X E d T rv s).
  Proof.
    induction fuel as [|f IH]; intros T c d rv s H Hne HL Hv; [exact I|].
    pose proof (decode_f_out X E buf Hsmall (S f) T c d rv s H Hne HL) as LO.
    assert (forall Q, okp (decode_f X E (S f) T buf c d rv) Q -> pout (decode_f X E (S f) T buf c d rv) Q (panics_at X E d T rv s)) as LEAF
      by (intros Q HO; exact (pout_leaf _ _ _ _ HO LO)).
    clear LO. cbn [decode_f] in *. cbv zeta in *.
    assert (forall et c' s' old, pos buf c' s' -> s' <> [] -> (S (length s') < length s)%nat -> typed E et old ->
      dout (decode_f X E f et buf c' (d + 1) old) (fun w c2 => reads (fun p w => store X E (d + 1) et p old w) buf s' w c2 /\ typed E et w)) as He.
    { intros et c' s' old H' Hne' L' Hold.
      assert (2 * length s' + ptr_cost E et < f)%nat as LL by (unfold ptr_cost; destruct (is_ptr E et); lia).
      pose proof (decode_f_out X E buf Hsmall f et c' (d + 1) old s' H' Hne' LL) as D.
      pose proof (IH et c' (d + 1) old s' H' Hne' LL Hold) as P. unfold dout, pout in *.
      destruct (snd (decode_f X E f et buf c' (d + 1) old)); auto. }
    assert (forall et c' s' old v p, pos buf c' s' -> s' <> [] -> (S (length s') < length s)%nat -> typed E et old ->
      decode_f X E f et buf c' (d + 1) old = (v, RPanic p) -> panics_at X E (d + 1) et old s' p v) as Hp.
    { intros et c' s' old v p H' Hne' L' Hold Q.
      assert (2 * length s' + ptr_cost E et < f)%nat as LL by (unfold ptr_cost; destruct (is_ptr E et); lia).
      pose proof (IH et c' (d + 1) old s' H' Hne' LL Hold) as P. rewrite Q in P. exact P. }
    pose proof (node_plain E T) as NP.
    assert (forall et, plain E T (KSlice et) -> pout (dec_slice X E et (fun c0 v => decode_f X E f et buf c0 (d + 1) v) buf c d rv) (typed E T) (panics_at X E d T rv s)) as Hsl.
    { intros et Hk. unfold dec_slice. pose proof (slice_header_opens buf c d s H) as O. pose proof (rok_slice_header buf c d) as RK.
      destruct (slice_header buf c d) as [h|e|p|]; try exact I; [|cbn in O; tauto]. cbn [outcome] in O. destruct O as [Hd O].
      destruct h as [c'|c'|len c']; [eapply ty_slice_nil; apply Hk|eapply ty_slice_nil; apply Hk|].
      destruct O as (n & s1 & Hn & -> & Hmax & Hhd & Kmk & Ls & H1).
      destruct (x_slots X et (num n)) eqn:Esl; cbn [negb].
      2:{ apply panics_here. rewrite (Kmk []). eapply bl_count; eauto. }
      eapply pout_imp.
      { apply (slice_loop_pout X E et buf _ (store X E (d + 1) et) (typed E et) (length s1)) with (s := s1); auto.
        - apply zero_typed. exact Henv.
        - intros c0 s0 old H0 Hne0 L0 T0. apply He; auto. lia.
        - apply pos_len in H as L. apply pos_nonneg in H. unfold blen in L. lia. }
      { intros w (l' & -> & Hl'). eapply ty_slice; [apply Hk|exact Hl']. }
      intros p w (es & l1 & ti & i & s2 & c2 & Es & Hse & Hi & H2 & Hne2 & R). rewrite (Kmk es), Es.
      assert (S (length s2) < length s)%nat as Ls2.
      { assert (length s1 = length (entries es ++ text (LInt ti) ++ s2)) as EL by (rewrite Es; reflexivity). rewrite !app_length in EL. lia. }
      destruct R as [(old & v & Hnth & Told & Ed & ->)|(Hlen & -> & [(Hmx & Hsl2 & v & Ed)|(Hbig & ->)])].
      - destruct (Hp et c2 s2 old v p H2 Hne2 Ls2 Told Ed) as (pre & rest & d' & t & old' & put & w' & -> & Hc & Hb & ->).
        exists (opening (LArr n es) ++ entries es ++ text (LInt ti) ++ pre), rest, d', t, old', (fun w => VSlice (Some (update l1 i (put w)))), w'.
        rewrite <- !app_assoc. split; [reflexivity|]. split; [|split; [exact Hb|reflexivity]].
        eapply cx_again; eauto.
      - destruct (Hp et c2 s2 (zero E et) v p H2 Hne2 Ls2 (zero_typed E et Henv) Ed) as (pre & rest & d' & t & old' & put & w' & -> & Hc & Hb & ->).
        exists (opening (LArr n es) ++ entries es ++ text (LInt ti) ++ pre), rest, d', t, old', (fun _ => match es with [] => rv | _ => VSlice (Some l1) end), w'.
        rewrite <- !app_assoc. split; [reflexivity|]. split; [|split; [exact Hb|reflexivity]].
        eapply cx_element; eauto.
      - apply panics_here. eapply bl_index; eauto. }
    destruct (node_of E T) as [n|t|id fs|t|t|n t|kt vt| |  |uk|ik| | | | |] eqn:En.
    - apply LEAF. apply dec_unm_safe; auto.
    - destruct (is_ptr E t) eqn:Ep; [unfold is_ptr in Ep; destruct (kind_of E t); try discriminate; exact I|].
      assert (pout (dec_ptr E t (fun c0 v => decode_f X E f t buf c0 d v) buf c rv) (typed E T) (panics_at X E d T rv s)) as G.
      2:{ unfold is_ptr in Ep. destruct (kind_of E t); try discriminate; exact G. }
      unfold dec_ptr. destruct s as [|b s]; [congruence|]. rewrite (pos_rd _ _ _ _ H).
      destruct (b =b "N"%byte) eqn:Eb.
      { apply eqb_eq in Eb as ->. pose proof (null_out _ _ _ _ H) as O.
        destruct (validate_null buf c); try exact I; [|cbn in O; tauto]. eapply ty_ptr_nil. apply NP. }
      assert (exists o, rv = VPtr o /\ typed E t (match o with Some v => v | None => zero E t end)) as (o & -> & Ho).
      { destruct NP as [_ Hk]. inversion Hv; subst; try congruence.
        - exists None. split; [reflexivity|]. apply zero_typed. exact Henv.
        - match goal with HH : typed E ?u ?v |- exists o, VPtr (Some ?v) = _ /\ _ => replace u with t in HH by congruence; exists (Some v); auto end. }
      assert (ptr_cost E T = 1%nat) as PT by (unfold ptr_cost, is_ptr; destruct NP as [_ ->]; reflexivity).
      assert (ptr_cost E t = 0%nat) as Pt by (unfold ptr_cost; rewrite Ep; reflexivity).
      pose proof (IH t c d (match o with Some v => v | None => zero E t end) (b :: s) H ltac:(discriminate) ltac:(lia) Ho) as D.
      destruct (decode_f X E f t buf c d _) as [w [c'|e|p|]]; try exact I.
      + eapply ty_ptr; [apply NP|exact D].
      + destruct D as (pre & rest & d' & u & old' & put & w' & Es & Hc & Hb & Ew). cbn [fst] in Ew. subst w.
        destruct pre as [|b1 pre].
        * cbn [app] in Es. subst rest. unfold pout. cbn [snd fst].
          destruct (context_nil _ _ _ _ _ _ _ Hc) as (-> & -> & -> & Hput). rewrite Hput.
          apply panics_here. apply bl_ptr with (t := t); auto.
        * exists (b1 :: pre), rest, d', u, old', (fun w => VPtr (Some (put w))), w'. split; [exact Es|]. split; [|split; [exact Hb|reflexivity]].
          apply cx_ptr with (t := t); auto. discriminate.
    - assert (exists l, rv = VStruct l /\ Forall2 (fun f v => typed E (f_ty f) v) fs l) as (l & -> & Hl).
      { destruct NP as [_ Hk]. inversion Hv; subst; try congruence. match goal with HA : Forall2 _ ?u ?l |- _ => replace u with fs in HA by congruence; eauto end. }
      unfold dec_struct. pose proof (struct_header_opens buf c d s Hsmall H) as O.
      destruct (struct_header buf c d) as [h|e|p|]; try exact I; [|cbn in O; tauto]. cbn [outcome] in O. destruct O as [Hd O].
      destruct h as [c'|c']; [exact Hv|]. destruct O as (n & mk & s1 & Hn & _ & Hmk & Kmk & Ls & H1).
      destruct s1 as [|b s1'] eqn:Es1; [rewrite (pos_has_nil _ _ H1); exact I|].
      rdn H1. destruct (b =b "}"%byte) eqn:Eb; [exact Hv|]. rewrite <- Es1 in *. clear Es1.
      set (fd := fun (d0 : fdec) (c0 : Z) (v : gval) => _).
      pose proof (struct_loop_pout X E fs buf (d + 1) fd (store X E (d + 1)) (length s1) Hsmall) as SL.
      assert (length s1 < length buf)%nat as Lb.
      { apply pos_len in H as L. apply pos_nonneg in H. unfold blen in L. lia. }
      specialize (fun A B => SL A B (length buf) c' l s1 H1 Lb (le_n _) Hl).
      match type of SL with ?A -> ?B -> ?C => assert C as D end.
      { apply SL; clear SL.
        - intros c0 s0 old k i fl H0 Hne0 L0 T0 Hst. subst fd. cbn [fd_str fd_ty]. apply He; auto. lia.
        - intros c0 s0 old k i fl H0 Hne0 T0 Hst. subst fd. cbn [fd_str fd_ty].
          pose proof (quoted_out X E (f_ty fl) buf c0 old s0 Hsmall H0 Hne0 (string_tagged_unm _ _ _ Hst)) as QO.
          match goal with |- dout ?r _ /\ _ => assert (okp r (typed E (f_ty fl))) as QS end.
          { pose proof (wrapped_safe X E buf (f_ty fl) c0 old T0) as WS. pose proof (node_plain E (f_ty fl)) as NPf.
            destruct (node_of E (f_ty fl)) as [n0|t0|id0 fs0|t0|t0|n0 t0|kt0 vt0| |  |uk0|ik0| | | | |] eqn:Enf; try exact WS.
            apply dec_ptr_safe; [exact Henv|apply NPf|exact T0|]. intros. apply wrapped_safe; assumption. }
          apply leaf_both; [exact QS|exact QO]. }
      clear SL. destruct (struct_loop _ _ _ _ _ _ _) as [l' [c2|e|p|]]; try exact I.
      { eapply ty_struct; [apply NP|exact D]. }
      destruct D as (es & l1 & kp & k & i & fl & s2 & c2 & old & v & Es & Hse & Hk & Hlk & Hnth & Htag & H2 & Hne2 & Told & Ed & Ew). cbn [fst] in Ew. subst l'.
      assert (S (length s2) < length s)%nat as Ls2.
      { assert (length s1 = length (entries es ++ text kp ++ s2)) as EL by (rewrite Es; reflexivity). rewrite !app_length in EL. lia. }
      subst fd. cbn [fd_str fd_ty] in Ed.
      destruct (Hp (f_ty fl) c2 s2 old v p H2 Hne2 Ls2 Told Ed) as (pre & rest & d' & t & old' & put & w' & Es2 & Hc & Hb & ->).
      exists (opening (mk es) ++ entries es ++ text kp ++ pre), rest, d', t, old', (fun w => VStruct (update l1 i (put w))), w'.
      split; [rewrite (Kmk es), Es, Es2, <- !app_assoc; reflexivity|]. split; [|split; [exact Hb|reflexivity]].
      eapply cx_field; eauto. apply header_body; exact Hmk.
    - destruct NP as [NP Hby]. unfold dec_bytes in *. destruct s as [|b s]; [congruence|]. rewrite (pos_rd _ _ _ _ H) in *.
      destruct (b =b "a"%byte) eqn:Eb; [apply (Hsl t NP)|]. apply LEAF.
      apply okp_text; [apply rok_string_bytes|exact Hv|]. intros b0 c1. cbn. unfold vbytes. eapply ty_slice; [apply NP|].
      apply Forall_forall. intros x Hx. apply in_map_iff in Hx as (y & <- & _). unfold byte_val.
      assert (kind_of E t = KUint U8) as Kt by (unfold is_byte in Hby; destruct (kind_of E t) as [| |[]| | | | | | | | | | |]; congruence).
      eapply ty_uint; [exact Kt|]. unfold uint_range. cbn. pose proof (byte_bound y). lia.
    - destruct NP as [NP Hby]. apply (Hsl t NP).
    - unfold dec_array in *. cbv zeta in *. pose proof (array_header_opens buf c d s H) as O.
      assert (Forall (typed E t) (repeat (zero E t) n)) as Hz.
      { apply Forall_forall. intros x Hx. apply repeat_spec in Hx as ->. apply zero_typed. exact Henv. }
      destruct (array_header buf c d) as [h|e|p|]; try exact I; [|cbn in O; tauto]. cbn [outcome] in O. destruct O as [Hd O].
      destruct h as [c'|c'|len c']; [exact Hv|eapply ty_arr; [apply NP|apply repeat_length|exact Hz]|].
      destruct O as (m & s1 & Hn & -> & Hmax & Hhd & Kmk & Ls & H1).
      pose proof (array_loop_pout buf (d + 1) (fun c0 v => decode_f X E f t buf c0 (d + 1) v) (store X E (d + 1) t) (typed E t) (length s1) Hsmall) as AL.
      assert (length s1 < length buf)%nat as Lb.
      { apply pos_len in H as L. apply pos_nonneg in H. unfold blen in L. lia. }
      specialize (fun A => AL A (length buf) c' (repeat (zero E t) n) s1 H1 Lb (le_n _) Hz).
      match type of AL with ?A -> ?B => assert B as D by (apply AL; intros c0 s0 old H0 Hne0 L0 T0; apply He; auto; lia) end. clear AL.
      destruct (array_loop _ _ _ _ _ _) as [l' [c2|e|p|]]; try exact I.
      { destruct D as [G1 G2]. cbn [fst] in G1, G2. rewrite repeat_length in G1. eapply ty_arr; [apply NP|exact G1|exact G2]. }
      destruct D as (es & l1 & ti & i & s2 & c2 & old & v & Es & Hse & Hi & H2 & Hne2 & Hnth & Told & Ed & Ew). cbn [fst] in Ew. subst l'.
      assert (S (length s2) < length s)%nat as Ls2.
      { assert (length s1 = length (entries es ++ text (LInt ti) ++ s2)) as EL by (rewrite Es; reflexivity). rewrite !app_length in EL. lia. }
      destruct (Hp t c2 s2 old v p H2 Hne2 Ls2 Told Ed) as (pre & rest & d' & u & old' & put & w' & Es2 & Hc & Hb & ->).
      exists (opening (LArr m es) ++ entries es ++ text (LInt ti) ++ pre), rest, d', u, old', (fun w => VArr (update l1 i (put w))), w'.
      split; [rewrite (Kmk es), Es, Es2, <- !app_assoc; reflexivity|]. split; [|split; [exact Hb|reflexivity]].
      eapply cx_slot; eauto.
    - assert (exists o, rv = VMap o /\ match o with Some m => Forall (fun e => typed E kt (fst e) /\ typed E vt (snd e)) m | None => True end) as (o & -> & Ho).
      { destruct NP as [_ Hk]. inversion Hv; subst; try congruence; [exists None; auto|].
        match goal with HH : kind_of E T = KMap ?a ?b |- _ => replace a with kt in * by congruence; replace b with vt in * by congruence end. eauto. }
      unfold dec_map. pose proof (map_header_opens buf c d s Hsmall H) as O.
      destruct (map_header buf c d) as [h|e|p|]; try exact I; [|cbn in O; tauto]. cbn [outcome] in O. destruct O as [Hd O].
      destruct h as [c'|c']; [eapply ty_map_nil; apply NP|]. destruct O as (n & mk & s1 & Hn & Hm & Hmk & Kmk & Ls & H1). specialize (Hm eq_refl).
      assert (Forall (fun e => typed E kt (fst e) /\ typed E vt (snd e)) (match o with None => [] | Some m => m end)) as Hom by (destruct o; auto).
      destruct s1 as [|b s1'] eqn:Es1; [rewrite (pos_has_nil _ _ H1); exact I|].
      rdn H1. destruct (b =b "}"%byte) eqn:Eb; [eapply ty_map; [apply NP|exact Hom]|]. rewrite <- Es1 in *. clear Es1.
      pose proof (map_loop_pout buf (fun c => dec_key X E kt buf c (d + 1)) (fun c => decode_f X E f vt buf c (d + 1) (zero E vt))
        (store_key X E (d + 1) kt) (fun q w => store X E (d + 1) vt q (zero E vt) w) (typed E kt) (typed E vt) (length s1)) as ML.
      assert (length s1 < length buf)%nat as Lb.
      { apply pos_len in H as L. apply pos_nonneg in H. unfold blen in L. lia. }
      specialize (fun A B => ML A B (length buf) c' _ s1 H1 Lb (le_n _) Hom).
      match type of ML with ?A -> ?B -> ?C => assert C as D end.
      { apply ML; clear ML.
        - intros c0 s0 H0 Hne0 L0. pose proof (key_out X E kt buf c0 (d + 1) s0 Hsmall H0 Hne0) as K1. pose proof (dec_key_pout kt c0 (d + 1) s0 H0 Hne0) as K2.
          unfold dout, pout in *. destruct (snd (dec_key X E kt buf c0 (d + 1))); auto.
        - intros c0 s0 H0 Hne0 L0. apply He; auto; [lia|apply zero_typed; exact Henv]. }
      clear ML. destruct (map_loop _ _ _ _ _ _) as [m' [c2|e|p|]]; try exact I.
      { eapply ty_map; [apply NP|exact D]. }
      destruct D as (es & s2 & c2 & Es & Hme & H2 & Hne2 & R). cbn [fst] in Hme. unfold pout. cbn [snd fst].
      assert (body_of (mk es) n es) as Hbo by (apply header_body; exact Hmk).
      rewrite (Kmk es), Es. assert (length s1 = length (entries es ++ s2)) as EL by (rewrite Es; reflexivity). rewrite app_length in EL.
      destruct R as [[k Q]|(kp & kv & s3 & c3 & HK & Es2 & H3 & Hne3 & [[v Q]|(q & w & s4 & HV & Es3 & Hh & ->)])].
      + pose proof (dec_key_pout kt c2 (d + 1) s2 H2 Hne2) as P. rewrite Q in P. destruct P as (-> & u & kp & s' & Hku & Hodd & ->).
        apply panics_here. eapply bl_key; eauto.
      + assert (length s2 = length (text kp ++ s3)) as EL2 by (rewrite Es2; reflexivity). rewrite app_length in EL2.
        destruct (Hp vt c3 s3 (zero E vt) v p H3 Hne3 ltac:(lia) (zero_typed E vt Henv) Q) as (pre & rest & d' & u & old' & put & w' & Es3 & Hc & Hb & ->).
        exists (opening (mk es) ++ entries es ++ text kp ++ pre), rest, d', u, old', (fun _ => VMap (Some m')), w'.
        split; [rewrite Es2, Es3, <- !app_assoc; reflexivity|]. split; [|split; [exact Hb|reflexivity]].
        eapply cx_value; eauto.
      + rewrite Es2, Es3. apply panics_here. eapply bl_unhashable; eauto.
    - apply LEAF. apply dec_iface_any_safe. apply NP.
    - apply LEAF. destruct NP as [m [_ NP]]. eapply dec_iface_safe; eauto.
    - apply LEAF. apply dec_uint_safe; [apply NP|exact Hv].
    - apply LEAF. apply dec_int_safe; [apply NP|exact Hv].
    - apply LEAF. apply dec_string_safe; [apply NP|exact Hv].
    - apply LEAF. apply dec_bool_safe; [apply NP|exact Hv].
    - apply LEAF. apply dec_f32_safe; [apply NP|exact Hv].
    - apply LEAF. apply dec_f64_safe; [apply NP|exact Hv].
    - exact I.
  Qed.
End Typed.

(** ** The loops, past the entries before the one that panics *)
Lemma map_loop_run buf kd vd (K V : lval -> gval -> Prop) kp rest m es m' M : map_entries K V m es m' ->
  (length (body es) <= M)%nat ->
  (forall p w c s, K p w -> (length (text p) <= M)%nat -> pos buf c (text p ++ s) -> done buf (kd c) w s) ->
  (forall p w c s, V p w -> (length (text p) <= M)%nat -> pos buf c (text p ++ s) -> done buf (vd c) w s) ->
  forall n c, pos buf c (body es ++ text kp ++ rest) -> (length (body es) < n)%nat ->
  exists n' c', map_loop kd vd buf n c m = map_loop kd vd buf (S n') c' m' /\ pos buf c' (text kp ++ rest).
Proof.
  intros H HM Hk Hv. induction H as [m|m k p es k1 v1 m' Kk1 Vp Hhash Hme IH]; intros n c Hp Hn.
  - destruct n as [|n]; [lia|]. exists n, c. auto.
  - rewrite body_len in *. pose proof (text_pos k) as Tk. pose proof (text_pos p) as Tp.
    destruct n as [|n]; [lia|]. cbn [map_loop]. rewrite body_cons in Hp.
    rewrite (pos_has_text _ _ _ _ Hp). cbn [negb].
    destruct (Hk k k1 c _ Kk1 ltac:(lia) Hp) as (c1 & -> & H1).
    rewrite (pos_has_text _ _ _ _ H1). cbn [negb].
    destruct (Hv p v1 c1 _ Vp ltac:(lia) H1) as (c2 & -> & H2).
    rewrite Hhash. cbn [negb]. destruct (entry_head es kp rest) as (b & s & Er & Eb).
    assert (H3 := H2). rewrite Er in H3. rdn H3. rewrite Eb. apply IH; [lia|exact H2|lia].
Qed.
Lemma slice_loop_run X E et buf ed (V : lval -> gval -> gval -> Prop) kp rest l es l' M :
  slice_entries (x_slots X et) (zero E et) V l es l' ->
  (length (body es) <= M)%nat ->
  (forall p old w c s, V p old w -> (length (text p) <= M)%nat -> pos buf c (text p ++ s) -> done buf (ed c old) w s) ->
  forall n c rv, pos buf c (body es ++ text kp ++ rest) -> (length (body es) < n)%nat ->
  exists n' c', slice_loop X E et ed buf n c l rv = slice_loop X E et ed buf (S n') c' l' (match es with [] => rv | _ => VSlice (Some l') end) /\
    pos buf c' (text kp ++ rest).
Proof.
  intros H HM He.
  induction H as [l|l t1 i1 p es old1 v l' Hi1 Hnth HV Hse IH|l t1 i1 p es v l' Hi1 Hlen Hmx Hsl HV Hse IH]; intros n c rv Hp Hn.
  - destruct n as [|n]; [lia|]. exists n, c. auto.
  - rewrite body_len in *; pose proof (text_pos (LInt t1)) as Tk; pose proof (text_pos p) as Tp;
    (destruct n as [|n]; [lia|]); cbn [slice_loop]; rewrite body_cons in Hp;
    rewrite (pos_has_text _ _ _ _ Hp); cbn [negb]; rewrite text_int in Hp;
    destruct Hi1 as [Hi1 Hi2];
    destruct (read_int_ok _ _ _ _ _ Hp Hi1 ltac:(lia)) as (c1 & -> & H1);
    rewrite (pos_has_text _ _ _ _ H1); cbn [negb].
    assert (i1 < length l)%nat as Hil by (apply nth_error_Some; congruence).
    replace (_ <? blen l) with true by (symmetry; apply Z.ltb_lt; unfold blen; lia).
    rewrite index_ok by (unfold blen; lia). rewrite Nat2Z.id. rewrite (nth_error_nth l i1 VOther Hnth).
    destruct (He p old1 v c1 _ HV ltac:(lia) H1) as (c2 & -> & H2).
    destruct (entry_head es kp rest) as (b & s & Er & Eb). assert (H3 := H2). rewrite Er in H3. rdn H3. rewrite Eb.
    destruct (IH ltac:(lia) n c2 (VSlice (Some (update l i1 v))) H2 ltac:(lia)) as (n' & c' & Q & P). rewrite Q. exists n', c'.
    split; [|exact P]. destruct es; [|reflexivity]. inversion Hse; subst. reflexivity.
  - rewrite body_len in *; pose proof (text_pos (LInt t1)) as Tk; pose proof (text_pos p) as Tp;
    (destruct n as [|n]; [lia|]); cbn [slice_loop]; rewrite body_cons in Hp;
    rewrite (pos_has_text _ _ _ _ Hp); cbn [negb]; rewrite text_int in Hp;
    destruct Hi1 as [Hi1 Hi2];
    destruct (read_int_ok _ _ _ _ _ Hp Hi1 ltac:(lia)) as (c1 & -> & H1);
    rewrite (pos_has_text _ _ _ _ H1); cbn [negb].
    replace (_ <? blen l) with false by (symmetry; apply Z.ltb_ge; unfold blen; lia).
    rewrite wrap64_id by (unfold min_int64; lia). rewrite Hsl.
    replace (Z.of_nat i1 + 1 <? 0) with false by (symmetry; apply Z.ltb_ge; lia). cbn [orb negb]. rewrite index_ok by lia.
    destruct (He p (zero E et) v c1 _ HV ltac:(lia) H1) as (c2 & -> & H2). rewrite Nat2Z.id.
    destruct (entry_head es kp rest) as (b & s & Er & Eb). assert (H3 := H2). rewrite Er in H3. rdn H3. rewrite Eb.
    destruct (IH ltac:(lia) n c2 (VSlice (Some (l ++ repeat (zero E et) (i1 - length l) ++ [v]))) H2 ltac:(lia)) as (n' & c' & Q & P). rewrite Q. exists n', c'.
    split; [|exact P]. destruct es; [|reflexivity]. inversion Hse; subst. reflexivity.
Qed.

(** a key a pointer cannot hold *)
Lemma odd_key_panics X E buf k u d kp c s : small buf -> plain E k (KPtr u) -> odd_key X E d u kp ->
  pos buf c (text kp ++ s) -> dec_key X E k buf c d = (zero E k, RPanic PReflect).
Proof.
  intros Hsm Hk Ho H. unfold dec_key, key_node. rewrite (proj1 Hk), (proj2 Hk), (node_of_plain E k _ Hk). cbn iota.
  assert (forall w p, any_val X d p w -> p <> LNull -> pos buf c (text p ++ s) ->
    match dec_any X buf c d return dres with
    | ROk (None, c) => (zero E k, ROk c) | ROk (Some _, _) => (zero E k, RPanic PReflect) | r => (zero E k, fail r) end = (zero E k, RPanic PReflect)) as A.
  { intros w p Hv Hnn HP. destruct (any_ok X buf p d w c s Hsm Hv HP) as (o & c' & -> & -> & _). destruct o; [reflexivity|]. inversion Hv; congruence. }
  destruct Ho as [n b Hu Hs|b Hu|ik t z Hu Ht Hr|uk t Hu Ht Hr|p w Hu Hnn Hv|m p w Hu Hnn Hv]; rewrite (node_of_plain E u _ Hu); cbn iota.
  - unfold dec_text. destruct (string_bytes_str buf c n b s Hsm H Hs) as (c' & -> & _). reflexivity.
  - unfold dec_bool. rewrite (pos_has_text _ _ _ _ H), (pos_rd_text _ _ _ _ H). cbn [negb letter]. change ("b"%byte =b "b"%byte) with true. cbn iota.
    rewrite text_bool in H. rewrite (proj1 (bool_ok _ _ _ _ H)). reflexivity.
  - unfold dec_text. destruct (int_bytes_int buf c t z s H Ht) as (c' & -> & _). rewrite (proj2 (parse_int64_iff t z)); [reflexivity|].
    split; [exact Ht|]. unfold int_range, min_int64, max_int64 in *. cbn in Hr. lia.
  - unfold dec_text. destruct (int_bytes_int buf c t (num t) s H) as (c' & -> & _); [constructor; exact Ht|].
    rewrite (proj2 (parse_uint64_iff t (num t))); [reflexivity|]. split; [exact Ht|]. split; [reflexivity|]. unfold uint_range in Hr. cbn in Hr. lia.
  - exact (A w p Hv Hnn H).
  - exact (A w p Hv Hnn H).
Qed.

Lemma blast_not_any X E d T v s p w : blast X E d T v s p w -> ~ plain E T KAny.
Proof. intros H [_ K]. destruct H; match goal with HP : plain _ _ _ |- _ => destruct HP as [_ HP]; congruence end. Qed.
Lemma blast_head X E d T v s p w : blast X E d T v s p w -> exists b r, s = b :: r /\ (b =b "N"%byte) = false.
Proof.
  intros H. induction H; try assumption;
    try (rewrite opening_arr; eexists _, _; split; reflexivity);
    (match goal with HB : body_of _ _ _ |- _ => inversion HB; subst end; [rewrite opening_arr|rewrite opening_obj]; eexists _, _; split; reflexivity).
Qed.

Lemma blast_decode X E buf d T v s p w : small buf -> blast X E d T v s p w ->
  forall f c, pos buf c s -> (2 * length s + ptr_cost E T < f)%nat -> decode_f X E f T buf c d v = (w, RPanic p).
Proof.
  intros Hsm H.
  assert (forall fu d et p old w c s, store X E d et p old w -> (2 * length (text p) < fu)%nat ->
    pos buf c (text p ++ s) -> done buf (decode_f X E fu et buf c d old) w s) as He.
  { intros fu dd et p0 old0 w0 c s0 Hs HL HP. eapply decode_f_ok; eauto. unfold ptr_cost. destruct (is_ptr E et); lia. }
  assert (forall E T k, plain E T k -> ptr_cost E T = match k with KPtr _ => 1%nat | _ => 0%nat end) as PC.
  { intros E0 T0 k [_ Hk]. unfold ptr_cost, is_ptr. rewrite Hk. destruct k; reflexivity. }
  assert (forall kp s, text kp ++ s <> []) as TN.
  { intros kp s0 Q. pose proof (text_pos kp) as Tk. apply app_eq_nil in Q as [Q _]. rewrite Q in Tk. cbn in Tk. lia. }
  induction H as [d T t n es v rest Hp Hd Hn Hz Hm Hsl
    |d T t n es v l ti i rest Hp Hd Hn Hz Hm Hsl Hse Hi Hlen Hbig Hne
    |d T k t u p n es o m kp rest Hp Hd Hb Hn Hm Hme Hku Hodd
    |d T k t p n es o m kp kv q w rest Hp Hd Hb Hn Hm Hme HK Hh HV
    |d T t o rest p w Hp Hip Hbl IH]; intros f c HP HL; rewrite (PC _ _ _ Hp) in HL; (destruct f as [|f]; [lia|]); cbn [decode_f]; rewrite (node_of_plain _ _ _ Hp).
  - assert (dec_slice X E t (fun c0 v => decode_f X E f t buf c0 (d + 1) v) buf c d v = (v, RPanic PAlloc)) as G.
    { unfold dec_slice. destruct (slice_header_open _ _ d _ _ _ Hsm Hn Hz Hm HP Hd) as (c' & -> & H'). rewrite Hsl. reflexivity. }
    destruct (is_byte E t); [|exact G]. unfold dec_bytes. rewrite opening_arr in HP. rdn HP. exact G.
  - assert (dec_slice X E t (fun c0 v => decode_f X E f t buf c0 (d + 1) v) buf c d v = (match es with [] => v | _ => VSlice (Some l) end, RPanic PAlloc)) as G.
    { unfold dec_slice. destruct (slice_header_open _ _ d _ _ _ Hsm Hn Hz Hm HP Hd) as (c' & -> & H'). rewrite Hsl. cbn [negb].
      change (entries es) with (body es) in *. pose proof (opening_len _ _ _ (body_arr n es)) as OL. rewrite !app_length in HL.
      destruct (slice_loop_run X E t buf (fun c0 v => decode_f X E f t buf c0 (d + 1) v) (store X E (d + 1) t) (LInt ti) rest [] es l (length (body es)) Hse (le_n _)) with (n := length buf) (c := c') (rv := v) as (n' & c2 & -> & H2).
      - intros p0 old0 w0 c0 s0 Hs0 L0 P0. cbn beta. eapply He; eauto. lia.
      - exact H'.
      - apply pos_len in HP as L. apply pos_nonneg in HP as L0. rewrite !blen_app in L. unfold blen in L. lia.
      - cbn [slice_loop]. rewrite (pos_has_text _ _ _ _ H2). cbn [negb]. rewrite text_int in H2. destruct Hi as [Hi1 Hi2].
        destruct (read_int_ok _ _ _ _ _ H2 Hi1 ltac:(lia)) as (c3 & -> & H3). rewrite (pos_has_ne _ _ _ H3 Hne). cbn [negb].
        replace (_ <? blen l) with false by (symmetry; apply Z.ltb_ge; unfold blen; lia).
        replace ((wrap64 (Z.of_nat i + 1) <? 0) || negb (x_slots X t (wrap64 (Z.of_nat i + 1)))) with true; [reflexivity|]. symmetry.
        destruct (Z.eq_dec (Z.of_nat i) max_int64) as [->|Hx]; [reflexivity|]. rewrite wrap64_id by (unfold min_int64; lia).
        destruct (x_slots X t (Z.of_nat i + 1)) eqn:Ex; [exfalso; apply Hbig; split; [lia|reflexivity]|]. apply orb_true_r. }
    destruct (is_byte E t); [|exact G]. unfold dec_bytes. rewrite opening_arr in HP. rdn HP. exact G.
  - unfold dec_map. destruct (map_header_open _ _ d _ _ _ _ Hsm Hb Hn Hm HP Hd) as (c' & -> & H').
    change (entries es) with (body es) in *. pose proof (opening_len _ _ _ Hb) as OL. rewrite !app_length in HL.
    destruct (entry_head es kp rest) as (b & s & Er & Eb). assert (H3 := H'). rewrite Er in H3. rdn H3. rewrite Eb.
    edestruct (map_loop_run buf (fun c => dec_key X E k buf c (d + 1)) (fun c => decode_f X E f t buf c (d + 1) (zero E t))
      (store_key X E (d + 1) k) (fun q w => store X E (d + 1) t q (zero E t) w) kp rest _ es m (length (body es)) Hme (le_n _)) with (n := length buf) (c := c') as (n' & c2 & -> & H2).
    + intros p0 w0 c0 s0 HK0 L0 P0. eapply key_ok; eauto.
    + intros p0 w0 c0 s0 HV0 L0 P0. cbn beta. eapply He; eauto. lia.
    + exact H'.
    + apply pos_len in HP as L. apply pos_nonneg in HP as L0. rewrite !blen_app in L. unfold blen in L. pose proof (text_pos kp). lia.
    + cbn [map_loop]. rewrite (pos_has_text _ _ _ _ H2). cbn [negb]. rewrite (odd_key_panics X E buf k u (d + 1) kp c2 rest Hsm Hku Hodd H2). reflexivity.
  - unfold dec_map. destruct (map_header_open _ _ d _ _ _ _ Hsm Hb Hn Hm HP Hd) as (c' & -> & H').
    change (entries es) with (body es) in *. pose proof (opening_len _ _ _ Hb) as OL. rewrite !app_length in HL.
    destruct (entry_head es kp (text q ++ rest)) as (b & s & Er & Eb). assert (H3 := H'). rewrite Er in H3. rdn H3. rewrite Eb.
    edestruct (map_loop_run buf (fun c => dec_key X E k buf c (d + 1)) (fun c => decode_f X E f t buf c (d + 1) (zero E t))
      (store_key X E (d + 1) k) (fun q w => store X E (d + 1) t q (zero E t) w) kp (text q ++ rest) _ es m (length (body es)) Hme (le_n _)) with (n := length buf) (c := c') as (n' & c2 & -> & H2).
    + intros p0 w0 c0 s0 HK0 L0 P0. eapply key_ok; eauto.
    + intros p0 w0 c0 s0 HV0 L0 P0. cbn beta. eapply He; eauto. lia.
    + exact H'.
    + apply pos_len in HP as L. apply pos_nonneg in HP as L0. rewrite !blen_app in L. unfold blen in L. pose proof (text_pos kp). lia.
    + cbn [map_loop]. rewrite (pos_has_text _ _ _ _ H2). cbn [negb].
      destruct (key_ok X E k buf c2 (d + 1) kp kv (text q ++ rest) Hsm HK H2) as (c4 & -> & H4).
      rewrite (pos_has_text _ _ _ _ H4). cbn [negb].
      destruct (He f (d + 1) t q (zero E t) w c4 rest HV ltac:(lia) H4) as (c5 & -> & H5). rewrite Hh. reflexivity.
  - assert (dec_ptr E t (fun c0 v => decode_f X E f t buf c0 d v) buf c (VPtr o) = (VPtr (Some w), RPanic p)) as G.
    2:{ unfold is_ptr in Hip. destruct (kind_of E t); try discriminate; exact G. }
    destruct (blast_head _ _ _ _ _ _ _ _ Hbl) as (b & r & Eq & Eb).
    unfold dec_ptr. assert (H0 := HP). rewrite Eq in H0. rdn H0. rewrite Eb.
    rewrite (IH f c HP); [reflexivity|]. unfold ptr_cost. rewrite Hip. lia.
Qed.

(** ** Both directions *)
Lemma decode_panics X E data T v p w : small data -> data <> [] -> panics_at X E 0 T v data p w ->
  decode X E T data 0 0 v = (w, RPanic p).
Proof.
  intros Hsm Hne (pre & rest & d & t & old & put & w' & -> & Hc & Hb & ->).
  assert (rest <> []) as Hr by (destruct (blast_head _ _ _ _ _ _ _ _ Hb) as (b & r & -> & _); discriminate).
  assert (pos (pre ++ rest) (blen pre) rest) as Hh by (exists pre; auto).
  unfold decode. eapply (context_decode X E (pre ++ rest) rest (blen pre) w' (RPanic p) 0 T v pre d t old put Hsm Hc Hh Hr).
  - intros Q. exfalso. exact (blast_not_any _ _ _ _ _ _ _ _ Hb Q).
  - intros f Hf. eapply blast_decode; eauto.
  - exact I.
  - apply pos_start.
  - unfold decode_fuel, ptr_cost. destruct (is_ptr E T); lia.
Qed.
Lemma decode_panics_only X E data T v p w : small data -> data <> [] -> go_env E -> user_ok X E -> typed E T v ->
  decode X E T data 0 0 v = (w, RPanic p) -> panics_at X E 0 T v data p w.
Proof.
  intros Hsm Hne Henv Hu Hv H.
  pose proof (decode_f_pout X E data Henv Hu Hsm (decode_fuel data) T 0 0 v data (pos_start _) Hne) as P.
  unfold decode in H. rewrite H in P. apply P; [|exact Hv]. unfold decode_fuel, ptr_cost. destruct (is_ptr E T); lia.
Qed.
