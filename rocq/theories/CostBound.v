(** How much the decoder of Cost.v asks for. *)
From Coq Require Import Strings.String Strings.Byte ZArith List Bool Lia Floats.SpecFloat.
From Verif Require Import Base GoTypes Strconv Tags Scan Decode Unmarshal Grammar Denote Typing NumFacts ScanFacts SkipFacts Sound SoundT TextFacts Complete Safe Cost CostSpec CostFacts.
Import ListNotations.
Open Scope Z_scope.

(** A request for no more than one past a number written in the input. *)
Definition modest (data : bytes) (q : request) : Prop := exists n, written data n /\ 0 <= amount q <= n + 1.

Definition dents (sl : bool) (es : list (lval * lval)) : Z :=
  fold_right (fun e a => (if sl then up_to (fst e) else 0) + declared sl (fst e) + declared sl (snd e) + a) 0 es.
Lemma declared_arr sl n es : declared sl (LArr n es) = num n + dents sl es. Proof. reflexivity. Qed.
Lemma declared_obj sl cn cls n es : declared sl (LObj cn cls n es) = num n + dents sl es. Proof. reflexivity. Qed.
Lemma declared_mk sl n mk es : header_mk n mk -> declared sl (mk es) = num n + dents sl es.
Proof. intros [->|(cn & cls & _ & _ & ->)]; reflexivity. Qed.
Lemma dents_cons sl k v es : dents sl ((k, v) :: es) = (if sl then up_to k else 0) + declared sl k + declared sl v + dents sl es.
Proof. reflexivity. Qed.

Lemma up_to_int t z : int_text t z -> 0 <= z -> up_to (LInt t) = z + 1.
Proof.
  intros H Hz. inversion H as [ds Hd|ds Hd]; subst.
  - destruct Hd as [H1 H2]. destruct t as [|b t]; [congruence|]. cbn [up_to].
    destruct (b =b "-"%byte) eqn:Eb; [|reflexivity]. apply eqb_eq in Eb as ->. discriminate H2.
  - cbn [up_to]. change ("-"%byte =b "-"%byte) with true. pose proof (num_nonneg _ (proj2 Hd)) as N0. cbn beta iota. lia.
Qed.
Lemma up_to_nonneg k : wf k -> 0 <= up_to k.
Proof.
  intros H. destruct k; cbn [up_to]; try lia. inversion H as [| |? z Hz| | | |]; subst.
  inversion Hz as [ds Hd|ds Hd]; subst; [|reflexivity || (change ("-"%byte =b "-"%byte) with true; cbn; lia)].
  destruct t as [|b t]; [lia|]. destruct (b =b "-"%byte); [lia|]. pose proof (num_nonneg _ (proj2 Hd)). lia.
Qed.
Lemma declared_nonneg_f sl : forall n p, (length (text p) <= n)%nat -> wf p -> 0 <= declared sl p.
Proof.
  induction n as [|n IH]; intros p L H. { pose proof (text_pos p). lia. }
  assert (forall es, (length (body es) <= n)%nat -> Forall (fun e => wf (fst e) /\ wf (snd e)) es -> 0 <= dents sl es) as B.
  { induction es as [|[k v] es IHes]; intros Le F; [cbn; lia|]. rewrite body_len in Le. rewrite dents_cons.
    pose proof (Forall_inv F) as [Hk Hv]. apply Forall_inv_tail in F. cbn [fst snd] in *. specialize (IHes ltac:(lia) F).
    pose proof (IH k ltac:(lia) Hk). pose proof (IH v ltac:(lia) Hv). pose proof (up_to_nonneg k Hk). destruct sl; lia. }
  destruct H; try (cbn; lia).
  - rewrite declared_arr. pose proof (num_nonneg _ (proj2 H)). pose proof (arr_len n0 es). pose proof (B es ltac:(lia) H0). lia.
  - rewrite declared_obj. pose proof (num_nonneg _ (proj2 H1)). pose proof (obj_len cn cls n0 es). pose proof (B es ltac:(lia) H2). lia.
Qed.
Lemma declared_nonneg sl p : wf p -> 0 <= declared sl p.
Proof. apply (declared_nonneg_f sl _ p (le_n _)). Qed.

Lemma total_app w w' : total (w ++ w') = total w + total w'.
Proof. induction w as [|q w IH]; [reflexivity|]. change (amount q + total (w ++ w') = amount q + total w + total w'). lia. Qed.
Lemma total_cons q w : total (q :: w) = amount q + total w. Proof. reflexivity. Qed.

(** ** Results *)

(** One value has been read, or none; and the requests made for it. *)
Definition cgood (sl : bool) (buf s : bytes) (rc : R Z) (w : list request) : Prop :=
  Forall (modest buf) w /\ (length w <= length s)%nat /\
  match rc with
  | ROk c' => exists p s', wf p /\ s = text p ++ s' /\ pos buf c' s' /\ (length w <= length (text p))%nat /\ total w <= declared sl p
  | RErr _ => True
  | RPanic p => p <> PIndex
  | RFuel => False
  end.
Definition cout {A} sl buf s (r : A * R Z * list request) : Prop := cgood sl buf s (snd (fst r)) (snd r).
(** The rest of a container. *)
Definition cbody (sl : bool) (buf s : bytes) (rc : R Z) (w : list request) : Prop :=
  Forall (modest buf) w /\ (length w <= length s)%nat /\
  match rc with
  | ROk c' => exists es s', Forall (fun e => wf (fst e) /\ wf (snd e)) es /\ s = body es ++ "}"%byte :: s' /\ pos buf c' s' /\
      (length w <= length (body es))%nat /\ total w <= dents sl es
  | RErr _ => True
  | RPanic p => p <> PIndex
  | RFuel => False
  end.
Definition cbout {A} sl buf s (r : A * R Z * list request) : Prop := cbody sl buf s (snd (fst r)) (snd r).
Definition celems {A} (sl : bool) (buf : bytes) (n : nat) (ed : Z -> gval -> A * R Z * list request) : Prop :=
  forall c s v, pos buf c s -> s <> [] -> (length s <= n)%nat -> cout sl buf s (ed c v).

(** Failures *)
Lemma bad_err sl buf s e w : Forall (modest buf) w -> (length w <= length s)%nat -> cgood sl buf s (RErr e) w.
Proof. repeat split; auto. Qed.
Lemma bbad_err sl buf s e w : Forall (modest buf) w -> (length w <= length s)%nat -> cbody sl buf s (RErr e) w.
Proof. repeat split; auto. Qed.
Lemma nil_ok (buf s : bytes) : Forall (modest buf) [] /\ (length (@nil request) <= length s)%nat.
Proof. split; [constructor|cbn; lia]. Qed.
Lemma bbad_nil sl buf s e : cbody sl buf s (RErr e) [].
Proof. apply bbad_err; apply (nil_ok buf s). Qed.
Lemma null_good sl buf s s' c' : s = text LNull ++ s' -> pos buf c' s' -> cgood sl buf s (ROk c') [].
Proof. intros Es H'. destruct (nil_ok buf s). repeat split; auto. exists LNull, s'. repeat split; auto; [constructor|cbn; lia..]. Qed.

Lemma free_good (S : lval -> gval -> Prop) sl buf s r : (forall p w, S p w -> wf p) -> dout r (reads S buf s) -> cout sl buf s (free r).
Proof.
  intros HS D. unfold dout in D. destruct r as [v r]. cbn [fst snd] in D. unfold cout, free. cbn [fst snd].
  destruct (nil_ok buf s). split; [auto|]. split; [auto|]. destruct r as [c'|e|p|]; auto.
  destruct D as (p & s' & Hp & Es & H'). exists p, s'. pose proof (HS _ _ Hp) as Hw. repeat split; auto; [cbn; lia|].
  apply declared_nonneg. exact Hw.
Qed.

(** One entry read. *)
Lemma entry_good (sl : bool) buf s kp vp s2 w rc w' : wf kp -> wf vp -> s = text kp ++ text vp ++ s2 ->
  Forall (modest buf) w -> (length w <= length (text kp) + length (text vp))%nat ->
  total w <= (if sl then up_to kp else 0) + declared sl kp + declared sl vp ->
  cbody sl buf s2 rc w' -> cbody sl buf s rc (w ++ w').
Proof.
  intros Hk Hv Es F L T (F' & L' & B). subst s. split; [apply Forall_app; auto|]. rewrite !app_length.
  split; [lia|]. destruct rc as [c'|e|p|]; auto. destruct B as (es & s' & Hes & -> & H' & Le & Te).
  exists ((kp, vp) :: es), s'. split; [constructor; auto|]. rewrite body_cons, <- ?app_assoc. split; [reflexivity|].
  split; [exact H'|]. rewrite body_len, total_app, dents_cons. split; lia.
Qed.
Lemma stop_good sl buf s2 s2' c2 : pos buf c2 s2 -> s2 = "}"%byte :: s2' -> cbody sl buf s2 (ROk (c2 + 1)) [].
Proof.
  intros H2 ->. destruct (nil_ok buf ("}"%byte :: s2')). split; [auto|]. split; [auto|]. exists [], s2'. repeat split; auto; [|cbn; lia].
  eapply pos_cons; exact H2.
Qed.
(** A failure in the middle of an entry *)
Lemma cfail_body {A} sl buf s (r : R A) (w : list request) :
  Forall (modest buf) w -> (length w <= length s)%nat ->
  match r with ROk _ => False | RErr _ => True | RPanic p => p <> PIndex | RFuel => False end ->
  cbody sl buf s (fail r) w.
Proof. intros F L H. repeat split; auto. destruct r; cbn; tauto. Qed.

Ltac cf := unfold cbout; cbn [fst snd]; apply cfail_body; auto; try lia.

(** ** Maps *)

Lemma c_map_header_out buf c d s : small buf -> pos buf c s ->
  outcome (c_map_header buf c d) (fun h => match h with
    | ChNull c' => exists s', s = text LNull ++ s' /\ pos buf c' s'
    | ChBody len c' => exists n mk s', numeral n /\ len = num n /\ written buf len /\ header_mk n mk /\
        (forall es r, s' = body es ++ "}"%byte :: r -> s = text (mk es) ++ r) /\
        (length s' + 2 <= length s)%nat /\ pos buf c' s'
    end).
Proof.
  intros Hsm H. unfold c_map_header. destruct s as [|b s]; [rewrite (pos_has_nil _ _ H); exact I|]. rdn H.
  destruct (max_depth <? d + 1); [exact I|].
  destruct (b =b "N"%byte) eqn:E.
  { apply eqb_eq in E as ->. eapply outcome_bind; [eapply null_out; exact H|].
    intros _ (s' & -> & H'). cbn. eauto. }
  eapply outcome_bind; [apply header_prefix; eassumption|].
  intros cur (s1 & H1 & L1 & K). cbn beta.
  pose proof (read_length_out _ _ _ H1) as RL. pose proof (read_length_written buf cur) as RW.
  destruct (read_length buf cur) as [[n c1]|e|p|]; try (cbn in RL |- *; tauto). specialize (RW n c1 eq_refl). cbn [bind outcome] in *.
  destruct RL as (ds & s2 & Hds & -> & -> & Hn & -> & H2).
  destruct s2 as [|x s2]; [rewrite (pos_has_nil _ _ H2); exact I|]. rdn H2.
  destruct (x =b "{"%byte) eqn:E2; cbn [negb]; [|exact I]. apply eqb_eq in E2 as ->.
  cbn [outcome]. destruct (K ds s2 eq_refl) as (mk & Hmk & Kmk).
  exists ds, mk, s2. split; [exact Hds|]. split; [reflexivity|]. split; [exact RW|]. split; [exact Hmk|]. split; [exact Kmk|].
  split; [|eapply pos_cons; exact H2].
  cbn [length] in L1 |- *. rewrite app_length in L1. cbn [length] in L1. lia.
Qed.

Lemma c_map_loop_out sl buf (kd vd : Z -> cres) (n0 : nat) :
  (forall c s, pos buf c s -> s <> [] -> (length s <= n0)%nat -> cout sl buf s (kd c)) ->
  (forall c s, pos buf c s -> s <> [] -> (length s <= n0)%nat -> cout sl buf s (vd c)) ->
  forall n c m s, pos buf c s -> (length s < n)%nat -> (length s <= n0)%nat -> cbout sl buf s (c_map_loop kd vd buf n c m).
Proof.
  intros Hk Hv n. induction n as [|n IH]; intros c m s H Hn HL; [lia|].
  cbn [c_map_loop]. destruct s as [|b0 s0] eqn:Es0; [rewrite (pos_has_nil _ _ H); cbn [negb]; unfold cbout, cout; cbn [fst snd]; apply bbad_nil|].
  rdn H. assert (s <> []) as Hne. { subst; discriminate. } rewrite <- Es0 in *. clear Es0 b0 s0.
  specialize (Hk c s H Hne HL) as Dk. destruct (kd c) as [[k kr] w]. unfold cout in Dk. cbn [fst snd] in Dk.
  destruct Dk as (Fk & Lk & Dk).
  destruct kr as [c1|e|p|]; [|cf..].
  destruct Dk as (kp & s1 & Wk & -> & H1 & Lk' & Tk').
  rewrite app_length in *. pose proof (text_pos kp) as Tk.
  destruct s1 as [|b1 s1'] eqn:Es1; [rewrite (pos_has_nil _ _ H1); cbn [negb]; unfold cbout, cout; cbn [fst snd]; apply bbad_err; auto; rewrite app_length; lia|].
  rdn H1. assert (s1 <> []) as Hne1 by (subst; discriminate). rewrite <- Es1 in *. clear Es1 b1 s1'.
  specialize (Hv c1 s1 H1 Hne1 ltac:(lia)) as Dv. destruct (vd c1) as [[v vr] w']. unfold cout in Dv. cbn [fst snd] in Dv.
  destruct Dv as (Fv & Lv & Dv).
  assert (Forall (modest buf) (w ++ w')) as Fw by (apply Forall_app; auto).
  assert (length (w ++ w') <= length (text kp ++ s1))%nat as Lw by (rewrite !app_length; lia).
  destruct vr as [c2|e|p|]; [|cf..].
  destruct Dv as (vp & s2 & Wv & -> & H2 & Lv' & Tv').
  rewrite app_length in Lv, Hn, HL. pose proof (text_pos vp) as Tv.
  destruct (hashable k) eqn:Eh; cbn [negb]; [|repeat split; auto; discriminate].
  cbn zeta.
  pose proof (up_to_nonneg kp Wk) as Uk.
  assert (total (w ++ w') <= (if sl then up_to kp else 0) + declared sl kp + declared sl vp) as Tw by (rewrite total_app; destruct sl; lia).
  assert (length (w ++ w') <= length (text kp) + length (text vp))%nat as Lw' by (rewrite app_length; lia).
  assert (forall rc w2, cbody sl buf s2 rc w2 -> cbody sl buf (text kp ++ text vp ++ s2) rc ((w ++ w') ++ w2)) as G.
  { intros rc w2 B. eapply entry_good; [| |reflexivity|..]; eauto. }
  destruct s2 as [|b s2'] eqn:Es2; [rewrite (pos_has_nil _ _ H2); cbn [negb]; unfold cbout, cout; cbn [fst snd]; apply bbad_err; auto|].
  rdn H2. destruct (b =b "}"%byte) eqn:Eb.
  - apply eqb_eq in Eb as ->. unfold cbout. cbn [fst snd]. rewrite <- (app_nil_r (w ++ w')). apply G. eapply stop_good; eauto.
  - rewrite <- Es2 in *. specialize (IH c2 (map_set k v m) s2 H2 ltac:(lia) ltac:(lia)).
    destruct (c_map_loop kd vd buf n c2 (map_set k v m)) as [[m' rc] w2]. unfold cbout in *. cbn [c_then fst snd] in *. apply G. exact IH.
Qed.

Lemma c_map_out sl buf c d rv s (kd vd : Z -> cres) : small buf -> pos buf c s ->
  (forall c s', pos buf c s' -> s' <> [] -> (length s' + 2 <= length s)%nat -> cout sl buf s' (kd c)) ->
  (forall c s', pos buf c s' -> s' <> [] -> (length s' + 2 <= length s)%nat -> cout sl buf s' (vd c)) ->
  cout sl buf s (c_map kd vd buf c d rv).
Proof.
  intros Hsm H Hk Hv. unfold c_map. pose proof (c_map_header_out _ _ d _ Hsm H) as O. destruct (nil_ok buf s) as [N1 N2].
  destruct (c_map_header buf c d) as [h|e|p|]; try (cbn in O |- *; repeat split; auto; fail); [|destruct O].
  cbn [outcome] in O. destruct h as [c'|len c'].
  { destruct O as (s' & Es & H'). eapply null_good; eauto. }
  destruct O as (n & mk & s1 & Hn & -> & Hw & Hmk & Kmk & Ls & H1). pose proof (num_nonneg _ (proj2 Hn)) as Nn.
  destruct rv; try (repeat split; auto; discriminate). cbn zeta.
  set (w := match o with None => [QMap (num n)] | Some _ => [] end).
  assert (Forall (modest buf) w /\ (length w <= 1)%nat /\ total w <= num n) as (Fw & Lw & Tw).
  { subst w. destruct o; [repeat split; [constructor|cbn; lia|cbn; lia]|].
    split; [constructor; [|constructor]; exists (num n); cbn [amount]; split; [exact Hw|lia]|]. split; [reflexivity|]. rewrite total_cons. cbn. lia. }
  destruct s1 as [|b s1'] eqn:Es1; [rewrite (pos_has_nil _ _ H1); cbn [negb]; unfold cbout, cout; cbn [fst snd]; apply bad_err; auto; lia|].
  rdn H1. destruct (b =b "}"%byte) eqn:Eb.
  { apply eqb_eq in Eb as ->. unfold cout. cbn [fst snd]. split; [auto|]. split; [lia|]. exists (mk []), s1'.
    split; [eapply body_of_wf; [apply header_body; exact Hmk|exact Hn|constructor]|].
    split; [apply Kmk; reflexivity|]. split; [eapply pos_cons; exact H1|]. pose proof (text_pos (mk [])).
    split; [lia|]. rewrite (declared_mk _ _ _ _ Hmk). cbn [dents fold_right]. lia. }
  rewrite <- Es1 in *. clear Es1.
  assert (length s1 < length buf)%nat as Lb.
  { apply pos_len in H as L. apply pos_nonneg in H. unfold blen in L. lia. }
  pose proof (c_map_loop_out sl buf kd vd (length s1) ltac:(intros; apply Hk; auto; lia) ltac:(intros; apply Hv; auto; lia)
    (length buf) c' (match o with Some m => m | None => [] end) s1 H1 Lb (le_n _)) as ML.
  destruct (c_map_loop _ _ _ _ _ _) as [[m' r] w']. unfold cbout, cout in *. cbn [fst snd] in *. destruct ML as (F & L & B).
  split; [apply Forall_app; auto|]. split; [rewrite app_length; lia|].
  destruct r as [c2|e|p|]; auto. destruct B as (es & s' & Wes & Es & H' & Les & Tes). exists (mk es), s'.
  split; [eapply body_of_wf; [apply header_body; exact Hmk|exact Hn|exact Wes]|].
  split; [apply Kmk; exact Es|]. split; [exact H'|].
  pose proof (body_of_len _ _ _ (header_body n mk es Hmk)). rewrite app_length, total_app, (declared_mk _ _ _ _ Hmk). split; lia.
Qed.

(** ** any *)

Definition caout sl buf s (r : R (option (gty * gval) * Z) * list request) : Prop :=
  cgood sl buf s (match fst r with ROk (_, c) => ROk c | RErr e => RErr e | RPanic p => RPanic p | RFuel => RFuel end) (snd r).

Lemma c_any_f_out sl X buf : small buf -> forall fuel c d s,
  pos buf c s -> s <> [] -> (length s < fuel)%nat -> caout sl buf s (c_any_f X fuel buf c d).
Proof.
  intros Hsm fuel. induction fuel as [|f IH]; intros c d s H Hne HL; [lia|].
  (* the branches that make no request are those of dec_any_f *)
  assert (forall r, fst r = dec_any_f X (S f) buf c d -> snd r = [] -> caout sl buf s r) as Quiet.
  { intros [r w] Q Qw. cbn [fst snd] in Q, Qw. subst w. pose proof (any_f_out X buf Hsm (S f) c d s H Hne HL) as O. rewrite <- Q in O.
    unfold caout. cbn [fst snd]. destruct (nil_ok buf s). split; [auto|]. split; [auto|]. destruct r as [[o c']|e|p|]; auto.
    destruct O as (p & s' & Hp & Es & H'). apply any_val_wf in Hp. exists p, s'. repeat split; auto; [cbn; lia|]. apply declared_nonneg, Hp. }
  assert (forall t (r : cres), cout sl buf s r ->
    caout sl buf s (let '(v, r0, w) := r in match r0 with ROk c => (ROk (Some (t, v), c), w) | r1 => (fail r1, w) end)) as W.
  { intros t [[v r0] w] D. unfold cout in D. cbn [fst snd] in D. destruct r0; exact D. }
  pose proof (c_any_f_same X buf (S f) c d) as Same.
  cbn [c_any_f] in Same |- *. cbn zeta in Same |- *. destruct s as [|b s0] eqn:Es0; [congruence|].
  rewrite (pos_rd _ _ _ _ H) in Same |- *. rewrite <- Es0 in *.
  assert (forall c0 s', pos buf c0 s' -> s' <> [] -> (length s' + 2 <= length s)%nat ->
     cout sl buf s' (let '(r, w) := c_any_f X f buf c0 (d + 1) in
        match r with ROk (o, c') => (VIface o, ROk c', w) | r => (VIface None, fail r, w) end : cres)) as Hvd.
  { intros c0 s' H0 Hn0 L0. specialize (IH c0 (d + 1) s' H0 Hn0 ltac:(lia)). unfold caout in IH.
    destruct (c_any_f X f buf c0 (d + 1)) as [[[o c']|e|p|] w]; exact IH. }
  destruct (b =b "O"%byte) eqn:E0.
  { apply W. apply c_map_out; auto. intros c0 s' H0 _ _.
    eapply (free_good obj_key); [|apply obj_key_out; auto]. intros p w Hp. destruct Hp as [n0 s1 [Hn Hl]|]; constructor; assumption. }
  destruct (b =b "a"%byte) eqn:E1.
  { apply W. apply c_map_out; auto. intros c0 s' H0 Hn0 _.
    eapply (free_good any_key); [|apply any_key_out; auto]. intros p w Hp. destruct Hp as [n0 s1 [Hn Hl]|t z Ht _]; econstructor; eassumption. }
  destruct (b =b "d"%byte) eqn:E2. { apply Quiet; [exact Same|]. destruct (dec_float _ _ _ _ _) as [v [ | | | ]]; reflexivity. }
  destruct (b =b "s"%byte) eqn:E3; [apply Quiet; [exact Same|reflexivity]|].
  destruct (b =b "i"%byte) eqn:E4. { apply Quiet; [exact Same|]. destruct (dec_int _ _ _ _) as [v [ | | | ]]; reflexivity. }
  destruct (b =b "b"%byte) eqn:E5; [apply Quiet; [exact Same|reflexivity]|].
  destruct (b =b "N"%byte) eqn:E6; apply Quiet; [exact Same|reflexivity|exact Same|reflexivity].
Qed.
Lemma c_any_out sl X buf c d s : small buf -> pos buf c s -> s <> [] -> caout sl buf s (c_any X buf c d).
Proof.
  intros Hsm H Hne. apply c_any_f_out; auto. apply pos_len in H as L. apply pos_nonneg in H. unfold blen in L. lia.
Qed.
Lemma c_iface_any_out sl X buf c d rv s : small buf -> pos buf c s -> s <> [] -> cout sl buf s (c_iface_any X buf c d rv).
Proof.
  intros Hsm H Hne. unfold c_iface_any. pose proof (c_any_out sl X buf c d s Hsm H Hne) as O. unfold caout in O.
  destruct (c_any X buf c d) as [[[o c']|e|p|] w]; exact O.
Qed.
Lemma c_any_fst X buf c d : fst (c_any X buf c d) = dec_any X buf c d.
Proof. apply c_any_f_same. Qed.
Lemma c_key_out sl X E kt buf c d s : small buf -> pos buf c s -> s <> [] -> cout sl buf s (c_key X E kt buf c d).
Proof.
  intros Hsm H Hne. unfold c_key. cbn zeta.
  assert (forall r, r = dec_key X E kt buf c d -> cout sl buf s (let '(v, r) := r in (v, r, []))) as Quiet.
  { intros r ->. apply (free_good (fun p w => store_key X E d kt p w)); [|apply key_out; auto].
    intros p w Hp. eapply (proj2 (store_wf_f X E _)); [apply le_n|exact Hp]. }
  pose proof (c_any_out sl X buf c d s Hsm H Hne) as O.
  destruct (key_node E kt) as [n| | |ik|uk| | |nd|] eqn:Kn; try (apply Quiet; reflexivity).
  - unfold dec_key. rewrite Kn. unfold dec_iface_any. rewrite <- c_any_fst. unfold caout in O.
    destruct (c_any X buf c d) as [[[o c']|e|p|] w]; exact O.
  - assert (cout sl buf s (let '(v, r) := match dec_any X buf c d with
             | ROk (None, c) => (zero E kt, ROk c)
             | ROk (Some _, _) => (zero E kt, RPanic PReflect)
             | r => (zero E kt, fail r)
             end in (v, r, snd (c_any X buf c d)))) as G.
    { rewrite <- c_any_fst. unfold caout in O. destruct O as (F & L & O).
      destruct (c_any X buf c d) as [[[[o|] c']|e|p|] w]; cbn [fst snd] in *; repeat split; auto. discriminate. }
    destruct nd; try (apply Quiet; reflexivity); unfold dec_key; rewrite Kn; exact G.
Qed.

(** ** Slices and arrays *)

Lemma wrap64_le z : 0 <= z <= 2 ^ 63 -> 0 <= wrap64 z -> wrap64 z = z.
Proof.
  intros Hz Hw. destruct (Z.eq_dec z (2 ^ 63)) as [->|N]; [pose proof (wrap64_big (2 ^ 63) ltac:(lia)); lia|].
  apply wrap64_id. unfold min_int64, max_int64. lia.
Qed.

Lemma c_slice_loop_out X E et buf (ed : Z -> gval -> cres) n0 : celems true buf n0 ed ->
  forall n c l rv s, pos buf c s -> (length s < n)%nat -> (length s <= n0)%nat -> cbout true buf s (c_slice_loop X E et ed buf n c l rv).
Proof.
  intros He n. induction n as [|n IH]; intros c l rv s H Hn HL; [lia|].
  cbn [c_slice_loop]. cbn zeta. destruct s as [|b0 s0] eqn:Es0; [rewrite (pos_has_nil _ _ H); cbn [negb]; unfold cbout, cout; cbn [fst snd]; apply bbad_nil|].
  rdn H. rewrite <- Es0 in *. clear Es0 b0 s0. destruct (nil_ok buf s) as [N1 N2].
  pose proof (read_int_out _ _ _ H) as RI. pose proof (read_int_written buf c) as RW.
  destruct (read_int buf c) as [[idx c1]|e|p|]; [|cf..].
  specialize (RW idx c1 eq_refl) as [Hi0 Hw]. cbn [outcome] in RI. destruct RI as (t & s1 & Ht & Hidx & Es & H1).
  destruct s1 as [|b1 s1'] eqn:Es1; [rewrite (pos_has_nil _ _ H1); cbn [negb]; unfold cbout, cout; cbn [fst snd]; apply bbad_err; auto|].
  rdn H1. assert (s1 <> []) as Hne1 by (subst; discriminate). rewrite <- Es1 in *. clear Es1 b1 s1'.
  assert (S (length s1) <= length s)%nat as L1. { subst s. cbn [length]. rewrite app_length. cbn [length]. lia. }
  assert (s = text (LInt t) ++ s1) as Et by (rewrite text_int; exact Es).
  assert (wf (LInt t)) as Wk by (econstructor; exact Ht).
  pose proof (up_to_int t idx Ht ltac:(lia)) as Ut.
  assert (forall w0 l1 (pv : lval) s2 c2, s1 = text pv ++ s2 -> pos buf c2 s2 -> wf pv ->
    Forall (modest buf) w0 -> (length w0 <= S (length (text pv)))%nat -> total w0 <= idx + 1 + declared true pv ->
    cbout true buf s (c_then w0 (
      (if negb (has_byte buf c2) then (VSlice (Some l1), RErr (ESyntax c2 (WEnd "array")), [])
        else
          match rd buf c2 with
          | ROk b => if b =b "}"%byte then (VSlice (Some l1), ROk (c2 + 1), [])
                     else c_slice_loop X E et ed buf n c2 l1 (VSlice (Some l1))
          | r => (VSlice (Some l1), fail r, [])
          end) : cres))) as CONT.
  { intros w0 l1 pv s2 c2 E2 H2 Wv F0 L0 T0.
    assert (forall rc w2, cbody true buf s2 rc w2 -> cbody true buf s rc (w0 ++ w2)) as G.
    { intros rc w2 B. eapply entry_good; [exact Wk|exact Wv|rewrite Et, E2; reflexivity|exact F0| | |exact B].
      - pose proof (text_pos (LInt t)). lia.
      - change (declared true (LInt t)) with 0. lia. }
    destruct s2 as [|b s2'] eqn:Es2; [rewrite (pos_has_nil _ _ H2); unfold cbout; cbn [c_then fst snd negb]; apply G, bbad_nil|].
    rdn H2. destruct (b =b "}"%byte) eqn:Eb.
    - apply eqb_eq in Eb as ->. unfold cbout. cbn [c_then fst snd]. apply G. eapply stop_good; eauto.
    - rewrite <- Es2 in *. assert (length s1 = length (text pv) + length s2)%nat as EL by (rewrite E2; apply app_length).
      pose proof (text_pos pv). specialize (IH c2 l1 (VSlice (Some l1)) s2 H2 ltac:(lia) ltac:(lia)).
      destruct (c_slice_loop X E et ed buf n c2 l1 _) as [[v rc] w2]. unfold cbout in *. cbn [c_then fst snd] in *. apply G. exact IH. }
  destruct (idx <? blen l) eqn:El.
  - apply Z.ltb_lt in El. rewrite index_ok by lia.
    pose proof (He c1 s1 (nth (Z.to_nat idx) l VOther) H1 Hne1 ltac:(lia)) as D. destruct (ed c1 _) as [[v r] w].
    unfold cout in D. cbn [fst snd] in D. destruct D as (F & L & D).
    destruct r as [c2|e|p|]; [|cf..]. destruct D as (pv & s2 & Wv & E2 & H2 & Lw & Tw).
    eapply CONT; eauto; lia.
  - destruct (wrap64 (idx + 1) <? 0) eqn:Ew; cbn [orb]; [repeat split; auto; discriminate|]. apply Z.ltb_ge in Ew.
    assert (wrap64 (idx + 1) = idx + 1) as Wx by (apply wrap64_le; unfold max_int64 in *; lia). rewrite Wx in *.
    destruct (negb (x_slots X et _)); [repeat split; auto; discriminate|].
    rewrite index_ok by lia.
    pose proof (He c1 s1 (zero E et) H1 Hne1 ltac:(lia)) as D. destruct (ed c1 (zero E et)) as [[v r] w].
    unfold cout in D. cbn [fst snd] in D. destruct D as (F & L & D).
    assert (Forall (modest buf) (QSlice (idx + 1) :: w)) as F1.
    { constructor; [|exact F]. exists idx. cbn [amount]. split; [exact Hw|lia]. }
    assert (length (QSlice (idx + 1) :: w) <= length s)%nat as L2 by (cbn [length]; lia).
    destruct r as [c2|e|p|]; [|cf..]. destruct D as (pv & s2 & Wv & E2 & H2 & Lw & Tw).
    eapply CONT; eauto; [cbn [length]; lia|rewrite total_cons; cbn [amount]; lia].
Qed.

Lemma c_slice_out X E et buf (ed : Z -> gval -> cres) c d rv s : pos buf c s -> celems true buf (length s - 2) ed ->
  cout true buf s (c_slice X E et ed buf c d rv).
Proof.
  intros H He. unfold c_slice. pose proof (slice_header_out buf c d s H) as O. destruct (nil_ok buf s) as [N1 N2].
  pose proof (slice_header_written buf c d) as AW.
  destruct (slice_header buf c d) as [h|e|p|]; try (cbn in O |- *; repeat split; auto; fail); [|destruct O]. cbn [outcome] in O. destruct O as [Hd O].
  destruct h as [c'|c'|len c'].
  - destruct O as (s' & Es & H'). eapply null_good; eauto.
  - destruct O as (s' & Es & H'). unfold cout. cbn [fst snd]. split; [auto|]. split; [auto|]. exists (LArr (bs "0") []), s'.
    repeat split; auto; [|cbn; lia..]. constructor; [split; [discriminate|reflexivity]|constructor].
  - destruct O as (n & s1 & Hn & -> & Hmax & Hhd & Kmk & Ls & H1). specialize (AW _ _ eq_refl).
    pose proof (num_nonneg _ (proj2 Hn)) as Nn.
    destruct (negb _); [repeat split; auto; discriminate|].
    assert (length s1 < length buf)%nat as Lb.
    { apply pos_len in H as L. apply pos_nonneg in H. unfold blen in L. lia. }
    pose proof (c_slice_loop_out X E et buf ed _ He (length buf) c' [] rv s1 H1 Lb ltac:(lia)) as B.
    destruct (c_slice_loop _ _ _ _ _ _ _ _ _) as [[v r] w]. unfold cbout, cout in *. cbn [c_then fst snd] in *.
    destruct B as (F & L & B). split; [constructor; [exists (num n); cbn [amount]; split; [exact AW|lia]|exact F]|].
    split; [cbn [length app]; lia|]. destruct r as [c2|e|p|]; auto.
    destruct B as (es & s' & Wes & Es & H' & Les & Tes). exists (LArr n es), s'. split; [constructor; auto|].
    split; [apply Kmk; exact Es|]. split; [exact H'|]. pose proof (arr_len n es).
    cbn [app length]. rewrite total_cons, declared_arr. cbn [amount]. split; lia.
Qed.

Lemma c_array_loop_out sl buf d (ed : Z -> gval -> cres) n0 : small buf -> celems sl buf n0 ed ->
  forall n c l s, pos buf c s -> (length s < n)%nat -> (length s <= n0)%nat -> cbout sl buf s (c_array_loop ed buf d n c l).
Proof.
  intros Hsm He n. induction n as [|n IH]; intros c l s H Hn HL; [lia|].
  cbn [c_array_loop]. cbn zeta. destruct s as [|b0 s0] eqn:Es0; [rewrite (pos_has_nil _ _ H); cbn [negb]; unfold cbout, cout; cbn [fst snd]; apply bbad_nil|].
  rdn H. rewrite <- Es0 in *. clear Es0 b0 s0. destruct (nil_ok buf s) as [N1 N2].
  pose proof (read_int_out _ _ _ H) as RI.
  destruct (read_int buf c) as [[idx c1]|e|p|]; [|cf..].
  cbn [outcome] in RI. destruct RI as (t & s1 & Ht & Hidx & Es & H1).
  destruct s1 as [|b1 s1'] eqn:Es1; [rewrite (pos_has_nil _ _ H1); cbn [negb]; unfold cbout, cout; cbn [fst snd]; apply bbad_err; auto|].
  rdn H1. assert (s1 <> []) as Hne1 by (subst; discriminate). rewrite <- Es1 in *. clear Es1 b1 s1'.
  assert (S (length s1) <= length s)%nat as L1. { subst s. cbn [length]. rewrite app_length. cbn [length]. lia. }
  assert (s = text (LInt t) ++ s1) as Et by (rewrite text_int; exact Es).
  assert (wf (LInt t)) as Wk by (econstructor; exact Ht). pose proof (up_to_nonneg _ Wk) as Ut.
  assert (forall w0 l1 (pv : lval) s2 c2, s1 = text pv ++ s2 -> pos buf c2 s2 -> wf pv ->
    Forall (modest buf) w0 -> (length w0 <= length (text pv))%nat -> total w0 <= declared sl pv ->
    cbout sl buf s (c_then w0 (
      (if negb (has_byte buf c2) then (l1, RErr (ESyntax c2 (WEnd "array")), [])
        else
          match rd buf c2 with
          | ROk b => if b =b "}"%byte then (l1, ROk (c2 + 1), [])
                     else c_array_loop ed buf d n c2 l1
          | r => (l1, fail r, [])
          end)))) as CONT.
  { intros w0 l1 pv s2 c2 E2 H2 Wv F0 L0 T0.
    assert (forall rc w2, cbody sl buf s2 rc w2 -> cbody sl buf s rc (w0 ++ w2)) as G.
    { intros rc w2 B. eapply entry_good; [exact Wk|exact Wv|rewrite Et, E2; reflexivity|exact F0| | |exact B].
      - lia.
      - change (declared sl (LInt t)) with 0. destruct sl; lia. }
    destruct s2 as [|b s2'] eqn:Es2; [rewrite (pos_has_nil _ _ H2); unfold cbout; cbn [c_then fst snd negb]; apply G, bbad_nil|].
    rdn H2. destruct (b =b "}"%byte) eqn:Eb.
    - apply eqb_eq in Eb as ->. unfold cbout. cbn [c_then fst snd]. apply G. eapply stop_good; eauto.
    - rewrite <- Es2 in *. assert (length s1 = length (text pv) + length s2)%nat as EL by (rewrite E2; apply app_length).
      pose proof (text_pos pv). specialize (IH c2 l1 s2 H2 ltac:(lia) ltac:(lia)).
      destruct (c_array_loop ed buf d n c2 l1) as [[v rc] w2]. unfold cbout in *. cbn [c_then fst snd] in *. apply G. exact IH. }
  destruct (idx <? blen l) eqn:El.
  - apply Z.ltb_lt in El. rewrite index_ok by lia.
    pose proof (He c1 s1 (nth (Z.to_nat idx) l VOther) H1 Hne1 ltac:(lia)) as D. destruct (ed c1 _) as [[v r] w].
    unfold cout in D. cbn [fst snd] in D. destruct D as (F & L & D).
    destruct r as [c2|e|p|]; [|cf..]. destruct D as (pv & s2 & Wv & E2 & H2 & Lw & Tw).
    eapply CONT; eauto; lia.
  - pose proof (skip_value_out buf c1 d s1 Hsm H1) as D.
    destruct (skip_value buf c1 d) as [c2|e|p|]; [|cf..].
    destruct D as (pv & s2 & Sv & E2 & H2). apply strict_wf in Sv.
    pose proof (CONT [] l pv s2 c2 E2 H2 Sv (Forall_nil _) ltac:(cbn; lia) ltac:(apply declared_nonneg; exact Sv)) as G.
    match type of G with cbout _ _ _ (c_then [] ?r) => destruct r as [[v rc] w2] end. exact G.
Qed.

(** ** Structs *)

Lemma c_struct_loop_out sl decs (fd : fdec -> Z -> gval -> cres) buf d n0 : small buf ->
  (forall x, In x decs -> celems sl buf n0 (fd x)) ->
  forall n c l s, pos buf c s -> (length s < n)%nat -> (length s <= n0)%nat -> cbout sl buf s (c_struct_loop decs fd buf d n c l).
Proof.
  intros Hsm He n. induction n as [|n IH]; intros c l s H Hn HL; [lia|].
  cbn [c_struct_loop]. cbn zeta. destruct s as [|b0 s0] eqn:Es0; [rewrite (pos_has_nil _ _ H); cbn [negb]; unfold cbout, cout; cbn [fst snd]; apply bbad_nil|].
  rdn H. rewrite <- Es0 in *. clear Es0 b0 s0. destruct (nil_ok buf s) as [N1 N2].
  pose proof (string_bytes_out _ _ _ Hsm H) as RI.
  destruct (decode_string_bytes buf c) as [[key c1]|e|p|]; [|cf..].
  cbn [outcome] in RI. destruct RI as (kp & s1 & Et & H1 & Kp).
  assert (wf kp /\ declared sl kp = 0) as [Wk Dk].
  { destruct key as [k|]; [destruct Kp as (m & -> & Hm & Hl)|subst kp]; split; try constructor; auto. }
  pose proof (up_to_nonneg _ Wk) as Ut.
  destruct s1 as [|b1 s1'] eqn:Es1; [rewrite (pos_has_nil _ _ H1); cbn [negb]; unfold cbout, cout; cbn [fst snd]; apply bbad_err; auto|].
  rdn H1. assert (s1 <> []) as Hne1 by (subst; discriminate). rewrite <- Es1 in *. clear Es1 b1 s1'.
  pose proof (text_pos kp) as Tk.
  assert (S (length s1) <= length s)%nat as L1. { subst s. rewrite app_length. lia. }
  assert (forall w0 l1 (pv : lval) s2 c2, s1 = text pv ++ s2 -> pos buf c2 s2 -> wf pv ->
    Forall (modest buf) w0 -> (length w0 <= length (text pv))%nat -> total w0 <= declared sl pv ->
    cbout sl buf s (c_then w0 (
      (if negb (has_byte buf c2) then (l1, RErr (ESyntax c2 (WEnd "object")), [])
        else
          match rd buf c2 with
          | ROk b => if b =b "}"%byte then (l1, ROk (c2 + 1), [])
                     else c_struct_loop decs fd buf d n c2 l1
          | r => (l1, fail r, [])
          end)))) as CONT.
  { intros w0 l1 pv s2 c2 E2 H2 Wv F0 L0 T0.
    assert (forall rc w2, cbody sl buf s2 rc w2 -> cbody sl buf s rc (w0 ++ w2)) as G.
    { intros rc w2 B. eapply entry_good; [exact Wk|exact Wv|rewrite Et, E2; reflexivity|exact F0| | |exact B].
      - lia.
      - rewrite Dk. destruct sl; lia. }
    destruct s2 as [|b s2'] eqn:Es2; [rewrite (pos_has_nil _ _ H2); unfold cbout; cbn [c_then fst snd negb]; apply G, bbad_nil|].
    rdn H2. destruct (b =b "}"%byte) eqn:Eb.
    - apply eqb_eq in Eb as ->. unfold cbout. cbn [c_then fst snd]. apply G. eapply stop_good; eauto.
    - rewrite <- Es2 in *. assert (length s1 = length (text pv) + length s2)%nat as EL by (rewrite E2; apply app_length).
      pose proof (text_pos pv). specialize (IH c2 l1 s2 H2 ltac:(lia) ltac:(lia)).
      destruct (c_struct_loop decs fd buf d n c2 l1) as [[v rc] w2]. unfold cbout in *. cbn [c_then fst snd] in *. apply G. exact IH. }
  destruct (find_field _ decs) as [x|] eqn:Ff.
  - assert (In x decs) as Hx by (unfold find_field in Ff; apply find_some in Ff; apply Ff).
    destruct (nth_error l (fd_idx x)) as [v0|]; [|repeat split; auto; discriminate].
    pose proof (He x Hx c1 s1 v0 H1 Hne1 ltac:(lia)) as D. destruct (fd x c1 v0) as [[v r] w].
    unfold cout in D. cbn [fst snd] in D. destruct D as (F & L & D).
    destruct r as [c2|e|p|]; [|cf..]. destruct D as (pv & s2 & Wv & E2 & H2 & Lw & Tw).
    eapply CONT; eauto; lia.
  - pose proof (skip_value_out buf c1 d s1 Hsm H1) as D.
    destruct (skip_value buf c1 d) as [c2|e|p|]; [|cf..].
    destruct D as (pv & s2 & Sv & E2 & H2). apply strict_wf in Sv.
    pose proof (CONT [] l pv s2 c2 E2 H2 Sv (Forall_nil _) ltac:(cbn; lia) ltac:(apply declared_nonneg; exact Sv)) as G.
    match type of G with cbout _ _ _ (c_then [] ?r) => destruct r as [[v rc] w2] end. exact G.
Qed.

Lemma wrapped_good sl X E t buf c v s : small buf -> pos buf c s -> cout sl buf s (free (dec_wrapped X (node_of E t) buf c v)).
Proof.
  intros Hsm H. apply (free_good (fun p w => wf p)); [auto|]. eapply dout_imp; [apply wrapped_out; eassumption|].
  intros w c' (p & s' & Es & H' & [[-> _]|(n & b & -> & [Hn Hl] & _)]); eexists; exists s'; (split; [|split; [exact Es|exact H']]); constructor; auto.
Qed.
Lemma c_ptr_out sl E t (ed : Z -> gval -> cres) buf c rv s : pos buf c s -> s <> [] ->
  (forall v, cout sl buf s (ed c v)) -> cout sl buf s (c_ptr E t ed buf c rv).
Proof.
  intros H Hne He. unfold c_ptr. destruct s as [|b s]; [congruence|]. rewrite (pos_rd _ _ _ _ H). destruct (nil_ok buf (b :: s)) as [N1 N2].
  destruct (b =b "N"%byte) eqn:Eb.
  { apply eqb_eq in Eb as ->. pose proof (null_out _ _ _ _ H) as O.
    destruct (validate_null buf c); try (cbn in O |- *; repeat split; auto; fail); [|destruct O].
    destruct O as (s' & -> & H'). eapply null_good; [|exact H']. reflexivity. }
  destruct rv; try (repeat split; auto; discriminate).
  match goal with |- context [ed c ?a] => specialize (He a); destruct (ed c a) as [[v r] w] end. exact He.
Qed.

Lemma field_decs_in X E fs : forall i x, In x (field_decs X E i fs) -> exists f, In f fs /\ is_ignored f = false /\ fd_ty x = f_ty f.
Proof.
  induction fs as [|f fs IH]; intros i x; cbn [field_decs]; [intros []|].
  destruct (is_ignored f) eqn:Ei.
  - intros Hx. destruct (IH _ _ Hx) as (g & Hg & R). exists g. split; [right; exact Hg|exact R].
  - intros [<-|Hx]; [exists f; split; [left; reflexivity|split; [exact Ei|reflexivity]]|].
    destruct (IH _ _ Hx) as (g & Hg & R). exists g. split; [right; exact Hg|exact R].
Qed.

Lemma inside_first E T U V : component E T U -> inside E U V -> inside E T V.
Proof. intros C H. induction H; [eapply in_step; [apply in_refl|exact C]|eapply in_step; eassumption]. Qed.
Lemma slice_free_part E T U : component E T U -> slice_free E T -> slice_free E U.
Proof. intros C H V t HV. apply H. eapply inside_first; eauto. Qed.

(** ** All decoders *)

Theorem c_decode_f_out sl X E buf : small buf -> forall fuel T c d rv s,
  (sl = false -> slice_free E T) ->
  pos buf c s -> s <> [] -> (2 * length s + ptr_cost E T < fuel)%nat ->
  cout sl buf s (c_decode_f X E fuel T buf c d rv).
Proof.
  intros Hsm fuel. induction fuel as [|f IH]; intros T c d rv s Hsl H Hne HL; [lia|].
  cbn [c_decode_f]. cbn zeta.
  assert (length s <= length buf)%nat as Lb.
  { apply pos_len in H as Lp. apply pos_nonneg in H. unfold blen in Lp. lia. }
  destruct (nil_ok buf s) as [N1 N2].
  assert (forall et, component E T et -> celems sl buf (length s - 2) (fun c v => c_decode_f X E f et buf c (d + 1) v)) as He.
  { intros et Hc c' s' v' H' Hne' L1. apply IH; auto.
    - intros Q. eapply slice_free_part; eauto.
    - unfold ptr_cost. destruct s'; [congruence|]. cbn [length] in *. destruct (is_ptr E et); lia. }
  assert (forall r, dout r (reads (fun p w => store X E d T p rv w) buf s) -> cout sl buf s (free r)) as Leaf.
  { intros r. apply free_good. intros p w Hp. eapply store_wf; exact Hp. }
  assert (forall t, plain E T (KSlice t) -> sl = true) as Htrue.
  { intros t Hp. destruct sl; [reflexivity|]. exfalso. eapply (Hsl eq_refl T t); [apply in_refl|exact Hp]. }
  pose proof (node_plain E T) as NP.
  destruct (node_of E T) as [n|t|id fs|t|t|n t|kt vt| | |uk|ik| | | | |] eqn:En.
  - apply Leaf. apply unm_out; auto.
  - destruct (is_ptr E t) eqn:Ep; [unfold is_ptr in Ep; destruct (kind_of E t); try discriminate; apply bad_err; auto|].
    assert (cout sl buf s (c_ptr E t (fun c0 v => c_decode_f X E f t buf c0 d v) buf c rv)) as G.
    2:{ unfold is_ptr in Ep. destruct (kind_of E t); try discriminate; exact G. }
    apply c_ptr_out; auto. intros v. apply IH; auto.
    + intros Q. eapply slice_free_part; [|apply Hsl, Q]. apply co_ptr. exact NP.
    + assert (ptr_cost E T = 1%nat) as PT by (unfold ptr_cost, is_ptr; destruct NP as [_ ->]; reflexivity).
      assert (ptr_cost E t = 0%nat) as Pt by (unfold ptr_cost; rewrite Ep; reflexivity). lia.
  - unfold c_struct. pose proof (struct_header_out buf c d s Hsm H) as O.
    destruct (struct_header buf c d) as [h|e|p|]; try (cbn in O |- *; repeat split; auto; fail); [|destruct O]. cbn [outcome] in O. destruct O as [Hd O].
    destruct h as [c'|c'].
    + destruct O as (s' & Es & H'). eapply null_good; eauto.
    + destruct O as (n & mk & s1 & Hn & _ & Hmk & Kmk & Ls & H1). pose proof (num_nonneg _ (proj2 Hn)) as Nn.
      destruct rv as [| | | | | | | | | | |vals|]; try (repeat split; auto; discriminate).
      destruct s1 as [|b s1'] eqn:Es1; [rewrite (pos_has_nil _ _ H1); cbn [negb]; unfold cbout, cout; cbn [fst snd]; apply bad_err; auto|].
      rdn H1. destruct (b =b "}"%byte) eqn:Eb.
      { apply eqb_eq in Eb as ->. unfold cout. cbn [fst snd]. split; [auto|]. split; [auto|]. exists (mk []), s1'.
        split; [eapply body_of_wf; [apply header_body; exact Hmk|exact Hn|constructor]|].
        split; [apply Kmk; reflexivity|]. split; [eapply pos_cons; exact H1|]. split; [cbn; lia|].
        rewrite (declared_mk _ _ _ _ Hmk). cbn. lia. }
      rewrite <- Es1 in *. clear Es1.
      match goal with |- context [c_struct_loop ?decs ?fd _ _ _ _ _] =>
        pose proof (c_struct_loop_out sl decs fd buf (d + 1) (length s - 2) Hsm) as SL end.
      specialize (SL ltac:(
        intros x Hx; destruct (field_decs_in _ _ _ _ _ Hx) as (fl & Hfl & Hig & Hty);
        intros c0 s0 v0 H0 Hne0 L1; destruct (fd_str x);
        [|apply He; auto; rewrite Hty; eapply co_field; eauto];
        destruct (node_of E (fd_ty x)) eqn:Nx;
          try (rewrite <- Nx; apply wrapped_good; assumption);
        match goal with |- cout _ _ _ (free ?r) => assert (free r = c_ptr E t (fun c v => free (dec_wrapped X (node_of E t) buf c v)) buf c0 v0) as -> end;
        [unfold free at 1, dec_ptr, c_ptr; destruct (rd buf c0) as [b0|e0|p0|]; try reflexivity;
         destruct (b0 =b "N"%byte); [destruct (validate_null buf c0); reflexivity|];
         destruct v0; try reflexivity; destruct (dec_wrapped _ _ _ _ _); reflexivity
        |apply c_ptr_out; auto; intros; apply wrapped_good; assumption])
        (length buf) c' vals s1 H1 ltac:(lia) ltac:(lia)).
      destruct (c_struct_loop _ _ _ _ _ _ _) as [[l r] w]. unfold cbout, cout in *. cbn [fst snd] in *. destruct SL as (F & L & B).
      split; [exact F|]. split; [lia|]. destruct r as [c2|e|p|]; auto.
      destruct B as (es & s' & Wes & Es & H' & Les & Tes). exists (mk es), s'.
      split; [eapply body_of_wf; [apply header_body; exact Hmk|exact Hn|exact Wes]|].
      split; [apply Kmk; exact Es|]. split; [exact H'|].
      pose proof (body_of_len _ _ _ (header_body n mk es Hmk)). rewrite (declared_mk _ _ _ _ Hmk). split; lia.
  - pose proof (Htrue t (proj1 NP)) as ->. unfold c_bytes. destruct s as [|b s]; [congruence|]. rewrite (pos_rd _ _ _ _ H).
    destruct (b =b "a"%byte) eqn:Eb; [apply c_slice_out; auto; apply He, co_slice, NP|].
    apply (free_good (fun p w => wf p)); [auto|].
    apply dout_text. eapply outcome_imp; [apply string_bytes_out; eassumption|].
    intros [o c'] (p & s' & Es & H' & O). destruct o as [str|].
    + destruct O as (n & -> & Hn & Hl). exists (LStr n str), s'. repeat split; auto. constructor; auto.
    + subst p. exists LNull, s'. repeat split; auto. constructor.
  - pose proof (Htrue t (proj1 NP)) as ->. apply c_slice_out; auto. apply He, co_slice, NP.
  - unfold c_array. cbn zeta. pose proof (array_header_out buf c d s H) as O.
    destruct (array_header buf c d) as [h|e|p|]; try (cbn in O |- *; repeat split; auto; fail); [|destruct O]. cbn [outcome] in O. destruct O as [Hd O].
    destruct h as [c'|c'|len c'].
    + destruct O as (s' & Es & H'). eapply null_good; eauto.
    + destruct O as (s' & Es & H'). unfold cout. cbn [fst snd]. split; [auto|]. split; [auto|]. exists (LArr (bs "0") []), s'.
      repeat split; auto; [|cbn; lia..]. constructor; [split; [discriminate|reflexivity]|constructor].
    + destruct O as (m & s1 & Hn & -> & Hmax & Hhd & Kmk & Ls & H1). pose proof (num_nonneg _ (proj2 Hn)) as Nn.
      pose proof (c_array_loop_out sl buf (d + 1) _ _ Hsm (He t (co_array _ _ _ _ NP)) (length buf) c' (repeat (zero E t) n) s1 H1 ltac:(lia) ltac:(lia)) as B.
      destruct (c_array_loop _ _ _ _ _ _) as [[l r] w]. unfold cbout, cout in *. cbn [fst snd] in *. destruct B as (F & L & B).
      split; [exact F|]. split; [lia|]. destruct r as [c2|e|p|]; auto.
      destruct B as (es & s' & Wes & Es & H' & Les & Tes). exists (LArr m es), s'. split; [constructor; auto|].
      split; [apply Kmk; exact Es|]. split; [exact H'|]. pose proof (arr_len m es). rewrite declared_arr. split; lia.
  - apply c_map_out; auto.
    + intros c0 s' H0 Hn0 _. apply c_key_out; auto.
    + intros c0 s' H0 Hn0 L0. apply (He vt); auto; [|lia]. eapply co_val. exact NP.
  - apply c_iface_any_out; auto.
  - destruct NP as [m NP]. apply Leaf. eapply iface_out; eauto.
  - apply Leaf. apply uint_out; auto.
  - apply Leaf. apply int_out; auto.
  - apply Leaf. apply string_out; auto.
  - apply Leaf. apply bool_dec_out; auto.
  - apply Leaf. apply float_dec_out; auto.
  - apply Leaf. apply float_dec_out; auto.
  - apply bad_err; auto.
Qed.

(** ** Calls *)

Lemma c_decode_out sl X E T data v : small data -> data <> [] -> (sl = false -> slice_free E T) ->
  cout sl data data (c_decode X E T data 0 0 v).
Proof.
  intros Hsm Hne Hsl. unfold c_decode. apply c_decode_f_out; auto; [apply pos_start|].
  unfold decode_fuel, ptr_cost. destruct (is_ptr E T); lia.
Qed.

Lemma c_unmarshal_requests X E cf data T v v' r w : small data -> c_unmarshal X E cf data T v = (v', r, w) ->
  Forall (modest data) w /\ (length w <= length data)%nat.
Proof.
  intros Hsm. unfold c_unmarshal. destruct data as [|b data0] eqn:Ed; [intros [= <- <- <-]; apply nil_ok|]. rewrite <- Ed in *.
  assert (data <> []) as Hne by (subst; discriminate).
  destruct (compile_f X E cf [] T) as [u|e|p|]; [|intros [= <- <- <-]; apply nil_ok..].
  pose proof (c_decode_out true X E T data v Hsm Hne ltac:(discriminate)) as O.
  destruct (c_decode X E T data 0 0 v) as [[v1 r1] w1]. intros [= <- <- <-]. split; apply O.
Qed.

Lemma c_unmarshal_declared sl X E cf p T v v' w : small (text p) -> wf p -> (sl = false -> slice_free E T) ->
  c_unmarshal X E cf (text p) T v = (v', ROk tt, w) -> total w <= declared sl p.
Proof.
  intros Hsm Hp Hsl. unfold c_unmarshal.
  assert (text p <> []) as Hne by (pose proof (text_pos p); destruct (text p); [cbn in *; lia|discriminate]).
  destruct (text p) as [|b data] eqn:Ed; [congruence|]. rewrite <- Ed in *.
  destruct (compile_f X E cf [] T) as [u|e|q|]; try discriminate.
  pose proof (c_decode_out sl X E T (text p) v Hsm Hne Hsl) as O.
  destruct (c_decode X E T (text p) 0 0 v) as [[v1 r1] w1]. unfold cout in O. cbn [fst snd] in O. destruct O as (_ & _ & O).
  destruct r1 as [c|e|q|]; try discriminate. intros [= _ _ <-].
  destruct O as (q & s' & Wq & Es & _ & _ & T0). rewrite <- (app_nil_r (text p)) in Es.
  apply text_inj in Es as [-> _]; auto.
Qed.

(** What counts that are right add up to. *)
Lemma strict_declared_f : forall n d p, (length (text p) <= n)%nat -> strict d p -> 2 * declared false p + 2 <= blen (text p).
Proof.
  induction n as [|n IH]; intros d p L H. { pose proof (text_pos p). lia. }
  assert (forall d es, (length (body es) <= n)%nat -> Forall (fun e => strict d (fst e) /\ strict d (snd e)) es ->
    2 * dents false es + 2 * blen es <= blen (body es)) as B.
  { intros d0. induction es as [|[k v] es IHes]; intros Le F; [cbn; lia|].
    pose proof (body_len k v es) as BL. rewrite BL in Le. rewrite dents_cons.
    pose proof (Forall_inv F) as [Hk Hv]. apply Forall_inv_tail in F. cbn [fst snd] in *. specialize (IHes ltac:(lia) F).
    pose proof (text_pos k). pose proof (text_pos v).
    pose proof (IH d0 k ltac:(lia) Hk). pose proof (IH d0 v ltac:(lia) Hv). unfold blen in *. cbn [length]. lia. }
  destruct H.
  - cbn. lia.
  - destruct b; cbn; lia.
  - cbn [declared]. rewrite <- (app_nil_r (text _)), text_int. unfold blen. cbn [length]. lia.
  - cbn [declared]. rewrite <- (app_nil_r (text _)), text_float. unfold blen. cbn [length]. lia.
  - cbn [declared]. rewrite <- (app_nil_r (text _)), text_str. unfold blen. cbn [length]. lia.
  - rewrite declared_arr, H1. pose proof (arr_len n0 es). pose proof (B (d + 1) es ltac:(lia) H2). unfold blen in *. lia.
  - rewrite declared_obj, H3. pose proof (obj_len cn cls n0 es). pose proof (B (d + 1) es ltac:(lia) H4). unfold blen in *. lia.
Qed.
Lemma strict_declared d p : strict d p -> 2 * declared false p + 2 <= blen (text p).
Proof. apply (strict_declared_f _ d p (le_n _)). Qed.

(** ** Lists cost at least *)

Lemma total_nonneg buf w : Forall (modest buf) w -> 0 <= total w.
Proof. induction 1 as [|q w (n & _ & Hq) _ IH]; [cbn; lia|]. rewrite total_cons. lia. Qed.

Lemma c_slice_loop_least X E et buf (ed : Z -> gval -> cres) n0 : celems true buf n0 ed ->
  forall es n c l rv s v c' w, Forall (fun e => wf (fst e) /\ wf (snd e)) es -> in_order (blen l) es ->
  pos buf c (body es ++ "}"%byte :: s) -> (length (body es ++ "}"%byte :: s) <= n0)%nat -> (length (body es ++ "}"%byte :: s) < n)%nat ->
  c_slice_loop X E et ed buf n c l rv = (v, ROk c', w) ->
  es <> [] /\ blen es * (2 * blen l + blen es + 1) <= 2 * total w.
Proof.
  intros He es. induction es as [|[k pv] es IH]; intros n c l rv s v c' w Wes Ho H Hn0 Hn Q.
  { exfalso. destruct n as [|n]; [discriminate Q|]. cbn [c_slice_loop] in Q. cbn zeta in Q. rewrite body_nil in H.
    rewrite (pos_has _ _ _ _ H) in Q. cbn [negb] in Q. pose proof (read_int_out _ _ _ H) as RI.
    destruct (read_int buf c) as [[idx c1]|e|p|]; try discriminate Q. destruct RI as (t & s1 & _ & _ & Es & _). discriminate Es. }
  split; [discriminate|]. destruct n as [|n]; [discriminate Q|]. cbn [c_slice_loop] in Q. cbn zeta in Q.
  destruct Ho as [(t & -> & Ht) Ho]. pose proof (Forall_inv Wes) as [Wk Wv]. apply Forall_inv_tail in Wes. cbn [fst snd] in Wk, Wv.
  rewrite body_cons in *. rewrite !app_length in *. pose proof (text_pos (LInt t)) as Tk. pose proof (text_pos pv) as Tv.
  assert (has_byte buf c = true) as Hb by (rewrite text_int in H; eapply pos_has; exact H).
  rewrite Hb in Q. cbn [negb] in Q. pose proof (read_int_out _ _ _ H) as RI.
  destruct (read_int buf c) as [[idx c1]|e|p|]; try discriminate Q. cbn [outcome] in RI.
  destruct RI as (t' & s1 & Ht' & Hidx & Es & H1). rewrite <- text_int in Es.
  apply text_inj in Es as [Et Es]; [|exact Wk|econstructor; exact Ht']. injection Et as <-.
  assert (idx = blen l) as Hi by exact (int_text_det _ _ _ Ht' Ht).
  destruct (negb (has_byte buf c1)); [discriminate Q|].
  replace (idx <? blen l) with false in Q by (symmetry; apply Z.ltb_ge; lia).
  destruct (wrap64 (idx + 1) <? 0) eqn:Ew; cbn [orb] in Q; [discriminate Q|]. apply Z.ltb_ge in Ew.
  assert (wrap64 (idx + 1) = idx + 1) as Wx by (apply wrap64_le; unfold max_int64 in *; lia). rewrite Wx in *.
  destruct (negb (x_slots X et _)); [discriminate Q|]. destruct (bad_index _ _); [discriminate Q|].
  assert (s1 <> []) as Hne1. { subst s1. intros A. apply (f_equal (@length _)) in A. rewrite app_length in A. cbn [length] in A. lia. }
  assert (length s1 = length (text pv) + length (body es ++ "}"%byte :: s))%nat as L1 by (rewrite <- Es, app_length; reflexivity).
  rewrite app_length in L1.
  pose proof (He c1 s1 (zero E et) H1 Hne1 ltac:(lia)) as D. destruct (ed c1 (zero E et)) as [[v1 r] w1].
  unfold cout in D. cbn [fst snd] in D. destruct D as (F & _ & D).
  destruct r as [c2|e|p|]; try discriminate Q. destruct D as (qv & s2 & Wq & E2 & H2 & _ & _).
  rewrite <- Es in E2. apply text_inj in E2 as [<- <-]; auto.
  replace (Z.to_nat idx - length l)%nat with 0%nat in Q by (unfold blen in Hi; lia). cbn [repeat app] in Q.
  pose proof (total_nonneg _ _ F) as T1.
  destruct (body_head es s) as (b & r & Er & Eb).
  assert (has_byte buf c2 = true /\ rd buf c2 = ROk b) as [Hb2 Hr2]
    by (rewrite Er in H2; split; [eapply pos_has|eapply pos_rd]; exact H2).
  rewrite Hb2, Hr2, Eb in Q. cbn [negb] in Q.
  assert (blen (l ++ [v1]) = blen l + 1) as Bl by (rewrite blen_app; reflexivity).
  destruct es as [|e es].
  - injection Q as <- <- <-. rewrite app_nil_r. rewrite total_cons. cbn [amount]. change (blen [(LInt t, pv)]) with 1. lia.
  - destruct (c_slice_loop X E et ed buf n c2 (l ++ [v1]) (VSlice (Some (l ++ [v1])))) as [[v2 r2] w2] eqn:Q2.
    cbn [c_then] in Q. injection Q as <- -> <-.
    assert (blen (@cons (lval * lval) (LInt t, pv) (e :: es)) = blen (e :: es) + 1) as BL by (unfold blen; cbn [length]; lia).
    destruct (IH n c2 _ _ s v2 c' w2 Wes ltac:(rewrite Bl; rewrite <- Hi; rewrite Hi; exact Ho) H2 ltac:(rewrite app_length; lia) ltac:(rewrite app_length; lia) Q2) as [_ I2].
    cbn [app]. rewrite total_cons, total_app. cbn [amount]. rewrite BL. rewrite Bl in I2. set (m := blen (e :: es)) in *. nia.
Qed.

Lemma c_slice_least X E et buf (ed : Z -> gval -> cres) c d rv n es s v c' w : small buf -> pos buf c (text (LArr n es) ++ s) ->
  celems true buf (length (text (LArr n es) ++ s) - 2) ed -> wf (LArr n es) -> in_order 0 es ->
  c_slice X E et ed buf c d rv = (v, ROk c', w) -> num n + blen es * (blen es + 1) / 2 <= total w.
Proof.
  intros Hsm H He W Ho Q. unfold c_slice in Q. pose proof (slice_header_out buf c d _ H) as O.
  destruct (slice_header buf c d) as [h|e|p|]; try discriminate Q. cbn [outcome] in O. destruct O as [Hd O].
  destruct h as [c0|c0|len c0].
  - destruct O as (s' & Es & H'). rewrite text_arr, text_null in Es. discriminate Es.
  - destruct O as (s' & Es & H'). apply text_inj in Es as [Eq _]; [|exact W|constructor; [split; [discriminate|reflexivity]|constructor]].
    injection Eq as -> ->. injection Q as <- <- <-. cbn. lia.
  - pose proof (slice_header_body buf c d) as AH. inversion W as [| | | | |? ? Hn Wes|]; subst.
    destruct O as (n' & s1 & Hn' & -> & Hmax & Hhd & Kmk & Ls & H1).
    destruct (negb (x_slots X et (num n'))); [discriminate Q|].
    destruct (c_slice_loop X E et ed buf (length buf) c0 [] rv) as [[v2 r2] w2] eqn:Q2. cbn [c_then] in Q. injection Q as <- -> <-.
    pose proof (c_slice_loop_out X E et buf ed _ He (length buf) c0 [] rv s1 H1) as OL.
    assert (length s1 < length buf)%nat as Lb.
    { apply pos_len in H as L. apply pos_nonneg in H. unfold blen in L. rewrite !app_length in *. lia. }
    specialize (OL Lb ltac:(lia)). rewrite Q2 in OL. unfold cbout in OL. cbn [fst snd] in OL. destruct OL as (_ & _ & es' & s' & Wes' & Es1 & _).
    pose proof (Kmk _ _ Es1) as Eq. apply text_inj in Eq as [Eq ->]; [|exact W|constructor; auto]. injection Eq as <- <-.
    rewrite Es1 in *.
    destruct (c_slice_loop_least X E et buf ed _ He es (length buf) c0 [] rv s' v2 c' w2 Wes Ho H1 ltac:(lia) ltac:(lia) Q2) as [_ I2].
    change (blen []) with 0 in I2. cbn [app]. rewrite total_cons. cbn [amount].
    pose proof (Z.div_mod (blen es * (blen es + 1)) 2 ltac:(lia)). pose proof (Z.mod_pos_bound (blen es * (blen es + 1)) 2 ltac:(lia)). lia.
Qed.

Lemma c_unmarshal_least X E cf T t v n es v' w : small (text (LArr n es)) -> wf (LArr n es) -> in_order 0 es -> plain E T (KSlice t) ->
  c_unmarshal X E cf (text (LArr n es)) T v = (v', ROk tt, w) -> num n + blen es * (blen es + 1) / 2 <= total w.
Proof.
  intros Hsm W Ho Hk Q. unfold c_unmarshal in Q.
  pose proof (text_pos (LArr n es)) as Tp.
  assert (exists v1 c, c_decode X E T (text (LArr n es)) 0 0 v = (v1, ROk c, w)) as (v1 & c & Qd).
  { destruct (text (LArr n es)) as [|b0 data0] eqn:Ed; [cbn in Tp; lia|]. destruct (compile_f X E cf [] T) as [u|e|q|]; try discriminate Q.
    destruct (c_decode X E T (b0 :: data0) 0 0 v) as [[v1 r1] w1]. destruct r1 as [c|e|q|]; try discriminate Q. injection Q as _ _ <-. eauto. }
  set (data := text (LArr n es)) in *. clear Q. unfold c_decode, decode_fuel in Qd.
  replace (2 * length data + 2)%nat with (S (2 * length data + 1)) in Qd by lia. cbn [c_decode_f] in Qd. cbn zeta in Qd.
  assert (pos data 0 (text (LArr n es) ++ [])) as P by (rewrite app_nil_r; apply pos_start).
  assert (celems true data (length (text (LArr n es) ++ []) - 2) (fun c v => c_decode_f X E (2 * length data + 1) t data c (0 + 1) v)) as He.
  { rewrite app_nil_r. fold data. intros c0 s0 v0 H0 Hne0 L0. apply c_decode_f_out; auto; [discriminate|]. unfold ptr_cost.
    destruct s0; [congruence|]. cbn [length] in *. destruct (is_ptr E t); lia. }
  pose proof (node_plain E T) as NP. destruct Hk as [Hu Hk]. unfold node_of in Qd. rewrite Hu, Hk in Qd.
  assert (c_slice X E t (fun c v => c_decode_f X E (2 * length data + 1) t data c (0 + 1) v) data 0 0 v = (v1, ROk c, w)) as Qs.
  { assert (rd data 0 = ROk "a"%byte) as R by (eapply pos_rd; rewrite text_arr in P; exact P).
    destruct (kind_of E t) as [| | |k| | | | | | | | | |]; try exact Qd.
    all: try (destruct k; try exact Qd; unfold c_bytes in Qd; rewrite R in Qd; exact Qd). }
  eapply c_slice_least; eauto.
Qed.
