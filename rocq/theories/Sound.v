(** Soundness of decoding: a successful decode has read the text of some value
    and stored it as [Denote.store] says; decoding never reads outside the
    buffer and its recursion bound is never exhausted. *)
From Coq Require Import Strings.String Strings.Byte ZArith List Bool Lia Floats.SpecFloat.
From Verif Require Import Base GoTypes Strconv Tags Scan Decode Grammar Denote NumFacts ScanFacts SkipFacts.
Import ListNotations.
Open Scope Z_scope.

(** Success satisfies [Q]; no index panic; never out of fuel. *)
Definition dout {A} (r : A * R Z) (Q : A -> Z -> Prop) : Prop :=
  match snd r with
  | ROk c => Q (fst r) c
  | RErr _ => True
  | RPanic p => p <> PIndex
  | RFuel => False
  end.

Lemma dout_imp {A} (r : A * R Z) (P Q : A -> Z -> Prop) :
  dout r P -> (forall a c, P a c -> Q a c) -> dout r Q.
Proof. unfold dout. destruct (snd r); auto. Qed.

(** A decoder result together with the value read. *)
Definition reads (S : lval -> gval -> Prop) (buf s : bytes) (w : gval) (c' : Z) : Prop :=
  exists p s', S p w /\ s = text p ++ s' /\ pos buf c' s'.

Lemma dout_text rdt process rv (Q : gval -> Z -> Prop) :
  outcome rdt (fun '(o, c) => match o with None => Q rv c | Some b => dout (process b c rv) Q end) ->
  dout (dec_text rdt process rv) Q.
Proof. unfold dec_text. destruct rdt as [[[b|] c]|e|p|]; cbn; auto; tauto. Qed.

Lemma string_bytes_out buf c s : small buf -> pos buf c s ->
  outcome (decode_string_bytes buf c) (fun '(o, c') => exists p s', s = text p ++ s' /\ pos buf c' s' /\
    match o with None => p = LNull | Some b => exists n, p = LStr n b /\ str_ok n b end).
Proof.
  intros Hsm H. unfold decode_string_bytes.
  destruct s as [|b s]; [rewrite (pos_has_nil _ _ H); exact I|]. rdn H.
  destruct (b =b "N"%byte) eqn:E.
  { apply eqb_eq in E as ->. eapply outcome_bind; [eapply null_out; exact H|].
    intros _ (s' & -> & H'). cbn. exists LNull, s'. auto. }
  destruct (_ || _); [exact I|].
  destruct (b =b "s"%byte) eqn:E1; [|exact I]. apply eqb_eq in E1 as ->.
  eapply outcome_bind; [apply read_string_out; [exact Hsm|eapply pos_cons; exact H]|].
  intros [str c'] (ds & s' & Hd & Hl & -> & H'). cbn. exists (LStr ds str), s'.
  rewrite text_str. split; [reflexivity|]. split; [exact H'|]. exists ds. repeat split; auto; apply Hd.
Qed.
Lemma int_bytes_out buf c s : pos buf c s ->
  outcome (decode_int_bytes buf c) (fun '(o, c') => exists p s', s = text p ++ s' /\ pos buf c' s' /\
    match o with None => p = LNull | Some t => p = LInt t /\ exists z, int_text t z end).
Proof.
  intros H. unfold decode_int_bytes.
  destruct s as [|b s]; [rewrite (pos_has_nil _ _ H); exact I|]. rdn H.
  destruct (b =b "N"%byte) eqn:E.
  { apply eqb_eq in E as ->. eapply outcome_bind; [eapply null_out; exact H|].
    intros _ (s' & -> & H'). cbn. exists LNull, s'. auto. }
  eapply outcome_bind; [apply integer_out; exact H|].
  intros [t c'] (z & s' & Ht & -> & H'). cbn. exists (LInt t), s'.
  rewrite text_int. split; [reflexivity|]. split; [exact H'|]. eauto.
Qed.
Lemma float_bytes_out buf c s : pos buf c s ->
  outcome (decode_float_bytes buf c) (fun '(o, c') => exists p s', s = text p ++ s' /\ pos buf c' s' /\
    match o with None => p = LNull | Some t => p = LFloat t /\ nosemi t end).
Proof.
  intros H. unfold decode_float_bytes.
  destruct s as [|b s]; [rewrite (pos_has_nil _ _ H); exact I|]. rdn H.
  destruct (b =b "N"%byte) eqn:E.
  { apply eqb_eq in E as ->. eapply outcome_bind; [eapply null_out; exact H|].
    intros _ (s' & -> & H'). cbn. exists LNull, s'. auto. }
  destruct (b =b "d"%byte) eqn:E1; [|exact I].
  eapply outcome_bind; [apply float_out; exact H|].
  intros [t c'] (s' & Ht & -> & H'). cbn. exists (LFloat t), s'.
  rewrite text_float. split; [reflexivity|]. auto.
Qed.

(** Scalars *)
Lemma process_int_out k b c rv (Q : gval -> Z -> Prop) :
  (forall z, int_text b z -> int_range k z -> Q (VInt z) c) -> dout (process_int k b c rv) Q.
Proof.
  intros H. unfold process_int. destruct (parse_int64 b) as [z|] eqn:E; [|exact I].
  destruct (_ || _) eqn:E1; [exact I|]. apply orb_false_iff in E1 as [E1 E2].
  apply Z.ltb_ge in E1, E2. apply parse_int64_some in E as [E _].
  cbn. apply H; [exact E|]. unfold int_range. lia.
Qed.
Lemma process_uint_out k b c rv (Q : gval -> Z -> Prop) :
  (numeral b -> uint_range k (num b) -> Q (VUint (num b)) c) -> dout (process_uint k b c rv) Q.
Proof.
  intros H. unfold process_uint. destruct (parse_uint64 b) as [z|] eqn:E; [|exact I].
  destruct (_ <? _) eqn:E1; [exact I|].
  apply Z.ltb_ge in E1. apply parse_uint64_iff in E as (E & -> & E2).
  cbn. apply H; [exact E|]. unfold uint_range. pose proof (num_nonneg b (proj2 E)). lia.
Qed.
Lemma parse_float_some X b f : parse_float X b = Some f <-> float_text X b f.
Proof.
  unfold parse_float, float_text.
  destruct (bytes_eqb b (bs "INF")) eqn:E1.
  { apply bytes_eqb_eq in E1. subst b. split.
    - intros [= <-]. auto.
    - intros [[_ ->]|[[H _]|[[H _]|[H _]]]]; [reflexivity|discriminate H|discriminate H|congruence]. }
  apply bytes_eqb_neq in E1.
  destruct (bytes_eqb b (bs "-INF")) eqn:E2.
  { apply bytes_eqb_eq in E2. subst b. split.
    - intros [= <-]. auto.
    - intros [[H _]|[[_ ->]|[[H _]|[_ [H _]]]]]; [discriminate H|reflexivity|discriminate H|congruence]. }
  apply bytes_eqb_neq in E2.
  destruct (bytes_eqb b (bs "NAN")) eqn:E3.
  { apply bytes_eqb_eq in E3. subst b. split.
    - intros [= <-]. auto.
    - intros [[H _]|[[H _]|[[_ ->]|[_ [_ [H _]]]]]]; [discriminate H|discriminate H|reflexivity|congruence]. }
  apply bytes_eqb_neq in E3. split; [intros H; tauto|].
  intros [[H _]|[[H _]|[[H _]|[_ [_ [_ H]]]]]]; congruence.
Qed.
Lemma process_float_out X is32 b c rv (Q : gval -> Z -> Prop) :
  (forall f, float_text X b f -> if is32 : bool then overflow_f32 f = false -> Q (VF32 (f32_of_f64 f)) c else Q (VF64 f) c) ->
  dout (process_float X is32 b c rv) Q.
Proof.
  intros H. unfold process_float. destruct (parse_float X b) as [f|] eqn:E; [|exact I].
  apply parse_float_some in E. specialize (H f E).
  destruct is32; [|exact H]. destruct (overflow_f32 f); [exact I|]. exact (H eq_refl).
Qed.

(** any map keys *)
Lemma any_key_out buf c s : small buf -> pos buf c s -> s <> [] ->
  dout (dec_any_key buf c) (reads any_key buf s).
Proof.
  intros Hsm H Hne. unfold dec_any_key. destruct s as [|b s]; [congruence|].
  rewrite (pos_rd _ _ _ _ H). destruct (b =b "s"%byte) eqn:E.
  { apply eqb_eq in E as ->. unfold dec_string.
    pose proof (string_bytes_out _ _ _ Hsm H) as O. unfold dec_text.
    destruct (decode_string_bytes buf c) as [[o c']|e|p|]; cbn in O |- *; auto; try tauto.
    destruct O as (p & s' & Es & H' & O). destruct o as [b|].
    - destruct O as (n & -> & Hn). cbn. exists (LStr n b), s'. repeat split; auto. constructor; auto.
    - subst p. rewrite text_null in Es. discriminate Es. }
  destruct (b =b "i"%byte) eqn:E1; [|exact I].
  { apply eqb_eq in E1 as ->. unfold dec_int.
    pose proof (int_bytes_out _ _ _ H) as O. unfold dec_text.
    destruct (decode_int_bytes buf c) as [[o c']|e|p|]; cbn in O |- *; auto; try tauto.
    destruct O as (p & s' & Es & H' & O). destruct o as [b|].
    - destruct O as (-> & _). pose proof (process_int_out I64 b c' (VInt 0)
        (fun w c'' => c'' = c' /\ exists z, w = VInt z /\ int_text b z /\ int_range I64 z)) as PI.
      destruct (process_int I64 b c' (VInt 0)) as [w r].
      assert (dout (w, r) (fun w c'' => c'' = c' /\ exists z, w = VInt z /\ int_text b z /\ int_range I64 z)) as D.
      { apply PI. eauto. }
      clear PI. destruct r; cbn in D |- *; auto.
      destruct D as (-> & z & -> & Hz & Hr). exists (LInt b), s'. repeat split; auto. constructor; auto.
    - subst p. rewrite text_null in Es. discriminate Es. }
Qed.
Lemma obj_key_out buf c s : small buf -> pos buf c s ->
  dout (dec_string buf c (VStr [])) (reads obj_key buf s).
Proof.
  intros Hsm H. unfold dec_string. apply dout_text.
  eapply outcome_imp; [apply string_bytes_out; eassumption|].
  intros [o c'] (p & s' & Es & H' & O). destruct o as [b|].
  - destruct O as (n & -> & Hn). cbn. exists (LStr n b), s'. repeat split; auto. constructor; auto.
  - subst p. exists LNull, s'. repeat split; auto. constructor.
Qed.

(** Container headers *)
Definition header_mk (n : bytes) (mk : list (lval * lval) -> lval) : Prop :=
  mk = LArr n \/ exists cn cls, numeral cn /\ num cn = blen cls /\ mk = LObj cn cls n.

Lemma header_body n mk es : header_mk n mk -> body_of (mk es) n es.
Proof. intros [->|(cn & cls & H1 & H2 & ->)]; constructor; auto. Qed.

Definition header_at (maxlen : bool) (buf s : bytes) (h : hdr) : Prop :=
  match h with
  | HNull c' => exists s', s = text LNull ++ s' /\ pos buf c' s'
  | HBody c' => exists n mk s', numeral n /\ (maxlen = true -> num n <= max_int64) /\ header_mk n mk /\
      (forall es r, s' = body es ++ "}"%byte :: r -> s = text (mk es) ++ r) /\
      (length s' + 2 <= length s)%nat /\ pos buf c' s'
  end.

Lemma header_prefix e buf c b s : small buf -> pos buf c (b :: s) ->
  outcome (if b =b "O"%byte then cend <- skip_class_name buf c ;; ROk (cend + 1)
           else if b =b "a"%byte then ROk (c + 1) else RErr e)
    (fun cur => exists s1, pos buf cur s1 /\ (length s1 <= length s)%nat /\
       forall n r, s1 = ":"%byte :: n ++ ":"%byte :: "{"%byte :: r ->
         exists mk, header_mk n mk /\ forall es r', r = body es ++ "}"%byte :: r' -> b :: s = text (mk es) ++ r').
Proof.
  intros Hsm H. destruct (b =b "O"%byte) eqn:E.
  { apply eqb_eq in E as ->. eapply outcome_bind; [apply class_name_out; eassumption|].
    intros cend (cn & cls & s' & Hcn & Hcl & Es & H'). cbn [outcome].
    exists (":"%byte :: s'). split; [exact H'|]. split.
    - injection Es as ->. cbn [length]. rewrite app_length. cbn [length]. rewrite app_length. cbn [length]. lia.
    - intros n r En. injection En as ->. exists (LObj cn cls n). split; [right; eauto|].
      intros es r' ->. rewrite text_obj. exact Es. }
  destruct (b =b "a"%byte) eqn:E1; [|exact I]. apply eqb_eq in E1 as ->. cbn [outcome].
  exists s. split; [eapply pos_cons; exact H|]. split; [lia|].
  intros n r ->. exists (LArr n). split; [left; reflexivity|]. intros es r' ->. rewrite text_arr. reflexivity.
Qed.

Lemma map_header_out buf c d s : small buf -> pos buf c s ->
  outcome (map_header buf c d) (fun h => d < limit /\ header_at true buf s h).
Proof.
  intros Hsm H. unfold map_header. destruct s as [|b s]; [rewrite (pos_has_nil _ _ H); exact I|]. rdn H.
  destruct (max_depth <? d + 1) eqn:Ed; [exact I|]. apply Z.ltb_ge in Ed.
  assert (d < limit) as Hd by (unfold max_depth, limit in *; lia).
  destruct (b =b "N"%byte) eqn:E.
  { apply eqb_eq in E as ->. eapply outcome_bind; [eapply null_out; exact H|].
    intros _ (s' & -> & H'). cbn. eauto. }
  eapply outcome_bind; [apply header_prefix; eassumption|].
  intros cur (s1 & H1 & L1 & K). cbn beta.
  eapply outcome_bind; [apply read_length_out; exact H1|].
  intros [n c1] (ds & s2 & Hds & -> & -> & Hn & -> & H2). cbn beta iota.
  destruct s2 as [|x s2]; [rewrite (pos_has_nil _ _ H2); exact I|]. rdn H2.
  destruct (x =b "{"%byte) eqn:E2; cbn [negb]; [|exact I]. apply eqb_eq in E2 as ->.
  cbn [outcome]. split; [exact Hd|]. destruct (K ds s2 eq_refl) as (mk & Hmk & Kmk).
  exists ds, mk, s2. split; [exact Hds|]. split; [lia|]. split; [exact Hmk|]. split; [exact Kmk|].
  split; [|eapply pos_cons; exact H2].
  cbn [length] in L1 |- *. rewrite app_length in L1. cbn [length] in L1. lia.
Qed.

Lemma struct_header_out buf c d s : small buf -> pos buf c s ->
  outcome (struct_header buf c d) (fun h => d < limit /\ header_at false buf s h).
Proof.
  intros Hsm H. unfold struct_header. destruct s as [|b s]; [rewrite (pos_has_nil _ _ H); exact I|]. rdn H.
  destruct (max_depth <? d + 1) eqn:Ed; [exact I|]. apply Z.ltb_ge in Ed.
  assert (d < limit) as Hd by (unfold max_depth, limit in *; lia).
  destruct (b =b "N"%byte) eqn:E.
  { apply eqb_eq in E as ->. eapply outcome_bind; [eapply null_out; exact H|].
    intros _ (s' & -> & H'). cbn. eauto. }
  eapply outcome_bind; [apply header_prefix; eassumption|].
  intros cur (s1 & H1 & L1 & K). cbn beta.
  destruct s1 as [|x s1]; [rewrite (pos_has_nil _ _ H1); exact I|]. rdn H1.
  destruct (x =b ":"%byte) eqn:E0; cbn [negb]; [|exact I].
  eapply outcome_bind; [apply skip_length_out; exact H1|].
  intros c1 (ds & s2 & Hds & Es & -> & H2). cbn beta iota.
  destruct s2 as [|y s2]; [rewrite (pos_has_nil _ _ H2); exact I|]. rdn H2.
  destruct (y =b "{"%byte) eqn:E2; cbn [negb]; [|exact I]. apply eqb_eq in E2 as ->.
  cbn [outcome]. split; [exact Hd|]. rewrite Es in L1. destruct (K ds s2 Es) as (mk & Hmk & Kmk).
  exists ds, mk, s2. split; [exact Hds|]. split; [discriminate|]. split; [exact Hmk|]. split; [exact Kmk|].
  split; [|eapply pos_cons; exact H2].
  cbn [length] in L1 |- *. rewrite app_length in L1. cbn [length] in L1. lia.
Qed.

(** Maps *)
Lemma map_loop_out buf (kd vd : Z -> dres) (K V : lval -> gval -> Prop) (L : nat) :
  (forall c s, pos buf c s -> s <> [] -> (length s <= L)%nat -> dout (kd c) (reads K buf s)) ->
  (forall c s, pos buf c s -> s <> [] -> (length s <= L)%nat -> dout (vd c) (reads V buf s)) ->
  forall n c m s, pos buf c s -> (length s < n)%nat -> (length s <= L)%nat ->
  dout (map_loop kd vd buf n c m) (fun m' c' => exists es s', es <> [] /\
    map_entries K V m es m' /\ s = body es ++ "}"%byte :: s' /\ pos buf c' s').
Proof.
  intros Hk Hv n. induction n as [|n IH]; intros c m s H Hn HL; [lia|].
  cbn [map_loop]. destruct s as [|b0 s0] eqn:Es0; [rewrite (pos_has_nil _ _ H); exact I|].
  rdn H. assert (s <> []) as Hne by (subst; discriminate). rewrite <- Es0 in *. clear Es0 b0 s0.
  specialize (Hk c s H Hne HL) as Dk. destruct (kd c) as [k kr].
  destruct kr as [c1|e|p|]; [|exact I|exact Dk|exact Dk].
  unfold dout in Dk. cbn [fst snd] in Dk. destruct Dk as (kp & s1 & Kk & -> & H1).
  rewrite app_length in *. pose proof (text_pos kp) as Tk.
  destruct s1 as [|b1 s1'] eqn:Es1; [rewrite (pos_has_nil _ _ H1); exact I|].
  rdn H1. assert (s1 <> []) as Hne1 by (subst; discriminate). rewrite <- Es1 in *. clear Es1 b1 s1'.
  specialize (Hv c1 s1 H1 Hne1 ltac:(lia)) as Dv. destruct (vd c1) as [v vr].
  destruct vr as [c2|e|p|]; [|exact I|exact Dv|exact Dv].
  unfold dout in Dv. cbn [fst snd] in Dv. destruct Dv as (vp & s2 & Vv & -> & H2).
  rewrite app_length in *. pose proof (text_pos vp) as Tv.
  destruct (hashable k) eqn:Eh; cbn [negb]; [|unfold dout; cbn; discriminate].
  destruct s2 as [|b s2']; [rewrite (pos_has_nil _ _ H2); exact I|].
  rdn H2. destruct (b =b "}"%byte) eqn:Eb.
  - apply eqb_eq in Eb as ->. unfold dout; cbn [fst snd]. exists [(kp, vp)], s2'.
    split; [discriminate|]. split; [econstructor; eauto; constructor|]. split; [|eapply pos_cons; exact H2].
    rewrite body_cons, body_nil. reflexivity.
  - eapply dout_imp; [apply IH; [exact H2|lia|lia]|].
    intros m' c' (es & s' & _ & Hm & Es & H'). exists ((kp, vp) :: es), s'.
    split; [discriminate|]. split; [econstructor; eauto|]. split; [|exact H'].
    rewrite body_cons, Es. reflexivity.
Qed.

Lemma dec_map_out buf c d rv s (kd vd : Z -> dres) (K V : lval -> gval -> Prop) (Q : gval -> Z -> Prop) :
  small buf -> pos buf c s ->
  (forall c s', pos buf c s' -> s' <> [] -> (S (length s') < length s)%nat -> dout (kd c) (reads K buf s')) ->
  (forall c s', pos buf c s' -> s' <> [] -> (S (length s') < length s)%nat -> dout (vd c) (reads V buf s')) ->
  (forall c' s', d < limit -> s = text LNull ++ s' -> pos buf c' s' -> Q (VMap None) c') ->
  (forall n mk es m m' c' s' o, d < limit -> numeral n -> num n <= max_int64 -> header_mk n mk -> rv = VMap o ->
     m = match o with None => [] | Some m => m end ->
     map_entries K V m es m' -> s = text (mk es) ++ s' -> pos buf c' s' -> Q (VMap (Some m')) c') ->
  dout (dec_map kd vd buf c d rv) Q.
Proof.
  intros Hsm H Hk Hv Q1 Q2. unfold dec_map.
  pose proof (map_header_out _ _ d _ Hsm H) as O.
  destruct (map_header buf c d) as [h|e|p|]; try (cbn in O |- *; tauto).
  cbn [outcome] in O. destruct O as [Hd O]. destruct h as [c'|c'].
  { destruct O as (s' & Es & H'). unfold dout; cbn [fst snd]. eapply Q1; eauto. }
  destruct O as (n & mk & s1 & Hn & Hm & Hmk & Kmk & Ls & H1). specialize (Hm eq_refl).
  destruct rv; try (unfold dout; cbn; discriminate).
  destruct s1 as [|b s1'] eqn:Es1; [rewrite (pos_has_nil _ _ H1); exact I|].
  rdn H1. destruct (b =b "}"%byte) eqn:Eb.
  { apply eqb_eq in Eb as ->. unfold dout; cbn [fst snd].
    eapply Q2 with (es := []); eauto; [constructor|apply Kmk; reflexivity|eapply pos_cons; exact H1]. }
  rewrite <- Es1 in *. clear Es1.
  pose proof (map_loop_out buf kd vd K V (length s1)) as ML.
  specialize (ML ltac:(intros; apply Hk; auto; lia) ltac:(intros; apply Hv; auto; lia)).
  assert (length s1 < length buf)%nat as Lb.
  { apply pos_len in H as L. apply pos_nonneg in H. unfold blen in L. lia. }
  specialize (ML (length buf) c' (match o with Some m => m | None => [] end) s1 H1 Lb (le_n _)).
  destruct (map_loop _ _ _ _ _ _) as [m' r]. unfold dout in *. cbn [fst snd] in *.
  destruct r as [c2|e|p|]; auto.
  destruct ML as (es & s' & _ & Hme & Es & H'). eapply Q2; eauto.
Qed.

(** any *)
Lemma any_f_out X buf : small buf -> forall fuel c d s,
  pos buf c s -> s <> [] -> (length s < fuel)%nat ->
  match dec_any_f X fuel buf c d with
  | ROk (o, c') => exists p s', any_val X d p (VIface o) /\ s = text p ++ s' /\ pos buf c' s'
  | RErr _ => True
  | RPanic pn => pn <> PIndex
  | RFuel => False
  end.
Proof.
  intros Hsm fuel. induction fuel as [|f IH]; intros c d s H Hne HL; [lia|].
  cbn [dec_any_f]. destruct s as [|b s0] eqn:Es0; [congruence|]. rewrite (pos_rd _ _ _ _ H). cbn [bind].
  set (vd := fun c0 : Z => match dec_any_f X f buf c0 (d + 1) return dres with
             | ROk (o, c') => (VIface o, ROk c') | r => (VIface None, fail r) end).
  assert (forall c0 s', pos buf c0 s' -> s' <> [] -> (S (length s') < length s)%nat ->
     dout (vd c0) (reads (any_val X (d + 1)) buf s')) as Hvd.
  { intros c0 s' H0 Hn0 L0. subst vd. cbn beta. specialize (IH c0 (d + 1) s' H0 Hn0 ltac:(subst s; cbn [length] in *; lia)).
    destruct (dec_any_f X f buf c0 (d + 1)) as [[o c']|e|p|]; auto. }
  rewrite <- Es0 in *.
  destruct (b =b "O"%byte) eqn:E0.
  { pose proof (dec_map_out buf c d (VMap None) s (fun c => dec_string buf c (VStr [])) vd obj_key (any_val X (d + 1))
      (fun w c' => exists p s', any_val X d p (VIface (Some (TMap TString TAny, w))) /\ s = text p ++ s' /\ pos buf c' s') Hsm H) as DM.
    assert (letter LNull <> b) as Hb by (apply eqb_eq in E0; subst b; discriminate).
    destruct (dec_map _ vd buf c d (VMap None)) as [w r].
    assert (dout (w, r) (fun w c' => exists p s', any_val X d p (VIface (Some (TMap TString TAny, w))) /\ s = text p ++ s' /\ pos buf c' s')) as D.
    { apply DM; auto.
      - intros c0 s' H0 _ _. apply obj_key_out; auto.
      - intros c' s' _ Es _. rewrite Es0, text_null in Es. injection Es as -> _. exfalso. apply Hb. reflexivity.
      - intros n mk es m m' c' s' o Hd Hn Hm Hmk [= <-] -> Hme Es H'.
        destruct Hmk as [->|(cn & cls & Hc1 & Hc2 & ->)].
        + rewrite text_arr, Es0 in Es. injection Es as -> _. discriminate E0.
        + exists (LObj cn cls n es), s'. repeat split; auto. econstructor; eauto. constructor; auto. }
    clear DM. unfold dout in D. cbn [fst snd] in D. destruct r; exact D. }
  destruct (b =b "a"%byte) eqn:E1.
  { pose proof (dec_map_out buf c d (VMap None) s (fun c => dec_any_key buf c) vd any_key (any_val X (d + 1))
      (fun w c' => exists p s', any_val X d p (VIface (Some (TMap TAny TAny, w))) /\ s = text p ++ s' /\ pos buf c' s') Hsm H) as DM.
    assert (letter LNull <> b) as Hb by (apply eqb_eq in E1; subst b; discriminate).
    destruct (dec_map _ vd buf c d (VMap None)) as [w r].
    assert (dout (w, r) (fun w c' => exists p s', any_val X d p (VIface (Some (TMap TAny TAny, w))) /\ s = text p ++ s' /\ pos buf c' s')) as D.
    { apply DM; auto.
      - intros c0 s' H0 H0' _. apply any_key_out; auto.
      - intros c' s' _ Es _. rewrite Es0, text_null in Es. injection Es as -> _. exfalso. apply Hb. reflexivity.
      - intros n mk es m m' c' s' o Hd Hn Hm Hmk [= <-] -> Hme Es H'.
        destruct Hmk as [->|(cn & cls & Hc1 & Hc2 & ->)].
        + exists (LArr n es), s'. repeat split; auto. econstructor; eauto.
        + rewrite text_obj, Es0 in Es. injection Es as -> _. discriminate E1. }
    clear DM. unfold dout in D. cbn [fst snd] in D. destruct r; exact D. }
  destruct (b =b "d"%byte) eqn:E2.
  { assert (dout (dec_float X false buf c (VF64 (S754_zero false)))
      (fun w c' => exists p s', any_val X d p (VIface (Some (TF64, w))) /\ s = text p ++ s' /\ pos buf c' s')) as D.
    { unfold dec_float. apply dout_text. eapply outcome_imp; [apply float_bytes_out; exact H|].
      intros [o c'] (p & s' & Es & H' & O). destruct o as [t|].
      - destruct O as [-> [Ht1 Ht2]]. apply process_float_out. intros fl Hf. exists (LFloat t), s'. repeat split; auto. constructor; auto.
      - subst p. rewrite Es0, text_null in Es. injection Es as -> _. discriminate E2. }
    destruct (dec_float _ _ _ _ _) as [w r]. unfold dout in D. cbn [fst snd] in D. destruct r; exact D. }
  destruct (b =b "s"%byte) eqn:E3.
  { apply eqb_eq in E3 as ->. rewrite Es0 in H. pose proof (read_string_out buf (c + 1) s0 Hsm (pos_cons _ _ _ _ H)) as O.
    destruct (read_string buf (c + 1)) as [[str c']|e|p|]; cbn in O |- *; auto; try tauto.
    destruct O as (ds & s' & Hds & Hl & -> & H'). exists (LStr ds str), s'. split; [constructor; split; auto|].
    split; [|exact H']. rewrite text_str. exact Es0. }
  destruct (b =b "i"%byte) eqn:E4.
  { assert (dout (dec_int I64 buf c (VInt 0))
      (fun w c' => exists p s', any_val X d p (VIface (Some (TInt I64, w))) /\ s = text p ++ s' /\ pos buf c' s')) as D.
    { unfold dec_int. apply dout_text. eapply outcome_imp; [apply int_bytes_out; exact H|].
      intros [o c'] (p & s' & Es & H' & O). destruct o as [t|].
      - destruct O as [-> _]. apply process_int_out. intros z Hz Hr. exists (LInt t), s'. repeat split; auto. constructor; auto.
      - subst p. rewrite Es0, text_null in Es. injection Es as -> _. discriminate E4. }
    destruct (dec_int _ _ _ _) as [w r]. unfold dout in D. cbn [fst snd] in D. destruct r; exact D. }
  destruct (b =b "b"%byte) eqn:E5.
  { pose proof (bool_out _ _ _ H) as O. destruct (read_bool buf c) as [v|e|p|]; cbn in O |- *; auto; try tauto.
    destruct O as (s' & Es & H'). exists (LBool v), s'. rewrite text_bool. repeat split; auto. constructor. }
  destruct (b =b "N"%byte) eqn:E6; [|exact I].
  apply eqb_eq in E6 as ->. rewrite Es0 in H. pose proof (null_out _ _ _ _ H) as O.
  destruct (validate_null buf c) as [v|e|p|]; cbn in O |- *; auto; try tauto.
  destruct O as (s' & -> & H'). exists LNull, s'. repeat split; auto. constructor.
Qed.

Lemma any_out X buf c d s : small buf -> pos buf c s -> s <> [] ->
  match dec_any X buf c d with
  | ROk (o, c') => exists p s', any_val X d p (VIface o) /\ s = text p ++ s' /\ pos buf c' s'
  | RErr _ => True
  | RPanic pn => pn <> PIndex
  | RFuel => False
  end.
Proof.
  intros Hsm H Hne. unfold dec_any. apply any_f_out; auto.
  apply pos_len in H as L. apply pos_nonneg in H. unfold blen in L. lia.
Qed.
Lemma iface_any_out X buf c d s rv : small buf -> pos buf c s -> s <> [] ->
  dout (dec_iface_any X buf c d rv) (reads (any_val X d) buf s).
Proof.
  intros Hsm H Hne. unfold dec_iface_any. pose proof (any_out X buf c d s Hsm H Hne) as O.
  destruct (dec_any X buf c d) as [[o c']|e|p|]; auto.
Qed.

(** Letters *)
Lemma text_N p s s' : text p ++ s = "N"%byte :: s' -> p = LNull.
Proof. destruct (text_letter p) as [r ->]. cbn. intros [= E _]. destruct p; try discriminate E. reflexivity. Qed.
Lemma text_null_iff p : text p = bs "N;" <-> p = LNull.
Proof.
  split; [|intros ->; reflexivity]. intros H. apply (text_N p [] [";"%byte]). rewrite app_nil_r. exact H.
Qed.
Lemma text_unquoted X p : unquoted X (text p) = text p.
Proof.
  unfold unquoted, unquote. destruct (text_letter p) as [r ->].
  destruct p; cbn [letter]; cbv [Byte.eqb Byte.to_bits]; cbn -[x_unquote blen last]; rewrite ?andb_false_r; reflexivity.
Qed.
Lemma text_first p c r : text p = c :: r ->
  (c =b "["%byte) || (c =b "{"%byte) || (c =b "-"%byte) || is_digit c = false.
Proof. destruct (text_letter p) as [r' ->]. intros [= <- _]. destruct p; reflexivity. Qed.

Lemma span_out buf c d s : small buf -> pos buf c s ->
  outcome (cend <- skip_value buf c d ;; src <- sub buf c cend ;; ROk (src, cend))
    (fun '(src, cend) => exists p s', strict d p /\ src = text p /\ s = text p ++ s' /\ pos buf cend s').
Proof.
  intros Hsm H. eapply outcome_bind; [apply skip_value_out; eassumption|].
  intros c' (p & s' & Hp & -> & H'). cbn beta.
  rewrite (pos_sub _ _ (text p) s' c' H).
  - cbn. exists p, s'. auto.
  - apply pos_len in H as L1. apply pos_len in H'. rewrite blen_app in L1. lia.
Qed.

Lemma has_unmarshal_name E T n : has_unmarshal E T = Some n -> T = TName n.
Proof.
  unfold has_unmarshal. destruct T; try discriminate. destruct (nth_error E n0) as [d|]; [|discriminate].
  destruct (d_unmarshal d); congruence.
Qed.

Lemma unm_out X E T n buf c d rv s : small buf -> pos buf c s -> has_unmarshal E T = Some n ->
  dout (dec_unm X E n buf c d rv) (reads (fun p w => store X E d T p rv w) buf s).
Proof.
  intros Hsm H Hu. unfold dec_unm. pose proof (has_unmarshal_name _ _ _ Hu) as ->.
  pose proof (span_out _ _ d _ Hsm H) as O.
  destruct (bind _ _) as [[src cend]|e|pn|]; cbn [outcome] in O; try (cbn; tauto).
  destruct O as (p & s' & Hp & -> & Es & H'). cbn zeta.
  rewrite text_unquoted.
  assert (p <> LNull -> dout match x_unmarshal X n (text p) (zero E (TName n)) with
     | (v, true) => (v, ROk cend) | (_, false) => (rv, RErr EUser) end
     (reads (fun p0 w => store X E d (TName n) p0 rv w) buf s)) as G.
  { intros Hne. destruct (x_unmarshal X n (text p) (zero E (TName n))) as [w ok] eqn:Ew.
    destruct ok; [|exact I]. exists p, s'. repeat split; auto. eapply sto_unm; eauto. }
  destruct (text p) as [|b r] eqn:Et; [destruct (text_letter p) as [r Er]; congruence|].
  rewrite (text_first _ _ _ Et). rewrite <- Et in *.
  destruct (bytes_eqb (text p) (bs "N;")) eqn:En.
  - apply bytes_eqb_eq, text_null_iff in En. subst p. injection Et as <- _. cbn [Byte.eqb].
    change (("N"%byte =b "N"%byte) && true) with true. cbn [andb].
    exists LNull, s'. repeat split; auto. eapply sto_unm_null; eauto.
  - rewrite andb_false_r. apply G. intros ->. apply bytes_eqb_neq in En. apply En. reflexivity.
Qed.

Lemma iface_out X E T m buf c d rv s : small buf -> pos buf c s -> s <> [] -> plain E T (KIface m) ->
  dout (dec_iface X E buf c d rv) (reads (fun p w => store X E d T p rv w) buf s).
Proof.
  intros Hsm H Hne Hk. unfold dec_iface.
  set (pl := match rd buf c with ROk c0 => _ | _ => _ end).
  assert ((forall t n p, rv = VIface (Some (TPtr t, VPtr p)) -> has_unmarshal E t <> Some n) ->
    dout pl (reads (fun p w => store X E d T p rv w) buf s)) as G.
  { intros Hv. subst pl. destruct s as [|b s]; [congruence|]. rewrite (pos_rd _ _ _ _ H).
    destruct (b =b "N"%byte) eqn:Eb; [|exact I]. apply eqb_eq in Eb as ->.
    pose proof (null_out _ _ _ _ H) as O. destruct (validate_null buf c); try (cbn in *; tauto).
    destruct O as (s' & -> & H'). exists LNull, s'. repeat split; auto. eapply sto_iface_null; eauto. }
  destruct rv as [| | | | | | | | | |o| |]; try (apply G; intros; discriminate).
  destruct o as [[t v]|]; [|apply G; intros; discriminate].
  destruct t as [| | | | | | | | |t| | | |]; try (apply G; intros; discriminate).
  destruct v as [| | | | | | | | |pp| | |]; try (apply G; intros; discriminate).
  destruct (has_unmarshal E t) as [n|] eqn:Hu.
  2:{ apply G. intros t' n' p' [= <- <-]. congruence. }
  pose proof (span_out _ _ d _ Hsm H) as O.
  destruct (bind _ _) as [[src cend]|e|pn|]; cbn [outcome] in O; try (cbn; tauto).
  destruct O as (p & s' & Hp & -> & Es & H').
  destruct (bytes_eqb (text p) (bs "N;")) eqn:En.
  - apply bytes_eqb_eq, text_null_iff in En. subst p. exists LNull, s'. repeat split; auto. eapply sto_iface_unm_null; eauto.
  - assert (p <> LNull) as Hpn by (intros ->; apply bytes_eqb_neq in En; apply En; reflexivity).
    destruct pp as [old|]; [|unfold dout; cbn; discriminate].
    rewrite text_unquoted. destruct (x_unmarshal X n (text p) old) as [new ok] eqn:Ew.
    destruct ok; [|exact I]. exists p, s'. repeat split; auto. eapply sto_iface_unm; eauto.
Qed.

(** Typed scalars *)
Section Scalars.
  Context (X : Ext) (E : env).

  Lemma int_out T k buf c d rv s : pos buf c s -> plain E T (KInt k) ->
    dout (dec_int k buf c rv) (reads (fun p w => store X E d T p rv w) buf s).
  Proof.
    intros H Hk. unfold dec_int. apply dout_text. eapply outcome_imp; [apply int_bytes_out; exact H|].
    intros [o c'] (p & s' & Es & H' & O). destruct o as [t|].
    - destruct O as [-> _]. apply process_int_out. intros z Hz Hr. exists (LInt t), s'. repeat split; auto. eapply sto_int; eauto.
    - subst p. exists LNull, s'. repeat split; auto. eapply sto_scalar_null; eauto.
  Qed.
  Lemma uint_out T k buf c d rv s : pos buf c s -> plain E T (KUint k) ->
    dout (dec_uint k buf c rv) (reads (fun p w => store X E d T p rv w) buf s).
  Proof.
    intros H Hk. unfold dec_uint. apply dout_text. eapply outcome_imp; [apply int_bytes_out; exact H|].
    intros [o c'] (p & s' & Es & H' & O). destruct o as [t|].
    - destruct O as [-> _]. apply process_uint_out. intros Hz Hr. exists (LInt t), s'. repeat split; auto. eapply sto_uint; eauto.
    - subst p. exists LNull, s'. repeat split; auto. eapply sto_scalar_null; eauto.
  Qed.
  Lemma float_dec_out T is32 buf c d rv s : pos buf c s -> plain E T (if is32 : bool then KF32 else KF64) ->
    dout (dec_float X is32 buf c rv) (reads (fun p w => store X E d T p rv w) buf s).
  Proof.
    intros H Hk. unfold dec_float. apply dout_text. eapply outcome_imp; [apply float_bytes_out; exact H|].
    intros [o c'] (p & s' & Es & H' & O). destruct o as [t|].
    - destruct O as [-> [H1 H2]]. apply process_float_out. intros f Hf. destruct is32.
      + intros Ho. exists (LFloat t), s'. repeat split; auto. eapply sto_f32; eauto.
      + exists (LFloat t), s'. repeat split; auto. eapply sto_f64; eauto.
    - subst p. exists LNull, s'. repeat split; auto. eapply sto_scalar_null; eauto. destruct is32; reflexivity.
  Qed.
  Lemma string_out T buf c d rv s : small buf -> pos buf c s -> plain E T KString ->
    dout (dec_string buf c rv) (reads (fun p w => store X E d T p rv w) buf s).
  Proof.
    intros Hsm H Hk. unfold dec_string. apply dout_text. eapply outcome_imp; [apply string_bytes_out; eassumption|].
    intros [o c'] (p & s' & Es & H' & O). destruct o as [t|].
    - destruct O as (n & -> & Hn). exists (LStr n t), s'. repeat split; auto. eapply sto_string; eauto.
    - subst p. exists LNull, s'. repeat split; auto. eapply sto_scalar_null; eauto.
  Qed.
  Lemma dec_bool_out buf c rv s : pos buf c s ->
    dout (dec_bool buf c rv) (fun w c' => exists p s', s = text p ++ s' /\ pos buf c' s' /\
      ((p = LNull /\ w = rv) \/ exists b, p = LBool b /\ w = VBool b)).
  Proof.
    intros H. unfold dec_bool. destruct s as [|b s]; [rewrite (pos_has_nil _ _ H); exact I|].
    rdn H. destruct (b =b "b"%byte) eqn:E0.
    { pose proof (bool_out _ _ _ H) as O. destruct (read_bool buf c); try (cbn in *; tauto).
      destruct O as (s' & Es & H'). exists (LBool a), s'. rewrite text_bool. repeat split; eauto. }
    destruct (b =b "N"%byte) eqn:E1; [|exact I]. apply eqb_eq in E1 as ->.
    pose proof (null_out _ _ _ _ H) as O. destruct (validate_null buf c); try (cbn in *; tauto).
    destruct O as (s' & -> & H'). exists LNull, s'. repeat split; auto.
  Qed.
  Lemma bool_dec_out T buf c d rv s : pos buf c s -> plain E T KBool ->
    dout (dec_bool buf c rv) (reads (fun p w => store X E d T p rv w) buf s).
  Proof.
    intros H Hk. eapply dout_imp; [apply dec_bool_out; exact H|].
    intros w c' (p & s' & Es & H' & [[-> ->]|(b & -> & ->)]).
    - exists LNull, s'. repeat split; auto. eapply sto_scalar_null; eauto.
    - exists (LBool b), s'. repeat split; auto. eapply sto_bool; auto.
  Qed.

  (** Which decoder a type gets *)
  Lemma node_plain T : match node_of E T with
    | NUnm n => has_unmarshal E T = Some n
    | NPtr t => plain E T (KPtr t)
    | NStruct id fs => plain E T (KStruct id fs)
    | NBytes t => plain E T (KSlice t) /\ is_byte E t = true
    | NSlice t => plain E T (KSlice t) /\ is_byte E t = false
    | NArray n t => plain E T (KArray n t)
    | NMap k v => plain E T (KMap k v)
    | NAny => plain E T KAny
    | NIface => exists m, plain E T (KIface m)
    | NUint k => plain E T (KUint k)
    | NInt k => plain E T (KInt k)
    | NString => plain E T KString
    | NBool => plain E T KBool
    | NF32 => plain E T KF32
    | NF64 => plain E T KF64
    | NInvalid => plain E T KOther
    end.
  Proof.
    unfold node_of, plain, is_byte. destruct (has_unmarshal E T) as [n|]; [reflexivity|].
    destruct (kind_of E T) as [| | | | | |t| | | | |m| |]; eauto.
    destruct (kind_of E t) as [| |[]| | | | | | | | | | |] eqn:Et; rewrite Et; auto.
  Qed.

  Lemma key_out T buf c d s : small buf -> pos buf c s -> s <> [] ->
    dout (dec_key X E T buf c d) (reads (fun p w => store_key X E d T p w) buf s).
  Proof.
    intros Hsm H Hne. unfold dec_key.
    assert (forall (r : dres), key_kind E T -> dout r (reads (fun p w => store X E d T p (zero E T) w) buf s) ->
      dout r (reads (fun p w => store_key X E d T p w) buf s)) as G.
    { intros r Hk D. eapply dout_imp; [exact D|]. intros w c' (p & s' & Hp & Es & H').
      exists p, s'. repeat split; auto. constructor; auto. }
    unfold key_node. destruct (has_unmarshal E T) as [n|] eqn:Hu.
    { apply G; [left; congruence|]. eapply unm_out; eauto. }
    pose proof (node_plain T) as NP.
    assert (forall k, kind_of E T = k -> k <> KString -> match k with KString => KnString | _ =>
              match node_of E T with
              | NString => KnString | NAny => KnAny | NIface => KnIface | NBool => KnBool
              | NInt k => KnInt k | NUint k => KnUint k
              | NPtr t' => match node_of E t' with
                   | (NString | NAny | NIface | NBool | NInt _ | NUint _) as d => KnPtr d | _ => KnInvalid end
              | _ => KnInvalid end end = match node_of E T with
              | NString => KnString | NAny => KnAny | NIface => KnIface | NBool => KnBool
              | NInt k => KnInt k | NUint k => KnUint k
              | NPtr t' => match node_of E t' with
                   | (NString | NAny | NIface | NBool | NInt _ | NUint _) as d => KnPtr d | _ => KnInvalid end
              | _ => KnInvalid end) as K0 by (intros k _ Hk; destruct k; congruence).
    destruct (kind_of E T) eqn:Ek; try rewrite (K0 _ eq_refl ltac:(discriminate)); clear K0;
      try (apply G; [right; rewrite Ek; exact I|]; apply string_out; auto; split; auto; fail).
    all: destruct (node_of E T) as [n0|t0|id0 fs0|t0|t0|n0 t0|kt0 vt0| | |uk0|ik0| | | | |] eqn:En;
      cbn [node_plain] in NP; try exact I;
      try (destruct NP as [NP1 NP2]; congruence);
      try (destruct NP as [m0 [NP1 NP2]]; congruence).
    all: try (apply G; [right; rewrite Ek; exact I|]).
    all: try (apply bool_dec_out; auto; fail).
    all: try (apply int_out; auto; fail).
    all: try (apply uint_out; auto; fail).
    (* interfaces *)
    all: try (eapply dout_imp; [apply iface_any_out; eauto|]; intros w c' (p & s' & Hp & Es & H'); exists p, s'; repeat split; auto; eapply sto_any; eauto; fail).
    all: try (destruct NP as [m' NP]; eapply iface_out; eauto; fail).
    (* pointers *)
    all: destruct NP as [NP1 NP2]; rewrite Ek in NP2; injection NP2 as <-.
    all: pose proof (node_plain t) as NT; destruct (node_of E t) as [n1|t1|id1 fs1|t1|t1|n1 t1|kt1 vt1| | |uk1|ik1| | | | |] eqn:Ent; try exact I.
    all: assert (Hnull : forall c' s', has_unmarshal E t = None -> key_kind E t -> s = text LNull ++ s' -> pos buf c' s' ->
        reads (fun p w => store_key X E d T p w) buf s (zero E T) c')
        by (intros c' s' Hu' Hkk Es' H'; exists LNull, s'; repeat split; auto; eapply sk_ptr_null; eauto; split; auto).
    - pose proof (any_out X buf c d s Hsm H Hne) as O.
      destruct (dec_any X buf c d) as [[[o|] c']|e|p|]; auto; [unfold dout; cbn; discriminate|].
      destruct O as (p & s' & Hp & Es & H'). inversion Hp; subst p. eapply Hnull; eauto; [apply NT|right].
      destruct NT as [_ ->]. exact I.
    - pose proof (any_out X buf c d s Hsm H Hne) as O.
      destruct (dec_any X buf c d) as [[[o|] c']|e|p|]; auto; [unfold dout; cbn; discriminate|].
      destruct O as (p & s' & Hp & Es & H'). inversion Hp; subst p. destruct NT as [m' NT]. eapply Hnull; eauto; [apply NT|right].
      destruct NT as [_ ->]. exact I.
    - apply dout_text. eapply outcome_imp; [apply int_bytes_out; exact H|].
      intros [o c'] (p & s' & Es & H' & O). destruct o as [b|].
      + destruct (parse_uint64 b); [unfold dout; cbn; discriminate|exact I].
      + subst p. eapply Hnull; eauto; [apply NT|right; destruct NT as [_ ->]; exact I].
    - apply dout_text. eapply outcome_imp; [apply int_bytes_out; exact H|].
      intros [o c'] (p & s' & Es & H' & O). destruct o as [b|].
      + destruct (parse_int64 b); [unfold dout; cbn; discriminate|exact I].
      + subst p. eapply Hnull; eauto; [apply NT|right; destruct NT as [_ ->]; exact I].
    - apply dout_text. eapply outcome_imp; [apply string_bytes_out; eassumption|].
      intros [o c'] (p & s' & Es & H' & O). destruct o as [b|].
      + unfold dout; cbn; discriminate.
      + subst p. eapply Hnull; eauto; [apply NT|right; destruct NT as [_ ->]; exact I].
    - pose proof (dec_bool_out buf c VOther s H) as D.
      destruct (dec_bool buf c VOther) as [w r]. unfold dout in D. cbn [fst snd] in D.
      destruct r as [c'|e|p|]; [|destruct w; exact D..].
      destruct D as (p & s' & Es & H' & [[-> ->]|(b & -> & ->)]).
      + eapply Hnull; eauto; [apply NT|right; destruct NT as [_ ->]; exact I].
      + unfold dout; cbn; discriminate.
  Qed.
End Scalars.
