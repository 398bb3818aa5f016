(** Unmarshal: what follows from soundness and completeness of decoding. *)
From Coq Require Import Strings.String Strings.Byte ZArith List Bool Lia Floats.SpecFloat.
From Verif Require Import Base GoTypes Strconv Tags Scan Decode Unmarshal Grammar Denote NumFacts ScanFacts SkipFacts
  Sound SoundT TextFacts Complete Typing Safe Api CompileFacts.
Import ListNotations.
Open Scope Z_scope.

Lemma text_ne p : text p <> [].
Proof. pose proof (text_pos p). destruct (text p); [cbn in *; lia|discriminate]. Qed.

Lemma validate_end_out data c s : pos data c s -> outcome (validate_end data c) (fun _ => s = []).
Proof.
  intros H. unfold validate_end. pose proof (pos_len _ _ _ H) as L. destruct (blen data =? c) eqn:E0.
  - apply Z.eqb_eq in E0. cbn. apply blen_zero. lia.
  - destruct s as [|b s]; [rewrite blen_nil in L; apply Z.eqb_neq in E0; lia|]. rewrite (pos_rd _ _ _ _ H). exact I.
Qed.

Definition accepts X E cf data T v w := unmarshal X E cf data (TgPtr T v) = (w, ROk tt).

Lemma unmarshal_ok_inv X E cf data T v w : small data -> accepts X E cf data T v w ->
  compile_f X E cf [] T = ROk tt /\ exists p, data = text p /\ store X E 0 T p v w.
Proof.
  unfold accepts, unmarshal. intros Hsm H. destruct data as [|b data]; [discriminate|].
  destruct (compile_f X E cf [] T) as [[]|e|p|] eqn:Ec; try discriminate. split; [reflexivity|].
  pose proof (decode_out X E T (b :: data) v Hsm ltac:(discriminate)) as D. unfold dout in D.
  destruct (decode X E T (b :: data) 0 0 v) as [w' r]. cbn [fst snd] in *.
  injection H as -> H. destruct r as [c|e|p|]; try discriminate. cbn [bind] in H.
  destruct D as (p & s' & Hst & Es & Hp). pose proof (validate_end_out _ _ _ Hp) as V. rewrite H in V. cbn in V. subst s'.
  exists p. rewrite app_nil_r in Es. auto.
Qed.

Lemma unmarshal_ok X E cf T p v w : small (text p) -> compile_f X E cf [] T = ROk tt -> store X E 0 T p v w ->
  accepts X E cf (text p) T v w.
Proof.
  unfold accepts, unmarshal. intros Hsm Hc Hst. pose proof (text_ne p) as Hne.
  pose proof (decode_ok X E T p v w [] ltac:(rewrite app_nil_r; exact Hsm) Hst) as D. rewrite app_nil_r in D.
  destruct (text p) as [|b r] eqn:Et; [congruence|]. rewrite <- Et in *. clear b r Et Hne.
  rewrite Hc, D. cbn [bind]. unfold validate_end. rewrite Z.eqb_refl. reflexivity.
Qed.

Lemma unmarshal_iff X E cf data T v w : small data ->
  accepts X E cf data T v w <->
  compile_f X E cf [] T = ROk tt /\ exists p, data = text p /\ store X E 0 T p v w.
Proof.
  intros Hsm. split; [apply unmarshal_ok_inv; exact Hsm|].
  intros (Hc & p & -> & Hst). apply unmarshal_ok; auto.
Qed.

(** The same for the text of a given well-formed value *)
Lemma accepts_text X E cf T p v w : small (text p) -> wf p -> compile_f X E cf [] T = ROk tt ->
  accepts X E cf (text p) T v w <-> store X E 0 T p v w.
Proof.
  intros Hsm Hw Hc. split; [|apply unmarshal_ok; auto].
  intros H. apply unmarshal_ok_inv in H as (_ & q & Eq & Hst); [|exact Hsm].
  pose proof (text_inj p q [] [] Hw (store_wf _ _ _ _ _ _ _ Hst)) as I. rewrite !app_nil_r in I.
  destruct (I Eq) as [-> _]. exact Hst.
Qed.

(** C01 *)
Lemma unmarshal_returns X E cf data tg : small data ->
  (forall T v, tg = TgPtr T v -> compile_f X E cf [] T <> RFuel) ->
  snd (unmarshal X E cf data tg) <> RFuel.
Proof.
  intros Hsm Hc. unfold unmarshal. destruct data as [|b data]; [discriminate|]. destruct tg as [|t v|t|T v]; try discriminate.
  specialize (Hc T v eq_refl).
  destruct (compile_f X E cf [] T) as [[]|e|p|]; try discriminate; [|cbn; congruence].
  pose proof (decode_out X E T (b :: data) v Hsm ltac:(discriminate)) as D. unfold dout in D.
  destruct (decode X E T (b :: data) 0 0 v) as [w' [c|e|p|]]; cbn [fst snd bind] in *; try discriminate; [|tauto].
  destruct D as (p & s' & Hst & Es & Hp). pose proof (validate_end_out _ _ _ Hp) as V.
  destruct (validate_end (b :: data) c); cbn in V; try discriminate. tauto.
Qed.

(** C02 *)
Lemma unmarshal_no_index X E cf data tg : small data ->
  snd (unmarshal X E cf data tg) <> RPanic PIndex.
Proof.
  intros Hsm. unfold unmarshal. destruct data as [|b data]; [discriminate|]. destruct tg as [|t v|t|T v]; try discriminate.
  pose proof (compile_nopanic X E PIndex cf [] T) as Hc.
  destruct (compile_f X E cf [] T) as [[]|e|p|]; try discriminate; [|cbn; congruence].
  pose proof (decode_out X E T (b :: data) v Hsm ltac:(discriminate)) as D. unfold dout in D.
  destruct (decode X E T (b :: data) 0 0 v) as [w' [c|e|p|]]; cbn [fst snd bind] in *; try discriminate; [|congruence].
  destruct D as (p & s' & Hst & Es & Hp). pose proof (validate_end_out _ _ _ Hp) as V.
  destruct (validate_end (b :: data) c); cbn in V; try discriminate. tauto.
Qed.

(** C06, C07 *)
Lemma accepted_prefix_free X E cf X' E' cf' data s T T' v v' w w' : small (data ++ s) ->
  accepts X E cf data T v w -> accepts X' E' cf' (data ++ s) T' v' w' -> s = [].
Proof.
  intros Hsm H H'. assert (small data) as Hsm1 by (unfold small in *; rewrite blen_app in Hsm; pose proof (blen_nonneg s); lia).
  apply unmarshal_ok_inv in H as (_ & p & -> & Hp); [|exact Hsm1].
  apply unmarshal_ok_inv in H' as (_ & q & Eq & Hq); [|exact Hsm].
  destruct (text_inj p q s [] (store_wf _ _ _ _ _ _ _ Hp) (store_wf _ _ _ _ _ _ _ Hq)) as [_ ->]; auto.
  rewrite app_nil_r. exact Eq.
Qed.

(** Determinism of the specification *)
Lemma store_det X E T p v w w' : small (text p) -> store X E 0 T p v w -> store X E 0 T p v w' -> w = w'.
Proof.
  intros Hsm H H'. pose proof (decode_ok X E T p v w []) as D. pose proof (decode_ok X E T p v w' []) as D'.
  rewrite !app_nil_r in *. specialize (D Hsm H). specialize (D' Hsm H'). congruence.
Qed.

(** ** Scalar destinations *)

(** What a decoder that either stores or fails cleanly returns. *)
Definition clean (rv : gval) (r : dres) : Prop :=
  match r with (_, ROk _) => True | (w, RErr _) => w = rv | _ => False end.

Lemma dec_text_clean rdt process rv :
  outcome rdt (fun _ => True) -> (forall b c, clean rv (process b c rv)) -> clean rv (dec_text rdt process rv).
Proof. intros H Hp. unfold dec_text. destruct rdt as [[[b|] c]|e|p|]; cbn in *; auto; tauto. Qed.
Lemma outcome_true {A} (r : R A) P : outcome r P -> outcome r (fun _ => True).
Proof. destruct r; cbn; auto. Qed.

Lemma process_int_clean k b c rv : clean rv (process_int k b c rv).
Proof. unfold process_int. destruct (parse_int64 b); [destruct (_ || _)|]; cbn; auto. Qed.
Lemma process_uint_clean k b c rv : clean rv (process_uint k b c rv).
Proof. unfold process_uint. destruct (parse_uint64 b); [destruct (_ <? _)|]; cbn; auto. Qed.
Lemma process_float_clean X k b c rv : clean rv (process_float X k b c rv).
Proof. unfold process_float. destruct (parse_float X b); [destruct k; [destruct (overflow_f32 _)|]|]; cbn; auto. Qed.

Lemma dec_bool_clean buf c s rv : pos buf c s -> clean rv (dec_bool buf c rv).
Proof.
  intros H. unfold dec_bool. destruct s as [|b s]; [rewrite (pos_has_nil _ _ H); reflexivity|].
  rewrite (pos_has _ _ _ _ H), (pos_rd _ _ _ _ H). cbn [negb]. destruct (b =b "b"%byte).
  - pose proof (outcome_true _ _ (bool_out _ _ _ H)) as O. destruct (read_bool buf c); cbn in *; tauto.
  - destruct (b =b "N"%byte); [|reflexivity].
    pose proof (outcome_true _ _ (null_out _ _ _ _ H)) as O. destruct (validate_null buf c); cbn in *; tauto.
Qed.

Definition simple_kind (k : kind) : bool := scalar_kind k || match k with KAny => true | _ => false end.

Lemma scalar_clean X E T k buf c d rv s f : small buf -> pos buf c s -> s <> [] ->
  plain E T k -> simple_kind k = true -> clean rv (decode_f X E (S f) T buf c d rv).
Proof.
  intros Hsm H Hne Hk Hs. cbn [decode_f]. rewrite (node_of_plain _ _ _ Hk).
  destruct k; try discriminate Hs.
  - eapply dec_bool_clean; eauto.
  - apply dec_text_clean; [eapply outcome_true, int_bytes_out; exact H|]. intros. apply process_int_clean.
  - apply dec_text_clean; [eapply outcome_true, int_bytes_out; exact H|]. intros. apply process_uint_clean.
  - apply dec_text_clean; [eapply outcome_true, float_bytes_out; exact H|]. intros. apply process_float_clean.
  - apply dec_text_clean; [eapply outcome_true, float_bytes_out; exact H|]. intros. apply process_float_clean.
  - apply dec_text_clean; [eapply outcome_true, string_bytes_out; eauto|]. intros. exact I.
  - unfold dec_iface_any. pose proof (any_out X buf c d s Hsm H Hne) as O. pose proof (any_safe_top X E buf c d) as S.
    destruct (dec_any X buf c d) as [[o c']|e|p|]; cbn in *; try tauto; try congruence.
Qed.

(** C27: an error leaves a scalar (or any) alone, except that a value followed by trailing bytes has already been stored *)
Lemma scalar_error X E cf data T k v w e : small data -> plain E T k -> simple_kind k = true ->
  unmarshal X E cf data (TgPtr T v) = (w, RErr e) ->
  w = v \/ exists p s, s <> [] /\ data = text p ++ s /\ store X E 0 T p v w.
Proof.
  intros Hsm Hk Hs H. unfold unmarshal in H. destruct data as [|b data]; [injection H as <- _; auto|].
  destruct (compile_f X E cf [] T) as [[]|e'|p|]; try (injection H as <- _; auto; fail).
  pose proof (decode_out X E T (b :: data) v Hsm ltac:(discriminate)) as D. unfold dout in D.
  pose proof (scalar_clean X E T k (b :: data) 0 0 v (b :: data) (S (2 * length (b :: data))) Hsm (pos_start _) ltac:(discriminate) Hk Hs) as C.
  replace (S (S (2 * length (b :: data)))) with (decode_fuel (b :: data)) in C by (unfold decode_fuel; lia).
  fold (decode X E T (b :: data) 0 0 v) in C.
  destruct (decode X E T (b :: data) 0 0 v) as [w' [c|e'|p|]]; cbn [fst snd bind clean] in *; try tauto.
  - injection H as -> H. right. destruct D as (p & s' & Hst & Es & Hp). exists p, s'. split; [|auto].
    intros ->. unfold validate_end in H. pose proof (pos_len _ _ _ Hp) as L. rewrite blen_nil in L.
    replace (blen (b :: data) =? c) with true in H by (symmetry; apply Z.eqb_eq; lia). discriminate.
  - injection H as -> _. auto.
Qed.

(** and there is no panic *)
Lemma scalar_nopanic X E cf data T k v p : small data -> plain E T k -> simple_kind k = true ->
  snd (unmarshal X E cf data (TgPtr T v)) <> RPanic p.
Proof.
  intros Hsm Hk Hs. unfold unmarshal. destruct data as [|b data]; [discriminate|].
  pose proof (compile_nopanic X E p cf [] T) as Hc.
  destruct (compile_f X E cf [] T) as [[]|e'|q|]; try discriminate; [|cbn; congruence].
  pose proof (decode_out X E T (b :: data) v Hsm ltac:(discriminate)) as D. unfold dout in D.
  pose proof (scalar_clean X E T k (b :: data) 0 0 v (b :: data) (S (2 * length (b :: data))) Hsm (pos_start _) ltac:(discriminate) Hk Hs) as C.
  replace (S (S (2 * length (b :: data)))) with (decode_fuel (b :: data)) in C by (unfold decode_fuel; lia).
  fold (decode X E T (b :: data) 0 0 v) in C.
  destruct (decode X E T (b :: data) 0 0 v) as [w' [c|e'|q|]]; cbn [fst snd bind clean] in *; try tauto; try discriminate.
  destruct D as (q & s' & Hst & Es & Hp). pose proof (validate_end_out _ _ _ Hp) as V.
  destruct (validate_end (b :: data) c); cbn in V; try discriminate. tauto.
Qed.

Lemma compile_scalar X E cf st T k : plain E T k -> simple_kind k = true -> compile_f X E (S cf) st T = ROk tt.
Proof. intros [Hu Hk] Hs. cbn [compile_f]. rewrite Hu, Hk. destruct k; try discriminate; reflexivity. Qed.

(** What a scalar destination gives: success iff [store], else a clean error. *)
Lemma scalar_fails X E cf T k v data : small data -> plain E T k -> simple_kind k = true ->
  (forall p s, data = text p ++ s -> forall w, ~ store X E 0 T p v w) ->
  exists e, unmarshal X E (S cf) data (TgPtr T v) = (v, RErr e).
Proof.
  intros Hsm Hk Hs Hn.
  pose proof (unmarshal_returns X E (S cf) data (TgPtr T v) Hsm) as Hr.
  pose proof (fun p => scalar_nopanic X E (S cf) data T k v p Hsm Hk Hs) as Hp.
  destruct (unmarshal X E (S cf) data (TgPtr T v)) as [w [[]|e|p|]] eqn:Eu; cbn [snd] in *.
  - exfalso. apply unmarshal_ok_inv in Eu as (_ & p & -> & Hst); [|exact Hsm].
    apply (Hn p [] ltac:(now rewrite app_nil_r) w Hst).
  - exists e. destruct (scalar_error X E (S cf) data T k v w e Hsm Hk Hs Eu) as [->|(p & s & _ & Ed & Hst)]; [reflexivity|].
    exfalso. exact (Hn p s Ed w Hst).
  - exfalso. exact (Hp p eq_refl).
  - exfalso. apply Hr; [|reflexivity]. intros T' v' ET. injection ET as <- <-.
    rewrite (compile_scalar X E cf [] T k Hk Hs). discriminate.
Qed.

Lemma text_int_inv p t s : ~ In ";"%byte t -> text (LInt t) = text p ++ s -> wf p -> p = LInt t.
Proof.
  intros Hs Ht Hw. rewrite <- (app_nil_r (text (LInt t))) in Ht.
  pose proof (letter_inj _ _ _ _ Ht) as L. rewrite text_int in Ht.
  destruct p; try discriminate L. rewrite text_int in Ht. injection Ht as Ht. inversion Hw; subst.
  apply span_inj with (p := fun c => negb (c =b ";"%byte)) in Ht as [-> _]; auto.
  - apply nosemi_forallb. exact Hs.
  - eapply int_text_nosemi; eassumption.
Qed.

Ltac kinds := repeat match goal with H : plain _ _ _ |- _ => destruct H end; try congruence.

(** C09 *)
Lemma int_exact X E cf T k v t : small (text (LInt t)) -> ~ In ";"%byte t -> plain E T (KInt k) ->
  (forall z, int_text t z -> int_range k z -> unmarshal X E (S cf) (text (LInt t)) (TgPtr T v) = (VInt z, ROk tt)) /\
  ((forall z, int_text t z -> ~ int_range k z) ->
   exists e, unmarshal X E (S cf) (text (LInt t)) (TgPtr T v) = (v, RErr e)).
Proof.
  intros Hsm Hs Hk. split.
  - intros z Ht Hr. apply unmarshal_ok; auto; [eapply compile_scalar; eauto|]. eapply sto_int; eauto.
  - intros Hn. eapply scalar_fails; eauto. intros p s Ep w Hst.
    pose proof (text_int_inv p t s Hs Ep (store_wf _ _ _ _ _ _ _ Hst)) as ->.
    inversion Hst; subst; kinds.
    match goal with HK : kind_of E T = KInt ?k', HR : int_range ?k' _ |- _ => replace k' with k in HR by congruence; eapply Hn; eauto end.
Qed.

(** C10 *)
Lemma uint_exact X E cf T k v t : small (text (LInt t)) -> ~ In ";"%byte t -> plain E T (KUint k) ->
  (numeral t -> uint_range k (num t) ->
   unmarshal X E (S cf) (text (LInt t)) (TgPtr T v) = (VUint (num t), ROk tt)) /\
  (~ (numeral t /\ uint_range k (num t)) ->
   exists e, unmarshal X E (S cf) (text (LInt t)) (TgPtr T v) = (v, RErr e)).
Proof.
  intros Hsm Hs Hk. split.
  - intros Ht Hr. apply unmarshal_ok; auto; [eapply compile_scalar; eauto|]. eapply sto_uint; eauto.
  - intros Hn. eapply scalar_fails; eauto. intros p s Ep w Hst.
    pose proof (text_int_inv p t s Hs Ep (store_wf _ _ _ _ _ _ _ Hst)) as ->.
    inversion Hst; subst; kinds.
    match goal with HK : kind_of E T = KUint ?k', HR : uint_range ?k' _ |- _ => replace k' with k in HR by congruence; auto end.
Qed.

(** C03: no panic *)
Lemma unmarshal_safe X E cf data T v p : small data -> go_env E -> user_ok X E ->
  keys_safe E T -> allocatable X E T data -> typed E T v ->
  snd (unmarshal X E cf data (TgPtr T v)) <> RPanic p.
Proof.
  intros Hsm Henv Hu Hk Ha Hv. unfold unmarshal. destruct data as [|b data]; [discriminate|].
  pose proof (compile_nopanic X E p cf [] T) as Hc.
  destruct (compile_f X E cf [] T) as [[]|e'|q|]; try discriminate; [|cbn; congruence].
  pose proof (decode_out X E T (b :: data) v Hsm ltac:(discriminate)) as D. unfold dout in D.
  pose proof (decode_f_safe X E (b :: data) T Henv Hu Hk Ha (decode_fuel (b :: data)) T 0 0 v (in_refl _ _) Hv) as S.
  fold (decode X E T (b :: data) 0 0 v) in S. unfold okp in S.
  destruct (decode X E T (b :: data) 0 0 v) as [w' [c|e'|q|]]; cbn [fst snd bind] in *; try tauto; try discriminate.
  destruct D as (q & s' & Hst & Es & Hp). pose proof (validate_end_out _ _ _ Hp) as V.
  destruct (validate_end (b :: data) c); cbn in V; try discriminate. tauto.
Qed.
(** and a successful Unmarshal leaves a well-typed value *)
Lemma unmarshal_typed X E cf data T v w : small data -> go_env E -> user_ok X E ->
  keys_safe E T -> allocatable X E T data -> typed E T v ->
  accepts X E cf data T v w -> typed E T w.
Proof.
  intros Hsm Henv Hu Hk Ha Hv. unfold accepts, unmarshal. destruct data as [|b data]; [discriminate|].
  destruct (compile_f X E cf [] T) as [[]|e'|q|]; try discriminate.
  pose proof (decode_f_safe X E (b :: data) T Henv Hu Hk Ha (decode_fuel (b :: data)) T 0 0 v (in_refl _ _) Hv) as S.
  fold (decode X E T (b :: data) 0 0 v) in S. unfold okp in S.
  destruct (decode X E T (b :: data) 0 0 v) as [w' [c|e'|q|]]; cbn [fst snd bind] in *; try discriminate.
  intros H. injection H as <- _. exact S.
Qed.

(** ** The same facts about [Decodes] and [Fails] *)
Lemma decodes_inv X E data T v w : small data -> Decodes X E data T v w ->
  supported X E T /\ exists p, data = text p /\ store X E 0 T p v w.
Proof.
  intros Hsm [cf H]. apply unmarshal_ok_inv in H as [Hc Hp]; [|exact Hsm]. split; [|exact Hp]. eapply compile_supported; eauto.
Qed.
Lemma decodes_store X E T p v w : small (text p) -> supported X E T -> store X E 0 T p v w ->
  Decodes X E (text p) T v w.
Proof.
  intros Hsm Hs Hst. apply (compile_iff X E T) in Hs as [cf Hc]. exists cf. apply unmarshal_ok; auto.
Qed.
Lemma decodes_iff X E data T v w : small data ->
  Decodes X E data T v w <-> supported X E T /\ exists p, data = text p /\ store X E 0 T p v w.
Proof.
  intros Hsm. split; [apply decodes_inv; exact Hsm|]. intros (Hs & p & -> & Hst). apply decodes_store; auto.
Qed.
Lemma decodes_text X E T p v w : small (text p) -> wf p -> supported X E T ->
  Decodes X E (text p) T v w <-> store X E 0 T p v w.
Proof.
  intros Hsm Hw Hs. split; [|apply decodes_store; auto].
  intros H. apply decodes_inv in H as (_ & q & Eq & Hst); [|exact Hsm].
  pose proof (text_inj p q [] [] Hw (store_wf _ _ _ _ _ _ _ Hst)) as I. rewrite !app_nil_r in I.
  destruct (I Eq) as [-> _]. exact Hst.
Qed.

Lemma outcome_det X E cf cf' data tg : snd (unmarshal X E cf data tg) <> RFuel -> snd (unmarshal X E cf' data tg) <> RFuel ->
  unmarshal X E cf data tg = unmarshal X E cf' data tg.
Proof.
  intros H H'. rewrite <- (unmarshal_mono X E cf (Nat.max cf cf') data tg H) by lia.
  rewrite <- (unmarshal_mono X E cf' (Nat.max cf cf') data tg H') by lia. reflexivity.
Qed.

Lemma unmarshal_outcome X E data tg : small data -> (forall T v, tg = TgPtr T v -> grounded E T) ->
  exists cf, snd (unmarshal X E cf data tg) <> RFuel.
Proof.
  intros Hsm Hg. destruct tg as [|t v|t|T v]; try (exists 0%nat; apply unmarshal_returns; [exact Hsm|discriminate]).
  destruct (compile_terminates X E T (Hg T v eq_refl)) as [n Hn]. exists n. apply unmarshal_returns; [exact Hsm|]. congruence.
Qed.

(** three outcomes *)
Lemma unmarshal_three X E data T v : small data -> grounded E T ->
  (exists w, Decodes X E data T v w) \/ (exists w, Fails X E data T v w) \/ (exists p, Panics X E data T v p).
Proof.
  intros Hsm Hg. destruct (unmarshal_outcome X E data (TgPtr T v) Hsm ltac:(intros T' v' Q; injection Q as <- _; exact Hg)) as [cf H].
  destruct (unmarshal X E cf data (TgPtr T v)) as [w [[]|e|p|]] eqn:Eu; cbn in H; try congruence.
  - left. exists w, cf. exact Eu.
  - right. left. exists w, cf, e. exact Eu.
  - right. right. exists p, cf. rewrite Eu. reflexivity.
Qed.

Lemma decodes_fails X E data T v w w' : Decodes X E data T v w -> Fails X E data T v w' -> False.
Proof.
  intros [cf H] (cf' & e & H'). pose proof (outcome_det X E cf cf' data (TgPtr T v)) as D.
  rewrite H, H' in D. cbn in D. specialize (D ltac:(discriminate) ltac:(discriminate)). discriminate.
Qed.
Lemma decodes_det X E data T v w w' : Decodes X E data T v w -> Decodes X E data T v w' -> w = w'.
Proof.
  intros [cf H] (cf' & H'). pose proof (outcome_det X E cf cf' data (TgPtr T v)) as D.
  rewrite H, H' in D. cbn in D. specialize (D ltac:(discriminate) ltac:(discriminate)). congruence.
Qed.

(** C03 *)
Lemma panics_safe X E data T v p : small data -> go_env E -> user_ok X E ->
  keys_safe E T -> allocatable X E T data -> typed E T v -> ~ Panics X E data T v p.
Proof. intros Hsm He Hu Hk Ha Hv [cf H]. exact (unmarshal_safe X E cf data T v p Hsm He Hu Hk Ha Hv H). Qed.

(** C06: bytes after a complete value are an error *)
Lemma trailing_error X E data T v w s : small (data ++ s) -> s <> [] -> Decodes X E data T v w ->
  Fails X E (data ++ s) T v w.
Proof.
  intros Hsm Hs [cf H]. assert (small data) as Hsm1 by (unfold small in *; rewrite blen_app in Hsm; pose proof (blen_nonneg s); lia).
  apply unmarshal_ok_inv in H as (Hc & p & -> & Hst); [|exact Hsm1].
  exists cf. pose proof (decode_ok X E T p v w s Hsm Hst) as D. unfold unmarshal.
  pose proof (text_ne p) as Hne. pose proof (decode_out X E T (text p ++ s) v Hsm ltac:(destruct (text p); [congruence|discriminate])) as O.
  destruct (text p ++ s) as [|b r] eqn:Et; [destruct (text p); [congruence|discriminate]|]. rewrite <- Et in *.
  rewrite Hc, D. cbn [bind]. unfold validate_end.
  replace (blen (text p ++ s) =? blen (text p)) with false.
  2:{ symmetry. apply Z.eqb_neq. rewrite blen_app. pose proof (blen_zero s). intros Q. apply Hs. apply H. lia. }
  pose proof (pos_start (text p ++ s)) as P.
  apply pos_app with (c' := blen (text p)) in P; [|lia].
  destruct s as [|b' s']; [congruence|]. rewrite (pos_rd _ _ _ _ P). cbn. eauto.
Qed.

(** C07: an input that is cut short is never accepted, whatever the destination *)
Lemma truncated_rejected X E X' E' a b T T' v v' w w' : small (a ++ b) -> b <> [] ->
  Decodes X E (a ++ b) T v w -> ~ Decodes X' E' a T' v' w'.
Proof.
  intros Hsm Hb [cf H] [cf' H']. apply Hb. exact (accepted_prefix_free X' E' cf' X E cf a b T' T v' v w' w Hsm H' H).
Qed.

(** C09, C10 *)
Lemma int_exact_api X E T k v t : small (text (LInt t)) -> ~ In ";"%byte t -> plain E T (KInt k) ->
  (forall z, int_text t z -> int_range k z -> Decodes X E (text (LInt t)) T v (VInt z)) /\
  ((forall z, int_text t z -> ~ int_range k z) -> Fails X E (text (LInt t)) T v v).
Proof.
  intros Hsm Hs Hk. destruct (int_exact X E 0 T k v t Hsm Hs Hk) as [A B]. split.
  - intros z Hz Hr. exists 1%nat. auto.
  - intros H. exists 1%nat. auto.
Qed.
Lemma uint_exact_api X E T k v t : small (text (LInt t)) -> ~ In ";"%byte t -> plain E T (KUint k) ->
  (numeral t -> uint_range k (num t) -> Decodes X E (text (LInt t)) T v (VUint (num t))) /\
  (~ (numeral t /\ uint_range k (num t)) -> Fails X E (text (LInt t)) T v v).
Proof.
  intros Hsm Hs Hk. destruct (uint_exact X E 0 T k v t Hsm Hs Hk) as [A B]. split.
  - intros. exists 1%nat. auto.
  - intros H. exists 1%nat. auto.
Qed.

(** C27 *)
Lemma scalar_error_api X E data T k v w : small data -> plain E T k -> simple_kind k = true ->
  Fails X E data T v w -> w = v \/ exists p s, s <> [] /\ data = p ++ s /\ Decodes X E p T v w.
Proof.
  intros Hsm Hk Hs (cf & e & H). destruct (scalar_error X E cf data T k v w e Hsm Hk Hs H) as [->|(p & s & Hne & -> & Hst)]; [auto|].
  right. exists (text p), s. repeat split; auto. exists 1%nat. apply unmarshal_ok.
  - unfold small in *. rewrite blen_app in Hsm. pose proof (blen_nonneg s). lia.
  - eapply compile_scalar; eauto.
  - exact Hst.
Qed.

Lemma unmarshal_returns_stable X E data tg : small data -> (forall T v, tg = TgPtr T v -> grounded E T) ->
  exists cf w r, r <> RFuel /\ forall cf', (cf <= cf')%nat -> unmarshal X E cf' data tg = (w, r).
Proof.
  intros Hsm Hg. destruct (unmarshal_outcome X E data tg Hsm Hg) as [cf H]. exists cf.
  destruct (unmarshal X E cf data tg) as [w r] eqn:Eu. exists w, r. split; [exact H|].
  intros cf' Hle. rewrite <- Eu. apply unmarshal_mono; [rewrite Eu; exact H|exact Hle].
Qed.
Lemma unmarshal_returns_accepted X E cf data T v : small data ->
  compile_f X E cf [] T = ROk tt -> snd (unmarshal X E cf data (TgPtr T v)) <> RFuel.
Proof. intros Hsm Hc. apply unmarshal_returns; [exact Hsm|]. intros T' v' H. injection H as <- <-. congruence. Qed.
Lemma panics_slice_free X E data T v p : small data -> go_env E -> user_ok X E ->
  slice_free E T -> keys_safe E T -> typed E T v -> ~ Panics X E data T v p.
Proof. intros Hsm He Hu Hs Hk Hv. apply panics_safe; auto. apply slice_free_alloc. exact Hs. Qed.
Lemma store_text_inj X E p q T U v w v' w' :
  store X E 0 T p v w -> store X E 0 U q v' w' -> text p = text q -> p = q.
Proof.
  intros Hp Hq Ht. destruct (text_inj p q [] [] (store_wf _ _ _ _ _ _ _ Hp) (store_wf _ _ _ _ _ _ _ Hq)) as [-> _]; [|reflexivity].
  rewrite !app_nil_r. exact Ht.
Qed.
