(** Consequences of the storing specification, used for C11-C24. *)
From Coq Require Import Strings.String Strings.Byte ZArith List Bool Lia Permutation Floats.SpecFloat.
From Verif Require Import Base GoTypes Strconv Tags Scan Decode Unmarshal Grammar Denote NumFacts ScanFacts SkipFacts
  Sound SoundT TextFacts Complete Typing Safe Api CompileFacts UnmFacts.
Import ListNotations.
Open Scope Z_scope.

Ltac kinds := repeat match goal with H : plain _ _ _ |- _ => destruct H end; try congruence;
  try match goal with H2 : kind_of ?E ?T = _, H1 : kind_of ?E ?T = ?k, H3 : scalar_kind ?k = true |- _ =>
        rewrite <- H1, H2 in H3; discriminate H3 end.

Lemma small_le a b : (length a <= length b)%nat -> small b -> small a.
Proof. unfold small, blen. lia. Qed.

(** ** Inversion by destination *)
Section Inv.
  Context (X : Ext) (E : env).

  Lemma store_struct_inv d T id fs p v w : plain E T (KStruct id fs) -> store X E d T p v w ->
    d < limit /\ ((p = LNull /\ w = v) \/
    exists n es l l', body_of p n es /\ numeral n /\ v = VStruct l /\ w = VStruct l' /\
      struct_entries X E (d + 1) fs (store X E (d + 1)) l es l').
  Proof.
    intros Hk H. inversion H; subst; kinds.
    - auto.
    - replace fs0 with fs in * by congruence. split; [assumption|]. right. exists n, es, l, l'. auto.
  Qed.
  Lemma store_map_inv d T k t p v w : plain E T (KMap k t) -> store X E d T p v w ->
    d < limit /\ ((p = LNull /\ w = VMap None) \/
    exists n es o m, body_of p n es /\ numeral n /\ num n <= max_int64 /\ v = VMap o /\ w = VMap (Some m) /\
      map_entries (store_key X E (d + 1) k) (fun q w => store X E (d + 1) t q (zero E t) w)
                  (match o with Some m0 => m0 | None => [] end) es m).
  Proof.
    intros Hk H. inversion H; subst; kinds.
    - auto.
    - replace k0 with k in * by congruence. replace t0 with t in * by congruence.
      split; [assumption|]. right. exists n, es, o, m. auto 10.
  Qed.
  Lemma store_slice_inv d T t p v w : plain E T (KSlice t) -> store X E d T p v w ->
    (p = LNull /\ (is_byte E t = true /\ w = v \/ is_byte E t = false /\ w = VSlice None /\ d < limit)) \/
    (exists n s, p = LStr n s /\ is_byte E t = true /\ str_ok n s /\ w = vbytes s) \/
    (d < limit /\ p = LArr (bs "0") [] /\ w = VSlice None) \/
    (exists n es l, d < limit /\ p = LArr n es /\ numeral n /\ hd_error n <> Some "0"%byte /\ num n <= max_int64 /\
       x_slots X t (num n) = true /\ es <> [] /\ w = VSlice (Some l) /\
       slice_entries (x_slots X t) (zero E t) (store X E (d + 1) t) [] es l).
  Proof.
    intros Hk H. inversion H; subst; kinds; replace t0 with t in * by congruence.
    - auto.
    - right. left. exists n, s. auto.
    - left. auto.
    - right. right. left. auto.
    - right. right. right. exists n, es, l. auto 10.
  Qed.
  Lemma store_array_inv d T k t p v w : plain E T (KArray k t) -> store X E d T p v w ->
    d < limit /\ ((p = LNull /\ w = v) \/
    (p = LArr (bs "0") [] /\ w = VArr (repeat (zero E t) k)) \/
    (exists n es l, p = LArr n es /\ numeral n /\ hd_error n <> Some "0"%byte /\ num n <= max_int64 /\
       es <> [] /\ w = VArr l /\
       array_entries (d + 1) (store X E (d + 1) t) (repeat (zero E t) k) es l)).
  Proof.
    intros Hk H. inversion H; subst; kinds.
    - auto.
    - replace t0 with t by congruence. replace n with k by congruence. auto.
    - replace t0 with t in * by congruence. replace k0 with k in * by congruence.
      split; [assumption|]. right. right. exists n, es, l. auto 10.
  Qed.
  Lemma store_any_inv d T p v w : plain E T KAny -> store X E d T p v w -> any_val X d p w.
  Proof. intros Hk H. inversion H; subst; kinds. Qed.
End Inv.

(** Destinations that always compile *)
Lemma supported_leaf X E T k : plain E T k -> simple_kind k = true -> supported X E T.
Proof. intros Hk Hs. apply (compile_supported X E 1). eapply compile_scalar; eauto. Qed.
Lemma compile_bytes X E T t : plain E T (KSlice t) -> is_byte E t = true -> compile_f X E 1 [] T = ROk tt.
Proof.
  intros [Hu Hk] Hb. cbn [compile_f]. rewrite Hu, Hk. unfold is_byte in Hb.
  destruct (kind_of E t) as [| |[]| | | | | | | | | | |]; try discriminate. reflexivity.
Qed.

(** ** C11: strings *)
Lemma text_str_inv p n b s : numeral n -> wf p -> text (LStr n b) = text p ++ s ->
  exists b', p = LStr n b' /\ num n = blen b' /\ text (LStr n b) = text (LStr n b') ++ s.
Proof.
  intros Hn Hw H. rewrite <- (app_nil_r (text (LStr n b))) in H. pose proof (letter_inj _ _ _ _ H) as L.
  destruct p; try discriminate L. pose proof H as H0. rewrite !text_str in H. injection H as H. inversion Hw as [| | | |n' s' Hn' Hl| |]; subst.
  destruct (numeral_inj _ _ _ _ Hn Hn' H) as [-> _]. exists s0. rewrite app_nil_r in H0. auto.
Qed.
Lemma str_text_inj n b b' : text (LStr n b) = text (LStr n b') -> b = b'.
Proof.
  intros H. rewrite <- (app_nil_r (text (LStr n b))), <- (app_nil_r (text (LStr n b'))), !text_str in H.
  injection H as H. apply app_inv_head in H. injection H as H.
  change (""""%byte :: ";"%byte :: []) with ([""""%byte; ";"%byte] ++ []) in H. apply app_inv_tail in H. exact H.
Qed.

Lemma string_exact X E T v w n b : small (text (LStr n b)) -> numeral n -> plain E T KString ->
  (Decodes X E (text (LStr n b)) T v w <-> num n = blen b /\ w = VStr b) /\
  (num n <> blen b -> exists w', Fails X E (text (LStr n b)) T v w').
Proof.
  intros Hsm Hn Hk. assert (forall w, Decodes X E (text (LStr n b)) T v w <-> num n = blen b /\ w = VStr b) as A.
  { clear w. intros w. split.
    - intros H. apply decodes_inv in H as (_ & p & Ht & Hst); [|exact Hsm].
      rewrite <- (app_nil_r (text p)) in Ht.
      destruct (text_str_inv p n b [] Hn (store_wf _ _ _ _ _ _ _ Hst) Ht) as (b' & -> & Hl & Hb). rewrite app_nil_r in Hb.
      apply str_text_inj in Hb as <-. split; [exact Hl|]. inversion Hst; subst; kinds.
    - intros [Hl ->]. exists 1%nat. apply unmarshal_ok; [exact Hsm|eapply compile_scalar; eauto|]. apply sto_string; [exact Hk|]. split; auto. }
  split; [apply A|]. intros Hne.
  assert (snd (unmarshal X E 1 (text (LStr n b)) (TgPtr T v)) <> RFuel) as HF.
  { apply unmarshal_returns_accepted; [exact Hsm|]. eapply compile_scalar; eauto. }
  pose proof (fun p => scalar_nopanic X E 1 (text (LStr n b)) T KString v p Hsm Hk eq_refl) as HP.
  destruct (unmarshal X E 1 (text (LStr n b)) (TgPtr T v)) as [w' [[]|e|p|]] eqn:Eu; cbn [snd] in *; try congruence.
  - exfalso. assert (Decodes X E (text (LStr n b)) T v w') as D by (exists 1%nat; exact Eu). apply A in D as [D _]. contradiction.
  - exists w', 1%nat, e. exact Eu.
Qed.
Lemma bytes_exact X E T t v w n b : small (text (LStr n b)) -> numeral n -> plain E T (KSlice t) -> is_byte E t = true ->
  (Decodes X E (text (LStr n b)) T v w <-> num n = blen b /\ w = vbytes b).
Proof.
  intros Hsm Hn Hk Hb. split.
  - intros H. apply decodes_inv in H as (_ & p & Ht & Hst); [|exact Hsm].
    rewrite <- (app_nil_r (text p)) in Ht.
    destruct (text_str_inv p n b [] Hn (store_wf _ _ _ _ _ _ _ Hst) Ht) as (b' & -> & Hl & Hb'). rewrite app_nil_r in Hb'.
    apply str_text_inj in Hb' as <-. split; [exact Hl|]. inversion Hst; subst; kinds.
  - intros [Hl ->]. exists 1%nat. apply unmarshal_ok; [exact Hsm|eapply compile_bytes; eauto|]. eapply sto_bytes; eauto. split; auto.
Qed.

(** ** C23, C12: Unmarshalers *)
Lemma unm_compile X E T n : has_unmarshal E T = Some n -> compile_f X E 1 [] T = ROk tt.
Proof. intros H. cbn [compile_f]. rewrite H. reflexivity. Qed.
Lemma unmarshaler_iff X E T n data v w : small data -> has_unmarshal E T = Some n ->
  Decodes X E data T v w <->
  (data = bs "N;" /\ w = zero E T) \/
  (exists p, p <> LNull /\ strict 0 p /\ data = text p /\ x_unmarshal X n data (zero E T) = (w, true)).
Proof.
  intros Hsm Hu. split.
  - intros H. apply decodes_inv in H as (_ & p & -> & Hst); [|exact Hsm].
    inversion Hst; subst; kinds.
    + left. auto.
    + right. exists p. replace n with n0 by congruence. auto.
  - intros [[-> ->]|(p & Hp & Hs & -> & Hx)]; exists 1%nat.
    + apply (unmarshal_ok X E 1 T LNull); [exact Hsm|eapply unm_compile; eauto|]. eapply sto_unm_null; eauto.
    + apply unmarshal_ok; [exact Hsm|eapply unm_compile; eauto|]. eapply sto_unm; eauto.
Qed.
(** the user's error is Unmarshal's error, the destination is untouched *)
Lemma unmarshaler_error X E T n p v w : small (text p) -> has_unmarshal E T = Some n -> p <> LNull -> strict 0 p ->
  x_unmarshal X n (text p) (zero E T) = (w, false) ->
  unmarshal X E 1 (text p) (TgPtr T v) = (v, RErr EUser).
Proof.
  intros Hsm Hu Hnn Hp Hx. unfold unmarshal. pose proof (text_ne p) as Hne.
  destruct (text p) as [|b0 r0] eqn:Et0; [congruence|]. rewrite <- Et0 in *. clear b0 r0 Et0 Hne.
  rewrite (unm_compile X E T n Hu). unfold decode, decode_fuel.
  replace (2 * length (text p) + 2)%nat with (S (2 * length (text p) + 1)) by lia. cbn [decode_f].
  assert (node_of E T = NUnm n) as -> by (unfold node_of; rewrite Hu; reflexivity).
  pose proof (has_unmarshal_name _ _ _ Hu) as ->. unfold dec_unm.
  destruct (span_ok (text p) 0 0 p [] Hsm Hp) as (c' & -> & H'); [rewrite app_nil_r; apply pos_start|]. cbn zeta.
  rewrite text_unquoted, Hx. destruct (text p) as [|b r] eqn:Et; [destruct (text_letter p) as [r Er]; congruence|].
  rewrite (text_first _ _ _ Et). rewrite <- Et.
  replace (bytes_eqb (text p) (bs "N;")) with false.
  - rewrite andb_false_r. reflexivity.
  - symmetry. apply bytes_eqb_neq. rewrite text_null_iff. exact Hnn.
Qed.

(** ** What the entry relations say of each entry, and monotonicity *)
Section Entries.
  Lemma slice_entries_forall slots zv (V : lval -> gval -> gval -> Prop) l es l' : slice_entries slots zv V l es l' ->
    Forall (fun e => (exists t i, fst e = LInt t /\ index_text t i) /\ exists old v, V (snd e) old v) es.
  Proof. induction 1; constructor; auto; cbn [fst snd]; split; eauto 6. Qed.
  Lemma array_entries_forall d (V : lval -> gval -> gval -> Prop) l es l' : array_entries d V l es l' ->
    Forall (fun e => (exists t z, fst e = LInt t /\ int_text t z) /\ ((exists old v, V (snd e) old v) \/ strict d (snd e))) es.
  Proof. induction 1; constructor; auto; cbn [fst snd]; split; eauto 6. destruct H; eauto 6. Qed.
  Lemma map_entries_forall (K V : lval -> gval -> Prop) m es m' : map_entries K V m es m' ->
    Forall (fun e => (exists k, K (fst e) k) /\ exists v, V (snd e) v) es.
  Proof. induction 1; constructor; auto; cbn [fst snd]; eauto. Qed.
  Lemma struct_entries_forall X E d fs (V : gty -> lval -> gval -> gval -> Prop) l es l' : struct_entries X E d fs V l es l' ->
    Forall (fun e => (exists k, key_text (fst e) k) /\
      ((exists T old v, V T (snd e) old v) \/ (exists T old v, store_quoted X E T (snd e) old v) \/ strict d (snd e))) es.
  Proof. induction 1; constructor; auto; cbn [fst snd]; split; eauto; right; left; eauto. Qed.

  Lemma slice_entries_mono slots zv (V V' : lval -> gval -> gval -> Prop) l es l' :
    (forall e old v, In e es -> V (snd e) old v -> V' (snd e) old v) ->
    slice_entries slots zv V l es l' -> slice_entries slots zv V' l es l'.
  Proof.
    intros HV H. revert HV.
    induction H as [l|l t i p es old v l' Hi Hn Hv H IH|l t i p es v l' Hi Hl Hm Hs Hv H IH]; intros HV.
    - apply se_nil.
    - eapply se_in; [exact Hi|exact Hn|exact (HV (LInt t, p) _ _ (or_introl eq_refl) Hv)|].
      apply IH. intros e old' v' He. apply HV. right. exact He.
    - eapply se_grow; [exact Hi|exact Hl|exact Hm|exact Hs|exact (HV (LInt t, p) _ _ (or_introl eq_refl) Hv)|].
      apply IH. intros e old' v' He. apply HV. right. exact He.
  Qed.
  Lemma array_entries_mono d d' (V V' : lval -> gval -> gval -> Prop) l es l' :
    (forall e old v, In e es -> V (snd e) old v -> V' (snd e) old v) ->
    (forall e, In e es -> strict d (snd e) -> strict d' (snd e)) ->
    array_entries d V l es l' -> array_entries d' V' l es l'.
  Proof.
    intros HV HS H. revert HV HS.
    induction H as [l|l t i p es old v l' Hi Hn Hv H IH|l t z p es l' Hi Hl Hs H IH]; intros HV HS.
    - apply ae_nil.
    - eapply ae_in; [exact Hi|exact Hn|exact (HV (LInt t, p) _ _ (or_introl eq_refl) Hv)|].
      apply IH; intros; [apply HV|apply HS]; auto; right; auto.
    - eapply ae_out; [exact Hi|exact Hl|exact (HS (LInt t, p) (or_introl eq_refl) Hs)|].
      apply IH; intros; [apply HV|apply HS]; auto; right; auto.
  Qed.
  Lemma map_entries_mono (K K' V V' : lval -> gval -> Prop) m es m' :
    (forall e v, In e es -> K (fst e) v -> K' (fst e) v) ->
    (forall e v, In e es -> V (snd e) v -> V' (snd e) v) ->
    map_entries K V m es m' -> map_entries K' V' m es m'.
  Proof.
    intros HK HV H. revert HK HV. induction H as [m|m k p es kv vv m' Hk Hv Hh H IH]; intros HK HV; [apply me_nil|].
    eapply me_cons; [exact (HK (k, p) _ (or_introl eq_refl) Hk)|exact (HV (k, p) _ (or_introl eq_refl) Hv)|exact Hh|].
    apply IH; intros; [apply HK|apply HV]; auto; right; auto.
  Qed.
  Lemma struct_entries_mono X E d d' fs (V V' : gty -> lval -> gval -> gval -> Prop) l es l' :
    (forall e T old v, In e es -> V T (snd e) old v -> V' T (snd e) old v) ->
    (forall e, In e es -> strict d (snd e) -> strict d' (snd e)) ->
    struct_entries X E d fs V l es l' -> struct_entries X E d' fs V' l es l'.
  Proof.
    intros HV HS H. revert HV HS.
    induction H as [l|l kp k i f p es old v l' Hk Hf Hn Hq Hv H IH|l kp k i f p es old v l' Hk Hf Hn Hq Hv H IH|l kp k p es l' Hk Hf Hs H IH]; intros HV HS.
    - apply ste_nil.
    - eapply ste_known; [exact Hk|exact Hf|exact Hn|exact Hq|exact (HV (kp, p) _ _ _ (or_introl eq_refl) Hv)|].
      apply IH; intros; [apply HV|apply HS]; auto; right; auto.
    - eapply ste_quoted; [exact Hk|exact Hf|exact Hn|exact Hq|exact Hv|].
      apply IH; intros; [apply HV|apply HS]; auto; right; auto.
    - eapply ste_unknown; [exact Hk|exact Hf|exact (HS (kp, p) (or_introl eq_refl) Hs)|].
      apply IH; intros; [apply HV|apply HS]; auto; right; auto.
  Qed.

  Lemma in_body (e : lval * lval) es : In e es ->
    (length (text (fst e)) + length (text (snd e)) <= length (body es))%nat.
  Proof. induction es as [|[k v] es IH]; intros H; [destruct H|]. rewrite body_len. destruct H as [<-|H]; cbn; [lia|]. specialize (IH H). lia. Qed.
End Entries.

(** ** C13: nesting *)
Definition nest_body (es : list (lval * lval)) : Z :=
  fold_right (fun e m => Z.max (Z.max (nesting (fst e)) (nesting (snd e))) m) 0 es.
Lemma nesting_arr n es : nesting (LArr n es) = 1 + nest_body es. Proof. reflexivity. Qed.
Lemma nesting_obj cn cls n es : nesting (LObj cn cls n es) = 1 + nest_body es. Proof. reflexivity. Qed.
Lemma nesting_body p n es : body_of p n es -> nesting p = 1 + nest_body es.
Proof. intros H. inversion H; subst; reflexivity. Qed.
Lemma nest_body_nonneg es : 0 <= nest_body es.
Proof. induction es as [|e es IH]; cbn; [lia|]. fold (nest_body es). lia. Qed.
Lemma nesting_nonneg p : 0 <= nesting p.
Proof.
  destruct p; [cbn; lia|cbn; lia|cbn; lia|cbn; lia|cbn; lia| |].
  - rewrite nesting_arr. pose proof (nest_body_nonneg es). lia.
  - rewrite nesting_obj. pose proof (nest_body_nonneg es). lia.
Qed.
Lemma nest_body_in e es : In e es -> nesting (fst e) <= nest_body es /\ nesting (snd e) <= nest_body es.
Proof.
  induction es as [|e' es IH]; intros H; [destruct H|]. cbn [nest_body fold_right]. fold (nest_body es).
  destruct H as [->|H]; [lia|]. destruct (IH H). lia.
Qed.

Definition nest_le (d : Z) (p : lval) : Prop := nesting p = 0 \/ d + nesting p <= limit.
Lemma nest_body_le d es : d < limit -> Forall (fun e => nest_le (d + 1) (fst e) /\ nest_le (d + 1) (snd e)) es ->
  d + (1 + nest_body es) <= limit.
Proof.
  intros Hd H. induction H as [|e es [Hk Hv] H IH]; cbn [nest_body fold_right]; [lia|]. fold (nest_body es).
  unfold nest_le in *. pose proof (nesting_nonneg (fst e)). pose proof (nesting_nonneg (snd e)). lia.
Qed.

Lemma strict_nest_f : forall n d p, (length (text p) <= n)%nat -> strict d p -> nest_le d p.
Proof.
  induction n as [|n IH]; intros d p HL Hp; [pose proof (text_pos p); lia|].
  assert (forall es, d < 10000 -> (length (body es) <= n)%nat ->
    Forall (fun e => strict (d + 1) (fst e) /\ strict (d + 1) (snd e)) es -> d + (1 + nest_body es) <= limit) as B.
  { intros es Hd HB HF. apply nest_body_le; [exact Hd|]. apply Forall_forall. intros e He.
    rewrite Forall_forall in HF. destruct (HF e He). pose proof (in_body e es He). split; apply IH; auto; lia. }
  inversion Hp; subst; try (left; reflexivity); right.
  - rewrite nesting_arr. apply B; auto. pose proof (arr_len n0 es). lia.
  - rewrite nesting_obj. apply B; auto. pose proof (obj_len cn cls n0 es). lia.
Qed.
Lemma strict_nest d p : strict d p -> nest_le d p.
Proof. apply (strict_nest_f _ d p (le_n _)). Qed.
Lemma strict_shift_f : forall n d d' p, (length (text p) <= n)%nat -> strict d p -> d' + nesting p <= limit -> strict d' p.
Proof.
  induction n as [|n IH]; intros d d' p HL Hp Hd; [pose proof (text_pos p); lia|].
  assert (forall es, d' + (1 + nest_body es) <= limit -> (length (body es) <= n)%nat ->
    Forall (fun e => strict (d + 1) (fst e) /\ strict (d + 1) (snd e)) es ->
    Forall (fun e => strict (d' + 1) (fst e) /\ strict (d' + 1) (snd e)) es) as B.
  { intros es Hd' HB HF. apply Forall_forall. intros e He. rewrite Forall_forall in HF. destruct (HF e He).
    pose proof (in_body e es He). destruct (nest_body_in e es He). split; eapply IH; eauto; lia. }
  inversion Hp; subst; try (econstructor; eauto; fail).
  - rewrite nesting_arr in Hd. pose proof (nest_body_nonneg es). apply st_arr; auto; [unfold limit in Hd; lia|]. apply B; auto. pose proof (arr_len n0 es). lia.
  - rewrite nesting_obj in Hd. pose proof (nest_body_nonneg es). apply st_obj; auto; [unfold limit in Hd; lia|]. apply B; auto. pose proof (obj_len cn cls n0 es). lia.
Qed.
Lemma strict_shift d d' p : strict d p -> d' + nesting p <= limit -> strict d' p.
Proof. apply (strict_shift_f _ d d' p (le_n _)). Qed.

Lemma any_nest_f X : forall n d p w, (length (text p) <= n)%nat -> any_val X d p w -> nest_le d p.
Proof.
  induction n as [|n IH]; intros d p w HL Hp; [pose proof (text_pos p); lia|].
  assert (forall (K : lval -> gval -> Prop) m es m', (forall k w, K k w -> nesting k = 0) -> d < limit -> (length (body es) <= n)%nat ->
    map_entries K (any_val X (d + 1)) m es m' -> d + (1 + nest_body es) <= limit) as B.
  { intros K m es m' HK Hd HB H. apply nest_body_le; [exact Hd|]. apply map_entries_forall in H. rewrite Forall_forall in *. intros e He.
    destruct (H e He) as [[k Hk] [v Hv]]. pose proof (in_body e es He). split; [left; eauto|eapply IH; eauto; lia]. }
  inversion Hp; subst; try (left; reflexivity); right.
  - rewrite nesting_arr. eapply (B any_key); eauto; [intros k w Hk; inversion Hk; reflexivity|]. pose proof (arr_len n0 es). lia.
  - rewrite nesting_obj. eapply (B obj_key); eauto; [intros k w Hk; inversion Hk; reflexivity|]. pose proof (obj_len cn cls n0 es). lia.
Qed.
Lemma any_nest X d p w : any_val X d p w -> nest_le d p.
Proof. apply (any_nest_f X _ d p w (le_n _)). Qed.
Lemma any_shift_f X : forall n d d' p w, (length (text p) <= n)%nat -> any_val X d p w -> d' + nesting p <= limit -> any_val X d' p w.
Proof.
  induction n as [|n IH]; intros d d' p w HL Hp Hd; [pose proof (text_pos p); lia|].
  assert (forall (K : lval -> gval -> Prop) m es m', d' + (1 + nest_body es) <= limit -> (length (body es) <= n)%nat ->
    map_entries K (any_val X (d + 1)) m es m' -> map_entries K (any_val X (d' + 1)) m es m') as B.
  { intros K m es m' Hd' HB H. eapply map_entries_mono; [| |exact H]; auto. intros e v He Hv. pose proof (in_body e es He).
    destruct (nest_body_in e es He). eapply IH; eauto; lia. }
  inversion Hp; subst; try (econstructor; eauto; fail).
  - rewrite nesting_arr in Hd. pose proof (nest_body_nonneg es). apply av_arr; auto; [lia|]. apply B; auto. pose proof (arr_len n0 es). lia.
  - rewrite nesting_obj in Hd. pose proof (nest_body_nonneg es). apply av_obj; auto; [lia|]. apply B; auto. pose proof (obj_len cn cls n0 es). lia.
Qed.
Lemma any_shift X d d' p w : any_val X d p w -> d' + nesting p <= limit -> any_val X d' p w.
Proof. apply (any_shift_f X _ d d' p w (le_n _)). Qed.

Section StoreNest.
  Context (X : Ext) (E : env).

  Lemma key_text_nest k b : key_text k b -> nesting k = 0.
  Proof. intros H. inversion H; reflexivity. Qed.
  Lemma quoted_nest T p v w : store_quoted X E T p v w -> nesting p = 0.
  Proof. intros H. inversion H; reflexivity. Qed.

  (** the container cases, from a bound on what is inside *)
  Lemma store_nest_f : forall n,
    (forall d T p v w, (length (text p) <= n)%nat -> store X E d T p v w -> nest_le d p) /\
    (forall d T p w, (length (text p) <= n)%nat -> store_key X E d T p w -> nest_le d p).
  Proof.
    induction n as [|n [IHs IHk]]; [split; intros; pose proof (text_pos p); lia|].
    assert (forall d T p v w, (length (text p) <= S n)%nat -> is_ptr E T = false -> store X E d T p v w -> nest_le d p) as G.
    { intros d T p v w HL Hnp H.
      inversion H; subst; try (left; reflexivity); try (apply strict_nest; assumption); try (eapply any_nest; eassumption).
      - right. reflexivity || (rewrite nesting_arr; cbn [nest_body fold_right]; lia).
      - right. rewrite nesting_arr. pose proof (arr_len n0 es). apply nest_body_le; [assumption|].
        match goal with HS : slice_entries _ _ _ _ _ _ |- _ => apply slice_entries_forall in HS; rewrite Forall_forall in * end.
        intros e He. match goal with HS : forall x, In x es -> _ |- _ => destruct (HS e He) as [(t1 & i1 & -> & _) (old & v1 & Hv)] end.
        pose proof (in_body e es He). split; [left; reflexivity|]. eapply IHs; eauto. lia.
      - right. reflexivity || (rewrite nesting_arr; cbn [nest_body fold_right]; lia).
      - right. rewrite nesting_arr. pose proof (arr_len n0 es). apply nest_body_le; [assumption|].
        match goal with HS : array_entries _ _ _ _ _ |- _ => apply array_entries_forall in HS; rewrite Forall_forall in * end.
        intros e He. match goal with HS : forall x, In x es -> _ |- _ => destruct (HS e He) as [(t1 & i1 & -> & _) [(old & v1 & Hv)|Hv]] end;
        pose proof (in_body e es He); (split; [left; reflexivity|]); [eapply IHs; eauto; lia|apply strict_nest; exact Hv].
      - right. match goal with HB : body_of _ _ _ |- _ => rewrite (nesting_body _ _ _ HB); apply body_of_len in HB end.
        apply nest_body_le; [assumption|].
        match goal with HS : map_entries _ _ _ _ _ |- _ => apply map_entries_forall in HS; rewrite Forall_forall in * end.
        intros e He. match goal with HS : forall x, In x es -> _ |- _ => destruct (HS e He) as [(k1 & Hk) (v1 & Hv)] end.
        pose proof (in_body e es He). split; [eapply IHk; eauto; lia|eapply IHs; eauto; lia].
      - right. match goal with HB : body_of _ _ _ |- _ => rewrite (nesting_body _ _ _ HB); apply body_of_len in HB end.
        apply nest_body_le; [assumption|].
        match goal with HS : struct_entries _ _ _ _ _ _ _ _ |- _ => apply struct_entries_forall in HS; rewrite Forall_forall in * end.
        intros e He. match goal with HS : forall x, In x es -> _ |- _ => destruct (HS e He) as [(k1 & Hk) [(T1 & old & v1 & Hv)|[(T1 & old & v1 & Hv)|Hv]]] end;
          pose proof (in_body e es He); (split; [left; eapply key_text_nest; eauto|]).
        + eapply IHs; eauto. lia.
        + left. eapply quoted_nest; eauto.
        + apply strict_nest. exact Hv.
      - unfold is_ptr in Hnp. kinds. match goal with HH : kind_of E T = KPtr _ |- _ => rewrite HH in Hnp end. discriminate. }
    assert (forall d T p v w, (length (text p) <= S n)%nat -> store X E d T p v w -> nest_le d p) as G'.
    { intros d T p v w HL H. destruct (is_ptr E T) eqn:Ep; [|eapply G; eauto].
      unfold is_ptr in Ep.
      inversion H; subst; try (apply strict_nest; assumption); try (left; reflexivity);
        try (match goal with HH : plain _ _ _ |- _ => destruct HH as [_ Hk]; rewrite Hk in Ep; discriminate end).
      eapply G; eauto. }
    split; [exact G'|].
    intros d T p w HL H. inversion H; subst; [eapply G'; eauto|left; reflexivity].
  Qed.
  Lemma store_nest d T p v w : store X E d T p v w -> nest_le d p.
  Proof. apply (proj1 (store_nest_f _) d T p v w (le_n _)). Qed.

  (** storing at another depth: the room needed is the nesting, plus one (a null
      at the limit is refused) *)
  Lemma store_shift_f : forall n,
    (forall d d' T p v w, (length (text p) <= n)%nat -> d' + nesting p < limit -> store X E d T p v w -> store X E d' T p v w) /\
    (forall d d' T p w, (length (text p) <= n)%nat -> d' + nesting p < limit -> store_key X E d T p w -> store_key X E d' T p w).
  Proof.
    induction n as [|n [IHs IHk]]; [split; intros; pose proof (text_pos p); lia|].
    assert (forall d d' T p v w, (length (text p) <= S n)%nat -> d' + nesting p < limit -> is_ptr E T = false -> store X E d T p v w -> store X E d' T p v w) as G.
    { intros d d' T p v w HL Hd Hnp H. pose proof (nesting_nonneg p) as Hp0. assert (d' < limit) as Hd' by lia.
      inversion H; subst.
      - eapply sto_unm_null; eauto.
      - eapply sto_unm; eauto. eapply strict_shift; eauto. lia.
      - eapply sto_scalar_null; eauto.
      - eapply sto_bool; eauto.
      - eapply sto_int; eauto.
      - eapply sto_uint; eauto.
      - eapply sto_f64; eauto.
      - eapply sto_f32; eauto.
      - eapply sto_string; eauto.
      - eapply sto_any; eauto. eapply any_shift; eauto. lia.
      - eapply sto_iface_unm_null; eauto.
      - eapply sto_iface_unm; eauto. eapply strict_shift; eauto. lia.
      - eapply sto_iface_null; eauto.
      - eapply sto_bytes_null; eauto.
      - eapply sto_bytes; eauto.
      - eapply sto_slice_null; eauto.
      - eapply sto_slice_empty; eauto.
      - eapply sto_slice; eauto. rewrite nesting_arr in Hd. pose proof (arr_len n0 es).
        eapply slice_entries_mono; [|eassumption]. intros e old v1 He Hv. pose proof (in_body e es He). destruct (nest_body_in e es He). eapply IHs; eauto; lia.
      - eapply sto_array_null; eauto.
      - eapply sto_array_empty; eauto.
      - eapply sto_array; eauto. rewrite nesting_arr in Hd. pose proof (arr_len n0 es).
        eapply array_entries_mono; [| |eassumption].
        + intros e old v1 He Hv. pose proof (in_body e es He). destruct (nest_body_in e es He). eapply IHs; eauto; lia.
        + intros e He Hv. destruct (nest_body_in e es He). eapply strict_shift; eauto; lia.
      - eapply sto_map_null; eauto.
      - eapply sto_map; eauto. match goal with HB : body_of _ _ _ |- _ => rewrite (nesting_body _ _ _ HB) in Hd; apply body_of_len in HB end.
        eapply map_entries_mono; [| |eassumption].
        + intros e v1 He Hv. pose proof (in_body e es He). destruct (nest_body_in e es He). eapply IHk; eauto; lia.
        + intros e v1 He Hv. pose proof (in_body e es He). destruct (nest_body_in e es He). cbn beta in *. eapply IHs; [| |exact Hv]; lia.
      - eapply sto_struct_null; eauto.
      - eapply sto_struct; eauto. match goal with HB : body_of _ _ _ |- _ => rewrite (nesting_body _ _ _ HB) in Hd; apply body_of_len in HB end.
        eapply struct_entries_mono; [| |eassumption].
        + intros e T1 old v1 He Hv. pose proof (in_body e es He). destruct (nest_body_in e es He). eapply IHs; eauto; lia.
        + intros e He Hv. destruct (nest_body_in e es He). eapply strict_shift; eauto; lia.
      - eapply sto_ptr_null; eauto.
      - unfold is_ptr in Hnp. kinds. match goal with HH : kind_of E T = KPtr _ |- _ => rewrite HH in Hnp end. discriminate. }
    assert (forall d d' T p v w, (length (text p) <= S n)%nat -> d' + nesting p < limit -> store X E d T p v w -> store X E d' T p v w) as G'.
    { intros d d' T p v w HL Hd H. destruct (is_ptr E T) eqn:Ep; [|eapply G; eauto].
      unfold is_ptr in Ep.
      inversion H; subst;
        try (match goal with HH : plain _ _ _ |- _ => destruct HH as [_ Hk]; rewrite Hk in Ep; discriminate end).
      - eapply sto_unm_null; eauto.
      - eapply sto_unm; eauto. eapply strict_shift; eauto. lia.
      - match goal with HH : plain _ _ _ |- _ => destruct HH as [_ Hk]; rewrite Hk in Ep end. destruct k; discriminate.
      - eapply sto_ptr_null; eauto.
      - eapply sto_ptr; eauto. }
    split; [exact G'|].
    intros d d' T p w HL Hd H. inversion H; subst; [eapply sk_plain; eauto|eapply sk_ptr_null; eauto].
  Qed.
  Lemma store_shift d d' T p v w : d' + nesting p < limit -> store X E d T p v w -> store X E d' T p v w.
  Proof. apply (proj1 (store_shift_f _) d d' T p v w (le_n _)). Qed.
End StoreNest.
