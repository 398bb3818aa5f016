(** A type error at a place says where the place is. *)
From Coq Require Import Strings.String Strings.Byte ZArith List Bool Lia Floats.SpecFloat.
From Verif Require Import Base GoTypes Strconv Tags Scan Decode Unmarshal Grammar Denote Typing Api NumFacts ScanFacts SkipFacts Sound SoundT
  TextFacts Complete CompileFacts UnmFacts Context LocalFacts ShiftFacts SliceHead ContextFacts Names NameDecode NameFacts.
Import ListNotations.
Open Scope Z_scope.

Lemma done_like {A} buf (d d' : A * R Z) w s : done buf d w s -> like2 d d' -> done buf d' w s.
Proof.
  intros (c & -> & H) [H1 H2]. destruct d' as [a []]; cbn [fst snd like] in *; try contradiction. subst. eexists. split; [reflexivity|exact H].
Qed.
Lemma like_ok {A} (r r' : R A) a : r = ROk a -> like r r' -> r' = ROk a.
Proof. intros ->. destruct r'; cbn; try intros []; reflexivity. Qed.

(** ** Entries that are read *)
Lemma struct_loop_pre X E nm fs buf d fd (V : gty -> lval -> gval -> gval -> Prop) l es l' rest ch M : small buf ->
  struct_entries X E d fs V l es l' ->
  (length (body es) <= M)%nat ->
  (forall k i f p old w c s, string_tagged X E f = false -> V (f_ty f) p old w ->
     (length (text p) <= M)%nat -> pos buf c (text p ++ s) ->
     done buf (fd (FDec k i (f_ty f) false) c old) w s) ->
  (forall k i f p old w c s, string_tagged X E f = true -> store_quoted X E (f_ty f) p old w ->
     pos buf c (text p ++ s) -> done buf (fd (FDec k i (f_ty f) true) c old) w s) ->
  (exists b r, rest = b :: r /\ (b =b "}"%byte) = false) -> pos buf ch rest ->
  forall n c, pos buf c (body es ++ rest) -> (length (body es) < n)%nat ->
  exists n', (0 < n')%nat /\
    struct_loop_n nm (field_decs X E 0 fs) fd buf d n c l = struct_loop_n nm (field_decs X E 0 fs) fd buf d n' ch l'.
Proof.
  intros Hsm H HM He Hq Hrest Hh.
  assert (forall es, exists b r, body es ++ rest = b :: r /\ (b =b "}"%byte) = false) as EH.
  { intros [|[k0 v0] es0]; [exact Hrest|]. rewrite body_cons. destruct (text_letter k0) as [r0 ->]. cbn [app].
    eexists _, _. split; [reflexivity|]. destruct k0; reflexivity. }
  induction H as [l|l kp1 k1 i1 f1 p es old1 v l' Hk1 Hl1 Hnth Hst HV Hse IH|l kp1 k1 i1 f1 p es old1 v l' Hk1 Hl1 Hnth Hst HV Hse IH
                 |l kp1 k1 p es l' Hk1 Hl1 HV Hse IH]; intros n c Hp Hn.
  - cbn [body flat_map app] in Hp. rewrite (pos_same _ _ _ _ Hp Hh). exists n. split; [cbn in Hn; lia|reflexivity].
  - rewrite body_len in *; pose proof (text_pos kp1) as Tk; pose proof (text_pos p) as Tp.
    destruct n as [|n]; [lia|]. rewrite body_cons in Hp. 
    destruct (key_text_ok _ _ _ _ _ Hsm Hk1 Hp) as (o & c1 & Qs & Qk & H1).
    pose proof (He k1 i1 f1 p old1 v c1 _ Hst HV ltac:(lia) H1) as (c2 & Qd & H2).
    destruct (EH es) as (b & s & Er & Eb). assert (H3 := H2). rewrite Er in H3.
    destruct (IH ltac:(lia) n c2 H2 ltac:(lia)) as (n' & Hn' & Q). exists n'. split; [exact Hn'|]. rewrite <- Q. clear Q IH.
    cbn [struct_loop_n]. rewrite (pos_has_text _ _ _ _ Hp). cbn [negb].
    rewrite (like_ok _ _ _ Qs (like_string_bytes nm buf c)), (pos_has_text _ _ _ _ H1). cbn [negb].
    rewrite Qk, find_field_lookup. fold (lookup X fs k1). rewrite Hl1. cbn [fd_idx]. rewrite Hnth, Hst, Qd. rdn H3. rewrite Eb. reflexivity.
  - rewrite body_len in *; pose proof (text_pos kp1) as Tk; pose proof (text_pos p) as Tp.
    destruct n as [|n]; [lia|]. rewrite body_cons in Hp. 
    destruct (key_text_ok _ _ _ _ _ Hsm Hk1 Hp) as (o & c1 & Qs & Qk & H1).
    pose proof (Hq k1 i1 f1 p old1 v c1 _ Hst HV H1) as (c2 & Qd & H2).
    destruct (EH es) as (b & s & Er & Eb). assert (H3 := H2). rewrite Er in H3.
    destruct (IH ltac:(lia) n c2 H2 ltac:(lia)) as (n' & Hn' & Q). exists n'. split; [exact Hn'|]. rewrite <- Q. clear Q IH.
    cbn [struct_loop_n]. rewrite (pos_has_text _ _ _ _ Hp). cbn [negb].
    rewrite (like_ok _ _ _ Qs (like_string_bytes nm buf c)), (pos_has_text _ _ _ _ H1). cbn [negb].
    rewrite Qk, find_field_lookup. fold (lookup X fs k1). rewrite Hl1. cbn [fd_idx]. rewrite Hnth, Hst, Qd. rdn H3. rewrite Eb. reflexivity.
  - rewrite body_len in *; pose proof (text_pos kp1) as Tk; pose proof (text_pos p) as Tp.
    destruct n as [|n]; [lia|]. rewrite body_cons in Hp. 
    destruct (key_text_ok _ _ _ _ _ Hsm Hk1 Hp) as (o & c1 & Qs & Qk & H1).
    destruct (skip_value_ok buf c1 d p _ Hsm HV H1) as (c2 & Qd & H2).
    destruct (EH es) as (b & s & Er & Eb). assert (H3 := H2). rewrite Er in H3.
    destruct (IH ltac:(lia) n c2 H2 ltac:(lia)) as (n' & Hn' & Q). exists n'. split; [exact Hn'|]. rewrite <- Q. clear Q IH.
    cbn [struct_loop_n]. rewrite (pos_has_text _ _ _ _ Hp). cbn [negb].
    rewrite (like_ok _ _ _ Qs (like_string_bytes nm buf c)), (pos_has_text _ _ _ _ H1). cbn [negb].
    rewrite Qk, find_field_lookup. fold (lookup X fs k1). rewrite Hl1. rewrite Qd. rdn H3. rewrite Eb. reflexivity.
Qed.
(** a struct, up to an entry *)
Lemma struct_pre X E nm fs buf fd (V : gty -> lval -> gval -> gval -> Prop) c d p n es l l' rest : small buf ->
  body_of p n es -> numeral n -> d < limit -> pos buf c (opening p ++ body es ++ rest) ->
  struct_entries X E (d + 1) fs V l es l' ->
  (forall k i f p old w c s, string_tagged X E f = false -> V (f_ty f) p old w ->
     (length (text p) <= length (body es))%nat -> pos buf c (text p ++ s) ->
     done buf (fd (FDec k i (f_ty f) false) c old) w s) ->
  (forall k i f p old w c s, string_tagged X E f = true -> store_quoted X E (f_ty f) p old w ->
     pos buf c (text p ++ s) -> done buf (fd (FDec k i (f_ty f) true) c old) w s) ->
  (exists b r, rest = b :: r /\ (b =b "}"%byte) = false) ->
  exists n', (0 < n')%nat /\
    dec_struct_n nm (field_decs X E 0 fs) fd buf c d (VStruct l) =
      (let '(l2, r) := struct_loop_n nm (field_decs X E 0 fs) fd buf (d + 1) n' (c + blen (opening p ++ body es)) l' in (VStruct l2, r)) /\
    pos buf (c + blen (opening p ++ body es)) rest.
Proof.
  intros Hsm Hb Hn Hd HP Hse He Hq Hrest.
  assert (pos buf (c + blen (opening p ++ body es)) rest) as Hh.
  { eapply pos_app; [|reflexivity]. rewrite <- app_assoc. exact HP. }
  unfold dec_struct_n. destruct (struct_header_open _ _ d _ _ _ _ Hsm Hb Hn HP Hd) as (c' & -> & H').
  assert (exists b r, body es ++ rest = b :: r /\ (b =b "}"%byte) = false) as (b & s & Er & Eb).
  { destruct es as [|[k0 v0] es0]; [exact Hrest|]. rewrite body_cons. destruct (text_letter k0) as [r0 ->]. cbn [app].
    eexists _, _. split; [reflexivity|]. destruct k0; reflexivity. }
  assert (H3 := H'). rewrite Er in H3. rdn H3. rewrite Eb.
  assert (length (body es) < length buf)%nat as L.
  { destruct Hrest as (b0 & r0 & -> & _). apply pos_len in H' as L. rewrite blen_app in L. apply pos_nonneg in H'. unfold blen in L. cbn [length] in L. lia. }
  destruct (struct_loop_pre X E nm fs buf (d + 1) fd V l es l' rest _ _ Hsm Hse (le_n _) He Hq Hrest Hh (length buf) c' H' L) as (n' & Hn' & Q).
  exists n'. split; [exact Hn'|]. split; [|exact Hh]. rewrite Q. reflexivity.
Qed.

Lemma map_loop_pre buf kd vd (K V : lval -> gval -> Prop) m es m' rest ch M : map_entries K V m es m' ->
  (length (body es) <= M)%nat ->
  (forall p w c s, K p w -> (length (text p) <= M)%nat -> pos buf c (text p ++ s) -> done buf (kd c) w s) ->
  (forall p w c s, V p w -> (length (text p) <= M)%nat -> pos buf c (text p ++ s) -> done buf (vd c) w s) ->
  (exists b r, rest = b :: r /\ (b =b "}"%byte) = false) -> pos buf ch rest ->
  forall n c, pos buf c (body es ++ rest) -> (length (body es) < n)%nat ->
  exists n', (0 < n')%nat /\ map_loop kd vd buf n c m = map_loop kd vd buf n' ch m'.
Proof.
  intros H HM Hk Hv Hrest Hh.
  assert (forall es, exists b r, body es ++ rest = b :: r /\ (b =b "}"%byte) = false) as EH.
  { intros [|[k0 v0] es0]; [exact Hrest|]. rewrite body_cons. destruct (text_letter k0) as [r0 ->]. cbn [app].
    eexists _, _. split; [reflexivity|]. destruct k0; reflexivity. }
  induction H as [m|m k p es k1 v1 m' Kk1 Vp Hhash Hme IH]; intros n c Hp Hn.
  - cbn [body flat_map app] in Hp. rewrite (pos_same _ _ _ _ Hp Hh). exists n. split; [cbn in Hn; lia|reflexivity].
  - rewrite body_len in *. pose proof (text_pos k) as Tk. pose proof (text_pos p) as Tp.
    destruct n as [|n]; [lia|]. rewrite body_cons in Hp.
    destruct (Hk k k1 c _ Kk1 ltac:(lia) Hp) as (c1 & Q1 & H1). destruct (Hv p v1 c1 _ Vp ltac:(lia) H1) as (c2 & Q2 & H2).
    destruct (EH es) as (b & s & Er & Eb). assert (H3 := H2). rewrite Er in H3.
    destruct (IH ltac:(lia) n c2 H2 ltac:(lia)) as (n' & Hn' & Q). exists n'. split; [exact Hn'|]. rewrite <- Q. clear Q IH.
    cbn [map_loop]. rewrite (pos_has_text _ _ _ _ Hp), Q1, (pos_has_text _ _ _ _ H1), Q2, Hhash. cbn [negb]. rdn H3. rewrite Eb. reflexivity.
Qed.

(** ** Values read into an empty interface *)
Lemma any_at_n X nm buf rest ch r d pre d' : small buf -> any_context X d pre d' -> pos buf ch rest -> rest <> [] ->
  (forall f, (length rest < f)%nat -> dec_any_n_f X nm f buf ch d' = r) -> stuck r ->
  forall f c, pos buf c (pre ++ rest) -> (length (pre ++ rest) < f)%nat -> dec_any_n_f X nm f buf c d = r.
Proof.
  intros Hsm H Hh Hne Hf Hr.
  induction H as [d|d n es m k kv pre d' Hd Hn Hm Hme Kk Hc IH|d cn cls n es m k kv pre d' Hd Hb Hn Hm Hme Kk Hc IH]; intros f c Hp HL.
  - cbn [app] in *. rewrite (pos_same _ _ _ _ Hp Hh). apply Hf, HL.
  - specialize (IH Hf). rewrite <- !app_assoc in Hp, HL. destruct f as [|f]; [lia|]. cbn [dec_any_n_f]. cbv zeta.
    assert (H0 := Hp). rewrite opening_arr in H0. rdn H0.
    change ("a"%byte =b "O"%byte) with false. change ("a"%byte =b "a"%byte) with true. cbn iota.
    rewrite opening_arr in HL. cbn [length] in HL. rewrite app_length in HL. cbn [length] in HL. rewrite !app_length in HL.
    change (entries es) with (body es) in *.
    assert (exists ch2, pos buf ch2 (pre ++ rest)) as [ch2 Hh2].
    { exists (c + blen (opening (LArr n es) ++ body es ++ text k)). eapply pos_app; [|reflexivity]. rewrite <- !app_assoc. exact Hp. }
    set (vd := fun c0 : Z => match dec_any_n_f X nm f buf c0 (d + 1) return dres with
             | ROk (o, c') => (VIface o, ROk c') | r => (VIface None, fail r) end).
    assert (vd ch2 = (VIface None, fail r)) as Hvd.
    { subst vd. cbn beta. rewrite (IH f ch2 Hh2) by (rewrite app_length; lia). destruct r as [[]| | |]; try destruct Hr; reflexivity. }
    rewrite (dec_map_at buf (fun c0 => dec_any_key_n nm buf c0) vd any_key (any_val X (d + 1)) c d None (LArr n es) n es m k kv (pre ++ rest) ch2 (VIface None) (fail r)); auto.
    + destruct r; try destruct Hr; reflexivity.
    + constructor.
    + intros p' w c' s HK _ HP. eapply done_like; [eapply any_key_ok; eauto|apply like_any_key].
    + intros p' w c' s HV HL' HP. subst vd. cbn beta.
      destruct (any_f_ok X buf Hsm f p' (d + 1) w c' s HV HP ltac:(lia)) as (o & c2 & -> & Q & H2).
      rewrite (like_ok _ _ _ Q (like_any X nm buf f c' (d + 1))). exists c2. auto.
    + intros Q. apply app_eq_nil in Q as [_ Q]. congruence.
    + destruct r; try destruct Hr; exact I.
  - specialize (IH Hf). rewrite <- !app_assoc in Hp, HL. destruct f as [|f]; [lia|]. cbn [dec_any_n_f]. cbv zeta.
    assert (H0 := Hp). rewrite opening_obj in H0. rdn H0.
    change ("O"%byte =b "O"%byte) with true. cbn iota.
    pose proof (opening_len _ _ _ Hb) as OL. rewrite !app_length in HL.
    change (entries es) with (body es) in *.
    assert (exists ch2, pos buf ch2 (pre ++ rest)) as [ch2 Hh2].
    { exists (c + blen (opening (LObj cn cls n es) ++ body es ++ text k)). eapply pos_app; [|reflexivity]. rewrite <- !app_assoc. exact Hp. }
    set (vd := fun c0 : Z => match dec_any_n_f X nm f buf c0 (d + 1) return dres with
             | ROk (o, c') => (VIface o, ROk c') | r => (VIface None, fail r) end).
    assert (vd ch2 = (VIface None, fail r)) as Hvd.
    { subst vd. cbn beta. rewrite (IH f ch2 Hh2) by (rewrite app_length; lia). destruct r as [[]| | |]; try destruct Hr; reflexivity. }
    rewrite (dec_map_at buf (fun c0 => dec_string_n nm buf c0 (VStr [])) vd obj_key (any_val X (d + 1)) c d None (LObj cn cls n es) n es m k kv (pre ++ rest) ch2 (VIface None) (fail r)); auto.
    + destruct r; try destruct Hr; reflexivity.
    + intros p' w c' s HK _ HP. eapply done_like; [eapply obj_key_ok; eauto|apply like_string].
    + intros p' w c' s HV HL' HP. subst vd. cbn beta.
      destruct (any_f_ok X buf Hsm f p' (d + 1) w c' s HV HP ltac:(lia)) as (o & c2 & -> & Q & H2).
      rewrite (like_ok _ _ _ Q (like_any X nm buf f c' (d + 1))). exists c2. auto.
    + intros Q. apply app_eq_nil in Q as [_ Q]. congruence.
    + destruct r; try destruct Hr; exact I.
Qed.

(** ** The struct types around a place *)
Definition names_of (A : around) : names := (in_struct A, in_field A).
Definition inv (st : list (nat * names)) (A : around) : Prop := forall id, In id (map fst st) -> In id (in_types A).
Lemma enter_cases id nm all : forall st, let '(nm', st') := enter id nm all st in
  (In (id, nm') st /\ incl st' st) \/ (nm' = nm /\ st' = (id, nm) :: all /\ ~ In id (map fst st)).
Proof.
  induction st as [|[id' nm1] st IH]; cbn [enter]; [right; auto|].
  destruct (Nat.eqb_spec id id') as [->|Hne]; [left; split; [left; reflexivity|apply incl_refl]|].
  destruct (enter id nm all st) as [nm' st']. destruct IH as [[H1 H2]|(H1 & H2 & H3)].
  - left. split; [right; exact H1|apply incl_tl, H2].
  - right. repeat split; auto. cbn. intros [Q|Q]; [congruence|tauto].
Qed.
Lemma enter_inv id nm A st a b : inv st A -> inv (snd (enter id nm st st)) (Around a b (id :: in_types A)).
Proof.
  intros H. pose proof (enter_cases id nm st st) as C. destruct (enter id nm st st) as [nm' st']. cbn [snd].
  destruct C as [[_ C]|(_ & -> & _)]; intros i Hi; cbn [in_types].
  - right. apply H. apply in_map_iff in Hi as (x & <- & Hx). apply in_map, C, Hx.
  - cbn in Hi. destruct Hi as [<-|Hi]; [left; reflexivity|right; apply H, Hi].
Qed.
Lemma enter_new id nm A st : inv st A -> ~ In id (in_types A) -> fst (enter id nm st st) = nm.
Proof.
  intros H Hn. pose proof (enter_cases id nm st st) as C. destruct (enter id nm st st) as [nm' st']. cbn [fst].
  destruct C as [[C _]|(C & _)]; [|exact C]. exfalso. apply Hn, H. change id with (fst (id, nm')). apply in_map, C.
Qed.

Lemma lookup_nth X fs k : forall i j f, lookup_from X i fs k = Some (j, f) -> (i <= j)%nat /\ nth_error fs (j - i) = Some f.
Proof.
  induction fs as [|g fs IH]; intros i j f; cbn [lookup_from]; [discriminate|].
  destruct (negb (is_ignored g) && _).
  - intros [= <- <-]. rewrite Nat.sub_diag. auto.
  - intros H. apply IH in H as [H1 H2]. split; [lia|]. replace (j - i)%nat with (S (j - S i)) by lia. exact H2.
Qed.
Lemma lookup_name X fs k i f t s : lookup X fs k = Some (i, f) -> field_name fs (FDec k i t s) = f_name f.
Proof. intros H. apply lookup_nth in H as [_ H]. rewrite Nat.sub_0_r in H. unfold field_name. cbn [fd_idx]. rewrite H. reflexivity. Qed.
Lemma update_old {A} (l : list A) : forall i x, nth_error l i = Some x -> update l i x = l.
Proof. induction l as [|y l IH]; intros [|i] x; cbn; try discriminate; [congruence|]. intros H. rewrite IH by exact H. reflexivity. Qed.

(** ** Data that does not fit *)
Lemma no_int64_parse s : no_int64 s -> parse_int64 s = None.
Proof. intros H. destruct (parse_int64 s) as [z|] eqn:E; [|reflexivity]. apply parse_int64_iff in E as [E1 E2]. destruct (H z E1 E2). Qed.
Lemma no_uint64_parse s : no_uint64 s -> parse_uint64 s = None.
Proof. intros H. destruct (parse_uint64 s) as [z|] eqn:E; [|reflexivity]. apply parse_uint64_iff in E as (E1 & _ & E2). specialize (H E1). lia. Qed.
Lemma int_bytes_at buf c t z s : pos buf c (text (LInt t) ++ s) -> int_text t z ->
  decode_int_bytes buf c = ROk (Some t, c + blen (text (LInt t))).
Proof.
  intros H Ht. destruct (int_bytes_int _ _ _ _ _ H Ht) as (c' & -> & H'). do 2 f_equal.
  eapply pos_same; [exact H'|]. eapply pos_app; [exact H|reflexivity].
Qed.
Lemma word_string nm buf c b w rest : word b w -> pos buf c (b :: rest) ->
  decode_string_bytes_n nm buf c = RErr (type_error nm w TString c).
Proof. intros H HP. unfold decode_string_bytes_n. rdn HP. destruct H; reflexivity. Qed.
Lemma word_brace b w : word b w -> (b =b "}"%byte) = false.
Proof. intros []; reflexivity. Qed.
Lemma type_error_says A w t o : type_error (names_of A) w t o = ETypeAt o (says A w t).
Proof. reflexivity. Qed.

Lemma key_mismatch_decode X Q E A kt data off det buf c d : key_mismatch E A kt data off det -> pos buf c data ->
  exists z, dec_key_n X Q E (names_of A) kt buf c d = (z, RErr (ETypeAt (c + off) det)).
Proof.
  intros H HP. unfold dec_key_n, key_node. cbv zeta.
  destruct H as [kt b w rest Hp Hw|kt k s z rest Hp Ht Hn|kt k s z rest Hp Ht Hn|kt b rest Hu Hb Hk].
  - destruct Hp as [-> ->]. unfold dec_string_n, dec_text. rewrite (word_string _ _ _ _ _ _ Hw HP), Z.add_0_r. eauto.
  - rewrite (node_of_plain _ _ _ Hp). destruct Hp as [-> ->]. unfold dec_int_n, dec_text.
    rewrite (int_bytes_at _ _ _ _ _ HP Ht). unfold process_int_n. rewrite (no_int64_parse _ Hn). eauto.
  - rewrite (node_of_plain _ _ _ Hp). destruct Hp as [-> ->]. unfold dec_uint_n, dec_text.
    rewrite (int_bytes_at _ _ _ _ _ HP Ht). unfold process_uint_n. rewrite (no_uint64_parse _ Hn). eauto.
  - rewrite Hu, Z.add_0_r. unfold node_of. rewrite Hu. destruct (kind_of E kt); try contradiction; eauto.
    destruct (kind_of E t) as [| |[]| | | | | | | | | | |]; eauto.
Qed.
Lemma key_mismatch_head E A kt data off det : key_mismatch E A kt data off det -> exists b r, data = b :: r /\ (b =b "}"%byte) = false.
Proof.
  intros H. destruct H; try (eexists _, _; split; [reflexivity|]).
  - eapply word_brace; eauto.
  - reflexivity.
  - reflexivity.
  - apply eqb_neq. assumption.
Qed.

Lemma mismatch_some X E name show A d T v data off det w : mismatch X E name show A d T v data off det w -> data <> [].
Proof.
  intros H. induction H; try assumption; try discriminate; try (rewrite text_int; discriminate);
    try (match goal with Hb : body_of _ _ _ |- _ => destruct Hb; cbn; discriminate end).
  intros Q. apply app_eq_nil in Q as [_ Q]. rewrite text_int in Q. discriminate.
Qed.

Section Place.
  Context (X : Ext) (Q : Rtti) (E : env) (buf : bytes) (Hsm : small buf).

  Lemma decode_n_ok fu nm st d et p old w c s : store X E d et p old w -> (2 * length (text p) < fu)%nat ->
    pos buf c (text p ++ s) -> done buf (decode_n_f X Q E fu nm st et buf c d old) w s.
  Proof.
    intros Hs HL HP. eapply done_like; [|apply decode_like]. eapply decode_f_ok; eauto. unfold ptr_cost. destruct (is_ptr E et); lia.
  Qed.
  Lemma quoted_n_ok nm nm' T c rv p w s : has_unmarshal E T = None -> store_quoted X E T p rv w -> pos buf c (text p ++ s) ->
    done buf (match node_of E T with
        | NPtr t' => dec_ptr E t' (fun c v => dec_wrapped_n X nm t' (node_of E t') buf c v) buf c rv
        | nd => dec_wrapped_n X nm' T nd buf c rv
        end) w s.
  Proof.
    intros Hu Hs HP. eapply done_like; [exact (quoted_ok X E T buf c rv p w s Hsm Hu Hs HP)|].
    destruct (node_of E T); try apply like_wrapped. apply like_ptr. intros c1 v1. apply like_wrapped.
  Qed.

  (** the decoder of a field *)
  Let field_dec f st' id fs (d : Z) := fun (x : fdec) (c : Z) (v : gval) =>
    let fnm := (r_name Q id, field_name fs x) in
    if fd_str x then
      match node_of E (fd_ty x) with
      | NPtr t' => dec_ptr E t' (fun c v => dec_wrapped_n X fnm t' (node_of E t') buf c v) buf c v
      | nd => dec_wrapped_n X fnm (fd_ty x) nd buf c v
      end
    else decode_n_f X Q E f fnm st' (fd_ty x) buf c (d + 1) v.
  Lemma struct_at f st' nm id fs c d p n es l l' rest :
    body_of p n es -> numeral n -> d < limit -> pos buf c (opening p ++ body es ++ rest) ->
    struct_entries X E (d + 1) fs (store X E (d + 1)) l es l' ->
    (2 * length (body es) < f)%nat ->
    (exists b r, rest = b :: r /\ (b =b "}"%byte) = false) ->
    exists n', (0 < n')%nat /\
      dec_struct_n nm (field_decs X E 0 fs) (field_dec f st' id fs d) buf c d (VStruct l) =
        (let '(l2, r) := struct_loop_n nm (field_decs X E 0 fs) (field_dec f st' id fs d) buf (d + 1) n' (c + blen (opening p ++ body es)) l' in (VStruct l2, r)) /\
      pos buf (c + blen (opening p ++ body es)) rest.
  Proof.
    intros Hb Hn Hd HP Hse Hf Hrest. eapply (struct_pre X E nm fs buf (field_dec f st' id fs d) (store X E (d + 1)) c d p n es l l' rest); eauto.
    - intros k0 i0 f0 p0 old0 w0 c0 s0 Ht Hs0 L0 P0. unfold field_dec. cbn [fd_str fd_ty]. eapply decode_n_ok; eauto. lia.
    - intros k0 i0 f0 p0 old0 w0 c0 s0 Ht Hs0 P0. unfold field_dec. cbn [fd_str fd_ty]. eapply quoted_n_ok; eauto. eapply string_tagged_unm; eauto.
  Qed.
  (** the entry of a field *)
  Lemma struct_field nm decs fd fs d n c l kp k i f old rest w r :
    decs = field_decs X E 0 fs -> (0 < n)%nat -> pos buf c (text kp ++ rest) -> rest <> [] ->
    key_text kp k -> lookup X fs k = Some (i, f) -> nth_error l i = Some old ->
    fd (FDec k i (f_ty f) (string_tagged X E f)) (c + blen (text kp)) old = (w, r) -> stuck r ->
    struct_loop_n nm decs fd buf d n c l = (update l i w, r).
  Proof.
    intros -> Hn HP Hne Hk Hl Hnth Hfd Hr. destruct n as [|n]; [lia|]. cbn [struct_loop_n]. rewrite (pos_has_text _ _ _ _ HP). cbn [negb].
    destruct (key_text_ok _ _ _ _ _ Hsm Hk HP) as (o & c1 & Qs & Qk & H1).
    assert (c1 = c + blen (text kp)) as -> by (eapply pos_same; [exact H1|eapply pos_app; [exact HP|reflexivity]]).
    rewrite (like_ok _ _ _ Qs (like_string_bytes nm buf c)), (pos_has_ne _ _ _ H1 Hne). cbn [negb].
    rewrite Qk, find_field_lookup. fold (lookup X fs k). rewrite Hl. cbn [fd_idx]. rewrite Hnth, Hfd.
    destruct r; try destruct Hr; reflexivity.
  Qed.

  Lemma mismatch_decode A d T v data off det w :
    mismatch X E (r_name Q) (r_string Q) A d T v data off det w ->
    forall c f st, pos buf c data -> (2 * length data + ptr_cost E T < f)%nat -> inv st A ->
    decode_n_f X Q E f (names_of A) st T buf c d v = (w, RErr (ETypeAt (c + off) det)).
  Proof.
    intros H.
    induction H as [d T k v s z rest Hp Ht Hn|d T k v s z rest Hp Ht Hn|d T v b w rest Hp Hw|d T t v b w rest Hp Hb Hw
      |d T t v b rest Hp Hb Hd Hn|d T m v b rest Hp Hu Hb|d T v b rest Hp|d T v pre d' s z rest Hp Hc Ht Hn
      |d T k t p n es o m data off det Hp Hd Hb Hn Hm Hme Hk
      |d T id fs p n es l l' b w rest Hp Hid Hd Hb Hn Hse Hw
      |d T id fs p n es l l' kp k i fl old kd m s rest Hp Hd Hb Hn Hse Hk Hl Hnth Htag Hpf Hso Hns
      |d T id fs p n es l l' kp k i fl old kd m s rest Hp Hd Hb Hn Hse Hk Hl Hnth Htag Hpf Hso Hns
      |d T t o data off det w Hp Hip Hd0 Hm IH];
      intros c f st HP HL Hi; (destruct f as [|f]; [lia|]); cbn [decode_n_f]; rewrite (node_of_plain _ _ _ Hp).
    - unfold dec_int_n, dec_text. rewrite (int_bytes_at _ _ _ _ _ HP Ht). unfold process_int_n. rewrite (no_int64_parse _ Hn). reflexivity.
    - unfold dec_uint_n, dec_text. rewrite (int_bytes_at _ _ _ _ _ HP Ht). unfold process_uint_n. rewrite (no_uint64_parse _ Hn). reflexivity.
    - unfold dec_string_n, dec_text. rewrite (word_string _ _ _ _ _ _ Hw HP), Z.add_0_r. reflexivity.
    - rewrite Hb. unfold dec_bytes_n. rdn HP. replace (b =b "a"%byte) with false by (destruct Hw; reflexivity).
      unfold dec_text. rewrite (word_string _ _ _ _ _ _ Hw HP), Z.add_0_r. reflexivity.
    - rewrite Hb. unfold dec_slice_n, number_at. rdn HP. rewrite (depth_ok _ Hd). cbn [negb andb].
      replace ((b =b "-"%byte) || is_digit b) with true; [rewrite Z.add_0_r; reflexivity|].
      destruct Hn as [->|Hn]; [reflexivity|]. rewrite Hn. symmetry. apply orb_true_r.
    - unfold dec_iface_n. cbv zeta. rdn HP. replace (b =b "N"%byte) with false by (symmetry; apply eqb_neq, Hb). rewrite Z.add_0_r.
      destruct v as [| | | | | | | | | |[[t' v]|]| |]; try reflexivity. destruct t' as [| | | | | | | | |t1| | | |]; try reflexivity.
      destruct v as [| | | | | | | | |q| | |]; try reflexivity. rewrite (Hu _ _ eq_refl). reflexivity.
    - rewrite Z.add_0_r. reflexivity.
    - unfold dec_iface_any_n, dec_any_n.
      assert (pos buf (c + blen pre) (text (LInt s) ++ rest)) as Hh by (eapply pos_app; [exact HP|reflexivity]).
      rewrite (any_at_n X (names_of A) buf (text (LInt s) ++ rest) (c + blen pre)
        (RErr (ETypeAt (c + blen (pre ++ text (LInt s))) (says A (bs "number " ++ s) (TInt I64)))) d pre d' Hsm Hc Hh).
      + reflexivity.
      + rewrite text_int. discriminate.
      + intros g Hg. destruct g as [|g]; [lia|]. cbn [dec_any_n_f]. cbv zeta. rewrite (pos_rd_text _ _ _ _ Hh). cbn [bind letter].
        change ("i"%byte =b "O"%byte) with false. change ("i"%byte =b "a"%byte) with false. change ("i"%byte =b "d"%byte) with false.
        change ("i"%byte =b "s"%byte) with false. change ("i"%byte =b "i"%byte) with true. cbn iota.
        unfold dec_int_n, dec_text. rewrite (int_bytes_at _ _ _ _ _ Hh Ht). unfold process_int_n. rewrite (no_int64_parse _ Hn).
        rewrite blen_app, Z.add_assoc. reflexivity.
      + exact I.
      + exact HP.
      + apply pos_len in HP as L. apply pos_nonneg in HP as L0. unfold blen in L. lia.
    - change (entries es) with (body es) in *. rewrite !app_length in HL. pose proof (opening_len _ _ _ Hb) as OL.
      destruct (key_mismatch_head _ _ _ _ _ _ Hk) as (b0 & r0 & Ed & Eb0).
      assert (pos buf (c + blen (opening p ++ body es)) data) as Hh.
      { eapply pos_app; [|reflexivity]. rewrite <- app_assoc. exact HP. }
      unfold dec_map. destruct (map_header_open _ _ d _ _ _ _ Hsm Hb Hn Hm HP Hd) as (c' & -> & H').
      assert (exists b r, body es ++ data = b :: r /\ (b =b "}"%byte) = false) as (b & s & Er & Eb).
      { destruct es as [|[k0 v0] es0]; [eauto|]. rewrite body_cons. destruct (text_letter k0) as [r1 ->]. cbn [app].
        eexists _, _. split; [reflexivity|]. destruct k0; reflexivity. }
      assert (H3 := H'). rewrite Er in H3. rdn H3. rewrite Eb.
      assert (length (body es) < length buf)%nat as L.
      { apply pos_len in H' as L. rewrite blen_app, Ed in L. apply pos_nonneg in H'. unfold blen in L. cbn [length] in L. lia. }
      destruct (map_loop_pre buf (fun c0 => dec_key_n X Q E (names_of A) k buf c0 (d + 1))
        (fun c0 => decode_n_f X Q E f (names_of A) st t buf c0 (d + 1) (zero E t))
        (store_key X E (d + 1) k) (fun q w => store X E (d + 1) t q (zero E t) w) _ es m data (c + blen (opening p ++ body es)) _ Hme (le_n _)) with (n := length buf) (c := c') as (n' & Hn' & ->).
      + intros p0 w0 c0 s0 HK _ P0. eapply done_like; [eapply key_ok; eauto|apply like_key].
      + intros p0 w0 c0 s0 HV L0 P0. eapply decode_n_ok; eauto. lia.
      + eauto.
      + exact Hh.
      + exact H'.
      + exact L.
      + destruct n' as [|n']; [lia|]. cbn [map_loop]. rewrite Ed in Hh. rewrite (pos_has _ _ _ _ Hh). cbn [negb]. rewrite <- Ed in Hh.
        destruct (key_mismatch_decode X Q E A k data off det buf _ (d + 1) Hk Hh) as (z & ->). rewrite Z.add_assoc. reflexivity.
    - change (entries es) with (body es) in *. rewrite !app_length in HL. pose proof (opening_len _ _ _ Hb) as OL.
      destruct (enter id (names_of A) st st) as [nm' st'] eqn:En. pose proof (enter_new id (names_of A) A st Hi Hid) as Hnm. rewrite En in Hnm. cbn [fst] in Hnm. subst nm'.
      destruct (struct_at f st' (names_of A) id fs c d p n es l l' (b :: rest) Hb Hn Hd HP Hse ltac:(lia)) as (n' & Hn' & G & Hh).
      { eexists _, _. split; [reflexivity|]. eapply word_brace; eauto. }
      etransitivity; [exact G|]. destruct n' as [|n']; [lia|]. cbn [struct_loop_n]. rewrite (pos_has _ _ _ _ Hh). cbn [negb].
      rewrite (word_string _ _ _ _ _ _ Hw Hh). reflexivity.
    - change (entries es) with (body es) in *. rewrite !app_length in HL. pose proof (opening_len _ _ _ Hb) as OL.
      destruct (enter id (names_of A) st st) as [nm' st'] eqn:En.
      destruct (struct_at f st' nm' id fs c d p n es l l' (text kp ++ text (LStr m s) ++ rest) Hb Hn Hd HP Hse ltac:(lia)) as (n' & Hn' & G & Hh).
      { destruct (text_letter kp) as [r0 ->]. eexists _, _. split; [reflexivity|]. destruct kp; reflexivity. }
      etransitivity; [exact G|].
      assert (pos buf (c + blen (opening p ++ body es) + blen (text kp)) (text (LStr m s) ++ rest)) as H2 by (eapply pos_app; [exact Hh|reflexivity]).
      erewrite (struct_field nm' _ _ fs (d + 1) n' _ l' kp k i fl old (text (LStr m s) ++ rest) old); [| reflexivity|exact Hn'|exact Hh| |exact Hk|exact Hl|exact Hnth| |].
      + rewrite (update_old _ _ _ Hnth). reflexivity.
      + rewrite text_str. discriminate.
      + rewrite Htag. unfold field_dec. cbn [fd_str fd_ty]. rewrite (node_of_plain _ _ _ Hpf). cbv zeta. rewrite (lookup_name _ _ _ _ _ _ _ Hl).
        unfold dec_wrapped_n, dec_text. destruct (string_bytes_str _ _ _ _ _ Hsm H2 Hso) as (c2 & Qs & _).
        rewrite (like_ok _ _ _ Qs (like_string_bytes _ buf _)). unfold process_int_n. rewrite (no_int64_parse _ Hns).
        rewrite app_assoc, (blen_app _ (text kp)), Z.add_assoc. reflexivity.
      + exact I.
    - change (entries es) with (body es) in *. rewrite !app_length in HL. pose proof (opening_len _ _ _ Hb) as OL.
      destruct (enter id (names_of A) st st) as [nm' st'] eqn:En.
      destruct (struct_at f st' nm' id fs c d p n es l l' (text kp ++ text (LStr m s) ++ rest) Hb Hn Hd HP Hse ltac:(lia)) as (n' & Hn' & G & Hh).
      { destruct (text_letter kp) as [r0 ->]. eexists _, _. split; [reflexivity|]. destruct kp; reflexivity. }
      etransitivity; [exact G|].
      assert (pos buf (c + blen (opening p ++ body es) + blen (text kp)) (text (LStr m s) ++ rest)) as H2 by (eapply pos_app; [exact Hh|reflexivity]).
      erewrite (struct_field nm' _ _ fs (d + 1) n' _ l' kp k i fl old (text (LStr m s) ++ rest) old); [| reflexivity|exact Hn'|exact Hh| |exact Hk|exact Hl|exact Hnth| |].
      + rewrite (update_old _ _ _ Hnth). reflexivity.
      + rewrite text_str. discriminate.
      + rewrite Htag. unfold field_dec. cbn [fd_str fd_ty]. rewrite (node_of_plain _ _ _ Hpf). cbv zeta.
        unfold dec_wrapped_n, dec_text. destruct (string_bytes_str _ _ _ _ _ Hsm H2 Hso) as (c2 & Qs & _).
        rewrite (like_ok _ _ _ Qs (like_string_bytes _ buf _)). unfold process_uint_n. rewrite (no_uint64_parse _ Hns).
        rewrite app_assoc, (blen_app _ (text kp)), Z.add_assoc. reflexivity.
      + exact I.
    - assert (dec_ptr E t (fun c0 v => decode_n_f X Q E f (names_of A) st t buf c0 d v) buf c (VPtr o) = (VPtr (Some w), RErr (ETypeAt (c + off) det))) as G.
      2:{ unfold is_ptr in Hip. destruct (kind_of E t); try discriminate; exact G. }
      pose proof (mismatch_some _ _ _ _ _ _ _ _ _ _ _ _ Hm) as Hne. destruct data as [|b data]; [congruence|].
      unfold dec_ptr. rdn HP. replace (b =b "N"%byte) with false by (symmetry; apply eqb_neq; intros ->; apply Hd0; reflexivity).
      rewrite (IH c f st HP); [reflexivity| |exact Hi]. revert HL. unfold ptr_cost. rewrite Hip. unfold is_ptr. destruct Hp as [_ ->]. lia.
  Qed.

  Lemma site_head A d T v pre A' d' t old put : site X E (r_name Q) A d T v pre A' d' t old put -> pre <> [] ->
    exists b s, pre = b :: s /\ (b =b "N"%byte) = false.
  Proof.
    assert (forall p n es s, body_of p n es -> exists b r, opening p ++ s = b :: r /\ (b =b "N"%byte) = false) as P.
    { intros p n es s Hb. destruct Hb; [rewrite opening_arr|rewrite opening_obj]; cbn [app]; eauto. }
    intros H. induction H; intros Hne; try congruence; auto; try (eapply P; eassumption); try (eapply P; constructor).
  Qed.
  Lemma slice_n_array nm et ed c d v n es s : pos buf c (opening (LArr n es) ++ s) ->
    dec_slice_n X E nm et ed buf c d v = dec_slice X E et ed buf c d v.
  Proof.
    intros HP. rewrite opening_arr in HP. unfold dec_slice_n, number_at. rdn HP. cbn [orb andb is_digit]. rewrite andb_false_r. reflexivity.
  Qed.

  Lemma site_decode rest ch w r A d T v pre A' d' t old put : site X E (r_name Q) A d T v pre A' d' t old put ->
    pos buf ch rest -> rest <> [] ->
    (forall f st, (2 * length rest + ptr_cost E t < f)%nat -> inv st A' -> decode_n_f X Q E f (names_of A') st t buf ch d' old = (w, r)) -> stuck r ->
    forall f st c, pos buf c (pre ++ rest) -> (2 * length (pre ++ rest) + ptr_cost E T < f)%nat -> inv st A ->
    decode_n_f X Q E f (names_of A) st T buf c d v = (put w, r).
  Proof.
    intros H Hh Hne Hf Hr.
    assert (forall pre, pre ++ rest <> []) as Hne2 by (intros q Q0; apply app_eq_nil in Q0 as [_ Q0]; congruence).
    assert (forall E T k, plain E T k -> ptr_cost E T = match k with KPtr _ => 1%nat | _ => 0%nat end) as PC.
    { intros E0 T0 k [_ Hk]. unfold ptr_cost, is_ptr. rewrite Hk. destruct k; reflexivity. }
    assert (forall E T, (ptr_cost E T <= 1)%nat) as PL by (intros E0 T0; unfold ptr_cost; destruct (is_ptr E0 T0); lia).
    induction H as [A d T v
      |A d T t o pre A' d' u old put Hp Hip Hpre Hc IH
      |A d T id fs l p n es l' kp k i fl old pre A' d' u old' put Hp Hd Hb Hn Hse Hk Hl Hnth Htag Hc IH
      |A d T kt t p n es o m kp kv pre A' d' u old put Hp Hd Hb Hn Hm Hme Kk Hc IH
      |A d T t n es v l ti i old pre A' d' u old' put Hp Hd Hn Hz Hm Hsl Hse Hi Hnth Hc IH
      |A d T t n es v l ti i pre A' d' u old put Hp Hd Hn Hz Hm Hsl Hse Hi Hlen Hmx Hsl2 Hc IH
      |A d T cnt t n es v l ti i old pre A' d' u old' put Hp Hd Hn Hz Hm Hse Hi Hnth Hc IH]; intros f st c HP HL Hinv.
    - cbn [app] in *. rewrite (pos_same _ _ _ _ HP Hh). apply Hf; assumption.
    - rewrite (PC _ _ _ Hp) in HL. destruct f as [|f]; [lia|]. cbn [decode_n_f]. rewrite (node_of_plain _ _ _ Hp).
      assert (dec_ptr E t (fun c0 v => decode_n_f X Q E f (names_of A) st t buf c0 d v) buf c (VPtr o) = (VPtr (Some (put w)), r)) as G.
      2:{ unfold is_ptr in Hip. destruct (kind_of E t); try discriminate; exact G. }
      destruct (site_head _ _ _ _ _ _ _ _ _ _ Hc Hpre) as (b & s & Eq & Eb).
      unfold dec_ptr. assert (H0 := HP). rewrite Eq in H0. cbn [app] in H0. rdn H0. rewrite Eb.
      rewrite (IH Hf f st c HP); [reflexivity| |exact Hinv]. unfold ptr_cost at 1. rewrite Hip. lia.
    - rewrite (PC _ _ _ Hp) in HL. destruct f as [|f]; [lia|]. cbn [decode_n_f]. rewrite (node_of_plain _ _ _ Hp).
      rewrite <- !app_assoc in HP, HL. change (entries es) with (body es) in *.
      pose proof (opening_len _ _ _ Hb) as OL. rewrite !app_length in HL.
      pose proof (enter_inv id (names_of A) A st (r_name Q id) (f_name fl) Hinv) as Hinv2.
      destruct (enter id (names_of A) st st) as [nm' st'] eqn:En. cbn [snd] in Hinv2.
      destruct (struct_at f st' nm' id fs c d p n es l l' (text kp ++ pre ++ rest) Hb Hn Hd HP Hse ltac:(lia)) as (n' & Hn' & G & Hh2).
      { destruct (text_letter kp) as [r0 ->]. eexists _, _. split; [reflexivity|]. destruct kp; reflexivity. }
      etransitivity; [exact G|].
      assert (pos buf (c + blen (opening p ++ body es) + blen (text kp)) (pre ++ rest)) as H2 by (eapply pos_app; [exact Hh2|reflexivity]).
      erewrite (struct_field nm' _ _ fs (d + 1) n' _ l' kp k i fl old (pre ++ rest) (put w)); [reflexivity|reflexivity|exact Hn'|exact Hh2|apply Hne2|exact Hk|exact Hl|exact Hnth| |exact Hr].
      rewrite Htag. unfold field_dec. cbn [fd_str fd_ty]. cbv zeta. rewrite (lookup_name _ _ _ _ _ _ _ Hl).
      apply (IH Hf f st' _ H2); [|exact Hinv2]. rewrite app_length. specialize (PL E (f_ty fl)). lia.
    - rewrite (PC _ _ _ Hp) in HL. destruct f as [|f]; [lia|]. cbn [decode_n_f]. rewrite (node_of_plain _ _ _ Hp).
      rewrite <- !app_assoc in HP, HL. change (entries es) with (body es) in *.
      pose proof (opening_len _ _ _ Hb) as OL. rewrite !app_length in HL.
      assert (exists ch2, pos buf ch2 (pre ++ rest)) as [ch2 Hh2].
      { exists (c + blen (opening p ++ body es ++ text kp)). eapply pos_app; [|reflexivity]. rewrite <- !app_assoc. exact HP. }
      eapply (dec_map_at buf _ _ (store_key X E (d + 1) kt) (fun q w => store X E (d + 1) t q (zero E t) w) c d o p n es m kp kv (pre ++ rest) ch2); try eassumption.
      + intros p0 w0 c0 s0 HK L0 P0. eapply done_like; [eapply key_ok; eauto|apply like_key].
      + intros p0 w0 c0 s0 HV L0 P0. cbn beta. eapply decode_n_ok; eauto. lia.
      + apply Hne2.
      + cbn beta. apply IH; auto. rewrite app_length. specialize (PL E t). lia.
    - rewrite (PC _ _ _ Hp) in HL. destruct f as [|f]; [lia|]. cbn [decode_n_f]. rewrite (node_of_plain _ _ _ Hp).
      rewrite <- !app_assoc in HP, HL. change (entries es) with (body es) in *.
      pose proof (opening_len _ _ _ (body_arr n es)) as OL. rewrite !app_length in HL.
      assert (exists ch2, pos buf ch2 (pre ++ rest)) as [ch2 Hh2].
      { exists (c + blen (opening (LArr n es) ++ body es ++ text (LInt ti))). eapply pos_app; [|reflexivity]. rewrite <- !app_assoc. exact HP. }
      assert (dec_slice_n X E (names_of A) t (fun c0 v => decode_n_f X Q E f (names_of A) st t buf c0 (d + 1) v) buf c d v = (VSlice (Some (update l i (put w))), r)) as G.
      { rewrite (slice_n_array _ _ _ _ _ _ _ _ _ HP). unfold dec_slice. destruct (slice_header_open _ _ d _ _ _ Hsm Hn Hz Hm HP Hd) as (c' & -> & H'). rewrite Hsl. cbn [negb].
        eapply (slice_loop_at X E t buf _ (store X E (d + 1) t) [] es l ti i (pre ++ rest) ch2 (put w) r); try eassumption; try apply le_n.
        - intros p0 old0 w0 c0 s0 Hs0 L0 P0. cbn beta. eapply decode_n_ok; eauto. lia.
        - apply Hne2.
        - apply pos_len in H' as L. rewrite !blen_app in L. apply pos_nonneg in H'. destruct rest; [congruence|]. unfold blen in L. cbn [length] in L. lia.
        - cbn beta. apply IH; auto. rewrite app_length. specialize (PL E t). lia. }
      destruct (is_byte E t); [|exact G]. unfold dec_bytes_n. rewrite opening_arr in HP. rdn HP. exact G.
    - rewrite (PC _ _ _ Hp) in HL. destruct f as [|f]; [lia|]. cbn [decode_n_f]. rewrite (node_of_plain _ _ _ Hp).
      rewrite <- !app_assoc in HP, HL. change (entries es) with (body es) in *.
      pose proof (opening_len _ _ _ (body_arr n es)) as OL. rewrite !app_length in HL.
      assert (exists ch2, pos buf ch2 (pre ++ rest)) as [ch2 Hh2].
      { exists (c + blen (opening (LArr n es) ++ body es ++ text (LInt ti))). eapply pos_app; [|reflexivity]. rewrite <- !app_assoc. exact HP. }
      assert (dec_slice_n X E (names_of A) t (fun c0 v => decode_n_f X Q E f (names_of A) st t buf c0 (d + 1) v) buf c d v = (match es with [] => v | _ => VSlice (Some l) end, r)) as G.
      { rewrite (slice_n_array _ _ _ _ _ _ _ _ _ HP). unfold dec_slice. destruct (slice_header_open _ _ d _ _ _ Hsm Hn Hz Hm HP Hd) as (c' & -> & H'). rewrite Hsl. cbn [negb].
        eapply (slice_loop_at X E t buf _ (store X E (d + 1) t) [] es l ti i (pre ++ rest) ch2 (put w) r); try eassumption; try apply le_n.
        - intros p0 old0 w0 c0 s0 Hs0 L0 P0. cbn beta. eapply decode_n_ok; eauto. lia.
        - apply Hne2.
        - apply pos_len in H' as L. rewrite !blen_app in L. apply pos_nonneg in H'. destruct rest; [congruence|]. unfold blen in L. cbn [length] in L. lia.
        - cbn beta. apply IH; auto. rewrite app_length. specialize (PL E t). lia. }
      destruct (is_byte E t); [|exact G]. unfold dec_bytes_n. rewrite opening_arr in HP. rdn HP. exact G.
    - rewrite (PC _ _ _ Hp) in HL. destruct f as [|f]; [lia|]. cbn [decode_n_f]. rewrite (node_of_plain _ _ _ Hp).
      rewrite <- !app_assoc in HP, HL. change (entries es) with (body es) in *.
      pose proof (opening_len _ _ _ (body_arr n es)) as OL. rewrite !app_length in HL.
      assert (exists ch2, pos buf ch2 (pre ++ rest)) as [ch2 Hh2].
      { exists (c + blen (opening (LArr n es) ++ body es ++ text (LInt ti))). eapply pos_app; [|reflexivity]. rewrite <- !app_assoc. exact HP. }
      unfold dec_array. cbv zeta. destruct (array_header_open _ _ d _ _ _ Hsm Hn Hz Hm HP Hd) as (c' & -> & H').
      erewrite (array_loop_at buf (d + 1) _ (store X E (d + 1) t) _ es l ti i old (pre ++ rest) ch2 (put w) r);
        [reflexivity|exact Hsm|exact Hse|apply le_n| |exact Hi|exact Hnth|exact Hh2|apply Hne2| |exact Hr|exact H'|].
      + intros p0 old0 w0 c0 s0 Hs0 L0 P0. cbn beta. eapply decode_n_ok; eauto. lia.
      + cbn beta. apply IH; auto. rewrite app_length. specialize (PL E t). lia.
      + apply pos_len in H' as L. rewrite !blen_app in L. apply pos_nonneg in H'. destruct rest; [congruence|]. unfold blen in L. cbn [length] in L. lia.
  Qed.
End Place.


Theorem site_mismatch X Q E T v pre A d t old put rest off det w : small (pre ++ rest) ->
  site X E (r_name Q) nowhere 0 T v pre A d t old put ->
  mismatch X E (r_name Q) (r_string Q) A d t old rest off det w ->
  decode_n X Q E T (pre ++ rest) v = (put w, RErr (ETypeAt (blen pre + off) det)).
Proof.
  intros Hsm Hs Hm. unfold decode_n. change ([], []) with (names_of nowhere).
  assert (pos (pre ++ rest) (blen pre) rest) as Hh by (exists pre; auto).
  eapply (site_decode X Q E (pre ++ rest) Hsm rest (blen pre) w _ nowhere 0 T v pre A d t old put Hs Hh (mismatch_some _ _ _ _ _ _ _ _ _ _ _ _ Hm)).
  - intros f st HL Hi. eapply mismatch_decode; eauto.
  - exact I.
  - apply pos_start.
  - unfold decode_fuel, ptr_cost. destruct (is_ptr E T); lia.
  - intros id [].
Qed.
