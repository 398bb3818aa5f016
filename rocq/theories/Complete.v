(** Completeness of decoding: whatever [Denote.store] allows, the decoder
    accepts, and stores exactly that. *)
From Coq Require Import Strings.String Strings.Byte ZArith List Bool Lia Floats.SpecFloat.
From Verif Require Import Base GoTypes Strconv Tags Scan Decode Grammar Denote NumFacts ScanFacts SkipFacts
  Sound SoundT TextFacts SliceHead.
Import ListNotations.
Open Scope Z_scope.

(** [r] succeeds with [a], leaving [s] unread. *)
Definition done {A} (buf : bytes) (r : A * R Z) (a : A) (s : bytes) : Prop :=
  exists c', r = (a, ROk c') /\ pos buf c' s.

Lemma pos_has_text buf c p s : pos buf c (text p ++ s) -> has_byte buf c = true.
Proof. destruct (text_letter p) as [r ->]. cbn [app]. apply pos_has. Qed.
Lemma pos_rd_text buf c p s : pos buf c (text p ++ s) -> rd buf c = ROk (letter p).
Proof. destruct (text_letter p) as [r ->]. cbn [app]. apply pos_rd. Qed.

Lemma string_bytes_str buf c n b s : small buf -> pos buf c (text (LStr n b) ++ s) -> str_ok n b ->
  exists c', decode_string_bytes buf c = ROk (Some b, c') /\ pos buf c' s.
Proof.
  intros Hsm H [Hn Hl]. unfold decode_string_bytes. rewrite (pos_has_text _ _ _ _ H), (pos_rd_text _ _ _ _ H).
  cbn -[read_string]. rewrite text_str in H.
  destruct (read_string_ok _ _ _ _ _ Hsm (pos_cons _ _ _ _ H) Hn Hl) as (c' & -> & H'). cbn [bind]. eauto.
Qed.
Lemma string_bytes_null buf c s : pos buf c (text LNull ++ s) ->
  exists c', decode_string_bytes buf c = ROk (None, c') /\ pos buf c' s.
Proof.
  intros H. unfold decode_string_bytes. rewrite (pos_has_text _ _ _ _ H), (pos_rd_text _ _ _ _ H).
  cbn -[validate_null]. rewrite text_null in H. apply null_ok in H as [-> H]. cbn [bind]. eauto.
Qed.
Lemma int_bytes_int buf c t z s : pos buf c (text (LInt t) ++ s) -> int_text t z ->
  exists c', decode_int_bytes buf c = ROk (Some t, c') /\ pos buf c' s.
Proof.
  intros H Ht. unfold decode_int_bytes. rewrite (pos_has_text _ _ _ _ H), (pos_rd_text _ _ _ _ H).
  cbn -[read_integer_bytes]. rewrite text_int in H.
  destruct (integer_ok _ _ _ _ _ H Ht) as (c' & -> & H'). cbn [bind]. eauto.
Qed.
Lemma int_bytes_null buf c s : pos buf c (text LNull ++ s) ->
  exists c', decode_int_bytes buf c = ROk (None, c') /\ pos buf c' s.
Proof.
  intros H. unfold decode_int_bytes. rewrite (pos_has_text _ _ _ _ H), (pos_rd_text _ _ _ _ H).
  cbn -[validate_null]. rewrite text_null in H. apply null_ok in H as [-> H]. cbn [bind]. eauto.
Qed.
Lemma float_bytes_float buf c t s : pos buf c (text (LFloat t) ++ s) -> nosemi t ->
  exists c', decode_float_bytes buf c = ROk (Some t, c') /\ pos buf c' s.
Proof.
  intros H Ht. unfold decode_float_bytes. rewrite (pos_has_text _ _ _ _ H), (pos_rd_text _ _ _ _ H).
  cbn -[read_float_bytes]. rewrite text_float in H.
  destruct (float_ok _ _ _ _ H Ht) as (c' & -> & H'). cbn [bind]. eauto.
Qed.
Lemma float_bytes_null buf c s : pos buf c (text LNull ++ s) ->
  exists c', decode_float_bytes buf c = ROk (None, c') /\ pos buf c' s.
Proof.
  intros H. unfold decode_float_bytes. rewrite (pos_has_text _ _ _ _ H), (pos_rd_text _ _ _ _ H).
  cbn -[validate_null]. rewrite text_null in H. apply null_ok in H as [-> H]. cbn [bind]. eauto.
Qed.

Lemma process_int_ok k t z c rv : int_text t z -> int_range k z -> process_int k t c rv = (VInt z, ROk c).
Proof.
  intros Ht Hr. unfold process_int, int_range in *.
  assert (min_int64 <= z <= max_int64) as Hz.
  { unfold min_int64, max_int64. destruct k; cbn [ibits] in Hr; lia. }
  rewrite (proj2 (parse_int64_iff t z)) by auto.
  replace (_ || _) with false; [reflexivity|]. symmetry. apply orb_false_iff. rewrite !Z.ltb_ge. lia.
Qed.
Lemma process_uint_ok k t c rv : numeral t -> uint_range k (num t) -> process_uint k t c rv = (VUint (num t), ROk c).
Proof.
  intros Ht Hr. unfold process_uint, uint_range in *.
  rewrite (proj2 (parse_uint64_iff t (num t))).
  - replace (_ <? _) with false; [reflexivity|]. symmetry. apply Z.ltb_ge. lia.
  - repeat split; auto; try apply Ht. destruct k; cbn [ubits] in Hr; lia.
Qed.
Lemma process_float_ok64 X t f c rv : float_text X t f -> process_float X false t c rv = (VF64 f, ROk c).
Proof. intros H. unfold process_float. apply parse_float_some in H as ->. reflexivity. Qed.
Lemma process_float_ok32 X t f c rv : float_text X t f -> overflow_f32 f = false ->
  process_float X true t c rv = (VF32 (f32_of_f64 f), ROk c).
Proof. intros H Ho. unfold process_float. apply parse_float_some in H as ->. rewrite Ho. reflexivity. Qed.

(** Container bodies *)
Lemma body_head es s : exists b r, body es ++ "}"%byte :: s = b :: r /\
  (b =b "}"%byte) = (match es with [] => true | _ => false end).
Proof.
  destruct es as [|[k p] es].
  - exists "}"%byte, s. split; reflexivity.
  - rewrite body_cons. destruct (text_letter k) as [r ->]. eexists _, _. split; [reflexivity|].
    destruct k; reflexivity.
Qed.

Lemma map_loop_ok buf kd vd (K V : lval -> gval -> Prop) m es m' :
  map_entries K V m es m' -> es <> [] ->
  (forall p w c s, K p w -> (length (text p) <= length (body es))%nat -> pos buf c (text p ++ s) -> done buf (kd c) w s) ->
  (forall p w c s, V p w -> (length (text p) <= length (body es))%nat -> pos buf c (text p ++ s) -> done buf (vd c) w s) ->
  forall n c s, pos buf c (body es ++ "}"%byte :: s) -> (length (body es) <= n)%nat ->
  done buf (map_loop kd vd buf n c m) m' s.
Proof.
  intros H. induction H as [|m k p es kv vv m' Kk Vp Hh Hme IH]; intros Hne Hk Hv n c s Hp Hn; [congruence|].
  rewrite body_len in *. pose proof (text_pos k) as Tk. pose proof (text_pos p) as Tp.
  destruct n as [|n]; [lia|]. cbn [map_loop]. rewrite body_cons in Hp.
  rewrite (pos_has_text _ _ _ _ Hp). cbn [negb].
  destruct (Hk k kv c _ Kk ltac:(lia) Hp) as (c1 & -> & H1).
  rewrite (pos_has_text _ _ _ _ H1). cbn [negb].
  destruct (Hv p vv c1 _ Vp ltac:(lia) H1) as (c2 & -> & H2).
  rewrite Hh. cbn [negb]. destruct (body_head es s) as (b & r & Er & Eb).
  rewrite Er in H2. rdn H2. rewrite Eb. destruct es as [|e es].
  - inversion Hme; subst. eexists. split; [reflexivity|]. injection Er as <- <-. eapply pos_cons; exact H2.
  - rewrite <- Er in H2. apply IH; [discriminate|..|exact H2|lia].
    + intros p0 w0 c0 s0 HK HL. apply Hk; [exact HK|lia].
    + intros p0 w0 c0 s0 HV HL. apply Hv; [exact HV|lia].
Qed.

Lemma header_prefix_ok e buf c p n es s : small buf -> body_of p n es -> pos buf c (text p ++ s) ->
  exists cur, (if letter p =b "O"%byte then cend <- skip_class_name buf c ;; ROk (cend + 1)
               else if letter p =b "a"%byte then ROk (c + 1) else RErr e) = ROk cur /\
    pos buf cur (":"%byte :: n ++ ":"%byte :: "{"%byte :: body es ++ "}"%byte :: s).
Proof.
  intros Hsm Hb H. inversion Hb; subst; cbn [letter].
  - change ("a"%byte =b "O"%byte) with false. change ("a"%byte =b "a"%byte) with true. cbn iota.
    rewrite text_arr in H. eexists. split; [reflexivity|]. eapply pos_cons; exact H.
  - change ("O"%byte =b "O"%byte) with true. cbn iota. rewrite text_obj in H.
    destruct (class_name_ok _ _ _ _ _ Hsm H H0 H1) as (c' & -> & H'). cbn [bind]. eauto.
Qed.
Lemma body_of_letter p n es : body_of p n es -> (letter p =b "N"%byte) = false.
Proof. intros H. inversion H; reflexivity. Qed.

Lemma map_header_null buf c d s : pos buf c (text LNull ++ s) -> d < limit ->
  exists c', map_header buf c d = ROk (HNull c') /\ pos buf c' s.
Proof.
  intros H Hd. unfold map_header. rewrite (pos_has_text _ _ _ _ H), (pos_rd_text _ _ _ _ H). cbn [negb bind letter].
  replace (max_depth <? d + 1) with false by (symmetry; apply Z.ltb_ge; unfold limit, max_depth in *; lia).
  rewrite text_null in H. apply null_ok in H as [HN H]. change ("N"%byte =b "N"%byte) with true. cbn iota.
  rewrite HN. cbn [bind]. eauto.
Qed.
Lemma map_header_body buf c d p n es s : small buf -> body_of p n es -> numeral n -> num n <= max_int64 ->
  pos buf c (text p ++ s) -> d < limit ->
  exists c', map_header buf c d = ROk (HBody c') /\ pos buf c' (body es ++ "}"%byte :: s).
Proof.
  intros Hsm Hb Hn Hm H Hd. unfold map_header. rewrite (pos_has_text _ _ _ _ H), (pos_rd_text _ _ _ _ H). cbn [negb bind].
  replace (max_depth <? d + 1) with false by (symmetry; apply Z.ltb_ge; unfold limit, max_depth in *; lia).
  rewrite (body_of_letter _ _ _ Hb).
  destruct (header_prefix_ok (ESyntax c (WStart "map" (letter p))) _ _ _ _ _ _ Hsm Hb H) as (cur & -> & H1). cbn [bind].
  destruct (read_length_ok _ _ _ _ H1 Hn Hm) as [-> H2]. cbn [bind].
  rdn H2. change ("{"%byte =b "{"%byte) with true. cbn [negb]. eexists. split; [reflexivity|]. eapply pos_cons; exact H2.
Qed.
Lemma struct_header_null buf c d s : pos buf c (text LNull ++ s) -> d < limit ->
  exists c', struct_header buf c d = ROk (HNull c') /\ pos buf c' s.
Proof.
  intros H Hd. unfold struct_header. rewrite (pos_has_text _ _ _ _ H), (pos_rd_text _ _ _ _ H). cbn [negb bind letter].
  replace (max_depth <? d + 1) with false by (symmetry; apply Z.ltb_ge; unfold limit, max_depth in *; lia).
  rewrite text_null in H. apply null_ok in H as [HN H]. change ("N"%byte =b "N"%byte) with true. cbn iota.
  rewrite HN. cbn [bind]. eauto.
Qed.
Lemma struct_header_body buf c d p n es s : small buf -> body_of p n es -> numeral n ->
  pos buf c (text p ++ s) -> d < limit ->
  exists c', struct_header buf c d = ROk (HBody c') /\ pos buf c' (body es ++ "}"%byte :: s).
Proof.
  intros Hsm Hb Hn H Hd. unfold struct_header. rewrite (pos_has_text _ _ _ _ H), (pos_rd_text _ _ _ _ H). cbn [negb bind].
  replace (max_depth <? d + 1) with false by (symmetry; apply Z.ltb_ge; unfold limit, max_depth in *; lia).
  rewrite (body_of_letter _ _ _ Hb).
  destruct (header_prefix_ok (ESyntax c (WValue (letter p))) _ _ _ _ _ _ Hsm Hb H) as (cur & -> & H1). cbn [bind].
  rdn H1. change (":"%byte =b ":"%byte) with true. cbn [negb].
  destruct (skip_length_ok _ _ _ _ H1 Hn) as [-> H2]. cbn [bind].
  rdn H2. change ("{"%byte =b "{"%byte) with true. cbn [negb]. eexists. split; [reflexivity|]. eapply pos_cons; exact H2.
Qed.

Lemma dec_map_null buf kd vd c d rv s : pos buf c (text LNull ++ s) -> d < limit ->
  done buf (dec_map kd vd buf c d rv) (VMap None) s.
Proof.
  intros H Hd. unfold dec_map. destruct (map_header_null _ _ d _ H Hd) as (c' & -> & H'). exists c'. auto.
Qed.
Lemma dec_map_ok buf kd vd (K V : lval -> gval -> Prop) c d o p n es m s :
  small buf -> body_of p n es -> numeral n -> num n <= max_int64 -> d < limit ->
  pos buf c (text p ++ s) ->
  (forall p' w c s, K p' w -> (length (text p') + 3 <= length (text p))%nat -> pos buf c (text p' ++ s) -> done buf (kd c) w s) ->
  (forall p' w c s, V p' w -> (length (text p') + 3 <= length (text p))%nat -> pos buf c (text p' ++ s) -> done buf (vd c) w s) ->
  map_entries K V (match o with Some m => m | None => [] end) es m ->
  done buf (dec_map kd vd buf c d (VMap o)) (VMap (Some m)) s.
Proof.
  intros Hsm Hb Hn Hm Hd H Hk Hv Hme. unfold dec_map.
  pose proof (body_of_len _ _ _ Hb) as LB.
  destruct (map_header_body _ _ d _ _ _ _ Hsm Hb Hn Hm H Hd) as (c' & -> & H').
  destruct (body_head es s) as (b & r & Er & Eb). rewrite Er in H'. rdn H'. rewrite Eb. destruct es as [|e es].
  - inversion Hme; subst. eexists. split; [destruct o; reflexivity|]. injection Er as <- <-. eapply pos_cons; exact H'.
  - rewrite <- Er in H'.
    destruct (map_loop_ok buf kd vd K V _ _ _ Hme ltac:(discriminate)) with (n := length buf) (c := c') (s := s) as (c2 & E2 & H2).
    + intros p0 w0 c0 s0 HK HL. apply Hk; [exact HK|lia].
    + intros p0 w0 c0 s0 HV HL. apply Hv; [exact HV|lia].
    + exact H'.
    + apply pos_len in H' as L. rewrite blen_app in L. apply pos_nonneg in H'. unfold blen in L. lia.
    + rewrite E2. exists c2. auto.
Qed.

(** any *)
Lemma any_key_ok buf k w c s : small buf -> any_key k w -> pos buf c (text k ++ s) -> done buf (dec_any_key buf c) w s.
Proof.
  intros Hsm Hk H. unfold dec_any_key. rewrite (pos_rd_text _ _ _ _ H). inversion Hk; subst; cbn [letter].
  - change ("s"%byte =b "s"%byte) with true. cbn iota. unfold dec_string, dec_text.
    destruct (string_bytes_str _ _ _ _ _ Hsm H H0) as (c' & -> & H'). exists c'. auto.
  - change ("i"%byte =b "s"%byte) with false. change ("i"%byte =b "i"%byte) with true. cbn iota. unfold dec_int, dec_text.
    destruct (int_bytes_int _ _ _ _ _ H H0) as (c' & -> & H').
    rewrite (process_int_ok _ _ _ _ _ H0 H1). exists c'. auto.
Qed.
Lemma obj_key_ok buf k w c s : small buf -> obj_key k w -> pos buf c (text k ++ s) ->
  done buf (dec_string buf c (VStr [])) w s.
Proof.
  intros Hsm Hk H. unfold dec_string, dec_text. inversion Hk; subst.
  - destruct (string_bytes_str _ _ _ _ _ Hsm H H0) as (c' & -> & H'). exists c'. auto.
  - destruct (string_bytes_null _ _ _ H) as (c' & -> & H'). exists c'. auto.
Qed.

Lemma any_f_ok X buf : small buf -> forall fuel p d w c s, any_val X d p w -> pos buf c (text p ++ s) ->
  (length (text p) <= fuel)%nat ->
  exists o c', w = VIface o /\ dec_any_f X fuel buf c d = ROk (o, c') /\ pos buf c' s.
Proof.
  intros Hsm fuel. induction fuel as [|f IH]; intros p d w c s Hp H HL; [pose proof (text_pos p); lia|].
  cbn [dec_any_f]. cbn zeta. rewrite (pos_rd_text _ _ _ _ H). cbn [bind].
  set (vd := fun c0 : Z => match dec_any_f X f buf c0 (d + 1) return dres with
             | ROk (o, c') => (VIface o, ROk c') | r => (VIface None, fail r) end).
  assert (forall p' w' c' s', any_val X (d + 1) p' w' -> (length (text p') + 3 <= length (text p))%nat ->
    pos buf c' (text p' ++ s') -> done buf (vd c') w' s') as Hvd.
  { intros p' w' c' s' Hp' L' H'. subst vd. cbn beta.
    destruct (IH p' (d + 1) w' c' s' Hp' H' ltac:(lia)) as (o & c2 & -> & -> & H2). exists c2. auto. }
  inversion Hp; subst; cbn [letter].
  - cbn -[validate_null]. rewrite text_null in H. apply null_ok in H as [-> H]. cbn [bind]. eauto 6.
  - cbn -[read_bool]. rewrite text_bool in H. apply bool_ok in H as [-> H]. cbn [bind]. eauto 6.
  - cbn -[dec_int]. unfold dec_int, dec_text. destruct (int_bytes_int _ _ _ _ _ H H0) as (c' & -> & H').
    rewrite (process_int_ok _ _ _ _ _ H0 H1). eauto 6.
  - cbn -[dec_float]. unfold dec_float, dec_text. destruct (float_bytes_float _ _ _ _ H ltac:(split; auto)) as (c' & -> & H').
    rewrite (process_float_ok64 _ _ _ _ _ H2). eauto 6.
  - cbn -[read_string]. rewrite text_str in H. destruct H0 as [Hn Hl].
    destruct (read_string_ok _ _ _ _ _ Hsm (pos_cons _ _ _ _ H) Hn Hl) as (c' & -> & H'). cbn [bind]. eauto 6.
  - cbn -[dec_map dec_any_key]. change (max_depth <? d + 1) with (max_depth <? d + 1).
    destruct (dec_map_ok buf (fun c0 => dec_any_key buf c0) vd any_key (any_val X (d + 1)) c d None (LArr n es) n es m s) as (c' & E & H'); auto.
    { constructor. }
    { intros p' w' c' s' HK HL' HP. eapply any_key_ok; eauto. }
    rewrite E. eauto 6.
  - cbn -[dec_map dec_string].
    destruct (dec_map_ok buf (fun c0 => dec_string buf c0 (VStr [])) vd obj_key (any_val X (d + 1)) c d None (LObj cn cls n es) n es m s) as (c' & E & H'); auto.
    { intros p' w' c' s' HK HL' HP. eapply obj_key_ok; eauto. }
    rewrite E. eauto 6.
Qed.
Lemma any_ok X buf p d w c s : small buf -> any_val X d p w -> pos buf c (text p ++ s) ->
  exists o c', w = VIface o /\ dec_any X buf c d = ROk (o, c') /\ pos buf c' s.
Proof.
  intros Hsm Hp H. unfold dec_any. eapply any_f_ok; eauto.
  apply pos_len in H as L. apply pos_nonneg in H. rewrite blen_app in L. unfold blen in L. lia.
Qed.
Lemma iface_any_ok X buf p d w c s rv : small buf -> any_val X d p w -> pos buf c (text p ++ s) ->
  done buf (dec_iface_any X buf c d rv) w s.
Proof.
  intros Hsm Hp H. unfold dec_iface_any. destruct (any_ok X buf p d w c s Hsm Hp H) as (o & c' & -> & -> & H').
  exists c'. auto.
Qed.

(** Custom Unmarshalers *)
Lemma span_ok buf c d p s : small buf -> strict d p -> pos buf c (text p ++ s) ->
  exists c', (cend <- skip_value buf c d ;; src <- sub buf c cend ;; ROk (src, cend)) = ROk (text p, c') /\ pos buf c' s.
Proof.
  intros Hsm Hp H. destruct (skip_value_ok buf c d p s Hsm Hp H) as (c' & -> & H'). cbn [bind].
  rewrite (pos_sub _ _ (text p) s c' H).
  - cbn. eauto.
  - apply pos_len in H as L1. apply pos_len in H'. rewrite blen_app in L1. lia.
Qed.

Lemma unm_null_ok X E T n buf c d rv s : small buf -> has_unmarshal E T = Some n ->
  pos buf c (text LNull ++ s) -> done buf (dec_unm X E n buf c d rv) (zero E T) s.
Proof.
  intros Hsm Hu H. pose proof (has_unmarshal_name _ _ _ Hu) as ->. unfold dec_unm.
  destruct (span_ok buf c d LNull s Hsm (st_null _) H) as (c' & -> & H'). exists c'. split; [reflexivity|exact H'].
Qed.
Lemma unm_ok X E T n buf c d p rv w s : small buf -> has_unmarshal E T = Some n -> p <> LNull -> strict d p ->
  x_unmarshal X n (text p) (zero E T) = (w, true) ->
  pos buf c (text p ++ s) -> done buf (dec_unm X E n buf c d rv) w s.
Proof.
  intros Hsm Hu Hnn Hp Hx H. pose proof (has_unmarshal_name _ _ _ Hu) as ->. unfold dec_unm.
  destruct (span_ok buf c d p s Hsm Hp H) as (c' & -> & H'). cbn zeta.
  rewrite text_unquoted, Hx. destruct (text p) as [|b r] eqn:Et; [destruct (text_letter p) as [r Er]; congruence|].
  rewrite (text_first _ _ _ Et). rewrite <- Et.
  replace (bytes_eqb (text p) (bs "N;")) with false.
  - rewrite andb_false_r. exists c'. auto.
  - symmetry. apply bytes_eqb_neq. rewrite text_null_iff. exact Hnn.
Qed.

(** Slices and arrays *)
Lemma depth_ok d : d < limit -> (max_depth <? d + 1) = false.
Proof. intros H. apply Z.ltb_ge. unfold limit, max_depth in *. lia. Qed.

Lemma array_header_null buf c d s : pos buf c (text LNull ++ s) -> d < limit ->
  exists c', array_header buf c d = ROk (AhNull c') /\ pos buf c' s.
Proof.
  intros H Hd. unfold array_header, seq_header. rewrite (pos_has_text _ _ _ _ H), (pos_rd_text _ _ _ _ H). cbn [negb bind letter].
  rewrite (depth_ok _ Hd). rewrite text_null in H. apply null_ok in H as [HN H]. change ("N"%byte =b "N"%byte) with true. cbn iota.
  rewrite HN. cbn [bind]. eauto.
Qed.
Lemma array_header_empty buf c d s : pos buf c (text (LArr (bs "0") []) ++ s) -> d < limit ->
  exists c', array_header buf c d = ROk (AhEmpty c') /\ pos buf c' s.
Proof.
  intros H Hd. unfold array_header, seq_header. rewrite (pos_has_text _ _ _ _ H), (pos_rd_text _ _ _ _ H). cbn [negb bind letter].
  rewrite (depth_ok _ Hd). change ("a"%byte =b "N"%byte) with false. change ("a"%byte =b "a"%byte) with true. cbn iota zeta.
  rewrite text_arr in H. cbn [bs list_byte_of_string app] in H. 
  pose proof (pos_cons _ _ _ _ H) as H1. rdn H1. change (":"%byte =b ":"%byte) with true. cbn [negb].
  pose proof (pos_cons _ _ _ _ H1) as H2. rdn H2. 
  pose proof (empty_array_ok _ _ _ _ H2) as [E H3]. cbn -[validate_empty_array]. rewrite E. cbn [bind].
  eexists. split; [reflexivity|exact H3].
Qed.
Lemma array_header_body buf c d n es s : small buf -> numeral n -> hd_error n <> Some "0"%byte -> num n <= max_int64 ->
  pos buf c (text (LArr n es) ++ s) -> d < limit ->
  exists c', array_header buf c d = ROk (AhBody (num n) c') /\ pos buf c' (body es ++ "}"%byte :: s).
Proof.
  intros Hsm Hn Hhd Hm H Hd. unfold array_header, seq_header. rewrite (pos_has_text _ _ _ _ H), (pos_rd_text _ _ _ _ H). cbn [negb bind letter].
  rewrite (depth_ok _ Hd). change ("a"%byte =b "N"%byte) with false. change ("a"%byte =b "a"%byte) with true. cbn iota zeta.
  rewrite text_arr in H.
  pose proof (pos_cons _ _ _ _ H) as H1. rdn H1. change (":"%byte =b ":"%byte) with true. cbn [negb].
  pose proof (pos_cons _ _ _ _ H1) as H2. destruct n as [|d0 n]; [destruct Hn; congruence|]. cbn [app] in H2.
  rdn H2. replace (d0 =b "0"%byte) with false by (symmetry; apply eqb_neq; cbn in Hhd; congruence).
  unfold read_length_int. replace (c + 1 + 1 - 1) with (c + 1) by lia.
  destruct (read_length_ok _ _ _ _ H1 Hn Hm) as [-> H3]. cbn [bind].
  rdn H3. change ("{"%byte =b "{"%byte) with true. cbn [negb]. eexists. split; [reflexivity|]. eapply pos_cons; exact H3.
Qed.
Lemma slice_header_null buf c d s : pos buf c (text LNull ++ s) -> d < limit ->
  exists c', slice_header buf c d = ROk (AhNull c') /\ pos buf c' s.
Proof. intros H Hd. destruct (array_header_null buf c d s H Hd) as (c' & Q & P). exists c'. split; [apply slice_header_ok, Q|exact P]. Qed.
Lemma slice_header_empty buf c d s : pos buf c (text (LArr (bs "0") []) ++ s) -> d < limit ->
  exists c', slice_header buf c d = ROk (AhEmpty c') /\ pos buf c' s.
Proof. intros H Hd. destruct (array_header_empty buf c d s H Hd) as (c' & Q & P). exists c'. split; [apply slice_header_ok, Q|exact P]. Qed.
Lemma slice_header_body buf c d n es s : small buf -> numeral n -> hd_error n <> Some "0"%byte -> num n <= max_int64 ->
  pos buf c (text (LArr n es) ++ s) -> d < limit ->
  exists c', slice_header buf c d = ROk (AhBody (num n) c') /\ pos buf c' (body es ++ "}"%byte :: s).
Proof.
  intros Hsm Hn Hhd Hm H Hd. destruct (array_header_body buf c d n es s Hsm Hn Hhd Hm H Hd) as (c' & Q & P).
  exists c'. split; [apply slice_header_ok, Q|exact P].
Qed.

Lemma slice_loop_ok X E et buf ed (V : lval -> gval -> gval -> Prop) l es l' :
  slice_entries (x_slots X et) (zero E et) V l es l' -> es <> [] ->
  (forall p old w c s, V p old w -> (length (text p) <= length (body es))%nat -> pos buf c (text p ++ s) -> done buf (ed c old) w s) ->
  forall n c s rv, pos buf c (body es ++ "}"%byte :: s) -> (length (body es) <= n)%nat ->
  done buf (slice_loop X E et ed buf n c l rv) (VSlice (Some l')) s.
Proof.
  intros H. induction H as [l|l t i p es old v l' Hi Hnth HV Hse IH|l t i p es v l' Hi Hlen Hmx Hsl HV Hse IH];
    intros Hne He n c s rv Hp Hn; [congruence|..].
  all: rewrite body_len in *; pose proof (text_pos (LInt t)) as Tk; pose proof (text_pos p) as Tp;
    (destruct n as [|n]; [lia|]); cbn [slice_loop]; rewrite body_cons in Hp;
    rewrite (pos_has_text _ _ _ _ Hp); cbn [negb]; rewrite text_int in Hp;
    destruct Hi as [Hi1 Hi2];
    destruct (read_int_ok _ _ _ _ _ Hp Hi1 ltac:(lia)) as (c1 & -> & H1);
    rewrite (pos_has_text _ _ _ _ H1); cbn [negb].
  - assert (i < length l)%nat as Hil by (apply nth_error_Some; congruence).
    replace (_ <? blen l) with true by (symmetry; apply Z.ltb_lt; unfold blen; lia).
    rewrite index_ok by (unfold blen; lia). rewrite Nat2Z.id. rewrite (nth_error_nth l i VOther Hnth).
    destruct (He p old v c1 _ HV ltac:(lia) H1) as (c2 & -> & H2).
    destruct (body_head es s) as (b & r & Er & Eb). rewrite Er in H2. rdn H2. rewrite Eb. destruct es as [|e es].
    + inversion Hse; subst. eexists. split; [reflexivity|]. injection Er as <- <-. eapply pos_cons; exact H2.
    + rewrite <- Er in H2. apply IH; [discriminate|..|exact H2|lia].
      intros p0 old0 w0 c0 s0 HV0 HL0. apply He; [exact HV0|lia].
  - replace (_ <? blen l) with false by (symmetry; apply Z.ltb_ge; unfold blen; lia).
    rewrite wrap64_id by (unfold min_int64; lia). rewrite Hsl.
    replace (Z.of_nat i + 1 <? 0) with false by (symmetry; apply Z.ltb_ge; lia). cbn [orb negb]. rewrite index_ok by lia.
    destruct (He p (zero E et) v c1 _ HV ltac:(lia) H1) as (c2 & -> & H2). rewrite Nat2Z.id.
    destruct (body_head es s) as (b & r & Er & Eb). rewrite Er in H2. rdn H2. rewrite Eb. destruct es as [|e es].
    + inversion Hse; subst. eexists. split; [reflexivity|]. injection Er as <- <-. eapply pos_cons; exact H2.
    + rewrite <- Er in H2. apply IH; [discriminate|..|exact H2|lia].
      intros p0 old0 w0 c0 s0 HV0 HL0. apply He; [exact HV0|lia].
Qed.

Lemma array_loop_ok buf d ed (V : lval -> gval -> gval -> Prop) l es l' : small buf ->
  array_entries d V l es l' -> es <> [] ->
  (forall p old w c s, V p old w -> (length (text p) <= length (body es))%nat -> pos buf c (text p ++ s) -> done buf (ed c old) w s) ->
  forall n c s, pos buf c (body es ++ "}"%byte :: s) -> (length (body es) <= n)%nat ->
  done buf (array_loop ed buf d n c l) l' s.
Proof.
  intros Hsm H. induction H as [l|l t i p es old v l' Hi Hnth HV Hse IH|l t z p es l' Ht Hz HV Hse IH];
    intros Hne He n c s Hp Hn; [congruence|..].
  all: rewrite body_len in *; pose proof (text_pos (LInt t)) as Tk; pose proof (text_pos p) as Tp;
    (destruct n as [|n]; [lia|]); cbn [array_loop]; rewrite body_cons in Hp;
    rewrite (pos_has_text _ _ _ _ Hp); cbn [negb]; rewrite text_int in Hp.
  - destruct Hi as [Hi1 Hi2].
    destruct (read_int_ok _ _ _ _ _ Hp Hi1 ltac:(lia)) as (c1 & -> & H1);
    rewrite (pos_has_text _ _ _ _ H1); cbn [negb].
    assert (i < length l)%nat as Hil by (apply nth_error_Some; congruence).
    replace (_ <? blen l) with true by (symmetry; apply Z.ltb_lt; unfold blen; lia).
    rewrite index_ok by (unfold blen; lia). rewrite Nat2Z.id. rewrite (nth_error_nth l i VOther Hnth).
    destruct (He p old v c1 _ HV ltac:(lia) H1) as (c2 & -> & H2).
    destruct (body_head es s) as (b & r & Er & Eb). rewrite Er in H2. rdn H2. rewrite Eb. destruct es as [|e es].
    + inversion Hse; subst. eexists. split; [reflexivity|]. injection Er as <- <-. eapply pos_cons; exact H2.
    + rewrite <- Er in H2. apply IH; [discriminate|..|exact H2|lia].
      intros p0 old0 w0 c0 s0 HV0 HL0. apply He; [exact HV0|lia].
  - pose proof (blen_nonneg l) as BL.
    destruct (read_int_ok _ _ _ _ _ Hp Ht ltac:(lia)) as (c1 & -> & H1);
    rewrite (pos_has_text _ _ _ _ H1); cbn [negb].
    replace (z <? blen l) with false by (symmetry; apply Z.ltb_ge; lia).
    destruct (skip_value_ok buf c1 d p _ Hsm HV H1) as (c2 & -> & H2).
    destruct (body_head es s) as (b & r & Er & Eb). rewrite Er in H2. rdn H2. rewrite Eb. destruct es as [|e es].
    + inversion Hse; subst. eexists. split; [reflexivity|]. injection Er as <- <-. eapply pos_cons; exact H2.
    + rewrite <- Er in H2. apply IH; [discriminate|..|exact H2|lia].
      intros p0 old0 w0 c0 s0 HV0 HL0. apply He; [exact HV0|lia].
Qed.

(** Structs *)
Lemma key_text_ok buf c kp k s : small buf -> key_text kp k -> pos buf c (text kp ++ s) ->
  exists o c', decode_string_bytes buf c = ROk (o, c') /\ (match o with Some k => k | None => [] end) = k /\ pos buf c' s.
Proof.
  intros Hsm Hk H. inversion Hk; subst.
  - destruct (string_bytes_str _ _ _ _ _ Hsm H H0) as (c' & -> & H'). exists (Some k), c'. auto.
  - destruct (string_bytes_null _ _ _ H) as (c' & -> & H'). exists None, c'. auto.
Qed.

Lemma struct_loop_ok X E fs buf d fd (V : gty -> lval -> gval -> gval -> Prop) l es l' : small buf ->
  struct_entries X E d fs V l es l' -> es <> [] ->
  (forall k i f p old w c s, string_tagged X E f = false -> V (f_ty f) p old w ->
     (length (text p) <= length (body es))%nat -> pos buf c (text p ++ s) ->
     done buf (fd (FDec k i (f_ty f) false) c old) w s) ->
  (forall k i f p old w c s, string_tagged X E f = true -> store_quoted X E (f_ty f) p old w ->
     pos buf c (text p ++ s) -> done buf (fd (FDec k i (f_ty f) true) c old) w s) ->
  forall n c s, pos buf c (body es ++ "}"%byte :: s) -> (length (body es) <= n)%nat ->
  done buf (struct_loop (field_decs X E 0 fs) fd buf d n c l) l' s.
Proof.
  intros Hsm H.
  induction H as [l|l kp k i f p es old v l' Hk Hl Hnth Hst HV Hse IH|l kp k i f p es old v l' Hk Hl Hnth Hst HV Hse IH
                 |l kp k p es l' Hk Hl HV Hse IH];
    intros Hne He Hq n c s Hp Hn; [congruence|..].
  all: rewrite body_len in *; pose proof (text_pos kp) as Tk; pose proof (text_pos p) as Tp;
    (destruct n as [|n]; [lia|]); cbn [struct_loop]; rewrite body_cons in Hp;
    rewrite (pos_has_text _ _ _ _ Hp); cbn [negb];
    destruct (key_text_ok _ _ _ _ _ Hsm Hk Hp) as (o & c1 & -> & -> & H1);
    rewrite (pos_has_text _ _ _ _ H1); cbn [negb];
    rewrite find_field_lookup; fold (lookup X fs k); rewrite Hl.
  - cbn [fd_idx]. rewrite Hnth, Hst.
    destruct (He k i f p old v c1 _ Hst HV ltac:(lia) H1) as (c2 & -> & H2).
    destruct (body_head es s) as (b & r & Er & Eb). rewrite Er in H2. rdn H2. rewrite Eb. destruct es as [|e es].
    + inversion Hse; subst. eexists. split; [reflexivity|]. injection Er as <- <-. eapply pos_cons; exact H2.
    + rewrite <- Er in H2. apply IH; [discriminate|..|exact H2|lia]; [|exact Hq].
      intros k0 i0 f0 p0 old0 w0 c0 s0 Hst0 HV0 HL0. apply He; [exact Hst0|exact HV0|lia].
  - cbn [fd_idx]. rewrite Hnth, Hst.
    destruct (Hq k i f p old v c1 _ Hst HV H1) as (c2 & -> & H2).
    destruct (body_head es s) as (b & r & Er & Eb). rewrite Er in H2. rdn H2. rewrite Eb. destruct es as [|e es].
    + inversion Hse; subst. eexists. split; [reflexivity|]. injection Er as <- <-. eapply pos_cons; exact H2.
    + rewrite <- Er in H2. apply IH; [discriminate|..|exact H2|lia]; [|exact Hq].
      intros k0 i0 f0 p0 old0 w0 c0 s0 Hst0 HV0 HL0. apply He; [exact Hst0|exact HV0|lia].
  - destruct (skip_value_ok buf c1 d p _ Hsm HV H1) as (c2 & -> & H2).
    destruct (body_head es s) as (b & r & Er & Eb). rewrite Er in H2. rdn H2. rewrite Eb. destruct es as [|e es].
    + inversion Hse; subst. eexists. split; [reflexivity|]. injection Er as <- <-. eapply pos_cons; exact H2.
    + rewrite <- Er in H2. apply IH; [discriminate|..|exact H2|lia]; [|exact Hq].
      intros k0 i0 f0 p0 old0 w0 c0 s0 Hst0 HV0 HL0. apply He; [exact Hst0|exact HV0|lia].
Qed.

(** String-tagged fields *)
Lemma node_of_plain E T k : plain E T k -> node_of E T =
  match k with
  | KBool => NBool | KInt k => NInt k | KUint k => NUint k | KF32 => NF32 | KF64 => NF64 | KString => NString
  | KSlice t => if is_byte E t then NBytes t else NSlice t
  | KArray n t => NArray n t | KMap k v => NMap k v | KPtr t => NPtr t
  | KAny => NAny | KIface _ => NIface | KOther => NInvalid | KStruct id fs => NStruct id fs
  end.
Proof.
  intros [Hu Hk]. unfold node_of. rewrite Hu, Hk. destruct k; auto.
  unfold is_byte. destruct (kind_of E t) as [| |[]| | | | | | | | | | |]; reflexivity.
Qed.

Lemma wrapped_null X nd buf c rv s : pos buf c (text LNull ++ s) -> done buf (dec_wrapped X nd buf c rv) rv s.
Proof.
  intros H. unfold dec_wrapped, dec_text. destruct (string_bytes_null _ _ _ H) as (c' & -> & H'). exists c'. auto.
Qed.
Lemma wrapped_ok X E T buf c rv n b w s : small buf -> str_ok n b -> quoted_scalar X E T b w ->
  pos buf c (text (LStr n b) ++ s) -> done buf (dec_wrapped X (node_of E T) buf c rv) w s.
Proof.
  intros Hsm Hs Hq H. unfold dec_wrapped, dec_text. destruct (string_bytes_str _ _ _ _ _ Hsm H Hs) as (c' & -> & H').
  exists c'. split; [|exact H']. inversion Hq as [? ? Hk Hb|? ? ? Hk Ht Hr|? ? Hk Ht Hr|? ? Hk Ht|? ? Hk Ht Ho]; subst;
    rewrite (node_of_plain _ _ _ Hk).
  - apply parse_bool_some in Hb as ->. reflexivity.
  - rewrite (process_int_ok _ _ _ _ _ Ht Hr). reflexivity.
  - rewrite (process_uint_ok _ _ _ _ Ht Hr). reflexivity.
  - rewrite (process_float_ok64 _ _ _ _ _ Ht). reflexivity.
  - rewrite (process_float_ok32 _ _ _ _ _ Ht Ho). reflexivity.
Qed.
Lemma quoted_ok X E T buf c rv p w s : small buf -> has_unmarshal E T = None ->
  store_quoted X E T p rv w -> pos buf c (text p ++ s) ->
  done buf (match node_of E T with
        | NPtr t' => dec_ptr E t' (fun c v => dec_wrapped X (node_of E t') buf c v) buf c rv
        | nd => dec_wrapped X nd buf c rv
        end) w s.
Proof.
  intros Hsm Hu Hq H.
  assert (is_ptr E T = false -> forall r, done buf (dec_wrapped X (node_of E T) buf c rv) r s ->
    done buf (match node_of E T with
        | NPtr t' => dec_ptr E t' (fun c v => dec_wrapped X (node_of E t') buf c v) buf c rv
        | nd => dec_wrapped X nd buf c rv
        end) r s) as G.
  { intros Hp r D. pose proof (node_plain E T) as NP. destruct (node_of E T); auto.
    unfold is_ptr in Hp. destruct NP as [_ Hk]. rewrite Hk in Hp. discriminate. }
  inversion Hq; subst.
  - rewrite (node_of_plain _ _ _ H0). unfold dec_ptr. rewrite (pos_rd_text _ _ _ _ H). cbn [letter].
    change ("N"%byte =b "N"%byte) with true. cbn iota. rewrite text_null in H. apply null_ok in H as [-> H]. eexists. eauto.
  - rewrite (node_of_plain _ _ _ H0). unfold dec_ptr. rewrite (pos_rd_text _ _ _ _ H). cbn [letter].
    change ("s"%byte =b "N"%byte) with false. cbn iota.
    destruct (wrapped_ok X E t buf c (match o with Some v => v | None => zero E t end) n s0 w0 s Hsm H1 H2 H) as (c' & -> & H').
    exists c'. auto.
  - apply G; auto. apply wrapped_null. exact H.
  - apply G; auto. eapply wrapped_ok; eauto.
Qed.

(** Scalars *)
Lemma dec_bool_null buf c rv s : pos buf c (text LNull ++ s) -> done buf (dec_bool buf c rv) rv s.
Proof.
  intros H. unfold dec_bool. rewrite (pos_has_text _ _ _ _ H), (pos_rd_text _ _ _ _ H). cbn -[validate_null].
  rewrite text_null in H. apply null_ok in H as [-> H]. eexists. eauto.
Qed.
Lemma dec_bool_ok buf c b rv s : pos buf c (text (LBool b) ++ s) -> done buf (dec_bool buf c rv) (VBool b) s.
Proof.
  intros H. unfold dec_bool. rewrite (pos_has_text _ _ _ _ H), (pos_rd_text _ _ _ _ H). cbn -[read_bool].
  rewrite text_bool in H. apply bool_ok in H as [-> H]. eexists. eauto.
Qed.
Lemma dec_int_null k buf c rv s : pos buf c (text LNull ++ s) -> done buf (dec_int k buf c rv) rv s.
Proof. intros H. unfold dec_int, dec_text. destruct (int_bytes_null _ _ _ H) as (c' & -> & H'). exists c'. auto. Qed.
Lemma dec_uint_null k buf c rv s : pos buf c (text LNull ++ s) -> done buf (dec_uint k buf c rv) rv s.
Proof. intros H. unfold dec_uint, dec_text. destruct (int_bytes_null _ _ _ H) as (c' & -> & H'). exists c'. auto. Qed.
Lemma dec_float_null X k buf c rv s : pos buf c (text LNull ++ s) -> done buf (dec_float X k buf c rv) rv s.
Proof. intros H. unfold dec_float, dec_text. destruct (float_bytes_null _ _ _ H) as (c' & -> & H'). exists c'. auto. Qed.
Lemma dec_string_null buf c rv s : pos buf c (text LNull ++ s) -> done buf (dec_string buf c rv) rv s.
Proof. intros H. unfold dec_string, dec_text. destruct (string_bytes_null _ _ _ H) as (c' & -> & H'). exists c'. auto. Qed.

Lemma decode_scalar_null X E f T k buf c d rv s : plain E T k -> scalar_kind k = true ->
  pos buf c (text LNull ++ s) -> done buf (decode_f X E (S f) T buf c d rv) rv s.
Proof.
  intros Hk Hs H. cbn [decode_f]. rewrite (node_of_plain _ _ _ Hk). destruct k; try discriminate Hs.
  - apply dec_bool_null; auto.
  - apply dec_int_null; auto.
  - apply dec_uint_null; auto.
  - apply dec_float_null; auto.
  - apply dec_float_null; auto.
  - apply dec_string_null; auto.
Qed.

(** One step of the decoder: values without typed parts *)
Lemma decode_leaf_ok X E f T buf c d p v w s : small buf -> store X E d T p v w ->
  match node_of E T with
  | NUnm _ | NAny | NIface | NUint _ | NInt _ | NString | NBool | NF32 | NF64 | NInvalid => True
  | _ => False
  end -> pos buf c (text p ++ s) ->
  done buf (decode_f X E (S f) T buf c d v) w s.
Proof.
  intros Hsm Hst Hl H.
  inversion Hst; subst;
    try (match goal with HP : plain _ _ _ |- _ => rewrite (node_of_plain _ _ _ HP) in Hl end;
         cbn iota in Hl; try (destruct Hl; fail); try (destruct (is_byte E t); destruct Hl; fail)).
  - cbn [decode_f]. unfold node_of. rewrite H0. apply unm_null_ok; auto.
  - cbn [decode_f]. unfold node_of. rewrite H0. eapply unm_ok; eauto.
  - eapply decode_scalar_null; eauto.
  - cbn [decode_f]. rewrite (node_of_plain _ _ _ H0). apply dec_bool_ok; auto.
  - cbn [decode_f]. rewrite (node_of_plain _ _ _ H0). unfold dec_int, dec_text.
    destruct (int_bytes_int _ _ _ _ _ H H1) as (c' & -> & H'). rewrite (process_int_ok _ _ _ _ _ H1 H2). exists c'. auto.
  - cbn [decode_f]. rewrite (node_of_plain _ _ _ H0). unfold dec_uint, dec_text.
    destruct (int_bytes_int _ _ _ _ _ H (it_pos _ H1)) as (c' & -> & H'). rewrite (process_uint_ok _ _ _ _ H1 H2). exists c'. auto.
  - cbn [decode_f]. rewrite (node_of_plain _ _ _ H0). unfold dec_float, dec_text.
    destruct (float_bytes_float _ _ _ _ H ltac:(split; auto)) as (c' & -> & H'). rewrite (process_float_ok64 _ _ _ _ _ H3). exists c'. auto.
  - cbn [decode_f]. rewrite (node_of_plain _ _ _ H0). unfold dec_float, dec_text.
    destruct (float_bytes_float _ _ _ _ H ltac:(split; auto)) as (c' & -> & H'). rewrite (process_float_ok32 _ _ _ _ _ H3 H4). exists c'. auto.
  - cbn [decode_f]. rewrite (node_of_plain _ _ _ H0). unfold dec_string, dec_text.
    destruct (string_bytes_str _ _ _ _ _ Hsm H H1) as (c' & -> & H'). exists c'. auto.
  - cbn [decode_f]. rewrite (node_of_plain _ _ _ H0). eapply iface_any_ok; eauto.
  - cbn [decode_f]. rewrite (node_of_plain _ _ _ H0). unfold dec_iface. rewrite H2.
    destruct (span_ok buf c d LNull s Hsm (st_null _) H) as (c' & -> & H'). exists c'. split; [reflexivity|exact H'].
  - cbn [decode_f]. rewrite (node_of_plain _ _ _ H0). unfold dec_iface. rewrite H2.
    destruct (span_ok buf c d p s Hsm H4 H) as (c' & -> & H').
    replace (bytes_eqb (text p) (bs "N;")) with false by (symmetry; apply bytes_eqb_neq; rewrite text_null_iff; auto).
    rewrite text_unquoted, H5. exists c'. auto.
  - cbn [decode_f]. rewrite (node_of_plain _ _ _ H0). unfold dec_iface.
    set (pl := match rd buf c with ROk c0 => _ | _ => _ end).
    assert (done buf pl (VIface None) s) as G.
    { subst pl. rewrite (pos_rd_text _ _ _ _ H). cbn -[validate_null]. rewrite text_null in H. apply null_ok in H as [-> H]. eexists. eauto. }
    destruct v as [| | | | | | | | | |o| |]; try exact G. destruct o as [[t v]|]; [|exact G].
    destruct t; try exact G. destruct v; try exact G. destruct (has_unmarshal E t) eqn:Eu; [|exact G].
    exfalso. eapply H1; [reflexivity|exact Eu].
Qed.

Lemma key_ok X E T buf c d p w s : small buf -> store_key X E d T p w -> pos buf c (text p ++ s) ->
  done buf (dec_key X E T buf c d) w s.
Proof.
  intros Hsm Hk H. inversion Hk as [? ? ? ? Hkk Hst|? ? t Hp Hu Hkk]; subst.
  - assert (match node_of E T with
      | NUnm _ | NAny | NIface | NUint _ | NInt _ | NString | NBool => True | _ => False end) as Hn.
    { unfold key_kind in Hkk. unfold node_of. destruct (has_unmarshal E T); [exact I|]. destruct Hkk as [Hkk|Hkk]; [congruence|].
      destruct (kind_of E T); try contradiction; exact I. }
    pose proof (decode_leaf_ok X E 0 T buf c d p (zero E T) w s Hsm Hst) as D.
    assert (done buf (decode_f X E 1 T buf c d (zero E T)) w s) as G.
    { apply D; [|exact H]. destruct (node_of E T); auto. }
    clear D. cbn [decode_f] in G. unfold dec_key, key_node.
    destruct (has_unmarshal E T) as [n|] eqn:Hu.
    { unfold node_of in G. rewrite Hu in G. exact G. }
    destruct (kind_of E T) eqn:Ek; unfold node_of in *; rewrite Hu, Ek in *; try exact G; try destruct Hn.
    destruct (kind_of E t) as [| |[]| | | | | | | | | | |]; destruct Hn.
  - unfold dec_key, key_node. destruct Hp as [HuT HkT]. rewrite HuT, HkT.
    unfold node_of at 1. rewrite HuT, HkT.
    destruct Hkk as [Hkk|Hkk]; [congruence|].
    destruct (kind_of E t) eqn:Ek; try destruct Hkk; rewrite (node_of_plain E t _ (conj Hu Ek)).
    + destruct (dec_bool_null buf c VOther s H) as (c' & -> & H'). exists c'. auto.
    + unfold dec_text. destruct (int_bytes_null _ _ _ H) as (c' & -> & H'). exists c'. auto.
    + unfold dec_text. destruct (int_bytes_null _ _ _ H) as (c' & -> & H'). exists c'. auto.
    + unfold dec_text. destruct (string_bytes_null _ _ _ H) as (c' & -> & H'). exists c'. auto.
    + destruct (any_ok X buf LNull d (VIface None) c s Hsm (av_null _ _) H) as (o & c' & E0 & -> & H').
      injection E0 as <-. exists c'. auto.
    + destruct (any_ok X buf LNull d (VIface None) c s Hsm (av_null _ _) H) as (o & c' & E0 & -> & H').
      injection E0 as <-. exists c'. auto.
Qed.

Theorem decode_f_ok X E buf : small buf -> forall fuel T c d p v w s,
  store X E d T p v w -> pos buf c (text p ++ s) -> (2 * length (text p) + ptr_cost E T <= fuel)%nat ->
  done buf (decode_f X E fuel T buf c d v) w s.
Proof.
  intros Hsm fuel. induction fuel as [|f IH]; intros T c d p v w s Hst H HL; [pose proof (text_pos p); lia|].
  assert (forall et p' old w' c' s', store X E (d + 1) et p' old w' -> (length (text p') + 3 <= length (text p))%nat ->
    pos buf c' (text p' ++ s') -> done buf (decode_f X E f et buf c' (d + 1) old) w' s') as He.
  { intros et p' old w' c' s' Hs' L' H'. eapply IH; eauto. unfold ptr_cost. destruct (is_ptr E et); lia. }
  pose proof (node_plain E T) as NP.
  destruct (node_of E T) as [n|t|id fs|t|t|n t|kt vt| | |uk|ik| | | | |] eqn:En;
    try (apply (decode_leaf_ok X E f T buf c d p v w s Hsm Hst); [rewrite En; exact I|exact H]; fail).
  - cbn [decode_f]. rewrite En. destruct NP as [Hu Hk].
    inversion Hst; subst;
      try (match goal with HP : plain _ _ _ |- _ => destruct HP as [Hu' Hk']; rewrite Hk in Hk'; subst; try discriminate Hk' end);
      try congruence; try discriminate.
    + injection Hk' as <-. destruct (kind_of E t) eqn:Ekt; unfold is_ptr in H1; rewrite ?Ekt in H1; try discriminate;
      unfold dec_ptr; rewrite (pos_rd_text _ _ _ _ H); cbn [letter]; change ("N"%byte =b "N"%byte) with true; cbn iota;
      rewrite text_null in H; apply null_ok in H as [-> H]; eexists; eauto.
    + injection Hk' as <-.
      assert (done buf (dec_ptr E t (fun c0 v => decode_f X E f t buf c0 d v) buf c (VPtr o)) (VPtr (Some w0)) s) as G.
      2:{ unfold is_ptr in H1. destruct (kind_of E t); try discriminate; exact G. }
      unfold dec_ptr. rewrite (pos_rd_text _ _ _ _ H).
      replace (letter p =b "N"%byte) with false by (destruct p; try reflexivity; congruence).
      assert (ptr_cost E T = 1%nat) as PT by (unfold ptr_cost, is_ptr; rewrite Hk; reflexivity).
      assert (ptr_cost E t = 0%nat) as Pt by (unfold ptr_cost; rewrite H1; reflexivity).
      destruct (IH t c d p _ _ s H3 H ltac:(lia)) as (c' & -> & H'). exists c'. auto.
  - cbn [decode_f]. rewrite En. destruct NP as [Hu Hk].
    inversion Hst; subst;
      try (match goal with HP : plain _ _ _ |- _ => destruct HP as [Hu' Hk']; rewrite Hk in Hk'; subst; try discriminate Hk' end);
      try congruence; try discriminate.
    + unfold dec_struct. destruct (struct_header_null _ _ d _ H H1) as (c' & -> & H'). exists c'. auto.
    + injection Hk' as <- <-. unfold dec_struct. pose proof (body_of_len _ _ _ H2) as LB.
      destruct (struct_header_body _ _ d _ _ _ _ Hsm H2 H3 H H1) as (c' & -> & H').
      destruct (body_head es s) as (b & r & Er & Eb). rewrite Er in H'. rdn H'. rewrite Eb. destruct es as [|e es].
      * inversion H4; subst. eexists. split; [reflexivity|]. injection Er as <- <-. eapply pos_cons; exact H'.
      * rewrite <- Er in H'. set (fd := fun (d0 : fdec) (c0 : Z) (v : gval) => _).
        destruct (struct_loop_ok X E fs buf (d + 1) fd (store X E (d + 1)) l (e :: es) l' Hsm H4 ltac:(discriminate)) with (n := length buf) (c := c') (s := s) as (c2 & E2 & H2').
        -- intros k i f0 p0 old w0 c0 s0 Ht Hs0 L0 P0. subst fd. cbn [fd_str fd_ty]. eapply He; eauto. lia.
        -- intros k i f0 p0 old w0 c0 s0 Ht Hs0 P0. subst fd. cbn [fd_str fd_ty]. eapply quoted_ok; eauto. eapply string_tagged_unm; eauto.
        -- exact H'.
        -- apply pos_len in H' as L. rewrite blen_app in L. apply pos_nonneg in H'. unfold blen in L. lia.
        -- rewrite E2. exists c2. auto.
  - cbn [decode_f]. rewrite En. destruct NP as [[Hu Hk] Hby]. unfold dec_bytes. rewrite (pos_rd_text _ _ _ _ H).
    inversion Hst; subst;
      try (match goal with HP : plain _ _ _ |- _ => destruct HP as [Hu' Hk']; rewrite Hk in Hk'; subst; try discriminate Hk' end);
      try congruence; try discriminate; injection Hk' as <-; try congruence; cbn [letter].
    + cbn -[dec_text decode_string_bytes]. unfold dec_text. destruct (string_bytes_null _ _ _ H) as (c' & -> & H'). exists c'. auto.
    + cbn -[dec_text decode_string_bytes]. unfold dec_text.
      destruct (string_bytes_str _ _ _ _ _ Hsm H H2) as (c' & -> & H'). exists c'. auto.
    + change ("a"%byte =b "a"%byte) with true. cbn iota. unfold dec_slice.
      destruct (slice_header_empty _ _ d _ H H1) as (c' & -> & H'). exists c'. auto.
    + change ("a"%byte =b "a"%byte) with true. cbn iota. unfold dec_slice. pose proof (arr_len n es) as LA.
      destruct (slice_header_body _ _ d _ _ _ Hsm H2 H3 H4 H H1) as (c' & -> & H'). rewrite H5. cbn [negb].
      eapply slice_loop_ok; eauto.
      * intros p0 old w0 c0 s0 Hs0 L0 P0. eapply He; eauto. lia.
      * apply pos_len in H' as L. rewrite blen_app in L. apply pos_nonneg in H'. unfold blen in L. lia.
  - cbn [decode_f]. rewrite En. destruct NP as [[Hu Hk] Hby]. unfold dec_slice.
    inversion Hst; subst;
      try (match goal with HP : plain _ _ _ |- _ => destruct HP as [Hu' Hk']; rewrite Hk in Hk'; subst; try discriminate Hk' end);
      try congruence; try discriminate; injection Hk' as <-; try congruence.
    + destruct (slice_header_null _ _ d _ H H2) as (c' & -> & H'). exists c'. auto.
    + destruct (slice_header_empty _ _ d _ H H1) as (c' & -> & H'). exists c'. auto.
    + pose proof (arr_len n es) as LA.
      destruct (slice_header_body _ _ d _ _ _ Hsm H2 H3 H4 H H1) as (c' & -> & H'). rewrite H5. cbn [negb].
      eapply slice_loop_ok; eauto.
      * intros p0 old w0 c0 s0 Hs0 L0 P0. eapply He; eauto. lia.
      * apply pos_len in H' as L. rewrite blen_app in L. apply pos_nonneg in H'. unfold blen in L. lia.
  - cbn [decode_f]. rewrite En. destruct NP as [Hu Hk]. unfold dec_array. cbn zeta.
    inversion Hst; subst;
      try (match goal with HP : plain _ _ _ |- _ => destruct HP as [Hu' Hk']; rewrite Hk in Hk'; subst; try discriminate Hk' end);
      try congruence; try discriminate; injection Hk' as <- <-.
    + destruct (array_header_null _ _ d _ H H1) as (c' & -> & H'). exists c'. auto.
    + destruct (array_header_empty _ _ d _ H H1) as (c' & -> & H'). exists c'. auto.
    + pose proof (arr_len n0 es) as LA.
      destruct (array_header_body _ _ d _ _ _ Hsm H2 H3 H4 H H1) as (c' & -> & H').
      destruct (array_loop_ok buf (d + 1) (fun c0 v => decode_f X E f t buf c0 (d + 1) v) _ _ _ _ Hsm H6 H5) with (n := length buf) (c := c') (s := s) as (c2 & E2 & H2').
      * intros p0 old w0 c0 s0 Hs0 L0 P0. eapply He; eauto. lia.
      * exact H'.
      * apply pos_len in H' as L. rewrite blen_app in L. apply pos_nonneg in H'. unfold blen in L. lia.
      * rewrite E2. exists c2. auto.
  - cbn [decode_f]. rewrite En. destruct NP as [Hu Hk].
    inversion Hst; subst;
      try (match goal with HP : plain _ _ _ |- _ => destruct HP as [Hu' Hk']; rewrite Hk in Hk'; subst; try discriminate Hk' end);
      try congruence; try discriminate; injection Hk' as <- <-.
    + apply dec_map_null; auto.
    + eapply dec_map_ok with (K := store_key X E (d + 1) kt) (V := fun q w => store X E (d + 1) vt q (zero E vt) w); eauto.
      * intros p0 w0 c0 s0 HK L0 P0. eapply key_ok; eauto.
Qed.

Theorem decode_ok X E T p v w s : small (text p ++ s) -> store X E 0 T p v w ->
  decode X E T (text p ++ s) 0 0 v = (w, ROk (blen (text p))).
Proof.
  intros Hsm Hst. destruct (decode_f_ok X E (text p ++ s) Hsm (decode_fuel (text p ++ s)) T 0 0 p v w s Hst (pos_start _)) as (c' & Ec & H').
  - unfold decode_fuel, ptr_cost. rewrite app_length. destruct (is_ptr E T); lia.
  - unfold decode. rewrite Ec. do 2 f_equal. apply pos_len in H'. rewrite blen_app in H'. lia.
Qed.
