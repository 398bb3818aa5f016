(** What happens at a place inside an input happens to the whole input. *)
From Coq Require Import Strings.String Strings.Byte ZArith List Bool Lia Floats.SpecFloat.
From Verif Require Import Base GoTypes Strconv Tags Scan Decode Unmarshal Grammar Denote Typing Api NumFacts ScanFacts SkipFacts Sound SoundT
  TextFacts Complete CompileFacts UnmFacts Context LocalFacts ShiftFacts SliceHead.
Import ListNotations.
Open Scope Z_scope.

(** neither success nor out of fuel *)
Definition stuck {A} (r : R A) : Prop := match r with RErr _ | RPanic _ => True | _ => False end.
Lemma stuck_fail {A} (r : R A) : stuck r -> fail r = r.
Proof. destruct r; cbn; tauto. Qed.

Lemma opening_arr n es s : opening (LArr n es) ++ s = "a"%byte :: ":"%byte :: n ++ ":"%byte :: "{"%byte :: s.
Proof. cbn. rewrite <- app_assoc. reflexivity. Qed.
Lemma opening_obj cn cls n es s : opening (LObj cn cls n es) ++ s =
  "O"%byte :: ":"%byte :: cn ++ ":"%byte :: qt :: cls ++ qt :: ":"%byte :: n ++ ":"%byte :: "{"%byte :: s.
Proof. cbn. rewrite <- app_assoc. cbn. rewrite <- app_assoc. cbn. rewrite <- app_assoc. reflexivity. Qed.
Lemma opening_letter p n es s : body_of p n es -> exists r, opening p ++ s = letter p :: r.
Proof. intros H. inversion H; subst; [rewrite opening_arr|rewrite opening_obj]; eexists; reflexivity. Qed.
Lemma opening_len p n es : body_of p n es -> (3 <= length (opening p))%nat.
Proof. intros H. inversion H; subst; cbn; rewrite !app_length; cbn; lia. Qed.
Lemma opening_braces p n es : body_of p n es -> 1 <= braces (opening p).
Proof.
  intros H. assert (exists s, opening p = s ++ ["{"%byte]) as [s ->].
  { inversion H; subst; cbn [opening].
    - exists (bs "a:" ++ n ++ bs ":"). rewrite <- !app_assoc. reflexivity.
    - exists (bs "O:" ++ cn ++ bs ":""" ++ cls ++ bs """:" ++ n ++ bs ":"). rewrite <- !app_assoc. reflexivity. }
  rewrite braces_app. pose proof (braces_nonneg s). change (braces ["{"%byte]) with 1. lia.
Qed.

Lemma opening_prefix e buf c p n es s : small buf -> body_of p n es -> pos buf c (opening p ++ s) ->
  exists cur, (if letter p =b "O"%byte then cend <- skip_class_name buf c ;; ROk (cend + 1)
               else if letter p =b "a"%byte then ROk (c + 1) else RErr e) = ROk cur /\
    pos buf cur (":"%byte :: n ++ ":"%byte :: "{"%byte :: s).
Proof.
  intros Hsm Hb H. inversion Hb; subst; cbn [letter].
  - change ("a"%byte =b "O"%byte) with false. change ("a"%byte =b "a"%byte) with true. cbn iota.
    rewrite opening_arr in H. eexists. split; [reflexivity|]. eapply pos_cons; exact H.
  - change ("O"%byte =b "O"%byte) with true. cbn iota. rewrite opening_obj in H.
    destruct (class_name_ok _ _ _ _ _ Hsm H H0 H1) as (c' & -> & H'). cbn [bind]. eauto.
Qed.
Lemma map_header_open buf c d p n es s : small buf -> body_of p n es -> numeral n -> num n <= max_int64 ->
  pos buf c (opening p ++ s) -> d < limit ->
  exists c', map_header buf c d = ROk (HBody c') /\ pos buf c' s.
Proof.
  intros Hsm Hb Hn Hm H Hd. unfold map_header.
  destruct (opening_letter p n es s Hb) as [r Er]. assert (H0 := H). rewrite Er in H0. rdn H0. rewrite (depth_ok _ Hd), (body_of_letter _ _ _ Hb).
  destruct (opening_prefix (ESyntax c (WStart "map" (letter p))) _ _ _ _ _ _ Hsm Hb H) as (cur & -> & H1). cbn [bind].
  destruct (read_length_ok _ _ _ _ H1 Hn Hm) as [-> H2]. cbn [bind].
  rdn H2. change ("{"%byte =b "{"%byte) with true. cbn [negb]. eexists. split; [reflexivity|]. eapply pos_cons; exact H2.
Qed.
Lemma struct_header_open buf c d p n es s : small buf -> body_of p n es -> numeral n ->
  pos buf c (opening p ++ s) -> d < limit ->
  exists c', struct_header buf c d = ROk (HBody c') /\ pos buf c' s.
Proof.
  intros Hsm Hb Hn H Hd. unfold struct_header.
  destruct (opening_letter p n es s Hb) as [r Er]. assert (H0 := H). rewrite Er in H0. rdn H0. rewrite (depth_ok _ Hd), (body_of_letter _ _ _ Hb).
  destruct (opening_prefix (ESyntax c (WValue (letter p))) _ _ _ _ _ _ Hsm Hb H) as (cur & -> & H1). cbn [bind].
  rdn H1. change (":"%byte =b ":"%byte) with true. cbn [negb].
  destruct (skip_length_ok _ _ _ _ H1 Hn) as [-> H2]. cbn [bind].
  rdn H2. change ("{"%byte =b "{"%byte) with true. cbn [negb]. eexists. split; [reflexivity|]. eapply pos_cons; exact H2.
Qed.
Lemma array_header_open buf c d n es s : small buf -> numeral n -> hd_error n <> Some "0"%byte -> num n <= max_int64 ->
  pos buf c (opening (LArr n es) ++ s) -> d < limit ->
  exists c', array_header buf c d = ROk (AhBody (num n) c') /\ pos buf c' s.
Proof.
  intros Hsm Hn Hhd Hm H Hd. rewrite opening_arr in H. unfold array_header, seq_header. rdn H.
  rewrite (depth_ok _ Hd). change ("a"%byte =b "N"%byte) with false. change ("a"%byte =b "a"%byte) with true. cbn iota zeta.
  pose proof (pos_cons _ _ _ _ H) as H1. rdn H1. change (":"%byte =b ":"%byte) with true. cbn [negb].
  pose proof (pos_cons _ _ _ _ H1) as H2. destruct n as [|d0 n]; [destruct Hn; congruence|]. cbn [app] in H2.
  rdn H2. replace (d0 =b "0"%byte) with false by (symmetry; apply eqb_neq; cbn in Hhd; congruence).
  unfold read_length_int. replace (c + 1 + 1 - 1) with (c + 1) by lia.
  destruct (read_length_ok _ _ _ _ H1 Hn Hm) as [-> H3]. cbn [bind].
  rdn H3. change ("{"%byte =b "{"%byte) with true. cbn [negb]. eexists. split; [reflexivity|]. eapply pos_cons; exact H3.
Qed.
Lemma slice_header_open buf c d n es s : small buf -> numeral n -> hd_error n <> Some "0"%byte -> num n <= max_int64 ->
  pos buf c (opening (LArr n es) ++ s) -> d < limit ->
  exists c', slice_header buf c d = ROk (AhBody (num n) c') /\ pos buf c' s.
Proof.
  intros Hsm Hn Hhd Hm H Hd. destruct (array_header_open buf c d n es s Hsm Hn Hhd Hm H Hd) as (c' & Q & P).
  exists c'. split; [apply slice_header_ok, Q|exact P].
Qed.
Lemma entry_head es kp s : exists b r, body es ++ text kp ++ s = b :: r /\ (b =b "}"%byte) = false.
Proof.
  assert (forall p s, exists b r, text p ++ s = b :: r /\ (b =b "}"%byte) = false) as P.
  { intros p s0. destruct (text_letter p) as [r ->]. exists (letter p), (r ++ s0). split; [reflexivity|]. destruct p; reflexivity. }
  destruct es as [|[k v] es]; [apply P|]. rewrite body_cons. apply P.
Qed.
Lemma pos_has_ne buf c s : pos buf c s -> s <> [] -> has_byte buf c = true.
Proof. destruct s; [congruence|]. intros H _. eapply pos_has; exact H. Qed.
(** there is one cursor for each remainder *)
Lemma pos_same buf c c' s : pos buf c s -> pos buf c' s -> c = c'.
Proof. intros H H'. apply pos_len in H, H'. lia. Qed.

(** ** The loops, up to an entry that fails *)
Lemma map_loop_at buf kd vd (K V : lval -> gval -> Prop) m es m' kp kv rest ch w r M : map_entries K V m es m' ->
  (length (body es) + length (text kp) <= M)%nat ->
  (forall p w c s, K p w -> (length (text p) <= M)%nat -> pos buf c (text p ++ s) -> done buf (kd c) w s) ->
  (forall p w c s, V p w -> (length (text p) <= M)%nat -> pos buf c (text p ++ s) -> done buf (vd c) w s) ->
  K kp kv -> pos buf ch rest -> rest <> [] -> vd ch = (w, r) -> stuck r ->
  forall n c, pos buf c (body es ++ text kp ++ rest) -> (length (body es) < n)%nat ->
  map_loop kd vd buf n c m = (m', r).
Proof.
  intros H HM Hk Hv Kk Hh Hne Hvd Hr. induction H as [m|m k p es k1 v1 m' Kk1 Vp Hhash Hme IH]; intros n c Hp Hn.
  - cbn [body flat_map app] in Hp. destruct n as [|n]; [lia|]. cbn [map_loop]. rewrite (pos_has_text _ _ _ _ Hp). cbn [negb].
    destruct (Hk kp kv c _ Kk ltac:(lia) Hp) as (c1 & -> & H1). rewrite (pos_has_ne _ _ _ H1 Hne). cbn [negb].
    rewrite (pos_same _ _ _ _ H1 Hh), Hvd. destruct r; try destruct Hr; reflexivity.
  - rewrite body_len in *. pose proof (text_pos k) as Tk. pose proof (text_pos p) as Tp.
    destruct n as [|n]; [lia|]. cbn [map_loop]. rewrite body_cons in Hp.
    rewrite (pos_has_text _ _ _ _ Hp). cbn [negb].
    destruct (Hk k k1 c _ Kk1 ltac:(lia) Hp) as (c1 & -> & H1).
    rewrite (pos_has_text _ _ _ _ H1). cbn [negb].
    destruct (Hv p v1 c1 _ Vp ltac:(lia) H1) as (c2 & -> & H2).
    rewrite Hhash. cbn [negb]. destruct (entry_head es kp rest) as (b & s & Er & Eb).
    assert (H3 := H2). rewrite Er in H3. rdn H3. rewrite Eb. apply IH; [lia|exact H2|lia].
Qed.
Lemma slice_loop_at X E et buf ed (V : lval -> gval -> gval -> Prop) l es l' t i rest ch w r M :
  slice_entries (x_slots X et) (zero E et) V l es l' ->
  (length (body es) <= M)%nat ->
  (forall p old w c s, V p old w -> (length (text p) <= M)%nat -> pos buf c (text p ++ s) -> done buf (ed c old) w s) ->
  index_text t i -> pos buf ch rest -> rest <> [] -> stuck r ->
  forall n c rv, pos buf c (body es ++ text (LInt t) ++ rest) -> (length (body es) < n)%nat ->
  (forall old, nth_error l' i = Some old -> ed ch old = (w, r) ->
     slice_loop X E et ed buf n c l rv = (VSlice (Some (update l' i w)), r)) /\
  ((length l' <= i)%nat -> Z.of_nat i < max_int64 -> x_slots X et (Z.of_nat i + 1) = true -> ed ch (zero E et) = (w, r) ->
     slice_loop X E et ed buf n c l rv = (match es with [] => rv | _ => VSlice (Some l') end, r)).
Proof.
  intros H HM He Hi Hh Hne Hr.
  induction H as [l|l t1 i1 p es old1 v l' Hi1 Hnth HV Hse IH|l t1 i1 p es v l' Hi1 Hlen Hmx Hsl HV Hse IH]; intros n c rv Hp Hn.
  - cbn [body flat_map app] in Hp. destruct n as [|n]; [lia|]. cbn [slice_loop]. rewrite (pos_has_text _ _ _ _ Hp). cbn [negb]. rewrite text_int in Hp.
    destruct Hi as [Hi1 Hi2]. destruct (read_int_ok _ _ _ _ _ Hp Hi1 ltac:(lia)) as (c1 & -> & H1). rewrite (pos_has_ne _ _ _ H1 Hne). cbn [negb].
    rewrite (pos_same _ _ _ _ H1 Hh). split.
    + intros old Hnth Hed. assert (i < length l)%nat as Hil by (apply nth_error_Some; congruence).
      replace (_ <? blen l) with true by (symmetry; apply Z.ltb_lt; unfold blen; lia).
      rewrite index_ok by (unfold blen; lia). rewrite Nat2Z.id. rewrite (nth_error_nth l i VOther Hnth), Hed.
      destruct r; try destruct Hr; reflexivity.
    + intros Hlen Hmx Hsl Hed. replace (_ <? blen l) with false by (symmetry; apply Z.ltb_ge; unfold blen; lia).
      rewrite wrap64_id by (unfold min_int64; lia). rewrite Hsl.
      replace (Z.of_nat i + 1 <? 0) with false by (symmetry; apply Z.ltb_ge; lia). cbn [orb negb]. rewrite index_ok by lia.
      rewrite Hed. destruct r; try destruct Hr; reflexivity.
  - rewrite body_len in *; pose proof (text_pos (LInt t1)) as Tk; pose proof (text_pos p) as Tp;
    (destruct n as [|n]; [lia|]); cbn [slice_loop]; rewrite body_cons in Hp;
    rewrite (pos_has_text _ _ _ _ Hp); cbn [negb]; rewrite text_int in Hp;
    destruct Hi1 as [Hi1 Hi2];
    destruct (read_int_ok _ _ _ _ _ Hp Hi1 ltac:(lia)) as (c1 & -> & H1);
    rewrite (pos_has_text _ _ _ _ H1); cbn [negb].
    assert (i1 < length l)%nat as Hil by (apply nth_error_Some; congruence).
    replace (_ <? blen l) with true by (symmetry; apply Z.ltb_lt; unfold blen; lia).
    rewrite index_ok by (unfold blen; lia). rewrite Nat2Z.id. rewrite (nth_error_nth l i1 VOther Hnth).
    destruct (He p old1 v c1 _ HV ltac:(lia) H1) as (c2 & -> & H2).
    destruct (entry_head es (LInt t) rest) as (b & s & Er & Eb). assert (H3 := H2). rewrite Er in H3. rdn H3. rewrite Eb.
    destruct (IH ltac:(lia) n c2 (VSlice (Some (update l i1 v))) H2 ltac:(lia)) as [I1 I2]. split.
    + intros old Q1 Q2. apply (I1 old Q1 Q2).
    + intros Q1 Q2 Q3 Q4. rewrite (I2 Q1 Q2 Q3 Q4). destruct es; [|reflexivity]. inversion Hse; subst. reflexivity.
  - rewrite body_len in *; pose proof (text_pos (LInt t1)) as Tk; pose proof (text_pos p) as Tp;
    (destruct n as [|n]; [lia|]); cbn [slice_loop]; rewrite body_cons in Hp;
    rewrite (pos_has_text _ _ _ _ Hp); cbn [negb]; rewrite text_int in Hp;
    destruct Hi1 as [Hi1 Hi2];
    destruct (read_int_ok _ _ _ _ _ Hp Hi1 ltac:(lia)) as (c1 & -> & H1);
    rewrite (pos_has_text _ _ _ _ H1); cbn [negb].
    replace (_ <? blen l) with false by (symmetry; apply Z.ltb_ge; unfold blen; lia).
    rewrite wrap64_id by (unfold min_int64; lia). rewrite Hsl.
    replace (Z.of_nat i1 + 1 <? 0) with false by (symmetry; apply Z.ltb_ge; lia). cbn [orb negb]. rewrite index_ok by lia.
    destruct (He p (zero E et) v c1 _ HV ltac:(lia) H1) as (c2 & -> & H2). rewrite Nat2Z.id.
    destruct (entry_head es (LInt t) rest) as (b & s & Er & Eb). assert (H3 := H2). rewrite Er in H3. rdn H3. rewrite Eb.
    destruct (IH ltac:(lia) n c2 (VSlice (Some (l ++ repeat (zero E et) (i1 - length l) ++ [v]))) H2 ltac:(lia)) as [I1 I2]. split.
    + intros old Q1 Q2. apply (I1 old Q1 Q2).
    + intros Q1 Q2 Q3 Q4. rewrite (I2 Q1 Q2 Q3 Q4). destruct es; [|reflexivity]. inversion Hse; subst. reflexivity.
Qed.
Lemma array_loop_at buf d ed (V : lval -> gval -> gval -> Prop) l es l' t i old rest ch w r M : small buf ->
  array_entries d V l es l' ->
  (length (body es) <= M)%nat ->
  (forall p old w c s, V p old w -> (length (text p) <= M)%nat -> pos buf c (text p ++ s) -> done buf (ed c old) w s) ->
  index_text t i -> nth_error l' i = Some old -> pos buf ch rest -> rest <> [] -> ed ch old = (w, r) -> stuck r ->
  forall n c, pos buf c (body es ++ text (LInt t) ++ rest) -> (length (body es) < n)%nat ->
  array_loop ed buf d n c l = (update l' i w, r).
Proof.
  intros Hsm H HM He Hi Hn0 Hh Hne Hed Hr.
  induction H as [l|l t1 i1 p es old1 v l' Hi1 Hnth HV Hse IH|l t1 z p es l' Ht Hz HV Hse IH]; intros n c Hp Hn.
  - cbn [body flat_map app] in Hp. destruct n as [|n]; [lia|]. cbn [array_loop]. rewrite (pos_has_text _ _ _ _ Hp). cbn [negb]. rewrite text_int in Hp.
    destruct Hi as [Hi1 Hi2]. destruct (read_int_ok _ _ _ _ _ Hp Hi1 ltac:(lia)) as (c1 & -> & H1). rewrite (pos_has_ne _ _ _ H1 Hne). cbn [negb].
    rewrite (pos_same _ _ _ _ H1 Hh). assert (i < length l)%nat as Hil by (apply nth_error_Some; congruence).
    replace (_ <? blen l) with true by (symmetry; apply Z.ltb_lt; unfold blen; lia).
    rewrite index_ok by (unfold blen; lia). rewrite Nat2Z.id. rewrite (nth_error_nth l i VOther Hn0), Hed.
    destruct r; try destruct Hr; reflexivity.
  - rewrite body_len in *; pose proof (text_pos (LInt t1)) as Tk; pose proof (text_pos p) as Tp;
    (destruct n as [|n]; [lia|]); cbn [array_loop]; rewrite body_cons in Hp;
    rewrite (pos_has_text _ _ _ _ Hp); cbn [negb]; rewrite text_int in Hp.
    destruct Hi1 as [Hi1 Hi2].
    destruct (read_int_ok _ _ _ _ _ Hp Hi1 ltac:(lia)) as (c1 & -> & H1).
    rewrite (pos_has_text _ _ _ _ H1); cbn [negb].
    assert (i1 < length l)%nat as Hil by (apply nth_error_Some; congruence).
    replace (_ <? blen l) with true by (symmetry; apply Z.ltb_lt; unfold blen; lia).
    rewrite index_ok by (unfold blen; lia). rewrite Nat2Z.id. rewrite (nth_error_nth l i1 VOther Hnth).
    destruct (He p old1 v c1 _ HV ltac:(lia) H1) as (c2 & -> & H2).
    destruct (entry_head es (LInt t) rest) as (b & s & Er & Eb). assert (H3 := H2). rewrite Er in H3. rdn H3. rewrite Eb.
    apply IH; [lia|exact Hn0|exact H2|lia].
  - rewrite body_len in *; pose proof (text_pos (LInt t1)) as Tk; pose proof (text_pos p) as Tp;
    (destruct n as [|n]; [lia|]); cbn [array_loop]; rewrite body_cons in Hp;
    rewrite (pos_has_text _ _ _ _ Hp); cbn [negb]; rewrite text_int in Hp.
    pose proof (blen_nonneg l) as BL.
    destruct (read_int_ok _ _ _ _ _ Hp Ht ltac:(lia)) as (c1 & -> & H1).
    rewrite (pos_has_text _ _ _ _ H1); cbn [negb].
    replace (z <? blen l) with false by (symmetry; apply Z.ltb_ge; lia).
    destruct (skip_value_ok buf c1 d p _ Hsm HV H1) as (c2 & -> & H2).
    destruct (entry_head es (LInt t) rest) as (b & s & Er & Eb). assert (H3 := H2). rewrite Er in H3. rdn H3. rewrite Eb.
    apply IH; [lia|exact Hn0|exact H2|lia].
Qed.
Lemma struct_loop_at X E fs buf d fd (V : gty -> lval -> gval -> gval -> Prop) l es l' kp k i f old rest ch w r M : small buf ->
  struct_entries X E d fs V l es l' ->
  (length (body es) + length (text kp) <= M)%nat ->
  (forall k i f p old w c s, string_tagged X E f = false -> V (f_ty f) p old w ->
     (length (text p) <= M)%nat -> pos buf c (text p ++ s) ->
     done buf (fd (FDec k i (f_ty f) false) c old) w s) ->
  (forall k i f p old w c s, string_tagged X E f = true -> store_quoted X E (f_ty f) p old w ->
     pos buf c (text p ++ s) -> done buf (fd (FDec k i (f_ty f) true) c old) w s) ->
  key_text kp k -> lookup X fs k = Some (i, f) -> nth_error l' i = Some old -> string_tagged X E f = false ->
  pos buf ch rest -> rest <> [] -> fd (FDec k i (f_ty f) false) ch old = (w, r) -> stuck r ->
  forall n c, pos buf c (body es ++ text kp ++ rest) -> (length (body es) < n)%nat ->
  struct_loop (field_decs X E 0 fs) fd buf d n c l = (update l' i w, r).
Proof.
  intros Hsm H HM He Hq Hk Hl Hn0 Ht Hh Hne Hfd Hr.
  induction H as [l|l kp1 k1 i1 f1 p es old1 v l' Hk1 Hl1 Hnth Hst HV Hse IH|l kp1 k1 i1 f1 p es old1 v l' Hk1 Hl1 Hnth Hst HV Hse IH
                 |l kp1 k1 p es l' Hk1 Hl1 HV Hse IH]; intros n c Hp Hn.
  - cbn [body flat_map app] in Hp. destruct n as [|n]; [lia|]. cbn [struct_loop]. rewrite (pos_has_text _ _ _ _ Hp). cbn [negb].
    destruct (key_text_ok _ _ _ _ _ Hsm Hk Hp) as (o & c1 & -> & -> & H1). rewrite (pos_has_ne _ _ _ H1 Hne). cbn [negb].
    rewrite find_field_lookup; fold (lookup X fs k); rewrite Hl. cbn [fd_idx]. rewrite Hn0, Ht, (pos_same _ _ _ _ H1 Hh), Hfd.
    destruct r; try destruct Hr; reflexivity.
  - rewrite body_len in *; pose proof (text_pos kp1) as Tk; pose proof (text_pos p) as Tp;
    (destruct n as [|n]; [lia|]); cbn [struct_loop]; rewrite body_cons in Hp;
    rewrite (pos_has_text _ _ _ _ Hp); cbn [negb];
    destruct (key_text_ok _ _ _ _ _ Hsm Hk1 Hp) as (o & c1 & -> & -> & H1);
    rewrite (pos_has_text _ _ _ _ H1); cbn [negb];
    rewrite find_field_lookup; fold (lookup X fs k1); rewrite Hl1.
    cbn [fd_idx]. rewrite Hnth, Hst.
    destruct (He k1 i1 f1 p old1 v c1 _ Hst HV ltac:(lia) H1) as (c2 & -> & H2).
    destruct (entry_head es kp rest) as (b & s & Er & Eb). assert (H3 := H2). rewrite Er in H3. rdn H3. rewrite Eb.
    apply IH; [lia|exact Hn0|exact H2|lia].
  - rewrite body_len in *; pose proof (text_pos kp1) as Tk; pose proof (text_pos p) as Tp;
    (destruct n as [|n]; [lia|]); cbn [struct_loop]; rewrite body_cons in Hp;
    rewrite (pos_has_text _ _ _ _ Hp); cbn [negb];
    destruct (key_text_ok _ _ _ _ _ Hsm Hk1 Hp) as (o & c1 & -> & -> & H1);
    rewrite (pos_has_text _ _ _ _ H1); cbn [negb];
    rewrite find_field_lookup; fold (lookup X fs k1); rewrite Hl1.
    cbn [fd_idx]. rewrite Hnth, Hst.
    destruct (Hq k1 i1 f1 p old1 v c1 _ Hst HV H1) as (c2 & -> & H2).
    destruct (entry_head es kp rest) as (b & s & Er & Eb). assert (H3 := H2). rewrite Er in H3. rdn H3. rewrite Eb.
    apply IH; [lia|exact Hn0|exact H2|lia].
  - rewrite body_len in *; pose proof (text_pos kp1) as Tk; pose proof (text_pos p) as Tp;
    (destruct n as [|n]; [lia|]); cbn [struct_loop]; rewrite body_cons in Hp;
    rewrite (pos_has_text _ _ _ _ Hp); cbn [negb];
    destruct (key_text_ok _ _ _ _ _ Hsm Hk1 Hp) as (o & c1 & -> & -> & H1);
    rewrite (pos_has_text _ _ _ _ H1); cbn [negb];
    rewrite find_field_lookup; fold (lookup X fs k1); rewrite Hl1.
    destruct (skip_value_ok buf c1 d p _ Hsm HV H1) as (c2 & -> & H2).
    destruct (entry_head es kp rest) as (b & s & Er & Eb). assert (H3 := H2). rewrite Er in H3. rdn H3. rewrite Eb.
    apply IH; [lia|exact Hn0|exact H2|lia].
Qed.

Lemma dec_map_at buf kd vd (K V : lval -> gval -> Prop) c d o p n es m kp kv rest ch w r :
  small buf -> body_of p n es -> numeral n -> num n <= max_int64 -> d < limit ->
  pos buf c (opening p ++ body es ++ text kp ++ rest) ->
  (forall p' w c s, K p' w -> (length (text p') <= length (body es) + length (text kp))%nat -> pos buf c (text p' ++ s) -> done buf (kd c) w s) ->
  (forall p' w c s, V p' w -> (length (text p') <= length (body es) + length (text kp))%nat -> pos buf c (text p' ++ s) -> done buf (vd c) w s) ->
  map_entries K V (match o with Some m => m | None => [] end) es m ->
  K kp kv -> pos buf ch rest -> rest <> [] -> vd ch = (w, r) -> stuck r ->
  dec_map kd vd buf c d (VMap o) = (VMap (Some m), r).
Proof.
  intros Hsm Hb Hn Hm Hd H Hk Hv Hme Kk Hh Hne Hvd Hr. unfold dec_map.
  destruct (map_header_open _ _ d _ _ _ _ Hsm Hb Hn Hm H Hd) as (c' & -> & H').
  destruct (entry_head es kp rest) as (b & s & Er & Eb). assert (H3 := H'). rewrite Er in H3. rdn H3. rewrite Eb.
  erewrite (map_loop_at buf kd vd K V _ es m kp kv rest ch w r); [reflexivity|eassumption|apply le_n|eassumption..|].
  apply pos_len in H' as L. rewrite !blen_app in L. apply pos_nonneg in H'. destruct rest; [congruence|]. unfold blen in L. cbn [length] in L. lia.
Qed.

Lemma any_at X buf rest ch r d pre d' : small buf -> any_context X d pre d' -> pos buf ch rest -> rest <> [] ->
  (forall f, (length rest < f)%nat -> dec_any_f X f buf ch d' = r) -> stuck r ->
  forall f c, pos buf c (pre ++ rest) -> (length (pre ++ rest) < f)%nat -> dec_any_f X f buf c d = r.
Proof.
  intros Hsm H Hh Hne Hf Hr.
  induction H as [d|d n es m k kv pre d' Hd Hn Hm Hme Kk Hc IH|d cn cls n es m k kv pre d' Hd Hb Hn Hm Hme Kk Hc IH]; intros f c Hp HL.
  - cbn [app] in *. rewrite (pos_same _ _ _ _ Hp Hh). apply Hf, HL.
  - specialize (IH Hf). rewrite <- !app_assoc in Hp, HL. destruct f as [|f]; [lia|]. cbn [dec_any_f]. cbv zeta.
    assert (H0 := Hp). rewrite opening_arr in H0. rdn H0.
    change ("a"%byte =b "O"%byte) with false. change ("a"%byte =b "a"%byte) with true. cbn iota.
    rewrite opening_arr in HL. cbn [length] in HL. rewrite app_length in HL. cbn [length] in HL. rewrite !app_length in HL.
    change (entries es) with (body es) in *.
    assert (exists ch2, pos buf ch2 (pre ++ rest)) as [ch2 Hh2].
    { exists (c + blen (opening (LArr n es) ++ body es ++ text k)). eapply pos_app; [|reflexivity]. rewrite <- !app_assoc. exact Hp. }
    set (vd := fun c0 : Z => match dec_any_f X f buf c0 (d + 1) return dres with
             | ROk (o, c') => (VIface o, ROk c') | r => (VIface None, fail r) end).
    assert (vd ch2 = (VIface None, fail r)) as Hvd.
    { subst vd. cbn beta. rewrite (IH f ch2 Hh2) by (rewrite app_length; lia). destruct r as [[]| | |]; try destruct Hr; reflexivity. }
    rewrite (dec_map_at buf (fun c0 => dec_any_key buf c0) vd any_key (any_val X (d + 1)) c d None (LArr n es) n es m k kv (pre ++ rest) ch2 (VIface None) (fail r)); auto.
    + destruct r; try destruct Hr; reflexivity.
    + constructor.
    + intros p' w c' s HK _ HP. eapply any_key_ok; eauto.
    + intros p' w c' s HV HL' HP. subst vd. cbn beta.
      destruct (any_f_ok X buf Hsm f p' (d + 1) w c' s HV HP ltac:(lia)) as (o & c2 & -> & -> & H2). exists c2. auto.
    + intros Q. apply app_eq_nil in Q as [_ Q]. congruence.
    + destruct r; try destruct Hr; exact I.
  - specialize (IH Hf). rewrite <- !app_assoc in Hp, HL. destruct f as [|f]; [lia|]. cbn [dec_any_f]. cbv zeta.
    assert (H0 := Hp). rewrite opening_obj in H0. rdn H0.
    change ("O"%byte =b "O"%byte) with true. cbn iota.
    pose proof (opening_len _ _ _ Hb) as OL. rewrite !app_length in HL.
    change (entries es) with (body es) in *.
    assert (exists ch2, pos buf ch2 (pre ++ rest)) as [ch2 Hh2].
    { exists (c + blen (opening (LObj cn cls n es) ++ body es ++ text k)). eapply pos_app; [|reflexivity]. rewrite <- !app_assoc. exact Hp. }
    set (vd := fun c0 : Z => match dec_any_f X f buf c0 (d + 1) return dres with
             | ROk (o, c') => (VIface o, ROk c') | r => (VIface None, fail r) end).
    assert (vd ch2 = (VIface None, fail r)) as Hvd.
    { subst vd. cbn beta. rewrite (IH f ch2 Hh2) by (rewrite app_length; lia). destruct r as [[]| | |]; try destruct Hr; reflexivity. }
    rewrite (dec_map_at buf (fun c0 => dec_string buf c0 (VStr [])) vd obj_key (any_val X (d + 1)) c d None (LObj cn cls n es) n es m k kv (pre ++ rest) ch2 (VIface None) (fail r)); auto.
    + destruct r; try destruct Hr; reflexivity.
    + intros p' w c' s HK _ HP. eapply obj_key_ok; eauto.
    + intros p' w c' s HV HL' HP. subst vd. cbn beta.
      destruct (any_f_ok X buf Hsm f p' (d + 1) w c' s HV HP ltac:(lia)) as (o & c2 & -> & -> & H2). exists c2. auto.
    + intros Q. apply app_eq_nil in Q as [_ Q]. congruence.
    + destruct r; try destruct Hr; exact I.
Qed.

Lemma any_context_depth X d pre d' : any_context X d pre d' -> d <= d'.
Proof. intros H. induction H; lia. Qed.
Lemma context_depth X E d T v pre d' t old put : context X E d T v pre d' t old put -> d <= d'.
Proof. intros H. induction H; try lia. eapply any_context_depth; eassumption. Qed.
Lemma inside_step E T U V : component E T U -> inside E U V -> inside E T V.
Proof.
  intros C H. induction H as [|U' V' H IH C'].
  - eapply in_step; [apply in_refl|exact C].
  - eapply in_step; [exact IH|exact C'].
Qed.
Lemma lookup_in X fs k : forall i j f, lookup_from X i fs k = Some (j, f) -> In f fs /\ is_ignored f = false.
Proof.
  induction fs as [|g fs IH]; intros i j f; cbn [lookup_from]; [discriminate|].
  destruct (is_ignored g) eqn:Ei; cbn [negb andb].
  - intros H. apply IH in H as [H1 H2]. split; [right|]; auto.
  - destruct (bytes_eqb _ _); [intros [= _ <-]; split; [left; reflexivity|exact Ei]|]. intros H. apply IH in H as [H1 H2]. split; [right|]; auto.
Qed.
Lemma context_inside X E d T v pre d' t old put : context X E d T v pre d' t old put -> inside E T t.
Proof.
  intros H. induction H; try apply in_refl.
  - eapply inside_step; [apply co_ptr; eassumption|assumption].
  - match goal with Hl : lookup _ _ _ = Some _ |- _ => apply lookup_in in Hl as [L1 L2] end. eapply inside_step; [eapply co_field; eassumption|assumption].
  - eapply inside_step; [eapply co_val; eassumption|assumption].
  - eapply inside_step; [eapply co_slice; eassumption|assumption].
  - eapply inside_step; [eapply co_slice; eassumption|assumption].
  - eapply inside_step; [eapply co_array; eassumption|assumption].
Qed.

Lemma braces_at buf rest ch d : pos buf ch rest -> d + braces rest < max_depth -> dok buf ch d.
Proof. intros (q & -> & <-) H. unfold dok, br. unfold blen. rewrite Nat2Z.id, skipn_app, skipn_all, Nat.sub_diag. exact H. Qed.

(** below the depth limit the bound on the recursion does not matter *)
Lemma any_more X buf rest ch d f f' : small buf -> pos buf ch rest -> rest <> [] ->
  (length rest < f)%nat -> (f <= f')%nat -> d + braces rest < max_depth ->
  stuck (dec_any_f X f buf ch d) \/ stuck (dec_any_f X f' buf ch d) -> dec_any_f X f buf ch d = dec_any_f X f' buf ch d.
Proof.
  intros Hsm Hh Hne Hf Hf' Hd Hs. pose proof (any_f_out X buf Hsm f ch d rest Hh Hne Hf) as O.
  pose proof (s_any [] buf Hsm X f f' ch d d Hf' (pos_nonneg _ _ _ Hh) (braces_at _ _ _ _ Hh Hd) (braces_at _ _ _ _ Hh Hd)) as Q.
  change ([] ++ buf) with buf in Q. change (blen []) with 0 in Q. rewrite Z.add_0_r in Q.
  destruct (dec_any_f X f buf ch d) as [a|e|p|]; cbn [SR] in Q.
  - destruct Q as (a' & Q & _). rewrite Q in Hs. destruct Hs as [[]|[]].
  - destruct Q as (e' & -> & _ & Q). rewrite Q; auto.
  - symmetry. exact Q.
  - destruct O.
Qed.

Lemma context_head X E d T v pre d' t old put : context X E d T v pre d' t old put -> pre <> [] ->
  exists b s, pre = b :: s /\ (b =b "N"%byte) = false.
Proof.
  assert (forall p n es s, body_of p n es -> exists b r, opening p ++ s = b :: r /\ (b =b "N"%byte) = false) as P.
  { intros p n es s Hb. destruct Hb; [rewrite opening_arr|rewrite opening_obj]; cbn [app]; eauto. }
  intros H. induction H; intros Hne; try congruence; auto; try (eapply P; eassumption); try (eapply P; constructor).
  destruct H0; try congruence; (eapply P; try eassumption; constructor).
Qed.

Lemma context_decode X E buf rest ch w r d T v pre d' t old put : small buf -> context X E d T v pre d' t old put ->
  pos buf ch rest -> rest <> [] -> (plain E t KAny -> d' + braces rest < max_depth) ->
  (forall f, (2 * length rest + ptr_cost E t < f)%nat -> decode_f X E f t buf ch d' old = (w, r)) -> stuck r ->
  forall f c, pos buf c (pre ++ rest) -> (2 * length (pre ++ rest) + ptr_cost E T < f)%nat ->
  decode_f X E f T buf c d v = (put w, r).
Proof.
  intros Hsm H Hh Hne Hdb Hf Hr.
  assert (forall fu d et p old w c s, store X E d et p old w -> (2 * length (text p) < fu)%nat ->
    pos buf c (text p ++ s) -> done buf (decode_f X E fu et buf c d old) w s) as He.
  { intros fu dd et p old0 w0 c s Hs HL HP. eapply decode_f_ok; eauto. unfold ptr_cost. destruct (is_ptr E et); lia. }
  assert (forall pre, pre ++ rest <> []) as Hne2 by (intros q Q; apply app_eq_nil in Q as [_ Q]; congruence).
  assert (forall E T k, plain E T k -> ptr_cost E T = match k with KPtr _ => 1%nat | _ => 0%nat end) as PC.
  { intros E0 T0 k [_ Hk]. unfold ptr_cost, is_ptr. rewrite Hk. destruct k; reflexivity. }
  assert (forall E T, (ptr_cost E T <= 1)%nat) as PL by (intros E0 T0; unfold ptr_cost; destruct (is_ptr E0 T0); lia).
  induction H as [d T v
    |d T t o pre d' u old put Hp Hip Hpre Hc IH
    |d T id fs l p n es l' kp k i fl old pre d' u old' put Hp Hd Hb Hn Hse Hk Hl Hnth Htag Hc IH
    |d T kt t p n es o m kp kv pre d' u old put Hp Hd Hb Hn Hm Hme Kk Hc IH
    |d T t n es v l ti i old pre d' u old' put Hp Hd Hn Hz Hm Hsl Hse Hi Hnth Hc IH
    |d T t n es v l ti i pre d' u old put Hp Hd Hn Hz Hm Hsl Hse Hi Hlen Hmx Hsl2 Hc IH
    |d T cnt t n es v l ti i old pre d' u old' put Hp Hd Hn Hz Hm Hse Hi Hnth Hc IH
    |d T v pre d' Hp Hac]; intros f c HP HL.
  - cbn [app] in *. rewrite (pos_same _ _ _ _ HP Hh). apply Hf, HL.
  - rewrite (PC _ _ _ Hp) in HL. destruct f as [|f]; [lia|]. cbn [decode_f]. rewrite (node_of_plain _ _ _ Hp).
    assert (dec_ptr E t (fun c0 v => decode_f X E f t buf c0 d v) buf c (VPtr o) = (VPtr (Some (put w)), r)) as G.
    2:{ unfold is_ptr in Hip. destruct (kind_of E t); try discriminate; exact G. }
    destruct (context_head _ _ _ _ _ _ _ _ _ _ Hc Hpre) as (b & s & Eq & Eb).
    unfold dec_ptr. assert (H0 := HP). rewrite Eq in H0. cbn [app] in H0. rdn H0. rewrite Eb.
    rewrite (IH Hdb Hf f c HP); [reflexivity|]. unfold ptr_cost at 1. rewrite Hip. lia.
  - rewrite (PC _ _ _ Hp) in HL. destruct f as [|f]; [lia|]. cbn [decode_f]. rewrite (node_of_plain _ _ _ Hp).
    rewrite <- !app_assoc in HP, HL. change (entries es) with (body es) in *.
    pose proof (opening_len _ _ _ Hb) as OL. rewrite !app_length in HL.
    assert (exists ch2, pos buf ch2 (pre ++ rest)) as [ch2 Hh2].
    { exists (c + blen (opening p ++ body es ++ text kp)). eapply pos_app; [|reflexivity]. rewrite <- !app_assoc. exact HP. }
    unfold dec_struct. destruct (struct_header_open _ _ d _ _ _ _ Hsm Hb Hn HP Hd) as (c' & -> & H').
    destruct (entry_head es kp (pre ++ rest)) as (b & s & Er & Eb). assert (H3 := H'). rewrite Er in H3. rdn H3. rewrite Eb.
    erewrite (struct_loop_at X E fs buf (d + 1) _ (store X E (d + 1)) l es l' kp k i fl old (pre ++ rest) ch2 (put w) r);
      [reflexivity|exact Hsm|exact Hse|apply le_n| | |exact Hk|exact Hl|exact Hnth|exact Htag|exact Hh2|apply Hne2| |exact Hr|exact H'|].
    + intros k0 i0 f0 p0 old0 w0 c0 s0 Ht Hs0 L0 P0. cbn [fd_str fd_ty]. eapply He; eauto. lia.
    + intros k0 i0 f0 p0 old0 w0 c0 s0 Ht Hs0 P0. cbn [fd_str fd_ty]. eapply quoted_ok; eauto. eapply string_tagged_unm; eauto.
    + cbn [fd_str fd_ty]. apply IH; auto. rewrite app_length. specialize (PL E (f_ty fl)). lia.
    + apply pos_len in H' as L. rewrite !blen_app in L. apply pos_nonneg in H'. destruct rest; [congruence|]. unfold blen in L. cbn [length] in L. lia.
  - rewrite (PC _ _ _ Hp) in HL. destruct f as [|f]; [lia|]. cbn [decode_f]. rewrite (node_of_plain _ _ _ Hp).
    rewrite <- !app_assoc in HP, HL. change (entries es) with (body es) in *.
    pose proof (opening_len _ _ _ Hb) as OL. rewrite !app_length in HL.
    assert (exists ch2, pos buf ch2 (pre ++ rest)) as [ch2 Hh2].
    { exists (c + blen (opening p ++ body es ++ text kp)). eapply pos_app; [|reflexivity]. rewrite <- !app_assoc. exact HP. }
    eapply (dec_map_at buf _ _ (store_key X E (d + 1) kt) (fun q w => store X E (d + 1) t q (zero E t) w) c d o p n es m kp kv (pre ++ rest) ch2); try eassumption.
    + intros p0 w0 c0 s0 HK L0 P0. eapply key_ok; eauto.
    + intros p0 w0 c0 s0 HV L0 P0. cbn beta. eapply He; eauto. lia.
    + apply Hne2.
    + cbn beta. apply IH; auto. rewrite app_length. specialize (PL E t). lia.
  - rewrite (PC _ _ _ Hp) in HL. destruct f as [|f]; [lia|]. cbn [decode_f]. rewrite (node_of_plain _ _ _ Hp).
    rewrite <- !app_assoc in HP, HL. change (entries es) with (body es) in *.
    pose proof (opening_len _ _ _ (body_arr n es)) as OL. rewrite !app_length in HL.
    assert (exists ch2, pos buf ch2 (pre ++ rest)) as [ch2 Hh2].
    { exists (c + blen (opening (LArr n es) ++ body es ++ text (LInt ti))). eapply pos_app; [|reflexivity]. rewrite <- !app_assoc. exact HP. }
    assert (dec_slice X E t (fun c0 v => decode_f X E f t buf c0 (d + 1) v) buf c d v = (VSlice (Some (update l i (put w))), r)) as G.
    { unfold dec_slice. destruct (slice_header_open _ _ d _ _ _ Hsm Hn Hz Hm HP Hd) as (c' & -> & H'). rewrite Hsl. cbn [negb].
      eapply (slice_loop_at X E t buf _ (store X E (d + 1) t) [] es l ti i (pre ++ rest) ch2 (put w) r); try eassumption; try apply le_n.
      - intros p0 old0 w0 c0 s0 Hs0 L0 P0. cbn beta. eapply He; eauto. lia.
      - apply Hne2.
      - apply pos_len in H' as L. rewrite !blen_app in L. apply pos_nonneg in H'. destruct rest; [congruence|]. unfold blen in L. cbn [length] in L. lia.
      - cbn beta. apply IH; auto. rewrite app_length. specialize (PL E t). lia. }
    destruct (is_byte E t); [|exact G]. unfold dec_bytes. rewrite opening_arr in HP. rdn HP. exact G.
  - rewrite (PC _ _ _ Hp) in HL. destruct f as [|f]; [lia|]. cbn [decode_f]. rewrite (node_of_plain _ _ _ Hp).
    rewrite <- !app_assoc in HP, HL. change (entries es) with (body es) in *.
    pose proof (opening_len _ _ _ (body_arr n es)) as OL. rewrite !app_length in HL.
    assert (exists ch2, pos buf ch2 (pre ++ rest)) as [ch2 Hh2].
    { exists (c + blen (opening (LArr n es) ++ body es ++ text (LInt ti))). eapply pos_app; [|reflexivity]. rewrite <- !app_assoc. exact HP. }
    assert (dec_slice X E t (fun c0 v => decode_f X E f t buf c0 (d + 1) v) buf c d v = (match es with [] => v | _ => VSlice (Some l) end, r)) as G.
    { unfold dec_slice. destruct (slice_header_open _ _ d _ _ _ Hsm Hn Hz Hm HP Hd) as (c' & -> & H'). rewrite Hsl. cbn [negb].
      eapply (slice_loop_at X E t buf _ (store X E (d + 1) t) [] es l ti i (pre ++ rest) ch2 (put w) r); try eassumption; try apply le_n.
      - intros p0 old0 w0 c0 s0 Hs0 L0 P0. cbn beta. eapply He; eauto. lia.
      - apply Hne2.
      - apply pos_len in H' as L. rewrite !blen_app in L. apply pos_nonneg in H'. destruct rest; [congruence|]. unfold blen in L. cbn [length] in L. lia.
      - cbn beta. apply IH; auto. rewrite app_length. specialize (PL E t). lia. }
    destruct (is_byte E t); [|exact G]. unfold dec_bytes. rewrite opening_arr in HP. rdn HP. exact G.
  - rewrite (PC _ _ _ Hp) in HL. destruct f as [|f]; [lia|]. cbn [decode_f]. rewrite (node_of_plain _ _ _ Hp).
    rewrite <- !app_assoc in HP, HL. change (entries es) with (body es) in *.
    pose proof (opening_len _ _ _ (body_arr n es)) as OL. rewrite !app_length in HL.
    assert (exists ch2, pos buf ch2 (pre ++ rest)) as [ch2 Hh2].
    { exists (c + blen (opening (LArr n es) ++ body es ++ text (LInt ti))). eapply pos_app; [|reflexivity]. rewrite <- !app_assoc. exact HP. }
    unfold dec_array. cbv zeta. destruct (array_header_open _ _ d _ _ _ Hsm Hn Hz Hm HP Hd) as (c' & -> & H').
    erewrite (array_loop_at buf (d + 1) _ (store X E (d + 1) t) _ es l ti i old (pre ++ rest) ch2 (put w) r);
      [reflexivity|exact Hsm|exact Hse|apply le_n| |exact Hi|exact Hnth|exact Hh2|apply Hne2| |exact Hr|exact H'|].
    + intros p0 old0 w0 c0 s0 Hs0 L0 P0. cbn beta. eapply He; eauto. lia.
    + cbn beta. apply IH; auto. rewrite app_length. specialize (PL E t). lia.
    + apply pos_len in H' as L. rewrite !blen_app in L. apply pos_nonneg in H'. destruct rest; [congruence|]. unfold blen in L. cbn [length] in L. lia.
  - specialize (Hdb Hp). specialize (Hf (S (2 * length rest + ptr_cost E T)) (le_n _)). cbn [decode_f] in Hf. rewrite (node_of_plain _ _ _ Hp) in Hf.
    destruct f as [|f]; [lia|]. cbn [decode_f]. rewrite (node_of_plain _ _ _ Hp).
    unfold dec_iface_any, dec_any in *. set (F := S (length buf)) in *.
    assert (stuck (dec_any_f X F buf ch d')) as Hs0.
    { destruct (dec_any_f X F buf ch d') as [[]| | |]; try exact I; injection Hf as _ <-; exact Hr. }
    assert (forall g, (length rest < g)%nat -> dec_any_f X g buf ch d' = dec_any_f X F buf ch d') as Hg.
    { intros g Lg. apply pos_len in Hh as L. apply pos_nonneg in Hh as L0. unfold blen in L. destruct (le_lt_dec g F).
      - eapply any_more; eauto.
      - symmetry. eapply any_more; eauto; subst F; lia. }
    rewrite (any_at X buf rest ch _ d pre d' Hsm Hac Hh Hne Hg Hs0 F c HP); [exact Hf|].
    apply pos_len in HP as L. apply pos_nonneg in HP as L0. unfold blen in L. subst F. lia.
Qed.

Lemma decode_same X E buf t ch rest d old w r f f' : small buf -> pos buf ch rest -> rest <> [] ->
  (2 * length rest + ptr_cost E t < f)%nat -> (f <= f')%nat -> d + braces rest < max_depth -> stuck r ->
  decode_f X E f t buf ch d old = (w, r) \/ decode_f X E f' t buf ch d old = (w, r) ->
  decode_f X E f t buf ch d old = (w, r) /\ decode_f X E f' t buf ch d old = (w, r).
Proof.
  intros Hsm Hh Hne Hf Hf' Hd Hr Hs. pose proof (decode_f_out X E buf Hsm f t ch d old rest Hh Hne Hf) as O.
  pose proof (s_decode [] buf Hsm X E f f' t ch d d old Hf' (pos_nonneg _ _ _ Hh) (braces_at _ _ _ _ Hh Hd) (braces_at _ _ _ _ Hh Hd)) as Q.
  change ([] ++ buf) with buf in Q. change (blen []) with 0 in Q. rewrite Z.add_0_r in Q.
  destruct (decode_f X E f t buf ch d old) as [w1 r1]. destruct (decode_f X E f' t buf ch d old) as [w2 r2].
  unfold SD in Q. cbn [fst snd] in Q.
  destruct r1 as [a|e|p|]; cbn [SR] in Q; [destruct Q as (-> & a' & -> & _)|destruct Q as (-> & e' & -> & _ & Q)|destruct Q as (-> & ->)|destruct O].
  - destruct Hs as [Hs|Hs]; injection Hs as <- <-; destruct Hr.
  - rewrite (Q eq_refl) in *. destruct Hs as [Hs|Hs]; rewrite Hs; auto.
  - destruct Hs as [Hs|Hs]; rewrite Hs; auto.
Qed.

(** the decoder at a place, and in the whole input *)
Lemma context_stuck X E T v pre d' t old put rest w r : small (pre ++ rest) -> context X E 0 T v pre d' t old put ->
  rest <> [] -> d' + braces rest < max_depth ->
  decode X E t rest 0 0 old = (w, r) -> stuck r ->
  exists r', decode X E T (pre ++ rest) 0 0 v = (put w, r') /\
    match r with RErr e => exists e', r' = RErr e' /\ moved rest (blen pre) e e' | _ => r' = r end.
Proof.
  intros Hsm Hc Hne Hb Hd Hr. pose proof (context_depth _ _ _ _ _ _ _ _ _ _ Hc) as Hcb.
  set (f0 := S (2 * length rest + ptr_cost E t)). assert (small rest) as Hsr by (unfold small in *; rewrite blen_app in Hsm; unfold blen in *; lia).
  assert (f0 <= decode_fuel rest)%nat as Hf0 by (subst f0; unfold decode_fuel, ptr_cost; destruct (is_ptr E t); lia).
  destruct (decode_same X E rest t 0 rest 0 old w r f0 (decode_fuel rest) Hsr (pos_start _) Hne ltac:(subst f0; lia) Hf0 ltac:(lia) Hr (or_intror Hd)) as [H0 _].
  pose proof (s_decode pre rest Hsm X E f0 f0 t 0 0 d' old (le_n _) (Z.le_refl 0) (braces_at rest rest 0 0 (pos_start _) ltac:(lia)) (braces_at rest rest 0 d' (pos_start _) ltac:(lia))) as Q.
  rewrite H0, Z.add_0_l in Q. unfold SD in Q. cbn [fst snd] in Q.
  assert (pos (pre ++ rest) (blen pre) rest) as Hh by (exists pre; auto).
  assert (exists r', decode_f X E f0 t (pre ++ rest) (blen pre) d' old = (w, r') /\ stuck r' /\
    match r with RErr e => exists e', r' = RErr e' /\ moved rest (blen pre) e e' | _ => r' = r end) as (r' & H1 & Hr' & Hm).
  { destruct (decode_f X E f0 t (pre ++ rest) (blen pre) d' old) as [w2 r2]. cbn [fst snd] in Q. exists r2. destruct r as [a|e|p|]; try destruct Hr; cbn [SR] in Q.
    - destruct Q as (-> & e' & -> & Q & _). repeat split; eauto.
    - destruct Q as (-> & ->). repeat split. }
  exists r'. split; [|exact Hm]. unfold decode. eapply (context_decode X E (pre ++ rest) rest (blen pre) w r'); eauto; try lia.
  - intros f Hf. eapply (decode_same X E (pre ++ rest) t (blen pre) rest d' old w r' f0 f); auto; lia.
  - apply pos_start.
  - unfold decode_fuel, ptr_cost. destruct (is_ptr E T); lia.
Qed.
