(** Methods that change only bytes that have been decoded already do not change
    the outcome. *)
From Coq Require Import Strings.String Strings.Byte ZArith List Bool Lia Floats.SpecFloat.
From Verif Require Import Base GoTypes Strconv Tags Scan Decode Unmarshal Grammar NumFacts LocalFacts BufDecode SliceHead.
Import ListNotations.
Open Scope Z_scope.

Section Buf.
  Context (X : Ext) (E : env) (meth : method) (b0 : bytes) (Hsm : small b0).
  (** what the caller's proof provides about the methods *)
  Context (Hm : forall n arg b i j v, ag j b0 b -> exists b', meth n arg b i j v = (x_unmarshal X n arg v, b') /\ ag j b0 b').

  Definition BR {A} (c : Z) (x : bres A) (r : A * R Z) : Prop :=
    snd x = r /\ match snd r with ROk c' => c <= c' /\ ag c' b0 (fst x) | _ => True end.
  Lemma BR_pure c b r r' : ag c b0 b -> LD c r r' -> BR c (b, r') r.
  Proof.
    intros H [-> h]. split; [reflexivity|]. destruct (snd r) as [a| | |]; auto. split; [exact h|]. cbn [fst]. eapply ag_le; eauto.
  Qed.
  Lemma BR_stop {A} c b (v : A) r : match r with ROk _ => False | _ => True end -> BR c (b, (v, r)) (v, r).
  Proof. intros h. split; [reflexivity|]. cbn [snd]. destruct r; [destruct h|exact I..]. Qed.
  Lemma BR_ok {A} c b (v : A) a : c <= a -> ag c b0 b -> BR c (b, (v, ROk a)) (v, ROk a).
  Proof. intros h H. split; [reflexivity|]. cbn. split; [exact h|]. eapply ag_le; eauto. Qed.
  Lemma BR_le {A} c c' (x : bres A) r : BR c' x r -> c <= c' -> BR c x r.
  Proof. intros [e h] hc. split; [exact e|]. destruct (snd r); auto. destruct h. split; [lia|auto]. Qed.

  Lemma l_piece c b d : ag c b0 b -> 0 <= c -> L (fun p => c <= snd p)
    (cend <- skip_value b0 c d ;; src <- sub b0 c cend ;; ROk (src, cend))
    (cend <- skip_value b c d ;; src <- sub b c cend ;; ROk (src, cend)).
  Proof.
    intros H Hc. eapply L_bind; [apply (l_skip b0 b Hsm c c d H); lia|]. intros a h. unfold ge1 in h.
    rewrite (ag_sub c b0 b c a H) by lia. destruct (sub b0 c a); cbn [bind]; [apply L_ok; exact h|split; [reflexivity|exact I]..].
  Qed.
  Lemma b_unm n b c d rv : ag c b0 b -> BR c (dec_unm_b X E meth n b c d rv) (dec_unm X E n b0 c d rv).
  Proof.
    intros H. assert (0 <= c) as Hc by apply H. unfold dec_unm_b, dec_unm. destruct (l_piece c b d H Hc) as [-> h].
    destruct (cend <- skip_value b0 c d ;; src <- sub b0 c cend ;; ROk (src, cend)) as [[src a]|e|p|]; cbn [fst snd fail] in *; try (apply BR_stop; exact I).
    assert (BR c (let '((v, ok), buf') := meth n (unquoted X src) b c a (zero E (TName n)) in
                  (buf', if ok then (v, ROk a) else (rv, RErr EUser)))
      (match x_unmarshal X n (unquoted X src) (zero E (TName n)) with (v, true) => (v, ROk a) | (_, false) => (rv, RErr EUser) end)) as G.
    { destruct (Hm n (unquoted X src) b c a (zero E (TName n)) (ag_le _ _ _ _ H h)) as (b' & -> & h').
      destruct (x_unmarshal X n (unquoted X src) (zero E (TName n))) as [v [|]]; [|apply BR_stop; exact I].
      split; [reflexivity|]. cbn. auto. }
    destruct src as [|x src]; [exact G|]. destruct (_ || _); [apply BR_stop; exact I|]. destruct (_ && _); [apply BR_ok; auto|exact G].
  Qed.
  Lemma b_iface_plain c b : ag c b0 b -> forall rv, LD c
    (match rd b0 c with
     | ROk x => if x =b "N"%byte then match validate_null b0 c with ROk _ => (VIface None, ROk (c + 2)) | r => (rv, fail r) end else (rv, RErr (EType c))
     | r => (rv, fail r) end)
    (match rd b c with
     | ROk x => if x =b "N"%byte then match validate_null b c with ROk _ => (VIface None, ROk (c + 2)) | r => (rv, fail r) end else (rv, RErr (EType c))
     | r => (rv, fail r) end).
  Proof.
    intros H rv. rewrite (ag_rd _ _ _ c H) by lia. destruct (l_null b0 b c c H ltac:(lia)) as [-> _].
    split; [reflexivity|]. destruct (rd b0 c); cbn [snd fail]; try exact I. destruct (_ =b _)%byte; cbn [snd]; [|exact I].
    destruct (validate_null b0 c); cbn [snd fail]; try exact I. lia.
  Qed.
  Lemma b_iface b c d rv : ag c b0 b -> BR c (dec_iface_b X E meth b c d rv) (dec_iface X E b0 c d rv).
  Proof.
    intros H. assert (0 <= c) as Hc by apply H. pose proof (BR_pure c b _ _ H (b_iface_plain c b H rv)) as P.
    unfold dec_iface_b, dec_iface. cbv zeta in *. destruct rv as [| | | | | | | | | |[[t v]|]| |]; try exact P. destruct t; try exact P. destruct v; try exact P.
    destruct (has_unmarshal E t) as [n|]; [|exact P]. destruct (l_piece c b d H Hc) as [-> h].
    destruct (cend <- skip_value b0 c d ;; src <- sub b0 c cend ;; ROk (src, cend)) as [[src a]|e|p|]; cbn [fst snd fail] in *; try (apply BR_stop; exact I).
    destruct (bytes_eqb src (bs "N;")); [apply BR_ok; auto|]. destruct o as [old|]; [|apply BR_stop; exact I].
    destruct (Hm n (unquoted X src) b c a old (ag_le _ _ _ _ H h)) as (b' & -> & h').
    destruct (x_unmarshal X n (unquoted X src) old) as [v [|]]; [|apply BR_stop; exact I]. split; [reflexivity|]. cbn. auto.
  Qed.
  Lemma LD_any_key c b d z : ag c b0 b -> LD c
    (match dec_any X b0 c d with ROk (None, a) => (z, ROk a) | ROk (Some _, _) => (z, RPanic PReflect) | r => (z, fail r) end)
    (match dec_any X b c d with ROk (None, a) => (z, ROk a) | ROk (Some _, _) => (z, RPanic PReflect) | r => (z, fail r) end).
  Proof.
    intros H. unfold dec_any. rewrite (lens b0 b c H). destruct (l_any b0 b Hsm X c H (S (length b0)) c d ltac:(lia)) as [-> h].
    split; [reflexivity|]. destruct (dec_any_f X (S (length b0)) b0 c d) as [[[o|] a]| | |]; cbn [snd fail]; auto.
  Qed.
  Lemma b_key kt b c d : ag c b0 b -> BR c (dec_key_b X E meth kt b c d) (dec_key X E kt b0 c d).
  Proof.
    intros H. unfold dec_key_b. pose proof (b_unm) as U. pose proof (b_iface b c d (zero E kt) H) as I'.
    unfold dec_key. cbv zeta. destruct (key_node E kt) as [n| | |k|k| | |dn|]; [apply U, H| | | | | |exact I'| |]; apply BR_pure; try exact H.
    - apply (l_dec_string b0 b c); auto; lia.
    - apply (l_dec_bool b0 b c); auto; lia.
    - apply (l_dec_int b0 b k c); auto; lia.
    - apply (l_dec_uint b0 b k c); auto; lia.
    - apply (l_iface_any b0 b Hsm X c); auto; lia.
    - pose proof (LD_any_key c b d (zero E kt) H) as A. destruct dn; try exact A.
      + apply l_text; [apply (l_int_bytes b0 b c); auto; lia|]. intros t a rv h. destruct (parse_uint64 t); exact I.
      + apply l_text; [apply (l_int_bytes b0 b c); auto; lia|]. intros t a rv h. destruct (parse_int64 t); exact I.
      + apply l_text; [apply (l_string_bytes b0 b c); auto; lia|]. intros t a rv h. exact I.
      + destruct (l_dec_bool b0 b c c VOther H ltac:(lia)) as [-> h]. split; [reflexivity|].
        destruct (dec_bool b0 c VOther) as [v []]; cbn [snd] in *; destruct v; cbn; auto.
    - split; [reflexivity|exact I].
  Qed.

  Definition bloc {V} (d : bytes -> Z -> V -> bres V) (d0 : Z -> V -> V * R Z) : Prop := forall b c v, ag c b0 b -> BR c (d b c v) (d0 c v).
  Definition bloc0 (d : bytes -> Z -> bres gval) (d0 : Z -> dres) : Prop := forall b c, ag c b0 b -> BR c (d b c) (d0 c).

  Ltac halt := apply BR_stop; exact I.
  Ltac hb H := match goal with |- BR _ (if negb (has_byte ?b ?x) then _ else _) _ => rewrite (ag_has _ _ _ x H); destruct (has_byte b0 x); cbn [negb]; [|halt] end.
  Lemma b_map_loop kd vd kd0 vd0 : bloc0 kd kd0 -> bloc0 vd vd0 -> forall n b c m, ag c b0 b ->
    BR c (map_loop_b kd vd n b c m) (map_loop kd0 vd0 b0 n c m).
  Proof.
    intros Hk Hv. induction n as [|n IH]; intros b c m H; cbn [map_loop_b map_loop]; [halt|]. hb H.
    destruct (kd b c) as [b1 [k kr]] eqn:Ek. pose proof (Hk b c H) as K. rewrite Ek in K. destruct K as [K1 K2]. cbn [fst snd] in K1, K2. rewrite <- K1 in *. cbn [snd] in K2.
    destruct kr as [c1|e|p|]; cbn [fail]; try halt. destruct K2 as [K2 H1]. hb H1.
    destruct (vd b1 c1) as [b2 [v vr]] eqn:Ev. pose proof (Hv b1 c1 H1) as V. rewrite Ev in V. destruct V as [V1 V2]. cbn [fst snd] in V1, V2. rewrite <- V1 in *. cbn [snd] in V2.
    destruct vr as [c2|e|p|]; cbn [fail]; try halt. destruct V2 as [V2 H2].
    destruct (hashable k); cbn [negb]; [|halt]. cbv zeta. hb H2.
    rewrite (ag_rd _ _ _ c2 H2) by lia. destruct (rd b0 c2); cbn [fail]; try halt.
    destruct (_ =b _)%byte; [eapply BR_le; [apply BR_ok with (c := c2); [lia|exact H2]|lia]|]. eapply BR_le; [apply IH, H2|lia].
  Qed.
  Lemma b_map kd vd kd0 vd0 b c d rv : bloc0 kd kd0 -> bloc0 vd vd0 -> ag c b0 b ->
    BR c (dec_map_b kd vd b c d rv) (dec_map kd0 vd0 b0 c d rv).
  Proof.
    intros Hk Hv H. unfold dec_map_b, dec_map. destruct (l_map_header b0 b Hsm c c d H ltac:(lia)) as [-> h]. rewrite (lens b0 b c H).
    destruct (map_header b0 c d) as [[a|a]|e|p|]; cbn [geh fail] in *; try halt; [apply BR_ok; auto|].
    destruct rv; try halt. cbv zeta. pose proof (ag_le c a b0 b H h) as Ha. hb Ha. rewrite (ag_rd _ _ _ a Ha) by lia. destruct (rd b0 a); cbn [fail]; try halt.
    destruct (_ =b _)%byte; [apply BR_ok; auto; lia|].
    match goal with |- context [map_loop_b kd vd ?n b a ?m] => destruct (b_map_loop kd vd kd0 vd0 Hk Hv n b a m Ha) as [e q]; destruct (map_loop_b kd vd n b a m) as [b' [m' r]] end.
    cbn [snd fst] in *. rewrite <- e in *. cbn [snd] in q. split; [reflexivity|]. cbn [snd fst]. destruct r; auto. split; [lia|apply q].
  Qed.

  Lemma b_slice_loop et ed ed0 : bloc ed ed0 -> forall n b c sl rv, ag c b0 b ->
    BR c (slice_loop_b X E et ed n b c sl rv) (slice_loop X E et ed0 b0 n c sl rv).
  Proof.
    intros He. induction n as [|n IH]; intros b c sl rv H; cbn [slice_loop_b slice_loop]; [halt|]. cbv zeta.
    assert (forall b' sl' c', ag c' b0 b' -> c <= c' -> BR c
      (if negb (has_byte b' c') then (b', (VSlice (Some sl'), RErr (ESyntax c' (WEnd "array"))))
       else match rd b' c' with
            | ROk x => if x =b "}"%byte then (b', (VSlice (Some sl'), ROk (c' + 1))) else slice_loop_b X E et ed n b' c' sl' (VSlice (Some sl'))
            | r => (b', (VSlice (Some sl'), fail r)) end)
      (if negb (has_byte b0 c') then (VSlice (Some sl'), RErr (ESyntax c' (WEnd "array")))
       else match rd b0 c' with
            | ROk x => if x =b "}"%byte then (VSlice (Some sl'), ROk (c' + 1)) else slice_loop X E et ed0 b0 n c' sl' (VSlice (Some sl'))
            | r => (VSlice (Some sl'), fail r) end)) as K.
    { intros b' sl' c' H' hc. hb H'. rewrite (ag_rd _ _ _ c' H') by lia. destruct (rd b0 c'); cbn [fail]; try halt.
      destruct (_ =b _)%byte; [eapply BR_le; [apply BR_ok with (c := c'); [lia|exact H']|lia]|]. eapply BR_le; [apply IH, H'|lia]. }
    hb H. destruct (l_read_int b0 b c c H ltac:(lia)) as [-> h]. destruct (read_int b0 c) as [[i a]|e|p|]; cbn [fail]; try halt.
    unfold ge2 in h. cbn [snd] in h. pose proof (ag_le c a b0 b H h) as Ha. hb Ha. destruct (i <? blen sl).
    - destruct (bad_index i (blen sl)); [halt|].
      pose proof (He b a (nth (Z.to_nat i) sl VOther) Ha) as [Q1 Q2]. destruct (ed b a (nth (Z.to_nat i) sl VOther)) as [b' [v r]]. cbn [fst snd] in Q1, Q2. rewrite <- Q1 in *. cbn [snd] in Q2.
      destruct r as [c'|e|p|]; cbn [fail]; try halt. apply K; [apply Q2|lia].
    - destruct (_ || _); [halt|]. destruct (bad_index _ _); [halt|].
      pose proof (He b a (zero E et) Ha) as [Q1 Q2]. destruct (ed b a (zero E et)) as [b' [v r]]. cbn [fst snd] in Q1, Q2. rewrite <- Q1 in *. cbn [snd] in Q2.
      destruct r as [c'|e|p|]; cbn [fail]; try halt. apply K; [apply Q2|lia].
  Qed.
  Lemma b_slice et ed ed0 b c d rv : bloc ed ed0 -> ag c b0 b ->
    BR c (dec_slice_b X E et ed b c d rv) (dec_slice X E et ed0 b0 c d rv).
  Proof.
    intros He H. unfold dec_slice_b, dec_slice. destruct (l_slice_header b0 b c c d H ltac:(lia)) as [-> h]. rewrite (lens b0 b c H).
    destruct (slice_header b0 c d) as [[a|a|n a]|e|p|]; cbn [gea fail] in *; try halt; [apply BR_ok; auto..|].
    destruct (x_slots X et n); cbn [negb]; [|halt]. eapply BR_le; [apply b_slice_loop; auto|exact h]. eapply ag_le; eauto.
  Qed.
  Lemma b_array_loop ed ed0 d : bloc ed ed0 -> forall n b c arr, ag c b0 b ->
    BR c (array_loop_b ed d n b c arr) (array_loop ed0 b0 d n c arr).
  Proof.
    intros He. induction n as [|n IH]; intros b c arr H; cbn [array_loop_b array_loop]; [halt|]. cbv zeta.
    assert (forall b' ar' c', ag c' b0 b' -> c <= c' -> BR c
      (if negb (has_byte b' c') then (b', (ar', RErr (ESyntax c' (WEnd "array"))))
       else match rd b' c' with
            | ROk x => if x =b "}"%byte then (b', (ar', ROk (c' + 1))) else array_loop_b ed d n b' c' ar'
            | r => (b', (ar', fail r)) end)
      (if negb (has_byte b0 c') then (ar', RErr (ESyntax c' (WEnd "array")))
       else match rd b0 c' with
            | ROk x => if x =b "}"%byte then (ar', ROk (c' + 1)) else array_loop ed0 b0 d n c' ar'
            | r => (ar', fail r) end)) as K.
    { intros b' ar' c' H' hc. hb H'. rewrite (ag_rd _ _ _ c' H') by lia. destruct (rd b0 c'); cbn [fail]; try halt.
      destruct (_ =b _)%byte; [eapply BR_le; [apply BR_ok with (c := c'); [lia|exact H']|lia]|]. eapply BR_le; [apply IH, H'|lia]. }
    hb H. destruct (l_read_int b0 b c c H ltac:(lia)) as [-> h]. destruct (read_int b0 c) as [[i a]|e|p|]; cbn [fail]; try halt.
    unfold ge2 in h. cbn [snd] in h. pose proof (ag_le c a b0 b H h) as Ha. hb Ha. destruct (i <? blen arr).
    - destruct (bad_index i (blen arr)); [halt|].
      pose proof (He b a (nth (Z.to_nat i) arr VOther) Ha) as [Q1 Q2]. destruct (ed b a (nth (Z.to_nat i) arr VOther)) as [b' [v r]]. cbn [fst snd] in Q1, Q2. rewrite <- Q1 in *. cbn [snd] in Q2.
      destruct r as [c'|e|p|]; cbn [fail]; try halt. apply K; [apply Q2|lia].
    - destruct (l_skip b0 b Hsm a a d Ha ltac:(lia)) as [-> h']. destruct (skip_value b0 a d) as [c'|e|p|]; cbn [fail]; try halt.
      unfold ge1 in h'. apply K; [|lia]. eapply ag_le; eauto.
  Qed.
  Lemma b_array k et ed ed0 b c d rv : bloc ed ed0 -> ag c b0 b ->
    BR c (dec_array_b E k et ed b c d rv) (dec_array E k et ed0 b0 c d rv).
  Proof.
    intros He H. unfold dec_array_b, dec_array. cbv zeta. destruct (l_array_header b0 b c c d H ltac:(lia)) as [-> h].
    rewrite (lens b0 b c H), (l_zeroed b0 b c c d H) by lia.
    destruct (array_header b0 c d) as [[a|a|n a]|e|p|]; cbn [gea fail] in *; try halt; [apply BR_ok; auto..|].
    match goal with |- context [array_loop_b ed ?dd ?n b a ?m] => destruct (b_array_loop ed ed0 dd He n b a m (ag_le _ _ _ _ H h)) as [e q]; destruct (array_loop_b ed dd n b a m) as [b' [m' r]] end.
    cbn [snd fst] in *. rewrite <- e in *. cbn [snd] in q. split; [reflexivity|]. cbn [snd fst]. destruct r; auto. split; [lia|apply q].
  Qed.
  Lemma b_struct_loop decs fd fd0 d : (forall x, bloc (fd x) (fd0 x)) -> forall n b c vs, ag c b0 b ->
    BR c (struct_loop_b decs fd d n b c vs) (struct_loop decs fd0 b0 d n c vs).
  Proof.
    intros He. induction n as [|n IH]; intros b c vs H; cbn [struct_loop_b struct_loop]; [halt|]. cbv zeta.
    assert (forall b' vs' c', ag c' b0 b' -> c <= c' -> BR c
      (if negb (has_byte b' c') then (b', (vs', RErr (ESyntax c' (WEnd "object"))))
       else match rd b' c' with
            | ROk x => if x =b "}"%byte then (b', (vs', ROk (c' + 1))) else struct_loop_b decs fd d n b' c' vs'
            | r => (b', (vs', fail r)) end)
      (if negb (has_byte b0 c') then (vs', RErr (ESyntax c' (WEnd "object")))
       else match rd b0 c' with
            | ROk x => if x =b "}"%byte then (vs', ROk (c' + 1)) else struct_loop decs fd0 b0 d n c' vs'
            | r => (vs', fail r) end)) as K.
    { intros b' vs' c' H' hc. hb H'. rewrite (ag_rd _ _ _ c' H') by lia. destruct (rd b0 c'); cbn [fail]; try halt.
      destruct (_ =b _)%byte; [eapply BR_le; [apply BR_ok with (c := c'); [lia|exact H']|lia]|]. eapply BR_le; [apply IH, H'|lia]. }
    hb H. destruct (l_string_bytes b0 b c c H ltac:(lia)) as [-> h]. destruct (decode_string_bytes b0 c) as [[key a]|e|p|]; cbn [fail]; try halt.
    unfold ge2 in h. cbn [snd] in h. pose proof (ag_le c a b0 b H h) as Ha. hb Ha. destruct (find_field _ decs) as [x|].
    - destruct (nth_error vs (fd_idx x)) as [v0|]; [|halt].
      pose proof (He x b a v0 Ha) as [Q1 Q2]. destruct (fd x b a v0) as [b' [v r]]. cbn [fst snd] in Q1, Q2. rewrite <- Q1 in *. cbn [snd] in Q2.
      destruct r as [c'|e|p|]; cbn [fail]; try halt. apply K; [apply Q2|lia].
    - destruct (l_skip b0 b Hsm a a d Ha ltac:(lia)) as [-> h']. destruct (skip_value b0 a d) as [c'|e|p|]; cbn [fail]; try halt.
      unfold ge1 in h'. apply K; [|lia]. eapply ag_le; eauto.
  Qed.
  Lemma b_struct decs fd fd0 b c d rv : (forall x, bloc (fd x) (fd0 x)) -> ag c b0 b ->
    BR c (dec_struct_b decs fd b c d rv) (dec_struct decs fd0 b0 c d rv).
  Proof.
    intros He H. unfold dec_struct_b, dec_struct. destruct (l_struct_header b0 b Hsm c c d H ltac:(lia)) as [-> h]. rewrite (lens b0 b c H).
    destruct (struct_header b0 c d) as [[a|a]|e|p|]; cbn [geh fail] in *; try halt; [apply BR_ok; auto|].
    destruct rv; try halt. cbv zeta. pose proof (ag_le c a b0 b H h) as Ha. hb Ha. rewrite (ag_rd _ _ _ a Ha) by lia. destruct (rd b0 a); cbn [fail]; try halt.
    destruct (_ =b _)%byte; [apply BR_ok; auto; lia|].
    match goal with |- context [struct_loop_b decs fd ?dd ?n b a ?m] => destruct (b_struct_loop decs fd fd0 dd He n b a m Ha) as [e q]; destruct (struct_loop_b decs fd dd n b a m) as [b' [m' r]] end.
    cbn [snd fst] in *. rewrite <- e in *. cbn [snd] in q. split; [reflexivity|]. cbn [snd fst]. destruct r; auto. split; [lia|apply q].
  Qed.
  Lemma b_ptr t ed ed0 b c rv : bloc ed ed0 -> ag c b0 b -> BR c (dec_ptr_b E t ed b c rv) (dec_ptr E t ed0 b0 c rv).
  Proof.
    intros He H. unfold dec_ptr_b, dec_ptr. rewrite (ag_rd _ _ _ c H) by lia. destruct (l_null b0 b c c H ltac:(lia)) as [-> _].
    destruct (rd b0 c); cbn [fail]; try halt. destruct (_ =b _)%byte.
    { destruct (validate_null b0 c); cbn [fail]; try halt. apply BR_ok; auto; lia. }
    destruct rv; try halt. match goal with |- context [ed b c ?v] => pose proof (He b c v H) as [Q1 Q2]; destruct (ed b c v) as [b' [w r]] end.
    cbn [fst snd] in Q1, Q2. rewrite <- Q1 in *. cbn [snd] in Q2. split; [reflexivity|exact Q2].
  Qed.
  Lemma l_wrapped nd b c rv : ag c b0 b -> LD c (dec_wrapped X nd b0 c rv) (dec_wrapped X nd b c rv).
  Proof.
    intros H. unfold dec_wrapped. cbv zeta. apply l_text; [apply (l_string_bytes b0 b c); auto; lia|]. intros t a v h.
    destruct nd; try exact I; cbn [snd].
    - unfold process_uint. destruct (parse_uint64 t); [|exact I]. destruct (_ <? _); [exact I|exact h].
    - unfold process_int. destruct (parse_int64 t); [|exact I]. destruct (_ || _); [exact I|exact h].
    - destruct (parse_bool t); [exact h|exact I].
    - unfold process_float. destruct (parse_float X t); [|exact I]. destruct (overflow_f32 _); [exact I|exact h].
    - unfold process_float. destruct (parse_float X t); [|exact I]. exact h.
  Qed.
  Lemma l_wrapped_ptr t nd b c rv : ag c b0 b ->
    LD c (dec_ptr E t (fun c v => dec_wrapped X nd b0 c v) b0 c rv) (dec_ptr E t (fun c v => dec_wrapped X nd b c v) b c rv).
  Proof.
    intros H. unfold dec_ptr. rewrite (ag_rd _ _ _ c H) by lia. destruct (l_null b0 b c c H ltac:(lia)) as [-> _].
    destruct (rd b0 c); cbn [fail]; try (split; [reflexivity|exact I]). destruct (_ =b _)%byte.
    { split; [reflexivity|]. destruct (validate_null b0 c); cbn [snd fail]; try exact I. lia. }
    destruct rv; try (split; [reflexivity|exact I]). match goal with |- context [dec_wrapped X nd b c ?v] => destruct (l_wrapped nd b c v H) as [-> q]; destruct (dec_wrapped X nd b0 c v) as [w r] end.
    split; [reflexivity|exact q].
  Qed.

  Lemma b_decode : forall f t b c d rv, ag c b0 b -> BR c (decode_b X E meth f t b c d rv) (decode_f X E f t b0 c d rv).
  Proof.
    induction f as [|f IH]; intros t b c d rv H; [halt|]. cbn [decode_b decode_f].
    assert (forall et d', bloc (fun buf c v => decode_b X E meth f et buf c d' v) (fun c v => decode_f X E f et b0 c d' v)) as He by (intros et d' b1 c1 v1 h1; apply IH, h1).
    destruct (node_of E t) as [n|t'|id fs|et|et|k et|kt vt| | |k|k| | | | |].
    - apply b_unm, H.
    - destruct (kind_of E t'); try (apply (b_ptr t' _ _ b c rv (He t' d) H)). halt.
    - apply b_struct; [|exact H]. intros x b1 c1 v1 h1. destruct (fd_str x); [|apply IH, h1].
      pose proof (fun nd => BR_pure c1 b1 _ _ h1 (l_wrapped nd b1 c1 v1 h1)) as W.
      destruct (node_of E (fd_ty x)) as [n'|t'|id' fs'|et|et|k et|kt vt| | |k|k| | | | |]; try apply W.
      apply BR_pure; [exact h1|]. apply l_wrapped_ptr, h1.
    - unfold dec_bytes_b, dec_bytes. rewrite (ag_rd _ _ _ c H) by lia. destruct (rd b0 c); cbn [fail]; try halt.
      destruct (_ =b _)%byte; [apply (b_slice et _ _ b c d rv (He et (d + 1)) H)|]. apply BR_pure; [exact H|].
      apply l_text; [apply (l_string_bytes b0 b c); auto; lia|]. intros u a0 v h. exact h.
    - apply (b_slice et _ _ b c d rv (He et (d + 1)) H).
    - apply (b_array k et _ _ b c d rv (He et (d + 1)) H).
    - apply b_map; [intros b1 c1 h1; apply b_key, h1|intros b1 c1 h1; apply IH, h1|exact H].
    - apply BR_pure; [exact H|]. apply (l_iface_any b0 b Hsm X c); auto; lia.
    - apply b_iface, H.
    - apply BR_pure; [exact H|]. apply (l_dec_uint b0 b k c); auto; lia.
    - apply BR_pure; [exact H|]. apply (l_dec_int b0 b k c); auto; lia.
    - apply BR_pure; [exact H|]. apply (l_dec_string b0 b c); auto; lia.
    - apply BR_pure; [exact H|]. apply (l_dec_bool b0 b c); auto; lia.
    - apply BR_pure; [exact H|]. apply (l_dec_float b0 b X true c); auto; lia.
    - apply BR_pure; [exact H|]. apply (l_dec_float b0 b X false c); auto; lia.
    - halt.
  Qed.
End Buf.
