(** Compiling the type of the argument of Marshal. *)
From Coq Require Import Strings.String Strings.Byte ZArith List Bool Lia.
From Verif Require Import Base GoTypes Tags EncCompile Encode Php Repr.
Import ListNotations.
Open Scope Z_scope.

Lemma key_kind_eq k : enc_key_kind k = key_kind k.
Proof. destruct k as [| |[]| | | | | | | | | | |]; reflexivity. Qed.
Lemma scalar_kind_eq k : enc_scalar_kind k = plain_kind k.
Proof. destruct k as [| |[]| | | | | | | | | | |]; reflexivity. Qed.
Lemma quotable_eq k : as_string_kind k = quotable k.
Proof. unfold as_string_kind, quotable. rewrite scalar_kind_eq. reflexivity. Qed.
Lemma by_structure_eq k : ptr_direct k = by_structure k.
Proof. unfold ptr_direct, by_structure. rewrite scalar_kind_eq. destruct k as [| |[]| | | | | | | | | | |]; reflexivity. Qed.
Lemma written_eq X f : written_field X f = negb (enc_skipped X f).
Proof.
  unfold written_field, enc_skipped. destruct (bytes_eqb _ _), (f_exported f); reflexivity.
Qed.

Lemma implements_eq E t : implements E t = marshaler E t.
Proof.
  unfold marshaler, receiver_of, kind_of. destruct t as [| | | | | | | | |t'| |m| |n]; try reflexivity.
  - destruct t' as [| | | | | | | | | | | | |n]; try reflexivity. cbn. destruct (nth_error E n) as [d|]; [|reflexivity]. destruct (d_marshal d); reflexivity.
  - cbn. destruct m; reflexivity.
  - cbn. destruct (nth_error E n) as [d|]; [|reflexivity]. rewrite orb_false_r.
    destruct (d_marshal d), (d_under d) as [|u]; try reflexivity; destruct u; reflexivity.
Qed.
Lemma is_bytes_eq t : is_bytes t = bytes_type t.
Proof. destruct t as [| | | | | |u| | | | | | |]; try reflexivity. destruct u as [| |k| | | | | | | | | | |]; try reflexivity; destruct k; reflexivity. Qed.

Lemma gty_eqb_eq : forall a b, gty_eqb a b = true <-> a = b.
Proof.
  induction a; destruct b; cbn [gty_eqb]; try (split; [discriminate|intros Q; discriminate Q]); try tauto.
  - destruct k, k0; split; congruence.
  - destruct k, k0; split; congruence.
  - rewrite IHa. split; congruence.
  - rewrite andb_true_iff, Nat.eqb_eq, IHa. split; [intros [-> ->]; reflexivity|intros Q; injection Q as -> ->; auto].
  - rewrite andb_true_iff, IHa1, IHa2. split; [intros [-> ->]; reflexivity|intros Q; injection Q as -> ->; auto].
  - rewrite IHa. split; congruence.
  - rewrite Bool.eqb_true_iff. split; congruence.
  - rewrite Nat.eqb_eq. split; congruence.
Qed.
Lemma mem_ty_in t l : mem_ty t l = true <-> In t l.
Proof.
  unfold mem_ty. rewrite existsb_exists. split.
  - intros (x & Hx & Q). apply gty_eqb_eq in Q as ->. exact Hx.
  - intros Hx. exists t. split; [exact Hx|]. apply gty_eqb_eq. reflexivity.
Qed.
Lemma mem_ty_out t l : mem_ty t l = false <-> ~ In t l.
Proof. rewrite <- mem_ty_in. destruct (mem_ty t l); split; congruence. Qed.

Lemma in_ty_dec (t : gty) l : {In t l} + {~ In t l}.
Proof.
  destruct (mem_ty t l) eqn:Q; [left; apply mem_ty_in; exact Q|right; apply mem_ty_out; exact Q].
Qed.

Section Facts.
  Context (X : Ext) (E : env).
  Notation comp := (ecompile_f X E).
  Notation comp_fields := (ecompile_fields X E).

  (** ** More fuel changes nothing *)
  Lemma ecompile_fields_mono (c1 c2 : list gty -> gty -> R (list gty)) fs :
    (forall s t, c1 s t <> RFuel -> c2 s t = c1 s t) ->
    forall s, comp_fields c1 s fs <> RFuel -> comp_fields c2 s fs = comp_fields c1 s fs.
  Proof.
    intros H. induction fs as [|f fs IH]; cbn [ecompile_fields]; [reflexivity|]. intros s.
    destruct (enc_skipped X f); [apply IH|]. destruct (match kind_of E (f_ty f) with KPtr _ => _ | _ => _ end); [reflexivity|].
    destruct (_ && _); [reflexivity|]. destruct (tag_string _).
    { destruct (as_string_kind _); [apply IH|reflexivity]. }
    set (tg := match kind_of E (f_ty f) with KPtr _ => _ | _ => _ end). intros Hn.
    assert (c1 s tg <> RFuel) as H1 by (intros Q; rewrite Q in Hn; apply Hn; reflexivity).
    rewrite (H _ _ H1). destruct (c1 s tg); cbn [bind] in *; try reflexivity. apply IH. exact Hn.
  Qed.

  Lemma ecompile_mono : forall f b s t, comp f b s t <> RFuel ->
    forall f', (f <= f')%nat -> comp f' b s t = comp f b s t.
  Proof.
    induction f as [|f IH]; intros b s t Hn f' Hle; [cbn in Hn; congruence|].
    destruct f' as [|f']; [lia|]. apply le_S_n in Hle.
    assert (forall b' s' t', comp f b' s' t' <> RFuel -> comp f' b' s' t' = comp f b' s' t') as IH' by (intros; apply IH; auto).
    cbn [ecompile_f] in *. rewrite implements_eq, is_bytes_eq in *. destruct (negb b && marshaler E t); [reflexivity|]. destruct (negb b && bytes_type t); [reflexivity|].
    destruct (kind_of E t) as [| | | | | |t'|n t'|k v|t'| | | |id fs]; try reflexivity; auto.
    - destruct (mem_ty t s); auto.
    - assert (comp f false [] t' <> RFuel) as H1 by (intros Q; rewrite Q in Hn; apply Hn; reflexivity).
      rewrite (IH' _ _ _ H1). reflexivity.
    - destruct (mem_ty t s); auto. destruct (enc_key_kind _); auto.
    - destruct (kind_of E t'); auto.
    - destruct (mem_ty t s); auto. apply ecompile_fields_mono; auto.
  Qed.

  Lemma ecompile_fields_nopanic c fs p : (forall s t, c s t <> RPanic p) -> forall s, comp_fields c s fs <> RPanic p.
  Proof.
    intros H. induction fs as [|f fs IH]; cbn [ecompile_fields]; [discriminate|]. intros s.
    destruct (enc_skipped X f); [apply IH|]. destruct (match kind_of E (f_ty f) with KPtr _ => _ | _ => _ end); [discriminate|].
    destruct (_ && _); [discriminate|]. destruct (tag_string _).
    { destruct (as_string_kind _); [apply IH|discriminate]. }
    set (tg := match kind_of E (f_ty f) with KPtr _ => _ | _ => _ end).
    pose proof (H s tg) as Hf. destruct (c s tg); cbn [bind]; try discriminate; [apply IH|congruence].
  Qed.
  Lemma ecompile_nopanic p : forall f b s t, comp f b s t <> RPanic p.
  Proof.
    induction f as [|f IH]; intros b s t; cbn [ecompile_f]; [discriminate|].
    destruct (_ && _); [discriminate|]. destruct (_ && _); [discriminate|].
    destruct (kind_of E t) as [| |[]| | | |t'|n t'|k v|t'| | | |id fs]; try discriminate; auto.
    - destruct (mem_ty t s); [discriminate|auto].
    - pose proof (IH false [] t') as H. destruct (comp f false [] t'); cbn [bind]; try discriminate; congruence.
    - destruct (mem_ty t s); [discriminate|]. destruct (enc_key_kind _); [auto|discriminate].
    - destruct (kind_of E t'); auto; discriminate.
    - destruct (mem_ty t s); [discriminate|]. apply ecompile_fields_nopanic; auto.
  Qed.

  (** ** What is accepted: nothing inside is unencodable *)

  Definition visited (S : list gty) (u : node) : Prop := speaks E u = false /\ In (snd u) S.
  Inductive path (S : list gty) (n : node) : node -> Prop :=
  | pa_refl : path S n n
  | pa_step u w : path S n u -> ~ visited S u -> epart X E u w -> path S n w.
  (** [u] is fit for encoding, and if it is an array its element has been
      compiled with less than [F] *)
  Definition fit (F : nat) (u : node) : Prop :=
    ~ unencodable X E u /\ forall k t, speaks E u = false -> kind_of E (snd u) = KArray k t ->
      exists f S', (f < F)%nat /\ comp f false [] t = ROk S'.
  Section Fit.
  Context (F : nat).
  Definition shallow (S : list gty) (n : node) : Prop :=
    forall u, path S n u -> visited S u \/ fit F u.
  Definition good (S : list gty) (t : gty) : Prop :=
    fit F (true, t) /\ forall c, epart X E (true, t) c -> shallow S c.
  Definition closes (S S' : list gty) : Prop := forall t, In t S' -> ~ In t S -> good S' t.

  Lemma path_prepend S n u w : ~ visited S n -> epart X E n u -> path S u w -> path S n w.
  Proof.
    intros Hv He. induction 1 as [|a b Ha IH Hva Hab].
    - eapply pa_step; [apply pa_refl|exact Hv|exact He].
    - eapply pa_step; eassumption.
  Qed.
  Lemma path_mono S S' n u : incl S S' -> path S' n u -> path S n u.
  Proof.
    intros Hi. induction 1 as [|a b Ha IH Hva Hab]; [apply pa_refl|].
    eapply pa_step; [exact IH| |exact Hab]. intros [H1 H2]. apply Hva. split; auto.
  Qed.
  Lemma shallow_mono S S' n : incl S S' -> shallow S n -> shallow S' n.
  Proof.
    intros Hi Hs u Hp. destruct (Hs u (path_mono _ _ _ _ Hi Hp)) as [[H1 H2]|H1]; [left; split; auto|auto].
  Qed.
  Lemma good_mono S S' t : incl S S' -> good S t -> good S' t.
  Proof. intros Hi [H1 H2]. split; [exact H1|]. intros c Hc. eapply shallow_mono; eauto. Qed.
  Lemma closes_trans S1 S2 S3 : incl S2 S3 -> closes S1 S2 -> closes S2 S3 -> closes S1 S3.
  Proof.
    intros H2 C1 C2 t Ht Hn. destruct (in_ty_dec t S2) as [Hi|Hi].
    - eapply good_mono; [exact H2|]. apply C1; assumption.
    - apply C2; assumption.
  Qed.

  (** nodes without parts *)
  Lemma shallow_leaf S n : fit F n -> (forall c, ~ epart X E n c) -> shallow S n.
  Proof.
    intros H1 H2 u Hp. right. induction Hp as [|a b Ha IH Hva Hab]; [exact H1|].
    exfalso. clear IH Hva. revert b Hab. induction Ha as [|x y Hx IHx Hvx Hxy]; intros b Hab; [exact (H2 _ Hab)|exact (IHx _ Hxy)].
  Qed.
  Lemma shallow_step S n : fit F n -> (forall c, epart X E n c -> shallow S c) -> shallow S n.
  Proof.
    intros H1 H2 u Hp.
    assert (u = n \/ exists c, epart X E n c /\ path S c u) as [->|(c & Hc & Hpc)].
    { induction Hp as [|a b Ha IH Hva Hab]; [left; reflexivity|]. right. destruct IH as [->|(c & Hc & Hpc)].
      - exists b. split; [exact Hab|apply pa_refl].
      - exists c. split; [exact Hc|]. eapply pa_step; eassumption. }
    - auto.
    - exact (H2 c Hc u Hpc).
  Qed.
  Lemma shallow_seen S n : speaks E n = false -> In (snd n) S -> shallow S n.
  Proof.
    intros H1 H2 u Hp. destruct Hp as [|a b Ha Hva Hab]; [left; split; assumption|].
    exfalso. assert (forall x, path S n x -> x = n) as Q.
    { intros x. induction 1 as [|x y Hx IHx Hvx Hxy]; [reflexivity|]. subst x. exfalso. apply Hvx. split; assumption. }
    rewrite (Q a Ha) in Hva. apply Hva. split; assumption.
  Qed.
  Lemma shallow_speaks S n : speaks E n = true -> shallow S n.
  Proof. intros H. apply shallow_leaf; [split; [intros Q; inversion Q; congruence|congruence]|intros c Q; inversion Q; congruence]. Qed.

  Lemma unencodable_true n : speaks E n = false -> unencodable X E n -> unencodable X E (true, snd n).
  Proof.
    intros Hs Hu. destruct Hu; [eapply ue_uintptr|eapply ue_other|eapply ue_ptr|eapply ue_key|eapply ue_embedded|eapply ue_field_ptr|eapply ue_string]; cbn [snd fst speaks]; eauto.
  Qed.
  Lemma epart_true n c : speaks E n = false -> epart X E n c -> epart X E (true, snd n) c.
  Proof.
    intros Hs Hu. destruct Hu; [eapply ep_ptr|eapply ep_slice|eapply ep_array|eapply ep_map|eapply ep_field]; cbn [snd fst speaks orb]; eauto.
  Qed.
  Lemma unencodable_false n t : snd n = t -> speaks E n = false -> unencodable X E (true, t) -> unencodable X E n.
  Proof.
    intros <- Hs Hu. destruct Hu; cbn [snd] in *; [eapply ue_uintptr|eapply ue_other|eapply ue_ptr|eapply ue_key|eapply ue_embedded|eapply ue_field_ptr|eapply ue_string]; eauto.
  Qed.

  Lemma fit_true n : speaks E n = false -> fit F n -> fit F (true, snd n).
  Proof.
    intros Hs [H1 H2]. split; [intros Q; apply H1; eapply unencodable_false; eauto|]. intros k t _ Hk. exact (H2 k t Hs Hk).
  Qed.
  Lemma fit_false n : speaks E n = false -> fit F (true, snd n) -> fit F n.
  Proof.
    intros Hs [H1 H2]. split; [intros Q; apply H1; apply unencodable_true; assumption|]. intros k t _ Hk. exact (H2 k t eq_refl Hk).
  Qed.

  Definition accepted (S S' : list gty) (n : node) : Prop := incl S S' /\ shallow S' n /\ closes S S'.

  Lemma closes_refl S : closes S S.
  Proof. intros t H1 H2. contradiction. Qed.

  (** a container, from its parts *)
  Lemma accept_container S S' n :
    speaks E n = false -> fit F n ->
    incl (snd n :: S) S' -> closes (snd n :: S) S' -> (forall c, epart X E (true, snd n) c -> shallow S' c) ->
    accepted S S' n.
  Proof.
    intros Hs Hu Hi Hc Hp. split; [|split].
    - intros x Hx. apply Hi. right. exact Hx.
    - apply shallow_seen; [exact Hs|]. apply Hi. left. reflexivity.
    - intros t Ht Hn. destruct (gty_eqb (snd n) t) eqn:Q.
      + apply gty_eqb_eq in Q as <-. split; [|exact Hp]. apply fit_true; assumption.
      + apply Hc; [exact Ht|]. intros [<-|Hx]; [|contradiction].
        assert (gty_eqb (snd n) (snd n) = true) by (apply gty_eqb_eq; reflexivity). congruence.
  Qed.

  Lemma fields_accepted c :
    (forall S S' t, c S t = ROk S' -> accepted S S' (false, t)) ->
    forall fs S S', comp_fields c S fs = ROk S' ->
    incl S S' /\ closes S S' /\
    (forall f, In f fs -> written_field X f = true ->
       (tag_string (tag_of X f) = false -> shallow S' (false, elem_or_self E (f_ty f))) /\
       (f_anon f = true -> struct_kind (kind_of E (f_ty f)) = false) /\
       (forall u w, kind_of E (f_ty f) = KPtr u -> kind_of E u <> KPtr w) /\
       (tag_string (tag_of X f) = true -> quotable (kind_of E (elem_or_self E (f_ty f))) = true)).
  Proof.
    intros Hc. induction fs as [|f fs IH]; intros S S' H; cbn [ecompile_fields] in H.
    { injection H as <-. split; [apply incl_refl|split; [apply closes_refl|]]. intros f []. }
    destruct (enc_skipped X f) eqn:Hsk.
    { destruct (IH _ _ H) as (H1 & H2 & H3). split; [exact H1|split; [exact H2|]].
      intros g [<-|Hg] Hw; [rewrite written_eq, Hsk in Hw; discriminate|exact (H3 g Hg Hw)]. }
    fold (elem_or_self E (f_ty f)) in H.
    destruct (match kind_of E (f_ty f) with KPtr t' => _ | _ => _ end) eqn:Hpp; [discriminate|].
    destruct (f_anon f && struct_kind (kind_of E (f_ty f))) eqn:Han; [discriminate|].
    assert (forall u w, kind_of E (f_ty f) = KPtr u -> kind_of E u <> KPtr w) as Hnp.
    { intros u w Hu Hw. rewrite Hu in Hpp. rewrite Hw in Hpp. discriminate. }
    assert (f_anon f = true -> struct_kind (kind_of E (f_ty f)) = false) as Hna.
    { intros Q. rewrite Q in Han. exact Han. }
    destruct (tag_string (tag_of X f)) eqn:Hst.
    - rewrite quotable_eq in H. destruct (quotable (kind_of E (elem_or_self E (f_ty f)))) eqn:Has; [|discriminate].
      destruct (IH _ _ H) as (H1 & H2 & H3). split; [exact H1|split; [exact H2|]].
      intros g [<-|Hg] Hw; [|exact (H3 g Hg Hw)]. repeat split; auto. congruence.
    - destruct (c S (elem_or_self E (f_ty f))) as [S1| | |] eqn:Hc1; cbn [bind] in H; try discriminate.
      destruct (Hc _ _ _ Hc1) as (A1 & A2 & A3). destruct (IH _ _ H) as (H1 & H2 & H3).
      split; [eapply incl_tran; eauto|]. split; [eapply closes_trans; eauto|].
      intros g [<-|Hg] Hw; [|exact (H3 g Hg Hw)]. repeat split; auto; [|congruence].
      intros _. eapply shallow_mono; eauto.
  Qed.

  Lemma closed_inside S t n : shallow S n -> closes [] S -> einside X E n t -> shallow S t.
  Proof.
    intros Hs Hc. induction 1 as [|u w Hu IH Hw]; [exact Hs|].
    destruct (speaks E u) eqn:Hsp; [inversion Hw; congruence|].
    destruct (mem_ty (snd u) S) eqn:Hm.
    - apply mem_ty_in in Hm. destruct (Hc (snd u) Hm (fun q => q)) as [_ Hg]. apply Hg. apply epart_true; assumption.
    - apply mem_ty_out in Hm. intros x Hx. apply IH. eapply path_prepend; [|exact Hw|exact Hx]. intros [_ Q]. contradiction.
  Qed.
  Lemma closed_ok S n : shallow S n -> closes [] S -> forall t, einside X E n t -> fit F t.
  Proof.
    intros Hs Hc t Ht. destruct (closed_inside S t n Hs Hc Ht t (pa_refl _ _)) as [[H1 H2]|H]; [|exact H].
    destruct (Hc _ H2 (fun q => q)) as [Hg _]. apply fit_false; assumption.
  Qed.

  Lemma einside_trans n u w : einside X E n u -> einside X E u w -> einside X E n w.
  Proof. intros H. induction 1; [exact H|]. eapply ei_step; eauto. Qed.
  Lemma shallow_full S n : (forall u, einside X E n u -> fit F u) -> shallow S n.
  Proof.
    intros H u Hp. right. apply H. clear H. induction Hp; [apply ei_refl|eapply ei_step; eauto].
  Qed.

  Lemma comp_accepted : forall f b S S' t, (f <= F)%nat -> comp f b S t = ROk S' -> (b = true -> bytes_type t = false) -> accepted S S' (b, t).
  Proof.
    induction f as [|f IH]; intros b S S' t HF H Hb; [discriminate|]. cbn [ecompile_f] in H. rewrite implements_eq, is_bytes_eq in H.
    destruct (negb b && marshaler E t) eqn:Him.
    { injection H as <-. split; [apply incl_refl|split; [|apply closes_refl]]. apply shallow_speaks.
      unfold speaks. cbn [fst snd]. destruct b; [discriminate|exact Him]. }
    assert (speaks E (b, t) = false) as Hsp.
    { unfold speaks. cbn [fst snd]. destruct b; [reflexivity|exact Him]. }
    assert (Hleaf : forall S0, fit F (b, t) -> (forall c, ~ epart X E (b, t) c) -> accepted S0 S0 (b, t)).
    { intros S0 H1 H2. split; [apply incl_refl|split; [apply shallow_leaf; assumption|apply closes_refl]]. }
    destruct (negb b && bytes_type t) eqn:Hby.
    { injection H as <-. apply andb_true_iff in Hby as [Hb1 Hb2]. destruct b; [discriminate|].
      assert (t = TSlice (TUint U8)) as -> by (destruct t as [| | | | | |t'| | | | | | |]; try discriminate; destruct t' as [| |[]| | | | | | | | | | |]; try discriminate; reflexivity).
      apply Hleaf; [split; [intros Q; inversion Q; cbn [fst snd orb bytes_type negb] in *; discriminate|intros ? ? _ Q; discriminate Q]|intros c Q]; inversion Q; cbn [fst snd orb bytes_type negb] in *; try discriminate. }
    assert (Hbf : b || negb (bytes_type t) = true).
    { destruct b; [reflexivity|]. cbn in Hby |- *. rewrite Hby. reflexivity. }
    destruct (kind_of E t) as [|k|k| | | |t'|n t'|k v|t'| |m| |id fs] eqn:Hk;
      try (injection H as <-; apply Hleaf; [split; [intros Q; inversion Q; cbn [fst snd] in *; congruence|intros ? ? _ Q; cbn [snd] in Q; congruence]|intros c Q; inversion Q; cbn [fst snd] in *; congruence]).
    - assert (k <> UPtr /\ S' = S) as [Hku ->].
      { destruct k; try discriminate; split; congruence. }
      apply Hleaf; [split; [intros Q; inversion Q; cbn [fst snd] in *; congruence|intros ? ? _ Q; cbn [snd] in Q; congruence]|intros c Q; inversion Q; cbn [fst snd] in *; congruence].
    - (* slice *)
      destruct (mem_ty t S) eqn:Hm.
      { injection H as <-. apply mem_ty_in in Hm. split; [apply incl_refl|split; [|apply closes_refl]]. apply shallow_seen; assumption. }
      destruct (IH _ _ _ _ ltac:(lia) H ltac:(discriminate)) as (A1 & A2 & A3).
      apply accept_container; auto.
      + split; [intros Q; inversion Q; cbn [fst snd] in *; congruence|intros ? ? _ Q; cbn [snd] in Q; congruence].
      + intros c Q. inversion Q; cbn [fst snd] in *; try congruence. replace u with t' in * by congruence. exact A2.
    - (* array *)
      destruct (comp f false [] t') as [S0| | |] eqn:H0; cbn [bind] in H; try discriminate. injection H as <-.
      destruct (IH _ _ _ _ ltac:(lia) H0 ltac:(discriminate)) as (A1 & A2 & A3). pose proof (closed_ok _ _ A2 A3) as Hall.
      split; [apply incl_refl|split; [|apply closes_refl]].
      apply shallow_step; [split; [intros Q; inversion Q; cbn [fst snd] in *; congruence|]|].
      { intros k u _ Q. cbn [snd] in Q. replace u with t' by congruence. exists f, S0. split; [lia|exact H0]. }
      intros c Q. inversion Q; cbn [fst snd] in *; try congruence. apply shallow_full.
      replace u with t' in * by congruence. exact Hall.
    - (* map *)
      destruct (mem_ty t S) eqn:Hm.
      { injection H as <-. apply mem_ty_in in Hm. split; [apply incl_refl|split; [|apply closes_refl]]. apply shallow_seen; assumption. }
      rewrite key_kind_eq in H. destruct (key_kind (kind_of E k)) eqn:Hkk; [|discriminate].
      destruct (IH _ _ _ _ ltac:(lia) H ltac:(discriminate)) as (A1 & A2 & A3).
      apply accept_container; auto.
      + split; [intros Q; inversion Q; cbn [fst snd] in *; congruence|intros ? ? _ Q; cbn [snd] in Q; congruence].
      + intros c Q. inversion Q; cbn [fst snd] in *; try congruence. replace u with v in * by congruence. exact A2.
    - (* pointer *)
      assert (Hptr : forall w, kind_of E t' <> KPtr w).
      { intros w Q. rewrite Q in H. discriminate. }
      assert (fit F (b, t)) as Hue.
      { split; [intros Q; inversion Q; cbn [fst snd] in *; congruence|intros ? ? _ Q; cbn [snd] in Q; congruence]. }
      destruct (iface_kind (kind_of E t')) eqn:Hif.
      { assert (S' = S) as -> by (destruct (kind_of E t'); try discriminate; congruence).
        apply Hleaf; [exact Hue|]. intros c Q. inversion Q; cbn [fst snd] in *; congruence. }
      assert (comp f (by_structure (kind_of E t')) S t' = ROk S') as Hc.
      { rewrite <- by_structure_eq. destruct (kind_of E t'); try discriminate; exact H. }
      destruct (IH _ _ _ _ ltac:(lia) Hc) as (A1 & A2 & A3).
      { intros Q. destruct t' as [| | | | | |t''| | | | | | |]; try reflexivity. cbn in Q. discriminate. }
      split; [exact A1|split; [|exact A3]]. apply shallow_step; [exact Hue|].
      intros c Q. inversion Q; cbn [fst snd] in *; try congruence.
      replace u with t' in * by congruence. exact A2.
    - discriminate.
    - (* struct *)
      destruct (mem_ty t S) eqn:Hm.
      { injection H as <-. apply mem_ty_in in Hm. split; [apply incl_refl|split; [|apply closes_refl]]. apply shallow_seen; assumption. }
      destruct (fields_accepted _ (fun S0 S0' t0 Q => IH false S0 S0' t0 ltac:(lia) Q ltac:(discriminate)) _ _ _ H) as (A1 & A2 & A3).
      apply accept_container; auto.
      + split; [|intros ? ? _ Q; cbn [snd] in Q; congruence]. intros Q; inversion Q; cbn [fst snd] in *; try congruence;
          match goal with HK : kind_of E t = KStruct _ ?fs', HI : In ?f0 ?fs', HW : written_field X ?f0 = true |- _ =>
            replace fs' with fs in * by congruence; destruct (A3 f0 HI HW) as (B1 & B2 & B3 & B4) end.
        * rewrite B2 in *; congruence.
        * eapply B3; eassumption.
        * rewrite B4 in *; congruence.
      + intros c Q. inversion Q; cbn [fst snd] in *; try congruence.
        match goal with HK : kind_of E t = KStruct _ ?fs', HI : In ?f0 ?fs', HW : written_field X ?f0 = true |- _ =>
            replace fs' with fs in * by congruence; destruct (A3 f0 HI HW) as (B1 & B2 & B3 & B4) end. auto.
  Qed.

  End Fit.
  Lemma comp_incl f S S' t : comp f false S t = ROk S' -> incl S S'.
  Proof. intros H. exact (proj1 (comp_accepted f f false S S' t (le_n f) H ltac:(discriminate))). Qed.
  Lemma comp_fit f S' t : comp f false [] t = ROk S' -> forall u, einside X E (false, t) u -> fit f u.
  Proof.
    intros H. destruct (comp_accepted f f false [] S' t (le_n f) H ltac:(discriminate)) as (_ & A2 & A3). exact (closed_ok _ _ _ A2 A3).
  Qed.
  (** an array inside its own element is compiled for ever *)
  Lemma comp_cycle : forall f S' a k u, speaks E a = false -> kind_of E (snd a) = KArray k u ->
    einside X E (false, u) a -> comp f false [] u <> ROk S'.
  Proof.
    induction f as [f IH] using lt_wf_ind. intros S' a k u Hs Hk Ha H.
    destruct (proj2 (comp_fit f S' u H a Ha) k u Hs Hk) as (f' & S1 & Hf & H'). exact (IH f' Hf S1 a k u Hs Hk Ha H').
  Qed.
  Theorem compile_encodable f S' t : comp f false [] t = ROk S' -> encodable X E t.
  Proof.
    intros H. pose proof (comp_fit f S' t H) as Hfit. split; [intros u Hu; exact (proj1 (Hfit u Hu))|].
    intros a k u Ha Hs Hk Hin. destruct (proj2 (Hfit a Ha) k u Hs Hk) as (f' & S1 & _ & H'). exact (comp_cycle f' S1 a k u Hs Hk Hin H').
  Qed.

  (** ** What is rejected has something unencodable inside *)
  Lemma fields_rejected c :
    (forall S e t, c S t = RErr e -> exists u, einside X E (false, t) u /\ unencodable X E u) ->
    forall fs S e, comp_fields c S fs = RErr e ->
    exists f, In f fs /\ written_field X f = true /\
      ((tag_string (tag_of X f) = false /\ exists u, einside X E (false, elem_or_self E (f_ty f)) u /\ unencodable X E u) \/
       (f_anon f = true /\ struct_kind (kind_of E (f_ty f)) = true) \/
       (exists u w, kind_of E (f_ty f) = KPtr u /\ kind_of E u = KPtr w) \/
       (tag_string (tag_of X f) = true /\ quotable (kind_of E (elem_or_self E (f_ty f))) = false)).
  Proof.
    intros Hc. induction fs as [|f fs IH]; intros S e H; cbn [ecompile_fields] in H; [discriminate|].
    assert (forall S0, comp_fields c S0 fs = RErr e -> _) as IH' by (intros S0 H0; exact (IH S0 e H0)).
    destruct (enc_skipped X f) eqn:Hsk.
    { destruct (IH _ _ H) as (g & Hg & Hr). exists g. split; [right; exact Hg|exact Hr]. }
    fold (elem_or_self E (f_ty f)) in H.
    assert (written_field X f = true) as Hw by (rewrite written_eq, Hsk; reflexivity).
    destruct (match kind_of E (f_ty f) with KPtr t' => _ | _ => _ end) eqn:Hpp.
    { exists f. split; [left; reflexivity|]. split; [exact Hw|]. right; right; left.
      destruct (kind_of E (f_ty f)) as [| | | | | | | | |u| | | |] eqn:Hku; try discriminate.
      destruct (kind_of E u) as [| | | | | | | | |w| | | |] eqn:Hkw; try discriminate. exists u, w. auto. }
    destruct (f_anon f && struct_kind (kind_of E (f_ty f))) eqn:Han.
    { apply andb_true_iff in Han. exists f. split; [left; reflexivity|]. auto. }
    destruct (tag_string (tag_of X f)) eqn:Hst.
    - rewrite quotable_eq in H. destruct (quotable (kind_of E (elem_or_self E (f_ty f)))) eqn:Has.
      + destruct (IH' _ H) as (g & Hg & Hr). exists g. split; [right; exact Hg|exact Hr].
      + exists f. split; [left; reflexivity|]. split; [exact Hw|]. auto.
    - destruct (c S (elem_or_self E (f_ty f))) as [S1|e1| |] eqn:Hc1; cbn [bind] in H; try discriminate.
      + destruct (IH' _ H) as (g & Hg & Hr). exists g. split; [right; exact Hg|exact Hr].
      + exists f. split; [left; reflexivity|]. split; [exact Hw|]. left. split; [exact Hst|]. exact (Hc _ _ _ Hc1).
  Qed.

  Lemma comp_rejected : forall f b S e t, comp f b S t = RErr e -> (b = true -> bytes_type t = false) ->
    exists u, einside X E (b, t) u /\ unencodable X E u.
  Proof.
    induction f as [|f IH]; intros b S e t H Hb; [discriminate|]. cbn [ecompile_f] in H. rewrite implements_eq, is_bytes_eq in H.
    destruct (negb b && marshaler E t) eqn:Him; [discriminate|].
    assert (speaks E (b, t) = false) as Hsp.
    { unfold speaks. cbn [fst snd]. destruct b; [reflexivity|exact Him]. }
    destruct (negb b && bytes_type t) eqn:Hby; [discriminate|].
    assert (Hbf : b || negb (bytes_type t) = true).
    { destruct b; [reflexivity|]. cbn in Hby |- *. rewrite Hby. reflexivity. }
    assert (Hself : unencodable X E (b, t) -> exists u, einside X E (b, t) u /\ unencodable X E u).
    { intros Q. exists (b, t). split; [apply ei_refl|exact Q]. }
    assert (Hsub : forall c, epart X E (b, t) c -> (exists u, einside X E c u /\ unencodable X E u) ->
                   exists u, einside X E (b, t) u /\ unencodable X E u).
    { intros c Hc (u & Hu & Q). exists u. split; [|exact Q]. eapply einside_trans; [|exact Hu]. eapply ei_step; [apply ei_refl|exact Hc]. }
    destruct (kind_of E t) as [|k|k| | | |t'|n t'|k v|t'| |m| |id fs] eqn:Hk; try discriminate.
    - destruct k; try discriminate. apply Hself. apply ue_uintptr; auto.
    - destruct (mem_ty t S); [discriminate|]. eapply Hsub; [eapply ep_slice; eauto|]. eapply IH; [exact H|discriminate].
    - destruct (comp f false [] t') as [S0|e0| |] eqn:H0; cbn [bind] in H; try discriminate.
      eapply Hsub; [eapply ep_array; eauto|]. eapply IH; [exact H0|discriminate].
    - destruct (mem_ty t S); [discriminate|]. rewrite key_kind_eq in H. destruct (key_kind (kind_of E k)) eqn:Hkk.
      + eapply Hsub; [eapply ep_map; eauto|]. eapply IH; [exact H|discriminate].
      + apply Hself. eapply ue_key; eauto.
    - destruct (ptr_kind (kind_of E t')) eqn:Hpk.
      { destruct (kind_of E t') as [| | | | | | | | |w| | | |] eqn:Hkt; try discriminate. apply Hself. eapply ue_ptr; eauto. }
      destruct (iface_kind (kind_of E t')) eqn:Hif.
      { destruct (kind_of E t'); discriminate. }
      eapply Hsub; [eapply ep_ptr; eauto|].
      assert (comp f (by_structure (kind_of E t')) S t' = RErr e) as Hc by (rewrite <- by_structure_eq; destruct (kind_of E t'); try discriminate; exact H).
      eapply IH; [exact Hc|]. intros Q. destruct t' as [| | | | | |t''| | | | | | |]; try reflexivity. cbn in Q. discriminate.
    - apply Hself. apply ue_other; auto.
    - destruct (mem_ty t S); [discriminate|].
      destruct (fields_rejected _ (fun S0 e0 t0 Q => IH false S0 e0 t0 Q ltac:(discriminate)) _ _ _ H)
        as (g & Hg & Hw & [(Hst & Hu)|[(H1 & H2)|[(u & w & H1 & H2)|(H1 & H2)]]]).
      + eapply Hsub; [eapply ep_field; eauto|exact Hu].
      + apply Hself. eapply ue_embedded; eauto.
      + apply Hself. eapply ue_field_ptr; eauto.
      + apply Hself. eapply ue_string; eauto.
  Qed.

  Lemma fit_accepts f t : (forall u, einside X E (false, t) u -> ~ unencodable X E u) -> comp f false [] t <> RFuel ->
    exists S', comp f false [] t = ROk S'.
  Proof.
    intros He Hf. destruct (comp f false [] t) as [S'|e|p|] eqn:H; [exists S'; reflexivity| | |congruence].
    - destruct (comp_rejected f false [] e t H ltac:(discriminate)) as (u & Hu & Q). destruct (He u Hu Q).
    - destruct (ecompile_nopanic _ _ _ _ _ H).
  Qed.
  Theorem encodable_accepts f t : encodable X E t -> comp f false [] t <> RFuel ->
    exists S', comp f false [] t = ROk S'.
  Proof. intros [He _]. apply fit_accepts. exact He. Qed.
  (** the others are rejected or compiled for ever *)
  Theorem compile_endless f t a k u : (forall u, einside X E (false, t) u -> ~ unencodable X E u) ->
    einside X E (false, t) a -> speaks E a = false -> kind_of E (snd a) = KArray k u -> einside X E (false, u) a ->
    comp f false [] t = RFuel.
  Proof.
    intros He Ha Hs Hk Hin. destruct (comp f false [] t) as [S'|e|p|] eqn:H; [|exfalso..|reflexivity].
    - destruct (proj2 (compile_encodable f S' t H) a k u Ha Hs Hk Hin).
    - destruct (fit_accepts f t He) as [S' Q]; congruence.
    - destruct (fit_accepts f t He) as [S' Q]; congruence.
  Qed.
End Facts.
