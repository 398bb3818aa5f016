(** Unmarshal on memory: refinement, frame and termination of whole calls. *)
From Coq Require Import Strings.String Strings.Byte ZArith List Bool Lia Floats.SpecFloat.
From Verif Require Import Base GoTypes Strconv Tags Scan Decode Unmarshal Grammar Denote Typing NumFacts ScanFacts SkipFacts CompileFacts Sound SoundT UnmFacts
  MemDecode MemSpec MemFacts MemRefine MemFrame MemTerm.
Import ListNotations.
Open Scope Z_scope.

Lemma holds_pre M L g fp : holds M L g fp <-> exists d, pre M L d g fp.
Proof. reflexivity. Qed.
Lemma updated_holds M L g fp M' g' : holds M L g fp -> updated M L fp M' g' -> exists fp', holds M' L g' fp'.
Proof. intros [d P] (d' & fp' & O). exists fp', d'. eapply out_pre; eassumption. Qed.
Lemma updated_same M L g fp : holds M L g fp -> updated M L fp M g.
Proof. intros [d P]. exists d, fp. apply out_same. exact P. Qed.

(** Other variables keep their contents. *)
Lemma updated_frame M L g fp M' g' Q : holds M L g fp -> updated M L fp M' g' ->
  (l_obj Q < length M)%nat -> ~ In (l_obj Q) fp -> ~ overlap L Q -> read M' Q = read M Q.
Proof.
  intros _ (d' & fp' & O) HQ Hn Ho. destruct (Nat.eq_dec (l_obj Q) (l_obj L)) as [E|Hne].
  - rewrite <- (read_write_apart M L d' Q Ho). unfold read. rewrite E, (out_here _ _ _ _ _ _ _ O), nth_write_same. reflexivity.
  - unfold read. rewrite (out_frame _ _ _ _ _ _ _ O) by assumption. reflexivity.
Qed.

Lemma hunmarshal_refines U X E cfuel data t M L g fp : methods_as X U -> holds M L g fp ->
  snd (hunmarshal U X E cfuel data M (HtPtr t L)) = snd (unmarshal X E cfuel data (TgPtr t g)) /\
  updated M L fp (fst (hunmarshal U X E cfuel data M (HtPtr t L))) (fst (unmarshal X E cfuel data (TgPtr t g))).
Proof.
  intros HU H. pose proof (updated_same _ _ _ _ H) as Same. unfold hunmarshal, unmarshal. destruct data as [|b data]; [auto|].
  destruct (compile_f X E cfuel [] t) as [[]|e|p|]; auto.
  destruct H as [d P]. destruct (decode_refines U X E HU (decode_fuel (b :: data)) t (b :: data) 0 0 _ _ _ _ _ P) as (Er & d' & fp' & O).
  unfold hdecode, decode. destruct (hdecode_f _ _ _ _ _ _ _ _ _ _) as [M' r]. destruct (decode_f _ _ _ _ _ _ _ _) as [g' r'].
  cbn [fst snd] in *. subst r'. split; [reflexivity|]. exists d', fp'. exact O.
Qed.

Lemma hunmarshal_modest U X E cfuel data t M L : modest U ->
  evolves (mine M L) (mine_map M L) M (fst (hunmarshal U X E cfuel data M (HtPtr t L))).
Proof.
  intros HU. unfold hunmarshal. destruct data as [|b data]; [constructor|].
  destruct (compile_f X E cfuel [] t) as [[]|e|p|]; try constructor.
  pose proof (decode_modest U X E (decode_fuel (b :: data)) t (b :: data) 0 0 M L HU) as Ev. unfold hdecode.
  destruct (hdecode_f _ _ _ _ _ _ _ _ _ _) as [M' r]. exact Ev.
Qed.

Lemma mine_apart M L Q : (l_obj Q < length M)%nat -> (forall P, leads M L P -> ~ overlap P Q) -> forall P, mine M L P -> ~ overlap P Q.
Proof. intros HQ H P [HP|HP]; [auto|]. intros [E _]. lia. Qed.

Lemma ev_frame_obj A B M M' : evolves A B M M' -> forall o, (o < length M)%nat -> (forall P, A P -> l_obj P <> o) -> ~ B o -> nth_error M' o = nth_error M o.
Proof.
  intros H o Ho HA HB. induction H as [|M1 L d H IH HL Hd|M1 o1 m1 m' H IH Ho1 Hm1|M1 ob H IH Hob]; [reflexivity| | |].
  - rewrite nth_write_other; [exact IH|]. apply not_eq_sym. auto.
  - rewrite nth_update_other by congruence. exact IH.
  - apply ev_length in H. rewrite nth_app_l by lia. exact IH.
Qed.

Lemma hunmarshal_three U X E cfuel data t M L : small data -> compile_f X E cfuel [] t <> RFuel ->
  match snd (hunmarshal U X E cfuel data M (HtPtr t L)) with
  | ROk _ => exists p, data = text p
  | RErr _ => True
  | RPanic p => p <> PIndex
  | RFuel => False
  end.
Proof.
  intros Hsm Hc. unfold hunmarshal. destruct data as [|b data]; [exact I|].
  pose proof (compile_nopanic X E PIndex cfuel [] t) as Hp.
  destruct (compile_f X E cfuel [] t) as [[]|e|p|]; cbn [snd]; [|exact I|congruence|congruence].
  assert (hout (b :: data) (b :: data) (hdecode U X E t (b :: data) 0 0 M L)) as D.
  { apply hdecode_ends; auto; [apply pos_start|discriminate|]. unfold decode_fuel, ptr_cost. destruct (is_ptr E t); lia. }
  unfold hout, dout in D. destruct (hdecode U X E t (b :: data) 0 0 M L) as [M' [c|e|p|]]; cbn [fst snd bind] in *; auto.
  destruct D as (p & s' & Es & Hp'). pose proof (validate_end_out _ _ _ Hp') as V.
  destruct (validate_end (b :: data) c); cbn in V |- *; auto.
  exists p. rewrite Es. subst s'. rewrite app_nil_r. reflexivity.
Qed.

(** Every tree can be held. *)
Lemma holds_exists g : exists M L fp, holds M L g fp.
Proof.
  destruct (build_rep g []) as (fp & R & N & _). destruct (build g []) as [d M] eqn:Q. cbn [fst snd] in *.
  exists (M ++ [OCells [d]]), (Loc (length M) 0 []), fp, d. split; [|split; [|split; [exact N|]]].
  - unfold read. cbn [l_obj l_cell l_path]. rewrite nth_app_end. reflexivity.
  - eapply rep_agree; [exact R|]. intros o Ho. apply nth_app_l. eapply rep_lt; eassumption.
  - cbn. intros H. pose proof (rep_lt _ _ _ _ R _ H). lia.
Qed.
