(** Which memory Unmarshal writes to, for any memory: shared, cyclic or not. *)
From Coq Require Import Strings.String Strings.Byte ZArith List Bool Lia Floats.SpecFloat.
From Verif Require Import Base GoTypes GvalInd Strconv Tags Scan Decode Unmarshal MemDecode MemSpec MemFacts SliceHead.
Import ListNotations.
Open Scope Z_scope.

(** ** Evolution *)

Lemma ev_trans A B M M1 M2 : evolves A B M M1 -> evolves A B M1 M2 -> evolves A B M M2.
Proof. intros H H'. induction H'; [exact H|econstructor; eassumption..]. Qed.
Lemma ev_length A B M M' : evolves A B M M' -> (length M <= length M')%nat.
Proof.
  induction 1 as [|M1 L d _ IH _ _|M1 o m m' _ IH _ _|M1 ob _ IH _]; [lia|rewrite length_write; exact IH|rewrite length_update; exact IH|].
  rewrite app_length. lia.
Qed.
Lemma refs_mono (A A' : loc -> Prop) (B B' : nat -> Prop) d : (forall Q, A Q -> A' Q) -> (forall o, B o -> B' o) -> refs_in A B d -> refs_in A' B' d.
Proof.
  intros HA HB. destruct d as [| | | | | |o|l|o|o|o|l|]; cbn; auto.
  - destruct o; auto.
  - destruct o; auto.
  - destruct o as [[t d]|]; auto. destruct d as [| | | | | |o|l|o|o|o|l|]; auto. destruct o; auto.
Qed.
Lemma ev_mono (A A' : loc -> Prop) (B B' : nat -> Prop) M M' : (forall Q, A Q -> A' Q) -> (forall o, B o -> B' o) -> evolves A B M M' -> evolves A' B' M M'.
Proof.
  intros HA HB H. induction H as [|M1 L d _ IH HL Hd|M1 o m m' _ IH Ho Hm|M1 ob _ IH Hob].
  - constructor.
  - constructor; auto. intros q x Hx. eapply refs_mono; eauto.
  - econstructor; eauto.
  - constructor; auto. intros i q x Hx. eapply refs_mono; eauto.
Qed.

(** Reading after a store. *)
Lemma get_put_leaf p v : forall q d x, parts x = None -> get_path q (put_path p v d) = Some x ->
  get_path q d = Some x \/ exists q', get_path q' v = Some x.
Proof.
  induction p as [|k p IH]; intros q d x Hx H; cbn in H; [right; eauto|].
  destruct (parts d) as [l|] eqn:P; [|auto]. destruct (nth_error l k) as [y|] eqn:K; [|auto].
  assert (parts (with_parts d (update l k (put_path p v y))) = Some (update l k (put_path p v y))) as P'
    by (destruct d; cbn in P; try discriminate P; reflexivity).
  destruct q as [|j q]; cbn in H.
  { injection H as <-. congruence. }
  rewrite P' in H. cbn. rewrite P. destruct (Nat.eq_dec k j) as [->|Hne].
  - rewrite nth_update_same in H by (eapply nth_lt; exact K). rewrite K. eauto.
  - rewrite nth_update_other in H by exact Hne. auto.
Qed.
Lemma get_put_apart p v : forall q d, (forall r, p <> q ++ r) -> (forall r, q <> p ++ r) -> get_path q (put_path p v d) = get_path q d.
Proof.
  induction p as [|k p IH]; intros q d H1 H2; [exfalso; apply (H2 q); reflexivity|]. cbn.
  destruct (parts d) as [l|] eqn:P; [|reflexivity]. destruct (nth_error l k) as [y|] eqn:K; [|reflexivity].
  assert (parts (with_parts d (update l k (put_path p v y))) = Some (update l k (put_path p v y))) as P'
    by (destruct d; cbn in P; try discriminate P; reflexivity).
  destruct q as [|j q]; [exfalso; apply (H1 (k :: p)); reflexivity|]. cbn. rewrite P', P. destruct (Nat.eq_dec k j) as [->|Hne].
  - rewrite nth_update_same by (eapply nth_lt; exact K). rewrite K. apply IH; intros r E; [apply (H1 r)|apply (H2 r)]; cbn; congruence.
  - rewrite nth_update_other by exact Hne. reflexivity.
Qed.

Lemma read_write_leaf M L v Q x : parts x = None -> read (write M L v) Q = Some x -> read M Q = Some x \/ exists q, get_path q v = Some x.
Proof.
  intros Hx. unfold read. destruct (Nat.eq_dec (l_obj Q) (l_obj L)) as [E|Hne].
  - rewrite E, nth_write_same. destruct (nth_error M (l_obj L)) as [[l|m]|]; cbn [option_map]; [|auto|auto].
    cbn [obj_put]. destruct (nth_error l (l_cell L)) as [d|] eqn:C; [|auto]. cbn [obj_get].
    destruct (Nat.eq_dec (l_cell L) (l_cell Q)) as [Ec|Hc].
    + rewrite <- Ec, nth_update_same by (eapply nth_lt; exact C). rewrite C. apply get_put_leaf. exact Hx.
    + rewrite nth_update_other by exact Hc. auto.
  - rewrite nth_write_other by exact Hne. auto.
Qed.
Lemma read_write_apart M L v Q : ~ overlap L Q -> read (write M L v) Q = read M Q.
Proof.
  intros H. unfold read. destruct (Nat.eq_dec (l_obj Q) (l_obj L)) as [E|Hne].
  - rewrite E, nth_write_same. destruct (nth_error M (l_obj L)) as [[l|m]|]; cbn [option_map]; [|reflexivity|reflexivity].
    cbn [obj_put]. destruct (nth_error l (l_cell L)) as [d|] eqn:C; [|reflexivity]. cbn [obj_get].
    destruct (Nat.eq_dec (l_cell L) (l_cell Q)) as [Ec|Hc].
    + rewrite <- Ec, nth_update_same by (eapply nth_lt; exact C). rewrite C. apply get_put_apart; intros r Er; apply H;
        (split; [congruence|split; [congruence|]]); exists r; auto.
    + rewrite nth_update_other by exact Hc. reflexivity.
  - rewrite nth_write_other by exact Hne. reflexivity.
Qed.

Section Region.
  Context (A : loc -> Prop) (B : nat -> Prop) (N : nat).
  Hypotheses (Asub : forall Q k, A Q -> A (at_sub Q k)) (Anew : forall Q, (N <= l_obj Q)%nat -> A Q) (Bnew : forall o, (N <= o)%nat -> B o).

  Definition closed (M : memory) : Prop := forall Q x, A Q -> read M Q = Some x -> refs_in A B x.

  Lemma refs_parts x l : parts x = Some l -> refs_in A B x.
  Proof. destruct x; cbn; try discriminate; auto. Qed.

  Lemma ev_closed M M' : evolves A B M M' -> (N <= length M)%nat -> closed M -> closed M'.
  Proof.
    intros H HN C. induction H as [|M1 L d H IH HL Hd|M1 o m m' H IH Ho Hm|M1 ob H IH Hob]; [exact C| | |]; intros Q x HQ R.
    - destruct (parts x) as [l|] eqn:Px; [eapply refs_parts; exact Px|].
      apply read_write_leaf in R as [R|[q R]]; [eapply IH; eassumption|eapply Hd; exact R|exact Px].
    - apply (IH Q x HQ). unfold read in *. destruct (Nat.eq_dec o (l_obj Q)) as [->|Hne].
      + rewrite nth_update_same in R by (eapply nth_lt; exact Hm). discriminate R.
      + rewrite nth_update_other in R by exact Hne. exact R.
    - unfold read in R. destruct (Nat.lt_ge_cases (l_obj Q) (length M1)) as [Hlt|Hge].
      + rewrite nth_app_l in R by exact Hlt. apply (IH Q x HQ). exact R.
      + rewrite nth_error_app2 in R by exact Hge. destruct (l_obj Q - length M1)%nat as [|k]; [|destruct k; discriminate R].
        cbn in R. eapply Hob. exact R.
  Qed.

  (** Everything else stays. *)
  Lemma ev_frame M M' : evolves A B M M' -> forall Q, (l_obj Q < length M)%nat -> (forall P, A P -> ~ overlap P Q) -> read M' Q = read M Q.
  Proof.
    intros H Q HQ Hap. induction H as [|M1 L d H IH HL Hd|M1 o m m' H IH Ho Hm|M1 ob H IH Hob]; [reflexivity| | |].
    - rewrite read_write_apart by (apply Hap; exact HL). exact IH.
    - rewrite <- IH. unfold read. destruct (Nat.eq_dec o (l_obj Q)) as [->|Hne].
      + rewrite nth_update_same by (eapply nth_lt; exact Hm). rewrite Hm. reflexivity.
      + rewrite nth_update_other by exact Hne. reflexivity.
    - rewrite <- IH. unfold read. apply ev_length in H. rewrite nth_app_l by lia. reflexivity.
  Qed.
  Lemma ev_frame_map M M' : evolves A B M M' -> forall o m, ~ B o -> nth_error M o = Some (OMap m) -> nth_error M' o = Some (OMap m).
  Proof.
    intros H o m Ho Hm. induction H as [|M1 L d H IH HL Hd|M1 o1 m1 m' H IH Ho1 Hm1|M1 ob H IH Hob]; [exact Hm| | |].
    - unfold write. destruct (nth_error M1 (l_obj L)) as [ob|] eqn:Q; [|exact IH].
      destruct (Nat.eq_dec (l_obj L) o) as [<-|Hne].
      + rewrite nth_update_same by (eapply nth_lt; exact Q). rewrite IH in Q. injection Q as <-. reflexivity.
      + rewrite nth_update_other by exact Hne. exact IH.
    - rewrite nth_update_other by congruence. exact IH.
    - rewrite nth_app_l by (eapply nth_lt; exact IH). exact IH.
  Qed.

  (** ** Values without old references *)
  Lemma fine_leaf d : parts d = None -> refs_in A B d -> fine A B d.
  Proof. intros P H [|k q] x Hx; cbn in Hx; [injection Hx as <-; exact H|]. rewrite P in Hx. discriminate Hx. Qed.
  Lemma fine_parts d l : parts d = Some l -> Forall (fine A B) l -> fine A B d.
  Proof.
    intros P H [|k q] x Hx; cbn in Hx; [injection Hx as <-; eapply refs_parts; exact P|]. rewrite P in Hx.
    destruct (nth_error l k) as [y|] eqn:K; [|discriminate]. apply nth_error_In in K. rewrite Forall_forall in H. eapply H; eassumption.
  Qed.
  Lemma fine_cells l : Forall (fine A B) l -> fine_obj A B (OCells l).
  Proof.
    intros H i q x Hx. cbn in Hx. destruct (nth_error l i) as [d|] eqn:I; [|discriminate]. apply nth_error_In in I.
    rewrite Forall_forall in H. eapply H; eassumption.
  Qed.
  Lemma fine_map m : fine_obj A B (OMap m). Proof. intros i q x Hx. discriminate Hx. Qed.
  Lemma fine_plain g : fine A B (plain_val g).
  Proof.
    induction g as [b|z|z|f|f|s| |l IH|l IH| |m IH| |v IH| |t v IH|l IH| ] using gval_ind'; cbn [plain_val];
      try (apply fine_leaf; [reflexivity|exact I]).
    - eapply fine_parts; [reflexivity|]. apply Forall_map. exact IH.
    - eapply fine_parts; [reflexivity|]. apply Forall_map. exact IH.
  Qed.

  Lemma build_evolves g : forall M, (N <= length M)%nat -> evolves A B M (snd (build g M)) /\ fine A B (fst (build g M)).
  Proof.
    set (ba := fix all (l : list gval) (M : memory) : list mval * memory :=
      match l with
      | [] => ([], M)
      | x :: l' => let '(d, M1) := build x M in let '(ds, M2) := all l' M1 in (d :: ds, M2)
      end).
    set (bp := fix pairs (l : list (gval * gval)) (M : memory) : list (mval * mval) * memory :=
      match l with
      | [] => ([], M)
      | (k, v) :: l' =>
          let '(dk, M1) := build k M in
          let '(dv, M2) := build v M1 in
          let '(ds, M3) := pairs l' M2 in ((dk, dv) :: ds, M3)
      end).
    assert (forall l, Forall (fun g => forall M, (N <= length M)%nat -> evolves A B M (snd (build g M)) /\ fine A B (fst (build g M))) l ->
      forall M, (N <= length M)%nat -> evolves A B M (snd (ba l M)) /\ Forall (fine A B) (fst (ba l M))) as All.
    { intros l H. induction H as [|x l Hx _ IH]; intros M HM; cbn; [split; constructor|].
      destruct (Hx M HM) as [E1 F1]. destruct (build x M) as [d M1]. cbn [fst snd] in *. pose proof (ev_length _ _ _ _ E1).
      destruct (IH M1 ltac:(lia)) as [E2 F2]. fold ba. destruct (ba l M1) as [ds M2]. cbn [fst snd] in *.
      split; [eapply ev_trans; eassumption|constructor; assumption]. }
    induction g as [b|z|z|f|f|s| |l IH|l IH| |m IH| |v IH| |t v IH|l IH| ] using gval_ind'; intros M HM;
      try (cbn; split; [constructor|apply fine_leaf; [reflexivity|exact I]]); cbn [build]; fold ba; fold bp.
    - destruct (All l IH M HM) as [E1 F1]. destruct (ba l M) as [ds M1]. cbn [fst snd] in *. pose proof (ev_length _ _ _ _ E1).
      split; [constructor; [exact E1|apply fine_cells; exact F1]|apply fine_leaf; [reflexivity|exact I]].
    - destruct (All l IH M HM) as [E1 F1]. destruct (ba l M) as [ds M1]. cbn [fst snd] in *.
      split; [exact E1|eapply fine_parts; [reflexivity|exact F1]].
    - assert (evolves A B M (snd (bp m M))) as E1.
      { revert M HM. induction IH as [|[k v] m [Hk Hv] _ IHm]; intros M HM; cbn; [constructor|]. cbn [fst snd] in *.
        destruct (Hk M HM) as [E1 _]. destruct (build k M) as [dk M1]. cbn [fst snd] in *. pose proof (ev_length _ _ _ _ E1).
        destruct (Hv M1 ltac:(lia)) as [E2 _]. destruct (build v M1) as [dv M2]. cbn [fst snd] in *. pose proof (ev_length _ _ _ _ E2).
        specialize (IHm M2 ltac:(lia)). fold bp. destruct (bp m M2) as [ds M3]. cbn [fst snd] in *.
        eapply ev_trans; [exact E1|]. eapply ev_trans; [exact E2|exact IHm]. }
      destruct (bp m M) as [ds M1]. cbn [fst snd] in *. pose proof (ev_length _ _ _ _ E1).
      split; [constructor; [exact E1|apply fine_map]|apply fine_leaf; [reflexivity|]]. apply Bnew. lia.
    - destruct (IH M HM) as [E1 F1]. destruct (build v M) as [d M1]. cbn [fst snd] in *. pose proof (ev_length _ _ _ _ E1).
      split; [constructor; [exact E1|apply fine_cells; constructor; [exact F1|constructor]]|].
      apply fine_leaf; [reflexivity|]. apply Anew. cbn. lia.
    - destruct (IH M HM) as [E1 F1]. destruct (build v M) as [d M1]. cbn [fst snd] in *.
      split; [exact E1|]. apply fine_leaf; [reflexivity|]. pose proof (F1 [] d eq_refl) as Fd.
      destruct d as [| | | | | |o|l|o|o|o|l|]; cbn in *; auto.
    - destruct (All l IH M HM) as [E1 F1]. destruct (ba l M) as [ds M1]. cbn [fst snd] in *.
      split; [exact E1|eapply fine_parts; [reflexivity|exact F1]].
  Qed.

  (** ** The decoders *)

  Definition keeps {T} (hd : memory -> loc -> memory * T) : Prop :=
    forall M L, (N <= length M)%nat -> closed M -> A L -> evolves A B M (fst (hd M L)).

  (** What follows a step. *)
  Definition ok (M : memory) : Prop := (N <= length M)%nat /\ closed M.
  Lemma ev_ok M M' : ok M -> evolves A B M M' -> ok M'.
  Proof. intros [HN C] E. split; [apply ev_length in E; lia|eapply ev_closed; eassumption]. Qed.
  Lemma write_plain M L d : A L -> parts d = None -> refs_in A B d -> evolves A B M (write M L d).
  Proof. intros HL P H. constructor; [constructor|exact HL|apply fine_leaf; assumption]. Qed.
  Lemma alloc_fine M ob : fine_obj A B ob -> evolves A B M (M ++ [ob]).
  Proof. intros H. constructor; [constructor|exact H]. Qed.
  Lemma alloc_zero M E t : evolves A B M (new_cell M (dzero E t)).
  Proof. apply alloc_fine. apply fine_cells. constructor; [apply fine_plain|constructor]. Qed.
  Lemma read_fine M L d : closed M -> A L -> read M L = Some d -> fine A B d.
  Proof.
    intros C HL R q x Hx.
    assert (A (Loc (l_obj L) (l_cell L) (l_path L ++ q))) as HQ.
    { clear -Asub HL. revert L HL. induction q as [|k q IH]; intros [o i p] HL; cbn in *; [rewrite app_nil_r; exact HL|].
      apply (Asub _ k) in HL. unfold at_sub in HL. cbn in HL. specialize (IH _ HL). cbn in IH. rewrite <- app_assoc in IH. exact IH. }
    apply (C _ _ HQ). unfold read in *. cbn [l_obj l_cell l_path]. destruct (nth_error M (l_obj L)) as [[l|m]|]; try discriminate R.
    cbn in *. destruct (nth_error l (l_cell L)) as [c|]; [|discriminate].
    clear -R Hx. revert c R. induction (l_path L) as [|k p IH]; intros c R; cbn in *; [congruence|].
    destruct (parts c) as [l|]; [|discriminate]. destruct (nth_error l k); [|discriminate]. apply IH. exact R.
  Qed.

  Lemma new_keeps dec : keeps (h_new dec).
  Proof.
    intros M L HN C HL. unfold h_new. destruct (dec VOther) as [v r].
    assert (evolves A B M (fst (let '(d, M1) := build v M in (write M1 L d, r)))) as Go.
    { destruct (build_evolves v M HN) as [E1 F1]. destruct (build v M) as [d M1]. cbn [fst snd] in *. constructor; assumption. }
    destruct v; try exact Go. constructor.
  Qed.

  Context (U : method) (HU : forall n b, keeps (U n b)).

  Lemma unm_keeps X E n buf c depth : keeps (h_unm U X E n buf c depth).
  Proof.
    intros M L HN C HL. unfold h_unm. destruct (bind _ _) as [[src cend]|e|p|]; try constructor. cbn zeta.
    assert (evolves A B M (fst (match U n (unquoted X src) (new_cell M (dzero E (TName n))) (new_at M) with
     | (M1, true) => match read M1 (new_at M) with Some d => (write M1 L d, ROk cend) | None => (M1, RPanic PNilDeref) end
     | (M1, false) => (M1, RErr EUser)
     end))) as Go.
    { pose proof (alloc_zero M E (TName n)) as E0. pose proof (ev_ok _ _ (conj HN C) E0) as [HN0 C0].
      assert (A (new_at M)) as HLn by (apply Anew; cbn; lia).
      pose proof (HU n (unquoted X src) _ _ HN0 C0 HLn) as E1.
      pose proof (ev_ok _ _ (conj HN0 C0) E1) as [HN1 C1].
      destruct (U n _ _ _) as [M1 ok]. cbn [fst] in *. pose proof (ev_trans _ _ _ _ _ E0 E1) as E01. destruct ok; [|exact E01].
      destruct (read M1 (new_at M)) as [d|] eqn:R; [|exact E01]. cbn [fst]. constructor; [exact E01|exact HL|].
      eapply read_fine; [exact C1|exact HLn|exact R]. }
    destruct src as [|b src]; [exact Go|]. destruct (_ || _); [constructor|]. destruct (_ && _); [|exact Go].
    constructor; [constructor|exact HL|apply fine_plain].
  Qed.

  Lemma iface_keeps X E buf c depth : keeps (h_iface U X E buf c depth).
  Proof.
    intros M L HN C HL. unfold h_iface. cbn zeta.
    assert (evolves A B M (fst (match rd buf c with
     | ROk b => if b =b "N"%byte then match validate_null buf c with ROk _ => (write M L (DIface None), ROk (c + 2)) | r => (M, fail r) end
                else (M, RErr (EType c))
     | r => (M, fail r) end))) as Plain.
    { destruct (rd buf c) as [b|e|p|]; try constructor. destruct (b =b "N"%byte); [|constructor].
      destruct (validate_null buf c); try constructor; [constructor|exact HL|apply fine_leaf; [reflexivity|exact I]]. }
    destruct (read M L) as [d|] eqn:R; [|exact Plain].
    destruct d as [| | | | | |o|l|o|o|o|l|]; try exact Plain. destruct o as [[t d]|]; [|exact Plain].
    destruct t as [| | | | | | | | |t| | | |]; try exact Plain. destruct d as [| | | | | |o|l|o|p|o|l|]; try exact Plain.
    destruct (has_unmarshal E t) as [n|]; [|exact Plain].
    destruct (bind _ _) as [[src cend]|e|q|]; try constructor.
    destruct (bytes_eqb _ _). { apply write_plain; [exact HL|reflexivity|exact I]. }
    destruct p as [Lp|]; [|constructor]. pose proof (C _ _ HL R) as HLp. cbn in HLp.
    pose proof (HU n (unquoted X src) _ _ HN C HLp) as E1. destruct (U n _ _ _) as [M1 ok]. exact E1.
  Qed.

  Lemma key_keeps X E kt buf c depth M : (N <= length M)%nat -> closed M ->
    evolves A B M (fst (h_key U X E kt buf c depth M)).
  Proof.
    intros HN C. unfold h_key.
    assert (evolves A B M (fst (let '(g, r) := dec_key X E kt buf c depth in
      match r with ROk c => let '(d, M1) := build g M in (M1, ROk (d, c)) | r => (M, fail r) end))) as Dflt.
    { destruct (dec_key X E kt buf c depth) as [g r]. destruct r as [c'|e|p|]; try constructor.
      destruct (build_evolves g M HN) as [E1 _]. destruct (build g M) as [d M1]. exact E1. }
    destruct (key_node E kt) as [n| | | | | | | |]; try exact Dflt. cbn zeta.
    pose proof (alloc_zero M E kt) as E0. pose proof (ev_ok _ _ (conj HN C) E0) as [HN0 C0].
    assert (A (new_at M)) as HLn by (apply Anew; cbn; lia).
    pose proof (unm_keeps X E n buf c depth _ _ HN0 C0 HLn) as E1. destruct (h_unm _ _ _ _ _ _ _ _ _) as [M1 r]. cbn [fst] in *.
    eapply ev_trans; eassumption.
  Qed.

  Lemma map_loop_keeps kd vd E vt buf :
    (forall c M, (N <= length M)%nat -> closed M -> evolves A B M (fst (kd c M))) -> (forall c, keeps (vd c)) ->
    forall n c, keeps (h_map_loop kd vd (dzero E vt) buf n c).
  Proof.
    intros Hkd Hvd n. induction n as [|n IH]; intros c M L HN C HL; cbn [h_map_loop]; [constructor|].
    destruct (negb (has_byte buf c)); [constructor|].
    pose proof (Hkd c M HN C) as E1. destruct (kd c M) as [M1 kr]. cbn [fst] in E1. pose proof (ev_ok _ _ (conj HN C) E1) as [HN1 C1].
    destruct kr as [[k c1]|e|p|]; try exact E1. destruct (negb (has_byte buf c1)); [exact E1|].
    pose proof (alloc_zero M1 E vt) as E2. pose proof (ev_ok _ _ (conj HN1 C1) E2) as [HN2 C2].
    assert (A (new_at M1)) as HLn by (apply Anew; cbn; lia).
    pose proof (Hvd c1 _ _ HN2 C2 HLn) as E3. cbn zeta. destruct (vd c1 (new_cell M1 (dzero E vt)) (new_at M1)) as [M2 vr]. cbn [fst] in E3.
    pose proof (ev_ok _ _ (conj HN2 C2) E3) as [HN3 C3].
    pose proof (ev_trans _ _ _ _ _ E1 (ev_trans _ _ _ _ _ E2 E3)) as E123.
    destruct vr as [c2|e|p|]; try exact E123. destruct (read M2 (new_at M1)) as [v|]; [|exact E123].
    destruct (negb (mhashable k)); [exact E123|].
    destruct (read M2 L) as [d|] eqn:R; [|exact E123]. destruct d as [| | | | | |o|l|o|o|o|l|]; try exact E123.
    destruct o as [o|]; [|exact E123]. pose proof (C3 _ _ HL R) as HB. cbn in HB.
    destruct (nth_error M2 o) as [[l|m]|] eqn:Ho; try exact E123.
    assert (evolves A B M2 (update M2 o (OMap (mmap_set k v m)))) as E4 by (econstructor; [constructor|exact HB|exact Ho]).
    pose proof (ev_trans _ _ _ _ _ E123 E4) as E5. pose proof (ev_ok _ _ (conj HN3 C3) E4) as [HN4 C4].
    destruct (negb (has_byte buf c2)); [exact E5|].
    destruct (rd buf c2) as [b|e|p|]; try exact E5. destruct (b =b "}"%byte); [exact E5|].
    eapply ev_trans; [exact E5|]. apply IH; assumption.
  Qed.

  Lemma map_keeps kd vd E vt buf c depth :
    (forall c M, (N <= length M)%nat -> closed M -> evolves A B M (fst (kd c M))) -> (forall c, keeps (vd c)) ->
    keeps (h_map kd vd (dzero E vt) buf c depth).
  Proof.
    intros Hkd Hvd M L HN C HL. unfold h_map. destruct (map_header buf c depth) as [[c'|c']|e|p|]; try constructor;
      [constructor|exact HL|apply fine_leaf; [reflexivity|exact I]|].
    destruct (read M L) as [d|] eqn:R; [|constructor]. destruct d as [| | | | | |o|l|o|o|o|l|]; try constructor. cbn zeta.
    set (M1 := match o with None => write (M ++ [OMap []]) L (DMap (Some (length M))) | Some _ => M end).
    assert (evolves A B M M1) as E1.
    { unfold M1. destruct o; [constructor|]. constructor; [constructor; [constructor|apply fine_map]|exact HL|].
      apply fine_leaf; [reflexivity|]. apply Bnew. exact HN. }
    pose proof (ev_ok _ _ (conj HN C) E1) as [HN1 C1].
    destruct (negb (has_byte buf c')); [exact E1|]. destruct (rd buf c') as [b|e|p|]; try exact E1.
    destruct (b =b "}"%byte); [exact E1|]. eapply ev_trans; [exact E1|]. apply map_loop_keeps; assumption.
  Qed.

  Lemma fine_repeat d n : fine A B d -> Forall (fine A B) (repeat d n).
  Proof. intros H. induction n; cbn; constructor; auto. Qed.

  Lemma slice_loop_keeps X E et ed buf : (forall c, keeps (ed c)) ->
    forall n c o, (N <= o)%nat -> keeps (h_slice_loop X et (dzero E et) ed buf n c o).
  Proof.
    intros Hed n. induction n as [|n IH]; intros c o Ho M L HN C HL; cbn [h_slice_loop]; [constructor|].
    destruct (negb (has_byte buf c)); [constructor|].
    destruct (read_int buf c) as [[idx c1]|e|p|]; try constructor. destruct (negb (has_byte buf c1)); [constructor|].
    destruct (nth_error M o) as [[l|m]|] eqn:Hl; try constructor.
    assert (forall o1 M1 c2, (N <= o1)%nat -> evolves A B M M1 ->
      evolves A B M (fst (match nth_error M1 o1 with
        | Some (OCells l) =>
            let M1 := write M1 L (DSlice (Some (o1, 0%nat, length l))) in
            if negb (has_byte buf c2) then (M1, RErr (ESyntax c2 (WEnd "array")))
            else match rd buf c2 with
                 | ROk b => if b =b "}"%byte then (M1, ROk (c2 + 1)) else h_slice_loop X et (dzero E et) ed buf n c2 o1 M1 L
                 | r => (M1, fail r)
                 end
        | _ => (M1, RPanic PNilDeref)
        end))) as Continue.
    { intros o1 M1 c2 Ho1 E1. destruct (nth_error M1 o1) as [[l1|m1]|]; try exact E1. cbn zeta.
      assert (evolves A B M (write M1 L (DSlice (Some (o1, 0%nat, length l1))))) as E2.
      { constructor; [exact E1|exact HL|apply fine_leaf; [reflexivity|exact I]]. }
      pose proof (ev_ok _ _ (conj HN C) E2) as [HN2 C2].
      destruct (negb (has_byte buf c2)); [exact E2|]. destruct (rd buf c2) as [b|e|p|]; try exact E2.
      destruct (b =b "}"%byte); [exact E2|]. eapply ev_trans; [exact E2|]. apply IH; assumption. }
    destruct (idx <? blen l).
    - destruct (bad_index _ _); [constructor|]. assert (A (Loc o (Z.to_nat idx) [])) as HLe by (apply Anew; exact Ho).
      pose proof (Hed c1 _ _ HN C HLe) as E1. destruct (ed c1 M (Loc o (Z.to_nat idx) [])) as [M1 r]. cbn [fst] in E1.
      destruct r as [c2|e|p|]; try exact E1. apply Continue; assumption.
    - destruct (_ || _); [constructor|]. destruct (bad_index _ _); [constructor|]. cbn zeta.
      set (cells := l ++ repeat (dzero E et) (Z.to_nat idx - length l) ++ [dzero E et]).
      assert (evolves A B M (M ++ [OCells cells])) as E0.
      { apply alloc_fine. apply fine_cells. unfold cells. apply Forall_app. split; [|apply Forall_app; split].
        - apply Forall_forall. intros d Hd. apply In_nth_error in Hd as [i Hi]. eapply read_fine with (L := Loc o i []); [exact C|apply Anew; exact Ho|].
          unfold read. cbn [l_obj l_cell l_path]. rewrite Hl. cbn [obj_get]. rewrite Hi. reflexivity.
        - apply fine_repeat, fine_plain.
        - constructor; [apply fine_plain|constructor]. }
      pose proof (ev_ok _ _ (conj HN C) E0) as [HN0 C0].
      assert (A (Loc (length M) (Z.to_nat idx) [])) as HLe by (apply Anew; exact HN).
      pose proof (Hed c1 _ _ HN0 C0 HLe) as E1. destruct (ed c1 (M ++ [OCells cells]) (Loc (length M) (Z.to_nat idx) [])) as [M1 r]. cbn [fst] in E1.
      pose proof (ev_trans _ _ _ _ _ E0 E1) as E01.
      destruct r as [c2|e|p|]; try exact E01. apply Continue; assumption.
  Qed.

  Lemma slice_keeps X E et ed buf c depth : (forall c, keeps (ed c)) -> keeps (h_slice X et (dzero E et) ed buf c depth).
  Proof.
    intros Hed M L HN C HL. unfold h_slice. destruct (slice_header buf c depth) as [[c'|c'|len c']|e|p|]; try constructor;
      try (first [constructor|exact HL|apply fine_leaf; [reflexivity|exact I]]; fail).
    destruct (negb _); [constructor|].
    assert (evolves A B M (M ++ [OCells []])) as E0 by (apply alloc_fine, fine_cells; constructor).
    pose proof (ev_ok _ _ (conj HN C) E0) as [HN0 C0].
    eapply ev_trans; [exact E0|]. apply slice_loop_keeps; assumption.
  Qed.

  Lemma array_loop_keeps ed buf depth len : (forall c, keeps (ed c)) -> forall n c, keeps (h_array_loop ed buf depth len n c).
  Proof.
    intros Hed n. induction n as [|n IH]; intros c M L HN C HL; cbn [h_array_loop]; [constructor|].
    destruct (negb (has_byte buf c)); [constructor|].
    destruct (read_int buf c) as [[idx c1]|e|p|]; try constructor. destruct (negb (has_byte buf c1)); [constructor|].
    assert (forall M1 c2, evolves A B M M1 -> evolves A B M (fst
      (if negb (has_byte buf c2) then (M1, RErr (ESyntax c2 (WEnd "array")))
       else match rd buf c2 with
            | ROk b => if b =b "}"%byte then (M1, ROk (c2 + 1)) else h_array_loop ed buf depth len n c2 M1 L
            | r => (M1, fail r)
            end))) as Continue.
    { intros M1 c2 E1. pose proof (ev_ok _ _ (conj HN C) E1) as [HN1 C1]. destruct (negb (has_byte buf c2)); [exact E1|].
      destruct (rd buf c2) as [b|e|p|]; try exact E1. destruct (b =b "}"%byte); [exact E1|].
      eapply ev_trans; [exact E1|]. apply IH; assumption. }
    destruct (_ <? _).
    - destruct (bad_index _ _); [constructor|].
      pose proof (Hed c1 _ _ HN C (Asub _ (Z.to_nat idx) HL)) as E1. destruct (ed c1 M (at_sub L (Z.to_nat idx))) as [M1 r]. cbn [fst] in E1.
      destruct r as [c2|e|p|]; try exact E1. apply Continue. exact E1.
    - destruct (skip_value buf c1 depth) as [c2|e|p|]; try constructor. apply Continue. constructor.
  Qed.

  Lemma array_keeps E n et ed buf c depth : (forall c, keeps (ed c)) -> keeps (h_array n (dzero E et) ed buf c depth).
  Proof.
    intros Hed M L HN C HL. unfold h_array. cbn zeta.
    set (M0 := if array_zeroed buf c depth then write M L (DArr (repeat (dzero E et) n)) else M).
    assert (evolves A B M M0) as E0.
    { unfold M0. destruct (array_zeroed buf c depth); [|constructor]. constructor; [constructor|exact HL|].
      eapply fine_parts; [reflexivity|]. apply fine_repeat, fine_plain. }
    pose proof (ev_ok _ _ (conj HN C) E0) as [HN0 C0].
    destruct (array_header buf c depth) as [[c'|c'|len c']|e|p|]; try exact E0; [constructor|].
    eapply ev_trans; [exact E0|]. apply array_loop_keeps; assumption.
  Qed.

  Lemma struct_loop_keeps decs fd buf depth : (forall d c, keeps (fd d c)) -> forall n c, keeps (h_struct_loop decs fd buf depth n c).
  Proof.
    intros Hfd n. induction n as [|n IH]; intros c M L HN C HL; cbn [h_struct_loop]; [constructor|].
    destruct (negb (has_byte buf c)); [constructor|].
    destruct (decode_string_bytes buf c) as [[key c1]|e|p|]; try constructor. destruct (negb (has_byte buf c1)); [constructor|].
    assert (forall M1 c2, evolves A B M M1 -> evolves A B M (fst
      (if negb (has_byte buf c2) then (M1, RErr (ESyntax c2 (WEnd "object")))
       else match rd buf c2 with
            | ROk b => if b =b "}"%byte then (M1, ROk (c2 + 1)) else h_struct_loop decs fd buf depth n c2 M1 L
            | r => (M1, fail r)
            end))) as Continue.
    { intros M1 c2 E1. pose proof (ev_ok _ _ (conj HN C) E1) as [HN1 C1]. destruct (negb (has_byte buf c2)); [exact E1|].
      destruct (rd buf c2) as [b|e|p|]; try exact E1. destruct (b =b "}"%byte); [exact E1|].
      eapply ev_trans; [exact E1|]. apply IH; assumption. }
    destruct (find_field _ decs) as [d|].
    - destruct (read M (at_sub L (fd_idx d))); [|constructor].
      pose proof (Hfd d c1 _ _ HN C (Asub _ (fd_idx d) HL)) as E1. destruct (fd d c1 M (at_sub L (fd_idx d))) as [M1 r]. cbn [fst] in E1.
      destruct r as [c2|e|p|]; try exact E1. apply Continue. exact E1.
    - destruct (skip_value buf c1 depth) as [c2|e|p|]; try constructor. apply Continue. constructor.
  Qed.

  Lemma struct_keeps decs fd buf c depth : (forall d c, keeps (fd d c)) -> keeps (h_struct decs fd buf c depth).
  Proof.
    intros Hfd M L HN C HL. unfold h_struct. destruct (struct_header buf c depth) as [[c'|c']|e|p|]; try constructor.
    destruct (read M L) as [d|]; [|constructor]. destruct d; try constructor. destruct (negb (has_byte buf c')); [constructor|].
    destruct (rd buf c') as [b|e|p|]; try constructor. destruct (b =b "}"%byte); [constructor|]. apply struct_loop_keeps; assumption.
  Qed.

  Lemma ptr_keeps E t ed buf c : (forall c, keeps (ed c)) -> keeps (h_ptr (dzero E t) ed buf c).
  Proof.
    intros Hed M L HN C HL. unfold h_ptr. destruct (rd buf c) as [b|e|p|]; try constructor. destruct (b =b "N"%byte).
    { destruct (validate_null buf c); try constructor; [constructor|exact HL|apply fine_leaf; [reflexivity|exact I]]. }
    destruct (read M L) as [d|] eqn:R; [|constructor]. destruct d as [| | | | | |o|l|o|o|o|l|]; try constructor.
    destruct o as [p|].
    - apply Hed; auto. apply (C _ _ HL R).
    - assert (evolves A B M (write (new_cell M (dzero E t)) L (DPtr (Some (new_at M))))) as E1.
      { constructor; [apply alloc_zero|exact HL|]. apply fine_leaf; [reflexivity|]. apply Anew. cbn. lia. }
      pose proof (ev_ok _ _ (conj HN C) E1) as [HN1 C1]. eapply ev_trans; [exact E1|]. apply Hed; auto.
  Qed.

  Lemma bytes_keeps sd buf c : keeps sd -> keeps (h_bytes sd buf c).
  Proof.
    intros Hs M L HN C HL. unfold h_bytes. destruct (rd buf c) as [b|e|p|]; try constructor.
    destruct (b =b "a"%byte); [apply Hs; assumption|]. apply new_keeps; assumption.
  Qed.

  Lemma decode_keeps X E : forall fuel t buf c depth, keeps (hdecode_f U X E fuel t buf c depth).
  Proof.
    induction fuel as [|f IH]; intros t buf c depth; [intros M L _ _ _; constructor|].
    cbn [hdecode_f]. unfold keeps. destruct (node_of E t) as [n|t'|id fs|et|et|n et|kt vt| | |k|k| | | | |] eqn:Q; try apply new_keeps.
    - apply unm_keeps.
    - destruct (kind_of E t');
      first [apply (ptr_keeps E t' (fun c M L => hdecode_f U X E f t' buf c depth M L)); intros c'; apply IH
            |intros M L _ _ _; constructor].
    - apply struct_keeps. intros d c'. destruct (fd_str d); [|apply IH].
      destruct (node_of E (fd_ty d)) as [n|t'|id' fs'|et|et|n et|kt vt| | |k|k| | | | |]; try apply new_keeps.
      apply (ptr_keeps E t' (fun c => h_new (dec_wrapped X (node_of E t') buf c))). intros c2. apply new_keeps.
    - apply bytes_keeps, slice_keeps. intros c'. apply IH.
    - apply slice_keeps. intros c'. apply IH.
    - apply array_keeps. intros c'. apply IH.
    - apply (map_keeps (fun c M => h_key U X E kt buf c (depth + 1) M) (fun c M L => hdecode_f U X E f vt buf c (depth + 1) M L)).
      + intros c' M HN C. apply key_keeps; assumption.
      + intros c'. apply IH.
    - apply iface_keeps.
    - intros M L _ _ _. constructor.
  Qed.
End Region.

(** ** The region of a call *)

Lemma modest_keeps (A : loc -> Prop) (B : nat -> Prop) N U : (forall Q k, A Q -> A (at_sub Q k)) -> (forall Q, (N <= l_obj Q)%nat -> A Q) -> (forall o, (N <= o)%nat -> B o) ->
  modest U -> forall n b, keeps A B N (U n b).
Proof.
  intros Asub Anew Bnew HU n b M L HN C HL.
  assert (forall Q, leads M L Q -> A Q) as Hl.
  { intros Q HQ. induction HQ as [|Q k HQ IH|Q p HQ IH R|Q t p HQ IH R]; [exact HL|auto|exact (C _ _ IH R)|exact (C _ _ IH R)]. }
  eapply ev_mono; [| |apply HU].
  - intros Q [HQ|HQ]; [auto|]. apply Anew. lia.
  - intros o [[Q [HQ R]]|Ho]; [exact (C _ _ (Hl _ HQ) R)|]. apply Bnew. lia.
Qed.

Lemma mine_sub M L Q k : mine M L Q -> mine M L (at_sub Q k).
Proof. intros [H|H]; [left; constructor; exact H|right; exact H]. Qed.
Lemma mine_closed M L : closed (mine M L) (mine_map M L) M.
Proof.
  intros Q x HQ R. destruct HQ as [HQ|HQ].
  - destruct x as [| | | | | |o|l|o|o|o|l|]; cbn; auto.
    + destruct o as [o|]; [|exact I]. left. exists Q. auto.
    + destruct o as [p|]; [|exact I]. left. eapply le_ptr; eassumption.
    + destruct o as [[t d]|]; [|exact I]. destruct d as [| | | | | |o|l|o|o|o|l|]; auto. destruct o as [p|]; [|exact I].
      left. eapply le_iface; eassumption.
  - apply read_lt in R. lia.
Qed.

Theorem decode_modest U X E fuel t buf c depth M L : modest U ->
  evolves (mine M L) (mine_map M L) M (fst (hdecode_f U X E fuel t buf c depth M L)).
Proof.
  intros HU.
  assert (forall Q, (length M <= l_obj Q)%nat -> mine M L Q) as An by (intros Q H; right; exact H).
  assert (forall o, (length M <= o)%nat -> mine_map M L o) as Bn by (intros o H; right; exact H).
  apply (decode_keeps (mine M L) (mine_map M L) (length M) (mine_sub M L) An Bn U).
  - apply modest_keeps; auto. apply mine_sub.
  - lia.
  - apply mine_closed.
  - left. constructor.
Qed.
