(** MemDecode.v refines Decode.v on destinations without sharing. *)
From Coq Require Import Strings.String Strings.Byte ZArith List Bool Lia Floats.SpecFloat.
From Verif Require Import Base GoTypes GvalInd Strconv Tags Scan Decode Unmarshal Grammar Denote NumFacts ScanFacts Safe MemDecode MemSpec MemFacts.
Import ListNotations.
Open Scope Z_scope.

(** ** Newly made values *)

Definition made (M : memory) (M1 : memory) (fp : list nat) : Prop :=
  NoDup fp /\ (length M <= length M1)%nat /\ (forall o, (o < length M)%nat -> nth_error M1 o = nth_error M o) /\
  (forall o, In o fp -> (length M <= o)%nat).
Lemma made_nil M : made M M []. Proof. repeat split; auto; [constructor|intros _ []]. Qed.

Definition build_all := fix all (l : list gval) (M : memory) : list mval * memory :=
  match l with
  | [] => ([], M)
  | x :: l' => let '(d, M1) := build x M in let '(ds, M2) := all l' M1 in (d :: ds, M2)
  end.
Definition build_pairs := fix pairs (l : list (gval * gval)) (M : memory) : list (mval * mval) * memory :=
  match l with
  | [] => ([], M)
  | (k, v) :: l' =>
      let '(dk, M1) := build k M in
      let '(dv, M2) := build v M1 in
      let '(ds, M3) := pairs l' M2 in ((dk, dv) :: ds, M3)
  end.

Lemma made_app M M1 M2 f1 f2 : made M M1 f1 -> (forall o, In o f1 -> (o < length M1)%nat) -> made M1 M2 f2 -> made M M2 (f1 ++ f2).
Proof.
  intros (N1 & L1 & A1 & F1) B (N2 & L2 & A2 & F2). repeat split.
  - apply nodup_app; auto. intros x H1 H2. apply B in H1. apply F2 in H2. lia.
  - lia.
  - intros o Ho. rewrite A2 by lia. auto.
  - intros o Ho. apply in_app_or in Ho as [Ho|Ho]; [auto|]. apply F2 in Ho. lia.
Qed.
Lemma made_alloc M M1 ob f : made M M1 f -> (forall o, In o f -> (o < length M1)%nat) -> made M (M1 ++ [ob]) (length M1 :: f).
Proof.
  intros (N1 & L1 & A1 & F1) B. repeat split.
  - constructor; [|exact N1]. intros H. apply B in H. lia.
  - rewrite app_length. lia.
  - intros o Ho. rewrite nth_app_l by lia. auto.
  - intros o [<-|Ho]; auto.
Qed.
Lemma rep_made M M1 fp0 d g fp : made M M1 fp0 -> rep M d g fp -> rep M1 d g fp.
Proof. intros (_ & _ & A & _) H. eapply rep_agree; [exact H|]. intros o Ho. apply A. eapply rep_lt; eassumption. Qed.
Lemma reps_made M M1 fp0 d g fp : made M M1 fp0 -> reps M d g fp -> reps M1 d g fp.
Proof. intros (_ & _ & A & _) H. eapply reps_agree; [exact H|]. intros o Ho. apply A. eapply reps_lt; eassumption. Qed.
Lemma rep_pairs_made M M1 fp0 d g fp : made M M1 fp0 -> rep_pairs M d g fp -> rep_pairs M1 d g fp.
Proof. intros (_ & _ & A & _) H. eapply rep_pairs_agree; [exact H|]. intros o Ho. apply A. eapply rep_pairs_lt; eassumption. Qed.
Lemma made_ext M ob : made M (M ++ [ob]) [].
Proof. repeat split; [constructor|rewrite app_length; lia|intros o Ho; apply nth_app_l; exact Ho|intros _ []]. Qed.

Lemma build_rep g : forall M, exists fp, rep (snd (build g M)) (fst (build g M)) g fp /\ made M (snd (build g M)) fp.
Proof.
  assert (forall l, Forall (fun g => forall M, exists fp, rep (snd (build g M)) (fst (build g M)) g fp /\ made M (snd (build g M)) fp) l ->
    forall M, exists fp, reps (snd (build_all l M)) (fst (build_all l M)) l fp /\ made M (snd (build_all l M)) fp) as All.
  { intros l H. induction H as [|x l Hx _ IH]; intros M; cbn.
    { exists []. split; [constructor|apply made_nil]. }
    destruct (Hx M) as (f1 & R1 & D1). destruct (build x M) as [d M1]. cbn [fst snd] in *.
    destruct (IH M1) as (f2 & R2 & D2). destruct (build_all l M1) as [ds M2]. cbn [fst snd] in *.
    exists (f1 ++ f2). split; [constructor; [eapply rep_made; [exact D2|exact R1]|exact R2]|].
    eapply made_app; [exact D1|eapply rep_lt; exact R1|exact D2]. }
  induction g as [b|z|z|f|f|s| |l IH|l IH| |m IH| |v IH| |t v IH|l IH| ] using gval_ind'; intros M;
    try (exists []; cbn; split; [constructor|apply made_nil]).
  - cbn [build]. fold build_all. destruct (All l IH M) as (fp & R & D). destruct (build_all l M) as [ds M1]. cbn [fst snd] in *.
    exists (length M1 :: fp). split.
    + eapply rp_slice; [apply nth_app_end|cbn; lia|]. cbn [skipn]. rewrite firstn_all. eapply reps_made; [apply made_ext|exact R].
    + apply made_alloc; [exact D|eapply reps_lt; exact R].
  - cbn [build]. fold build_all. destruct (All l IH M) as (fp & R & D). destruct (build_all l M) as [ds M1]. cbn [fst snd] in *.
    exists fp. split; [constructor; exact R|exact D].
  - cbn [build]. fold build_pairs.
    assert (exists fp, rep_pairs (snd (build_pairs m M)) (fst (build_pairs m M)) m fp /\ made M (snd (build_pairs m M)) fp) as (fp & R & D).
    { revert M. induction IH as [|[k v] m [Hk Hv] _ IHm]; intros M; cbn.
      { exists []. split; [constructor|apply made_nil]. }
      cbn [fst snd] in *. destruct (Hk M) as (f1 & R1 & D1). destruct (build k M) as [dk M1]. cbn [fst snd] in *.
      destruct (Hv M1) as (f2 & R2 & D2). destruct (build v M1) as [dv M2]. cbn [fst snd] in *.
      destruct (IHm M2) as (f3 & R3 & D3). destruct (build_pairs m M2) as [ds M3]. cbn [fst snd] in *.
      pose proof (made_app _ _ _ _ _ D1 (rep_lt _ _ _ _ R1) D2) as D12.
      exists ((f1 ++ f2) ++ f3). split.
      - constructor; [|eapply rep_made; [exact D3|exact R2]|exact R3]. eapply rep_made; [exact D3|]. eapply rep_made; [exact D2|exact R1].
      - eapply made_app; [exact D12| |exact D3]. intros o Ho. apply in_app_or in Ho as [Ho|Ho].
        + apply (rep_lt _ _ _ _ R1) in Ho. destruct D2 as (_ & L2 & _). lia.
        + apply (rep_lt _ _ _ _ R2 _ Ho). }
    destruct (build_pairs m M) as [ds M1]. cbn [fst snd] in *. exists (length M1 :: fp). split.
    + eapply rp_map; [apply nth_app_end|]. eapply rep_pairs_made; [apply made_ext|exact R].
    + apply made_alloc; [exact D|eapply rep_pairs_lt; exact R].
  - cbn [build]. destruct (IH M) as (fp & R & D). destruct (build v M) as [d M1]. cbn [fst snd] in *.
    exists (length M1 :: fp). split.
    + eapply rp_ptr; [apply nth_app_end|]. eapply rep_made; [apply made_ext|exact R].
    + apply made_alloc; [exact D|eapply rep_lt; exact R].
  - cbn [build]. destruct (IH M) as (fp & R & D). destruct (build v M) as [d M1]. cbn [fst snd] in *.
    exists fp. split; [constructor; exact R|exact D].
  - cbn [build]. fold build_all. destruct (All l IH M) as (fp & R & D). destruct (build_all l M) as [ds M1]. cbn [fst snd] in *.
    exists fp. split; [constructor; exact R|exact D].
Qed.

(** ** Decoders that do not look at the destination *)

Definition blind (dec : gval -> dres) : Prop :=
  exists r, (forall g, dec g = (g, r)) \/ exists v, v <> VOther /\ forall g, dec g = (v, r).

Lemma new_refines dec : blind dec -> refines (h_new dec) dec.
Proof.
  intros [r [H|(v & Hv & H)]] M L d g fp P; unfold h_new; rewrite !H.
  - apply fits_stop with (d := d). exact P.
  - destruct (build_rep v M) as (fp' & R & D). destruct (build v M) as [d' M1] eqn:B. cbn [fst snd] in *.
    destruct D as (N & Ln & A & F).
    assert (out M L fp (write M1 L d') d' v fp') as O by (eapply out_write; eauto).
    destruct v; try (eapply fits_out; exact O). congruence.
Qed.

Lemma blind_keep r : blind (fun g => (g, r)). Proof. exists r. left. reflexivity. Qed.
Lemma blind_set v r : v <> VOther -> blind (fun _ => (v, r)). Proof. intros H. exists r. right. exists v. auto. Qed.
Lemma blind_text rdt process : (forall b c, blind (process b c)) -> blind (dec_text rdt process).
Proof. intros H. unfold dec_text. destruct rdt as [[[b|] c]|e|p|]; try apply blind_keep. apply H. Qed.
Lemma blind_pint k b c : blind (process_int k b c).
Proof. unfold process_int. destruct (parse_int64 b); [|apply blind_keep]. destruct (_ || _); [apply blind_keep|apply blind_set; discriminate]. Qed.
Lemma blind_puint k b c : blind (process_uint k b c).
Proof. unfold process_uint. destruct (parse_uint64 b); [|apply blind_keep]. destruct (_ <? _); [apply blind_keep|apply blind_set; discriminate]. Qed.
Lemma blind_pfloat X is32 b c : blind (process_float X is32 b c).
Proof.
  unfold process_float. destruct (parse_float X b); [|apply blind_keep]. destruct is32; [|apply blind_set; discriminate].
  destruct (overflow_f32 _); [apply blind_keep|apply blind_set; discriminate].
Qed.
Lemma blind_int k buf c : blind (dec_int k buf c). Proof. apply blind_text. intros. apply blind_pint. Qed.
Lemma blind_uint k buf c : blind (dec_uint k buf c). Proof. apply blind_text. intros. apply blind_puint. Qed.
Lemma blind_float X is32 buf c : blind (dec_float X is32 buf c). Proof. apply blind_text. intros. apply blind_pfloat. Qed.
Lemma blind_string buf c : blind (dec_string buf c). Proof. apply blind_text. intros. apply blind_set. discriminate. Qed.
Lemma blind_bool buf c : blind (dec_bool buf c).
Proof.
  unfold dec_bool. destruct (negb _); [apply blind_keep|]. destruct (rd buf c) as [b|e|p|]; try apply blind_keep.
  destruct (b =b "b"%byte). { destruct (read_bool buf c); try apply blind_keep. apply blind_set. discriminate. }
  destruct (b =b "N"%byte); [|apply blind_keep]. destruct (validate_null buf c); apply blind_keep.
Qed.
Lemma blind_any X buf c d : blind (dec_iface_any X buf c d).
Proof. unfold dec_iface_any. destruct (dec_any X buf c d) as [[o c']|e|p|]; try apply blind_keep. apply blind_set. discriminate. Qed.
Lemma blind_wrapped X nd buf c : blind (dec_wrapped X nd buf c).
Proof.
  unfold dec_wrapped. apply blind_text. intros b c'.
  assert (forall dec : gval -> dres, blind dec -> blind (fun rv => let r := dec rv in match r with (v, ROk _) => (v, ROk c') | _ => r end)) as K.
  { intros dec [r [H|(v & Hv & H)]].
    - destruct r as [a|e|p|]; [exists (ROk c')|exists (RErr e)|exists (RPanic p)|exists RFuel]; left; intros g; rewrite H; reflexivity.
    - destruct r as [a|e|p|]; [exists (ROk c')|exists (RErr e)|exists (RPanic p)|exists RFuel]; right; exists v; (split; [exact Hv|]); intros g; rewrite H; reflexivity. }
  destruct nd; try apply blind_keep.
  - apply (K (process_uint k b c)), blind_puint.
  - apply (K (process_int k b c)), blind_pint.
  - destruct (parse_bool b); [apply blind_set; discriminate|apply blind_keep].
  - apply (K (process_float X true b c)), blind_pfloat.
  - apply (K (process_float X false b c)), blind_pfloat.
Qed.

(** ** Fields and array elements *)

Lemma reps_focus M l gs fp : reps M l gs fp -> forall k d, nth_error l k = Some d ->
  exists g a f b, nth_error gs k = Some g /\ rep M d g f /\ fp = a ++ f ++ b /\
    forall M' d' g' f', (forall o, In o (a ++ b) -> nth_error M' o = nth_error M o) -> rep M' d' g' f' ->
      reps M' (update l k d') (update gs k g') (a ++ f' ++ b).
Proof.
  intros H. induction H as [|d0 g0 f0 l gs fp H0 H IH]; intros [|k] d K; try discriminate K; cbn in K.
  - injection K as ->. exists g0, [], f0, fp. repeat split; auto. intros M' d' g' f' A R. cbn. constructor; [exact R|].
    eapply reps_agree; [exact H|]. exact A.
  - destruct (IH _ _ K) as (g & a & f & b & Hg & Hr & -> & Hu). exists g, (f0 ++ a), f, b.
    rewrite <- !app_assoc. repeat split; auto. intros M' d' g' f' A R. cbn. rewrite <- !app_assoc. constructor.
    + eapply rep_agree; [exact H0|]. intros o Ho. apply A. rewrite !in_app_iff. auto.
    + apply Hu; auto. intros o Ho. apply A. rewrite in_app_iff in Ho. rewrite !in_app_iff. tauto.
Qed.
Lemma reps_length M l gs fp : reps M l gs fp -> length l = length gs.
Proof. induction 1 as [|d g f l gs fp _ _ IH]; cbn; congruence. Qed.
Lemma reps_app M l gs fp l' gs' fp' : reps M l gs fp -> reps M l' gs' fp' -> reps M (l ++ l') (gs ++ gs') (fp ++ fp').
Proof.
  intros H H'. induction H as [|d g f l gs fp H0 H IH]; [exact H'|]. cbn. rewrite <- app_assoc. constructor; assumption.
Qed.

Definition mk (b : bool) : list mval -> mval := if b then DStruct else DArr.
Definition gmk (b : bool) : list gval -> gval := if b then VStruct else VArr.
Lemma mk_parts b l : parts (mk b l) = Some l. Proof. destruct b; reflexivity. Qed.
Lemma mk_with b l l' : with_parts (mk b l) l' = mk b l'. Proof. destruct b; reflexivity. Qed.
Lemma mk_rep b M l gs fp : rep M (mk b l) (gmk b gs) fp <-> reps M l gs fp.
Proof. destruct b; (split; intros H; [inversion H; subst; assumption|constructor; exact H]). Qed.

Lemma sub_step b M L l gs fp k dk : pre M L (mk b l) (gmk b gs) fp -> nth_error l k = Some dk ->
  exists gk f, nth_error gs k = Some gk /\ pre M (at_sub L k) dk gk f /\
    forall M' dk' gk' f', out M (at_sub L k) f M' dk' gk' f' ->
      exists fp', out M L fp M' (mk b (update l k dk')) (gmk b (update gs k gk')) fp'.
Proof.
  intros (R & H & N & I) K. apply mk_rep in H. destruct (reps_focus _ _ _ _ H _ _ K) as (gk & a & f & c & Hg & Hr & -> & Hu).
  pose proof (read_lt _ _ _ R) as Hlt.
  exists gk, f. split; [exact Hg|]. split.
  { split; [rewrite (read_sub _ _ _ _ _ R (mk_parts b l)); exact K|]. split; [exact Hr|]. split.
    - apply nodup_app_r in N. apply nodup_app_l in N. exact N.
    - cbn [at_sub l_obj]. rewrite !in_app_iff in I. tauto. }
  intros M' dk' gk' f' [Or On Oh Ol Of Op]. cbn [at_sub l_obj l_cell l_path] in *.
  exists (a ++ f' ++ c). constructor; auto.
  - apply mk_rep. apply Hu; [|exact Or]. intros o Ho.
    assert (In o (a ++ f ++ c)) as Hin by (rewrite !in_app_iff in *; tauto).
    apply Of; [eapply reps_lt; eassumption|intros ->; auto|].
    intros Hf. apply in_app_or in Ho as [Ho|Ho].
    + apply (nodup_app_disjoint _ _ _ N Ho). apply in_or_app. auto.
    + apply nodup_app_r in N. exact (nodup_app_disjoint _ _ _ N Hf Ho).
  - eapply swap_mid; [exact N|exact On|exact Op|]. eapply reps_lt; exact H.
  - rewrite Oh. unfold read in R. destruct (nth_error M (l_obj L)) as [ob|]; [|discriminate]. cbn.
    rewrite (obj_put_snoc _ _ _ _ _ _ _ R (mk_parts b l)) by (eapply nth_lt; exact K). rewrite mk_with. reflexivity.
  - intros o Ho Hne Hni. apply Of; auto. rewrite !in_app_iff in Hni. tauto.
  - intros o Ho. rewrite !in_app_iff in Ho. rewrite !in_app_iff. destruct Ho as [Ho|[Ho|Ho]]; auto. destruct (Op _ Ho); auto.
Qed.

Lemma sub_none b M L l gs fp k : pre M L (mk b l) (gmk b gs) fp -> nth_error gs k = None -> read M (at_sub L k) = None.
Proof.
  intros (R & H & _) K. rewrite (read_sub _ _ _ _ _ R (mk_parts b l)). apply mk_rep in H. apply reps_length in H.
  apply nth_error_None. apply nth_error_None in K. lia.
Qed.

Lemma struct_loop_refines decs fd tfd buf depth : (forall d c, refines (fd d c) (tfd d c)) ->
  forall n c M L l gs fp, pre M L (DStruct l) (VStruct gs) fp ->
    fits M L fp (h_struct_loop decs fd buf depth n c M L)
      (let '(l, r) := struct_loop decs tfd buf depth n c gs in (VStruct l, r)).
Proof.
  intros Hfd n. induction n as [|n IH]; intros c M L l gs fp P; cbn [h_struct_loop struct_loop]; [eapply fits_stop; exact P|].
  destruct (negb (has_byte buf c)); [eapply fits_stop; exact P|].
  destruct (decode_string_bytes buf c) as [[key c1]|e|p|]; try (eapply fits_stop; exact P).
  destruct (negb (has_byte buf c1)); [eapply fits_stop; exact P|].
  destruct (find_field _ decs) as [d|].
  - destruct (nth_error l (fd_idx d)) as [dk|] eqn:K.
    + destruct (sub_step true _ _ _ _ _ _ _ P K) as (gk & f & -> & Pk & Hout).
      rewrite (proj1 Pk). specialize (Hfd d c1 _ _ _ _ _ Pk). destruct Hfd as (Er & dk' & f' & Ok).
      destruct (fd d c1 M (at_sub L (fd_idx d))) as [M1 r]. destruct (tfd d c1 gk) as [gk' r']. cbn [fst snd] in *. subst r'.
      destruct (Hout _ _ _ _ Ok) as (fp1 & O1). cbn [mk gmk] in O1.
      eapply fits_trans; [exact P|exact O1|]. pose proof (out_pre _ _ _ _ _ _ _ _ _ P O1) as P1.
      destruct r as [c2|e|p|]; try (eapply fits_stop; exact P1).
      destruct (negb (has_byte buf c2)); [eapply fits_stop; exact P1|].
      destruct (rd buf c2) as [b|e|p|]; try (eapply fits_stop; exact P1).
      destruct (b =b "}"%byte); [eapply fits_stop; exact P1|]. eapply IH. exact P1.
    + assert (nth_error gs (fd_idx d) = None) as K'.
      { destruct P as (_ & H & _). apply (mk_rep true), reps_length in H. apply nth_error_None. apply nth_error_None in K. lia. }
      rewrite K'. rewrite (sub_none true _ _ _ _ _ _ P K'). eapply fits_stop; exact P.
  - destruct (skip_value buf c1 depth) as [c2|e|p|]; try (eapply fits_stop; exact P).
    destruct (negb (has_byte buf c2)); [eapply fits_stop; exact P|].
    destruct (rd buf c2) as [b|e|p|]; try (eapply fits_stop; exact P).
    destruct (b =b "}"%byte); [eapply fits_stop; exact P|]. eapply IH. exact P.
Qed.

Lemma struct_refines decs fd tfd buf c depth : (forall d c, refines (fd d c) (tfd d c)) ->
  refines (h_struct decs fd buf c depth) (dec_struct decs tfd buf c depth).
Proof.
  intros Hfd M L d g fp P. unfold h_struct, dec_struct.
  destruct (struct_header buf c depth) as [[c'|c']|e|p|]; try (eapply fits_stop; exact P).
  rewrite (proj1 P). destruct P as (R & H & N & I). pose proof (conj R (conj H (conj N I)) : pre M L d g fp) as P.
  inversion H; subst; try (eapply fits_stop; exact P).
  destruct (negb (has_byte buf c')); [eapply fits_stop; exact P|].
  destruct (rd buf c') as [b|e|p|]; try (eapply fits_stop; exact P).
  destruct (b =b "}"%byte); [eapply fits_stop; exact P|]. eapply struct_loop_refines; eassumption.
Qed.

Lemma read_int_nonneg buf c i c' : read_int buf c = ROk (i, c') -> 0 <= i.
Proof. intros H. apply read_int_written in H as [H _]. exact H. Qed.

Lemma array_loop_refines ed ted buf depth len : (forall c, refines (ed c) (ted c)) ->
  forall n c M L l gs fp, length gs = len -> pre M L (DArr l) (VArr gs) fp ->
    fits M L fp (h_array_loop ed buf depth len n c M L)
      (let '(l, r) := array_loop ted buf depth n c gs in (VArr l, r)).
Proof.
  intros Hed n. induction n as [|n IH]; intros c M L l gs fp Hlen P; cbn [h_array_loop array_loop]; [eapply fits_stop; exact P|].
  destruct (negb (has_byte buf c)); [eapply fits_stop; exact P|].
  destruct (read_int buf c) as [[idx c1]|e|p|] eqn:RI; try (eapply fits_stop; exact P).
  apply read_int_nonneg in RI.
  destruct (negb (has_byte buf c1)); [eapply fits_stop; exact P|].
  unfold blen. rewrite Hlen. destruct (idx <? Z.of_nat len) eqn:Il.
  - apply Z.ltb_lt in Il. destruct (bad_index _ _); [eapply fits_stop; exact P|].
    assert (exists dk, nth_error l (Z.to_nat idx) = Some dk) as [dk K].
    { destruct (nth_error l (Z.to_nat idx)) eqn:K; [eauto|]. apply nth_error_None in K.
      destruct P as (_ & H & _). apply (mk_rep false), reps_length in H. lia. }
    destruct (sub_step false _ _ _ _ _ _ _ P K) as (gk & f & Gk & Pk & Hout).
    rewrite (nth_error_nth _ _ VOther Gk). specialize (Hed c1 _ _ _ _ _ Pk). destruct Hed as (Er & dk' & f' & Ok).
    destruct (ed c1 M (at_sub L (Z.to_nat idx))) as [M1 r]. destruct (ted c1 gk) as [gk' r']. cbn [fst snd] in *. subst r'.
    destruct (Hout _ _ _ _ Ok) as (fp1 & O1). cbn [mk gmk] in O1.
    eapply fits_trans; [exact P|exact O1|]. pose proof (out_pre _ _ _ _ _ _ _ _ _ P O1) as P1.
    destruct r as [c2|e|p|]; try (eapply fits_stop; exact P1).
    destruct (negb (has_byte buf c2)); [eapply fits_stop; exact P1|].
    destruct (rd buf c2) as [b|e|p|]; try (eapply fits_stop; exact P1).
    destruct (b =b "}"%byte); [eapply fits_stop; exact P1|]. eapply IH; [|exact P1]. rewrite length_update. exact Hlen.
  - destruct (skip_value buf c1 depth) as [c2|e|p|]; try (eapply fits_stop; exact P).
    destruct (negb (has_byte buf c2)); [eapply fits_stop; exact P|].
    destruct (rd buf c2) as [b|e|p|]; try (eapply fits_stop; exact P).
    destruct (b =b "}"%byte); [eapply fits_stop; exact P|]. eapply IH; [exact Hlen|exact P].
Qed.

Lemma out_set M L d g fp v g' : pre M L d g fp -> rep M v g' [] -> out M L fp (write M L v) v g' [].
Proof. intros P R. eapply out_write; try exact P; auto; [constructor|intros _ []]. Qed.

Lemma array_header_zeroed buf c d h : array_header buf c d = ROk h -> match h with AhNull _ => True | _ => array_zeroed buf c d = true end.
Proof.
  unfold array_header, seq_header, array_zeroed. destruct (has_byte buf c) eqn:Hb; [|discriminate]. cbn [negb andb].
  destruct (rd buf c) as [b|e|p|]; cbn [bind]; try discriminate.
  destruct (max_depth <? d + 1); [discriminate|]. cbn [negb andb].
  destruct (b =b "N"%byte). { destruct (validate_null buf c); cbn [bind]; try discriminate. intros H. injection H as <-. exact I. }
  destruct (b =b "a"%byte); [|discriminate]. destruct (negb (has_byte buf (c + 1))); [discriminate|].
  destruct (rd buf (c + 1)) as [b'|e|p|]; cbn [bind]; try discriminate.
  destruct (b' =b ":"%byte); cbn [negb]; [|discriminate]. intros _. destruct h; auto.
Qed.

Lemma array_refines E n et ed ted buf c depth : (forall c, refines (ed c) (ted c)) ->
  refines (h_array n (dzero E et) ed buf c depth) (dec_array E n et ted buf c depth).
Proof.
  intros Hed M L d g fp P. unfold h_array, dec_array. pose proof (array_header_zeroed buf c depth) as Hz.
  assert (out M L fp (write M L (DArr (repeat (dzero E et) n))) (DArr (repeat (dzero E et) n)) (VArr (repeat (zero E et) n)) []) as O.
  { eapply out_set; [exact P|]. constructor. apply reps_repeat. apply zero_rep. }
  pose proof (out_pre _ _ _ _ _ _ _ _ _ P O) as P1.
  destruct (array_header buf c depth) as [[c'|c'|len c']|e|p|].
  - eapply fits_stop; exact P.
  - rewrite (Hz _ eq_refl). eapply fits_out. exact O.
  - rewrite (Hz _ eq_refl). eapply fits_trans; [exact P|exact O|].
    eapply array_loop_refines; [exact Hed|apply repeat_length|exact P1].
  - destruct (array_zeroed buf c depth); [eapply fits_out; exact O|eapply fits_stop; exact P].
  - destruct (array_zeroed buf c depth); [eapply fits_out; exact O|eapply fits_stop; exact P].
  - destruct (array_zeroed buf c depth); [eapply fits_out; exact O|eapply fits_stop; exact P].
Qed.

(** ** Pointers *)

Lemma put_here M L d : read M L = Some d -> option_map (obj_put (l_cell L) (l_path L) d) (nth_error M (l_obj L)) = nth_error M (l_obj L).
Proof.
  unfold read. destruct (nth_error M (l_obj L)) as [ob|]; [|discriminate]. intros R. cbn. rewrite put_get_obj by exact R. reflexivity.
Qed.

(** A store into the pointee is a change of what the pointer stands for. *)
Lemma ptr_step M L p g fp : pre M L (DPtr (Some p)) (VPtr (Some g)) fp ->
  exists d0 f, pre M p d0 g f /\
    forall M' d' g' f', out M p f M' d' g' f' ->
      exists fp', out M L fp M' (DPtr (Some p)) (VPtr (Some g')) fp'.
Proof.
  intros (R & H & N & I). pose proof (read_lt _ _ _ R) as Hlt. inversion H as [| | | | | | | | | | | |o d0 g0 f Ho Hr| | | |]; subst.
  apply NoDup_cons_iff in N as [N1 N2]. exists d0, f.
  assert (pre M (Loc o 0 []) d0 g f) as P0.
  { split; [unfold read; cbn; rewrite Ho; reflexivity|]. auto. }
  split; [exact P0|]. intros M' d' g' f' O'. pose proof (out_notin _ _ _ _ _ _ _ _ _ P0 O') as Nf.
  destruct O' as [Or On Oh Ol Of Op]. cbn [l_obj l_cell l_path] in *. rewrite Ho in Oh. cbn in Oh.
  exists (o :: f'). cbn [In] in I. constructor.
  - eapply rp_ptr; [exact Oh|exact Or].
  - constructor; assumption.
  - rewrite (put_here _ _ _ R). apply Of; [exact Hlt|intuition congruence|tauto].
  - exact Ol.
  - intros x Hx Hne Hni. cbn [In] in Hni. apply Of; [exact Hx|intuition congruence|tauto].
  - intros x [<-|Hx]; [left; left; reflexivity|]. destruct (Op _ Hx); [left; right; assumption|right; assumption].
Qed.

Lemma new_cell_made M d : made M (new_cell M d) []. Proof. apply made_ext. Qed.
Lemma new_pre M d g : rep M d g [] -> pre (new_cell M d) (new_at M) d g [].
Proof.
  intros R. split; [apply read_new|]. split; [eapply rep_made; [apply new_cell_made|exact R]|]. split; [constructor|intros []].
Qed.

Lemma ptr_refines E t ed ted buf c : (forall c, refines (ed c) (ted c)) ->
  refines (h_ptr (dzero E t) ed buf c) (dec_ptr E t ted buf c).
Proof.
  intros Hed M L d g fp P. unfold h_ptr, dec_ptr. destruct (rd buf c) as [b|e|p|]; try (eapply fits_stop; exact P).
  destruct (b =b "N"%byte).
  { destruct (validate_null buf c); try (eapply fits_stop; exact P). eapply fits_out. eapply out_set; [exact P|constructor]. }
  rewrite (proj1 P).
  assert (forall p g0 fp0 M0, pre M0 L (DPtr (Some p)) (VPtr (Some g0)) fp0 ->
    fits M0 L fp0 (ed c M0 p) (let '(v, r) := ted c g0 in (VPtr (Some v), r))) as Step.
  { intros p g0 fp0 M0 P0. destruct (ptr_step _ _ _ _ _ P0) as (d0 & f & Pp & Hout).
    destruct (Hed c _ _ _ _ _ Pp) as (Er & d' & f' & O'). destruct (ed c M0 p) as [M1 r]. destruct (ted c g0) as [v r']. cbn [fst snd] in *. subst r'.
    destruct (Hout _ _ _ _ O') as (fp' & O1). eapply fits_out. exact O1. }
  pose proof P as (R & H & N & I). inversion H; subst; try (eapply fits_stop; exact P).
  - assert (out M L [] (write (new_cell M (dzero E t)) L (DPtr (Some (new_at M)))) (DPtr (Some (new_at M))) (VPtr (Some (zero E t))) [length M]) as O.
    { eapply out_write; [exact P| | | | |].
      - unfold new_cell. rewrite app_length. lia.
      - intros o Ho _. apply nth_app_l. exact Ho.
      - eapply rp_ptr; [apply nth_app_end|apply zero_rep].
      - constructor; [intros []|constructor].
      - intros o [<-|[]]. right. lia. }
    eapply fits_trans; [exact P|exact O|]. apply Step. eapply out_pre; eassumption.
  - apply Step. exact P.
Qed.

(** ** Slices *)

(** Rewriting the header that is already there changes nothing. *)
Lemma write_same M L d : read M L = Some d -> write M L d = M.
Proof.
  intros R. unfold write. unfold read in R. destruct (nth_error M (l_obj L)) as [ob|] eqn:Q; [|reflexivity].
  rewrite put_get_obj by exact R. apply update_same. exact Q.
Qed.

(** The local variable [slice] (allocation [o], cells [l], values [gs]) and the
    destination: before the first element unrelated, then the same memory. *)
Definition slice_inv (M : memory) (L : loc) (o : nat) (l : list mval) (gs : list gval) (d : mval) (g : gval) (fp : list nat) : Prop :=
  pre M L d g fp /\ nth_error M o = Some (OCells l) /\
  ((l = [] /\ gs = [] /\ o <> l_obj L /\ ~ In o fp) \/
   (d = DSlice (Some (o, 0%nat, length l)) /\ g = VSlice (Some gs))).

Lemma slice_loop_refines X E et ed ted buf : (forall c, refines (ed c) (ted c)) ->
  forall n c M L o l gs d g fp, slice_inv M L o l gs d g fp ->
    fits M L fp (h_slice_loop X et (dzero E et) ed buf n c o M L) (slice_loop X E et ted buf n c gs g).
Proof.
  intros Hed n. induction n as [|n IH]; intros c M L o l gs d g fp Inv; pose proof Inv as (P & Ho & Ph);
    cbn [h_slice_loop slice_loop]; [eapply fits_stop; exact P|].
  destruct (negb (has_byte buf c)); [eapply fits_stop; exact P|].
  destruct (read_int buf c) as [[idx c1]|e|p|] eqn:RI; try (eapply fits_stop; exact P).
  apply read_int_nonneg in RI.
  destruct (negb (has_byte buf c1)); [eapply fits_stop; exact P|]. rewrite Ho.
  assert (exists fps, reps M l gs fps /\ NoDup fps /\ ~ In o fps /\ (forall x, In x fps -> In x fp) /\ ~ In (l_obj L) fps /\ o <> l_obj L /\
     (fp = o :: fps \/ (fps = [] /\ ~ In o fp))) as (fps & Rs & Nd & No & Sub & NL & NoL & Fp).
  { destruct P as (R & H & N & I). destruct Ph as [(-> & -> & Ho1 & Ho2)|(-> & ->)].
    - exists []. split; [constructor|]. split; [constructor|]. split; [intros []|]. split; [intros x []|]. split; [intros []|]. auto.
    - inversion H as [| | | | | | |o' i' n' l' gs' f Ho' Hn' Hr| | | | | | | | |]; subst.
      rewrite Ho in Ho'. injection Ho' as <-. cbn [skipn] in Hr. rewrite firstn_all in Hr.
      apply NoDup_cons_iff in N as [N1 N2]. cbn [In] in I. exists f. split; [exact Hr|]. split; [exact N2|]. split; [exact N1|]. split; [intros x Hx; right; exact Hx|]. split; [tauto|]. split; [intuition congruence|]. left. reflexivity. }
  pose proof (reps_length _ _ _ _ Rs) as Hlen. unfold blen. rewrite Hlen.
  (* after the element: the slice is stored and the loop goes on *)
  assert (forall M1 o1 l1 gs1 d1 fp1 c2, pre M1 L d1 (VSlice (Some gs1)) fp1 -> d1 = DSlice (Some (o1, 0%nat, length l1)) ->
    nth_error M1 o1 = Some (OCells l1) ->
    fits M1 L fp1
      (if negb (has_byte buf c2) then (M1, RErr (ESyntax c2 (WEnd "array")))
       else match rd buf c2 with
            | ROk b => if b =b "}"%byte then (M1, ROk (c2 + 1)) else h_slice_loop X et (dzero E et) ed buf n c2 o1 M1 L
            | r => (M1, fail r)
            end)
      (if negb (has_byte buf c2) then (VSlice (Some gs1), RErr (ESyntax c2 (WEnd "array")))
       else match rd buf c2 with
            | ROk b => if b =b "}"%byte then (VSlice (Some gs1), ROk (c2 + 1)) else slice_loop X E et ted buf n c2 gs1 (VSlice (Some gs1))
            | r => (VSlice (Some gs1), fail r)
            end)) as Continue.
  { intros M1 o1 l1 gs1 d1 fp1 c2 P1 Hd1 Ho1. destruct (negb (has_byte buf c2)); [eapply fits_stop; exact P1|].
    destruct (rd buf c2) as [b|e|p|]; try (eapply fits_stop; exact P1).
    destruct (b =b "}"%byte); [eapply fits_stop; exact P1|]. eapply IH. split; [exact P1|]. split; [exact Ho1|]. right. split; [exact Hd1|reflexivity]. }
  destruct (idx <? Z.of_nat (length gs)) eqn:Il.
  - (* an element that is there *)
    apply Z.ltb_lt in Il. destruct (bad_index _ _); [eapply fits_stop; exact P|]. destruct Ph as [(_ & -> & _)|(-> & ->)]; [cbn in Il; lia|].
    destruct Fp as [->|[_ F]]; [|exfalso; apply F; destruct P as (_ & H & _); inversion H; left; reflexivity].
    assert (exists dk, nth_error l (Z.to_nat idx) = Some dk) as [dk K].
    { destruct (nth_error l (Z.to_nat idx)) eqn:K; [eauto|]. apply nth_error_None in K. lia. }
    destruct (reps_focus _ _ _ _ Rs _ _ K) as (gk & a & f & b & Gk & Hr & -> & Hu).
    rewrite (nth_error_nth _ _ VOther Gk).
    assert (pre M (Loc o (Z.to_nat idx) []) dk gk f) as Pk.
    { split; [unfold read; cbn [l_obj l_cell l_path]; rewrite Ho; cbn [obj_get]; rewrite K; reflexivity|]. split; [exact Hr|]. split.
      - apply nodup_app_r in Nd. apply nodup_app_l in Nd. exact Nd.
      - cbn. intros Hf. apply No. rewrite !in_app_iff. auto. }
    destruct (Hed c1 _ _ _ _ _ Pk) as (Er & dk' & f' & Ok). pose proof (out_notin _ _ _ _ _ _ _ _ _ Pk Ok) as Nf. cbn [l_obj] in Nf.
    destruct (ed c1 M (Loc o (Z.to_nat idx) [])) as [M1 r]. destruct (ted c1 gk) as [gk' r']. cbn [fst snd] in *. subst r'.
    destruct Ok as [Or On Oh Ol Of Op]. cbn [l_obj l_cell l_path] in *. rewrite Ho in Oh. cbn [option_map obj_put] in Oh. rewrite K in Oh. cbn [put_path] in Oh.
    pose proof P as (R & H & N & I). pose proof (read_lt _ _ _ R) as Hlt.
    assert (out M L (o :: a ++ f ++ b) M1 (DSlice (Some (o, 0%nat, length l))) (VSlice (Some (update gs (Z.to_nat idx) gk'))) (o :: a ++ f' ++ b)) as O1.
    { constructor.
      - eapply rp_slice; [exact Oh|rewrite length_update; cbn; lia|]. cbn [skipn].
        rewrite <- (length_update l (Z.to_nat idx) dk') at 1. rewrite firstn_all. apply Hu; [|exact Or].
        intros x Hx. apply Of.
        + eapply reps_lt; [exact Rs|]. rewrite !in_app_iff in *. tauto.
        + intros ->. apply No. rewrite !in_app_iff in *. tauto.
        + intros Hf. apply in_app_or in Hx as [Hx|Hx].
          * apply (nodup_app_disjoint _ _ _ Nd Hx). apply in_or_app. auto.
          * apply nodup_app_r in Nd. exact (nodup_app_disjoint _ _ _ Nd Hf Hx).
      - constructor.
        + rewrite !in_app_iff in *. tauto.
        + eapply swap_mid; [exact Nd|exact On|exact Op|]. eapply reps_lt; exact Rs.
      - rewrite (put_here _ _ _ R). apply Of; [exact Hlt|congruence|]. rewrite !in_app_iff in NL. tauto.
      - exact Ol.
      - intros x Hx Hne Hni. cbn [In] in Hni. rewrite !in_app_iff in Hni. apply Of; [exact Hx|intuition congruence|tauto].
      - intros x [<-|Hx]; [left; left; reflexivity|]. rewrite !in_app_iff in Hx. cbn [In]. rewrite !in_app_iff.
        destruct Hx as [Hx|[Hx|Hx]]; auto. destruct (Op _ Hx); auto. }
    eapply fits_trans; [exact P|exact O1|]. pose proof (out_pre _ _ _ _ _ _ _ _ _ P O1) as P1.
    destruct r as [c2|e|p|]; try (eapply fits_stop; exact P1).
    rewrite Oh. rewrite length_update. rewrite write_same by exact (proj1 P1).
    eapply Continue; [exact P1| |exact Oh]. rewrite length_update. reflexivity.
  - (* a new, longer slice *)
    apply Z.ltb_ge in Il. rewrite ?Hlen. destruct (_ || _); [eapply fits_stop; exact P|].
    destruct (bad_index _ _); [eapply fits_stop; exact P|]. cbn zeta.
    set (k := (Z.to_nat idx - length l)%nat). replace (Z.to_nat idx - length gs)%nat with k by (unfold k; lia).
    set (cells := l ++ repeat (dzero E et) k ++ [dzero E et]).
    assert (length (l ++ repeat (dzero E et) k) = Z.to_nat idx) as Hci by (rewrite app_length, repeat_length; unfold k; lia).
    assert (nth_error cells (Z.to_nat idx) = Some (dzero E et)) as K.
    { unfold cells. rewrite app_assoc, <- Hci. apply nth_app_end. }
    assert (forall y, update cells (Z.to_nat idx) y = l ++ repeat (dzero E et) k ++ [y]) as Hup.
    { intros y. unfold cells. rewrite app_assoc, <- Hci, update_app_end, <- app_assoc. reflexivity. }
    assert (pre (M ++ [OCells cells]) (Loc (length M) (Z.to_nat idx) []) (dzero E et) (zero E et) []) as Pk.
    { split; [unfold read; cbn [l_obj l_cell l_path]; rewrite nth_app_end; cbn [obj_get]; rewrite K; reflexivity|]. split; [apply zero_rep|]. split; [constructor|intros []]. }
    destruct (Hed c1 _ _ _ _ _ Pk) as (Er & dk' & f' & Ok). pose proof (out_notin _ _ _ _ _ _ _ _ _ Pk Ok) as Nf. cbn [l_obj] in Nf.
    destruct (ed c1 (M ++ [OCells cells]) (Loc (length M) (Z.to_nat idx) [])) as [M1 r].
    destruct (ted c1 (zero E et)) as [gk' r']. cbn [fst snd] in *. subst r'.
    destruct Ok as [Or On Oh Ol Of Op]. cbn [l_obj l_cell l_path] in *. rewrite nth_app_end in Oh. cbn [option_map obj_put] in Oh. rewrite K in Oh.
    cbn [put_path] in Oh. rewrite app_length in *. cbn [length] in *.
    assert (forall x, (x < length M)%nat -> nth_error M1 x = nth_error M x) as Fr.
    { intros x Hx. rewrite Of; [apply nth_app_l; exact Hx|lia|lia|intros []]. }
    assert (forall x, In x f' -> (length M < x)%nat) as Ff. { intros x Hx. destruct (Op _ Hx) as [[]|]. lia. }
    destruct r as [c2|e|p|]; try (eapply fits_out; eapply out_idle; [exact P|lia|exact Fr]).
    rewrite Hup in Oh. rewrite Oh.
    set (l1 := l ++ repeat (dzero E et) k ++ [dk']) in *.
    assert (reps M1 l1 (gs ++ repeat (zero E et) k ++ [gk']) (fps ++ [] ++ f' ++ [])) as Rs1.
    { apply reps_app; [eapply reps_agree; [exact Rs|]; intros x Hx; apply Fr; eapply reps_lt; eassumption|].
      apply reps_app; [apply reps_repeat, zero_rep|]. constructor; [exact Or|constructor]. }
    cbn [app] in Rs1. rewrite app_nil_r in Rs1.
    assert (forall x, In x fps -> (x < length M)%nat) as Lf by (eapply reps_lt; exact Rs).
    assert (out M L fp (write M1 L (DSlice (Some (length M, 0%nat, length l1)))) (DSlice (Some (length M, 0%nat, length l1)))
              (VSlice (Some (gs ++ repeat (zero E et) k ++ [gk']))) (length M :: fps ++ f')) as O1.
    { eapply out_write; [exact P|lia| | | |].
      - intros x Hx _. apply Fr. exact Hx.
      - eapply rp_slice; [exact Oh|cbn; lia|]. cbn [skipn]. rewrite firstn_all. exact Rs1.
      - constructor; [|apply nodup_app; auto].
        + rewrite in_app_iff. intros [Hx|Hx]; [apply Lf in Hx|apply Ff in Hx]; lia.
        + intros x H1 H2. apply Lf in H1. apply Ff in H2. lia.
      - intros x [<-|Hx]; [right; lia|]. apply in_app_or in Hx as [Hx|Hx]; [left; auto|]. apply Ff in Hx. right. lia. }
    eapply fits_trans; [exact P|exact O1|]. pose proof (out_pre _ _ _ _ _ _ _ _ _ P O1) as P1.
    eapply Continue; [exact P1|reflexivity|].
    rewrite nth_write_other; [exact Oh|]. pose proof (read_lt _ _ _ (proj1 P)). lia.
Qed.

Lemma slice_refines X E et ed ted buf c depth : (forall c, refines (ed c) (ted c)) ->
  refines (h_slice X et (dzero E et) ed buf c depth) (dec_slice X E et ted buf c depth).
Proof.
  intros Hed M L d g fp P. unfold h_slice, dec_slice.
  destruct (slice_header buf c depth) as [[c'|c'|len c']|e|p|]; try (eapply fits_stop; exact P);
    try (eapply fits_out; eapply out_set; [exact P|constructor]).
  destruct (negb _); [eapply fits_stop; exact P|].
  assert (out M L fp (M ++ [OCells []]) d g fp) as O.
  { eapply out_idle; [exact P|rewrite app_length; lia|]. intros o Ho. apply nth_app_l. exact Ho. }
  eapply fits_trans; [exact P|exact O|]. eapply slice_loop_refines; [exact Hed|]. split; [eapply out_pre; eassumption|].
  split; [apply nth_app_end|]. left. destruct P as (R & H & _ & _). repeat split; auto.
  - pose proof (read_lt _ _ _ R). lia.
  - intros Hi. apply (rep_lt _ _ _ _ H) in Hi. lia.
Qed.

(** ** User methods *)

(** The user's methods do to memory what [x_unmarshal] does to trees. *)
Lemma methods_refine X U : methods_as X U -> forall n b, refines (U n b) (x_unmarshal X n b).
Proof. intros H n b M L d g fp P. apply H. exists d. exact P. Qed.

Lemma unm_refines U X E n buf c depth : methods_as X U -> refines (h_unm U X E n buf c depth) (dec_unm X E n buf c depth).
Proof.
  intros HU M L d g fp P. unfold h_unm, dec_unm.
  destruct (bind _ _) as [[src cend]|e|p|]; try (eapply fits_stop; exact P). cbn zeta.
  assert (fits M L fp
    (match U n (unquoted X src) (new_cell M (dzero E (TName n))) (new_at M) with
     | (M1, true) => match read M1 (new_at M) with Some d => (write M1 L d, ROk cend) | None => (M1, RPanic PNilDeref) end
     | (M1, false) => (M1, RErr EUser)
     end)
    (match x_unmarshal X n (unquoted X src) (zero E (TName n)) with (v, true) => (v, ROk cend) | (_, false) => (g, RErr EUser) end)) as Go.
  { pose proof (new_pre M (dzero E (TName n)) (zero E (TName n)) (zero_rep _ _ _)) as P0.
    destruct (methods_refine _ _ HU n (unquoted X src) _ _ _ _ _ P0) as (Er & d' & f' & O). pose proof (out_read _ _ _ _ _ _ _ _ _ P0 O) as Rd.
    destruct (U n _ _ _) as [M1 ok]. destruct (x_unmarshal X n _ _) as [v ok']. cbn [fst snd] in *. subst ok'.
    destruct O as [Or On Oh Ol Of Op]. unfold new_cell in Ol, Of, Op. rewrite app_length in *. cbn [length new_at l_obj] in *.
    assert (forall x, (x < length M)%nat -> nth_error M1 x = nth_error M x) as Fr.
    { intros x Hx. rewrite Of; [apply nth_app_l; exact Hx|lia|lia|intros []]. }
    destruct ok.
    - rewrite Rd. eapply fits_out. eapply out_write; [exact P|lia| |exact Or|exact On|].
      + intros x Hx _. apply Fr. exact Hx.
      + intros x Hx. destruct (Op _ Hx) as [[]|]. right. lia.
    - eapply fits_out. eapply out_idle; [exact P|lia|exact Fr]. }
  destruct src as [|b src]; [exact Go|]. destruct (_ || _); [eapply fits_stop; exact P|].
  destruct (_ && _); [|exact Go]. eapply fits_out. eapply out_set; [exact P|apply zero_rep].
Qed.

Lemma iface_refines U X E buf c depth : methods_as X U -> refines (h_iface U X E buf c depth) (dec_iface X E buf c depth).
Proof.
  intros HU M L d g fp P. unfold h_iface, dec_iface. cbn zeta.
  assert (fits M L fp
    (match rd buf c with
     | ROk b => if b =b "N"%byte then match validate_null buf c with ROk _ => (write M L (DIface None), ROk (c + 2)) | r => (M, fail r) end
                else (M, RErr (EType c))
     | r => (M, fail r) end)
    (match rd buf c with
     | ROk b => if b =b "N"%byte then match validate_null buf c with ROk _ => (VIface None, ROk (c + 2)) | r => (g, fail r) end
                else (g, RErr (EType c))
     | r => (g, fail r) end)) as Plain.
  { destruct (rd buf c) as [b|e|p|]; try (eapply fits_stop; exact P). destruct (b =b "N"%byte); [|eapply fits_stop; exact P].
    destruct (validate_null buf c); try (eapply fits_stop; exact P). eapply fits_out. eapply out_set; [exact P|constructor]. }
  rewrite (proj1 P). pose proof P as (R & H & N & I).
  inversion H as [| | | | | | | | | | | | | |t d0 g0 fp0 Hr| |]; subst; try exact Plain.
  destruct t as [| | | | | | | | |t| | | |]; try exact Plain.
  assert (forall (X1 : hres) (X2 : dres), ((forall p, d0 <> DPtr p) /\ (forall p, g0 <> VPtr p) -> fits M L fp X1 X2) ->
     (d0 = DPtr None -> g0 = VPtr None -> fits M L fp X1 X2) ->
     (forall o d1 g1 f, d0 = DPtr (Some (Loc o 0 [])) -> g0 = VPtr (Some g1) -> nth_error M o = Some (OCells [d1]) -> rep M d1 g1 f -> fp = o :: f -> fits M L fp X1 X2) ->
     fits M L fp X1 X2) as Cases.
  { intros X1 X2 H1 H2 H3. inversion Hr; subst; try (apply H1; split; discriminate); [apply H2; reflexivity|]. eapply H3; eauto. }
  destruct (has_unmarshal E t) as [n|] eqn:Hu.
  2:{ destruct d0; destruct g0; exact Plain. }
  apply Cases; clear Cases.
  - intros [H1 H2]. destruct d0; destruct g0; try exact Plain; exfalso; first [eapply H1; reflexivity|eapply H2; reflexivity].
  - intros -> ->. destruct (bind _ _) as [[src cend]|e|p|]; try (eapply fits_stop; exact P).
    destruct (bytes_eqb _ _); [eapply fits_out; eapply out_set; [exact P|constructor]|eapply fits_stop; exact P].
  - intros o d1 g1 f -> -> Ho Hr1 ->. destruct (bind _ _) as [[src cend]|e|p|]; try (eapply fits_stop; exact P).
    destruct (bytes_eqb _ _); [eapply fits_out; eapply out_set; [exact P|constructor]|].
    apply NoDup_cons_iff in N as [N1 N2].
    assert (pre M (Loc o 0 []) d1 g1 f) as P0. { split; [unfold read; cbn; rewrite Ho; reflexivity|]. auto. }
    destruct (methods_refine _ _ HU n (unquoted X src) _ _ _ _ _ P0) as (Er & d' & f' & O'). pose proof (out_notin _ _ _ _ _ _ _ _ _ P0 O') as Nf.
    destruct (U n _ _ _) as [M1 ok]. destruct (x_unmarshal X n _ _) as [v ok']. cbn [fst snd] in *. subst ok'.
    destruct O' as [Or On Oh Ol Of Op]. cbn [l_obj l_cell l_path] in *. rewrite Ho in Oh. cbn in Oh. cbn [In] in I.
    pose proof (read_lt _ _ _ R) as Hlt.
    eapply fits_out with (d' := DIface (Some (TPtr t, DPtr (Some (Loc o 0 []))))) (fp' := o :: f'). constructor.
    + apply rp_iface. eapply rp_ptr; [exact Oh|exact Or].
    + constructor; assumption.
    + rewrite (put_here _ _ _ R). apply Of; [exact Hlt|intuition congruence|tauto].
    + exact Ol.
    + intros x Hx Hne Hni. cbn [In] in Hni. apply Of; [exact Hx|intuition congruence|tauto].
    + intros x [<-|Hx]; [left; left; reflexivity|]. destruct (Op _ Hx); [left; right; assumption|right; assumption].
Qed.

(** ** Map keys *)

Lemma rep_hashable M d g fp : rep M d g fp -> mhashable d = hashable g.
Proof.
  revert d g fp.
  apply (rep_mut M (fun d g fp _ => mhashable d = hashable g) (fun l gs fp _ => forallb mhashable l = forallb hashable gs) (fun _ _ _ _ => True));
    intros; cbn; auto. congruence.
Qed.

Definition keys_eqb := fix all (x y : list gval) : bool :=
  match x, y with [], [] => true | u :: x', v :: y' => key_eqb u v && all x' y' | _, _ => false end.
Definition mkeys_eqb := fix all (x y : list mval) : bool :=
  match x, y with [], [] => true | u :: x', v :: y' => mkey_eqb u v && all x' y' | _, _ => false end.

Lemma rep_key_eqb M a ga fa : rep M a ga fa -> forall b gb fb, rep M b gb fb -> (forall x, In x fa -> ~ In x fb) ->
  mkey_eqb a b = key_eqb ga gb.
Proof.
  revert a ga fa.
  apply (rep_mut M (fun a ga fa _ => forall b gb fb, rep M b gb fb -> (forall x, In x fa -> ~ In x fb) -> mkey_eqb a b = key_eqb ga gb)
    (fun a ga fa _ => forall b gb fb, reps M b gb fb -> (forall x, In x fa -> ~ In x fb) -> mkeys_eqb a b = keys_eqb ga gb)
    (fun _ _ _ _ => True)); intros; try exact I;
  try match goal with H : rep M ?b ?gb ?fb |- mkey_eqb _ ?b = key_eqb _ ?gb => inversion H; subst; try reflexivity end.
  - cbn. fold mkeys_eqb. fold keys_eqb. eauto.
  - cbn. destruct (Nat.eqb_spec o o0) as [->|Hne].
    + exfalso. match goal with D : (forall x, In x _ -> ~ In x _) |- _ => apply (D o0); left; reflexivity end.
    + unfold loc_eqb. cbn. apply Nat.eqb_neq in Hne. rewrite Hne. reflexivity.
  - cbn. f_equal. eauto.
  - cbn. fold mkeys_eqb. fold keys_eqb. eauto.
  - match goal with H : reps M ?b ?gb ?fb |- _ => inversion H; subst; reflexivity end.
  - match goal with H : reps M ?b ?gb ?fb, D : (forall x, In x (_ ++ _) -> ~ In x ?fb) |- mkeys_eqb _ ?b = _ =>
      inversion H; subst; [reflexivity|]; cbn [mkeys_eqb keys_eqb]; f_equal;
      [match goal with IH : (forall b gb fb, rep M b gb fb -> _) |- _ => eapply IH end
      |match goal with IH : (forall b gb fb, reps M b gb fb -> _) |- _ => eapply IH end]; [eassumption| |eassumption|];
      intros x Hx Hy; apply (D x); apply in_or_app; auto end.
Qed.

Lemma rep_set M k gk fk v gv fv : rep M k gk fk -> rep M v gv fv -> forall m gm fp, rep_pairs M m gm fp -> NoDup (fp ++ fk ++ fv) ->
  exists fp', rep_pairs M (mmap_set k v m) (map_set gk gv gm) fp' /\ NoDup fp' /\ forall x, In x fp' -> In x (fp ++ fk ++ fv).
Proof.
  intros Hk Hv m gm fp H. induction H as [|k' gk' fk' v' gv' fv' m gm fp Hk' Hv' Hm IH]; intros N.
  - cbn. exists ((fk ++ fv) ++ []). rewrite app_nil_r. cbn [app] in *. split; [|auto].
    replace (fk ++ fv) with ((fk ++ fv) ++ []) by apply app_nil_r. constructor; auto. constructor.
  - cbn [mmap_set map_set].
    assert (mkey_eqb k' k = key_eqb gk' gk) as ->.
    { eapply rep_key_eqb; [exact Hk'|exact Hk|]. intros x H1 H2. rewrite <- !app_assoc in N.
      apply (nodup_app_disjoint _ _ _ N H1). rewrite !in_app_iff. auto. }
    destruct (key_eqb gk' gk).
    + exists ((fk' ++ fv) ++ fp). split; [constructor; assumption|]. split.
      * rewrite <- !app_assoc in *. apply nodup_app.
        -- apply nodup_app_l in N. exact N.
        -- apply nodup_app_r in N. apply nodup_app_r in N. pose proof (nodup_app_r _ _ N) as N3. apply nodup_app_r in N3.
           apply nodup_app; [exact N3|apply nodup_app_l in N; exact N|]. intros x H1 H2.
           apply (nodup_app_disjoint _ _ _ N H2). apply in_or_app. auto.
        -- intros x H1 H2. apply (nodup_app_disjoint _ _ _ N H1). rewrite !in_app_iff in *. tauto.
      * intros x Hx. rewrite !in_app_iff in *. tauto.
    + destruct IH as (fp' & R' & N' & S').
      { rewrite <- app_assoc in N. apply nodup_app_r in N. exact N. }
      exists ((fk' ++ fv') ++ fp'). split; [constructor; assumption|]. split.
      * rewrite <- (app_assoc (fk' ++ fv')) in N. apply nodup_app; [apply nodup_app_l in N; exact N|exact N'|].
        intros x H1 H2. apply (nodup_app_disjoint _ _ _ N H1). auto.
      * intros x Hx. apply in_app_or in Hx as [Hx|Hx]; [rewrite !in_app_iff in *; tauto|]. apply S' in Hx. rewrite !in_app_iff in *. tauto.
Qed.

Definition kfits (M : memory) (hr : memory * R (mval * Z)) (tr : dres) : Prop :=
  match snd tr with
  | ROk c => exists d fp, snd hr = ROk (d, c) /\ rep (fst hr) d (fst tr) fp /\ made M (fst hr) fp
  | r => snd hr = fail r /\ made M (fst hr) []
  end.

Lemma key_refines U X E kt buf c depth M : methods_as X U -> kfits M (h_key U X E kt buf c depth M) (dec_key X E kt buf c depth).
Proof.
  intros HU.
  assert (kfits M (let '(g, r) := dec_key X E kt buf c depth in
      match r with ROk c => let '(d, M1) := build g M in (M1, ROk (d, c)) | r => (M, fail r) end) (dec_key X E kt buf c depth)) as Dflt.
  { destruct (dec_key X E kt buf c depth) as [g r]. unfold kfits. cbn [fst snd].
    destruct r as [c'|e|p|]; cbn [fst snd]; try (split; [reflexivity|apply made_nil]).
    destruct (build_rep g M) as (fp & R & D). destruct (build g M) as [d M1]. cbn [fst snd] in *. exists d, fp. auto. }
  unfold h_key, dec_key. destruct (key_node E kt) as [n| | | | | | | |] eqn:Q; try (unfold dec_key in Dflt; rewrite Q in Dflt; exact Dflt).
  clear Dflt. cbn zeta. pose proof (new_pre M (dzero E kt) (zero E kt) (zero_rep _ _ _)) as P0.
  destruct (unm_refines U X E n buf c depth HU _ _ _ _ _ P0) as (Er & d' & f' & O). pose proof (out_read _ _ _ _ _ _ _ _ _ P0 O) as Rd.
  destruct (h_unm U X E n buf c depth _ _) as [M1 r]. destruct (dec_unm X E n buf c depth _) as [v r']. cbn [fst snd] in *. subst r'.
  destruct O as [Or On Oh Ol Of Op]. unfold new_cell in Ol, Of, Op. rewrite app_length in *. cbn [length new_at l_obj] in *.
  assert (forall x, (x < length M)%nat -> nth_error M1 x = nth_error M x) as Fr.
  { intros x Hx. rewrite Of; [apply nth_app_l; exact Hx|lia|lia|intros []]. }
  unfold kfits. cbn [fst snd]. destruct r as [c'|e|p|].
  - rewrite Rd. exists d', f'. split; [reflexivity|]. split; [exact Or|]. repeat split; [exact On|lia|exact Fr|].
    intros x Hx. destruct (Op _ Hx) as [[]|]. lia.
  - split; [reflexivity|]. repeat split; [constructor|lia|exact Fr|intros x []].
  - split; [reflexivity|]. repeat split; [constructor|lia|exact Fr|intros x []].
  - split; [reflexivity|]. repeat split; [constructor|lia|exact Fr|intros x []].
Qed.

(** ** Maps *)

Lemma map_loop_refines kd tkd vd tvd E vt buf : (forall c M, kfits M (kd c M) (tkd c)) ->
  (forall c, refines (vd c) (tvd c)) ->
  forall n c M L o gm fp, pre M L (DMap (Some o)) (VMap (Some gm)) fp ->
    fits M L fp (h_map_loop kd vd (dzero E vt) buf n c M L)
      (let '(m, r) := map_loop tkd (fun c => tvd c (zero E vt)) buf n c gm in (VMap (Some m), r)).
Proof.
  intros Hkd Hvd n. induction n as [|n IH]; intros c M L o gm fp P; cbn [h_map_loop map_loop]; [eapply fits_stop; exact P|].
  destruct (negb (has_byte buf c)); [eapply fits_stop; exact P|].
  specialize (Hkd c M). unfold kfits in Hkd. destruct (kd c M) as [M1 kr]. destruct (tkd c) as [gk kr']. cbn [fst snd] in Hkd.
  destruct kr' as [c1|e|p|]; try (destruct Hkd as (-> & _ & Lm & Fm & _); cbn [fail]; eapply fits_out; eapply out_idle; [exact P|exact Lm|exact Fm]).
  destruct Hkd as (k & fk & -> & Rk & Nk & Lk & Fk & Gk).
  destruct (negb (has_byte buf c1)); [eapply fits_out; eapply out_idle; [exact P|exact Lk|exact Fk]|]. cbn zeta.
  pose proof (new_pre M1 (dzero E vt) (zero E vt) (zero_rep _ _ _)) as P0.
  destruct (Hvd c1 _ _ _ _ _ P0) as (Er & v & fv & O). pose proof (out_read _ _ _ _ _ _ _ _ _ P0 O) as Rd.
  pose proof (out_notin _ _ _ _ _ _ _ _ _ P0 O) as Nv.
  destruct (vd c1 (new_cell M1 (dzero E vt)) (new_at M1)) as [M2 vr]. destruct (tvd c1 (zero E vt)) as [gv vr']. cbn [fst snd] in *. subst vr'.
  destruct O as [Or On Oh Ol Of Op]. unfold new_cell in Ol, Of, Op. rewrite app_length in *. cbn [length new_at l_obj] in *.
  assert (forall x, (x < length M1)%nat -> nth_error M2 x = nth_error M1 x) as Fr1.
  { intros x Hx. rewrite Of; [apply nth_app_l; exact Hx|lia|lia|intros []]. }
  assert (forall x, (x < length M)%nat -> nth_error M2 x = nth_error M x) as Fr.
  { intros x Hx. rewrite Fr1 by lia. auto. }
  assert (out M L fp M2 (DMap (Some o)) (VMap (Some gm)) fp) as O2 by (eapply out_idle; [exact P|lia|exact Fr]).
  destruct vr as [c2|e|p|]; try (eapply fits_out; exact O2). rewrite Rd.
  rewrite <- (rep_hashable _ _ _ _ Rk). destruct (negb (mhashable k)); [eapply fits_out; exact O2|].
  pose proof (out_pre _ _ _ _ _ _ _ _ _ P O2) as P2.
  rewrite (proj1 P2). pose proof P2 as (R & H & N & I). pose proof (read_lt _ _ _ R) as Hlt.
  inversion H as [| | | | | | | | | |o' m gm' fps Ho Hm| | | | | |]; subst. rewrite Ho.
  apply NoDup_cons_iff in N as [N1 N2]. cbn [In] in I.
  assert (rep M2 k gk fk) as Rk2.
  { eapply rep_agree; [exact Rk|]. intros x Hx. apply Fr1. eapply rep_lt; eassumption. }
  assert (forall x, In x fv -> (length M1 < x)%nat) as Fv. { intros x Hx. destruct (Op _ Hx) as [[]|]. lia. }
  assert (forall x, In x fk -> (x < length M1)%nat) as Fk1 by (eapply rep_lt; exact Rk).
  assert (forall x, In x (o :: fps) -> (x < length M)%nat) as Ff by (eapply rep_lt; exact (proj1 (proj2 P))).
  destruct (rep_set M2 k gk fk v gv fv Rk2 Or m gm fps Hm) as (fp' & R' & N' & S').
  { apply nodup_app; [exact N2|apply nodup_app; auto|].
    - intros x H1 H2. apply Fk1 in H1. apply Fv in H2. lia.
    - intros x H1 H2. assert (x < length M)%nat by (apply Ff; right; exact H1).
      apply in_app_or in H2 as [H2|H2]; [apply Gk in H2|apply Fv in H2]; lia. }
  assert (~ In o fp') as No'.
  { intros Ho'. apply S' in Ho'. assert (o < length M)%nat by (apply Ff; left; reflexivity).
    apply in_app_or in Ho' as [H1|H1]; [auto|]. apply in_app_or in H1 as [H1|H1]; [apply Gk in H1|apply Fv in H1]; lia. }
  assert (out M L (o :: fps) (update M2 o (OMap (mmap_set k v m))) (DMap (Some o)) (VMap (Some (map_set gk gv gm))) (o :: fp')) as O3.
  { constructor.
    - eapply rp_map; [apply nth_update_same; eapply nth_lt; exact Ho|]. eapply rep_pairs_agree; [exact R'|].
      intros x Hx. apply nth_update_other. intros ->. auto.
    - constructor; assumption.
    - rewrite (put_here M L (DMap (Some o)) (proj1 P)). rewrite nth_update_other by (intros ->; tauto). apply Fr. apply (read_lt _ _ _ (proj1 P)).
    - rewrite length_update. lia.
    - intros x Hx Hne Hni. cbn [In] in Hni. rewrite nth_update_other by tauto. apply Fr. exact Hx.
    - intros x [<-|Hx]; [left; left; reflexivity|]. apply S' in Hx. apply in_app_or in Hx as [Hx|Hx]; [left; right; exact Hx|].
      right. apply in_app_or in Hx as [Hx|Hx]; [apply Gk in Hx|apply Fv in Hx]; lia. }
  pose proof (out_pre _ _ _ _ _ _ _ _ _ P O3) as P3.
  eapply fits_trans; [exact P|exact O3|].
  destruct (negb (has_byte buf c2)); [eapply fits_stop; exact P3|].
  destruct (rd buf c2) as [b|e|p|]; try (eapply fits_stop; exact P3).
  destruct (b =b "}"%byte); [eapply fits_stop; exact P3|]. eapply IH. exact P3.
Qed.

Lemma map_refines kd tkd vd tvd E vt buf c depth : (forall c M, kfits M (kd c M) (tkd c)) ->
  (forall c, refines (vd c) (tvd c)) ->
  refines (h_map kd vd (dzero E vt) buf c depth) (dec_map tkd (fun c => tvd c (zero E vt)) buf c depth).
Proof.
  intros Hkd Hvd M L d g fp P. unfold h_map, dec_map.
  destruct (map_header buf c depth) as [[c'|c']|e|p|]; try (eapply fits_stop; exact P).
  { eapply fits_out. eapply out_set; [exact P|constructor]. }
  rewrite (proj1 P). pose proof P as (R & H & N & I).
  assert (forall o gm fp0 M0, pre M0 L (DMap (Some o)) (VMap (Some gm)) fp0 ->
    fits M0 L fp0
      (if negb (has_byte buf c') then (M0, RErr (ESyntax c' (WEnd "map")))
       else match rd buf c' with
            | ROk b => if b =b "}"%byte then (M0, ROk (c' + 1)) else h_map_loop kd vd (dzero E vt) buf (length buf) c' M0 L
            | r => (M0, fail r)
            end)
      (if negb (has_byte buf c') then (VMap (Some gm), RErr (ESyntax c' (WEnd "map")))
       else match rd buf c' with
            | ROk b => if b =b "}"%byte then (VMap (Some gm), ROk (c' + 1))
                       else let '(m', r) := map_loop tkd (fun c => tvd c (zero E vt)) buf (length buf) c' gm in (VMap (Some m'), r)
            | r => (VMap (Some gm), fail r)
            end)) as Body.
  { intros o gm fp0 M0 P0. destruct (negb (has_byte buf c')); [eapply fits_stop; exact P0|].
    destruct (rd buf c') as [b|e|p|]; try (eapply fits_stop; exact P0).
    destruct (b =b "}"%byte); [eapply fits_stop; exact P0|]. eapply map_loop_refines; eassumption. }
  inversion H; subst; try (eapply fits_stop; exact P); cbn zeta.
  - assert (out M L [] (write (M ++ [OMap []]) L (DMap (Some (length M)))) (DMap (Some (length M))) (VMap (Some [])) [length M]) as O.
    { eapply out_write; [exact P| | | | |].
      - rewrite app_length. lia.
      - intros o Ho _. apply nth_app_l. exact Ho.
      - eapply rp_map; [apply nth_app_end|constructor].
      - constructor; [intros []|constructor].
      - intros o [<-|[]]. right. lia. }
    eapply fits_trans; [exact P|exact O|]. eapply Body. eapply out_pre; eassumption.
  - eapply Body. exact P.
Qed.

(** ** All decoders *)

Lemma bytes_refines sd tsd buf c : refines sd tsd -> refines (h_bytes sd buf c) (dec_bytes tsd buf c).
Proof.
  intros Hs M L d g fp P. unfold h_bytes, dec_bytes. destruct (rd buf c) as [b|e|p|] eqn:Rd; try (eapply fits_stop; exact P).
  destruct (b =b "a"%byte) eqn:Ba; [apply (Hs _ _ _ _ _ P)|].
  eapply new_refines in P; [|apply (blind_text (decode_string_bytes buf c) (fun b c _ => (vbytes b, ROk c))); intros; apply blind_set; discriminate].
  exact P.
Qed.

Theorem decode_refines U X E : methods_as X U ->
  forall fuel t buf c depth, refines (hdecode_f U X E fuel t buf c depth) (decode_f X E fuel t buf c depth).
Proof.
  intros HU. induction fuel as [|f IH]; intros t buf c depth.
  { intros M L d g fp P. eapply fits_stop. exact P. }
  cbn [hdecode_f decode_f]. unfold refines. destruct (node_of E t) as [n|t'|id fs|et|et|n et|kt vt| | |k|k| | | | |] eqn:Q.
  - apply unm_refines. exact HU.
  - destruct (kind_of E t');
      first [apply (ptr_refines E t' (fun c M L => hdecode_f U X E f t' buf c depth M L) (fun c v => decode_f X E f t' buf c depth v)); intros c'; apply IH
            |intros M L d g fp P; eapply fits_stop; exact P].
  - apply struct_refines. intros d c'. destruct (fd_str d); [|apply IH].
    destruct (node_of E (fd_ty d)) as [n|t'|id' fs'|et|et|n et|kt vt| | |k|k| | | | |]; try (apply new_refines, blind_wrapped).
    apply (ptr_refines E t' (fun c => h_new (dec_wrapped X (node_of E t') buf c)) (fun c v => dec_wrapped X (node_of E t') buf c v)).
    intros c2. apply new_refines, blind_wrapped.
  - apply bytes_refines. apply slice_refines. intros c'. apply IH.
  - apply slice_refines. intros c'. apply IH.
  - apply array_refines. intros c'. apply IH.
  - apply (map_refines (fun c M => h_key U X E kt buf c (depth + 1) M) (fun c => dec_key X E kt buf c (depth + 1))
             (fun c M L => hdecode_f U X E f vt buf c (depth + 1) M L) (fun c v => decode_f X E f vt buf c (depth + 1) v)).
    + intros c' M. apply key_refines. exact HU.
    + intros c'. apply IH.
  - apply new_refines, blind_any.
  - apply iface_refines. exact HU.
  - apply new_refines, blind_uint.
  - apply new_refines, blind_int.
  - apply new_refines, blind_string.
  - apply new_refines, blind_bool.
  - apply new_refines, blind_float.
  - apply new_refines, blind_float.
  - intros M L d g fp P. eapply fits_stop. exact P.
Qed.
