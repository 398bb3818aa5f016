(** Decoding into memory: when the destination shares nothing, MemDecode.v does
    what Decode.v says. *)
From Coq Require Import Strings.String Strings.Byte ZArith List Bool Lia Floats.SpecFloat.
From Verif Require Import Base GoTypes Strconv Tags Scan Decode Unmarshal Grammar Denote NumFacts ScanFacts Safe MemDecode MemSpec.
Import ListNotations.
Open Scope Z_scope.

Scheme rep_mut := Induction for rep Sort Prop
  with reps_mut := Induction for reps Sort Prop
  with rep_pairs_mut := Induction for rep_pairs Sort Prop.
Combined Scheme rep_all from rep_mut, reps_mut, rep_pairs_mut.

Lemma nth_lt {A} (l : list A) i x : nth_error l i = Some x -> (i < length l)%nat.
Proof. intros H. apply nth_error_Some. congruence. Qed.

Lemma rep_lt_all M :
  (forall d g fp, rep M d g fp -> forall o, In o fp -> (o < length M)%nat) /\
  (forall d g fp, reps M d g fp -> forall o, In o fp -> (o < length M)%nat) /\
  (forall d g fp, rep_pairs M d g fp -> forall o, In o fp -> (o < length M)%nat).
Proof.
  apply (rep_all M (fun d g fp _ => forall o, In o fp -> (o < length M)%nat)
                   (fun d g fp _ => forall o, In o fp -> (o < length M)%nat)
                   (fun d g fp _ => forall o, In o fp -> (o < length M)%nat));
    intros; repeat match goal with
    | H : In _ (_ ++ _) |- _ => apply in_app_or in H as [H|H]
    | H : In _ (_ :: _) |- _ => destruct H as [<-|H]
    | H : In _ [] |- _ => destruct H
    end; eauto using nth_lt.
Qed.
Lemma rep_lt M d g fp : rep M d g fp -> forall o, In o fp -> (o < length M)%nat. Proof. apply (proj1 (rep_lt_all M)). Qed.
Lemma reps_lt M d g fp : reps M d g fp -> forall o, In o fp -> (o < length M)%nat. Proof. apply (proj1 (proj2 (rep_lt_all M))). Qed.
Lemma rep_pairs_lt M d g fp : rep_pairs M d g fp -> forall o, In o fp -> (o < length M)%nat. Proof. apply (proj2 (proj2 (rep_lt_all M))). Qed.

Lemma rep_agree_all M M' :
  (forall d g fp, rep M d g fp -> (forall o, In o fp -> nth_error M' o = nth_error M o) -> rep M' d g fp) /\
  (forall d g fp, reps M d g fp -> (forall o, In o fp -> nth_error M' o = nth_error M o) -> reps M' d g fp) /\
  (forall d g fp, rep_pairs M d g fp -> (forall o, In o fp -> nth_error M' o = nth_error M o) -> rep_pairs M' d g fp).
Proof.
  apply (rep_all M (fun d g fp _ => (forall o, In o fp -> nth_error M' o = nth_error M o) -> rep M' d g fp)
                   (fun d g fp _ => (forall o, In o fp -> nth_error M' o = nth_error M o) -> reps M' d g fp)
                   (fun d g fp _ => (forall o, In o fp -> nth_error M' o = nth_error M o) -> rep_pairs M' d g fp));
    intros; econstructor;
    try match goal with
        | A : (forall o, _ -> nth_error _ o = nth_error _ o) |- nth_error _ ?o = _ => rewrite A by (left; reflexivity); eassumption
        | IH : _ -> ?P |- ?P => apply IH; intros; match goal with A : (forall o, _ -> nth_error _ o = nth_error _ o) |- _ => apply A end;
            rewrite ?in_app_iff; cbn [In]; tauto
        end; assumption.
Qed.
Lemma rep_agree M M' d g fp : rep M d g fp -> (forall o, In o fp -> nth_error M' o = nth_error M o) -> rep M' d g fp.
Proof. intros H. apply (proj1 (rep_agree_all M M')); exact H. Qed.
Lemma reps_agree M M' d g fp : reps M d g fp -> (forall o, In o fp -> nth_error M' o = nth_error M o) -> reps M' d g fp.
Proof. intros H. apply (proj1 (proj2 (rep_agree_all M M'))); exact H. Qed.
Lemma rep_pairs_agree M M' d g fp : rep_pairs M d g fp -> (forall o, In o fp -> nth_error M' o = nth_error M o) -> rep_pairs M' d g fp.
Proof. intros H. apply (proj2 (proj2 (rep_agree_all M M'))); exact H. Qed.

(** ** Lists *)
Lemma length_update {A} (l : list A) : forall i a, length (update l i a) = length l.
Proof. induction l as [|x l IH]; intros [|i] a; cbn; [reflexivity..|]. rewrite IH. reflexivity. Qed.
Lemma nth_update_same {A} (l : list A) : forall i a, (i < length l)%nat -> nth_error (update l i a) i = Some a.
Proof. induction l as [|x l IH]; intros [|i] a Hi; cbn in *; try lia; [reflexivity|]. apply IH. lia. Qed.
Lemma nth_update_other {A} (l : list A) : forall i j a, i <> j -> nth_error (update l i a) j = nth_error l j.
Proof. induction l as [|x l IH]; intros [|i] [|j] a Hi; cbn; try congruence; [reflexivity..|]. apply IH. congruence. Qed.
Lemma update_update {A} (l : list A) : forall i a b, update (update l i a) i b = update l i b.
Proof. induction l as [|x l IH]; intros [|i] a b; cbn; [reflexivity..|]. rewrite IH. reflexivity. Qed.
Lemma update_same {A} (l : list A) : forall i a, nth_error l i = Some a -> update l i a = l.
Proof. induction l as [|x l IH]; intros [|i] a H; cbn in *; try congruence. rewrite IH; auto. Qed.
Lemma nth_app_l {A} (l l' : list A) i : (i < length l)%nat -> nth_error (l ++ l') i = nth_error l i.
Proof. intros H. apply nth_error_app1. exact H. Qed.
Lemma nth_app_end {A} (l : list A) x : nth_error (l ++ [x]) (length l) = Some x.
Proof. rewrite nth_error_app2 by lia. rewrite Nat.sub_diag. reflexivity. Qed.
Lemma update_app_end {A} (l : list A) x y : update (l ++ [x]) (length l) y = l ++ [y].
Proof. induction l as [|a l IH]; cbn; [reflexivity|]. rewrite IH. reflexivity. Qed.

Lemma swap_mid (a b c b' : list nat) N : NoDup (a ++ b ++ c) -> NoDup b' ->
  (forall x, In x b' -> In x b \/ (N <= x)%nat) -> (forall x, In x (a ++ b ++ c) -> (x < N)%nat) -> NoDup (a ++ b' ++ c).
Proof.
  intros H Hb Hi Hlt.
  assert (forall A (u v : list A) x, NoDup (u ++ v) -> In x u -> ~ In x v) as Dj.
  { intros A u v x. induction u as [|y u IH]; intros Hn []; cbn in Hn; apply NoDup_cons_iff in Hn as [H1 H2].
    - subst. intros Hx. apply H1. apply in_or_app. auto.
    - apply IH; auto. }
  induction a as [|x a IH]; cbn in *.
  - assert (NoDup c) as Hc. { clear -H. induction b as [|y b IH]; [exact H|]. apply NoDup_cons_iff in H as [_ H]. auto. }
    induction b' as [|y b' IH]; cbn; [exact Hc|]. apply NoDup_cons_iff in Hb as [Hb1 Hb2].
    constructor; [|apply IH; auto; intros; apply Hi; right; auto].
    rewrite in_app_iff. intros [|Hy]; [auto|]. destruct (Hi y (or_introl eq_refl)) as [Hy'|Hy']; [exact (Dj _ _ _ _ H Hy' Hy)|].
    assert (y < N)%nat by (apply Hlt; apply in_or_app; auto). lia.
  - apply NoDup_cons_iff in H as [H1 H2]. constructor; [|apply IH; auto].
    rewrite !in_app_iff in *. intros [Hx|[Hx|Hx]]; [auto| |auto].
    destruct (Hi x Hx) as [Hx'|Hx']; [auto|]. assert (x < N)%nat by auto. lia.
Qed.

Lemma nodup_app_l {A} (a b : list A) : NoDup (a ++ b) -> NoDup a.
Proof.
  induction a as [|x a IH]; intros H; [constructor|]. cbn in H. apply NoDup_cons_iff in H as [H1 H2].
  constructor; [intros Hx; apply H1; apply in_or_app; auto|auto].
Qed.
Lemma nodup_app_r {A} (a b : list A) : NoDup (a ++ b) -> NoDup b.
Proof. induction a as [|x a IH]; intros H; [exact H|]. cbn in H. apply NoDup_cons_iff in H as [_ H]. auto. Qed.
Lemma nodup_app_disjoint {A} (a b : list A) x : NoDup (a ++ b) -> In x a -> ~ In x b.
Proof.
  induction a as [|y a IH]; intros H []; cbn in H; apply NoDup_cons_iff in H as [H1 H2].
  - subst. intros Hx. apply H1. apply in_or_app. auto.
  - apply IH; auto.
Qed.
Lemma nodup_app {A} (a b : list A) : NoDup a -> NoDup b -> (forall x, In x a -> ~ In x b) -> NoDup (a ++ b).
Proof.
  intros Ha Hb Hd. induction a as [|x a IH]; [exact Hb|]. apply NoDup_cons_iff in Ha as [H1 H2]. cbn. constructor.
  - rewrite in_app_iff. intros [|Hx]; [auto|]. exact (Hd x (or_introl eq_refl) Hx).
  - apply IH; auto. intros y Hy. apply Hd. right. exact Hy.
Qed.

(** ** Load and store *)
Lemma get_put_path p v : forall d, get_path p d <> None -> get_path p (put_path p v d) = Some v.
Proof.
  induction p as [|k p IH]; intros d H; [reflexivity|]. cbn in *.
  destruct (parts d) as [l|] eqn:P; [|congruence]. destruct (nth_error l k) as [x|] eqn:K; [|congruence].
  assert (parts (with_parts d (update l k (put_path p v x))) = Some (update l k (put_path p v x))) as ->
    by (destruct d; cbn in P; try discriminate P; reflexivity).
  rewrite nth_update_same by (eapply nth_lt; exact K). apply IH. exact H.
Qed.
Lemma put_put_path p v w : forall d, put_path p w (put_path p v d) = put_path p w d.
Proof.
  induction p as [|k p IH]; intros d; [reflexivity|]. cbn.
  destruct (parts d) as [l|] eqn:P; [|cbn; rewrite P; reflexivity]. destruct (nth_error l k) as [x|] eqn:K; [|cbn; rewrite P, K; reflexivity].
  assert (parts (with_parts d (update l k (put_path p v x))) = Some (update l k (put_path p v x))) as ->
    by (destruct d; cbn in P; try discriminate P; reflexivity).
  rewrite nth_update_same by (eapply nth_lt; exact K). rewrite IH, update_update.
  destruct d; cbn in P; try discriminate P; reflexivity.
Qed.
Lemma put_get_path p : forall d v, get_path p d = Some v -> put_path p v d = d.
Proof.
  induction p as [|k p IH]; intros d v H; cbn in *; [congruence|].
  destruct (parts d) as [l|] eqn:P; [|congruence]. destruct (nth_error l k) as [x|] eqn:K; [|congruence].
  rewrite (IH _ _ H), update_same by exact K. destruct d; cbn in P; try discriminate P; injection P as ->; reflexivity.
Qed.
Lemma get_snoc p k : forall d, get_path (p ++ [k]) d =
  match get_path p d with Some x => match parts x with Some l => nth_error l k | None => None end | None => None end.
Proof.
  induction p as [|j p IH]; intros d; cbn.
  - destruct (parts d) as [l|]; [|reflexivity]. destruct (nth_error l k); reflexivity.
  - destruct (parts d) as [l|]; [|reflexivity]. destruct (nth_error l j); [|reflexivity]. apply IH.
Qed.
Lemma put_snoc p k v x l : forall d, get_path p d = Some x -> parts x = Some l -> (k < length l)%nat ->
  put_path (p ++ [k]) v d = put_path p (with_parts x (update l k v)) d.
Proof.
  induction p as [|j p IH]; intros d G P Hk; cbn in *.
  - injection G as ->. rewrite P. destruct (nth_error l k) eqn:K; [reflexivity|]. apply nth_error_None in K. lia.
  - destruct (parts d) as [l'|]; [|discriminate]. destruct (nth_error l' j) as [y|]; [|discriminate].
    rewrite (IH _ G P Hk). reflexivity.
Qed.

Lemma get_put_obj i p v ob : obj_get ob i p <> None -> obj_get (obj_put i p v ob) i p = Some v.
Proof.
  destruct ob as [l|m]; cbn; [|congruence]. destruct (nth_error l i) as [d|] eqn:I; [|congruence].
  intros H. cbn. rewrite nth_update_same by (eapply nth_lt; exact I). apply get_put_path. exact H.
Qed.
Lemma put_put_obj i p v w ob : obj_put i p w (obj_put i p v ob) = obj_put i p w ob.
Proof.
  destruct ob as [l|m]; cbn; [|reflexivity]. destruct (nth_error l i) as [d|] eqn:I; [|cbn; rewrite I; reflexivity].
  cbn. rewrite nth_update_same by (eapply nth_lt; exact I). rewrite update_update, put_put_path. reflexivity.
Qed.
Lemma put_get_obj i p v ob : obj_get ob i p = Some v -> obj_put i p v ob = ob.
Proof.
  destruct ob as [l|m]; cbn; [|reflexivity]. destruct (nth_error l i) as [d|] eqn:I; [|reflexivity].
  intros H. rewrite (put_get_path _ _ _ H), update_same by exact I. reflexivity.
Qed.
Lemma obj_get_snoc ob i p k x l : obj_get ob i p = Some x -> parts x = Some l -> obj_get ob i (p ++ [k]) = nth_error l k.
Proof.
  destruct ob as [c|m]; cbn; [|discriminate]. destruct (nth_error c i) as [d|]; [|discriminate].
  intros G P. rewrite get_snoc, G, P. reflexivity.
Qed.
Lemma obj_put_snoc ob i p k v x l : obj_get ob i p = Some x -> parts x = Some l -> (k < length l)%nat ->
  obj_put i (p ++ [k]) v ob = obj_put i p (with_parts x (update l k v)) ob.
Proof.
  destruct ob as [c|m]; cbn; [|discriminate]. destruct (nth_error c i) as [d|]; [|discriminate].
  intros G P Hk. rewrite (put_snoc _ _ _ _ _ _ G P Hk). reflexivity.
Qed.

Lemma length_write M L v : length (write M L v) = length M.
Proof. unfold write. destruct (nth_error M (l_obj L)); [apply length_update|reflexivity]. Qed.
Lemma nth_write_other M L v o : o <> l_obj L -> nth_error (write M L v) o = nth_error M o.
Proof. intros H. unfold write. destruct (nth_error M (l_obj L)); [apply nth_update_other; congruence|reflexivity]. Qed.
Lemma nth_write_same M L v : nth_error (write M L v) (l_obj L) = option_map (obj_put (l_cell L) (l_path L) v) (nth_error M (l_obj L)).
Proof. unfold write. destruct (nth_error M (l_obj L)) eqn:Q; cbn; [apply nth_update_same; eapply nth_lt; exact Q|exact Q]. Qed.
Lemma read_write M L v : read M L <> None -> read (write M L v) L = Some v.
Proof.
  unfold read. rewrite nth_write_same. destruct (nth_error M (l_obj L)); cbn; [|congruence]. apply get_put_obj.
Qed.
Lemma read_lt M L d : read M L = Some d -> (l_obj L < length M)%nat.
Proof. unfold read. destruct (nth_error M (l_obj L)) eqn:Q; [|discriminate]. intros _. eapply nth_lt. exact Q. Qed.
Lemma read_sub M L k d l : read M L = Some d -> parts d = Some l -> read M (at_sub L k) = nth_error l k.
Proof.
  unfold read. cbn [at_sub l_obj l_cell l_path]. destruct (nth_error M (l_obj L)) as [ob|]; [|discriminate].
  intros G P. eapply obj_get_snoc; eassumption.
Qed.
Lemma read_new M d : read (new_cell M d) (new_at M) = Some d.
Proof. unfold read, new_cell, new_at. cbn [l_obj l_cell l_path]. rewrite nth_app_end. reflexivity. Qed.

(** ** What a decoder does to memory *)

Definition pre (M : memory) (L : loc) (d : mval) (g : gval) (fp : list nat) : Prop :=
  read M L = Some d /\ rep M d g fp /\ NoDup fp /\ ~ In (l_obj L) fp.

Lemma out_notin M L d g fp M' d' g' fp' : pre M L d g fp -> out M L fp M' d' g' fp' -> ~ In (l_obj L) fp'.
Proof.
  intros (R & _ & _ & N) [_ _ _ _ _ F] H. destruct (F _ H) as [|]; [auto|]. apply read_lt in R. lia.
Qed.
Lemma out_read M L d g fp M' d' g' fp' : pre M L d g fp -> out M L fp M' d' g' fp' -> read M' L = Some d'.
Proof.
  intros (R & _) [_ _ H _ _ _]. unfold read in *. rewrite H. destruct (nth_error M (l_obj L)) as [ob|]; [|discriminate].
  cbn. apply get_put_obj. congruence.
Qed.
Lemma out_pre M L d g fp M' d' g' fp' : pre M L d g fp -> out M L fp M' d' g' fp' -> pre M' L d' g' fp'.
Proof.
  intros P O. split; [eapply out_read; eassumption|]. split; [apply O|]. split; [apply O|]. eapply out_notin; eassumption.
Qed.
Lemma out_same M L d g fp : pre M L d g fp -> out M L fp M d g fp.
Proof.
  intros (R & H & N & I). constructor; auto. unfold read in R.
  destruct (nth_error M (l_obj L)) as [ob|]; [|discriminate]. cbn. rewrite put_get_obj by exact R. reflexivity.
Qed.
Lemma out_trans M L d g fp M1 d1 g1 fp1 M2 d2 g2 fp2 : pre M L d g fp ->
  out M L fp M1 d1 g1 fp1 -> out M1 L fp1 M2 d2 g2 fp2 -> out M L fp M2 d2 g2 fp2.
Proof.
  intros P O1 O2. pose proof (out_len _ _ _ _ _ _ _ O1) as Hl. constructor; try apply O2.
  - rewrite (out_here _ _ _ _ _ _ _ O2), (out_here _ _ _ _ _ _ _ O1). destruct (nth_error M (l_obj L)); cbn; [|reflexivity].
    rewrite put_put_obj. reflexivity.
  - pose proof (out_len _ _ _ _ _ _ _ O2). lia.
  - intros o Ho Hn Hf. rewrite (out_frame _ _ _ _ _ _ _ O2), (out_frame _ _ _ _ _ _ _ O1); auto; [lia|].
    intros Hi. destruct (out_fp _ _ _ _ _ _ _ O1 _ Hi); [auto|lia].
  - intros o Ho. destruct (out_fp _ _ _ _ _ _ _ O2 _ Ho) as [Hi|]; [|right; lia]. apply (out_fp _ _ _ _ _ _ _ O1 _ Hi).
Qed.

(** A store, after new allocations. *)
Lemma out_write M L d g fp M1 v g' fp' : pre M L d g fp ->
  (length M <= length M1)%nat -> (forall o, (o < length M)%nat -> ~ In o fp -> nth_error M1 o = nth_error M o) ->
  rep M1 v g' fp' -> NoDup fp' -> (forall o, In o fp' -> In o fp \/ (length M <= o)%nat) ->
  out M L fp (write M1 L v) v g' fp'.
Proof.
  intros (R & H & N & I) Hl Hf Hr Hn Hi. pose proof (read_lt _ _ _ R) as Hlt. constructor; auto.
  - eapply rep_agree; [exact Hr|]. intros o Ho. apply nth_write_other. intros ->. destruct (Hi _ Ho) as [|]; [auto|lia].
  - rewrite nth_write_same, Hf by auto. reflexivity.
  - rewrite length_write. exact Hl.
  - intros o Ho Hne Hni. rewrite nth_write_other by exact Hne. auto.
Qed.
(** New allocations only. *)
Lemma out_idle M L d g fp M1 : pre M L d g fp -> (length M <= length M1)%nat ->
  (forall o, (o < length M)%nat -> nth_error M1 o = nth_error M o) -> out M L fp M1 d g fp.
Proof.
  intros P Hl Hf. destruct P as (R & H & N & I). pose proof (read_lt _ _ _ R) as Hlt. constructor; auto.
  - eapply rep_agree; [exact H|]. intros o Ho. apply Hf. eapply rep_lt; eassumption.
  - rewrite Hf by exact Hlt. unfold read in R. destruct (nth_error M (l_obj L)) as [ob|]; [|discriminate]. cbn.
    rewrite put_get_obj by exact R. reflexivity.
Qed.

Definition fits {A} (M : memory) (L : loc) (fp : list nat) (hr : memory * A) (tr : gval * A) : Prop :=
  snd hr = snd tr /\ exists d' fp', out M L fp (fst hr) d' (fst tr) fp'.
Definition refines {A} (hd : memory -> loc -> memory * A) (td : gval -> gval * A) : Prop :=
  forall M L d g fp, pre M L d g fp -> fits M L fp (hd M L) (td g).

Lemma fits_out {A} M L fp M' d' g' fp' (r : A) : out M L fp M' d' g' fp' -> fits M L fp (M', r) (g', r).
Proof. intros O. split; [reflexivity|]. exists d', fp'. exact O. Qed.
Lemma fits_stop {A} M L d g fp (r : A) : pre M L d g fp -> fits M L fp (M, r) (g, r).
Proof. intros P. eapply fits_out. apply out_same. exact P. Qed.
Lemma fits_trans {A} M L d g fp M1 d1 g1 fp1 (hr : memory * A) tr : pre M L d g fp ->
  out M L fp M1 d1 g1 fp1 -> fits M1 L fp1 hr tr -> fits M L fp hr tr.
Proof.
  intros P O (E & d2 & fp2 & O2). split; [exact E|]. exists d2, fp2. eapply out_trans; eassumption.
Qed.

(** ** Zero values and new values *)
Lemma reps_repeat M d g n : rep M d g [] -> reps M (repeat d n) (repeat g n) [].
Proof. intros H. induction n as [|n IH]; cbn; [constructor|]. change (@nil nat) with (@nil nat ++ []). constructor; assumption. Qed.
Lemma reps_map M {A} (f : A -> gval) l : (forall a, In a l -> rep M (plain_val (f a)) (f a) []) ->
  reps M (map plain_val (map f l)) (map f l) [].
Proof.
  induction l as [|a l IH]; intros H; cbn; [constructor|]. change (@nil nat) with (@nil nat ++ []).
  constructor; [apply H; left; reflexivity|]. apply IH. intros b Hb. apply H. right. exact Hb.
Qed.
Lemma map_repeat_plain g n : map plain_val (repeat g n) = repeat (plain_val g) n.
Proof. induction n as [|n IH]; cbn; [reflexivity|]. rewrite IH. reflexivity. Qed.
Lemma zero_rep_f M E : forall fuel t, rep M (plain_val (zero_f fuel E t)) (zero_f fuel E t) [].
Proof.
  induction fuel as [|f IH].
  - induction t as [| | | | | | |n t IHt| | | | | |]; cbn; try constructor. rewrite map_repeat_plain. apply reps_repeat. exact IHt.
  - induction t as [| | | | | | |n t IHt| | | | | |n]; cbn; try constructor.
    + rewrite map_repeat_plain. apply reps_repeat. exact IHt.
    + destruct (nth_error E n) as [d|]; [|constructor]. destruct (d_under d) as [fs|t']; [|apply IH].
      constructor. apply reps_map. intros a _. apply IH.
Qed.
Lemma zero_rep M E t : rep M (dzero E t) (zero E t) []. Proof. apply zero_rep_f. Qed.
