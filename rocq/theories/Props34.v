(** Properties of Marshal, part 12: how much it writes (C80). *)
From Coq Require Import Strings.String Strings.Byte ZArith List Bool Lia Permutation.
From Verif Require Import Base GoTypes Strconv Tags Grammar Denote Memory EncCompile Encode Php Repr EncApi EncCompileFacts EncTerm NumFacts NumEnc EncFacts EncSound EncComplete ReprFacts PhpFacts MarshalFacts Weight Demo DemoEnc.
Import ListNotations.
Open Scope Z_scope.

(** ** Sums over entries *)
Definition entry_len (e : php * php) : Z := blen (serialize (fst e)) + blen (serialize (snd e)).
Definition entries_len (es : list (php * php)) : Z := fold_right (fun e n => entry_len e + n) 0 es.
Lemma blen_app' {A} (a b : list A) : blen (a ++ b) = blen a + blen b.
Proof. unfold blen. rewrite app_length, Nat2Z.inj_add. reflexivity. Qed.
Lemma serialize_arr es : blen (serialize (PArr es)) = 5 + blen (decimal (blen es)) + entries_len es.
Proof.
  cbn [serialize]. rewrite !blen_app'. change (blen (bs "a:")) with 2. change (blen (bs ":{")) with 2. change (blen (bs "}")) with 1.
  enough (blen (flat_map (fun e => serialize (fst e) ++ serialize (snd e)) es) = entries_len es) as -> by lia.
  induction es as [|e es IH]; [reflexivity|]. cbn [flat_map entries_len fold_right]. fold (entries_len es).
  rewrite !blen_app', IH. unfold entry_len. lia.
Qed.
Lemma entries_len_perm es es' : Permutation es es' -> entries_len es = entries_len es'.
Proof. unfold entries_len. induction 1; cbn [fold_right] in *; lia. Qed.
Lemma pairwise_length {A} (P : A -> A -> Prop) l l' : Forall2 P l l' -> length l = length l'.
Proof. induction 1; cbn [length]; congruence. Qed.
Lemma psame_length : forall n p q, (psize p <= n)%nat -> psame p q -> blen (serialize p) = blen (serialize q).
Proof.
  induction n as [|n IH]; intros p q Hn Hs; [destruct p; cbn in Hn; lia|].
  destruct Hs as [p|es es' es'' Hp Hf]; [reflexivity|]. rewrite !serialize_arr, (entries_len_perm _ _ Hp).
  replace (blen es') with (blen es'') by (unfold blen; rewrite (Permutation_length Hp); reflexivity).
  assert (blen es = blen es'') as -> by (unfold blen; rewrite (pairwise_length _ _ _ Hf); reflexivity). f_equal. clear es' Hp.
  cbn [psize] in Hn. induction Hf as [|a b es es'' [H1 H2] Hf IHf]; [reflexivity|]. cbn [fold_right entries_len] in *.
  fold (entries_len es) (entries_len es''). rewrite IHf by lia. unfold entry_len. rewrite H1, (IH (snd a) (snd b)) by (lia || exact H2). reflexivity.
Qed.

(** ** C80 How much Marshal writes.

    The length of the output does not depend on the order in which maps are
    iterated over: it is the same in every call. *)
Theorem C80_same_length : forall X E H ord ord' c c' t v b b', fair_order ord -> fair_order ord' ->
  MarshalsIn X E H ord c t v b -> MarshalsIn X E H ord' c' t v b' -> blen b = blen b'.
Proof.
  intros X E H ord ord' c c' t v b b' Ho Ho' Q Q'. destruct (marshal_same X E H ord ord' c c' t v b b' Ho Ho' Q Q') as (p & p' & -> & -> & S).
  exact (psame_length _ p p' (le_n _) S).
Qed.
Print Assumptions C80_same_length.

(** It is proportional to what the value represents, ... *)
Lemma decimal_pos z : 1 <= blen (decimal z).
Proof.
  destruct (decimal_int_text z) as [d [Nn _]|d [Nn _]].
  - destruct d; [congruence|]. unfold blen. cbn [length]. lia.
  - unfold blen. cbn [length app]. lia.
Qed.
Lemma decimal_bound z : 0 <= z -> blen (decimal z) <= 1 + z.
Proof.
  intros Hz. destruct (append_uint_facts z ltac:(lia)) as ([N1 N2] & Nv & C). rewrite append_uint_decimal in * by lia.
  destruct C as [Q|(d & ds & Q & Hd)]; rewrite Q in *; [change (1 <= 1 + z); lia|].
  assert (is_digit d = true) as D by (cbn in N2; apply andb_true_iff in N2; tauto).
  pose proof (num_low d ds N2 (digit_nonzero _ D Hd)) as L. rewrite Nv in L. rewrite blen_cons.
  assert (blen ds < 10 ^ blen ds) by (apply Z.pow_gt_lin_r; [lia|unfold blen; lia]). lia.
Qed.
Lemma weight_bound p : 0 <= weight p /\ blen (serialize p) <= 8 * weight p.
Proof.
  induction p as [|b|z|t|s|es IH|b] using php_ind'.
  - vm_compute. split; discriminate.
  - destruct b; vm_compute; split; discriminate.
  - cbn [weight serialize]. rewrite !blen_app'. change (blen (bs "i:")) with 2. change (blen (bs ";")) with 1. pose proof (decimal_pos z). lia.
  - cbn [weight serialize]. rewrite !blen_app'. change (blen (bs "d:")) with 2. change (blen (bs ";")) with 1. pose proof (Zle_0_nat (length t)). unfold blen in *. lia.
  - cbn [weight serialize]. pose proof (Zle_0_nat (length s)) as P. fold (blen s) in P. pose proof (decimal_bound (blen s) P) as D. rewrite !blen_app'.
    change (blen (bs "s:")) with 2. change (blen (bs ":")) with 1. change (blen (bs ";")) with 1. change (blen quote) with 1. lia.
  - rewrite serialize_arr. cbn [weight]. pose proof (decimal_bound (blen es) ltac:(unfold blen; lia)) as D.
    set (w := fold_right _ 0 es). enough (0 <= w /\ blen es <= w /\ entries_len es + blen es <= 8 * w) by lia. subst w. clear D.
    induction es as [|e es IHes]; [vm_compute; repeat split; discriminate|]. inversion IH as [|? ? [A B] F]; subst. specialize (IHes F).
    cbn [fold_right entries_len]. fold (entries_len es). set (w := fold_right _ 0 es) in *. rewrite blen_cons. unfold entry_len. lia.
  - cbn [weight serialize]. unfold blen. lia.
Qed.
Theorem C80_linear_partial : forall X E H ord c t v b p, fair_order ord ->
  MarshalsIn X E H ord c t v b -> Represents X E H t v p -> blen b <= 8 * weight p.
Proof.
  intros X E H ord c t v b p Ho Q R. destruct (marshal_represents X E H ord Ho c t v b Q) as (p' & R' & ->).
  rewrite <- (psame_length _ p p' (le_n _) (proj1 (repr_det X E H anything anything) _ _ _ _ R _ _ R')). apply weight_bound.
Qed.
Print Assumptions C80_linear_partial.
Example C80_example :
  Marshals Xd Ed Hd in_order (TMap TString TAny) (HMap (Some 3%nat)) (bs "a:2:{s:1:""k"";a:2:{i:0;i:1;i:1;N;}s:1:""n"";N;}") /\
  Represents Xd Ed Hd (TMap TString TAny) (HMap (Some 3%nat))
    (PArr [(PStr (bs "k"), PArr [(PInt 0, PInt 1); (PInt 1, PNull)]); (PStr (bs "n"), PNull)]) /\
  weight (PArr [(PStr (bs "k"), PArr [(PInt 0, PInt 1); (PInt 1, PNull)]); (PStr (bs "n"), PNull)]) = 15.
Proof.
  split; [exists 12%nat; vm_compute; reflexivity|]. split; [|reflexivity].
  apply rp_shape; [reflexivity|reflexivity|].
  eapply (sh_map _ _ _ _ tt tt); [reflexivity|reflexivity|apply Permutation_refl|exact I|].
  apply pa_cons; [split; [reflexivity|apply sr_str]| |].
  { apply rp_shape; [reflexivity|reflexivity|]. apply sh_iface; [reflexivity|]. apply in_iface; [reflexivity|].
    eapply (in_slice _ _ _ _ tt tt); [reflexivity|reflexivity|reflexivity|exact I|].
    apply el_cons_in; [apply in_iface; [reflexivity|]; apply in_scalar, sr_int; vm_compute; split; congruence|].
    apply el_cons_in; [apply in_nil; reflexivity|constructor]. }
  apply pa_cons; [split; [reflexivity|apply sr_str]| |constructor].
  apply rp_shape; [reflexivity|reflexivity|]. apply sh_iface; [reflexivity|]. apply in_nil; reflexivity.
Qed.

(** ... but not to the memory the value occupies: [n] slices of two elements, both
    of them the next slice, take 2 n cells, and Marshal writes 2^n values. *)
Definition next_slice (j : nat) : hval := HIface (Some (TSlice TAny, HSlice (Some (j, 0, 2)%nat))).
Definition doubling (n : nat) : heap :=
  map (fun j => Cells [next_slice (S j); next_slice (S j)]) (seq 0 n) ++ [Cells [HIface None; HIface None]].
Fixpoint unfolded (n : nat) : php :=
  match n with
  | O => PArr [(PInt 0, PNull); (PInt 1, PNull)]
  | S m => PArr [(PInt 0, unfolded m); (PInt 1, unfolded m)]
  end.
Lemma unfolded_long n : 2 ^ Z.of_nat n <= blen (serialize (unfolded n)).
Proof.
  induction n as [|n IH]; [vm_compute; discriminate|]. rewrite Nat2Z.inj_succ, Z.pow_succ_r by lia.
  cbn [unfolded]. rewrite serialize_arr. cbn [entries_len fold_right]. unfold entry_len. cbn [fst snd]. pose proof (decimal_pos (blen [(PInt 0, unfolded n); (PInt 1, unfolded n)])).
  set (a := blen (serialize (PInt 0))). set (b := blen (serialize (PInt 1))). assert (0 <= a) by (unfold a, blen; lia). assert (0 <= b) by (unfold b, blen; lia). lia.
Qed.
Lemma doubling_cells n j : (j < n)%nat -> cells (doubling n) j 0 2 = Some [next_slice (S j); next_slice (S j)].
Proof.
  intros Hj. unfold cells, doubling. rewrite nth_error_app1 by (rewrite map_length, seq_length; exact Hj).
  rewrite nth_error_map, (nth_error_nth' _ 0%nat) by (rewrite seq_length; exact Hj). rewrite seq_nth by exact Hj. reflexivity.
Qed.
Lemma doubling_last n : cells (doubling n) n 0 2 = Some [HIface None; HIface None].
Proof. unfold cells, doubling. rewrite nth_error_app2 by (rewrite map_length, seq_length; lia). rewrite map_length, seq_length, Nat.sub_diag. reflexivity. Qed.
Section Doubling.
  Context (X : Ext) (E : env) (n : nat).
  Hypothesis Hinj : forall o o', cell_at X o 0 = cell_at X o' 0 -> o = o'.
  Lemma doubling_inner k : forall j s, (j + k = n)%nat -> (forall a, In a s -> exists i, (i < j)%nat /\ a = cell_at X i 0) ->
    inner X E (doubling n) apart s (TSlice TAny) (HSlice (Some (j, 0, 2)%nat)) (unfolded k).
  Proof.
    induction k as [|k IH]; intros j s Hj Hs.
    - assert (j = n) as -> by lia. cbn [unfolded].
      eapply in_slice; [reflexivity|reflexivity|apply doubling_last| |].
      + split; [|reflexivity]. intros I. destruct (Hs _ I) as (i & Hi & Q). apply Hinj in Q. lia.
      + apply el_cons_in; [apply in_nil; reflexivity|]. apply el_cons_in; [apply in_nil; reflexivity|]. constructor.
    - cbn [unfolded]. assert (forall s', s' = cell_at X j 0 :: s -> inner X E (doubling n) apart s' TAny (next_slice (S j)) (unfolded k)) as N.
      { intros s' ->. apply in_iface; [reflexivity|]. apply IH; [lia|]. intros a [<-|I]; [exists j; split; [lia|reflexivity]|].
        destruct (Hs _ I) as (i & Hi & Q). exists i. split; [lia|exact Q]. }
      eapply in_slice; [reflexivity|reflexivity|apply doubling_cells; lia| |].
      + split; [|reflexivity]. intros I. destruct (Hs _ I) as (i & Hi & Q). apply Hinj in Q. lia.
      + apply el_cons_in; [apply N; reflexivity|]. apply el_cons_in; [apply N; reflexivity|]. constructor.
  Qed.
  Lemma doubling_repr : repr X E (doubling n) apart [] TAny (next_slice 0) (unfolded n).
  Proof.
    apply rp_shape; [reflexivity|reflexivity|]. apply sh_iface; [reflexivity|]. apply in_iface; [reflexivity|]. apply doubling_inner; [reflexivity|intros a []].
  Qed.
End Doubling.
Lemma any_encodable X E : encodable X E TAny.
Proof. eapply (compile_encodable X E 9 _ _). vm_compute. reflexivity. Qed.
Theorem C80_exponential : forall X E ord n, fair_order ord -> (forall o o', cell_at X o 0 = cell_at X o' 0 -> o = o') ->
  (exists b, Marshals X E (doubling n) ord TAny (next_slice 0) b) /\
  (forall b, Marshals X E (doubling n) ord TAny (next_slice 0) b -> 2 ^ Z.of_nat n <= blen b).
Proof.
  intros X E ord n Ho Hinj. pose proof (doubling_repr X E n Hinj) as R. split.
  - exact (marshal_apart X E (doubling n) ord Ho TAny _ _ (any_encodable X E) R).
  - intros b Q. destruct (marshal_represents X E (doubling n) ord Ho st0 _ _ b Q) as (p & R' & ->).
    rewrite <- (psame_length _ (unfolded n) p (le_n _) (proj1 (repr_det X E (doubling n) apart anything) _ _ _ _ R _ _ R')). apply unfolded_long.
Qed.
Print Assumptions C80_exponential.
(** So no factor bounds the output by the memory. *)
Definition cells_in (H : heap) : Z := fold_right (fun o n => match o with Cells l => blen l | MapObj m => 2 * blen m end + n) 0 H.
Lemma doubling_size n : cells_in (doubling n) = 2 * Z.of_nat n + 2.
Proof.
  unfold doubling. generalize 0%nat. induction n as [|n IH]; intros i; [reflexivity|]. cbn [seq map app cells_in fold_right].
  fold (cells_in (map (fun j => Cells [next_slice (S j); next_slice (S j)]) (seq (S i) n) ++ [Cells [HIface None; HIface None]])).
  rewrite IH. change (blen [next_slice (S i); next_slice (S i)]) with 2. lia.
Qed.
Theorem C80_linear_refuted : forall X E ord K, fair_order ord -> (forall o o', cell_at X o 0 = cell_at X o' 0 -> o = o') ->
  exists H v b, Marshals X E H ord TAny v b /\ K * cells_in H < blen b.
Proof.
  intros X E ord K Ho Hinj. remember (Z.to_nat (Z.abs K)) as k eqn:Ek. destruct (C80_exponential X E ord (2 * k + 8) Ho Hinj) as [(b & Q) L].
  exists (doubling (2 * k + 8)), (next_slice 0), b. split; [exact Q|]. specialize (L b Q). rewrite doubling_size.
  assert (K <= Z.of_nat k) as HK by (subst k; rewrite Z2Nat.id by apply Z.abs_nonneg; lia). assert (Z.of_nat k < 2 ^ Z.of_nat k) as P by (apply Z.pow_gt_lin_r; lia).
  replace (Z.of_nat (2 * k + 8)) with (Z.of_nat k + Z.of_nat k + 8) in * by lia. rewrite !Z.pow_add_r in L by lia. change (2 ^ 8) with 256 in L.
  assert (0 <= Z.of_nat k) as Hz by lia. set (z := Z.of_nat k) in *. set (w := 2 ^ z) in *. clearbody w z.
  assert (K * (2 * (z + z + 8) + 2) <= z * (2 * (z + z + 8) + 2)) by (apply Z.mul_le_mono_nonneg_r; lia).
  assert (z * z <= w * w) by (apply Z.mul_le_mono_nonneg; lia). assert (z + 1 <= w * w) by nia. lia.
Qed.
Print Assumptions C80_linear_refuted.
Example C80_example_places : forall o o', cell_at Xd o 0 = cell_at Xd o' 0 -> o = o'.
Proof. intros o o' Q. change (4096 * Z.of_nat o + 0 = 4096 * Z.of_nat o' + 0) in Q. lia. Qed.
