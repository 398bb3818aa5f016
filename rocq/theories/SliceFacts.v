From Coq Require Import Strings.String Strings.Byte ZArith List Bool Lia.
From Verif Require Import Base GoTypes Scan Decode Unmarshal Grammar Alias AliasFacts ShareFacts Slices NumFacts ScanFacts.
Import ListNotations.
Open Scope Z_scope.

Lemma nth_error_firstn {A} (l : list A) : forall n k, nth_error (firstn n l) k = if (k <? n)%nat then nth_error l k else None.
Proof.
  induction l as [|x l IH]; intros n k; destruct n as [|n]; cbn [firstn].
  - destruct k; reflexivity.
  - destruct (k <? S n)%nat; destruct k; reflexivity.
  - destruct k; reflexivity.
  - destruct k as [|k]; cbn [nth_error]; [reflexivity|]. rewrite IH. reflexivity.
Qed.
Lemma nth_error_skipn {A} (l : list A) : forall n k, nth_error (skipn n l) k = nth_error l (n + k).
Proof. induction l as [|x l IH]; intros [|n] k; cbn; auto. destruct k; reflexivity. Qed.
Lemma nth_error_ext' {A} (l l' : list A) : (forall k, nth_error l k = nth_error l' k) -> l = l'.
Proof.
  revert l'. induction l as [|x l IH]; intros [|y l'] H; [reflexivity|specialize (H 0%nat); discriminate H..|].
  pose proof (H 0%nat) as H0. injection H0 as ->. f_equal. apply IH. intros k. exact (H (S k)).
Qed.

Lemma contents_ext l l' w : 0 <= w_start w -> 0 <= w_len w ->
  (forall q, w_start w <= Z.of_nat q < w_end w -> nth_error l q = nth_error l' q) -> contents l w = contents l' w.
Proof.
  intros A B H. unfold contents. apply nth_error_ext'. intros k. rewrite !nth_error_firstn.
  destruct (k <? Z.to_nat (w_len w))%nat eqn:L; [|reflexivity]. apply Nat.ltb_lt in L. rewrite !nth_error_skipn. apply H. unfold w_end. lia.
Qed.

Lemma poke_out l p b q : 0 <= p -> p + blen b <= blen l -> (Z.of_nat q < p \/ p + blen b <= Z.of_nat q) ->
  nth_error (poke l p b) q = nth_error l q.
Proof.
  intros A B C. unfold poke, blen in *.
  assert (length (firstn (Z.to_nat p) l) = Z.to_nat p) as F by (rewrite firstn_length; lia).
  destruct C as [C|C].
  - rewrite nth_error_app1 by lia. rewrite nth_error_firstn. destruct (q <? Z.to_nat p)%nat eqn:L; [reflexivity|]. apply Nat.ltb_ge in L. lia.
  - rewrite nth_error_app2 by lia. rewrite nth_error_app2 by lia. rewrite nth_error_skipn. f_equal. lia.
Qed.
Lemma poke_len l p b : 0 <= p -> p + blen b <= blen l -> length (poke l p b) = length l.
Proof. intros A B. unfold poke, blen in *. rewrite !app_length, firstn_length, skipn_length. lia. Qed.

Lemma update_nth {A} (l : list A) o x k d : nth k (update l o x) d = if (Nat.eqb k o && (o <? length l)%nat)%bool then x else nth k l d.
Proof.
  revert o k. induction l as [|y l IH]; intros [|o] [|k]; cbn [update nth length]; try reflexivity.
  - rewrite andb_false_r. reflexivity.
  - rewrite IH. reflexivity.
Qed.
Lemma update_len {A} (l : list A) : forall o x, length (update l o x) = length l.
Proof. induction l as [|y l IH]; intros [|o] x; cbn; auto. Qed.

(** What a use of [s] can have changed. *)
Lemma mutates_frame M s n M' s' : in_memory M s -> mutates M s n M' s' ->
  (length M <= length M')%nat /\
  (forall k, (k < length M)%nat -> k <> s_array s -> nth k M' [] = nth k M []) /\
  length (nth (s_array s) M' []) = length (nth (s_array s) M []) /\
  (forall q, (Z.of_nat q < s_start s \/ s_start s + s_len s + Z.of_nat n <= Z.of_nat q) ->
     nth_error (nth (s_array s) M' []) q = nth_error (nth (s_array s) M []) q) /\
  (s_array s' = s_array s /\ s_start s' = s_start s /\ s_cap s' = s_cap s /\ 0 <= s_len s' <= s_cap s' /\ s_len s' = s_len s + Z.of_nat n
   \/ (length M <= s_array s')%nat).
Proof.
  intros (I1 & I2 & I3 & I4) H. induction H as [|n M1 s1 M2 H IH W|n M1 s1 b M2 s2 H IH W].
  - repeat (split; [first [reflexivity | auto | lia]|]). left. repeat split; lia.
  - destruct IH as (L & O & Ln & Fr & Sh). destruct W as [i b Hi]. unfold store_array, array_of in *.
    rewrite update_len. split; [exact L|].
    destruct Sh as [(A & St & Cp & Ls & Le)|A].
    + rewrite A in *. split; [|split; [|split]].
      * intros k Hk Nk. rewrite update_nth. replace (Nat.eqb k (s_array s)) with false by (symmetry; apply Nat.eqb_neq; exact Nk). apply O; auto.
      * rewrite update_nth, Nat.eqb_refl. replace (_ <? _)%nat with true by (symmetry; apply Nat.ltb_lt; lia). cbn [andb].
        rewrite poke_len; [exact Ln| lia |]. unfold blen in *. cbn [length]. rewrite Ln. lia.
      * intros q Hq. rewrite update_nth, Nat.eqb_refl. replace (_ <? _)%nat with true by (symmetry; apply Nat.ltb_lt; lia). cbn [andb].
        rewrite poke_out; [apply Fr; exact Hq|lia|unfold blen in *; cbn [length]; rewrite Ln; lia|]. unfold blen. cbn [length]. lia.
      * left. repeat split; lia.
    + split; [|split; [|split]].
      * intros k Hk Nk. rewrite update_nth. replace (Nat.eqb k (s_array s1)) with false by (symmetry; apply Nat.eqb_neq; lia). apply O; auto.
      * rewrite update_nth. replace (Nat.eqb _ (s_array s1)) with false by (symmetry; apply Nat.eqb_neq; lia). exact Ln.
      * intros q Hq. rewrite update_nth. replace (Nat.eqb _ (s_array s1)) with false by (symmetry; apply Nat.eqb_neq; lia). apply Fr; exact Hq.
      * right. exact A.
  - destruct IH as (L & O & Ln & Fr & Sh). rewrite Nat2Z.inj_add. pose proof (blen_nonneg b) as Bn. assert (blen b = Z.of_nat (length b)) as Bl by reflexivity. unfold store_array, array_of in *.
    destruct W as [C|spare C]; unfold store_array, array_of in *; cbn [s_array s_start s_len s_cap].
    + rewrite update_len. split; [exact L|].
      destruct Sh as [(A & St & Cp & Ls & Le)|A].
      * rewrite A in *. split; [|split; [|split]].
        -- intros k Hk Nk. rewrite update_nth. replace (Nat.eqb k (s_array s)) with false by (symmetry; apply Nat.eqb_neq; exact Nk). apply O; auto.
        -- rewrite update_nth, Nat.eqb_refl. replace (_ <? _)%nat with true by (symmetry; apply Nat.ltb_lt; lia). cbn [andb].
           rewrite poke_len; [exact Ln| lia |]. unfold blen in *. rewrite Ln. lia.
        -- intros q Hq. rewrite update_nth, Nat.eqb_refl. replace (_ <? _)%nat with true by (symmetry; apply Nat.ltb_lt; lia). cbn [andb].
           rewrite poke_out; [apply Fr; lia|lia|unfold blen in *; rewrite Ln; lia|]. lia.
        -- left. repeat split; lia.
      * split; [|split; [|split]].
        -- intros k Hk Nk. rewrite update_nth. replace (Nat.eqb k (s_array s1)) with false by (symmetry; apply Nat.eqb_neq; lia). apply O; auto.
        -- rewrite update_nth. replace (Nat.eqb _ (s_array s1)) with false by (symmetry; apply Nat.eqb_neq; lia). exact Ln.
        -- intros q Hq. rewrite update_nth. replace (Nat.eqb _ (s_array s1)) with false by (symmetry; apply Nat.eqb_neq; lia). apply Fr; lia.
        -- right. exact A.
    + rewrite app_length. split; [cbn [length]; lia|]. split; [|split; [|split]].
      * intros k Hk Nk. rewrite app_nth1 by lia. apply O; auto.
      * rewrite app_nth1 by lia. exact Ln.
      * intros q Hq. rewrite app_nth1 by lia. apply Fr. lia.
      * right. exact L.
Qed.

(** ** Positions in the list of what was handed out *)
Lemma ordered_nth gs : forall lo hi i g, ordered lo gs hi -> nth_error gs i = Some g ->
  lo <= w_start (granted g) /\ 0 <= w_len (granted g) /\ w_end (granted g) + gap g <= hi.
Proof.
  induction gs as [|g0 gs IH]; intros lo hi i g H Q; [destruct i; discriminate Q|]. destruct H as (A & B & C).
  destruct i as [|i]; cbn in Q.
  - injection Q as ->. apply ordered_le in C. auto.
  - destruct (IH _ _ _ _ C Q) as (A' & B' & C'). repeat split; auto. unfold w_end in *. destruct g0; cbn [gap] in *; lia.
Qed.
Lemma ordered_pair gs : forall lo hi i j g h, ordered lo gs hi -> (i < j)%nat -> nth_error gs i = Some g -> nth_error gs j = Some h ->
  w_end (granted g) + gap g <= w_start (granted h).
Proof.
  induction gs as [|g0 gs IH]; intros lo hi i j g h H L Qi Qj; [destruct i; discriminate Qi|]. destruct H as (A & B & C).
  destruct i as [|i]; cbn in Qi; (destruct j as [|j]; [lia|]); cbn in Qj.
  - injection Qi as ->. destruct (ordered_nth _ _ _ _ _ C Qj) as (A' & _). exact A'.
  - apply (IH _ _ i j g h C); [lia|exact Qi|exact Qj].
Qed.
Lemma stored_in w gs : In w (stored gs) -> exists i, nth_error gs i = Some (GStored w).
Proof.
  unfold stored. intros H. apply in_flat_map in H as (g & Hg & Hw). destruct g as [w'|w']; cbn in Hw; [|tauto]. destruct Hw as [->|[]].
  apply In_nth_error in Hg. exact Hg.
Qed.
Lemma stored_nodup gs : forall lo hi, ordered lo gs hi -> NoDup (stored gs).
Proof.
  induction gs as [|g gs IH]; intros lo hi H; [constructor|]. destruct H as (A & B & C). destruct g as [w|w]; cbn [stored flat_map app]; [|eapply IH; eauto].
  constructor; [|eapply IH; eauto]. intros I. apply stored_in in I as [i Q]. destruct (ordered_nth _ _ _ _ _ C Q) as (A' & B' & _).
  cbn [granted gap] in *. unfold w_end in *. lia.
Qed.

Lemma bag_nodup l B : within_bag l B -> NoDup B -> NoDup l /\ incl l B.
Proof.
  intros W N. split.
  - apply (NoDup_count_occ view_dec). intros x. specialize (W x). apply (proj1 (NoDup_count_occ view_dec B)) with (x := x) in N. unfold cnt in W. lia.
  - intros x I. apply (count_occ_In view_dec). apply (count_occ_In view_dec) in I. specialize (W x). unfold cnt in W. lia.
Qed.

(** ** Unmarshal *)
Lemma a_unmarshal_good X E cfuel M data t v M' a r w : small (slice_read M data) -> a_unmarshal X E cfuel M data t v = (M', a, r, w) ->
  let src := slice_read M data in
  (M' = M /\ views a = [] /\ w = [] \/ M' = M ++ [src] /\ ordered 0 w (blen src) /\ within_bag (views a) (stored w)) /\
  unmarshal X E cfuel src (TgPtr t v) = (seen src a, r).
Proof.
  intros Hsm Q src. unfold a_unmarshal in Q. fold src in Q, Hsm. unfold unmarshal. destruct src as [|b s] eqn:S.
  { injection Q as <- <- <- <-. cbn. auto. }
  rewrite <- S in *. destruct (compile_f X E cfuel [] t) as [u|e|p|].
  - pose proof (a_decode_f_seen X E src (decode_fuel src) t 0 0 (ALeaf v)) as F.
    pose proof (a_decode_f_good X E src Hsm (decode_fuel src) t 0 0 (ALeaf v)) as G.
    assert (0 <= 0 < blen src) as L by (rewrite S, blen_cons; pose proof (blen_nonneg s); lia). specialize (G L).
    unfold a_decode in Q. unfold decode. cbn [seen] in F. rewrite <- F.
    destruct (a_decode_f _ _ _ _ _ _ _ _) as [[a' o] w']. injection Q as <- <- <- <-. cbn [forget]. split; [|reflexivity].
    right. split; [reflexivity|]. destruct G as [G V]. cbn [views app] in V. split; [|exact V].
    destruct o; [destruct G as [G1 G2]; eapply ordered_weaken; [exact G2|lia|exact G1]|exact G..].
  - injection Q as <- <- <- <-. split; [|reflexivity]. right. split; [reflexivity|]. split; [cbn; apply blen_nonneg|intros x; cbn; lia].
  - injection Q as <- <- <- <-. split; [|reflexivity]. right. split; [reflexivity|]. split; [cbn; apply blen_nonneg|intros x; cbn; lia].
  - injection Q as <- <- <- <-. split; [|reflexivity]. right. split; [reflexivity|]. split; [cbn; apply blen_nonneg|intros x; cbn; lia].
Qed.

Lemma apart_unchanged M src w1 w2 n M2 s2 : 0 <= w_start w1 -> 0 <= w_len w1 -> w_end w1 <= blen src -> 0 <= w_start w2 -> 0 <= w_len w2 ->
  w_end w1 + Z.of_nat n <= w_start w2 \/ w_end w2 <= w_start w1 ->
  mutates (M ++ [src]) (slice_of (length M) src w1) n M2 s2 ->
  slice_read M2 (slice_of (length M) src w2) = slice_read (M ++ [src]) (slice_of (length M) src w2).
Proof.
  intros A1 B1 C1 A2 B2 D H. unfold w_end in *.
  assert (nth (length M) (M ++ [src]) [] = src) as Hn by (rewrite app_nth2, Nat.sub_diag by lia; reflexivity).
  apply mutates_frame in H.
  2:{ unfold in_memory, array_of. cbn [slice_of s_array s_start s_len s_cap]. rewrite app_length, Hn. cbn [length]. lia. }
  destruct H as (_ & _ & Ln & Fr & _). cbn [slice_of s_array s_start s_len] in *. unfold slice_read, array_of. cbn [slice_of s_array s_start s_len].
  apply contents_ext; cbn [w_start w_len]; auto. unfold w_end. cbn [w_start w_len]. intros q Hq. apply Fr. lia.
Qed.
