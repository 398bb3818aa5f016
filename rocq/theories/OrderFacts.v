(** Every PHP value that a Go value represents is what Marshal writes for some
    order of the map iterations. *)
From Coq Require Import Strings.String Strings.Byte ZArith List Bool Lia Floats.SpecFloat Permutation.
From Verif Require Import Base GoTypes Strconv Tags Grammar Denote Memory EncCompile Encode Php Repr EncCompileFacts EncTerm NumEnc EncFacts EncSound EncComplete.
Import ListNotations.
Open Scope Z_scope.

Definition order : Type := list (hval * hval) -> list (hval * hval).
Definition fair1 (o : order) : Prop := forall m, Permutation m (o m).

(** A rearrangement of one list is done by a function that rearranges all. *)
Lemma order_exists (m l : list (hval * hval)) : Permutation m l -> exists o : order, fair1 o /\ o m = l.
Proof.
  induction 1 as [|x m l Hp (o & Ho & Hm)|x y m|m l k H1 (o1 & Ho1 & Hm1) H2 (o2 & Ho2 & Hm2)].
  - exists (fun m => m). split; [intros m; reflexivity|reflexivity].
  - exists (fun m => match m with [] => [] | y :: r => y :: o r end). split.
    + intros [|y r]; [constructor|]. apply perm_skip, Ho.
    + rewrite Hm. reflexivity.
  - exists (fun m => match m with y :: x :: r => x :: y :: r | r => r end). split; [|reflexivity].
    intros [|a [|b r]]; [reflexivity|reflexivity|]. apply perm_swap.
  - exists (fun m => o2 (o1 m)). split; [|rewrite Hm1; exact Hm2].
    intros r. eapply Permutation_trans; [apply Ho1|apply Ho2].
Qed.

(** The iterations from number [it] on are done in the orders listed. *)
Definition follows (ord : nat -> order) (it : nat) (os : list order) : Prop :=
  forall j o, nth_error os j = Some o -> ord (it + j)%nat = o.
Lemma follows_app ord it os1 os2 : follows ord it (os1 ++ os2) ->
  follows ord it os1 /\ follows ord (it + length os1) os2.
Proof.
  intros Hf. split; intros j o Hj.
  - apply Hf. rewrite nth_error_app1; [exact Hj|]. apply nth_error_Some. congruence.
  - replace (it + length os1 + j)%nat with (it + (length os1 + j))%nat by lia. apply Hf.
    rewrite nth_error_app2 by lia. replace (length os1 + j - length os1)%nat with j by lia. exact Hj.
Qed.
Lemma follows_cons ord it o os : follows ord it (o :: os) -> ord it = o /\ follows ord (S it) os.
Proof.
  intros Hf. destruct (follows_app ord it [o] os Hf) as [H1 H2]. split.
  - rewrite <- (H1 0%nat o eq_refl). f_equal. lia.
  - cbn [length] in H2. replace (S it) with (it + 1)%nat by lia. exact H2.
Qed.

(** [reach P s a]: with the right orders, [P] comes to [a]. *)
Definition reach {A} (P : (nat -> order) -> nat -> M A) (s : tracked) (a : A) : Prop :=
  forall it, exists os, Forall fair1 os /\
    forall ord, follows ord it os -> exists f, P ord f (at_ s it) = (at_ s (it + length os), ROk a).

Lemma reach_S {A} (P : (nat -> order) -> nat -> M A) s a : reach (fun ord f => P ord (S f)) s a -> reach P s a.
Proof.
  intros Hr it. destruct (Hr it) as (os & Ho & Q). exists os. split; [exact Ho|].
  intros ord Hf. destruct (Q ord Hf) as (f & Qf). exists (S f). exact Qf.
Qed.
Lemma reach_same {A} (P Q : (nat -> order) -> nat -> M A) s a :
  (forall ord f, Q ord f = P ord f) -> reach P s a -> reach Q s a.
Proof.
  intros Hs Hr it. destruct (Hr it) as (os & Ho & R). exists os. split; [exact Ho|].
  intros ord Hf. destruct (R ord Hf) as (f & Rf). exists f. rewrite Hs. exact Rf.
Qed.
Lemma reach_pure {A} (P : (nat -> order) -> nat -> M A) s a :
  (exists f, forall ord s', P ord f s' = (s', ROk a)) -> reach P s a.
Proof.
  intros (f & Hp) it. exists []. split; [constructor|]. intros ord _. exists f. rewrite Hp. cbn [length]. f_equal. f_equal. lia.
Qed.
Lemma reach_bind {A B} (P : (nat -> order) -> nat -> M A) (Q : (nat -> order) -> nat -> A -> M B) s a b :
  (forall ord f f', (f <= f')%nat -> mle (P ord f) (P ord f')) ->
  (forall ord f f', (f <= f')%nat -> mle (Q ord f a) (Q ord f' a)) ->
  reach P s a -> reach (fun ord f => Q ord f a) s b ->
  reach (fun ord f => bindM (P ord f) (Q ord f)) s b.
Proof.
  intros MP MQ HP HQ it. destruct (HP it) as (os1 & Ho1 & R1). destruct (HQ (it + length os1)%nat) as (os2 & Ho2 & R2).
  exists (os1 ++ os2). split; [apply Forall_app; split; assumption|].
  intros ord Hf. destruct (follows_app _ _ _ _ Hf) as [F1 F2]. destruct (R1 ord F1) as (f1 & Q1). destruct (R2 ord F2) as (f2 & Q2).
  exists (Nat.max f1 f2). unfold bindM. rewrite (succeeds_mle _ _ _ _ _ (MP ord f1 (Nat.max f1 f2) (Nat.le_max_l _ _)) Q1).
  rewrite (succeeds_mle _ _ _ _ _ (MQ ord f2 (Nat.max f1 f2) (Nat.le_max_r _ _)) Q2).
  rewrite app_length, Nat.add_assoc. reflexivity.
Qed.
Lemma reach_then {A B} (P : (nat -> order) -> nat -> M A) (k : A -> B) s a :
  reach P s a -> reach (fun ord f => x <== P ord f ;; ret (k x)) s (k a).
Proof.
  intros HP it. destruct (HP it) as (os & Ho & R). exists os. split; [exact Ho|].
  intros ord Hf. destruct (R ord Hf) as (f & Q). exists f. unfold bindM. rewrite Q. reflexivity.
Qed.
Lemma drop_new a l : ~ In a l -> drop a (a :: l) = l.
Proof. intros Hn. apply drop_add, has_out, Hn. Qed.
Lemma reach_rec t a (P : (nat -> order) -> nat -> M bytes) s s' b : code_enter s false a s' ->
  reach P s' b -> reach (fun ord f => check_rec t a (P ord f)) s b.
Proof.
  intros Hen Hr it. destruct (Hr it) as (os & Ho & R). exists os. split; [exact Ho|].
  intros ord Hf. destruct (R ord Hf) as (f & Q). exists f. unfold check_rec, at_, code_enter in *. cbn [seen depth iters].
  destruct (1000 <? snd s + 1).
  - destruct Hen as [Hn ->]. rewrite (proj2 (has_out _ _) Hn). cbn [fst snd] in Q. rewrite Q. cbn [seen depth iters].
    rewrite drop_new by exact Hn. do 2 f_equal. lia.
  - subst s'. cbn [fst snd] in Q. rewrite Q. cbn [seen depth iters]. do 2 f_equal. lia.
Qed.
Lemma reach_seen t a (P : (nat -> order) -> nat -> M bytes) s s' b : code_enter s true a s' ->
  reach P s' b -> reach (fun ord f => check_seen t a (P ord f)) s b.
Proof.
  intros Hen Hr it. destruct (Hr it) as (os & Ho & R). exists os. split; [exact Ho|].
  intros ord Hf. destruct (R ord Hf) as (f & Q). exists f. unfold check_seen, at_, code_enter in *. cbn [seen depth iters].
  destruct Hen as [Hn ->]. rewrite (proj2 (has_out _ _) Hn). cbn [fst snd] in Q. rewrite Q. cbn [seen depth iters].
  rewrite drop_new by exact Hn. reflexivity.
Qed.

Definition text (ps : list (php * php)) : bytes := flat_map (fun e => serialize (fst e) ++ serialize (snd e)) ps.

Section Reach.
  Context (X : Ext) (E : env) (H : heap).

  Lemma scalar_exact k v p : scalar_repr X k v p -> forall s, enc_scalar X k v s = (s, ROk (serialize p)).
  Proof.
    intros Hs. inversion Hs as [b|k' z Hr|k' z Hk Hr|f|f|s]; subst; cbn [enc_scalar]; intros s0.
    - rewrite out_bool_eq. reflexivity.
    - apply int_ok_range in Hr. rewrite Hr, out_int_eq. reflexivity.
    - pose proof Hr as Hr'. apply uint_ok_range in Hr. destruct Hr' as [Hz _].
      rewrite <- out_uint_eq by exact Hz. destruct k'; try congruence; rewrite Hr; reflexivity.
    - rewrite out_float_eq. reflexivity.
    - rewrite out_float_eq. reflexivity.
    - rewrite out_string_eq. reflexivity.
  Qed.
  Lemma key_exact k v p : key_repr X k v p -> forall s, enc_key X k v s = (s, ROk (serialize p)).
  Proof. intros [Hk Hs]. unfold enc_key. rewrite key_kind_eq, Hk. exact (scalar_exact _ _ _ Hs). Qed.
  Lemma iface_str_exact t v p : quoted_any X E H t v p -> exists f, forall s, enc_iface_str X E H f t v s = (s, ROk (serialize p)).
  Proof.
    induction 1 as [t t' Hk|t t' o i c p Hk Hc Hq (f & IH)|t Hk|t t' v p Hk Hq (f & IH)|b|k z Hr|k z Hk Hr|f|f].
    - exists 1%nat. cbn [enc_iface_str]. rewrite Hk. reflexivity.
    - exists (S f). cbn [enc_iface_str]. rewrite Hk, Hc. exact IH.
    - exists 1%nat. cbn [enc_iface_str]. destruct (kind_of E t); try discriminate; reflexivity.
    - exists (S f). cbn [enc_iface_str]. destruct (kind_of E t); try discriminate; exact IH.
    - exists 1%nat. intros s. cbn [enc_iface_str kind_of kind0]. rewrite out_bool_str_eq. reflexivity.
    - exists 1%nat. intros s. cbn [enc_iface_str kind_of kind0]. rewrite <- (out_int_str_eq k) by exact Hr. apply int_ok_range in Hr. rewrite Hr. reflexivity.
    - exists 1%nat. intros s. rewrite <- (out_uint_str_eq k) by exact Hr. cbn [enc_iface_str kind_of kind0]. apply uint_ok_range in Hr. destruct k; try congruence; rewrite Hr; reflexivity.
    - exists 1%nat. intros s. cbn [enc_iface_str kind_of kind0]. rewrite out_float_str_eq. reflexivity.
    - exists 1%nat. intros s. cbn [enc_iface_str kind_of kind0]. rewrite out_float_str_eq. reflexivity.
  Qed.
  Lemma as_string_exact t v p : quoted_repr X E H t v p -> exists f, forall s, enc_as_string X E H f t v s = (s, ROk (serialize p)).
  Proof.
    intros Hq. inversion Hq as [b Hk|k z Hk Hr|k z Hk Hr|f Hk|f Hk|s Hk|v' p' Hk Hqa]; subst; unfold enc_as_string.
    - rewrite Hk. exists 0%nat. rewrite out_bool_str_eq. reflexivity.
    - rewrite Hk. exists 0%nat. rewrite <- (out_int_str_eq k) by exact Hr. apply int_ok_range in Hr. rewrite Hr. reflexivity.
    - rewrite Hk. exists 0%nat. rewrite <- (out_uint_str_eq k) by exact Hr. apply uint_ok_range in Hr. rewrite Hr. reflexivity.
    - rewrite Hk. exists 0%nat. rewrite out_float_str_eq. reflexivity.
    - rewrite Hk. exists 0%nat. rewrite out_float_str_eq. reflexivity.
    - rewrite Hk. exists 0%nat. rewrite out_string_eq. reflexivity.
    - destruct (iface_str_exact _ _ _ Hqa) as (f & Hf). exists f. intros s. rewrite <- (Hf s). destruct (kind_of E t); try discriminate; reflexivity.
  Qed.

  Definition R (m : mode) (s : tracked) (t : gty) (v : hval) (p : php) : Prop :=
    reach (fun ord f => enc_f X E H ord f m t v) s (serialize p).
  Definition Relems (s : tracked) (b : bool) (t : gty) (i : Z) (l : list hval) (ps : list (php * php)) : Prop :=
    length ps = length l /\ reach (fun ord f => enc_elems (enc_f X E H ord f (emode_of b) t) i l) s (text ps).
  Definition Rpairs (s : tracked) (b : bool) (k : kind) (t : gty) (l : list (hval * hval)) (ps : list (php * php)) : Prop :=
    length ps = length l /\ reach (fun ord f => enc_pairs X k (enc_f X E H ord f (emode_of b) t) l) s (text ps).
  Definition Rfields (s : tracked) (fs : list field) (l : list hval) (ps : list (php * php)) : Prop :=
    reach (fun ord f => enc_fields X E H f (enc_f X E H ord f MType) fs l) s (blen ps, text ps).
  Definition Rfield (s : tracked) (g : field) (v : hval) (p : php) : Prop :=
    reach (fun ord f => enc_field X E H f (enc_f X E H ord f MType) g v) s (serialize p).

  Lemma reach_seq b t l s ps : Relems s b t 0 l ps ->
    reach (fun ord f => enc_seq (enc_f X E H ord f (emode_of b) t) l) s (serialize (PArr ps)).
  Proof.
    intros [Hl Hr]. rewrite <- (array_text l ps Hl).
    exact (reach_then _ (fun b => out_array_begin (blen l) ++ b ++ bs "}") _ _ Hr).
  Qed.
  Lemma reach_map b k t m l s ps : Permutation m l -> Rpairs s b k t l ps ->
    reach (fun ord f => enc_map X ord k (enc_f X E H ord f (emode_of b) t) m) s (serialize (PArr ps)).
  Proof.
    intros Hp [Hl Hr] it. destruct (order_exists m l Hp) as (o & Ho & Hm). destruct (Hr (S it)) as (os & Hos & Q).
    exists (o :: os). split; [constructor; assumption|]. intros ord Hf. destruct (follows_cons _ _ _ _ Hf) as [F1 F2].
    destruct (Q ord F2) as (f & Qf). exists f. unfold enc_map, bindM, range. cbn [at_ seen depth iters]. rewrite F1, Hm.
    change (St (fst s) (snd s) (S it)) with (at_ s (S it)). rewrite Qf. unfold ret. cbn [length].
    rewrite <- (array_text m ps) by (rewrite Hl; symmetry; apply Permutation_length, Hp).
    do 2 f_equal. lia.
  Qed.
  Lemma elems_reach b t i v l s p ps : R (emode_of b) s t v p -> Relems s b t (i + 1) l ps ->
    Relems s b t i (v :: l) ((PInt i, p) :: ps).
  Proof.
    intros Hv [Hl Hr]. split; [cbn [length]; congruence|]. cbn [enc_elems].
    apply (reach_bind (fun ord f => enc_f X E H ord f (emode_of b) t v)
      (fun ord f b1 => b' <== enc_elems (enc_f X E H ord f (emode_of b) t) (i + 1) l ;; ret (out_int i ++ b1 ++ b')) s (serialize p)).
    - intros ord f f' Hf. apply enc_mono, Hf.
    - intros ord f f' Hf. apply mle_bind; [apply mle_elems; intros w; apply enc_mono, Hf|]. intros x. apply mle_refl.
    - exact Hv.
    - unfold text. cbn [flat_map fst snd]. rewrite <- out_int_eq, <- app_assoc.
      exact (reach_then _ (fun b' => out_int i ++ serialize p ++ b') _ _ Hr).
  Qed.
  Lemma pairs_reach b k t kv v l s kp p ps : key_repr X k kv kp -> R (emode_of b) s t v p -> Rpairs s b k t l ps ->
    Rpairs s b k t ((kv, v) :: l) ((kp, p) :: ps).
  Proof.
    intros Hk Hv [Hl Hr]. split; [cbn [length]; congruence|]. cbn [enc_pairs].
    apply (reach_bind (fun ord f => enc_key X k kv)
      (fun ord f kb => b1 <== enc_f X E H ord f (emode_of b) t v ;; b' <== enc_pairs X k (enc_f X E H ord f (emode_of b) t) l ;; ret (kb ++ b1 ++ b')) s (serialize kp)).
    - intros ord f f' Hf. apply mle_refl.
    - intros ord f f' Hf. apply mle_bind; [apply enc_mono, Hf|]. intros x. apply mle_bind; [apply mle_pairs; intros w; apply enc_mono, Hf|]. intros y. apply mle_refl.
    - apply reach_pure. exists 0%nat. intros ord s'. apply key_exact, Hk.
    - apply (reach_bind (fun ord f => enc_f X E H ord f (emode_of b) t v)
        (fun ord f b1 => b' <== enc_pairs X k (enc_f X E H ord f (emode_of b) t) l ;; ret (serialize kp ++ b1 ++ b')) s (serialize p)).
      + intros ord f f' Hf. apply enc_mono, Hf.
      + intros ord f f' Hf. apply mle_bind; [apply mle_pairs; intros w; apply enc_mono, Hf|]. intros x. apply mle_refl.
      + exact Hv.
      + unfold text. cbn [flat_map fst snd]. rewrite <- app_assoc.
        exact (reach_then _ (fun b' => serialize kp ++ serialize p ++ b') _ _ Hr).
  Qed.
  Lemma reach_compiled t (P : (nat -> order) -> nat -> M bytes) s b : encodable X E t ->
    (forall ord f f', (f <= f')%nat -> mle (P ord f) (P ord f')) -> reach P s b ->
    reach (fun ord f => _ <== compile_now X E f t ;; P ord f) s b.
  Proof.
    intros He Hm Hr. apply (reach_bind (fun ord f => compile_now X E f t) (fun ord f _ => P ord f) s tt).
    - intros ord f f' Hf. apply mle_compile, Hf.
    - exact Hm.
    - apply reach_pure. destruct (compile_now_complete X E t He) as (f & Hf). exists f. intros _. exact Hf.
    - exact Hr.
  Qed.

  Theorem enc_reaches :
    (forall s t v p, repr X E H code_enter s t v p -> R MType s t v p) /\
    (forall s t v p, shape X E H code_enter s t v p -> R MShape s t v p) /\
    (forall s t v p, inner X E H code_enter s t v p -> R MIface s t v p) /\
    (forall s b t i l ps, elems X E H code_enter s b t i l ps -> Relems s b t i l ps) /\
    (forall s b k t l ps, pairs X E H code_enter s b k t l ps -> Rpairs s b k t l ps) /\
    (forall s fs l ps, fields X E H code_enter s fs l ps -> Rfields s fs l ps) /\
    (forall s g v p, field_val X E H code_enter s g v p -> Rfield s g v p).
  Proof.
    apply repr_ind7.
    - (* rp_marshaler *)
      intros s t v b Him Hs. apply reach_pure. exists 1%nat. intros ord s'. cbn [enc_f]. rewrite implements_eq, Him. unfold lift. rewrite (says_complete _ _ _ _ _ _ Hs). reflexivity.
    - intros s t v b Him Hby Hb. apply reach_pure. exists 1%nat. intros ord s'. cbn [enc_f]. rewrite implements_eq, is_bytes_eq, Him, Hby, Hb, out_string_eq. reflexivity.
    - intros s t v p Him Hby _ IH. apply reach_S. refine (reach_same _ _ _ _ _ IH). intros ord f. cbn [enc_f]. rewrite implements_eq, is_bytes_eq, Him, Hby. reflexivity.
    - (* sh_scalar *)
      intros s t v p Hs. apply reach_pure. exists 1%nat. intros ord s'. pose proof (scalar_kind_ok _ _ _ _ Hs) as Hk. rewrite <- (scalar_exact _ _ _ Hs s').
      cbn [enc_f]. clear Hs. destruct (kind_of E t); try discriminate Hk; try rewrite Hk; reflexivity.
    - intros s t id fs l ps Hk _ IH. apply reach_S. rewrite <- (array_text ps ps eq_refl).
      refine (reach_same _ _ _ _ _ (reach_then _ (fun r => out_array_begin (fst r) ++ snd r ++ bs "}") _ _ IH)). intros ord f. cbn [enc_f]. rewrite Hk. reflexivity.
    - intros s t n t' l ps Hk Hl _ IH. apply reach_S. refine (reach_same _ _ _ _ _ (reach_seq _ _ _ _ _ IH)). intros ord f. cbn [enc_f]. rewrite Hk.
      rewrite (proj2 (Nat.eqb_eq _ _) Hl). reflexivity.
    - intros s t t' Hk. apply reach_pure. exists 1%nat. intros ord s'. cbn [enc_f]. rewrite Hk. reflexivity.
    - intros s s' t t' o i n l ps Hk Hc Hen _ IH. apply reach_S. refine (reach_same _ _ _ _ _ (reach_rec t _ _ _ _ _ Hen (reach_seq _ _ _ _ _ IH))).
      intros ord f. cbn [enc_f]. rewrite Hk, Hc. reflexivity.
    - intros s t k t' Hk. apply reach_pure. exists 1%nat. intros ord s'. cbn [enc_f]. rewrite Hk. reflexivity.
    - intros s s' t k t' o m l ps Hk Hc Hp Hen _ IH. apply reach_S. refine (reach_same _ _ _ _ _ (reach_rec t _ _ _ _ _ Hen (reach_map _ _ _ _ _ _ _ Hp IH))).
      intros ord f. cbn [enc_f]. rewrite Hk, Hc. reflexivity.
    - intros s t v p Hk _ IH. apply reach_S. refine (reach_same _ _ _ _ _ IH). intros ord f. cbn [enc_f]. destruct (kind_of E t); try discriminate; reflexivity.
    - intros s t t' v p Hk Hk' _ IH. apply reach_S. refine (reach_same _ _ _ _ _ IH). intros ord f. cbn [enc_f]. rewrite Hk, Hk'. reflexivity.
    - intros s t t' Hk Hk'. apply reach_pure. exists 1%nat. intros ord s'. cbn [enc_f]. rewrite Hk, Hk'. reflexivity.
    - intros s s' t t' o i c p Hk Hsk Hc Hen _ IH. apply reach_S. refine (reach_same _ _ _ _ _ (reach_rec t _ _ _ _ _ Hen IH)). intros ord f. cbn [enc_f]. rewrite Hk, Hc, Hsk.
      assert (iface_kind (kind_of E t') = false) as -> by (destruct (kind_of E t'); try discriminate; reflexivity). reflexivity.
    - intros s t t' o i c p Hk Hsk Hd Hc _ IH. apply reach_S. refine (reach_same _ _ _ _ _ IH). intros ord f. cbn [enc_f]. rewrite Hk, Hc, Hsk.
      assert (iface_kind (kind_of E t') = false) as -> by (destruct (kind_of E t'); try discriminate; reflexivity).
      rewrite by_structure_eq, Hd. reflexivity.
    - intros s t t' o i c p Hk Hd Hi Hc _ IH. apply reach_S. refine (reach_same _ _ _ _ _ IH). intros ord f. cbn [enc_f]. rewrite Hk, Hc, Hi.
      assert (struct_kind (kind_of E t') = false) as -> by (destruct (kind_of E t'); try discriminate; reflexivity).
      rewrite by_structure_eq, Hd. reflexivity.
    - (* inner *)
      intros s t t' Hk. apply reach_pure. exists 1%nat. intros ord s'. cbn [enc_f]. rewrite Hk. reflexivity.
    - intros s t t' o i c p Hk Hc _ IH. apply reach_S. refine (reach_same _ _ _ _ _ IH). intros ord f. cbn [enc_f]. rewrite Hk, Hc. reflexivity.
    - intros s t Hk. apply reach_pure. exists 1%nat. intros ord s'. cbn [enc_f]. destruct (kind_of E t); try discriminate; reflexivity.
    - intros s t t' v p Hk _ IH. apply reach_S. refine (reach_same _ _ _ _ _ IH). intros ord f. cbn [enc_f]. destruct (kind_of E t); try discriminate; reflexivity.
    - intros s t v p Hs. apply reach_pure. exists 1%nat. intros ord s'. pose proof (scalar_kind_ok _ _ _ _ Hs) as Hk. rewrite <- (scalar_exact _ _ _ Hs s').
      cbn [enc_f]. clear Hs. destruct (kind_of E t); try discriminate Hk; try rewrite Hk; reflexivity.
    - intros s t t' Hk Hi. apply reach_pure. exists 1%nat. intros ord s'. cbn [enc_f]. rewrite Hk, Hi. reflexivity.
    - intros s s' t t' o i n l ps Hk Hi Hc Hen _ IH. apply reach_S. refine (reach_same _ _ _ _ _ (reach_seen t _ _ _ _ _ Hen (reach_seq _ _ _ _ _ IH))).
      intros ord f. cbn [enc_f]. rewrite Hk, Hi, Hc. reflexivity.
    - intros s t t' p Hk Hi He _ IH. apply reach_S. refine (reach_same _ _ _ _ _ (reach_compiled t _ _ _ He _ IH)).
      + intros ord f. cbn [enc_f]. rewrite Hk, Hi. reflexivity.
      + intros ord f f' Hf. apply enc_mono, Hf.
    - intros s s' t t' o i n p Hk Hi He Hen _ IH. apply reach_S. refine (reach_same _ _ _ _ _ (reach_seen t _ _ _ _ _ Hen (reach_compiled t _ _ _ He _ IH))).
      + intros ord f. cbn [enc_f]. rewrite Hk, Hi. reflexivity.
      + intros ord f f' Hf. apply enc_mono, Hf.
    - intros s t k t' Hk Hkk. apply reach_pure. exists 1%nat. intros ord s'. cbn [enc_f]. rewrite Hk, key_kind_eq, Hkk. reflexivity.
    - intros s s' t k t' o Hk Hkk Hc Hen. apply reach_S.
      refine (reach_same _ _ _ _ _ (reach_seen t _ (fun _ _ => ret (serialize (PArr []))) _ _ _ Hen _)).
      + intros ord f. cbn [enc_f]. rewrite Hk, key_kind_eq, Hkk, Hc. reflexivity.
      + apply reach_pure. exists 0%nat. reflexivity.
    - intros s s' t k t' o m l ps Hk Hkk Hc Hne Henc Hp Hen _ IH. apply reach_S. destruct m as [|e m]; [congruence|].
      destruct (iface_kind (kind_of E t')) eqn:Hi.
      + refine (reach_same _ _ _ _ _ (reach_seen t _ _ _ _ _ Hen (reach_map _ _ _ _ _ _ _ Hp IH))). intros ord f. cbn [enc_f]. rewrite Hk, key_kind_eq, Hkk, Hc, Hi. reflexivity.
      + destruct Henc as [Q|Henc]; [discriminate|].
        refine (reach_same _ _ _ _ _ (reach_seen t _ _ _ _ _ Hen (reach_compiled t' _ _ _ Henc _ (reach_map _ _ _ _ _ _ _ Hp IH)))).
        * intros ord f. cbn [enc_f]. rewrite Hk, key_kind_eq, Hkk, Hc, Hi. reflexivity.
        * intros ord f f' Hf. apply mle_map. intros w. apply enc_mono, Hf.
    - intros s t id fs v p Hk He _ IH. apply reach_S. refine (reach_same _ _ _ _ _ (reach_compiled t _ _ _ He _ IH)).
      + intros ord f. cbn [enc_f]. rewrite Hk. reflexivity.
      + intros ord f f' Hf. apply enc_mono, Hf.
    - (* elems *)
      intros s b t i. split; [reflexivity|]. apply reach_pure. exists 0%nat. reflexivity.
    - intros s t i v l p ps _ IHv _ IHl. exact (elems_reach false t i v l s p ps IHv IHl).
    - intros s t i v l p ps _ IHv _ IHl. exact (elems_reach true t i v l s p ps IHv IHl).
    - (* pairs *)
      intros s b k t. split; [reflexivity|]. apply reach_pure. exists 0%nat. reflexivity.
    - intros s k t kv v l kp p ps Hs _ IHv _ IHl. exact (pairs_reach false k t kv v l s kp p ps Hs IHv IHl).
    - intros s k t kv v l kp p ps Hs _ IHv _ IHl. exact (pairs_reach true k t kv v l s kp p ps Hs IHv IHl).
    - (* fields *)
      intros s. apply reach_pure. exists 0%nat. reflexivity.
    - intros s f fs v l ps Hw _ IH. refine (reach_same _ _ _ _ _ IH). intros ord n. cbn [enc_fields]. rewrite written_eq in Hw. apply negb_false_iff in Hw. rewrite Hw. reflexivity.
    - intros s f fs v l ps Hw Ho Hz _ IH. refine (reach_same _ _ _ _ _ IH). intros ord n. cbn [enc_fields]. rewrite written_eq in Hw. apply negb_true_iff in Hw. rewrite Hw, Ho.
      apply hzero_iff in Hz. rewrite Hz. reflexivity.
    - intros s f fs v l p ps Hw Ho _ IHv _ IHl.
      assert (reach (fun ord n => b <== enc_field X E H n (enc_f X E H ord n MType) f v ;;
                r <== enc_fields X E H n (enc_f X E H ord n MType) fs l ;;
                ret (fst r + 1, out_string (enc_name X f) ++ b ++ snd r)) s (blen ((PStr (field_key X f), p) :: ps), text ((PStr (field_key X f), p) :: ps))) as Q.
      { apply (reach_bind (fun ord n => enc_field X E H n (enc_f X E H ord n MType) f v)
          (fun ord n b => r <== enc_fields X E H n (enc_f X E H ord n MType) fs l ;; ret (fst r + 1, out_string (enc_name X f) ++ b ++ snd r)) s (serialize p)).
        - intros ord n n' Hn. apply mle_field; [exact Hn|]. intros t w. apply enc_mono, Hn.
        - intros ord n n' Hn. apply mle_bind; [|intros x; apply mle_refl]. apply mle_fields; [exact Hn|]. intros t w. apply enc_mono, Hn.
        - exact IHv.
        - unfold text. cbn [flat_map fst snd]. rewrite <- out_string_eq, <- app_assoc. change (field_key X f) with (enc_name X f).
          replace (blen ((PStr (enc_name X f), p) :: ps)) with (blen ps + 1) by (unfold blen; cbn [length]; lia).
          exact (reach_then _ (fun r => (fst r + 1, out_string (enc_name X f) ++ serialize p ++ snd r)) _ _ IHl). }
      refine (reach_same _ _ _ _ _ Q). intros ord n. cbn [enc_fields]. rewrite written_eq in Hw. apply negb_true_iff in Hw. rewrite Hw.
      assert (tag_omitempty (tag_of X f) && hzero v = false) as ->.
      { destruct (tag_omitempty (tag_of X f)); [|reflexivity]. cbn. apply hzero_false. apply Ho. reflexivity. }
      reflexivity.
    - (* field values *)
      intros s f t' Hk. apply reach_pure. exists 0%nat. intros ord s'. unfold enc_field. rewrite Hk. reflexivity.
    - intros s s' f t' o i c p Hk Hst Hsk Hc Hen _ IH. refine (reach_same _ _ _ _ _ (reach_rec (f_ty f) _ _ _ _ _ Hen IH)). intros ord n. unfold enc_field. rewrite Hk, Hc, Hst, Hsk. reflexivity.
    - intros s f t' o i c p Hk Hst Hsk Hc _ IH. refine (reach_same _ _ _ _ _ IH). intros ord n. unfold enc_field. rewrite Hk, Hc, Hst, Hsk. reflexivity.
    - intros s f v p Hk Hst _ IH. refine (reach_same _ _ _ _ _ IH). intros ord n. unfold enc_field. rewrite Hst.
      destruct (kind_of E (f_ty f)); try discriminate; reflexivity.
    - intros s f t' o i c p Hk Hst Hc Hq. apply reach_pure. destruct (as_string_exact _ _ _ Hq) as (n & Hn). exists n. intros ord s'. unfold enc_field. rewrite Hk, Hc, Hst. apply Hn.
    - intros s f v p Hk Hst Hq. apply reach_pure. destruct (as_string_exact _ _ _ Hq) as (n & Hn). exists n. intros ord s'. unfold enc_field. rewrite Hst. rewrite <- (Hn s').
      destruct (kind_of E (f_ty f)); try discriminate; reflexivity.
  Qed.
End Reach.
