(** PHP's array keys and what Marshal writes. *)
From Coq Require Import Strings.String Strings.Byte ZArith List Bool Lia Permutation.
From Verif Require Import Base GoTypes Tags Grammar Denote Typing Api NumFacts Memory EncCompile Php Repr Values NumEnc PhpFacts
  RoundTripFacts AnyTrip AnyTripFacts Strconv PhpKeys.
Import ListNotations.
Open Scope Z_scope.

Lemma int64_dec s : (exists z, int64 z /\ s = decimal z) \/ (forall z, int64 z -> s <> decimal z).
Proof.
  destruct (parse_int64 s) as [z|] eqn:E.
  - apply parse_int64_some in E as [Ht R]. destruct (list_eq_dec Byte.byte_eq_dec s (decimal z)) as [->|n].
    + left. exists z. split; [exact R|reflexivity].
    + right. intros z' R' ->. pose proof (decimal_int_text z') as Ht'. apply n. f_equal.
      assert (parse_int64 (decimal z') = Some z') as P by (apply parse_int64_iff; auto).
      assert (parse_int64 (decimal z') = Some z) as P' by (apply parse_int64_iff; auto). congruence.
  - right. intros z' R' ->. assert (parse_int64 (decimal z') = Some z') as P by (apply parse_int64_iff; split; [apply decimal_int_text|exact R']). congruence.
Qed.
Lemma str_key s : exists k, php_key (PStr s) k.
Proof. destruct (int64_dec s) as [(z & R & ->)|N]; [exists (KI z); constructor; exact R|exists (KS s); constructor; exact N]. Qed.
Lemma str_key_inj s s' k : php_key (PStr s) k -> php_key (PStr s') k -> s = s'.
Proof. intros A B. inversion A; subst; inversion B; subst; reflexivity. Qed.

Lemma php_key_det p k k' : php_key p k -> php_key p k' -> k = k'.
Proof.
  intros A B. inversion A as [z R Q1 Q2|z R Q1 Q2|s N Q1 Q2]; subst; inversion B as [z' R' Q1' Q2'|z' R' Q1' Q2'|s' N' Q1' Q2']; subst; try reflexivity.
  - apply decimal_inj in Q1'. congruence.
  - destruct (N' z R eq_refl).
  - destruct (N z' R' eq_refl).
Qed.

(** Keys that are all strings, or all integers. *)
Lemma str_keys {A} : forall (es : list (php * A)) ss, map fst es = map PStr ss -> NoDup ss ->
  exists ks, Forall2 (fun e k => php_key (fst e) k) es ks /\ NoDup ks /\ (forall k, In k ks -> exists s, In s ss /\ php_key (PStr s) k).
Proof.
  induction es as [|[p x] es IH]; intros ss Em Hn; destruct ss as [|s ss]; try discriminate Em.
  - exists []. repeat split; [constructor|constructor|intros k []].
  - cbn in Em. injection Em as -> Em. inversion Hn as [|? ? Hni Hn']; subst. destruct (IH ss Em Hn') as (ks & F & N & I).
    destruct (str_key s) as (k & Hk). exists (k :: ks). split; [constructor; assumption|]. split.
    + constructor; [|exact N]. intros J. destruct (I k J) as (s' & Hs & Hk'). apply Hni. rewrite (str_key_inj s s' k Hk Hk'). exact Hs.
    + intros k' [<-|J]; [exists s; split; [left; reflexivity|exact Hk]|]. destruct (I k' J) as (s' & Hs & Hk'). exists s'. split; [right; exact Hs|exact Hk'].
Qed.
Lemma int_keys {A} : forall (es : list (php * A)) zs, map fst es = map PInt zs -> NoDup zs -> Forall int64 zs ->
  Forall2 (fun e k => php_key (fst e) k) es (map KI zs) /\ NoDup (map KI zs).
Proof.
  intros es zs Em Hn Hf. split.
  - revert zs Em Hf Hn. induction es as [|[p x] es IH]; intros [|z zs] Em Hf Hn; try discriminate Em; cbn in *; constructor.
    + injection Em as -> _. constructor. inversion Hf; assumption.
    + injection Em as _ Em. inversion Hf; inversion Hn; subst. apply IH; assumption.
  - apply FinFun.Injective_map_NoDup; [|exact Hn]. intros a b [= ->]. reflexivity.
Qed.

Lemma arr_count_keys es : Forall (fun e => raw_free (fst e) = true) es -> small (serialize (PArr es)) -> blen es <= max_int64.
Proof.
  intros Hr Hs. destruct (entries_len es) as [Hl|(e & Hi & Q)].
  - pose proof (body_le es) as Hb. unfold body in Hb. unfold small in Hs. unfold max_int64. lia.
  - rewrite Forall_forall in Hr. specialize (Hr e Hi). apply app_eq_nil in Q as [Q _]. destruct (serialize_nonempty _ Hr Q).
Qed.

Fixpoint zseq (i : Z) (n : nat) : list Z := match n with O => [] | Datatypes.S n' => i :: zseq (i + 1) n' end.
Lemma zseq_in n : forall i z, In z (zseq i n) -> i <= z < i + Z.of_nat n.
Proof. induction n as [|n IH]; intros i z; [intros []|]. cbn [zseq In]. intros [<-|J]; [lia|]. apply IH in J. lia. Qed.
Lemma zseq_nodup n : forall i, NoDup (zseq i n).
Proof. induction n as [|n IH]; intros i; constructor; [|apply IH]. intros J. apply zseq_in in J. lia. Qed.

Lemma int_range_64 k z : int_range k z -> int64 z.
Proof. unfold int_range, int64, min_int64, max_int64. intros R. destruct k; cbn [ibits] in R; lia. Qed.
Lemma uint_range_64 k z : uint_range k z -> z <= max_int64 -> int64 z.
Proof. unfold uint_range, int64, min_int64. intros R. lia. Qed.
Lemma scalar_value X k v p : scalar_repr X k v p -> (forall z, v = HUint z -> z <= max_int64) -> php_value p.
Proof.
  intros R Hz. destruct R as [b|k z R|k z N R|f|f|s]; try solve [constructor].
  - constructor. apply (int_range_64 k), R.
  - constructor. apply (uint_range_64 k); [exact R|exact (Hz z eq_refl)].
Qed.
Lemma quoted_any_value X E H t v p : quoted_any X E H t v p -> php_value p.
Proof. induction 1; solve [constructor|assumption]. Qed.
Lemma quoted_value X E H t v p : quoted_repr X E H t v p -> php_value p.
Proof. intros []; try solve [constructor]. eapply quoted_any_value; eauto. Qed.

(** The keys of maps. *)
Lemma map_keys X k : forall (l : list (hval * hval)) (ps : list (php * php)),
  Forall2 (fun e e' => key_repr X k (fst e) (fst e')) l ps -> NoDup (map fst l) ->
  (forall z, In (HUint z) (map fst l) -> z <= max_int64) ->
  exists ks, Forall2 (fun e q => php_key (fst e) q) ps ks /\ NoDup ks.
Proof.
  intros l ps F Hn Hz. destruct (key_kind k) eqn:Hk.
  2: { destruct F as [|e e' l ps [Q _]]; [exists []; split; constructor|congruence]. }
  assert ((exists ss, map fst l = map HStr ss /\ map fst ps = map PStr ss) \/
          exists zs c, (c = HInt \/ c = HUint) /\ map fst l = map c zs /\ map fst ps = map PInt zs /\ Forall int64 zs) as D.
  { destruct k as [|k|k| | | | | | | | | | |]; try discriminate Hk.
    - right. assert (exists zs, map fst l = map HInt zs /\ map fst ps = map PInt zs /\ Forall int64 zs) as (zs & Q); [|exists zs, HInt; split; [left; reflexivity|exact Q]].
      clear Hn Hz. induction F as [|[kv x] [kp y] l ps [_ R] F IH]; [exists []; repeat split; constructor|].
      destruct IH as (zs & Q1 & Q2 & Q3). inversion R as [|? z Hr e1 e2 e3| | | |]; subst. exists (z :: zs). cbn in e2, e3 |- *. rewrite Q1, Q2, <- e2, <- e3. repeat split.
      constructor; [exact (int_range_64 k z Hr)|exact Q3].
    - right. assert (exists zs, map fst l = map HUint zs /\ map fst ps = map PInt zs /\ Forall int64 zs) as (zs & Q); [|exists zs, HUint; split; [right; reflexivity|exact Q]].
      clear Hn. induction F as [|[kv x] [kp y] l ps [_ R] F IH]; [exists []; repeat split; constructor|].
      destruct IH as (zs & Q1 & Q2 & Q3); [intros z J; apply Hz; right; exact J|]. inversion R as [| |? z Hp Hr e1 e2 e3| | |]; subst. cbn in e2, e3. exists (z :: zs). cbn. rewrite Q1, Q2, <- e2, <- e3. repeat split.
      constructor; [|exact Q3]. specialize (Hz z). cbn in Hz. specialize (Hz (or_introl (eq_sym e2))). exact (uint_range_64 k z Hr Hz).
    - left. clear Hn Hz. induction F as [|[kv x] [kp y] l ps [_ R] F IH]; [exists []; split; reflexivity|].
      destruct IH as (ss & Q1 & Q2). inversion R as [| | | | |s e1 e2 e3]; subst. cbn in e2, e3. exists (s :: ss). cbn. rewrite Q1, Q2, <- e2, <- e3. split; reflexivity. }
  destruct D as [(ss & Q1 & Q2)|(zs & c & Hc & Q1 & Q2 & Q3)].
  - rewrite Q1 in Hn. apply NoDup_map_inv in Hn. destruct (str_keys ps ss Q2 Hn) as (ks & A & B & _). exists ks. split; assumption.
  - rewrite Q1 in Hn. apply NoDup_map_inv in Hn. destruct (int_keys ps zs Q2 Hn Q3) as [A B]. exists (map KI zs). split; assumption.
Qed.

Section Keys.
  Context (X : Ext) (E : env) (H : heap) (Hk : maps_keyed H) {S : Type} (enter : S -> bool -> addr -> S -> Prop)
    (t0 : gty) (v0 : hval) (Hnum : numbers_fit E H t0 v0) (Hfd : fields_differ X E H t0 v0).
  Notation G := (within E H t0 v0).
  Definition valued (es : list (php * php)) : Prop :=
    Forall (fun e => small (serialize (snd e))) es -> Forall (fun e => php_value (snd e)) es.

  Lemma g_num u w z : G u w -> w = HUint z -> z <= max_int64.
  Proof. intros g ->. exact (Hnum u z g). Qed.
  Lemma small_values es : small (serialize (PArr es)) -> Forall (fun e => small (serialize (snd e))) es.
  Proof. intros h. eapply Forall_impl; [|apply (small_parts es h)]. intros e [_ Q]. exact Q. Qed.
  Lemma raw_free_map {A} (c : A -> php) : (forall a, raw_free (c a) = true) -> forall (es : list (php * php)) l,
    map fst es = map c l -> Forall (fun e => raw_free (fst e) = true) es.
  Proof. intros Hc es. induction es as [|e es IH]; intros [|a l] Q; try discriminate Q; constructor; injection Q as Q1 Q2; [rewrite Q1; apply Hc|apply (IH l Q2)]. Qed.
  Lemma elems_value ps : map fst ps = map PInt (zseq 0 (length ps)) -> valued ps -> small (serialize (PArr ps)) -> php_value (PArr ps).
  Proof.
    intros Hm Hv Hs. destruct (int_keys ps _ Hm (zseq_nodup _ _)) as [A B].
    - apply Forall_forall. intros z J. apply zseq_in in J. assert (blen ps <= max_int64) as L by (apply arr_count_keys; [exact (raw_free_map PInt (fun _ => eq_refl) _ _ Hm)|exact Hs]).
      unfold int64, min_int64. unfold blen in L. lia.
    - exact (pv_arr _ _ A B (Hv (small_values _ Hs))).
  Qed.
  Lemma pairs_value k t0' (l m : list (hval * hval)) ps : Forall2 (fun e e' => key_repr X k (fst e) (fst e')) l ps -> NoDup (map fst m) -> Permutation m l ->
    (forall y x, In (y, x) m -> G t0' y) -> valued ps -> small (serialize (PArr ps)) -> php_value (PArr ps).
  Proof.
    intros F Hn Hp Hg Hv Hs. destruct (map_keys X k l ps F) as (ks & A & B).
    - eapply Permutation_NoDup; [apply Permutation_map, Hp|exact Hn].
    - intros z J. apply in_map_iff in J as ([y x] & Q & J). cbn in Q. subst y. apply (Hnum t0' z). apply (Hg _ x). eapply Permutation_in; [apply Permutation_sym, Hp|exact J].
    - exact (pv_arr _ _ A B (Hv (small_values _ Hs))).
  Qed.

  Lemma repr_values :
    (forall s t v p, repr X E H enter s t v p -> G t v -> small (serialize p) -> php_value p) /\
    (forall s t v p, shape X E H enter s t v p -> G t v -> small (serialize p) -> php_value p) /\
    (forall s t v p, inner X E H enter s t v p -> G t v -> small (serialize p) -> php_value p) /\
    (forall s b t i l ps, elems X E H enter s b t i l ps -> (forall x, In x l -> G t x) -> map fst ps = map PInt (zseq i (length ps)) /\ valued ps) /\
    (forall s b k t l ps, pairs X E H enter s b k t l ps -> (forall y x, In (y, x) l -> G t x) ->
       Forall2 (fun e e' => key_repr X k (fst e) (fst e')) l ps /\ valued ps) /\
    (forall s fs l ps, fields X E H enter s fs l ps -> (forall f x, In (f, x) (combine fs l) -> G (f_ty f) x) ->
       (exists ss, map fst ps = map PStr ss /\ incl ss (map (field_key X) (filter (written_field X) fs)) /\ (NoDup (map (field_key X) (filter (written_field X) fs)) -> NoDup ss)) /\ valued ps) /\
    (forall s f v p, field_val X E H enter s f v p -> G (f_ty f) v -> small (serialize p) -> php_value p).
  Proof.
    apply repr_ind7.
    - intros. constructor.
    - intros. constructor.
    - intros s t v p _ _ _ IH. exact IH.
    (* shape *)
    - intros s t v p R g _. apply (scalar_value _ _ _ _ R). intros z Q. exact (g_num _ _ z g Q).
    - intros s t id fs l ps K _ IH g h. destruct IH as ((ss & Q & _ & Hn) & Hv).
      + intros f x J. eapply wi_step; [exact g|]. eapply pt_field; eauto.
      + specialize (Hn (Hfd t _ id fs g K)). destruct (str_keys ps ss Q Hn) as (ks & A & B & _). exact (pv_arr _ _ A B (Hv (small_values _ h))).
    - intros s t n t' l ps K _ _ IH g h. destruct IH as [Q Hv]; [intros x J; eapply wi_step; [exact g|]; eapply pt_array; eauto|]. apply elems_value; assumption.
    - intros. constructor.
    - intros s s' t t' o i n l ps K C _ _ IH g h. destruct IH as [Q Hv]; [intros x J; eapply wi_step; [exact g|]; eapply pt_slice; eauto|]. apply elems_value; assumption.
    - intros. constructor.
    - intros s s' t k t' o m l ps K C P _ _ IH g h. destruct IH as [F Hv].
      + intros y x J. eapply wi_step; [exact g|]. eapply pt_entry; [exact K|exact C|]. eapply Permutation_in; [apply Permutation_sym, P|exact J].
      + apply (pairs_value _ k l m ps F (Hk o m C) P); [|exact Hv|exact h]. intros y x J. eapply wi_step; [exact g|]. eapply pt_key; eauto.
    - intros s t v p _ _ IH. exact IH.
    - intros s t t' v p _ _ _ IH. exact IH.
    - intros. constructor.
    - intros s s' t t' o i c p K _ C _ _ IH g. apply IH. eapply wi_step; [exact g|]. eapply pt_ptr; eauto.
    - intros s t t' o i c p K _ _ C _ IH g. apply IH. eapply wi_step; [exact g|]. eapply pt_ptr; eauto.
    - intros s t t' o i c p K _ _ C _ IH g. apply IH. eapply wi_step; [exact g|]. eapply pt_ptr; eauto.
    (* inner *)
    - intros. constructor.
    - intros s t t' o i c p K C _ IH g. apply IH. eapply wi_step; [exact g|]. eapply pt_ptr; eauto.
    - intros. constructor.
    - intros s t t' v p K _ IH g. apply IH. eapply wi_step; [exact g|]. apply pt_iface. exact K.
    - intros s t v p R g _. apply (scalar_value _ _ _ _ R). intros z Q. exact (g_num _ _ z g Q).
    - intros. constructor.
    - intros s s' t t' o i n l ps K _ C _ _ IH g h. destruct IH as [Q Hv]; [intros x J; eapply wi_step; [exact g|]; eapply pt_slice; eauto|]. apply elems_value; assumption.
    - intros s t t' p _ _ _ _ IH. exact IH.
    - intros s s' t t' o i n p _ _ _ _ _ IH. exact IH.
    - intros. constructor.
    - intros s s' t k t' o _ _ _ _ g h. apply (pv_arr [] []); constructor.
    - intros s s' t k t' o m l ps K _ C _ _ P _ _ IH g h. destruct IH as [F Hv].
      + intros y x J. eapply wi_step; [exact g|]. eapply pt_entry; [exact K|exact C|]. eapply Permutation_in; [apply Permutation_sym, P|exact J].
      + apply (pairs_value _ k l m ps F (Hk o m C) P); [|exact Hv|exact h]. intros y x J. eapply wi_step; [exact g|]. eapply pt_key; eauto.
    - intros s t id fs v p _ _ _ IH. exact IH.
    (* elems *)
    - intros s b t i _. split; [reflexivity|intros _; constructor].
    - intros s t i v l p ps _ IH1 _ IH2 g. destruct IH2 as [Q Hv]; [intros x J; apply g; right; exact J|]. split; [cbn; rewrite Q; reflexivity|].
      intros F. inversion F; subst. constructor; [apply IH1; [apply g; left; reflexivity|assumption]|apply Hv; assumption].
    - intros s t i v l p ps _ IH1 _ IH2 g. destruct IH2 as [Q Hv]; [intros x J; apply g; right; exact J|]. split; [cbn; rewrite Q; reflexivity|].
      intros F. inversion F; subst. constructor; [apply IH1; [apply g; left; reflexivity|assumption]|apply Hv; assumption].
    (* pairs *)
    - intros s b k t _. split; [constructor|intros _; constructor].
    - intros s k t kv v l kp p ps R _ IH1 _ IH2 g. destruct IH2 as [Q Hv]; [intros y x J; apply (g y); right; exact J|]. split; [constructor; assumption|].
      intros F. inversion F; subst. constructor; [apply IH1; [apply (g kv); left; reflexivity|assumption]|apply Hv; assumption].
    - intros s k t kv v l kp p ps R _ IH1 _ IH2 g. destruct IH2 as [Q Hv]; [intros y x J; apply (g y); right; exact J|]. split; [constructor; assumption|].
      intros F. inversion F; subst. constructor; [apply IH1; [apply (g kv); left; reflexivity|assumption]|apply Hv; assumption].
    (* fields *)
    - intros s _. split; [exists []; repeat split; [intros ? []|constructor]|intros _; constructor].
    - intros s f fs v l ps W _ IH g. destruct IH as ((ss & Q & I & N) & Hv); [intros f' x J; apply g; right; exact J|]. split; [|exact Hv].
      exists ss. cbn [filter]. rewrite W. repeat split; assumption.
    - intros s f fs v l ps W _ _ _ IH g. destruct IH as ((ss & Q & I & N) & Hv); [intros f' x J; apply g; right; exact J|]. split; [|exact Hv].
      exists ss. cbn [filter]. rewrite W. cbn [map]. split; [exact Q|]. split; [intros z J; right; apply I, J|]. intros D. inversion D; subst. apply N; assumption.
    - intros s f fs v l p ps W _ _ IH1 _ IH2 g. destruct IH2 as ((ss & Q & I & N) & Hv); [intros f' x J; apply g; right; exact J|]. split.
      + exists (field_key X f :: ss). cbn [filter]. rewrite W. cbn [map fst]. split; [cbn; rewrite Q; reflexivity|]. split.
        * intros z [<-|J]; [left; reflexivity|right; apply I, J].
        * intros D. inversion D; subst. constructor; [|apply N; assumption]. intros J. apply I in J. contradiction.
      + intros F. inversion F; subst. constructor; [apply IH1; [apply g; left; reflexivity|assumption]|apply Hv; assumption].
    (* field values *)
    - intros. constructor.
    - intros s s' f t' o i c p K _ _ C _ _ IH g. apply IH. eapply wi_step; [exact g|]. eapply pt_ptr; eauto.
    - intros s f t' o i c p K _ _ C _ IH g. apply IH. eapply wi_step; [exact g|]. eapply pt_ptr; eauto.
    - intros s f v p _ _ _ IH. exact IH.
    - intros s f t' o i c p _ _ _ Q _ _. exact (quoted_value _ _ _ _ _ _ Q).
    - intros s f v p _ _ Q _ _. exact (quoted_value _ _ _ _ _ _ Q).
  Qed.
End Keys.

(** ** Reading and writing again *)

(** No string key of an array in [p] is a number. *)
Inductive plain_keys : php -> Prop :=
| pl_other p : (forall es, p <> PArr es) -> plain_keys p
| pl_arr es : Forall (fun e => (forall s, fst e = PStr s -> ~ numeric s) /\ plain_keys (snd e)) es -> plain_keys (PArr es).

Lemma through_same reprint : forall p q, through reprint p q -> plain_keys p -> Forall (fun t => reprint t = t) (floats p) -> q = p.
Proof.
  intros p. induction p as [| | | | |es IH|] using php_ind2; intros q T P F; inversion T as [| | | | |es0 es' ks K N M V]; subst; try reflexivity.
  - inversion F; subst. congruence.
  - f_equal. inversion P as [p0 Q|es0 P']; subst; [destruct (Q es eq_refl)|]. clear P N T. cbn [floats] in F.
    revert ks es' K M V. induction IH as [|e es [_ IHe] IHf IHr]; intros ks es' K M V.
    + inversion V; subst. reflexivity.
    + inversion V as [|? e' ? es1 Ve Vr]; subst. inversion K as [|? k ? ks1 Ke Kr]; subst. injection M as M1 M2.
      inversion P' as [|? ? [Pe Pe'] Pr]; subst. cbn [flat_map] in F. apply Forall_app in F as [Fe Fr]. f_equal.
      * destruct e as [kp x], e' as [kp' x']. cbn [fst snd] in *. f_equal.
        -- subst kp'. inversion Ke as [z R|z R|s R]; subst; try reflexivity. destruct (Pe _ eq_refl). exists z. split; [exact R|reflexivity].
        -- apply IHe; [exact Ve|exact Pe'|]. first [exact Fe|apply Forall_app in Fe as [_ Fe]; exact Fe].
      * exact (IHr Fr Pr ks1 es1 Kr M2 Vr).
Qed.

Lemma through_exists reprint : forall p, php_value p -> raw_free p = true -> exists q, through reprint p q.
Proof.
  intros p. induction p as [| | | | |es IH|] using php_ind2; intros V R; try discriminate R; try solve [eexists; constructor].
  - exists (PInt z). constructor. inversion V; assumption.
  - inversion V as [| | | | | |es0 ks K N Vs]; subst. cbn [raw_free] in R.
    assert (exists es', map fst es' = map key_php ks /\ Forall2 (fun e e' => through reprint (snd e) (snd e')) es es') as (es' & Q1 & Q2).
    { clear N V. revert ks K. induction IH as [|e es [_ IHe] IHf IHr]; intros ks K.
      - inversion K; subst. exists []. split; [reflexivity|constructor].
      - inversion K as [|? k ? ks1 Ke Kr]; subst. inversion Vs; subst. cbn [forallb] in R. apply andb_true_iff in R as [R1 R2]. apply andb_true_iff in R1 as [_ R1].
        destruct (IHe ltac:(assumption) R1) as (q & Hq). destruct (IHr R2 ltac:(assumption) ks1 Kr) as (es' & Q1 & Q2).
        exists ((key_php k, q) :: es'). split; [cbn; rewrite Q1; reflexivity|constructor; [exact Hq|exact Q2]]. }
    exists (PArr es'). exact (th_arr reprint es es' ks K N Q1 Q2).
Qed.


Section Plain.
  Context (X : Ext) (E : env) (H : heap) {S : Type} (enter : S -> bool -> addr -> S -> Prop)
    (t0 : gty) (v0 : hval) (Hp : plain_names X E H t0 v0).
  Notation G := (within E H t0 v0).
  Definition plains (es : list (php * php)) : Prop := Forall (fun e => (forall s, fst e = PStr s -> ~ numeric s) /\ plain_keys (snd e)) es.

  Lemma plain_scalar k v p : scalar_repr X k v p -> plain_keys p.
  Proof. intros []; apply pl_other; discriminate. Qed.
  Lemma plain_quoted_any t v p : quoted_any X E H t v p -> plain_keys p.
  Proof. induction 1; try assumption; apply pl_other; discriminate. Qed.
  Lemma plain_quoted t v p : quoted_repr X E H t v p -> plain_keys p.
  Proof. intros []; try (apply pl_other; discriminate). eapply plain_quoted_any; eauto. Qed.
  Lemma plain_key k kv kp s : key_repr X k kv kp -> kp = PStr s -> kv = HStr s.
  Proof. intros [_ R] ->. inversion R. reflexivity. Qed.

  Lemma repr_plain :
    (forall s t v p, repr X E H enter s t v p -> G t v -> plain_keys p) /\
    (forall s t v p, shape X E H enter s t v p -> G t v -> plain_keys p) /\
    (forall s t v p, inner X E H enter s t v p -> G t v -> plain_keys p) /\
    (forall s b t i l ps, elems X E H enter s b t i l ps -> (forall x, In x l -> G t x) -> plains ps) /\
    (forall s b k t l ps, pairs X E H enter s b k t l ps -> (forall y x, In (y, x) l -> G t x) -> (forall s x, In (HStr s, x) l -> ~ numeric s) -> plains ps) /\
    (forall s fs l ps, fields X E H enter s fs l ps -> (forall f x, In (f, x) (combine fs l) -> G (f_ty f) x) ->
       (forall f, In f fs -> written_field X f = true -> ~ numeric (field_key X f)) -> plains ps) /\
    (forall s f v p, field_val X E H enter s f v p -> G (f_ty f) v -> plain_keys p).
  Proof.
    destruct Hp as [Hm Hf]. apply repr_ind7; try solve [intros; apply pl_other; discriminate].
    - intros s t v p _ _ _ IH. exact IH.
    (* shape *)
    - intros s t v p R _. exact (plain_scalar _ _ _ R).
    - intros s t id fs l ps K _ IH g. apply pl_arr. apply IH.
      + intros f x J. eapply wi_step; [exact g|]. eapply pt_field; eauto.
      + intros f J W. exact (Hf t _ id fs f g K J W).
    - intros s t n t' l ps K _ _ IH g. apply pl_arr, IH. intros x J; eapply wi_step; [exact g|]; eapply pt_array; eauto.
    - intros s s' t t' o i n l ps K C _ _ IH g. apply pl_arr, IH. intros x J; eapply wi_step; [exact g|]; eapply pt_slice; eauto.
    - intros s s' t k t' o m l ps K C P _ _ IH g. apply pl_arr, IH.
      + intros y x J. eapply wi_step; [exact g|]. eapply pt_entry; [exact K|exact C|]. eapply Permutation_in; [apply Permutation_sym, P|exact J].
      + intros z x J. apply (Hm t o m z x g C). eapply Permutation_in; [apply Permutation_sym, P|exact J].
    - intros s t v p _ _ IH. exact IH.
    - intros s t t' v p _ _ _ IH. exact IH.
    - intros s s' t t' o i c p K _ C _ _ IH g. apply IH. eapply wi_step; [exact g|]. eapply pt_ptr; eauto.
    - intros s t t' o i c p K _ _ C _ IH g. apply IH. eapply wi_step; [exact g|]. eapply pt_ptr; eauto.
    - intros s t t' o i c p K _ _ C _ IH g. apply IH. eapply wi_step; [exact g|]. eapply pt_ptr; eauto.
    (* inner *)
    - intros s t t' o i c p K C _ IH g. apply IH. eapply wi_step; [exact g|]. eapply pt_ptr; eauto.
    - intros s t t' v p K _ IH g. apply IH. eapply wi_step; [exact g|]. apply pt_iface. exact K.
    - intros s t v p R _. exact (plain_scalar _ _ _ R).
    - intros s s' t t' o i n l ps K _ C _ _ IH g. apply pl_arr, IH. intros x J; eapply wi_step; [exact g|]; eapply pt_slice; eauto.
    - intros s t t' p _ _ _ _ IH. exact IH.
    - intros s s' t t' o i n p _ _ _ _ _ IH. exact IH.
    - intros. apply pl_arr. constructor.
    - intros s s' t k t' o m l ps K _ C _ _ P _ _ IH g. apply pl_arr, IH.
      + intros y x J. eapply wi_step; [exact g|]. eapply pt_entry; [exact K|exact C|]. eapply Permutation_in; [apply Permutation_sym, P|exact J].
      + intros z x J. apply (Hm t o m z x g C). eapply Permutation_in; [apply Permutation_sym, P|exact J].
    - intros s t id fs v p _ _ _ IH. exact IH.
    (* elems *)
    - intros. constructor.
    - intros s t i v l p ps _ IH1 _ IH2 g. constructor; [split; [discriminate|apply IH1, g; left; reflexivity]|apply IH2; intros x J; apply g; right; exact J].
    - intros s t i v l p ps _ IH1 _ IH2 g. constructor; [split; [discriminate|apply IH1, g; left; reflexivity]|apply IH2; intros x J; apply g; right; exact J].
    (* pairs *)
    - intros. constructor.
    - intros s k t kv v l kp p ps R _ IH1 _ IH2 g n. constructor.
      + split; [|apply IH1, (g kv); left; reflexivity]. cbn [fst]. intros z Q. apply (n z v). left. rewrite (plain_key _ _ _ _ R Q). reflexivity.
      + apply IH2; [intros y x J; apply (g y); right; exact J|]. intros z x J. apply (n z x). right. exact J.
    - intros s k t kv v l kp p ps R _ IH1 _ IH2 g n. constructor.
      + split; [|apply IH1, (g kv); left; reflexivity]. cbn [fst]. intros z Q. apply (n z v). left. rewrite (plain_key _ _ _ _ R Q). reflexivity.
      + apply IH2; [intros y x J; apply (g y); right; exact J|]. intros z x J. apply (n z x). right. exact J.
    (* fields *)
    - intros. constructor.
    - intros s f fs v l ps _ _ IH g n. apply IH; [intros f' x J; apply g; right; exact J|]. intros f' J. apply n. right. exact J.
    - intros s f fs v l ps _ _ _ _ IH g n. apply IH; [intros f' x J; apply g; right; exact J|]. intros f' J. apply n. right. exact J.
    - intros s f fs v l p ps W _ _ IH1 _ IH2 g n. constructor.
      + split; [|apply IH1, g; left; reflexivity]. cbn [fst]. intros z [= <-]. apply n; [left; reflexivity|exact W].
      + apply IH2; [intros f' x J; apply g; right; exact J|]. intros f' J. apply n. right. exact J.
    (* field values *)
    - intros s s' f t' o i c p K _ _ C _ _ IH g. apply IH. eapply wi_step; [exact g|]. eapply pt_ptr; eauto.
    - intros s f t' o i c p K _ _ C _ IH g. apply IH. eapply wi_step; [exact g|]. eapply pt_ptr; eauto.
    - intros s f v p _ _ _ IH. exact IH.
    - intros s f t' o i c p _ _ _ Q _. exact (plain_quoted _ _ _ Q).
    - intros s f v p _ _ Q _. exact (plain_quoted _ _ _ Q).
  Qed.
End Plain.
