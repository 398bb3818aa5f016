(** Every value that represents something, entering its containers the way the
    encoder allows, is encoded. *)
From Coq Require Import Strings.String Strings.Byte ZArith List Bool Lia Floats.SpecFloat Permutation.
From Verif Require Import Base GoTypes Strconv Tags Grammar Denote Memory EncCompile Encode Php Repr EncCompileFacts EncTerm NumEnc EncFacts EncSound.
Import ListNotations.
Open Scope Z_scope.

Definition at_ (s : tracked) (it : nat) : st := St (fst s) (snd s) it.
Definition succeeds {A} (m : M A) (s : st) : Prop := exists s' b, m s = (s', ROk b).

Lemma succeeds_bind {A B} (a : M A) (k : A -> M B) s s1 x : a s = (s1, ROk x) -> succeeds (k x) s1 -> succeeds (bindM a k) s.
Proof. intros Ha (s' & b & Hk). exists s', b. unfold bindM. rewrite Ha. exact Hk. Qed.
Lemma succeeds_ret {A} (a : A) s : succeeds (ret a) s.
Proof. exists s, a. reflexivity. Qed.
Lemma succeeds_mle {A} (a b : M A) s s' x : mle a b -> a s = (s', ROk x) -> b s = (s', ROk x).
Proof. intros Hm Ha. rewrite (Hm s); [exact Ha|]. rewrite Ha. discriminate. Qed.
Lemma framed_at {A} (m : M A) s it s' r : framed m -> m (at_ s it) = (s', r) -> exists it', s' = at_ s it'.
Proof.
  intros Hf Hm. pose proof (framed_tr m _ _ _ Hf Hm) as Q. unfold tr, at_ in *. cbn [seen depth] in Q. exists (iters s').
  destruct s' as [sn d i], s as [sn' d']. cbn in *. congruence.
Qed.
Lemma succeeds_rec t a body s s' it : code_enter s false a s' -> succeeds body (at_ s' it) -> succeeds (check_rec t a body) (at_ s it).
Proof.
  intros Hen (s1 & b & Hb). unfold code_enter, at_ in *. unfold succeeds, check_rec. cbn [seen depth iters].
  destruct (1000 <? snd s + 1).
  - destruct Hen as [Hn ->]. apply has_out in Hn. rewrite Hn. cbn [fst snd] in Hb. rewrite Hb. eauto.
  - subst s'. cbn [fst snd] in Hb. rewrite Hb. eauto.
Qed.
Lemma succeeds_seen t a body s s' it : code_enter s true a s' -> succeeds body (at_ s' it) -> succeeds (check_seen t a body) (at_ s it).
Proof.
  intros Hen (s1 & b & Hb). unfold code_enter, at_ in *. unfold succeeds, check_seen. cbn [seen depth iters].
  destruct Hen as [Hn ->]. apply has_out in Hn. rewrite Hn. cbn [fst snd] in Hb. rewrite Hb. eauto.
Qed.

Section Complete.
  Context (X : Ext) (E : env) (H : heap) (ord : nat -> list (hval * hval) -> list (hval * hval)).
  Hypothesis Hord : forall n m, Permutation m (ord n m).
  Notation enc := (enc_f X E H ord).

  Lemma scalar_complete k v p : scalar_repr X k v p -> exists b, forall s, enc_scalar X k v s = (s, ROk b).
  Proof.
    intros Hs. inversion Hs as [b|k' z Hr|k' z Hk Hr|f|f|s]; subst; cbn [enc_scalar].
    - eexists. reflexivity.
    - apply int_ok_range in Hr. rewrite Hr. eexists. reflexivity.
    - apply uint_ok_range in Hr. exists (out_uint z). intros s. destruct k'; try congruence; rewrite Hr; reflexivity.
    - eexists. reflexivity.
    - eexists. reflexivity.
    - eexists. reflexivity.
  Qed.
  Lemma key_complete k v p : key_repr X k v p -> exists b, forall s, enc_key X k v s = (s, ROk b).
  Proof. intros [Hk Hs]. unfold enc_key. rewrite key_kind_eq, Hk. exact (scalar_complete _ _ _ Hs). Qed.
  Lemma scalar_kind_ok k v p : scalar_repr X k v p -> enc_scalar_kind k = true.
  Proof. intros Hs. inversion Hs as [b|k' z Hr|k' z Hk Hr|f|f|s]; subst; try reflexivity. destruct k'; try reflexivity. congruence. Qed.

  Lemma iface_str_complete t v p : quoted_any X E H t v p -> exists f b, forall s, enc_iface_str X E H f t v s = (s, ROk b).
  Proof.
    induction 1 as [t t' Hk|t t' o i c p Hk Hc Hq (f & b & IH)|t Hk|t t' v p Hk Hq (f & b & IH)|b|k z Hr|k z Hk Hr|f|f].
    - exists 1%nat. cbn [enc_iface_str]. rewrite Hk. eexists. reflexivity.
    - exists (S f), b. cbn [enc_iface_str]. rewrite Hk, Hc. exact IH.
    - exists 1%nat. cbn [enc_iface_str]. destruct (kind_of E t); try discriminate; eexists; reflexivity.
    - exists (S f), b. cbn [enc_iface_str]. destruct (kind_of E t); try discriminate; exact IH.
    - exists 1%nat. cbn. eexists. reflexivity.
    - exists 1%nat. cbn [enc_iface_str kind_of kind0]. apply int_ok_range in Hr. rewrite Hr. eexists. reflexivity.
    - exists 1%nat, (out_uint_str z). intros s. cbn [enc_iface_str kind_of kind0]. apply uint_ok_range in Hr. destruct k; try congruence; rewrite Hr; reflexivity.
    - exists 1%nat. cbn. eexists. reflexivity.
    - exists 1%nat. cbn. eexists. reflexivity.
  Qed.
  Lemma as_string_complete t v p : quoted_repr X E H t v p -> exists f b, forall s, enc_as_string X E H f t v s = (s, ROk b).
  Proof.
    intros Hq. inversion Hq as [b Hk|k z Hk Hr|k z Hk Hr|f Hk|f Hk|s Hk|v' p' Hk Hqa]; subst; unfold enc_as_string;
      try (rewrite Hk; exists 0%nat; eexists; reflexivity).
    - rewrite Hk. apply int_ok_range in Hr. rewrite Hr. exists 0%nat. eexists. reflexivity.
    - rewrite Hk. apply uint_ok_range in Hr. rewrite Hr. exists 0%nat. eexists. reflexivity.
    - destruct (iface_str_complete _ _ _ Hqa) as (f & b & Hf). exists f, b. intros s. rewrite <- (Hf s). destruct (kind_of E t); try discriminate; reflexivity.
  Qed.
  Lemma says_complete t v b : says X E H t v b -> call_marshal X E H t v = ROk b.
  Proof.
    assert (forall t v b, says X E H t v b -> iface_kind (kind_of E t) = false -> call_method X E H t v = ROk b) as Hm.
    { intros t0 v0 b0 Hs Hi. inversion Hs as [n v1 b1 Hx Hi'|n d p b1 Hd Hr Hx|n d o i c b1 Hd Hr Hc Hx|t1 t2 v1 b1 Hi1 Hi2 Hs']; subst; cbn [call_method].
      - exact Hx.
      - rewrite Hd, Hr. exact Hx.
      - rewrite Hd, Hr, Hc. exact Hx.
      - congruence. }
    intros Hs. unfold call_marshal. destruct (iface_kind (kind_of E t)) eqn:Hi; [|apply Hm; assumption].
    inversion Hs as [n v1 b1 Hx Hi'|n d p b1 Hd Hr Hx|n d o i c b1 Hd Hr Hc Hx|t1 t2 v1 b1 Hi1 Hi2 Hs']; subst; try congruence; try discriminate.
    rewrite Hi2. apply Hm; assumption.
  Qed.

  Definition runs (m : mode) (s : tracked) (t : gty) (v : hval) : Prop :=
    forall it, exists f, succeeds (enc f m t v) (at_ s it).
  Definition emode_of (b : bool) : mode := if b then MIface else MType.

  Lemma run_more f f' m s t v : (f <= f')%nat -> succeeds (enc f m t v) s -> succeeds (enc f' m t v) s.
  Proof. intros Hf (s' & b & Q). exists s', b. eapply succeeds_mle; [apply enc_mono; exact Hf|exact Q]. Qed.

  Lemma compile_now_complete t : encodable X E t -> exists f, forall s, compile_now X E f t s = (s, ROk tt).
  Proof.
    intros He. destruct (encodable_compiles X E t He) as (f & S' & Hf). exists f. intros s.
    unfold compile_now, bindM, lift, ret. rewrite Hf. reflexivity.
  Qed.
  Lemma run_compiled t v s it : encodable X E t -> (exists f, succeeds (enc f MType t v) (at_ s it)) ->
    exists f, succeeds (_ <== compile_now X E f t ;; enc f MType t v) (at_ s it).
  Proof.
    intros He (f1 & Hf1). destruct (compile_now_complete t He) as (f2 & Hf2). exists (Nat.max f1 f2).
    eapply succeeds_bind; [eapply succeeds_mle; [apply (mle_compile X E f2); lia|apply Hf2]|].
    eapply run_more; [|exact Hf1]. lia.
  Qed.

  Lemma pairs_run m k t l s :
    (forall x, In x l -> (exists b, forall s, enc_key X k (fst x) s = (s, ROk b)) /\ runs m s t (snd x)) ->
    forall l', incl l' l -> forall it, exists f, succeeds (enc_pairs X k (enc f m t) l') (at_ s it).
  Proof.
    intros Hl. induction l' as [|[kv v] l' IH]; intros Hi it.
    { exists 0%nat. apply succeeds_ret. }
    destruct (Hl (kv, v) (Hi _ (or_introl eq_refl))) as [(kb & Hk) Hr]. cbn [fst snd] in *.
    destruct (Hr it) as (f1 & s1 & b1 & Q1). destruct (framed_at _ _ _ _ _ (enc_framed X E H ord f1 m t v) Q1) as (it1 & ->).
    destruct (IH (fun x Hx => Hi x (or_intror Hx)) it1) as (f2 & s2 & b2 & Q2).
    exists (Nat.max f1 f2). cbn [enc_pairs]. eapply succeeds_bind; [apply Hk|].
    eapply succeeds_bind; [eapply succeeds_mle; [apply enc_mono with (f := f1); lia|exact Q1]|].
    eapply succeeds_bind; [eapply succeeds_mle; [apply mle_pairs; intros w; apply enc_mono with (f := f2); lia|exact Q2]|]. apply succeeds_ret.
  Qed.
  Lemma map_run m k t ms l s :
    (forall x, In x l -> (exists b, forall s, enc_key X k (fst x) s = (s, ROk b)) /\ runs m s t (snd x)) ->
    Permutation ms l -> forall it, exists f, succeeds (enc_map X ord k (enc f m t) ms) (at_ s it).
  Proof.
    intros Hl Hp it. assert (incl (ord it ms) l) as Hi.
    { intros x Hx. eapply Permutation_in; [exact Hp|]. eapply Permutation_in; [apply Permutation_sym, Hord|exact Hx]. }
    destruct (pairs_run m k t l s Hl (ord it ms) Hi (S it)) as (f & s2 & b2 & Q). exists f. unfold enc_map.
    eapply succeeds_bind; [reflexivity|]. eapply succeeds_bind; [exact Q|]. apply succeeds_ret.
  Qed.

  Definition Pm (m : mode) (s : tracked) (t : gty) (v : hval) (p : php) : Prop := runs m s t v.
  Definition Pelems (s : tracked) (b : bool) (t : gty) (i : Z) (l : list hval) (ps : list (php * php)) : Prop :=
    forall it, exists f, succeeds (enc_elems (enc f (emode_of b) t) i l) (at_ s it).
  Definition Ppairs (s : tracked) (b : bool) (k : kind) (t : gty) (l : list (hval * hval)) (ps : list (php * php)) : Prop :=
    forall x, In x l -> (exists b, forall s, enc_key X k (fst x) s = (s, ROk b)) /\ runs (emode_of b) s t (snd x).
  Definition Pfields (s : tracked) (fs : list field) (l : list hval) (ps : list (php * php)) : Prop :=
    forall it, exists f, succeeds (enc_fields X E H f (enc f MType) fs l) (at_ s it).
  Definition Pfield (s : tracked) (g : field) (v : hval) (p : php) : Prop :=
    forall it, exists f, succeeds (enc_field X E H f (enc f MType) g v) (at_ s it).

  Lemma seq_run b t l s ps : Pelems s b t 0 l ps -> forall it, exists f, succeeds (enc_seq (enc f (emode_of b) t) l) (at_ s it).
  Proof. intros He it. destruct (He it) as (f & s' & bb & Q). exists f. eapply succeeds_bind; [exact Q|]. apply succeeds_ret. Qed.
  Lemma elems_step b t i v l s : runs (emode_of b) s t v ->
    (forall it, exists f, succeeds (enc_elems (enc f (emode_of b) t) (i + 1) l) (at_ s it)) ->
    forall it, exists f, succeeds (enc_elems (enc f (emode_of b) t) i (v :: l)) (at_ s it).
  Proof.
    intros Hv Hl it. destruct (Hv it) as (f1 & s1 & b1 & Q1). destruct (framed_at _ _ _ _ _ (enc_framed X E H ord f1 _ t v) Q1) as (it1 & ->).
    destruct (Hl it1) as (f2 & s2 & b2 & Q2). exists (Nat.max f1 f2). cbn [enc_elems].
    eapply succeeds_bind; [eapply succeeds_mle; [apply enc_mono with (f := f1); lia|exact Q1]|].
    eapply succeeds_bind; [eapply succeeds_mle; [apply mle_elems; intros w; apply enc_mono with (f := f2); lia|exact Q2]|]. apply succeeds_ret.
  Qed.
  (** one more unit of fuel around a computation that needs fuel *)
  Lemma run_S m s t v : (forall it, exists f, succeeds (enc (S f) m t v) (at_ s it)) -> runs m s t v.
  Proof. intros Hr it. destruct (Hr it) as (f & Hf). exists (S f). exact Hf. Qed.

  Theorem enc_complete :
    (forall s t v p, repr X E H code_enter s t v p -> Pm MType s t v p) /\
    (forall s t v p, shape X E H code_enter s t v p -> Pm MShape s t v p) /\
    (forall s t v p, inner X E H code_enter s t v p -> Pm MIface s t v p) /\
    (forall s b t i l ps, elems X E H code_enter s b t i l ps -> Pelems s b t i l ps) /\
    (forall s b k t l ps, pairs X E H code_enter s b k t l ps -> Ppairs s b k t l ps) /\
    (forall s fs l ps, fields X E H code_enter s fs l ps -> Pfields s fs l ps) /\
    (forall s g v p, field_val X E H code_enter s g v p -> Pfield s g v p).
  Proof.
    apply repr_ind7.
    - (* rp_marshaler *)
      intros s t v b Him Hs. apply run_S. intros it. exists 0%nat. cbn [enc_f]. rewrite implements_eq, Him. unfold lift. rewrite (says_complete _ _ _ Hs). eexists _, _. reflexivity.
    - intros s t v b Him Hby Hb. apply run_S. intros it. exists 0%nat. cbn [enc_f]. rewrite implements_eq, is_bytes_eq, Him, Hby, Hb. apply succeeds_ret.
    - intros s t v p Him Hby _ IH. apply run_S. intros it. destruct (IH it) as (f & Hf). exists f. cbn [enc_f]. rewrite implements_eq, is_bytes_eq, Him, Hby. exact Hf.
    - (* sh_scalar *)
      intros s t v p Hs. apply run_S. intros it. exists 0%nat. pose proof (scalar_kind_ok _ _ _ Hs) as Hk. destruct (scalar_complete _ _ _ Hs) as (b & Hb).
      exists (at_ s it), b. rewrite <- (Hb (at_ s it)). cbn [enc_f]. clear Hs Hb. destruct (kind_of E t); try discriminate Hk; try rewrite Hk; reflexivity.
    - intros s t id fs l ps Hk _ IH. apply run_S. intros it. destruct (IH it) as (f & s' & r & Q). exists f. cbn [enc_f]. rewrite Hk.
      eapply succeeds_bind; [exact Q|]. apply succeeds_ret.
    - intros s t n t' l ps Hk Hl _ IH. apply run_S. intros it. destruct (seq_run _ _ _ _ _ IH it) as (f & Hf). exists f. cbn [enc_f]. rewrite Hk.
      rewrite (proj2 (Nat.eqb_eq _ _) Hl). exact Hf.
    - intros s t t' Hk. apply run_S. intros it. exists 0%nat. cbn [enc_f]. rewrite Hk. apply succeeds_ret.
    - intros s s' t t' o i n l ps Hk Hc Hen _ IH. apply run_S. intros it. destruct (seq_run _ _ _ _ _ IH it) as (f & Hf). exists f. cbn [enc_f]. rewrite Hk, Hc.
      eapply succeeds_rec; [exact Hen|exact Hf].
    - intros s t k t' Hk. apply run_S. intros it. exists 0%nat. cbn [enc_f]. rewrite Hk. apply succeeds_ret.
    - intros s s' t k t' o m l ps Hk Hc Hp Hen _ IH. apply run_S. intros it. destruct (map_run _ _ _ _ _ _ IH Hp it) as (f & Hf). exists f. cbn [enc_f]. rewrite Hk, Hc.
      eapply succeeds_rec; [exact Hen|exact Hf].
    - intros s t v p Hk _ IH. apply run_S. intros it. destruct (IH it) as (f & Hf). exists f. cbn [enc_f]. destruct (kind_of E t); try discriminate; exact Hf.
    - intros s t t' v p Hk Hk' _ IH. apply run_S. intros it. destruct (IH it) as (f & Hf). exists f. cbn [enc_f]. rewrite Hk, Hk'. exact Hf.
    - intros s t t' Hk Hk'. apply run_S. intros it. exists 0%nat. cbn [enc_f]. rewrite Hk, Hk'. apply succeeds_ret.
    - intros s s' t t' o i c p Hk Hsk Hc Hen _ IH. apply run_S. intros it. destruct (IH it) as (f & Hf). exists f. cbn [enc_f]. rewrite Hk, Hc, Hsk.
      assert (iface_kind (kind_of E t') = false) as -> by (destruct (kind_of E t'); try discriminate; reflexivity).
      eapply succeeds_rec; [exact Hen|exact Hf].
    - intros s t t' o i c p Hk Hsk Hd Hc _ IH. apply run_S. intros it. destruct (IH it) as (f & Hf). exists f. cbn [enc_f]. rewrite Hk, Hc, Hsk.
      assert (iface_kind (kind_of E t') = false) as -> by (destruct (kind_of E t'); try discriminate; reflexivity).
      rewrite by_structure_eq, Hd. exact Hf.
    - intros s t t' o i c p Hk Hd Hi Hc _ IH. apply run_S. intros it. destruct (IH it) as (f & Hf). exists f. cbn [enc_f]. rewrite Hk, Hc, Hi.
      assert (struct_kind (kind_of E t') = false) as -> by (destruct (kind_of E t'); try discriminate; reflexivity).
      rewrite by_structure_eq, Hd. exact Hf.
    - (* inner *)
      intros s t t' Hk. apply run_S. intros it. exists 0%nat. cbn [enc_f]. rewrite Hk. apply succeeds_ret.
    - intros s t t' o i c p Hk Hc _ IH. apply run_S. intros it. destruct (IH it) as (f & Hf). exists f. cbn [enc_f]. rewrite Hk, Hc. exact Hf.
    - intros s t Hk. apply run_S. intros it. exists 0%nat. cbn [enc_f]. destruct (kind_of E t); try discriminate; apply succeeds_ret.
    - intros s t t' v p Hk _ IH. apply run_S. intros it. destruct (IH it) as (f & Hf). exists f. cbn [enc_f]. destruct (kind_of E t); try discriminate; exact Hf.
    - intros s t v p Hs. apply run_S. intros it. exists 0%nat. pose proof (scalar_kind_ok _ _ _ Hs) as Hk. destruct (scalar_complete _ _ _ Hs) as (b & Hb).
      exists (at_ s it), b. rewrite <- (Hb (at_ s it)). cbn [enc_f]. clear Hs Hb. destruct (kind_of E t); try discriminate Hk; try rewrite Hk; reflexivity.
    - intros s t t' Hk Hi. apply run_S. intros it. exists 0%nat. cbn [enc_f]. rewrite Hk, Hi. apply succeeds_ret.
    - intros s s' t t' o i n l ps Hk Hi Hc Hen _ IH. apply run_S. intros it. destruct (seq_run _ _ _ _ _ IH it) as (f & Hf). exists f. cbn [enc_f]. rewrite Hk, Hi, Hc.
      eapply succeeds_seen; [exact Hen|exact Hf].
    - intros s t t' p Hk Hi He _ IH. apply run_S. intros it. destruct (run_compiled _ _ _ _ He (IH it)) as (f & Hf). exists f. cbn [enc_f]. rewrite Hk, Hi. exact Hf.
    - intros s s' t t' o i n p Hk Hi He Hen _ IH. apply run_S. intros it. destruct (run_compiled _ _ _ _ He (IH it)) as (f & Hf). exists f. cbn [enc_f]. rewrite Hk, Hi.
      eapply succeeds_seen; [exact Hen|exact Hf].
    - intros s t k t' Hk Hkk. apply run_S. intros it. exists 0%nat. cbn [enc_f]. rewrite Hk, key_kind_eq, Hkk. apply succeeds_ret.
    - intros s s' t k t' o Hk Hkk Hc Hen. apply run_S. intros it. exists 0%nat. cbn [enc_f]. rewrite Hk, key_kind_eq, Hkk, Hc.
      eapply succeeds_seen; [exact Hen|apply succeeds_ret].
    - intros s s' t k t' o m l ps Hk Hkk Hc Hne Henc Hp Hen _ IH. apply run_S. intros it. destruct (map_run _ _ _ _ _ _ IH Hp it) as (f & Hf).
      destruct m as [|e m]; [congruence|]. destruct (iface_kind (kind_of E t')) eqn:Hi.
      + exists f. cbn [enc_f]. rewrite Hk, key_kind_eq, Hkk, Hc, Hi. eapply succeeds_seen; [exact Hen|exact Hf].
      + destruct Henc as [Q|Henc]; [discriminate|]. destruct (compile_now_complete t' Henc) as (f2 & Hf2).
        exists (Nat.max f f2). cbn [enc_f]. rewrite Hk, key_kind_eq, Hkk, Hc, Hi. eapply succeeds_seen; [exact Hen|].
        eapply succeeds_bind; [eapply succeeds_mle; [apply (mle_compile X E f2); lia|apply Hf2]|].
        destruct Hf as (s1 & b1 & Q). exists s1, b1. eapply succeeds_mle; [|exact Q]. apply mle_map. intros w. apply enc_mono. lia.
    - intros s t id fs v p Hk He _ IH. apply run_S. intros it. destruct (run_compiled _ _ _ _ He (IH it)) as (f & Hf). exists f. cbn [enc_f]. rewrite Hk. exact Hf.
    - (* elems *)
      intros s b t i it. exists 0%nat. apply succeeds_ret.
    - intros s t i v l p ps _ IHv _ IHl. exact (elems_step false t i v l s IHv IHl).
    - intros s t i v l p ps _ IHv _ IHl. exact (elems_step true t i v l s IHv IHl).
    - (* pairs *)
      intros s b k t x [].
    - intros s k t kv v l kp p ps Hs _ IHv _ IHl x [<-|Hx]; [|exact (IHl x Hx)]. split; [exact (key_complete _ _ _ Hs)|exact IHv].
    - intros s k t kv v l kp p ps Hs _ IHv _ IHl x [<-|Hx]; [|exact (IHl x Hx)]. split; [exact (key_complete _ _ _ Hs)|exact IHv].
    - (* fields *)
      intros s it. exists 0%nat. apply succeeds_ret.
    - intros s f fs v l ps Hw _ IH it. destruct (IH it) as (f1 & Hf). exists f1. cbn [enc_fields]. rewrite written_eq in Hw. apply negb_false_iff in Hw. rewrite Hw. exact Hf.
    - intros s f fs v l ps Hw Ho Hz _ IH it. destruct (IH it) as (f1 & Hf). exists f1. cbn [enc_fields]. rewrite written_eq in Hw. apply negb_true_iff in Hw. rewrite Hw, Ho.
      apply hzero_iff in Hz. rewrite Hz. exact Hf.
    - intros s f fs v l p ps Hw Ho _ IHv _ IHl it. destruct (IHv it) as (f1 & s1 & b1 & Q1).
      destruct (framed_at _ _ _ _ _ (framed_field X E H f1 _ f v (enc_framed X E H ord f1 MType)) Q1) as (it1 & ->).
      destruct (IHl it1) as (f2 & s2 & b2 & Q2). exists (Nat.max f1 f2). cbn [enc_fields]. rewrite written_eq in Hw. apply negb_true_iff in Hw. rewrite Hw.
      assert (tag_omitempty (tag_of X f) && hzero v = false) as ->.
      { destruct (tag_omitempty (tag_of X f)); [|reflexivity]. cbn. apply hzero_false. apply Ho. reflexivity. }
      eapply succeeds_bind; [eapply succeeds_mle; [apply mle_field with (f := f1) (e := enc f1 MType); [lia|intros; apply enc_mono; lia]|exact Q1]|].
      eapply succeeds_bind; [eapply succeeds_mle; [apply mle_fields with (f := f2) (e := enc f2 MType); [lia|intros; apply enc_mono; lia]|exact Q2]|]. apply succeeds_ret.
    - (* field values *)
      intros s f t' Hk it. exists 0%nat. unfold enc_field. rewrite Hk. apply succeeds_ret.
    - intros s s' f t' o i c p Hk Hst Hsk Hc Hen _ IH it. destruct (IH it) as (f1 & Hf). exists f1. unfold enc_field. rewrite Hk, Hc, Hst, Hsk.
      eapply succeeds_rec; [exact Hen|exact Hf].
    - intros s f t' o i c p Hk Hst Hsk Hc _ IH it. destruct (IH it) as (f1 & Hf). exists f1. unfold enc_field. rewrite Hk, Hc, Hst, Hsk. exact Hf.
    - intros s f v p Hk Hst _ IH it. destruct (IH it) as (f1 & Hf). exists f1. unfold enc_field. rewrite Hst.
      destruct (kind_of E (f_ty f)); try discriminate; exact Hf.
    - intros s f t' o i c p Hk Hst Hc Hq it. destruct (as_string_complete _ _ _ Hq) as (f1 & b & Hf). exists f1. unfold enc_field. rewrite Hk, Hc, Hst.
      exists (at_ s it), b. apply Hf.
    - intros s f v p Hk Hst Hq it. destruct (as_string_complete _ _ _ Hq) as (f1 & b & Hf). exists f1. unfold enc_field. rewrite Hst.
      exists (at_ s it), b. rewrite <- (Hf (at_ s it)). destruct (kind_of E (f_ty f)); try discriminate; reflexivity.
  Qed.
End Complete.
