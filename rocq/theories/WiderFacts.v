(** Wider destination types accept what narrower ones accept (C74). *)
From Coq Require Import Strings.String Strings.Byte ZArith List Bool Lia Floats.SpecFloat.
From Verif Require Import Base GoTypes GvalInd Tags Unmarshal Grammar Denote NumFacts TextFacts ScanFacts Typing Safe StoreFacts StructFacts
  RoundTripFacts MemFacts Wider.
Import ListNotations.
Open Scope Z_scope.
Local Notation body := ScanFacts.body.

(** ** Zero values *)
Section Zero.
  Context (E : env).
  Lemma zero_bool T : kind_of E T = KBool -> zero E T = VBool false.
  Proof. intros Hk. zero_kind E T Hk. Qed.
  Lemma zero_string T : kind_of E T = KString -> zero E T = VStr [].
  Proof. intros Hk. zero_kind E T Hk. Qed.
  Lemma zero_int T k : kind_of E T = KInt k -> zero E T = VInt 0.
  Proof. intros Hk. zero_kind E T Hk. Qed.
  Lemma zero_uint T k : kind_of E T = KUint k -> zero E T = VUint 0.
  Proof. intros Hk. zero_kind E T Hk. Qed.
  Lemma zero_f32 T : kind_of E T = KF32 -> zero E T = VF32 (S754_zero false).
  Proof. intros Hk. zero_kind E T Hk. Qed.
  Lemma zero_f64 T : kind_of E T = KF64 -> zero E T = VF64 (S754_zero false).
  Proof. intros Hk. zero_kind E T Hk. Qed.
  Lemma zero_any T : kind_of E T = KAny -> zero E T = VIface None.
  Proof. intros Hk. zero_kind E T Hk. Qed.
  Lemma zero_iface T m : kind_of E T = KIface m -> zero E T = VIface None.
  Proof. intros Hk. zero_kind E T Hk. Qed.
  Lemma zero_array T n t : go_env E -> kind_of E T = KArray n t -> zero E T = VArr (repeat (zero E t) n).
  Proof.
    intros [(rank & Hr) _] Hk. destruct T as [| | | | | | |m u| | | | | |id]; try discriminate.
    - injection Hk as -> ->. reflexivity.
    - destruct (kind_named _ _ _ Hk) as (d & En & Q); [discriminate|]. destruct (d_under d) as [gs|t'] eqn:Ed; [discriminate|].
      rewrite (zero_named E id d t' En Ed). destruct t'; try discriminate. injection Q as -> ->. unfold zero.
      assert (zero_f (length E) E t = zero_f (S (length E)) E t) as <-.
      { apply (zero_f_stable E rank Hr). intros m Hm Hd. destruct (Hr id d En) as [Hle Hlt].
        assert (rank m < rank id)%nat; [|lia]. apply Hlt; [|exact Hd]. unfold decl_names. rewrite Ed. exact Hm. }
      destruct (length E); reflexivity.
  Qed.
  Lemma zero_flat T T' k : plain E T k -> plain E T' k -> flat_kind k = true -> zero E T = zero E T'.
  Proof.
    intros [_ H] [_ H'] Hf. destruct k; try discriminate.
    - rewrite !zero_bool; auto.
    - rewrite !zero_f32; auto.
    - rewrite !zero_f64; auto.
    - rewrite !zero_string; auto.
    - rewrite !zero_any; auto.
    - rewrite (zero_iface T _ H), (zero_iface T' _ H'). reflexivity.
  Qed.
End Zero.

(** ** Entries *)
Lemma Forall2_update {A B} (R : A -> B -> Prop) : forall l l' i x y, Forall2 R l l' -> R x y -> Forall2 R (update l i x) (update l' i y).
Proof. induction l as [|a l IH]; intros l' i x y H Hxy; inversion H; subst; destruct i; cbn; constructor; auto. Qed.
Lemma Forall2_nth {A B} (R : A -> B -> Prop) : forall l l' i x, Forall2 R l l' -> nth_error l i = Some x -> exists y, nth_error l' i = Some y /\ R x y.
Proof.
  induction l as [|a l IH]; intros l' i x H Hn; inversion H; subst; destruct i; cbn in *; try discriminate; [|eauto].
  injection Hn as ->. eauto.
Qed.
Lemma Forall2_len {A B} (R : A -> B -> Prop) l l' : Forall2 R l l' -> length l = length l'.
Proof. induction 1; cbn; congruence. Qed.
Lemma Forall2_repeat {A B} (R : A -> B -> Prop) a b n : R a b -> Forall2 R (repeat a n) (repeat b n).
Proof. intros H. induction n; cbn; constructor; auto. Qed.

Section Entries.
  Context (R : gval -> gval -> Prop) (V V' : lval -> gval -> gval -> Prop).

  Lemma slice_entries_wide slots slots' zv zv' : R zv zv' -> forall es l l' w,
    (forall e, In e es -> forall v v' x, R v v' -> V (snd e) v x -> exists x', V' (snd e) v' x' /\ R x x') ->
    (forall t i p, In (LInt t, p) es -> index_text t i -> slots' (Z.of_nat i + 1) = true) ->
    slice_entries slots zv V l es w -> Forall2 R l l' -> exists w', slice_entries slots' zv' V' l' es w' /\ Forall2 R w w'.
  Proof.
    intros Hz. induction es as [|e es IH]; intros l l' w HV HS H Hl.
    - inversion H; subst. exists l'. split; [constructor|exact Hl].
    - inversion H as [|l0 t i p es0 old v l1 Hi Ho Hv Hr|l0 t i p es0 v l1 Hi Hlen Hm Hs Hv Hr]; subst.
      + destruct (Forall2_nth R _ _ _ _ Hl Ho) as (old' & Ho' & HR). destruct (HV _ (or_introl eq_refl) _ _ _ HR Hv) as (v' & Hv' & HR').
        destruct (IH _ (update l' i v') _ ltac:(intros; eapply HV; eauto; right; assumption) ltac:(intros; eapply HS; eauto; right; eassumption)
                     Hr (Forall2_update R _ _ _ _ _ Hl HR')) as (w' & Hw & HR'').
        exists w'. split; [|exact HR'']. eapply se_in; eauto.
      + destruct (HV _ (or_introl eq_refl) _ _ _ Hz Hv) as (v' & Hv' & HR').
        destruct (IH _ (l' ++ repeat zv' (i - length l') ++ [v']) _ ltac:(intros; eapply HV; eauto; right; assumption)
                    ltac:(intros; eapply HS; eauto; right; eassumption) Hr) as (w' & Hw & HR'').
        { rewrite <- (Forall2_len R _ _ Hl). apply Forall2_app; [exact Hl|]. apply Forall2_app; [apply Forall2_repeat; exact Hz|]. auto. }
        exists w'. split; [|exact HR'']. eapply se_grow; eauto; [rewrite <- (Forall2_len R _ _ Hl); exact Hlen|].
        eapply HS; [left; reflexivity|exact Hi].
  Qed.
  Lemma array_entries_wide d : forall es l l' w,
    (forall e, In e es -> forall v v' x, R v v' -> V (snd e) v x -> exists x', V' (snd e) v' x' /\ R x x') ->
    array_entries d V l es w -> Forall2 R l l' -> exists w', array_entries d V' l' es w' /\ Forall2 R w w'.
  Proof.
    induction es as [|e es IH]; intros l l' w HV H Hl.
    - inversion H; subst. exists l'. split; [constructor|exact Hl].
    - inversion H as [|l0 t i p es0 old v l1 Hi Ho Hv Hr|l0 t z p es0 l1 Ht Hz Hp Hr]; subst.
      + destruct (Forall2_nth R _ _ _ _ Hl Ho) as (old' & Ho' & HR). destruct (HV _ (or_introl eq_refl) _ _ _ HR Hv) as (v' & Hv' & HR').
        destruct (IH _ (update l' i v') _ ltac:(intros; eapply HV; eauto; right; assumption) Hr (Forall2_update R _ _ _ _ _ Hl HR')) as (w' & Hw & HR'').
        exists w'. split; [|exact HR'']. eapply ae_in; eauto.
      + destruct (IH _ l' _ ltac:(intros; eapply HV; eauto; right; assumption) Hr Hl) as (w' & Hw & HR'').
        exists w'. split; [|exact HR'']. eapply ae_out; eauto. unfold blen in *. rewrite <- (Forall2_len R _ _ Hl). exact Hz.
  Qed.
End Entries.

Section Maps.
  Context (R : gval -> gval -> Prop).
  Definition mrel (a b : gval * gval) : Prop := fst a = fst b /\ R (snd a) (snd b).
  Lemma map_set_wide k x y : R x y -> forall m m', Forall2 mrel m m' -> Forall2 mrel (map_set k x m) (map_set k y m').
  Proof.
    intros Hxy. induction m as [|[k0 v0] m IH]; intros m' H; inversion H as [|a [k1 v1] ? ? [Hk Hv] Hr]; subst; cbn [map_set].
    - constructor; [|constructor]. split; [reflexivity|exact Hxy].
    - cbn [fst snd] in *. subst k1. destruct (key_eqb k0 k); constructor; auto; split; auto.
  Qed.
  Lemma map_entries_wide (K K' V V' : lval -> gval -> Prop) : forall es m m' w,
    (forall e, In e es -> forall x, K (fst e) x -> K' (fst e) x) ->
    (forall e, In e es -> forall x, V (snd e) x -> exists x', V' (snd e) x' /\ R x x') ->
    map_entries K V m es w -> Forall2 mrel m m' -> exists w', map_entries K' V' m' es w' /\ Forall2 mrel w w'.
  Proof.
    induction es as [|e es IH]; intros m m' w HK HV H Hm.
    - inversion H; subst. exists m'. split; [constructor|exact Hm].
    - inversion H as [|m0 k p es0 kv vv m1 Hk Hp Hh Hr]; subst.
      destruct (HV _ (or_introl eq_refl) _ Hp) as (x' & Hx' & HR).
      destruct (IH _ _ _ ltac:(intros; eapply HK; eauto; right; assumption) ltac:(intros; eapply HV; eauto; right; assumption) Hr
                  (map_set_wide kv vv x' HR _ _ Hm)) as (w' & Hw & HRw).
      exists w'. split; [|exact HRw]. econstructor; eauto. apply (HK _ (or_introl eq_refl)). exact Hk.
  Qed.
End Maps.

Ltac pk := repeat match goal with
  | A : plain ?E ?T _, B : has_unmarshal ?E ?T = Some _ |- _ => exfalso; destruct A; congruence
  | A : plain ?E ?T ?a, B : plain ?E ?T ?b |- _ =>
      tryif constr_eq a b then clear B
      else (let Q := fresh "Q" in assert (a = b) as Q by (destruct A, B; congruence);
            first [discriminate Q | injection Q as ?Q; subst | subst])
  end.

Section Wide.
  Context (X : Ext) (E : env) (new : bytes -> Prop).
  Hypothesis Henv : go_env E.
  Notation wider := (wider X E new).
  Notation same := (same_data X E).

  Lemma irange k k' z : ibits k <= ibits k' -> int_range k z -> int_range k' z.
  Proof.
    unfold int_range. intros Hb Hz. assert (2 ^ (ibits k - 1) <= 2 ^ (ibits k' - 1)); [|lia].
    apply Z.pow_le_mono_r; [lia|]. lia.
  Qed.
  Lemma urange k k' z : ubits k <= ubits k' -> uint_range k z -> uint_range k' z.
  Proof. unfold uint_range. intros Hb Hz. assert (2 ^ ubits k <= 2 ^ ubits k'); [|lia]. apply Z.pow_le_mono_r; lia. Qed.
  Lemma surange k k' z : ubits k < ibits k' -> uint_range k z -> int_range k' z.
  Proof.
    unfold uint_range, int_range. intros Hb Hz. assert (2 ^ ubits k <= 2 ^ (ibits k' - 1)); [|lia]. apply Z.pow_le_mono_r; lia.
  Qed.

  Lemma wider_is_ptr T T' : wider T T' -> is_ptr E T = is_ptr E T'.
  Proof.
    unfold is_ptr. intros H. destruct H; try reflexivity;
      repeat match goal with H : plain _ _ _ |- _ => destruct H as [_ H]; rewrite H end; try reflexivity.
  Qed.

  Lemma quoted_scalar_wide T T' t w : wider T T' -> quoted_scalar X E T t w -> exists w', quoted_scalar X E T' t w' /\ same T T' w w'.
  Proof.
    intros HW Hq. destruct HW as [T n Hu|T T' k Hk Hk' Hf|T T' k k' Hk Hk' Hb|T T' k k' Hk Hk' Hb|T T' k k' Hk Hk' Hb|T T' Hk Hk'| | | | | ];
      inversion Hq; subst; pk; try discriminate.
    - exists (VBool b). split; [apply qs_bool; assumption|eapply sa_flat; eassumption].
    - exists (VF64 f). split; [apply qs_f64; assumption|eapply sa_flat; eassumption].
    - exists (VF32 (f32_of_f64 f)). split; [apply qs_f32; assumption|eapply sa_flat; eassumption].
    - exists (VInt z). split; [eapply qs_int; [eassumption|assumption|]|eapply sa_int; eassumption]. eapply irange; eauto.
    - exists (VUint (num t)). split; [eapply qs_uint; [eassumption|assumption|]|eapply sa_uint; eassumption]. eapply urange; eauto.
    - exists (VInt (num t)). split; [eapply qs_int; [eassumption|apply it_pos; assumption|]|eapply sa_signed; eassumption]. eapply surange; eauto.
    - exists (VF64 f). split; [apply qs_f64; assumption|apply sa_float; assumption].
  Qed.

  Lemma same_ptr T T' t t' o v' : plain E T (KPtr t) -> plain E T' (KPtr t') -> same T T' (VPtr o) v' ->
    (o = None /\ v' = VPtr None) \/ exists x x', o = Some x /\ v' = VPtr (Some x') /\ same t t' x x'.
  Proof.
    intros Hk Hk' H. inversion H; subst; pk; try discriminate; [left; auto|right; eauto 6].
  Qed.

  Lemma quoted_wide T T' p v v' w : wider T T' -> same T T' v v' -> store_quoted X E T p v w ->
    exists w', store_quoted X E T' p v' w' /\ same T T' w w'.
  Proof.
    intros HW HS H. destruct H as [t v Hk|t n s o w Hk Hn Hq|v Hp|n s v w Hp Hn Hq].
    - destruct HW; pk; try discriminate.
      exists (VPtr None). split; [eapply sq_ptr_null; eassumption|eapply sa_ptr_nil; eassumption].
    - destruct HW; pk; try discriminate.
      match goal with HW : Wider.wider _ _ _ ?t ?t', Ha : plain _ _ (KPtr ?t), Hb : plain _ _ (KPtr ?t') |- _ =>
        destruct (quoted_scalar_wide t t' s w HW Hq) as (w' & Hw' & HR); destruct (same_ptr _ _ t t' o v' Ha Hb HS) as [[-> ->]|(x & x' & -> & -> & _)] end;
        (eexists; split; [eapply sq_ptr; eassumption|eapply sa_ptr; eassumption]).
    - exists v'. split; [apply sq_null; rewrite <- (wider_is_ptr T T' HW); exact Hp|exact HS].
    - destruct (quoted_scalar_wide T T' s w HW Hq) as (w' & Hw' & HR). exists w'. split; [|exact HR].
      apply sq_str; auto. rewrite <- (wider_is_ptr T T' HW). exact Hp.
  Qed.

  Lemma key_wide d k k' p x : wider_key E k k' -> store_key X E d k p x -> store_key X E d k' p x.
  Proof.
    intros [->|(a & a' & Ha & Ha' & Hm)] H; [exact H|]. inversion H as [? ? ? ? Hkk Hs|? ? t Hk Hu Hkk]; subst.
    2: { exfalso. pk. exact Hm. }
    apply sk_plain.
    { right. destruct Ha' as [_ Ha']. rewrite Ha'. destruct a; try contradiction; destruct a'; try contradiction; exact I. }
    destruct a; try contradiction; destruct a'; try contradiction.
    - inversion Hs; subst; pk; try discriminate.
      + rewrite (zero_bool E k), <- (zero_bool E k') by apply Ha || apply Ha'. eapply sto_scalar_null; [eassumption|reflexivity].
      + eapply sto_bool. eassumption.
    - inversion Hs; subst; pk; try discriminate.
      + rewrite (zero_int E k k0), <- (zero_int E k' k1) by apply Ha || apply Ha'. eapply sto_scalar_null; [eassumption|reflexivity].
      + eapply sto_int; [eassumption|assumption|]. eapply irange; eauto.
    - inversion Hs; subst; pk; try discriminate.
      + rewrite (zero_uint E k k0), <- (zero_uint E k' k1) by apply Ha || apply Ha'. eapply sto_scalar_null; [eassumption|reflexivity].
      + eapply sto_uint; [eassumption|assumption|]. eapply urange; eauto.
    - inversion Hs; subst; pk; try discriminate.
      + rewrite (zero_string E k), <- (zero_string E k') by apply Ha || apply Ha'. eapply sto_scalar_null; [eassumption|reflexivity].
      + eapply sto_string; [eassumption|assumption].
  Qed.

  (** zero values hold the same data *)
  Lemma zero_same : forall z T T', z = zero E T -> wider T T' -> same T T' (zero E T) (zero E T').
  Proof.
    induction z as [| | | | | | |l HF|l HF| |m HF| |v HF| |t v HF|l HF|] using gval_ind'; intros T T' Hz HW;
      destruct HW as [T n Hu|T T' k Hk Hk' Hf|T T' k k' Hk Hk' Hb|T T' k k' Hk Hk' Hb|T T' k k' Hk Hk' Hb|T T' Hk Hk'
        |T T' t0 t' Hk Hk' Hb HW|T T' n t0 t' Hk Hk' HW|T T' k k' t0 t' Hk Hk' HK HW|T T' t0 t' Hk Hk' HW|T T' id id' fs fs' Hk Hk' HF1 HF2];
      try (eapply sa_unm; eassumption);
      try (rewrite <- (zero_flat E T T' k) by assumption; eapply sa_flat; eassumption);
      try (rewrite (zero_int E T k), (zero_int E T' k') by apply Hk || apply Hk'; eapply sa_int; eassumption);
      try (rewrite (zero_uint E T k), (zero_uint E T' k') by apply Hk || apply Hk'; eapply sa_uint; eassumption);
      try (rewrite (zero_uint E T k), (zero_int E T' k') by apply Hk || apply Hk'; eapply sa_signed; eassumption);
      try (rewrite (zero_f32 E T), (zero_f64 E T') by apply Hk || apply Hk'; exact (sa_float X E T T' (S754_zero false) Hk Hk'));
      try (rewrite (zero_slice E T t0), (zero_slice E T' t') by apply Hk || apply Hk'; eapply sa_slice_nil; eassumption);
      try (rewrite (zero_map E T k t0), (zero_map E T' k' t') by apply Hk || apply Hk'; eapply sa_map_nil; eassumption);
      try (rewrite (zero_ptr E T t0), (zero_ptr E T' t') by apply Hk || apply Hk'; eapply sa_ptr_nil; eassumption);
      try (exfalso; rewrite (zero_array E T n t0 Henv (proj2 Hk)) in Hz; discriminate Hz);
      try (exfalso; rewrite (zero_struct E T id fs Henv (proj2 Hk)) in Hz; discriminate Hz).
    - rewrite (zero_array E T n t0 Henv (proj2 Hk)) in *. rewrite (zero_array E T' n t' Henv (proj2 Hk')). injection Hz as ->.
      eapply sa_array; try eassumption. destruct n as [|n]; [constructor|].
      apply Forall2_repeat. inversion HF as [|a b Ha Hr]; subst. eapply Ha; eauto.
    - rewrite (zero_struct E T id fs Henv (proj2 Hk)) in *. rewrite (zero_struct E T' id' fs' Henv (proj2 Hk')). injection Hz as ->.
      eapply sa_struct; try eassumption. intros key i f Hl. destruct (HF1 key i f Hl) as (i' & f' & Hl' & _ & HW).
      exists i', f', (zero E (f_ty f)), (zero E (f_ty f')). apply lookup_spec in Hl as (Hn & _ & _). pose proof Hl' as Hl2.
      apply lookup_spec in Hl2 as (Hn' & _ & _).
      split; [exact Hl'|]. split; [rewrite nth_error_map, Hn; reflexivity|]. split; [rewrite nth_error_map, Hn'; reflexivity|].
      rewrite Forall_forall in HF. eapply HF; [|reflexivity|exact HW]. apply in_map_iff. exists f. split; [reflexivity|]. eapply nth_error_In; eauto.
  Qed.

  (** ** Structs *)
  Lemma struct_wide d fs fs' :
    (forall key i f, lookup X fs key = Some (i, f) ->
       exists i' f', lookup X fs' key = Some (i', f') /\ string_tagged X E f = string_tagged X E f' /\ wider (f_ty f) (f_ty f')) ->
    (forall key, lookup X fs key = None -> lookup X fs' key <> None -> new key) ->
    forall es l l' w,
    (forall e, In e es -> forall k, key_text (fst e) k -> ~ new k) ->
    (forall e, In e es -> forall t t' v v' x, (exists key i f i' f', lookup X fs' key = Some (i', f') /\ lookup X fs key = Some (i, f) /\ t = f_ty f /\ t' = f_ty f') ->
       wider t t' -> same t t' v v' -> store X E d t (snd e) v x -> exists x', store X E d t' (snd e) v' x' /\ same t t' x x') ->
    (forall key i f, lookup X fs key = Some (i, f) ->
       exists i' f' x x', lookup X fs' key = Some (i', f') /\ nth_error l i = Some x /\ nth_error l' i' = Some x' /\ same (f_ty f) (f_ty f') x x') ->
    struct_entries X E d fs (store X E d) l es w ->
    exists w', struct_entries X E d fs' (store X E d) l' es w' /\
    (forall key i f, lookup X fs key = Some (i, f) ->
       exists i' f' x x', lookup X fs' key = Some (i', f') /\ nth_error w i = Some x /\ nth_error w' i' = Some x' /\ same (f_ty f) (f_ty f') x x').
  Proof.
    intros HF1 HF2. induction es as [|e es IH]; intros l l' w HN HV Hl H.
    - apply struct_entries_nil in H as ->. exists l'. split; [constructor|exact Hl].
    - apply struct_entries_cons in H as (l1 & Hs & H).
      assert (exists l1', step X E d fs' (store X E d) l' e l1' /\
        (forall key i f, lookup X fs key = Some (i, f) ->
           exists i' f' x x', lookup X fs' key = Some (i', f') /\ nth_error l1 i = Some x /\ nth_error l1' i' = Some x' /\ same (f_ty f) (f_ty f') x x'))
        as (l1' & Hs' & Hl1).
      { inversion Hs as [l0 kp k i f p old v Hkt Hf Hn Hv|l0 kp k p Hkt Hf Hst]; subst.
        - destruct (HF1 k i f Hf) as (i' & f' & Hf' & Hq & HW). destruct (Hl k i f Hf) as (i2 & f2 & x & x' & Hf2 & Hx & Hx' & HS).
          rewrite Hf' in Hf2. injection Hf2 as <- <-. rewrite Hn in Hx. injection Hx as <-.
          assert (exists v', FV X E (store X E d) f' p x' v' /\ same (f_ty f) (f_ty f') v v') as (v' & Hv' & HS').
          { unfold FV in *. rewrite <- Hq. destruct (string_tagged X E f).
            - eapply quoted_wide; eauto.
            - apply (HV (kp, p) (or_introl eq_refl) _ _ old x' v); auto. exists k, i, f, i', f'. auto. }
          exists (update l' i' v'). split; [eapply step_known; eauto|].
          intros key j g Hg. destruct (Hl key j g Hg) as (j' & g' & y & y' & Hg' & Hy & Hy' & HSy).
          destruct (bytes_eqb key k) eqn:Ek.
          + apply bytes_eqb_eq in Ek as ->. rewrite Hf in Hg. injection Hg as <- <-. rewrite Hf' in Hg'. injection Hg' as <- <-.
            exists i', f', v, v'. split; [exact Hf'|]. split; [apply nth_update_same, nth_error_Some; congruence|].
            split; [apply nth_update_same, nth_error_Some; congruence|exact HS'].
          + assert (key <> k) as Hne by (intros ->; assert (bytes_eqb k k = true) by (apply bytes_eqb_eq; reflexivity); congruence).
            exists j', g', y, y'. split; [exact Hg'|]. split; [|split; [|exact HSy]].
            * rewrite nth_update_other; [exact Hy|]. intros ->. apply lookup_spec in Hf as (A & _ & B). apply lookup_spec in Hg as (A' & _ & B'). congruence.
            * rewrite nth_update_other; [exact Hy'|]. intros ->. apply lookup_spec in Hf' as (A & _ & B). apply lookup_spec in Hg' as (A' & _ & B'). congruence.
        - exists l'. split; [|exact Hl]. eapply step_unknown; eauto.
          destruct (lookup X fs' k) as [q|] eqn:Eq; [|reflexivity]. exfalso. apply (HN (kp, p) (or_introl eq_refl) k Hkt). apply HF2; congruence. }
      destruct (IH l1 l1' w) as (w' & Hw & Hw'); auto.
      + intros e0 He0. apply HN. right. exact He0.
      + intros e0 He0. apply HV. right. exact He0.
      + exists w'. split; [apply struct_entries_cons; eauto|exact Hw'].
  Qed.

  (** ** Everything *)
  Context (T0 : gty) (data : bytes).
  Hypothesis Halloc : allocatable X E T0 data.
  Definition part (s : bytes) : Prop := exists pre post, data = pre ++ s ++ post.
  Lemma part_app a s b : part (a ++ s ++ b) -> part s.
  Proof. intros (pre & post & Hd). exists (pre ++ a), (b ++ post). rewrite Hd, <- !app_assoc. reflexivity. Qed.
  Lemma part_body p n es : body_of p n es -> part (text p) -> part n /\ part (body es).
  Proof.
    intros Hb Hp. destruct Hb as [n es|cn cls n es Hcn Hcl]; cbn [text] in Hp; fold (body es) in Hp.
    - split; [apply (part_app (bs "a:") n (bs ":{" ++ body es ++ bs "}")); exact Hp|].
      apply (part_app (bs "a:" ++ n ++ bs ":{") (body es) (bs "}")). rewrite <- !app_assoc. exact Hp.
    - split; [apply (part_app (bs "O:" ++ cn ++ bs ":" ++ quote ++ cls ++ quote ++ bs ":") n (bs ":{" ++ body es ++ bs "}")); rewrite <- !app_assoc; exact Hp|].
      apply (part_app (bs "O:" ++ cn ++ bs ":" ++ quote ++ cls ++ quote ++ bs ":" ++ n ++ bs ":{") (body es) (bs "}")). rewrite <- !app_assoc. exact Hp.
  Qed.
  Lemma part_entry es kp q : In (kp, q) es -> part (body es) -> part (text kp) /\ part (text q).
  Proof.
    intros Hi Hp. apply in_split in Hi as (a & b & ->). unfold body in Hp. rewrite flat_map_app in Hp. cbn [flat_map fst snd] in Hp.
    split; [apply (part_app (flat_map (fun e => text (fst e) ++ text (snd e)) a) (text kp) (text q ++ flat_map (fun e => text (fst e) ++ text (snd e)) b))
           |apply (part_app (flat_map (fun e => text (fst e) ++ text (snd e)) a ++ text kp) (text q) (flat_map (fun e => text (fst e) ++ text (snd e)) b))];
      rewrite <- ?app_assoc in *; exact Hp.
  Qed.
  Lemma slots_ok U t n : inside E T0 U -> plain E U (KSlice t) -> numeral n -> part n -> x_slots X t (num n) = true.
  Proof. intros HI Hk Hn (pre & post & Hd). apply (Halloc U t (num n) HI Hk). exists pre, n, post. auto. Qed.
  Lemma index_ok U t s i : inside E T0 U -> plain E U (KSlice t) -> index_text s i -> part (text (LInt s)) -> x_slots X t (Z.of_nat i + 1) = true.
  Proof.
    intros HI Hk [Hs _] Hp. apply (part_app (bs "i:") s (bs ";")) in Hp. destruct Hp as (pre & post & Hd).
    apply (Halloc U t (Z.of_nat i) HI Hk). eapply int_text_written; eauto. lia.
  Qed.
  Lemma mentions_body p n es kp q k : body_of p n es -> In (kp, q) es -> key_text kp k -> mentions p k.
  Proof. intros Hb Hi Hk. destruct Hb; [eapply mn_arr|eapply mn_obj]; eauto. Qed.
  Lemma mentions_inside p n es kp q k : body_of p n es -> In (kp, q) es -> mentions q k -> mentions p k.
  Proof. intros Hb Hi Hk. destruct Hb; [eapply mn_arr_in|eapply mn_obj_in]; eauto. Qed.

  Lemma byte_same t t' b : is_byte E t = true -> is_byte E t' = true -> wider t t' -> same t t' (byte_val b) (byte_val b).
  Proof.
    unfold is_byte. intros Hb Hb' HW. destruct HW; try (exfalso; kinds; match goal with A : kind_of E ?T = _ |- _ => rewrite A in Hb; discriminate end).
    - eapply sa_unm; eauto.
    - exfalso. destruct H as [_ H]. rewrite H in Hb. destruct k; discriminate.
    - eapply sa_uint; eauto.
    - exfalso. destruct H0 as [_ H0]. rewrite H0 in Hb'. discriminate.
  Qed.

  Lemma wide_f : forall n d T T' p v v' w, (length (text p) <= n)%nat -> inside E T0 T' -> part (text p) -> (forall k, mentions p k -> ~ new k) ->
    wider T T' -> same T T' v v' -> store X E d T p v w -> exists w', store X E d T' p v' w' /\ same T T' w w'.
  Proof.
    induction n as [|n IH]; intros d T T' p v v' w HL HI HP HN HW HS H; [pose proof (text_pos p); lia|].
    assert (forall d T T' p v v' w, (length (text p) <= S n)%nat -> is_ptr E T = false -> inside E T0 T' -> part (text p) -> (forall k, mentions p k -> ~ new k) ->
      wider T T' -> same T T' v v' -> store X E d T p v w -> exists w', store X E d T' p v' w' /\ same T T' w w') as G.
    { clear d T T' p v v' w HL HI HP HN HW HS H. intros d T T' p v v' w HL Hnp HI HP HN HW HS H.
      assert (forall nn es kp q, body_of p nn es -> In (kp, q) es ->
                (length (text q) <= n)%nat /\ part (text kp) /\ part (text q) /\ (forall k, mentions q k -> ~ new k)) as Hsub.
      { intros nn es kp q Hb Hi. pose proof (in_body (kp, q) es Hi) as Hlen. pose proof (body_of_len p nn es Hb) as HL2. cbn [fst snd] in Hlen.
        destruct (part_body p nn es Hb HP) as [_ Hp2]. destruct (part_entry es kp q Hi Hp2) as [Hp3 Hp4].
        split; [lia|]. split; [exact Hp3|]. split; [exact Hp4|]. intros k Hk. apply HN. eapply mentions_inside; eauto. }
      destruct HW as [T u Hu|T T' k Hk Hk' Hf|T T' k k' Hk Hk' Hb|T T' k k' Hk Hk' Hb|T T' k k' Hk Hk' Hb|T T' Hk Hk'
        |T T' t t' Hk Hk' Hb HW|T T' m t t' Hk Hk' HW|T T' k k' t t' Hk Hk' HK HW|T T' t t' Hk Hk' HW|T T' id id' fs fs' Hk Hk' HF1 HF2].
      - inversion HS; subst; pk. exists w. split; [exact H|eapply sa_unm; eauto].
      - assert (v' = v) as -> by (inversion HS; subst; pk; try discriminate; reflexivity).
        exists w. split; [|eapply sa_flat; eauto].
        inversion H; subst; pk; try discriminate; try (econstructor; eauto; fail).
      - inversion HS; subst; pk; try discriminate. inversion H; subst; pk; try discriminate.
        + eexists. split; [eapply sto_scalar_null; [eassumption|reflexivity]|eapply sa_int; eauto].
        + eexists. split; [eapply sto_int; [eassumption|eassumption|eapply irange; eauto]|eapply sa_int; eauto].
      - inversion HS; subst; pk; try discriminate. inversion H; subst; pk; try discriminate.
        + eexists. split; [eapply sto_scalar_null; [eassumption|reflexivity]|eapply sa_uint; eauto].
        + eexists. split; [eapply sto_uint; [eassumption|eassumption|eapply urange; eauto]|eapply sa_uint; eauto].
      - inversion HS; subst; pk; try discriminate. inversion H; subst; pk; try discriminate.
        + eexists. split; [eapply sto_scalar_null; [eassumption|reflexivity]|eapply sa_signed; eauto].
        + eexists. split; [eapply sto_int; [eassumption|eapply it_pos; eassumption|eapply surange; eauto]|eapply sa_signed; eauto].
      - inversion HS; subst; pk; try discriminate. inversion H; subst; pk; try discriminate.
        + eexists. split; [eapply sto_scalar_null; [eassumption|reflexivity]|eapply sa_float; eauto].
        + eexists. split; [eapply sto_f64; eassumption|eapply sa_float; eauto].
      - assert (inside E T0 t') as HI' by (eapply in_step; [exact HI|]; eapply co_slice; eauto).
        inversion H; subst; pk; try discriminate.
        + exists v'. split; [eapply sto_bytes_null; eauto; congruence|exact HS].
        + eexists. split; [eapply sto_bytes; eauto; congruence|]. eapply sa_slice; eauto.
          match goal with |- Forall2 _ (map _ ?x) _ => generalize x end. intros x. induction x as [|c x IHx]; constructor; [|exact IHx].
          apply byte_same; congruence.
        + eexists. split; [eapply sto_slice_null; eauto; congruence|eapply sa_slice_nil; eauto].
        + eexists. split; [eapply sto_slice_empty; eauto|eapply sa_slice_nil; eauto].
        + match goal with HE : slice_entries _ (zero E ?t) _ [] ?es ?l |- _ =>
            destruct (slice_entries_wide (same t t') (store X E (d + 1) t) (store X E (d + 1) t') (x_slots X t) (x_slots X t') (zero E t) (zero E t')
              (zero_same _ t t' eq_refl HW) es [] [] l) as (l' & Hl' & HR); auto end.
          * intros [kp q] Hi x x' y Hxx Hy. destruct (Hsub _ _ kp q (body_arr _ _) Hi) as (A & B & C & D). eapply IH; eauto.
          * intros s i q Hi Hs. destruct (Hsub _ _ _ q (body_arr _ _) Hi) as (A & B & C & D). exact (index_ok T' t' s i HI Hk' Hs B).
          * exists (VSlice (Some l')). split; [|eapply sa_slice; eauto]. eapply sto_slice; eauto.
            apply (slots_ok T' t' _ HI Hk'); [assumption|]. eapply part_body; [apply body_arr|exact HP].
      - assert (inside E T0 t') as HI' by (eapply in_step; [exact HI|]; eapply co_array; eauto).
        inversion H; subst; pk; try discriminate.
        + exists v'. split; [eapply sto_array_null; eauto|exact HS].
        + eexists. split; [eapply sto_array_empty; eauto|]. eapply sa_array; eauto. apply Forall2_repeat. eapply zero_same; eauto.
        + match goal with HE : array_entries _ (store _ _ _ ?t) ?l0 ?es ?l, Hq : plain E T' (KArray ?m _) |- _ =>
            destruct (array_entries_wide (same t t') (store X E (d + 1) t) (store X E (d + 1) t') (d + 1) es l0 (repeat (zero E t') m) l) as (l' & Hl' & HR); auto end.
          * intros [kp q] Hi x x' y Hxx Hy. destruct (Hsub _ _ kp q (body_arr _ _) Hi) as (A & B & C & D). eapply IH; eauto.
          * apply Forall2_repeat. eapply zero_same; eauto.
          * exists (VArr l'). split; [|eapply sa_array; eauto]. eapply sto_array; eauto.
      - assert (inside E T0 t') as HI' by (eapply in_step; [exact HI|]; eapply co_val; eauto).
        apply (store_map_inv X E d T k t p v w Hk) in H as (Hd & [[-> ->]|(nn & es & o & m & Hbo & Hn & Hm & -> & -> & He)]).
        + eexists. split; [eapply sto_map_null; eauto|eapply sa_map_nil; eauto].
        + assert (exists o', v' = VMap o' /\ Forall2 (mrel (same t t')) (match o with Some m0 => m0 | None => [] end) (match o' with Some m0 => m0 | None => [] end))
            as (o' & -> & Ho).
          { inversion HS; subst; pk; try discriminate; [exists None; split; [reflexivity|constructor]|]. eexists (Some _). split; [reflexivity|]. eassumption. }
          destruct (map_entries_wide (same t t') (store_key X E (d + 1) k) (store_key X E (d + 1) k') (fun q w => store X E (d + 1) t q (zero E t) w)
            (fun q w => store X E (d + 1) t' q (zero E t') w) es (match o with Some m0 => m0 | None => [] end) (match o' with Some m0 => m0 | None => [] end) m) as (m' & Hm' & HR); auto.
          * intros e _ x. apply key_wide. exact HK.
          * intros [kp q] Hi x Hx. destruct (Hsub _ _ kp q Hbo Hi) as (A & B & C & D). eapply IH; eauto. eapply zero_same; eauto.
          * exists (VMap (Some m')). split; [eapply sto_map; eauto|eapply sa_map; eauto].
      - exfalso. unfold is_ptr in Hnp. destruct Hk as [_ Hk]. rewrite Hk in Hnp. discriminate.
      - apply (store_struct_inv X E d T id fs p v w Hk) in H as (Hd & [[-> ->]|(nn & es & l & l1 & Hbo & Hn & -> & -> & He)]).
        + exists v'. split; [eapply sto_struct_null; eauto|exact HS].
        + assert (exists l', v' = VStruct l' /\ forall key i f, lookup X fs key = Some (i, f) ->
             exists i' f' x x', lookup X fs' key = Some (i', f') /\ nth_error l i = Some x /\ nth_error l' i' = Some x' /\ same (f_ty f) (f_ty f') x x')
            as (l' & -> & Hl) by (inversion HS; subst; pk; try discriminate; eauto).
          destruct (struct_wide (d + 1) fs fs' HF1 HF2 es l l' l1) as (w' & Hw & HR); auto.
          * intros [kp q] Hi k Hkt. apply HN. eapply mentions_body; eauto.
          * intros [kp q] Hi t t' x x' y (key & i & f & i' & f' & Hf' & Hf & -> & ->) HW Hxx Hy.
            destruct (Hsub _ _ kp q Hbo Hi) as (A & B & C & D). eapply IH; eauto.
            eapply in_step; [exact HI|]. apply lookup_spec in Hf' as (Hn' & Hig & _). eapply co_field; eauto. eapply nth_error_In; eauto.
          * exists (VStruct w'). split; [eapply sto_struct; eauto|eapply sa_struct; eauto]. }
    destruct (is_ptr E T) eqn:Ep; [|eapply G; eauto].
    destruct HW as [T u Hu|T T' k Hk Hk' Hf|T T' k k' Hk Hk' Hb|T T' k k' Hk Hk' Hb|T T' k k' Hk Hk' Hb|T T' Hk Hk'
        |T T' t t' Hk Hk' Hb HW|T T' m t t' Hk Hk' HW|T T' k k' t t' Hk Hk' HK HW|T T' t t' Hk Hk' HW|T T' id id' fs fs' Hk Hk' HF1 HF2];
      try (exfalso; unfold is_ptr in Ep; rewrite (proj2 Hk) in Ep; try discriminate Ep; destruct k; discriminate).
    - inversion HS; subst; pk. exists w. split; [exact H|eapply sa_unm; eauto].
    - inversion H; subst; pk; try discriminate.
      + eexists. split; [eapply sto_ptr_null; eauto|eapply sa_ptr_nil; eauto]. rewrite <- (wider_is_ptr _ _ HW). assumption.
      + match type of HW with Wider.wider _ _ _ ?t _ => assert (exists o', v' = VPtr o' /\ same t t' (match o with Some x => x | None => zero E t end) (match o' with Some x => x | None => zero E t' end)) as (o' & -> & Ho) end.
        { destruct (same_ptr T T' _ t' o v' Hk Hk' HS) as [[-> ->]|(x & x' & -> & -> & Hx)]; [exists None|exists (Some x')]; (split; [reflexivity|]); auto.
          eapply zero_same; eauto. }
        match goal with HX : Wider.wider _ _ _ ?t t', Hs : store _ _ _ ?t _ _ ?w0 |- _ =>
          destruct (G d t t' p (match o with Some x => x | None => zero E t end) (match o' with Some x => x | None => zero E t' end) w0) as (x & Hx & HR); auto end.
        { eapply in_step; [exact HI|]. eapply co_ptr; eauto. }
        eexists. split; [eapply sto_ptr; eauto|eapply sa_ptr; eauto]. rewrite <- (wider_is_ptr _ _ HW). assumption.
  Qed.
  Lemma wide d T' T p v v' w : inside E T0 T' -> part (text p) -> (forall k, mentions p k -> ~ new k) ->
    wider T T' -> same T T' v v' -> store X E d T p v w -> exists w', store X E d T' p v' w' /\ same T T' w w'.
  Proof. intros. eapply wide_f; eauto. Qed.
End Wide.
