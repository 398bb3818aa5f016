(** Destinations of type any, slices, arrays and maps (C13, C18-C22). *)
From Coq Require Import Strings.String Strings.Byte ZArith List Bool Lia Permutation Floats.SpecFloat.
From Verif Require Import Base GoTypes Tags Unmarshal Grammar Denote Elements NumFacts TextFacts ScanFacts Complete Typing Safe Api CompileFacts UnmFacts StoreFacts StructFacts.
Import ListNotations.
Open Scope Z_scope.

(** ** C13 *)
Section Depth.
  Context (X : Ext) (E : env).
  Lemma text_inj0 p q : wf p -> wf q -> text p = text q -> p = q.
  Proof. intros Hp Hq H. destruct (text_inj p q [] [] Hp Hq) as [-> _]; [rewrite !app_nil_r; exact H|reflexivity]. Qed.
  Lemma decodes_depth data T v w : small data -> Decodes X E data T v w -> exists p, data = text p /\ wf p /\ nesting p <= 10000.
  Proof.
    intros Hsm H. apply decodes_inv in H as (_ & p & -> & H); [|exact Hsm]. exists p. split; [reflexivity|].
    split; [eapply store_wf; eauto|]. apply store_nest in H. unfold nest_le, limit in H. lia.
  Qed.
  Lemma too_deep T p v w : small (text p) -> wf p -> 10000 < nesting p -> ~ Decodes X E (text p) T v w.
  Proof.
    intros Hsm Hw Hn H. apply decodes_depth in H as (q & Ht & Hq & Hl); [|exact Hsm].
    apply text_inj0 in Ht; auto. subst q. lia.
  Qed.
  Lemma any_wf d p w : any_val X d p w -> wf p.
  Proof. intros H. eapply (store_wf X [] d TAny p (VIface None) w). eapply sto_any; [split; reflexivity|exact H]. Qed.
  Lemma any_depth T p v w : small (text p) -> plain E T KAny -> (exists d, any_val X d p w) ->
    (Decodes X E (text p) T v w <-> nesting p <= 10000).
  Proof.
    intros Hsm Hk [d H]. split.
    - intros HD. destruct (Z_lt_ge_dec 10000 (nesting p)); [|lia]. exfalso. eapply too_deep; eauto. eapply any_wf; eauto.
    - intros Hn. exists 1%nat. apply unmarshal_ok; [exact Hsm|eapply compile_scalar; eauto|]. eapply sto_any; [exact Hk|].
      eapply any_shift; [exact H|]. unfold limit. lia.
  Qed.
  Lemma room_decodes T p v w : small (text p) -> supported X E T -> nesting p < 10000 ->
    (exists d, store X E d T p v w) -> Decodes X E (text p) T v w.
  Proof. intros Hsm Hs Hn [d H]. apply decodes_store; auto. eapply store_shift; [|exact H]. exact Hn. Qed.
End Depth.

(** ** C18 *)
Section Any.
  Context (X : Ext) (E : env).
  Lemma bytes_eqb_sym a b : bytes_eqb a b = bytes_eqb b a.
  Proof.
    destruct (bytes_eqb a b) eqn:H, (bytes_eqb b a) eqn:H'; auto.
    - apply bytes_eqb_eq in H as ->. apply bytes_eqb_neq in H'. congruence.
    - apply bytes_eqb_eq in H' as ->. apply bytes_eqb_neq in H. congruence.
  Qed.
  Lemma map_set_forall (P : gval * gval -> Prop) k v m : Forall P m -> (forall k', (exists v', P (k', v')) \/ k' = k -> P (k', v)) ->
    Forall P (map_set k v m).
  Proof.
    intros H HP. induction H as [|[k' v'] m Hp H IH]; cbn; [constructor; [apply HP; auto|constructor]|].
    destruct (key_eqb k' k); constructor; auto. apply HP. left. eauto.
  Qed.
  (** keys on which key_eqb is symmetric *)
  Lemma map_set_distinct (Q : gval -> Prop) k v m : (forall a b, Q a -> Q b -> key_eqb a b = key_eqb b a) ->
    Q k -> Forall (fun e => Q (fst e)) m -> distinct_keys m -> distinct_keys (map_set k v m).
  Proof.
    intros HS Hk HQ H. revert HQ. induction H as [|k' v' m Hf H IH]; intros HQ; cbn; [repeat constructor|].
    inversion HQ as [|? ? Hk' HQ']; subst. cbn in Hk'. destruct (key_eqb k' k) eqn:Eq; constructor; auto.
    clear IH H HQ. induction m as [|[k2 v2] m IH2]; cbn.
    - repeat constructor. cbn. rewrite HS; auto.
    - inversion Hf; subst. inversion HQ'; subst. destruct (key_eqb k2 k); constructor; auto.
  Qed.
  Lemma php_key_sym a b : php_key a -> php_key b -> key_eqb a b = key_eqb b a.
  Proof.
    intros Ha Hb. destruct Ha, Hb; cbn; try reflexivity; [apply Z.eqb_sym|apply bytes_eqb_sym].
  Qed.
  Lemma str_key_sym a b : (exists s, a = VStr s) -> (exists s, b = VStr s) -> key_eqb a b = key_eqb b a.
  Proof. intros [s ->] [s' ->]. apply bytes_eqb_sym. Qed.

  Lemma any_entries_shape (K : lval -> gval -> Prop) (V : lval -> gval -> Prop) (Q : gval -> Prop) (P : gval -> Prop) es :
    (forall a b, Q a -> Q b -> key_eqb a b = key_eqb b a) ->
    (forall k w, K k w -> Q w) -> (forall e w, In e es -> V (snd e) w -> P w) -> forall m m', map_entries K V m es m' ->
    Forall (fun e => Q (fst e) /\ P (snd e)) m -> distinct_keys m ->
    Forall (fun e => Q (fst e) /\ P (snd e)) m' /\ distinct_keys m'.
  Proof.
    intros HS HK. induction es as [|[k p] es IH]; intros HV m m' H Hm Hd; inversion H; subst; [auto|].
    eapply IH; [|eassumption| |].
    - intros. eapply HV; [right|]; eauto.
    - apply map_set_forall; [exact Hm|]. intros k' Hk'. cbn. split.
      + destruct Hk' as [(v' & Hk' & _)| ->]; [exact Hk'|eauto].
      + eapply (HV (k, p)); [left; reflexivity|assumption].
    - eapply map_set_distinct; eauto. eapply Forall_impl; [|exact Hm]. cbn. tauto.
  Qed.
  Lemma any_shape_f : forall n d p w, (length (text p) <= n)%nat -> any_val X d p w -> php_any w.
  Proof.
    induction n as [|n IH]; intros d p w HL H; [pose proof (text_pos p); lia|].
    inversion H; subst; try (constructor; assumption).
    - pose proof (arr_len n0 es).
      eapply any_entries_shape with (Q := php_key) (P := php_any) in H3 as [Hf Hd]; [constructor; auto|apply php_key_sym| | |constructor|constructor].
      + intros k w Hk. inversion Hk; subst; constructor; auto.
      + intros e w He Hv. pose proof (in_body e es He). eapply IH; [|exact Hv]. lia.
    - pose proof (obj_len cn cls n0 es).
      eapply any_entries_shape with (Q := fun k => exists s, k = VStr s) (P := php_any) in H4 as [Hf Hd]; [constructor; auto|apply str_key_sym| | |constructor|constructor].
      + intros k w Hk. inversion Hk; subst; eauto.
      + intros e w He Hv. pose proof (in_body e es He). eapply IH; [|exact Hv]. lia.
  Qed.
  Lemma any_closed data T v w : small data -> plain E T KAny -> Decodes X E data T v w -> php_any w.
  Proof.
    intros Hsm Hk H. apply decodes_inv in H as (_ & p & -> & H); [|exact Hsm]. apply store_any_inv in H; [|exact Hk].
    exact (any_shape_f _ _ _ _ (le_n _) H).
  Qed.
  Lemma any_prior data T v v' w : small data -> plain E T KAny -> Decodes X E data T v w -> Decodes X E data T v' w.
  Proof.
    intros Hsm Hk H. apply decodes_inv in H as (_ & p & -> & H); [|exact Hsm]. apply store_any_inv in H; [|exact Hk].
    exists 1%nat. apply unmarshal_ok; [exact Hsm|eapply compile_scalar; eauto|]. eapply sto_any; eauto.
  Qed.
End Any.

(** ** C19, C20: sequences *)
Section Seq.
  Lemma nth_update_z (l : list gval) i j v z : (j < length l)%nat -> nth i (update l j v) z = if Nat.eqb i j then v else nth i l z.
  Proof.
    revert i j. induction l as [|x l IH]; intros [|i] [|j] H; cbn in *; try lia; auto. apply IH. lia.
  Qed.
  Lemma nth_grow (l : list gval) i j v z : (length l <= j)%nat ->
    nth i (l ++ repeat z (j - length l) ++ [v]) z = if Nat.eqb i j then v else nth i l z.
  Proof.
    intros H. destruct (Nat.eqb_spec i j) as [->|Hne].
    - rewrite app_nth2 by lia. rewrite app_nth2 by (rewrite repeat_length; lia). rewrite repeat_length.
      replace (j - length l - (j - length l))%nat with 0%nat by lia. reflexivity.
    - destruct (Nat.lt_ge_cases i (length l)) as [Hi|Hi]; [apply app_nth1; exact Hi|].
      rewrite app_nth2 by lia. rewrite (nth_overflow l) by lia.
      destruct (Nat.lt_ge_cases i j) as [Hij|Hij].
      + rewrite app_nth1 by (rewrite repeat_length; lia). apply nth_repeat.
      + apply nth_overflow. rewrite app_length, repeat_length. cbn. lia.
  Qed.
  Lemma index_text_det t i j : index_text t i -> index_text t j -> i = j.
  Proof. intros [H _] [H' _]. apply Nat2Z.inj. eapply int_text_det; eauto. Qed.

  Lemma slice_landed slots zv V l es l' : slice_entries slots zv V l es l' -> forall is, indexes es is ->
    length l' = Nat.max (length l) (list_max (map S is)) /\
    forall i, landed V i es (nth i l zv) (nth i l' zv).
  Proof.
    induction 1 as [l|l t j p es old v l' Hi Hn Hv H IH|l t j p es v l' Hi Hl Hm Hs Hv H IH]; intros is Hes;
      inversion Hes as [|? i0 ? is' (t0 & Ht0 & Hi0) Hes']; subst.
    - cbn. split; [lia|]. constructor.
    - cbn in Ht0. injection Ht0 as <-. destruct (index_text_det _ _ _ Hi Hi0). destruct (IH _ Hes') as [IHl IHi].
      assert (j < length l)%nat as Hj by (eapply nth_error_lt; eauto).
      rewrite upd_length in IHl. cbn [map list_max fold_right]. split; [change (fold_right Nat.max 0%nat (map S is')) with (list_max (map S is')); lia|].
      intros i. specialize (IHi i). rewrite nth_update_z in IHi by exact Hj. destruct (Nat.eqb_spec i j) as [Eij|Hne].
      + rewrite Eij in *. eapply la_here; [apply Hi| |exact IHi]. rewrite (nth_error_nth _ _ zv Hn). exact Hv.
      + eapply la_other; [apply Hi|lia|exact IHi].
    - cbn in Ht0. injection Ht0 as <-. destruct (index_text_det _ _ _ Hi Hi0). destruct (IH _ Hes') as [IHl IHi].
      rewrite !app_length, repeat_length in IHl. cbn [length] in IHl. cbn [map list_max fold_right].
      split; [change (fold_right Nat.max 0%nat (map S is')) with (list_max (map S is')); lia|].
      intros i. specialize (IHi i). rewrite nth_grow in IHi by exact Hl. destruct (Nat.eqb_spec i j) as [Eij|Hne].
      + rewrite Eij in *. eapply la_here; [apply Hi| |exact IHi]. rewrite (nth_overflow l) by exact Hl. exact Hv.
      + eapply la_other; [apply Hi|lia|exact IHi].
  Qed.
  Lemma landed_cons_inv V i j t p es v v2 : index_text t j -> landed V i ((LInt t, p) :: es) v v2 ->
    if Nat.eqb i j then exists v1, V p v v1 /\ landed V i es v1 v2 else landed V i es v v2.
  Proof.
    intros [Ht _] H. inversion H; subst.
    - match goal with HT : int_text t (Z.of_nat i) |- _ => pose proof (int_text_det _ _ _ Ht HT) as D end.
      assert (i = j) as -> by lia. rewrite Nat.eqb_refl. eauto.
    - match goal with HT : int_text t ?z, HN : ?z <> _ |- _ => pose proof (int_text_det _ _ _ Ht HT) as D end.
      destruct (Nat.eqb_spec i j) as [Eij|Eij]; [exfalso; lia|assumption].
  Qed.
  Lemma landed_slice slots zv V es is : indexes es is ->
    Forall (fun i => Z.of_nat i < max_int64 /\ slots (Z.of_nat i + 1) = true) is ->
    forall l l', length l' = Nat.max (length l) (list_max (map S is)) ->
    (forall i, (i < length l')%nat -> landed V i es (nth i l zv) (nth i l' zv)) ->
    slice_entries slots zv V l es l'.
  Proof.
    induction 1 as [|[k p] j es is (t & Ht & Hi) Hes IH]; intros HF l l' Hlen HL.
    - cbn in Hlen. assert (l' = l) as ->; [|constructor]. symmetry. apply (nth_ext _ _ zv zv); [lia|].
      intros i Hi'. specialize (HL i ltac:(lia)). inversion HL; reflexivity.
    - cbn in Ht. subst k. inversion HF as [|? ? [Hm Hsl] HF']; subst. cbn [map list_max fold_right] in Hlen.
      change (fold_right Nat.max 0%nat (map S is)) with (list_max (map S is)) in Hlen.
      assert (j < length l')%nat as Hj by lia.
      pose proof (HL j Hj) as HLj. apply (landed_cons_inv V j j t p es _ _ Hi) in HLj. rewrite Nat.eqb_refl in HLj.
      destruct HLj as (v1 & HV & HLj).
      destruct (Nat.lt_ge_cases j (length l)) as [Hlt|Hge].
      + eapply se_in; [exact Hi|apply nth_error_nth'; exact Hlt|exact HV|]. apply IH; [exact HF'|rewrite upd_length; lia|].
        intros i Hil. rewrite nth_update_z by exact Hlt. pose proof (HL i Hil) as HLi. apply (landed_cons_inv V i j t p es _ _ Hi) in HLi.
        destruct (Nat.eqb_spec i j) as [->|Hne]; [exact HLj|exact HLi].
      + rewrite (nth_overflow l) in HV by exact Hge.
        eapply se_grow; [exact Hi|exact Hge|exact Hm|exact Hsl|exact HV|]. apply IH; [exact HF'|rewrite !app_length, repeat_length; cbn [length]; lia|].
        intros i Hil. rewrite nth_grow by exact Hge. pose proof (HL i Hil) as HLi. apply (landed_cons_inv V i j t p es _ _ Hi) in HLi.
        destruct (Nat.eqb_spec i j) as [->|Hne]; [exact HLj|exact HLi].
  Qed.

  Lemma array_landed d zv V l es l' : array_entries d V l es l' -> forall is, indexes es is ->
    length l' = length l /\ Forall2 (fun e i => (length l <= i)%nat -> strict d (snd e)) es is /\
    forall i, (i < length l)%nat -> landed V i es (nth i l zv) (nth i l' zv).
  Proof.
    induction 1 as [l|l t j p es old v l' Hi Hn Hv H IH|l t z p es l' Hi Hl Hs H IH]; intros is Hes;
      inversion Hes as [|? i0 ? is' (t0 & Ht0 & Hi0) Hes']; subst.
    - repeat constructor.
    - cbn in Ht0. injection Ht0 as <-. destruct (index_text_det _ _ _ Hi Hi0). destruct (IH _ Hes') as (IHl & IHs & IHi).
      assert (j < length l)%nat as Hj by (eapply nth_error_lt; eauto). rewrite upd_length in *.
      split; [exact IHl|]. split; [constructor; [cbn; lia|exact IHs]|].
      intros i Hil. specialize (IHi i Hil). rewrite nth_update_z in IHi by exact Hj. destruct (Nat.eqb_spec i j) as [Eij|Hne].
      + rewrite Eij in *. eapply la_here; [apply Hi| |exact IHi]. rewrite (nth_error_nth _ _ zv Hn). exact Hv.
      + eapply la_other; [apply Hi|lia|exact IHi].
    - destruct (IH _ Hes') as (IHl & IHs & IHi). split; [exact IHl|]. split; [constructor; [auto|exact IHs]|].
      intros i Hil. eapply la_other; [exact Hi| |exact (IHi i Hil)]. unfold blen in Hl. lia.
  Qed.
  Lemma landed_array d zv V es is : indexes es is -> forall l l', length l' = length l ->
    Forall2 (fun e i => (length l <= i)%nat -> strict d (snd e)) es is ->
    (forall i, (i < length l)%nat -> landed V i es (nth i l zv) (nth i l' zv)) ->
    array_entries d V l es l'.
  Proof.
    induction 1 as [|[k p] j es is (t & Ht & Hi) Hes IH]; intros l l' Hlen HS HL.
    - assert (l' = l) as ->; [|constructor]. symmetry. apply (nth_ext _ _ zv zv); [lia|].
      intros i Hi'. specialize (HL i ltac:(lia)). inversion HL; reflexivity.
    - cbn in Ht. subst k. inversion HS as [|? ? ? ? Hst HS']; subst.
      destruct (Nat.lt_ge_cases j (length l)) as [Hlt|Hge].
      + pose proof (HL j Hlt) as HLj. apply (landed_cons_inv V j j t p es _ _ Hi) in HLj. rewrite Nat.eqb_refl in HLj.
        destruct HLj as (v1 & HV & HLj).
        eapply ae_in; [exact Hi|apply nth_error_nth'; exact Hlt|exact HV|]. apply IH; rewrite ?upd_length; auto.
        intros i Hil. rewrite nth_update_z by exact Hlt. pose proof (HL i Hil) as HLi. apply (landed_cons_inv V i j t p es _ _ Hi) in HLi.
        destruct (Nat.eqb_spec i j) as [->|Hne]; [exact HLj|exact HLi].
      + eapply ae_out; [apply Hi|unfold blen; destruct Hi; lia|apply Hst; exact Hge|]. apply IH; auto.
        intros i Hil. pose proof (HL i Hil) as HLi. apply (landed_cons_inv V i j t p es _ _ Hi) in HLi.
        destruct (Nat.eqb_spec i j) as [->|Hne]; [lia|exact HLi].
  Qed.
  Lemma landed_mono (V V' : lval -> gval -> gval -> Prop) i es v w : (forall e a b, In e es -> V (snd e) a b -> V' (snd e) a b) -> landed V i es v w -> landed V' i es v w.
  Proof.
    intros HV H. revert HV. induction H as [v|t p es v v1 v2 Hi HV0 H IH|t z p es v v2 Hi Hne H IH]; intros HV.
    - constructor.
    - eapply la_here; [exact Hi|exact (HV (LInt t, p) _ _ (or_introl eq_refl) HV0)|]. apply IH. intros. apply HV; auto. right. auto.
    - eapply la_other; [exact Hi|exact Hne|]. apply IH. intros. apply HV; auto. right. auto.
  Qed.

  Lemma slice_indexes slots zv V l es l' : slice_entries slots zv V l es l' -> exists is, indexes es is.
  Proof.
    induction 1 as [|l t i p es old v l' Hi Hn Hv H [is IH]|l t i p es v l' Hi Hl Hm Hs Hv H [is IH]]; [exists []; constructor| |];
      (exists (i :: is); constructor; [exists t; auto|exact IH]).
  Qed.
  Lemma array_indexes d V l es l' : array_entries d V l es l' -> exists is, indexes es is.
  Proof.
    induction 1 as [|l t i p es old v l' Hi Hn Hv H [is IH]|l t z p es l' Hi Hl Hs H [is IH]]; [exists []; constructor| |].
    - exists (i :: is). constructor; [exists t; auto|exact IH].
    - exists (Z.to_nat z :: is). constructor; [|exact IH]. exists t. split; [reflexivity|].
      unfold index_text, blen in *. rewrite Z2Nat.id by lia. split; [exact Hi|lia].
  Qed.
End Seq.

Section SeqApi.
  Context (X : Ext) (E : env).

  Lemma in_landed T n es i v w : small (text (LArr n es)) -> wf (LArr n es) -> supported X E T ->
    landed (store X E 1 T) i es v w -> landed (fun p => Decodes X E (text p) T) i es v w.
  Proof.
    intros Hsm Hw Hs. apply landed_mono. intros e a b He H.
    destruct (in_wf _ _ _ e (body_arr n es) He Hw). eapply decodes_inner; eauto. eapply in_small; eauto. constructor.
  Qed.
  Lemma landed_in T n es i v w : small (text (LArr n es)) -> wf (LArr n es) -> supported X E T ->
    nesting (LArr n es) < limit ->
    landed (fun p => Decodes X E (text p) T) i es v w -> landed (store X E 1 T) i es v w.
  Proof.
    intros Hsm Hw Hs Hn. apply landed_mono. intros e a b He H. rewrite nesting_arr in Hn.
    destruct (in_wf _ _ _ e (body_arr n es) He Hw). destruct (nest_body_in e es He). eapply inner_decodes; eauto; [|lia].
    eapply in_small; eauto. constructor.
  Qed.

  Lemma slice_exact T t n es is v w :
    small (text (LArr n es)) -> wf (LArr n es) -> supported X E T -> plain E T (KSlice t) ->
    es <> [] -> hd_error n <> Some "0"%byte -> num n <= max_int64 -> x_slots X t (num n) = true ->
    indexes es is -> Forall (fun i => Z.of_nat i < max_int64 /\ x_slots X t (Z.of_nat i + 1) = true) is ->
    nesting (LArr n es) < 10000 ->
    Decodes X E (text (LArr n es)) T v w <->
    exists l, w = VSlice (Some l) /\ length l = list_max (map S is) /\
      forall i x, nth_error l i = Some x -> landed (fun p => Decodes X E (text p) t) i es (zero E t) x.
  Proof.
    intros Hsm Hw Hs Hk Hne Hh Hm Hsl Hes HF Hn.
    assert (supported X E t) as Hst by (eapply supported_component; [exact Hs|eapply co_slice; eauto]).
    rewrite decodes_text by assumption. split.
    - intros H. apply (store_slice_inv X E 0 T t) in H; [|exact Hk].
      destruct H as [(H & _)|[(n' & s & H & _)|[(_ & H & _)|(n' & es' & l & _ & H & _ & _ & _ & _ & _ & -> & He)]]]; try discriminate H.
      + injection H as -> ->. congruence.
      + injection H as <- <-. exists l. split; [reflexivity|]. destruct (slice_landed _ _ _ _ _ _ He is Hes) as [Hlen HL].
        cbn [length] in Hlen. split; [lia|]. intros i x Hx. eapply in_landed; eauto. specialize (HL i).
        rewrite (nth_error_nth _ _ (zero E t) Hx) in HL. destruct i; exact HL.
    - intros (l & -> & Hlen & HL). inversion Hw; subst. eapply sto_slice; eauto; [reflexivity|].
      eapply landed_slice; eauto. intros i Hi. pose proof (nth_error_nth' l (zero E t) Hi) as Hx. apply HL in Hx.
      replace (nth i [] (zero E t)) with (zero E t) by (destruct i; reflexivity). eapply landed_in; eauto.
  Qed.
  Lemma array_exact T k t n es is v w :
    small (text (LArr n es)) -> wf (LArr n es) -> supported X E T -> plain E T (KArray k t) ->
    es <> [] -> hd_error n <> Some "0"%byte -> num n <= max_int64 -> indexes es is -> nesting (LArr n es) < 10000 ->
    Decodes X E (text (LArr n es)) T v w <->
    Forall2 (fun e i => (k <= i)%nat -> strict 1 (snd e)) es is /\
    exists l, w = VArr l /\ length l = k /\
      forall i x, nth_error l i = Some x -> landed (fun p => Decodes X E (text p) t) i es (zero E t) x.
  Proof.
    intros Hsm Hw Hs Hk Hne Hh Hm Hes Hn.
    assert (supported X E t) as Hst by (eapply supported_component; [exact Hs|eapply co_array; eauto]).
    rewrite decodes_text by assumption. split.
    - intros H. apply (store_array_inv X E 0 T k t) in H; [|exact Hk].
      destruct H as [_ [[H _]|[[H _]|(n' & es' & l & H & _ & _ & _ & _ & -> & He)]]]; try discriminate H.
      + injection H as -> ->. congruence.
      + injection H as <- <-. destruct (array_landed _ (zero E t) _ _ _ _ He is Hes) as (Hlen & HS & HL).
        rewrite repeat_length in *. split; [exact HS|]. exists l. split; [reflexivity|]. split; [exact Hlen|].
        intros i x Hx. eapply in_landed; eauto. pose proof (nth_error_lt _ _ _ Hx) as Hi. specialize (HL i ltac:(lia)).
        rewrite (nth_error_nth _ _ (zero E t) Hx), nth_repeat in HL. exact HL.
    - intros (HS & l & -> & Hlen & HL). inversion Hw; subst. eapply sto_array; eauto; [reflexivity|].
      eapply (landed_array _ (zero E t)); eauto; rewrite ?repeat_length; auto. intros i Hi.
      pose proof (nth_error_nth' l (zero E t) Hi) as Hx. apply HL in Hx. rewrite nth_repeat. eapply landed_in; eauto.
  Qed.
  (** the keys must be indexes *)
  Lemma seq_indexes T t n es v w : small (text (LArr n es)) -> wf (LArr n es) ->
    plain E T (KSlice t) \/ (exists k, plain E T (KArray k t)) ->
    Decodes X E (text (LArr n es)) T v w -> exists is, indexes es is.
  Proof.
    intros Hsm Hw Hk H. apply decodes_inv in H as (Hs & q & Ht & H); [|exact Hsm].
    apply text_inj0 in Ht; [subst q|exact Hw|eapply store_wf; eauto].
    destruct Hk as [Hk|[k Hk]].
    - apply (store_slice_inv X E 0 T t) in H; [|exact Hk].
      destruct H as [(H & _)|[(n' & s & H & _)|[(_ & H & _)|(n' & es' & l & _ & H & _ & _ & _ & _ & _ & -> & He)]]]; try discriminate H;
        injection H as -> ->; [exists []; constructor|eapply slice_indexes; eauto].
    - apply (store_array_inv X E 0 T k t) in H; [|exact Hk].
      destruct H as [_ [[H _]|[[H _]|(n' & es' & l & H & _ & _ & _ & _ & -> & He)]]]; try discriminate H;
        injection H as -> ->; [exists []; constructor|eapply array_indexes; eauto].
  Qed.

  (** ** C21, C22: headers *)
  Lemma store_map_iff T k t p n es v w : plain E T (KMap k t) -> body_of p n es -> numeral n -> num n <= max_int64 ->
    store X E 0 T p v w <-> exists o m, v = VMap o /\ w = VMap (Some m) /\
      map_entries (store_key X E 1 k) (fun q w => store X E 1 t q (zero E t) w) (match o with Some m0 => m0 | None => [] end) es m.
  Proof.
    intros Hk Hb Hn Hm. split.
    - intros H. apply (store_map_inv X E 0 T k t) in H as (_ & [[-> _]|(n' & es' & o & m & Hb' & _ & _ & -> & -> & H)]); [| |exact Hk].
      + exfalso. eapply body_not_null; eauto.
      + destruct (body_of_inj _ _ _ _ _ Hb Hb') as [<- <-]. eauto.
    - intros (o & m & -> & -> & H). eapply sto_map; eauto. reflexivity.
  Qed.
  Lemma header_irrelevant T p n p' n' es v w :
    small (text p) -> small (text p') -> wf p -> wf p' ->
    (exists id fs, plain E T (KStruct id fs)) \/ (exists k t, plain E T (KMap k t)) ->
    body_of p n es -> body_of p' n' es -> num n <= max_int64 -> num n' <= max_int64 ->
    Decodes X E (text p) T v w <-> Decodes X E (text p') T v w.
  Proof.
    intros Hsm Hsm' Hw Hw' Hk Hb Hb' Hm Hm'.
    assert (forall p n p' n', small (text p) -> small (text p') -> wf p -> wf p' -> body_of p n es -> body_of p' n' es ->
      num n <= max_int64 -> num n' <= max_int64 -> Decodes X E (text p) T v w -> Decodes X E (text p') T v w) as A; [|split; eapply A; eauto].
    clear - Hk. intros p n p' n' Hsm Hsm' Hw Hw' Hb Hb' Hm Hm' H. pose proof H as HS. apply decodes_inv in HS as [HS _]; [|exact Hsm].
    apply (decodes_text X E T p v w Hsm Hw HS) in H. apply (decodes_text X E T p' v w Hsm' Hw' HS).
    pose proof (wf_body_numeral _ _ _ Hw Hb). pose proof (wf_body_numeral _ _ _ Hw' Hb').
    destruct Hk as [(id & fs & Hk)|(k & t & Hk)].
    - apply (store_struct_iff X E 0 T id fs p n es v w Hk Hb) in H; auto; [|reflexivity].
      apply (store_struct_iff X E 0 T id fs p' n' es v w Hk Hb'); auto. reflexivity.
    - apply (store_map_iff T k t p n es v w Hk Hb) in H; auto. apply (store_map_iff T k t p' n' es v w Hk Hb'); auto.
  Qed.
  Lemma any_header_arr T n n' es v w : small (text (LArr n es)) -> small (text (LArr n' es)) -> wf (LArr n es) -> numeral n' ->
    num n' <= max_int64 -> plain E T KAny ->
    Decodes X E (text (LArr n es)) T v w -> Decodes X E (text (LArr n' es)) T v w.
  Proof.
    intros Hsm Hsm' Hw Hn' Hm' Hk H. apply decodes_inv in H as (_ & q & Ht & H); [|exact Hsm].
    apply text_inj0 in Ht; [subst q|exact Hw|eapply store_wf; eauto]. apply store_any_inv in H; [|exact Hk].
    exists 1%nat. apply unmarshal_ok; [exact Hsm'|eapply compile_scalar; eauto|]. eapply sto_any; [exact Hk|].
    inversion H; subst. apply av_arr; auto.
  Qed.
  Lemma any_header_obj T cn cls n cn' cls' n' es v w :
    small (text (LObj cn cls n es)) -> small (text (LObj cn' cls' n' es)) -> wf (LObj cn cls n es) -> wf (LObj cn' cls' n' es) ->
    num n' <= max_int64 -> plain E T KAny ->
    Decodes X E (text (LObj cn cls n es)) T v w -> Decodes X E (text (LObj cn' cls' n' es)) T v w.
  Proof.
    intros Hsm Hsm' Hw Hw' Hm' Hk H. apply decodes_inv in H as (_ & q & Ht & H); [|exact Hsm].
    apply text_inj0 in Ht; [subst q|exact Hw|eapply store_wf; eauto]. apply store_any_inv in H; [|exact Hk].
    exists 1%nat. apply unmarshal_ok; [exact Hsm'|eapply compile_scalar; eauto|]. eapply sto_any; [exact Hk|].
    inversion Hw'; subst. inversion H; subst. apply av_obj; auto. constructor; auto.
  Qed.
  (** objects go into structs, maps, any, Unmarshalers and pointers to these only *)
  Lemma object_rejected T cn cls n es v w : small (text (LObj cn cls n es)) -> wf (LObj cn cls n es) ->
    has_unmarshal E T = None ->
    match kind_of E T with KStruct _ _ | KMap _ _ | KAny | KIface _ | KPtr _ => False | _ => True end ->
    ~ Decodes X E (text (LObj cn cls n es)) T v w.
  Proof.
    intros Hsm Hw Hu Hk H. apply decodes_inv in H as (_ & q & Ht & H); [|exact Hsm].
    apply text_inj0 in Ht; [subst q|exact Hw|eapply store_wf; eauto].
    inversion H; subst; try congruence; match goal with HP : plain _ _ _ |- _ => destruct HP as [_ HP]; rewrite HP in Hk end; exact Hk.
  Qed.
  (** the declared count of a sequence does not matter either *)
  Lemma seq_count T t n n' es v w : small (text (LArr n es)) -> small (text (LArr n' es)) -> wf (LArr n es) ->
    plain E T (KSlice t) \/ (exists k, plain E T (KArray k t)) -> es <> [] ->
    numeral n' -> hd_error n' <> Some "0"%byte -> num n' <= max_int64 -> x_slots X t (num n') = true ->
    Decodes X E (text (LArr n es)) T v w -> Decodes X E (text (LArr n' es)) T v w.
  Proof.
    intros Hsm Hsm' Hw Hk Hne Hn' Hh' Hm' Hsl H. apply decodes_inv in H as (HS & q & Ht & H); [|exact Hsm].
    apply text_inj0 in Ht; [subst q|exact Hw|eapply store_wf; eauto]. apply decodes_store; auto.
    destruct Hk as [Hk|[k Hk]].
    - apply (store_slice_inv X E 0 T t) in H; [|exact Hk].
      destruct H as [(H & _)|[(n0 & s & H & _)|[(_ & H & _)|(n0 & es' & l & _ & H & _ & _ & _ & _ & _ & -> & He)]]]; try discriminate H;
        injection H as -> ->; [congruence|]. eapply sto_slice; eauto. reflexivity.
    - apply (store_array_inv X E 0 T k t) in H; [|exact Hk].
      destruct H as [_ [[H _]|[[H _]|(n0 & es' & l & H & _ & _ & _ & _ & -> & He)]]]; try discriminate H;
        injection H as -> ->; [congruence|]. eapply sto_array; eauto. reflexivity.
  Qed.
End SeqApi.
