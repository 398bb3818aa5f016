(** Marshal followed by Unmarshal into [any]. *)
From Coq Require Import Strings.String Strings.Byte ZArith List Bool Lia Floats.SpecFloat.
From Verif Require Import Base GoTypes Tags Grammar Denote Typing Api NumFacts CompileFacts UnmFacts StructFacts Memory
  EncCompile Php Repr EncApi NumEnc ReprFacts PhpFacts MarshalFacts RoundTrip RoundTripFacts AnyTrip.
Import ListNotations.
Open Scope Z_scope.

Lemma php_ind2 (P : php -> Prop) :
  P PNull -> (forall b, P (PBool b)) -> (forall z, P (PInt z)) -> (forall t, P (PFloat t)) -> (forall s, P (PStr s)) ->
  (forall es, Forall (fun e => P (fst e) /\ P (snd e)) es -> P (PArr es)) -> (forall b, P (PRaw b)) -> forall p, P p.
Proof.
  intros H0 H1 H2 H3 H4 H5 H6. fix IH 1. intros [|b|z|t|s|es|b]; [exact H0|apply H1|apply H2|apply H3|apply H4| |apply H6].
  apply H5. induction es as [|e es IHes]; constructor; [split; apply IH|exact IHes].
Qed.

Lemma depth_cons e es d : d + array_depth (PArr (e :: es)) <= 10000 <->
  d + 1 + array_depth (fst e) <= 10000 /\ d + 1 + array_depth (snd e) <= 10000 /\ d + array_depth (PArr es) <= 10000.
Proof. cbn [array_depth fold_right]. lia. Qed.
Lemma depth_nonneg p : 0 <= array_depth p.
Proof.
  induction p as [| | | | |es IH|] using php_ind2; try (cbn; lia). cbn [array_depth].
  assert (0 <= fold_right (fun e m => Z.max (Z.max (array_depth (fst e)) (array_depth (snd e))) m) 0 es); [|lia].
  induction IH as [|e es [H1 H2] Hf IHf]; cbn [fold_right]; lia.
Qed.

Lemma any_key_syntax k w : raw_free k = true -> (any_key (syntax k) w <-> any_key_of k w).
Proof.
  intros Hr. destruct k; cbn [syntax]; split; intros Q; inversion Q; subst; try discriminate.
  - match goal with A : int_text _ _ |- _ => rewrite <- (int_text_det _ _ _ (decimal_int_text z) A) in * end. constructor. assumption.
  - constructor; [apply decimal_int_text|assumption].
  - constructor.
  - constructor. apply str_ok_dec.
Qed.
Lemma any_key_hash k w : any_key_of k w -> hashable w = true.
Proof. intros []; reflexivity. Qed.
Lemma any_key_depth k w : any_key_of k w -> array_depth k = 0.
Proof. intros []; reflexivity. Qed.

Lemma blen_len {A} (l : list A) : blen l = Z.of_nat (length l).
Proof. reflexivity. Qed.

Lemma entries_len es : blen es <= blen (flat_map (fun e => serialize (fst e) ++ serialize (snd e)) es) \/
  exists e, In e es /\ serialize (fst e) ++ serialize (snd e) = [].
Proof.
  induction es as [|e es [IH|(x & Hi & Q)]]; [left; cbn; lia| |right; exists x; split; [right; exact Hi|exact Q]].
  destruct (serialize (fst e) ++ serialize (snd e)) as [|c l] eqn:Q; [right; exists e; split; [left; reflexivity|exact Q]|].
  left. cbn [flat_map]. rewrite Q, blen_app. unfold blen in *. cbn [length]. lia.
Qed.
Lemma serialize_nonempty p : raw_free p = true -> serialize p <> [].
Proof. destruct p as [|[]| | | | |]; discriminate. Qed.
Lemma arr_count es : Forall (fun e => raw_free (fst e) = true /\ raw_free (snd e) = true) es -> small (serialize (PArr es)) ->
  blen es <= max_int64.
Proof.
  intros Hr Hs. destruct (entries_len es) as [Hl|(e & Hi & Q)].
  - pose proof (body_le es) as Hb. unfold body in Hb. unfold small in Hs. unfold max_int64. lia.
  - rewrite Forall_forall in Hr. destruct (Hr e Hi) as [H1 _]. apply app_eq_nil in Q. destruct Q as [Q _]. destruct (serialize_nonempty _ H1 Q).
Qed.
Lemma small_le a b : blen a <= blen b -> small b -> small a.
Proof. unfold small. lia. Qed.
Lemma small_parts es : small (serialize (PArr es)) -> Forall (fun e => small (serialize (fst e)) /\ small (serialize (snd e))) es.
Proof.
  intros Hs. apply Forall_forall. intros e Hi.
  assert (blen (serialize (fst e)) + blen (serialize (snd e)) <= blen (body es)) as Hl.
  { clear Hs. induction es as [|x es IH]; [destruct Hi|]. rewrite body_cons.
    pose proof (blen_nonneg (serialize (fst x))). pose proof (blen_nonneg (serialize (snd x))). pose proof (blen_nonneg (body es)).
    destruct Hi as [->|Hi]; [lia|]. specialize (IH Hi). lia. }
  pose proof (body_le es). pose proof (blen_nonneg (serialize (fst e))). pose proof (blen_nonneg (serialize (snd e))).
  split; (eapply small_le; [|exact Hs]); lia.
Qed.

Lemma any_val_syntax X p : php_ok p -> small (serialize p) -> forall d w,
  any_val X d (syntax p) w <-> any_of X p w /\ (d + array_depth p <= 10000 \/ array_depth p = 0).
Proof.
  induction p as [|b|z|t|s|es IH|b] using php_ind2; intros Hok Hs d w; cbn [syntax].
  - split; [intros Q; inversion Q; subst; split; [constructor|right; reflexivity]|intros [Q _]; inversion Q; constructor].
  - split; [intros Q; inversion Q; subst; split; [constructor|right; reflexivity]|intros [Q _]; inversion Q; constructor].
  - split.
    + intros Q. inversion Q as [| |? ? z' Ht Hi| | | |]; subst. rewrite <- (int_text_det _ _ _ (decimal_int_text z) Ht) in *.
      split; [constructor; assumption|right; reflexivity].
    + intros [Q _]. inversion Q; subst. constructor; [apply decimal_int_text|assumption].
  - split.
    + intros Q. inversion Q; subst. split; [constructor; assumption|right; reflexivity].
    + intros [Q _]. inversion Q; subst. destruct Hok as [_ Hf]. destruct (float_ok_wf _ Hf). constructor; assumption.
  - split.
    + intros Q. inversion Q; subst. split; [constructor|right; reflexivity].
    + intros [Q _]. inversion Q; subst. constructor. apply str_ok_dec.
  - assert (Forall (fun e => php_ok (fst e) /\ php_ok (snd e)) es) as Hoks by (apply php_ok_arr; exact Hok).
    assert (Forall (fun e => raw_free (fst e) = true /\ raw_free (snd e) = true) es) as Hraws
      by (apply raw_free_arr; exact (proj1 Hok)).
    pose proof (small_parts es Hs) as Hsp. pose proof (arr_count es Hraws Hs) as Hcnt.
    assert (forall m m', d < limit ->
      map_entries any_key (any_val X (d + 1)) m (map (fun e => (syntax (fst e), syntax (snd e))) es) m' <->
      exists ws, Forall2 (fun e x => any_key_of (fst e) (fst x) /\ any_of X (snd e) (snd x)) es ws /\
        m' = fold_left (fun m e => map_set (fst e) (snd e) m) ws m /\ d + array_depth (PArr es) <= 10000) as Hme.
    { intros m m' Hd. clear Hok Hs Hcnt. revert m m'. induction IH as [|e es [IHk IHv] IHes IHf]; intros m m'.
      - split.
        + intros Q. inversion Q; subst. exists []. unfold limit in Hd. split; [constructor|]. split; [reflexivity|cbn; lia].
        + intros (ws & Hf & -> & _). inversion Hf; subst. constructor.
      - inversion Hoks as [|? ? [Hk Hv] Hoks']; subst. inversion Hraws as [|? ? [Hrk Hrv] Hraws']; subst.
        inversion Hsp as [|? ? [Hsk Hsv] Hsp']; subst. specialize (IHf Hoks' Hraws' Hsp').
        cbn [map]. split.
        + intros Q. inversion Q as [|? ? ? ? kv vv ? Hkv Hvv Hh Hrest]; subst.
          apply any_key_syntax in Hkv; [|exact Hrk]. apply IHv in Hvv; [|exact Hv|exact Hsv]. destruct Hvv as [Hvv Hdep].
          apply IHf in Hrest. destruct Hrest as (ws & Hf & -> & Hdr). exists ((kv, vv) :: ws).
          split; [constructor; [split; assumption|assumption]|]. split; [reflexivity|]. apply depth_cons.
          rewrite (any_key_depth _ _ Hkv). pose proof (depth_nonneg (PArr es)). unfold limit in Hd. lia.
        + intros (ws & Hf & -> & Hdep). inversion Hf as [|? [kv vv] ? ws' [Hkv Hvv] Hf']; subst. cbn [fst snd] in *.
          apply depth_cons in Hdep. destruct Hdep as (_ & Hdv & Hdr).
          econstructor; [apply any_key_syntax; eassumption| |eapply any_key_hash; eassumption|].
          * apply IHv; [assumption|assumption|]. split; [exact Hvv|left; exact Hdv].
          * apply IHf. exists ws'. split; [exact Hf'|]. split; [reflexivity|exact Hdr]. }
    split.
    + intros Q. inversion Q as [| | | | |? ? ? m Hd Hn Hnm Hm|]; subst. apply Hme in Hm; [|exact Hd].
      destruct Hm as (ws & Hf & -> & Hdep). split; [|left; exact Hdep]. apply ao_arr. exact Hf.
    + intros [Q Hdep]. inversion Q as [| | | | |? ws Hf]; subst.
      pose proof (depth_nonneg (PArr es)) as Hnn. assert (1 <= array_depth (PArr es)) as H1.
      { cbn [array_depth]. clear. assert (0 <= fold_right (fun e m => Z.max (Z.max (array_depth (fst e)) (array_depth (snd e))) m) 0 es); [|lia].
        induction es as [|e es IH]; cbn [fold_right]; lia. }
      assert (d < limit) as Hd by (unfold limit; lia). destruct Hdep as [Hdep|?]; [|lia].
      constructor; [exact Hd| | |].
      * apply decimal_numeral. unfold blen. lia.
      * destruct (decimal_numeral (blen es)) as [_ ->]; [unfold blen; lia|exact Hcnt].
      * apply Hme; [exact Hd|]. exists ws. split; [exact Hf|]. split; [reflexivity|exact Hdep].
  - destruct Hok as [Q _]. discriminate.
Qed.

(** Array keys are strings and integers. *)
Fixpoint keyed (p : php) : bool :=
  match p with
  | PArr es => forallb (fun e => match fst e with PStr _ | PInt _ => true | _ => false end && keyed (snd e)) es
  | _ => true
  end.
Definition key_php (p : php) : Prop := match p with PStr _ | PInt _ => True | _ => False end.
Lemma keyed_arr es : keyed (PArr es) = true <-> Forall (fun e => key_php (fst e) /\ keyed (snd e) = true) es.
Proof.
  cbn [keyed]. induction es as [|[k v] es IH]; cbn [forallb fst snd]; [split; [constructor|reflexivity]|].
  rewrite andb_true_iff, IH, Forall_cons_iff, andb_true_iff. cbn [fst snd]. destruct k; cbn [key_php]; intuition discriminate.
Qed.
Section Keyed.
  Context (X : Ext) (E : env) (H : heap) {S : Type} (en : S -> bool -> addr -> S -> Prop).
  Lemma scalar_keyed k v p : scalar_repr X k v p -> keyed p = true.
  Proof. intros []; reflexivity. Qed.
  Lemma quoted_any_keyed t v p : quoted_any X E H t v p -> keyed p = true.
  Proof. induction 1; try reflexivity; assumption. Qed.
  Lemma quoted_keyed t v p : quoted_repr X E H t v p -> keyed p = true.
  Proof. intros []; try reflexivity. eapply quoted_any_keyed. eassumption. Qed.
  Lemma key_is_key k v p : key_repr X k v p -> key_php p.
  Proof. intros [Hk Hs]. destruct Hs; try discriminate; exact I. Qed.
  Notation all_keyed := (Forall (fun e : php * php => key_php (fst e) /\ keyed (snd e) = true)).
  Theorem repr_keyed :
    (forall s t v p, repr X E H en s t v p -> keyed p = true) /\
    (forall s t v p, shape X E H en s t v p -> keyed p = true) /\
    (forall s t v p, inner X E H en s t v p -> keyed p = true) /\
    (forall s b t i l ps, elems X E H en s b t i l ps -> all_keyed ps) /\
    (forall s b k t l ps, pairs X E H en s b k t l ps -> all_keyed ps) /\
    (forall s fs l ps, fields X E H en s fs l ps -> all_keyed ps) /\
    (forall s g v p, field_val X E H en s g v p -> keyed p = true).
  Proof.
    apply repr_ind7; intros; try reflexivity; try assumption; try (apply keyed_arr; assumption);
      try (eapply scalar_keyed; eassumption); try (eapply quoted_keyed; eassumption);
      try (constructor; [split; [first [exact I|eapply key_is_key; eassumption]|assumption]|assumption]); apply Forall_nil.
  Qed.
End Keyed.

Lemma ints_arr es P : Forall P (ints (PArr es)) <-> Forall (fun e => Forall P (ints (fst e)) /\ Forall P (ints (snd e))) es.
Proof.
  cbn [ints]. induction es as [|e es IH]; cbn [flat_map]; [split; constructor|].
  rewrite !Forall_app, IH, Forall_cons_iff. tauto.
Qed.
Lemma floats_in_arr es P : Forall P (floats (PArr es)) <-> Forall (fun e => Forall P (floats (fst e)) /\ Forall P (floats (snd e))) es.
Proof.
  cbn [floats]. induction es as [|e es IH]; cbn [flat_map]; [split; constructor|].
  rewrite !Forall_app, IH, Forall_cons_iff. tauto.
Qed.
Definition parses (X : Ext) (t : bytes) : Prop := exists f, float_text X t f.
Lemma any_of_total X p : raw_free p = true -> keyed p = true ->
  ((exists w, any_of X p w) <-> Forall (int_range I64) (ints p) /\ Forall (parses X) (floats p)).
Proof.
  induction p as [|b|z|t|s|es IH|b] using php_ind2; intros Hr Hk.
  - split; [intros _; split; constructor|intros _; eexists; constructor].
  - split; [intros _; split; constructor|intros _; eexists; constructor].
  - split.
    + intros [w Q]. inversion Q; subst. cbn [ints floats]. split; [constructor; [assumption|constructor]|constructor].
    + intros [Q _]. cbn [ints] in Q. inversion Q; subst. eexists. constructor. assumption.
  - split.
    + intros [w Q]. inversion Q; subst. split; cbn [ints floats]; constructor; [eexists; eassumption|constructor].
    + intros [_ Q]. cbn [floats] in Q. inversion Q as [|? ? [f Hf]]; subst. eexists. constructor. eassumption.
  - split; [intros _; split; constructor|intros _; eexists; constructor].
  - rewrite ints_arr, floats_in_arr. apply raw_free_arr in Hr. apply keyed_arr in Hk.
    transitivity (exists ws, Forall2 (fun e x => any_key_of (fst e) (fst x) /\ any_of X (snd e) (snd x)) es ws).
    { split.
      - intros [w Q]. inversion Q; subst. eauto.
      - intros [ws Q]. eexists. constructor. exact Q. }
    induction IH as [|e es [IHk IHv] IHes IHf]; [split; [intros _; split; constructor|intros _; exists []; constructor]|].
    inversion Hr as [|? ? [Hrk Hrv] Hr']; subst. inversion Hk as [|? ? [Hkk Hkv] Hk']; subst.
    specialize (IHf Hr' Hk'). specialize (IHv Hrv Hkv). rewrite !Forall_cons_iff. clear IHk IHes. split.
    + intros [ws Q]. inversion Q as [|? x ? ws' [Q1 Q2] Q3]; subst.
      destruct (proj1 IHv (ex_intro _ _ Q2)). destruct (proj1 IHf (ex_intro _ _ Q3)).
      split; (split; [split|]); try assumption.
      * destruct Q1; cbn [ints]; constructor; [assumption|constructor].
      * destruct Q1; constructor.
    + intros [[[I1 I2] I3] [[F1 F2] F3]]. destruct (proj2 IHv (conj I2 F2)) as [x Hx]. destruct (proj2 IHf (conj I3 F3)) as [ws Hws].
      assert (exists k, any_key_of (fst e) k) as [k Hkk'].
      { destruct (fst e); cbn [key_php] in Hkk; try contradiction; eexists; constructor. inversion I1; assumption. }
      exists ((k, x) :: ws). constructor; [split; assumption|assumption].
  - discriminate.
Qed.

Lemma any_supported X E : supported X E TAny.
Proof.
  apply (compile_supported X E 1). reflexivity.
Qed.
Lemma store_any X E d p v w : store X E d TAny p v w <-> any_val X d p w.
Proof.
  split; [|intros Q; apply sto_any; [split; reflexivity|exact Q]].
  intros Q. inversion Q; subst; try assumption; repeat match goal with A : plain _ _ _ |- _ => destruct A end; try discriminate.
  cbn in *. subst. discriminate.
Qed.

Section Trip.
  Context (X : Ext) (E : env) (H : heap) (ord : nat -> list (hval * hval) -> list (hval * hval)).
  Context (HX : fmt_ok X) (Hord : fair_order ord).

  Lemma unspoken_ok T v p : unspoken X E H T v -> Represents X E H T v p -> php_ok p.
  Proof. intros Hu Hp. split; [exact (unspoken_all _ _ _ _ _ _ Hu Hp)|exact (proj1 (repr_floats X E H anything HX) _ _ _ _ Hp)]. Qed.

  Lemma any_trip p old w : php_ok p -> small (serialize p) ->
    Decodes X E (serialize p) TAny old w <-> any_of X p w /\ array_depth p <= 10000.
  Proof.
    intros Hok Hs. rewrite serialize_text in * by exact (proj1 Hok).
    rewrite (decodes_text X E TAny) by (first [exact Hs|apply syntax_wf; exact Hok|apply any_supported]).
    rewrite store_any, (any_val_syntax X p Hok); [|rewrite serialize_text by exact (proj1 Hok); exact Hs].
    replace (0 + array_depth p) with (array_depth p) by lia. intuition lia.
  Qed.

  Theorem marshal_any T v b old w : small b -> unspoken X E H T v -> Marshals X E H ord T v b ->
    Decodes X E b TAny old w <->
    exists p, Represents X E H T v p /\ b = serialize p /\ any_of X p w /\ array_depth p <= 10000.
  Proof.
    intros Hs Hu Hm. destruct (marshal_represents X E H ord Hord _ _ _ _ Hm) as (p & Hp & ->).
    pose proof (unspoken_ok _ _ _ Hu Hp) as Hok. rewrite any_trip by assumption. split.
    - intros [Ha Hd]. exists p. auto.
    - intros (q & Hq & Q & Ha & Hd). destruct (serialize_inj p q [] [] Hok (unspoken_ok _ _ _ Hu Hq)) as [-> _]; [rewrite !app_nil_r; exact Q|auto].
  Qed.

  Theorem marshal_any_total T v b old : small b -> unspoken X E H T v -> Marshals X E H ord T v b ->
    (exists w, Decodes X E b TAny old w) <->
    exists p, Represents X E H T v p /\ b = serialize p /\
      Forall (int_range I64) (ints p) /\ Forall (parses X) (floats p) /\ array_depth p <= 10000.
  Proof.
    intros Hs Hu Hm. split.
    - intros [w Hw]. apply (marshal_any T v b old w Hs Hu Hm) in Hw. destruct Hw as (p & Hp & Hb & Ha & Hd). exists p.
      destruct (proj1 (any_of_total X p (unspoken_all _ _ _ _ _ _ Hu Hp) (proj1 (repr_keyed X E H anything) _ _ _ _ Hp)) (ex_intro _ _ Ha)).
      auto.
    - intros (p & Hp & Hb & Hi & Hf & Hd).
      destruct (proj2 (any_of_total X p (unspoken_all _ _ _ _ _ _ Hu Hp) (proj1 (repr_keyed X E H anything) _ _ _ _ Hp)) (conj Hi Hf)) as [w Ha].
      exists w. apply (marshal_any T v b old w Hs Hu Hm). exists p. auto.
  Qed.
End Trip.
