(** The serialized form of a PHP value determines it. *)
From Coq Require Import Strings.String Strings.Byte ZArith List Bool Lia.
From Verif Require Import Base GoTypes Grammar Denote TextFacts StoreFacts Php NumEnc.
Import ListNotations.
Open Scope Z_scope.

Definition php_ind' (P : php -> Prop)
  (Hnull : P PNull) (Hbool : forall b, P (PBool b)) (Hint : forall z, P (PInt z)) (Hfl : forall t, P (PFloat t))
  (Hstr : forall s, P (PStr s)) (Harr : forall es, Forall (fun e => P (fst e) /\ P (snd e)) es -> P (PArr es))
  (Hraw : forall b, P (PRaw b)) : forall p, P p :=
  fix go (p : php) : P p :=
    match p with
    | PNull => Hnull | PBool b => Hbool b | PInt z => Hint z | PFloat t => Hfl t | PStr s => Hstr s
    | PArr es => Harr es ((fix all (es : list (php * php)) : Forall (fun e => P (fst e) /\ P (snd e)) es :=
        match es with
        | [] => Forall_nil _
        | e :: es' => Forall_cons e (conj (go (fst e)) (go (snd e))) (all es')
        end) es)
    | PRaw b => Hraw b
    end.

Lemma raw_free_arr es : raw_free (PArr es) = true <-> Forall (fun e => raw_free (fst e) = true /\ raw_free (snd e) = true) es.
Proof.
  cbn [raw_free]. rewrite forallb_forall, Forall_forall. split; intros Q e He; specialize (Q e He); [apply andb_true_iff in Q|apply andb_true_iff]; exact Q.
Qed.
Lemma floats_arr es : float_texts_ok (PArr es) = true <-> Forall (fun e => float_texts_ok (fst e) = true /\ float_texts_ok (snd e) = true) es.
Proof.
  cbn [float_texts_ok]. rewrite forallb_forall, Forall_forall. split; intros Q e He; specialize (Q e He); [apply andb_true_iff in Q|apply andb_true_iff]; exact Q.
Qed.
Lemma php_ok_arr es : php_ok (PArr es) <-> Forall (fun e => php_ok (fst e) /\ php_ok (snd e)) es.
Proof.
  unfold php_ok. rewrite raw_free_arr, floats_arr, !Forall_forall. split.
  - intros [A B] e He. specialize (A e He). specialize (B e He). tauto.
  - intros A. split; intros e He; specialize (A e He); tauto.
Qed.

Lemma serialize_text p : raw_free p = true -> serialize p = text (syntax p).
Proof.
  induction p as [|b|z|t|s|es IH|b] using php_ind'; intros Hr; try reflexivity; try discriminate.
  - apply raw_free_arr in Hr. cbn [serialize syntax text].
    assert (flat_map (fun e => serialize (fst e) ++ serialize (snd e)) es =
            flat_map (fun e => text (fst e) ++ text (snd e)) (map (fun e => (syntax (fst e), syntax (snd e))) es)) as ->; [|reflexivity].
    clear - IH Hr. induction es as [|e es IHes]; [reflexivity|]. inversion IH as [|? ? [I1 I2] I3]; inversion Hr as [|? ? [R1 R2] R3]; subst.
    cbn [flat_map map fst snd]. rewrite I1, I2, IHes by assumption. reflexivity.
Qed.

Lemma wf_str_dec s : wf (LStr (decimal (blen s)) s).
Proof. destruct (decimal_numeral (blen s)) as [Hn Hv]; [unfold blen; lia|]. apply wf_str; assumption. Qed.
Lemma float_ok_wf t : float_texts_ok (PFloat t) = true -> t <> [] /\ ~ In ";"%byte t.
Proof.
  cbn [float_texts_ok]. intros Q. apply andb_true_iff in Q. destruct Q as [Q1 Q2]. split; [intros ->; discriminate|].
  intros Hi. apply negb_true_iff in Q2. rewrite <- not_true_iff_false in Q2. apply Q2. apply existsb_exists. exists ";"%byte. split; [exact Hi|reflexivity].
Qed.
Lemma syntax_wf p : php_ok p -> wf (syntax p).
Proof.
  induction p as [|b|z|t|s|es IH|b] using php_ind'; intros Hr; cbn [syntax].
  - apply wf_null.
  - apply wf_bool.
  - eapply wf_int. apply decimal_int_text.
  - destruct (float_ok_wf t (proj2 Hr)). apply wf_float; assumption.
  - apply wf_str_dec.
  - apply php_ok_arr in Hr. destruct (decimal_numeral (blen es)) as [Hn Hv]; [unfold blen; lia|]. apply wf_arr; [exact Hn|].
    clear Hn Hv. induction es as [|e es IHes]; [constructor|]. inversion IH as [|? ? [I1 I2] I3]; inversion Hr as [|? ? [R1 R2] R3]; subst.
    cbn [map]. constructor; [cbn; auto|]. apply IHes; assumption.
  - destruct Hr; discriminate.
Qed.
Lemma syntax_strict p : php_ok p -> forall d, d + array_depth p <= 10000 -> strict d (syntax p).
Proof.
  induction p as [|b|z|t|s|es IH|b] using php_ind'; intros Hr d Hd; cbn [syntax].
  - apply st_null.
  - apply st_bool.
  - eapply st_int. apply decimal_int_text.
  - destruct (float_ok_wf t (proj2 Hr)). apply st_float; assumption.
  - destruct (decimal_numeral (blen s)) as [Hn Hv]; [unfold blen; lia|]. apply st_str; assumption.
  - apply php_ok_arr in Hr. destruct (decimal_numeral (blen es)) as [Hn Hv]; [unfold blen; lia|]. cbn [array_depth] in Hd.
    assert (0 <= fold_right (fun e m => Z.max (Z.max (array_depth (fst e)) (array_depth (snd e))) m) 0 es) as Hp.
    { clear. induction es; cbn [fold_right]; lia. }
    apply st_arr; [lia|exact Hn|rewrite Hv; unfold blen; rewrite map_length; reflexivity|].
    clear Hn Hv. induction es as [|e es IHes]; [constructor|]. inversion IH as [|? ? [I1 I2] I3]; inversion Hr as [|? ? [R1 R2] R3]; subst.
    cbn [fold_right] in Hd, Hp. cbn [map]. constructor; [cbn; split; [apply I1|apply I2]; auto; lia|]. apply IHes; auto; try lia.
    clear. induction es; cbn [fold_right]; lia.
  - destruct Hr; discriminate.
Qed.

Lemma int_text_det t a b : int_text t a -> int_text t b -> a = b.
Proof.
  intros [ds Hn|ds Hn] Hb; inversion Hb as [ds' Hn' E1 E2|ds' Hn' E1 E2]; subst; try reflexivity.
  - destruct Hn as [_ Hn]. discriminate.
  - destruct Hn' as [_ Hn']. discriminate.
Qed.
Lemma decimal_inj a b : decimal a = decimal b -> a = b.
Proof.
  intros Q. pose proof (decimal_int_text a) as Ha. rewrite Q in Ha. exact (int_text_det _ _ _ Ha (decimal_int_text b)).
Qed.
Lemma syntax_inj p : forall q, raw_free p = true -> raw_free q = true -> syntax p = syntax q -> p = q.
Proof.
  induction p as [|b|z|t|s|es IH|b] using php_ind'; intros q Hp Hq Q; destruct q; try discriminate; cbn [syntax] in Q.
  - reflexivity.
  - congruence.
  - injection Q as Q. apply decimal_inj in Q. congruence.
  - congruence.
  - congruence.
  - injection Q as _ Q. f_equal. apply raw_free_arr in Hp. apply raw_free_arr in Hq. revert es0 Hq Q.
    induction es as [|[k v] es IHes]; intros [|[k' v'] es'] Hq Q; try discriminate; [reflexivity|].
    inversion IH as [|? ? [I1 I2] I3]; inversion Hp as [|? ? [R1 R2] R3]; inversion Hq as [|? ? [T1 T2] T3]; subst. cbn [map fst snd] in *.
    injection Q as Q1 Q2 Q3. rewrite (I1 k' R1 T1 Q1), (I2 v' R2 T2 Q2), (IHes I3 R3 es' T3 Q3). reflexivity.
Qed.

Theorem serialize_inj p q r r' : php_ok p -> php_ok q -> serialize p ++ r = serialize q ++ r' -> p = q /\ r = r'.
Proof.
  intros Hp Hq Q. rewrite !serialize_text in Q by (apply Hp || apply Hq).
  apply text_inj in Q; [|apply syntax_wf; assumption..]. destruct Q as [Q ->]. split; [|reflexivity].
  apply syntax_inj; [apply Hp|apply Hq|exact Q].
Qed.
