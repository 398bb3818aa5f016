(** Why Marshal fails and panics; when it does not. *)
From Coq Require Import Strings.String Strings.Byte ZArith NArith List Bool Lia Permutation Arith Relations.Relation_Operators.
From Verif Require Import Base GoTypes Strconv Tags Denote Memory EncCompile Encode Php Repr Positions EncApi EncCompileFacts EncTerm EncFacts EncSound Values CalmFacts Obstacle.
Import ListNotations.
Open Scope Z_scope.

(** ** Compilation *)
Section Comp.
  Context (X : Ext) (E : env).
  Notation comp := (ecompile_f X E).
  Notation comp_fields := (ecompile_fields X E).
  Definition told (n : node) (e : error) : Prop := exists u c, einside X E n u /\ blamed X E u c /\ e = EMarshal c.

  Lemma fields_blamed c :
    (forall S e t, c S t = RErr e -> told (false, t) e) ->
    forall fs S e, comp_fields c S fs = RErr e ->
    exists f, In f fs /\ written_field X f = true /\
      ((tag_string (tag_of X f) = false /\ told (false, elem_or_self E (f_ty f)) e) \/
       (f_anon f = true /\ struct_kind (kind_of E (f_ty f)) = true /\ e = EMarshal (CEmbedded (f_ty f))) \/
       (exists u w, kind_of E (f_ty f) = KPtr u /\ kind_of E u = KPtr w /\ e = EMarshal (CFieldPtr (f_ty f))) \/
       (tag_string (tag_of X f) = true /\ quotable (kind_of E (elem_or_self E (f_ty f))) = false /\ e = EMarshal (CString (elem_or_self E (f_ty f))))).
  Proof.
    intros Hc. induction fs as [|f fs IH]; intros S e H; cbn [ecompile_fields] in H; [discriminate|].
    assert (forall S0, comp_fields c S0 fs = RErr e -> _) as IH' by (intros S0 H0; exact (IH S0 e H0)).
    destruct (enc_skipped X f) eqn:Hsk.
    { destruct (IH _ _ H) as (g & Hg & Hr). exists g. split; [right; exact Hg|exact Hr]. }
    fold (elem_or_self E (f_ty f)) in H.
    assert (written_field X f = true) as Hw by (rewrite written_eq, Hsk; reflexivity).
    destruct (match kind_of E (f_ty f) with KPtr t' => _ | _ => _ end) eqn:Hpp.
    { exists f. split; [left; reflexivity|]. split; [exact Hw|]. right; right; left.
      destruct (kind_of E (f_ty f)) as [| | | | | | | | |u| | | |] eqn:Hku; try discriminate.
      destruct (kind_of E u) as [| | | | | | | | |w| | | |] eqn:Hkw; try discriminate. exists u, w. injection H as <-. auto. }
    destruct (f_anon f && struct_kind (kind_of E (f_ty f))) eqn:Han.
    { apply andb_true_iff in Han as [A B]. exists f. injection H as <-. split; [left; reflexivity|]. auto 6. }
    destruct (tag_string (tag_of X f)) eqn:Hst.
    - rewrite quotable_eq in H. destruct (quotable (kind_of E (elem_or_self E (f_ty f)))) eqn:Has.
      + destruct (IH' _ H) as (g & Hg & Hr). exists g. split; [right; exact Hg|exact Hr].
      + exists f. injection H as <-. split; [left; reflexivity|]. split; [exact Hw|]. auto 6.
    - destruct (c S (elem_or_self E (f_ty f))) as [S1|e1| |] eqn:Hc1; cbn [bind] in H; try discriminate.
      + destruct (IH' _ H) as (g & Hg & Hr). exists g. split; [right; exact Hg|exact Hr].
      + injection H as <-. exists f. split; [left; reflexivity|]. split; [exact Hw|]. left. split; [exact Hst|]. exact (Hc _ _ _ Hc1).
  Qed.

  Lemma comp_blamed : forall f b S e t, comp f b S t = RErr e -> (b = true -> bytes_type t = false) -> told (b, t) e.
  Proof.
    induction f as [|f IH]; intros b S e t H Hb; [discriminate|]. cbn [ecompile_f] in H. rewrite implements_eq, is_bytes_eq in H.
    destruct (negb b && marshaler E t) eqn:Him; [discriminate|].
    assert (speaks E (b, t) = false) as Hsp.
    { unfold speaks. cbn [fst snd]. destruct b; [reflexivity|exact Him]. }
    destruct (negb b && bytes_type t) eqn:Hby; [discriminate|].
    assert (Hbf : b || negb (bytes_type t) = true).
    { destruct b; [reflexivity|]. cbn in Hby |- *. rewrite Hby. reflexivity. }
    assert (Hself : forall c, blamed X E (b, t) c -> told (b, t) (EMarshal c)).
    { intros c Q. exists (b, t), c. split; [apply ei_refl|]. split; [exact Q|reflexivity]. }
    assert (Hsub : forall c e, epart X E (b, t) c -> told c e -> told (b, t) e).
    { intros c e0 Hc (u & x & Hu & Q). exists u, x. split; [|exact Q]. eapply einside_trans; [|exact Hu]. eapply ei_step; [apply ei_refl|exact Hc]. }
    destruct (kind_of E t) as [|k|k| | | |t'|n t'|k v|t'| |m| |id fs] eqn:Hk; try discriminate.
    - destruct k; try discriminate. injection H as <-. apply Hself. apply (bm_uintptr X E (b, t)); auto.
    - destruct (mem_ty t S); [discriminate|]. eapply Hsub; [eapply ep_slice; eauto|]. eapply IH; [exact H|discriminate].
    - destruct (comp f false [] t') as [S0|e0| |] eqn:H0; cbn [bind] in H; try discriminate. injection H as <-.
      eapply Hsub; [eapply ep_array; eauto|]. eapply IH; [exact H0|discriminate].
    - destruct (mem_ty t S); [discriminate|]. rewrite key_kind_eq in H. destruct (key_kind (kind_of E k)) eqn:Hkk.
      + eapply Hsub; [eapply ep_map; eauto|]. eapply IH; [exact H|discriminate].
      + injection H as <-. apply Hself. eapply bm_key; eauto.
    - destruct (ptr_kind (kind_of E t')) eqn:Hpk.
      { destruct (kind_of E t') as [| | | | | | | | |w| | | |] eqn:Hkt; try discriminate. injection H as <-. apply Hself. eapply bm_ptr; eauto. }
      destruct (iface_kind (kind_of E t')) eqn:Hif.
      { destruct (kind_of E t'); discriminate. }
      eapply Hsub; [eapply ep_ptr; eauto|].
      assert (comp f (by_structure (kind_of E t')) S t' = RErr e) as Hc by (rewrite <- by_structure_eq; destruct (kind_of E t'); try discriminate; exact H).
      eapply IH; [exact Hc|]. intros Q. destruct t' as [| | | | | |t''| | | | | | |]; try reflexivity. cbn in Q. discriminate.
    - injection H as <-. apply Hself. apply (bm_other X E (b, t)); auto.
    - destruct (mem_ty t S); [discriminate|].
      destruct (fields_blamed _ (fun S0 e0 t0 Q => IH false S0 e0 t0 Q ltac:(discriminate)) _ _ _ H)
        as (g & Hg & Hw & [(Hst & Hu)|[(H1 & H2 & ->)|[(u & w & H1 & H2 & ->)|(H1 & H2 & ->)]]]).
      + eapply Hsub; [eapply ep_field; eauto|exact Hu].
      + apply Hself. eapply bm_embedded; eauto.
      + apply Hself. eapply bm_field_ptr; eauto.
      + apply Hself. eapply bm_string; eauto.
  Qed.
  Lemma compile_faulty f t e : comp f false [] t = RErr e -> exists c, faulty X E t c /\ e = EMarshal c.
  Proof. intros Q. destruct (comp_blamed f false [] e t Q ltac:(discriminate)) as (u & c & A & B & D). exists c. split; [exists u; auto|exact D]. Qed.
  Lemma blamed_unencodable n c : blamed X E n c -> unencodable X E n.
  Proof. intros B. destruct B; [apply ue_uintptr|apply ue_other|eapply ue_ptr|eapply ue_key|eapply ue_embedded|eapply ue_field_ptr|eapply ue_string]; eassumption. Qed.
  Lemma unencodable_blamed n : unencodable X E n -> exists c, blamed X E n c.
  Proof.
    intros B. destruct B; eexists; [eapply bm_uintptr|eapply bm_other|eapply bm_ptr|eapply bm_key|eapply bm_embedded|eapply bm_field_ptr|eapply bm_string]; eassumption.
  Qed.
  Lemma faulty_not_encodable t c : faulty X E t c -> ~ encodable X E t.
  Proof. intros (n & I & B) [Q _]. exact (Q n I (blamed_unencodable n c B)). Qed.
End Comp.

(** ** Entering *)
Lemma enters_code s b a s' : enters s b a s' <-> code_enter s b a s'.
Proof.
  unfold enters, code_enter, recorded. destruct s as [l d], s' as [l' d']. cbn [fst snd]. destruct b.
  - split.
    + intros (A & _ & C). destruct (A (or_introl eq_refl)) as [A1 ->]. split; [exact A1|]. f_equal. cbn in C. lia.
    + intros [A Q]. injection Q as -> ->. split; [intros _; split; [exact A|reflexivity]|]. split; [intros N; destruct (N (or_introl eq_refl))|cbn; lia].
  - destruct (1000 <? d + 1) eqn:D.
    + apply Z.ltb_lt in D. split.
      * intros (A & _ & C). destruct A as [A1 ->]; [right; lia|]. split; [exact A1|]. f_equal. exact C.
      * intros [A Q]. injection Q as -> ->. split; [intros _; split; [exact A|reflexivity]|]. split; [intros N; destruct N; right; lia|reflexivity].
    + apply Z.ltb_ge in D. split.
      * intros (_ & B & C). rewrite B by (intros [Q|Q]; [discriminate|lia]). f_equal. exact C.
      * intros Q. injection Q as -> ->. split; [intros [Q|Q]; [discriminate|lia]|]. split; [intros _; reflexivity|reflexivity].
Qed.

Lemma has_in a l : has a l = true -> In a l.
Proof. unfold has. rewrite existsb_exists. intros (x & I & Q). apply Z.eqb_eq in Q. subst. exact I. Qed.

Section Tell.
  Context (X : Ext) (E : env) (H : heap).
  Notation reach := (clos_refl_trans _ (below X E H)).

  (** [r] is a result, or there is a reason for it at or below [p]. *)
  Definition explained {A} (p : place_in) (r : R A) : Prop :=
    match r with
    | ROk _ | RFuel => True
    | RErr e => exists q, reach p q /\ obstacle X E H q e
    | RPanic x => exists q, reach p q /\ accident X E H q x
    end.
  Definition tells {A} (s : trail) (p : place_in) (m : M A) : Prop := forall c, tr c = s -> explained p (snd (m c)).

  Lemma explained_up {A} p q (r : R A) : below X E H p q -> explained q r -> explained p r.
  Proof.
    intros B. destruct r as [a|e|x|]; cbn [explained]; auto; intros (w & Rq & O); exists w; (split; [|exact O]); eapply rt_trans; [apply rt_step; exact B|exact Rq|apply rt_step; exact B|exact Rq].
  Qed.
  Lemma tells_up {A} s p q (m : M A) : below X E H p q -> tells s q m -> tells s p m.
  Proof. intros B T c Hc. eapply explained_up; [exact B|apply T; exact Hc]. Qed.
  Lemma tells_ok {A} s p (a : A) : tells s p (ret a).
  Proof. intros c _. exact I. Qed.
  Lemma tells_fuel {A} s p : tells s p (stop RFuel : M A).
  Proof. intros c _. exact I. Qed.
  Lemma tells_err {A} s p e : obstacle X E H p e -> tells s p (stop (RErr e) : M A).
  Proof. intros O c _. exists p. split; [apply rt_refl|exact O]. Qed.
  Lemma tells_bind {A B} s p (m : M A) (k : A -> M B) : framed m -> tells s p m -> (forall x, tells s p (k x)) -> tells s p (bindM m k).
  Proof.
    intros F T K c Hc. unfold bindM. specialize (T c Hc). destruct (m c) as [c1 r] eqn:Q. cbn [snd] in T.
    pose proof (framed_tr _ _ _ _ F Q) as Ht. destruct r as [a|e|x|]; cbn [snd]; try exact T. apply K. congruence.
  Qed.
  Lemma tells_then {A B} s p (m : M A) (k : A -> M B) : tells s p m -> (forall x c, exists b, snd (k x c) = ROk b) -> tells s p (bindM m k).
  Proof.
    intros T K c Hc. unfold bindM. specialize (T c Hc). destruct (m c) as [c1 r] eqn:Q. cbn [snd] in T.
    destruct r as [a|e|x|]; cbn [snd]; try exact T. destruct (K a c1) as [b ->]. exact I.
  Qed.
  Lemma tells_rec s p t a (m : M bytes) : (refused s false a -> exists q, reach p q /\ obstacle X E H q (EMarshal (CRecursive t))) ->
    (forall s', enters s false a s' -> tells s' p m) -> tells s p (check_rec t a m).
  Proof.
    intros Ho Hm c Hc. unfold check_rec. destruct (1000 <? depth c + 1) eqn:D.
    - destruct (has a (seen c)) eqn:Hh.
      + cbn [snd explained]. apply Ho. subst s. split; [right; apply Z.ltb_lt in D; cbn; lia|apply has_in; exact Hh].
      + specialize (Hm (a :: seen c, depth c + 1)). assert (enters s false a (a :: seen c, depth c + 1)) as En.
        { apply enters_code. subst s. unfold code_enter, tr. cbn [fst snd]. rewrite D. apply has_out in Hh. auto. }
        specialize (Hm En (St (a :: seen c) (depth c + 1) (iters c)) eq_refl). destruct (m _) as [c1 r]. exact Hm.
    - specialize (Hm (seen c, depth c + 1)). assert (enters s false a (seen c, depth c + 1)) as En.
      { apply enters_code. subst s. unfold code_enter, tr. cbn [fst snd]. rewrite D. reflexivity. }
      specialize (Hm En (St (seen c) (depth c + 1) (iters c)) eq_refl). destruct (m _) as [c1 r]. exact Hm.
  Qed.
  Lemma tells_seen s p t a (m : M bytes) : (refused s true a -> exists q, reach p q /\ obstacle X E H q (EMarshal (CRecursive t))) ->
    (forall s', enters s true a s' -> tells s' p m) -> tells s p (check_seen t a m).
  Proof.
    intros Ho Hm c Hc. unfold check_seen. destruct (has a (seen c)) eqn:Hh.
    - cbn [snd explained]. apply Ho. subst s. split; [left; reflexivity|apply has_in; exact Hh].
    - specialize (Hm (a :: seen c, depth c)). assert (enters s true a (a :: seen c, depth c)) as En.
      { apply enters_code. subst s. unfold code_enter, tr. cbn [fst snd]. apply has_out in Hh. auto. }
      specialize (Hm En (St (a :: seen c) (depth c) (iters c)) eq_refl). destruct (m _) as [c1 r]. exact Hm.
  Qed.
  Lemma tells_elems s p e : (forall x, framed (e x)) -> forall l i, (forall x, In x l -> tells s p (e x)) -> tells s p (enc_elems e i l).
  Proof.
    intros F. induction l as [|x l IH]; intros i He; cbn [enc_elems]; [apply tells_ok|].
    apply tells_bind; [apply F|apply He; left; reflexivity|]. intros b.
    apply tells_then; [apply IH; intros y Hy; apply He; right; exact Hy|]. intros b' c. eexists. reflexivity.
  Qed.
  Lemma tells_seq s p e l : (forall x, framed (e x)) -> (forall x, In x l -> tells s p (e x)) -> tells s p (enc_seq e l).
  Proof. intros F He. apply tells_then; [apply tells_elems; assumption|]. intros b c. eexists. reflexivity. Qed.

  Context (ord : nat -> list (hval * hval) -> list (hval * hval)).
  Hypothesis Hord : fair_order ord.
  Context (t0 : gty) (v0 : hval).
  Hypothesis Hty : well_typed E H t0 v0.
  Notation inn := (within E H t0 v0).
  Notation enc := (enc_f X E H ord).

  Lemma tells_compile s p f t A (m : M A) : (forall c, faulty X E t c -> exists q, reach p q /\ obstacle X E H q (EMarshal c)) ->
    (encodable X E t -> tells s p m) -> tells s p (_ <== compile_now X E f t ;; m).
  Proof.
    intros Ho Hm c Hc. unfold compile_now, bindM, lift. destruct (ecompile_f X E f false [] t) as [S0|e|q|] eqn:Q; cbn [snd]; [ | | |exact I].
    - apply Hm; [|exact Hc]. eapply compile_encodable. exact Q.
    - destruct (compile_faulty X E f t e Q) as (c0 & Fa & ->). exact (Ho c0 Fa).
    - destruct (ecompile_nopanic _ _ _ _ _ _ _ Q).
  Qed.
  Lemma calm_tells {A} s p (m : M A) : calm m -> (forall c e, snd (m c) <> RErr e) -> tells s p m.
  Proof. intros C N c _. specialize (C c). specialize (N c). destruct (snd (m c)) as [a|e|x|]; try exact I; [destruct (N e eq_refl)|destruct (C x eq_refl)]. Qed.
  Lemma scalar_no_error k v c e : snd (enc_scalar X k v c) <> RErr e.
  Proof.
    unfold enc_scalar. destruct k as [|k|k| | | | | | | | | | |], v; try destruct k; try discriminate; try (destruct (int_ok _ _); discriminate); destruct (uint_ok _ _); discriminate.
  Qed.
  Lemma tells_scalar s p k v t : inn t v -> kind_of E t = k -> enc_scalar_kind k = true -> tells s p (enc_scalar X k v).
  Proof. intros I Hk Hs. apply calm_tells; [eapply calm_scalar; eassumption|apply scalar_no_error]. Qed.
  Lemma tells_key s p k y t : inn t y -> kind_of E t = k -> key_kind k = true -> tells s p (enc_key X k y).
  Proof.
    intros I Hk Hkk. apply calm_tells; [eapply calm_key; eassumption|]. unfold enc_key. rewrite key_kind_eq, Hkk. intros c e. apply scalar_no_error.
  Qed.
  Lemma tells_pairs s p k kt e : (forall x, framed (e x)) -> kind_of E kt = k -> key_kind k = true ->
    forall l, (forall y x, In (y, x) l -> inn kt y /\ tells s p (e x)) -> tells s p (enc_pairs X k e l).
  Proof.
    intros F Hk Hkk. induction l as [|[y x] l IH]; intros He; cbn [enc_pairs]; [apply tells_ok|]. destruct (He y x (or_introl eq_refl)) as [A B].
    apply tells_bind; [apply framed_key|eapply tells_key; eassumption|]. intros b. apply tells_bind; [apply F|exact B|]. intros b'.
    apply tells_then; [apply IH; intros; apply He; right; assumption|]. intros b2 c. eexists. reflexivity.
  Qed.
  Lemma tells_map s p k kt e m : (forall x, framed (e x)) -> kind_of E kt = k -> key_kind k = true ->
    (forall y x, In (y, x) m -> inn kt y /\ tells s p (e x)) -> tells s p (enc_map X ord k e m).
  Proof.
    intros F Hk Hkk He c Hc.
    assert (tells s p (b <== enc_pairs X k e (ord (iters c) m) ;; ret (out_array_begin (blen m) ++ b ++ bs "}"))) as T;
      [|exact (T (St (seen c) (depth c) (S (iters c))) Hc)].
    apply tells_then; [|intros b c1; eexists; reflexivity]. eapply tells_pairs; [exact F|exact Hk|exact Hkk|].
    intros y x J. apply He. eapply Permutation_in; [symmetry; apply Hord|exact J].
  Qed.

  (** ** Methods *)
  Lemma method_tells t v : here E H t v -> iface_kind (kind_of E t) = false -> marshaler E t = true ->
    match call_method X E H t v with
    | RErr e => refuses X E H t v e
    | RPanic p => collapses X E H t v p
    | _ => True
    end.
  Proof.
    intros Hh Hif Hi. rewrite <- implements_eq in Hi. unfold call_method.
    destruct t as [|k|k| | | |t'|n t'|k u|t'| |m| |n]; try discriminate.
    - destruct t' as [|k|k| | | |t'|n t'|k u|t'| |m| |n]; try discriminate.
      cbn [implements] in Hi. destruct (nth_error E n) as [d|] eqn:Hd; [|discriminate]. change (kind_of E (TPtr (TName n))) with (KPtr (TName n)) in *.
      inversion Hh as [b Q|k0 z Q R|k0 z Q R|f Q|f Q|s Q|u Q|u o i n0 l Q C|n0 u l Q L|k0 u Q|k0 u o m Q En|u Q|u o i c Q C|Q|u x Q Q1' Q2|id fs l Q L|z0 Q]; subst v; try discriminate.
      + destruct (d_marshal d) eqn:Hm; [discriminate| |].
        * eapply cl_nil_ptr; eassumption.
        * destruct (x_marshal X n true H (HPtr None)) eqn:Q'; try exact I; [eapply rf_pointer|eapply cl_pointer]; eassumption.
      + destruct (d_marshal d) eqn:Hm; [discriminate| |].
        * rewrite C. destruct (x_marshal X n false H c) eqn:Q'; try exact I; [eapply rf_pointee|eapply cl_pointee]; eassumption.
        * destruct (x_marshal X n true H (HPtr (Some (o, i)))) eqn:Q'; try exact I; [eapply rf_pointer|eapply cl_pointer]; eassumption.
    - destruct (x_marshal X n false H v) eqn:Q'; try exact I; [apply rf_value|apply cl_value]; assumption.
  Qed.
  Lemma tells_marshal s t v : inn t v -> marshaler E t = true -> tells s (At ByType s t v) (lift (call_marshal X E H t v)).
  Proof.
    intros Iv Hi c Hc. cbn [snd lift]. pose proof (Hty t v Iv) as Hh. unfold call_marshal.
    assert (forall r, match r with RErr e => refuses X E H t v e | RPanic p => collapses X E H t v p | _ => True end ->
      explained (At ByType s t v) (r : R bytes)) as K.
    { intros [a|e|x|] Q; cbn [explained]; try exact I.
      - exists (At ByType s t v). split; [apply rt_refl|]. apply ob_method; assumption.
      - exists (At ByType s t v). split; [apply rt_refl|]. apply ac_method; assumption. }
    destruct (iface_kind (kind_of E t)) eqn:Hif; [|apply K; apply method_tells; auto].
    inversion Hh as [b Q|k0 z Q R|k0 z Q R|f Q|f Q|s' Q|u Q|u o i n0 l Q C|n0 u l Q L|k0 u Q|k0 u o m Q En|u Q|u o i c' Q C|Q|u x Q Q1 Q2|id fs l Q L|z0 Q]; subst v;
      try (rewrite Q in Hif; discriminate).
    - apply K. apply cl_nil. assumption.
    - rewrite Q1. assert (inn u x) as I' by (eapply wi_step; [exact Iv|]; apply pt_iface; exact Q).
      pose proof (method_tells u x (Hty _ _ I') Q1 (Q2 Hi)) as M. apply K. destruct (call_method X E H u x); try exact I; [apply rf_iface|apply cl_iface]; assumption.
  Qed.

  (** ** The string option *)
  Lemma tells_iface_str : forall f s t v, inn t v -> tells s (At AsTextInside s t v) (enc_iface_str X E H f t v).
  Proof.
    induction f as [|f IH]; intros s t v Iv; cbn [enc_iface_str]; [apply tells_fuel|]. pose proof (Hty _ _ Iv) as Hh.
    destruct (kind_of E t) as [|kk|kk| | | |t'|n t'|kk v'|t'| |mm| |id fs] eqn:Hk.
    all: try (assert (~ text_type t -> tells s (At AsTextInside s t v) (stop (RErr (EMarshal (CAsString t))) : M bytes)) as Ob
      by (intros N; apply tells_err; apply ob_text; [rewrite Hk; reflexivity|rewrite Hk; reflexivity|exact N])).
    all: try (inversion Hh as [b0 Q|k0 z Q R|k0 z Q R|y Q|y Q|s0 Q|u Q|u o i n0 l0 Q C|n0 u l0 Q L|k0 u Q|k0 u o m Q En|u Q|u o i c Q C|Q|u y Q Q1 Q2|id0 fs0 l0 Q L|z0 Q]; subst v; try (rewrite Hk in Q; discriminate Q)).
    all: try apply tells_ok.
    all: try (match type of Ob with _ => idtac end; destruct t as [|k1|k1| | | | | | | | | | |]; try (cbn in Hk; discriminate); try (apply Ob; intros []); try apply tells_ok).
    - rewrite Hk in Q. injection Q as <-. cbn in Hk. injection Hk as ->. rewrite (int_ok_range _ _ R). apply tells_ok.
    - rewrite Hk in Q. injection Q as <-. cbn in Hk. injection Hk as ->. rewrite (uint_ok_range _ _ R). destruct kk; first [apply tells_ok|apply Ob; intros []].
    - rewrite Hk in Q. injection Q as <-. rewrite C. eapply tells_up; [eapply bl_text_ptr; eassumption|]. apply IH. eapply wi_step; [exact Iv|]. eapply pt_ptr; eassumption.
    - eapply tells_up; [apply bl_text_iface; exact Q|]. apply IH. eapply wi_step; [exact Iv|]. apply pt_iface. exact Q.
    - eapply tells_up; [apply bl_text_iface; exact Q|]. apply IH. eapply wi_step; [exact Iv|]. apply pt_iface. exact Q.
  Qed.
  Lemma tells_as_string f s t v : inn t v -> quotable (kind_of E t) = true -> tells s (At AsText s t v) (enc_as_string X E H f t v).
  Proof.
    intros Iv Hq. pose proof (Hty _ _ Iv) as Hh. unfold enc_as_string.
    assert (iface_kind (kind_of E t) = true -> tells s (At AsText s t v) (enc_iface_str X E H f t v)) as Hi.
    { intros Q. eapply tells_up; [apply bl_text; exact Q|]. apply tells_iface_str. exact Iv. }
    inversion Hh as [b Q|k0 z Q R|k0 z Q R|x Q|x Q|s0 Q|u Q|u o i n0 l Q C|n0 u l Q L|k0 u Q|k0 u o m Q En|u Q|u o i c Q C|Q|u x Q Q1 Q2|id fs l Q L|z0 Q]; subst v;
      try (rewrite Q in *; try discriminate; apply tells_ok).
    - rewrite Q, (int_ok_range _ _ R). apply tells_ok.
    - rewrite Q, (uint_ok_range _ _ R). apply tells_ok.
    - destruct (kind_of E t); try discriminate; exact (Hi eq_refl).
    - destruct (kind_of E t); try discriminate; exact (Hi eq_refl).
  Qed.

  Notation able := (able X E).
  Notation sound_node := (sound_node X E).
  Definition way_of (m : mode) : way := match m with MType => ByType | MShape => ByKind | MIface => Inside end.
  Definition told_all (f : nat) : Prop := forall m s t v, inn t v -> able m t -> tells s (At (way_of m) s t v) (enc f m t v).

  Lemma tells_field f fl s x t id fs l : inn t (HStruct l) -> able MShape t -> kind_of E t = KStruct id fs -> In (fl, x) (combine fs l) -> enc_skipped X fl = false ->
    told_all f -> tells s (At (AsField fl) s (f_ty fl) x) (enc_field X E H f (enc f MType) fl x).
  Proof.
    intros Iv (b & Hs & _ & Hsn) Hk Hin Hsk IH. assert (In fl fs) as Hfs by (eapply in_combine_l; exact Hin).
    assert (written_field X fl = true) as Hw by (rewrite written_eq, Hsk; reflexivity).
    assert (inn (f_ty fl) x) as Ix by (eapply wi_step; [exact Iv|]; eapply pt_field; eassumption).
    assert (tag_string (tag_of X fl) = true -> quotable (kind_of E (elem_or_self E (f_ty fl))) = true) as Hq.
    { intros Ht. destruct (quotable _) eqn:Q; [reflexivity|]. destruct (Hsn _ (ei_refl _ _ _)). eapply ue_string; eassumption. }
    assert (tag_string (tag_of X fl) = false -> able MType (elem_or_self E (f_ty fl))) as Ha.
    { intros Ht. eapply sound_step; [exact Hsn|]. eapply ep_field; eassumption. }
    unfold elem_or_self in *. unfold enc_field. pose proof (Hty _ _ Ix) as Hh.
    destruct (kind_of E (f_ty fl)) as [|k|k| | | |t'|n t'|k u|t'| |m| |id' fs'] eqn:Hkf;
      try (assert (ptr_kind (kind_of E (f_ty fl)) = false) as Hpk by (rewrite Hkf; reflexivity);
           destruct (tag_string (tag_of X fl)) eqn:Htg;
           [eapply tells_up; [apply bl_field_text; assumption|]; apply tells_as_string; [exact Ix|exact (Hq eq_refl)]
           |eapply tells_up; [apply bl_field; assumption|]; apply (IH MType); [exact Ix|exact (Ha eq_refl)]]).
    inversion Hh as [b0 Q|k0 z Q R|k0 z Q R|y Q|y Q|s0 Q|u Q|u o i n0 l0 Q C|n0 u l0 Q L|k0 u Q|k0 u o m Q En|u Q|u o i c Q C|Q|u y Q Q1 Q2|id0 fs0 l0 Q L|z0 Q]; subst x; try (rewrite Hkf in Q; discriminate Q).
    - apply tells_ok.
    - rewrite C. replace u with t' in * by congruence. assert (inn t' c) as Ic by (eapply wi_step; [exact Ix|]; eapply pt_ptr; eassumption).
      destruct (tag_string (tag_of X fl)) eqn:Htg; [eapply tells_up; [eapply bl_field_ptr_text; eassumption|]; apply tells_as_string; [exact Ic|exact (Hq eq_refl)]|].
      destruct (struct_kind (kind_of E t')) eqn:Hst.
      + apply tells_rec.
        * intros Rf. eexists. split; [apply rt_refl|]. eapply ob_field; eassumption.
        * intros s' En. eapply tells_up; [eapply bl_field_struct; eassumption|]. apply (IH MType); [exact Ic|exact (Ha eq_refl)].
      + eapply tells_up; [eapply bl_field_ptr; eassumption|]. apply (IH MType); [exact Ic|exact (Ha eq_refl)].
  Qed.
  Lemma tells_fields f s t id fs0 l0 : inn t (HStruct l0) -> able MShape t -> kind_of E t = KStruct id fs0 -> told_all f ->
    forall fs l, length l = length fs -> (forall fl x, In (fl, x) (combine fs l) -> In (fl, x) (combine fs0 l0)) ->
    tells s (At ByKind s t (HStruct l0)) (enc_fields X E H f (enc f MType) fs l).
  Proof.
    intros Iv Ha Hk IH. induction fs as [|fl fs IHfs]; intros [|x l] L Hin; try discriminate L; cbn [enc_fields]; [apply tells_ok|]. injection L as L.
    assert (tells s (At ByKind s t (HStruct l0)) (enc_fields X E H f (enc f MType) fs l)) as Q by (apply IHfs; [exact L|]; intros g y J; apply Hin; right; exact J).
    destruct (enc_skipped X fl) eqn:Hsk; [exact Q|]. destruct (_ && _) eqn:Hom; [exact Q|].
    assert (In (fl, x) (combine fs0 l0)) as Hin0 by (apply Hin; left; reflexivity).
    apply tells_bind; [apply framed_field; intros; apply enc_framed| |intros b; apply tells_then; [exact Q|intros r c; eexists; reflexivity]].
    eapply tells_up; [|eapply tells_field; eassumption]. eapply bl_struct; [exact Hk|exact Hin0|rewrite written_eq, Hsk; reflexivity|].
    intros Ht. rewrite Ht in Hom. apply hzero_false. exact Hom.
  Qed.

  Lemma enc_tells : forall f, told_all f.
  Proof.
    induction f as [|f IH]; intros m s t v Iv Ha; cbn [enc_f]; [apply tells_fuel|]. pose proof (Hty _ _ Iv) as Hh. destruct m; cbn [way_of].
    - rewrite implements_eq, is_bytes_eq. destruct (marshaler E t) eqn:Hi; [apply tells_marshal; assumption|]. destruct (bytes_type t) eqn:Hb.
      + destruct (calm_bytes E H t0 v0 Hty t v Iv Hb) as [b ->]. apply tells_ok.
      + eapply tells_up; [apply bl_type; assumption|]. apply (IH MShape); [exact Iv|]. exists false. split; [exact Hi|]. rewrite Hb. split; [reflexivity|exact Ha].
    - pose proof Ha as (b & Hs & Hby & Hsn).
      destruct (kind_of E t) as [|kk|kk| | | |t'|n t'|kk v'|t'| |mm| |id fs] eqn:Hk;
        try (eapply tells_scalar; [exact Iv|exact Hk|reflexivity]).
      + destruct (enc_scalar_kind _) eqn:Hsk; [eapply tells_scalar; eassumption|].
        destruct (Hsn _ (ei_refl _ _ _)). destruct kk; try discriminate Hsk. apply ue_uintptr; assumption.
      + inversion Hh as [b0 Q|k0 z Q R|k0 z Q R|y Q|y Q|s0 Q|u Q|u o i n0 l0 Q C|n0 u l0 Q L|k0 u Q|k0 u o m Q En|u Q|u o i c Q C|Q|u y Q Q1 Q2|id0 fs0 l0 Q L|z0 Q]; subst v; try (rewrite Hk in Q; discriminate Q).
        * apply tells_ok.
        * replace u with t' in * by congruence. rewrite C. apply tells_rec; [intros Rf; eexists; split; [apply rt_refl|]; eapply ob_slice; eassumption|]. intros s' En.
          apply tells_seq; [intros; apply enc_framed|]. intros x Hx. eapply tells_up; [eapply bl_slice; eassumption|].
          apply (IH MType); [eapply wi_step; [exact Iv|]; eapply pt_slice; eassumption|].
          eapply sound_step; [exact Hsn|]. eapply ep_slice; eassumption.
      + inversion Hh as [b0 Q|k0 z Q R|k0 z Q R|y Q|y Q|s0 Q|u Q|u o i n0 l0 Q C|n0 u l0 Q L|k0 u Q|k0 u o m Q En|u Q|u o i c Q C|Q|u y Q Q1 Q2|id0 fs0 l0 Q L|z0 Q]; subst v; try (rewrite Hk in Q; discriminate Q).
        replace u with t' in * by congruence. replace (Nat.eqb (length l0) n) with true by (symmetry; apply Nat.eqb_eq; congruence).
        apply tells_seq; [intros; apply enc_framed|]. intros x Hx. eapply tells_up; [eapply bl_array; eassumption|].
        apply (IH MType); [eapply wi_step; [exact Iv|]; eapply pt_array; eassumption|]. eapply sound_step; [exact Hsn|]. eapply ep_array; eassumption.
      + assert (key_kind (kind_of E kk) = true) as Hkk.
        { destruct (key_kind (kind_of E kk)) eqn:Q; [reflexivity|]. destruct (Hsn _ (ei_refl _ _ _)). eapply ue_key; eassumption. }
        inversion Hh as [b0 Q|k0 z Q R|k0 z Q R|y Q|y Q|s0 Q|u Q|u o i n0 l0 Q C|n0 u l0 Q L|k0 u Q|k0 u o m Q En|u Q|u o i c Q C|Q|u y Q Q1 Q2|id0 fs0 l0 Q L|z0 Q]; subst v; try (rewrite Hk in Q; discriminate Q).
        * apply tells_ok.
        * replace u with v' in * by congruence. replace k0 with kk in * by congruence. rewrite En. apply tells_rec; [intros Rf; eexists; split; [apply rt_refl|]; eapply ob_map; eassumption|]. intros s' Ent.
          eapply tells_map; [intros; apply enc_framed|reflexivity|exact Hkk|]. intros y x Hx. split; [eapply wi_step; [exact Iv|]; eapply pt_key; eassumption|].
          eapply tells_up; [eapply bl_map; eassumption|].
          apply (IH MType); [eapply wi_step; [exact Iv|]; eapply pt_entry; eassumption|]. eapply sound_step; [exact Hsn|]. eapply ep_map; eassumption.
      + destruct (iface_kind (kind_of E t')) eqn:Hif; [eapply tells_up; [eapply bl_ptr_iface; eassumption|]; apply (IH MIface); [exact Iv|exact Logic.I]|].
        inversion Hh as [b0 Q|k0 z Q R|k0 z Q R|y Q|y Q|s0 Q|u Q|u o i n0 l0 Q C|n0 u l0 Q L|k0 u Q|k0 u o m Q En|u Q|u o i c Q C|Q|u y Q Q1 Q2|id0 fs0 l0 Q L|z0 Q]; subst v; try (rewrite Hk in Q; discriminate Q).
        * apply tells_ok.
        * rewrite C. replace u with t' in * by congruence. assert (inn t' c) as Ic by (eapply wi_step; [exact Iv|]; eapply pt_ptr; eassumption).
          assert (sound_node (by_structure (kind_of E t'), t')) as Sn by (eapply sound_step; [exact Hsn|]; eapply ep_ptr; eassumption).
          rewrite <- by_structure_eq in Sn.
          assert (ptr_direct (kind_of E t') = true -> able MShape t') as Hd by (intros Q'; rewrite Q' in Sn; exists true; split; [reflexivity|split; [reflexivity|exact Sn]]).
          destruct (struct_kind (kind_of E t')) eqn:Hst.
          -- apply tells_rec; [intros Rf; eexists; split; [apply rt_refl|]; eapply ob_ptr; eassumption|]. intros s' En.
             eapply tells_up; [eapply bl_ptr_struct; eassumption|]. apply (IH MShape); [exact Ic|]. apply Hd. unfold ptr_direct. rewrite Hst, orb_true_r. reflexivity.
          -- destruct (ptr_direct (kind_of E t')) eqn:Hpd; rewrite by_structure_eq in Hpd.
             ++ eapply tells_up; [eapply bl_ptr_kind; eassumption|]. apply (IH MShape); [exact Ic|]. apply Hd. reflexivity.
             ++ eapply tells_up; [eapply bl_ptr; eassumption|]. apply (IH MType); [exact Ic|exact Sn].
      + eapply tells_up; [apply bl_iface; rewrite Hk; reflexivity|]. apply (IH MIface); [exact Iv|exact Logic.I].
      + eapply tells_up; [apply bl_iface; rewrite Hk; reflexivity|]. apply (IH MIface); [exact Iv|exact Logic.I].
      + destruct (Hsn _ (ei_refl _ _ _)). apply ue_other; assumption.
      + inversion Hh as [b0 Q|k0 z Q R|k0 z Q R|y Q|y Q|s0 Q|u Q|u o i n0 l0 Q C|n0 u l0 Q L|k0 u Q|k0 u o m Q En|u Q|u o i c Q C|Q|u y Q Q1 Q2|id0 fs0 l0 Q L|z0 Q]; subst v; try (rewrite Hk in Q; discriminate Q).
        replace fs0 with fs in * by congruence. unfold enc_struct. apply tells_then; [|intros r c; eexists; reflexivity].
        eapply tells_fields; [exact Iv|exact Ha|exact Hk|exact IH|exact L|auto].
    - destruct (kind_of E t) as [|kk|kk| | | |t'|n t'|kk v'|t'| |mm| |id fs] eqn:Hk;
        try (eapply tells_scalar; [exact Iv|exact Hk|reflexivity]).
      + destruct (enc_scalar_kind _) eqn:Hsk; [eapply tells_scalar; eassumption|].
        apply tells_err. apply ob_inside. rewrite Hk. destruct kk; try discriminate Hsk. exact I.
      + inversion Hh as [b0 Q|k0 z Q R|k0 z Q R|y Q|y Q|s0 Q|u Q|u o i n0 l0 Q C|n0 u l0 Q L|k0 u Q|k0 u o m Q En|u Q|u o i c Q C|Q|u y Q Q1 Q2|id0 fs0 l0 Q L|z0 Q]; subst v; try (rewrite Hk in Q; discriminate Q).
        * replace u with t' in * by congruence. destruct (iface_kind _) eqn:Hif; [apply tells_ok|]. apply tells_compile; [intros c Fa; eexists; split; [apply rt_refl|]; eapply ob_slice_type_nil; eassumption|].
          intros Henc. eapply tells_up; [eapply bl_in_slice_nil; eassumption|]. apply (IH MType); [exact Iv|exact (proj1 Henc)].
        * replace u with t' in * by congruence. apply tells_seen; [intros Rf; eexists; split; [apply rt_refl|]; eapply ob_in_slice; eassumption|]. intros s' En. rewrite C. destruct (iface_kind _) eqn:Hif.
          -- apply tells_seq; [intros; apply enc_framed|]. intros x Hx. eapply tells_up; [eapply bl_in_slice; eassumption|].
             apply (IH MIface); [|exact Logic.I]. eapply wi_step; [exact Iv|]; eapply pt_slice; eassumption.
          -- apply tells_compile; [intros c Fa; eexists; split; [apply rt_refl|]; eapply ob_slice_type; eassumption|].
             intros Henc. eapply tells_up; [eapply bl_in_slice_typed; eassumption|]. apply (IH MType); [exact Iv|exact (proj1 Henc)].
      + apply tells_err. apply ob_inside. rewrite Hk. exact I.
      + rewrite key_kind_eq.
        inversion Hh as [b0 Q|k0 z Q R|k0 z Q R|y Q|y Q|s0 Q|u Q|u o i n0 l0 Q C|n0 u l0 Q L|k0 u Q|k0 u o m Q En|u Q|u o i c Q C|Q|u y Q Q1 Q2|id0 fs0 l0 Q L|z0 Q]; subst v; try (rewrite Hk in Q; discriminate Q).
        * destruct (key_kind _) eqn:Hkk; [apply tells_ok|apply tells_err; eapply ob_key_nil; eassumption].
        * replace u with v' in * by congruence. replace k0 with kk in * by congruence. apply tells_seen; [intros Rf; eexists; split; [apply rt_refl|]; eapply ob_in_map; eassumption|]. intros s' Ent.
          destruct (key_kind _) eqn:Hkk; [|apply tells_err; eapply ob_key; eassumption]. rewrite En.
          assert (forall y x, In (y, x) m -> inn kk y /\ inn v' x) as Hin.
          { intros y x Hx. split; (eapply wi_step; [exact Iv|]); [eapply pt_key|eapply pt_entry]; eassumption. }
          destruct m as [|e m]; [apply tells_ok|]. destruct (iface_kind _) eqn:Hif.
          -- eapply tells_map; [intros; apply enc_framed|reflexivity|exact Hkk|]. intros y x Hx. destruct (Hin y x Hx) as [A B]. split; [exact A|].
             eapply tells_up; [eapply bl_in_map; eassumption|]. apply (IH MIface); [exact B|exact Logic.I].
          -- apply tells_compile; [intros c Fa; eexists; split; [apply rt_refl|]; eapply ob_map_type; try eassumption; discriminate|].
             intros Henc. eapply tells_map; [intros; apply enc_framed|reflexivity|exact Hkk|]. intros y x Hx. destruct (Hin y x Hx) as [A B]. split; [exact A|].
             eapply tells_up; [eapply bl_in_map_typed; eassumption|]. apply (IH MType); [exact B|exact (proj1 Henc)].
      + inversion Hh as [b0 Q|k0 z Q R|k0 z Q R|y Q|y Q|s0 Q|u Q|u o i n0 l0 Q C|n0 u l0 Q L|k0 u Q|k0 u o m Q En|u Q|u o i c Q C|Q|u y Q Q1 Q2|id0 fs0 l0 Q L|z0 Q]; subst v; try (rewrite Hk in Q; discriminate Q).
        * apply tells_ok.
        * rewrite C. replace u with t' in * by congruence. eapply tells_up; [eapply bl_in_ptr; eassumption|]. apply (IH MIface); [|exact Logic.I]. eapply wi_step; [exact Iv|]. eapply pt_ptr; eassumption.
      + inversion Hh as [b0 Q|k0 z Q R|k0 z Q R|y Q|y Q|s0 Q|u Q|u o i n0 l0 Q C|n0 u l0 Q L|k0 u Q|k0 u o m Q En|u Q|u o i c Q C|Q|u y Q Q1 Q2|id0 fs0 l0 Q L|z0 Q]; subst v; try (rewrite Hk in Q; discriminate Q).
        * apply tells_ok.
        * eapply tells_up; [apply bl_in_iface; exact Q|]. apply (IH MIface); [|exact Logic.I]. eapply wi_step; [exact Iv|]. apply pt_iface. exact Q.
      + inversion Hh as [b0 Q|k0 z Q R|k0 z Q R|y Q|y Q|s0 Q|u Q|u o i n0 l0 Q C|n0 u l0 Q L|k0 u Q|k0 u o m Q En|u Q|u o i c Q C|Q|u y Q Q1 Q2|id0 fs0 l0 Q L|z0 Q]; subst v; try (rewrite Hk in Q; discriminate Q).
        * apply tells_ok.
        * eapply tells_up; [apply bl_in_iface; exact Q|]. apply (IH MIface); [|exact Logic.I]. eapply wi_step; [exact Iv|]. apply pt_iface. exact Q.
      + apply tells_err. apply ob_inside. rewrite Hk. exact I.
      + apply tells_compile; [intros c Fa; eexists; split; [apply rt_refl|]; eapply ob_struct_type; eassumption|].
        intros Henc. eapply tells_up; [eapply bl_in_struct; eassumption|]. apply (IH MType); [exact Iv|exact (proj1 Henc)].
  Qed.

  Theorem marshal_fails_for e : MarshalFails X E H ord t0 v0 e ->
    (exists c, e = EMarshal c /\ faulty X E t0 c) \/ (encodable X E t0 /\ exists q, reached X E H t0 v0 q /\ obstacle X E H q e).
  Proof.
    intros [f Q]. unfold marshal, compile_now, bindM, lift in Q. destruct (ecompile_f X E f false [] t0) as [S0|e0|q|] eqn:Qc; cbn [snd ret] in Q; try discriminate.
    - right. pose proof (compile_encodable _ _ _ _ _ Qc) as Henc. split; [exact Henc|].
      pose proof (enc_tells f MType ([], 0) t0 v0 (wi_refl _ _ _ _) (proj1 Henc) st0 eq_refl) as T. rewrite Q in T. exact T.
    - injection Q as <-. left. destruct (compile_faulty X E f t0 e0 Qc) as (c & A & B). exists c. auto.
  Qed.
  Theorem marshal_panics_for p : MarshalPanics X E H ord t0 v0 p ->
    encodable X E t0 /\ exists q, reached X E H t0 v0 q /\ accident X E H q p.
  Proof.
    intros [f Q]. unfold marshal, compile_now, bindM, lift in Q. destruct (ecompile_f X E f false [] t0) as [S0|e0|q|] eqn:Qc; cbn [snd ret] in Q; try discriminate.
    - pose proof (compile_encodable _ _ _ _ _ Qc) as Henc. split; [exact Henc|].
      pose proof (enc_tells f MType ([], 0) t0 v0 (wi_refl _ _ _ _) (proj1 Henc) st0 eq_refl) as T. rewrite Q in T. exact T.
    - destruct (ecompile_nopanic _ _ _ _ _ _ _ Qc).
  Qed.
End Tell.

(** ** What is encoded meets no obstacle *)
Section Fine.
  Context (X : Ext) (E : env) (H : heap).
  Notation en := code_enter.
  (** The value at [p] represents something. *)
  Definition fine (p : place_in) : Prop :=
    match p with
    | At w s t v =>
        match w with
        | ByType => exists r, repr X E H en s t v r
        | ByKind => exists r, shape X E H en s t v r
        | Inside => exists r, inner X E H en s t v r
        | AsField f => t = f_ty f /\ exists r, field_val X E H en s f v r
        | AsText => exists r, quoted_repr X E H t v r
        | AsTextInside => exists r, quoted_any X E H t v r
        end
    end.
  Lemma enters_same s b a s1 s2 : en s b a s1 -> en s b a s2 -> s1 = s2.
  Proof. unfold code_enter. destruct b; [intros [_ ->] [_ ->]; reflexivity|]. destruct (1000 <? snd s + 1); [intros [_ ->] [_ ->]|intros -> ->]; reflexivity. Qed.
  Lemma elems_fine s b t : forall l i ps x, elems X E H en s b t i l ps -> In x l ->
    if b then exists r, inner X E H en s t x r else exists r, repr X E H en s t x r.
  Proof.
    induction l as [|y l IH]; intros i ps x El; [intros []|]. intros [->|J]; inversion El; subst; eauto.
  Qed.
  Lemma pairs_fine s b k t : forall l ps y x, pairs X E H en s b k t l ps -> In (y, x) l ->
    if b then exists r, inner X E H en s t x r else exists r, repr X E H en s t x r.
  Proof.
    induction l as [|[z w] l IH]; intros ps y x Pa; [intros []|]. intros [Q|J]; [injection Q as -> ->|]; inversion Pa; subst; eauto.
  Qed.
  Lemma fields_fine s : forall fs l ps f x, fields X E H en s fs l ps -> In (f, x) (combine fs l) -> written_field X f = true ->
    (tag_omitempty (tag_of X f) = true -> ~ zero_value x) -> exists r, field_val X E H en s f x r.
  Proof.
    induction fs as [|g fs IH]; intros l ps f x Fi; [intros []|]. destruct l as [|y l]; [intros []|]. intros [Q|J] Hw Ho.
    - injection Q as -> ->. inversion Fi; subst; [congruence|exfalso; apply Ho; assumption|eauto].
    - inversion Fi; subst; eapply IH; eassumption.
  Qed.

  Ltac same := repeat match goal with
    | A : enters _ _ _ _ |- _ => apply enters_code in A
    | A : en ?s ?b ?a ?x, B : en ?s ?b ?a ?y |- _ => pose proof (enters_same _ _ _ _ _ A B); clear B; subst
    | A : cells ?h ?o ?i ?n = Some ?x, B : cells ?h ?o ?i ?n = Some ?y |- _ => rewrite A in B; injection B as <-
    | A : entries ?h ?o = Some ?x, B : entries ?h ?o = Some ?y |- _ => rewrite A in B; injection B as <-
    | A : cell ?h ?o ?i = Some ?x, B : cell ?h ?o ?i = Some ?y |- _ => rewrite A in B; injection B as <-
    | A : kind_of ?e ?t = ?x, B : kind_of ?e ?t = ?y |- _ => rewrite A in B; (discriminate B || (injection B; intros; subst; clear B) || fail 1)
    end.
  Ltac kinds := repeat match goal with
    | A : kind_of ?e ?t = _, B : iface_kind (kind_of ?e ?t) = _ |- _ => rewrite A in B; cbn in B; try discriminate B
    | A : kind_of ?e ?t = _, B : ptr_kind (kind_of ?e ?t) = _ |- _ => rewrite A in B; cbn in B; try discriminate B
    | A : kind_of ?e ?t = _, B : scalar_repr _ (kind_of ?e ?t) _ _ |- _ => rewrite A in B; inversion B
    end.
  Lemma fine_below p q : below X E H p q -> fine p -> fine q.
  Proof.
    intros B. destruct B; cbn [fine].
    all: try (intros [-> [r R]]; inversion R; subst; same; kinds; try congruence; eauto; fail).
    all: try (intros [r R]; inversion R; subst; same; kinds; try congruence; eauto; fail).
    all: intros [r R]; inversion R; subst; same; kinds; try congruence; eauto.
    - eapply (elems_fine _ false); eassumption.
    - eapply (elems_fine _ false); eassumption.
    - eapply (pairs_fine _ false); [eassumption|]. eapply Permutation_in; eassumption.
    - split; [reflexivity|]. eapply fields_fine; eassumption.
    - destruct (kind_of E t'); discriminate.
    - destruct (kind_of E t'); discriminate.
    - destruct (kind_of E t'); discriminate.
    - destruct (kind_of E t'); discriminate.
    - match goal with Q : scalar_repr _ _ _ _, K : iface_kind (kind_of E t) = true |- _ => destruct (kind_of E t); try discriminate; inversion Q end.
    - destruct (kind_of E t'); discriminate.
    - destruct (kind_of E t'); discriminate.
    - match goal with Q : scalar_repr _ _ _ _, K : iface_kind (kind_of E t) = true |- _ => destruct (kind_of E t); try discriminate; inversion Q end.
    - eapply (elems_fine _ true); eassumption.
    - match goal with Q : In _ [] |- _ => destruct Q end.
    - match goal with Q : pairs _ _ _ _ _ (iface_kind ?k) _ _ _ _, K : iface_kind ?k = true |- _ => rewrite K in Q; eapply (pairs_fine _ true); [exact Q|] end. eapply Permutation_in; eassumption.
    - match goal with Q : In _ [] |- _ => destruct Q end.
    - match goal with Q : pairs _ _ _ _ _ (iface_kind ?k) _ _ _ _, K : iface_kind ?k = false |- _ => rewrite K in Q; eapply (pairs_fine _ false); [exact Q|] end. eapply Permutation_in; eassumption.
  Qed.
  Lemma fine_reached p q : clos_refl_trans _ (below X E H) p q -> fine p -> fine q.
  Proof. induction 1; eauto. intros. eapply fine_below; eassumption. Qed.

  Lemma refuses_says t v e b : refuses X E H t v e -> says X E H t v b -> False.
  Proof.
    intros Rf. revert b. induction Rf; intros b Sy; inversion Sy; subst; try congruence;
      try (match goal with A : nth_error E ?n = Some ?d, B : nth_error E ?n = Some ?d' |- _ => rewrite A in B; injection B as <- end);
      try congruence. eapply IHRf; eassumption.
  Qed.
  Lemma collapses_says t v p b : collapses X E H t v p -> says X E H t v b -> False.
  Proof.
    intros Cl. revert b. induction Cl; intros b Sy; inversion Sy; subst; try congruence;
      try (match goal with A : nth_error E ?n = Some ?d, B : nth_error E ?n = Some ?d' |- _ => rewrite A in B; injection B as <- end);
      try congruence; try (match goal with A : iface_kind (kind_of E (TPtr _)) = true |- _ => discriminate A end). eapply IHCl; eassumption.
  Qed.
  Lemma refused_enters s b a s' : refused s b a -> ~ enters s b a s'.
  Proof. intros [A B] (C & _). destruct (C A) as [D _]. exact (D B). Qed.
  Lemma obstacle_not_fine p e : obstacle X E H p e -> ~ fine p.
  Proof.
    intros O. destruct O; cbn [fine].
    { intros [r R]. inversion R; subst; try congruence. eapply refuses_says; eassumption. }
    all: intros Q; try destruct Q as [-> Q]; destruct Q as [r R]; inversion R; subst; same; kinds; try congruence.
    all: try (match goal with A : refused _ _ _, B : en _ _ _ _ |- _ => apply enters_code in B; exact (refused_enters _ _ _ _ A B) end).
    all: try (match goal with A : faulty _ _ _ _, B : encodable _ _ _ |- _ => exact (faulty_not_encodable _ _ _ _ A B) end).
    all: try (match goal with A : not_inside (kind_of E ?t), B : kind_of E ?t = _ |- _ => rewrite B in A; exact A end).
    all: try (match goal with A : not_inside (kind_of E ?t), B : iface_kind (kind_of E ?t) = true |- _ => destruct (kind_of E t); try discriminate; exact A end).
    all: try (match goal with A : struct_kind (kind_of E ?t) = true |- _ => destruct (kind_of E t); discriminate end).
    all: try (match goal with A : ~ text_type _ |- _ => apply A; exact I end).
    all: try (match goal with A : iface_kind (kind_of E ?t) = true \/ encodable X E ?t |- _ => destruct A as [A|A]; [congruence|] end;
      match goal with A : faulty _ _ _ _, B : encodable _ _ _ |- _ => exact (faulty_not_encodable _ _ _ _ A B) end).
    - match goal with Q : scalar_repr _ _ _ _, A : not_inside (kind_of E t) |- _ => destruct (kind_of E t) as [| |[]| | | | | | | | | | |]; try exact A; inversion Q; congruence end.
    - match goal with Q : ~ text_type (TUint ?k) |- _ => apply Q; destruct k; try exact I; congruence end.
  Qed.
  Lemma accident_not_fine p x : accident X E H p x -> ~ fine p.
  Proof. intros O. destruct O; cbn [fine]. intros [r R]. inversion R; subst; try congruence. eapply collapses_says; eassumption. Qed.

  (** ** ... and is finite *)
  Notation ends_at := (Acc (fun q p => below X E H p q)).
  Definition elem_way (b : bool) : way := if b then Inside else ByType.
  Lemma represented_ends :
    (forall s t v r, repr X E H en s t v r -> ends_at (At ByType s t v)) /\
    (forall s t v r, shape X E H en s t v r -> ends_at (At ByKind s t v)) /\
    (forall s t v r, inner X E H en s t v r -> ends_at (At Inside s t v)) /\
    (forall s b t i l ps, elems X E H en s b t i l ps -> forall x, In x l -> ends_at (At (elem_way b) s t x)) /\
    (forall s b k t l ps, pairs X E H en s b k t l ps -> forall y x, In (y, x) l -> ends_at (At (elem_way b) s t x)) /\
    (forall s fs l ps, fields X E H en s fs l ps -> forall f x, In (f, x) (combine fs l) -> written_field X f = true ->
       (tag_omitempty (tag_of X f) = true -> ~ zero_value x) -> ends_at (At (AsField f) s (f_ty f) x)) /\
    (forall s f v r, field_val X E H en s f v r -> ends_at (At (AsField f) s (f_ty f) v)).
  Proof.
    assert (forall t v r, quoted_any X E H t v r -> forall s, ends_at (At AsTextInside s t v)) as Hqa.
    { intros t v r Q. induction Q; intros s; constructor; intros q B; inversion B; subst; same; kinds; try congruence; auto;
        try (match goal with A : iface_kind (kind_of E _) = true |- _ => discriminate A end);
        try (match goal with A : kind_of E _ = KPtr _ |- _ => discriminate A end). }
    assert (forall t v r, quoted_repr X E H t v r -> forall s, ends_at (At AsText s t v)) as Hqr.
    { intros t v r Q s. constructor. intros q B. inversion B; subst. inversion Q; subst; kinds. eapply Hqa. eassumption. }
    apply repr_ind7; intros; try (exfalso; match goal with Q : In _ _ |- _ => exact Q end);
      try (constructor; intros q B; inversion B; subst; same; kinds; try congruence; eauto; fail).
    all: try (match goal with J : In _ (_ :: _) |- _ => destruct J as [J|J]; [try (injection J as -> ->); subst|]; cbn [elem_way]; eauto end; fail).
    all: try (match goal with J : In (?f, ?x) (combine (_ :: _) (_ :: _)) |- _ => destruct J as [J|J]; [injection J as -> ->|]; [|eauto; fail];
      first [congruence|exfalso; match goal with O : _ -> ~ zero_value _ |- _ => apply O; assumption end|assumption] end).
    all: constructor; intros q B; inversion B; subst; same; kinds; try congruence; eauto.
    all: try (match goal with J : In _ [] |- _ => destruct J end).
    all: try (match goal with K : scalar_repr _ (kind_of E ?t) _ _, I : iface_kind (kind_of E ?t) = true |- _ => exfalso; destruct (kind_of E t); try discriminate; inversion K end; fail).
    all: try (exfalso; match goal with K : kind_of E ?t = KPtr ?u |- _ => destruct (kind_of E u); discriminate end).
    all: try (match goal with K : forall y x, In (y, x) ?l -> Acc _ (At (elem_way ?b) ?s ?t x), P : Permutation _ ?l, J : In (?y, ?x) _ |- _ =>
      pose proof (K y x (Permutation_in _ P J)) as K'; try (match goal with Q : iface_kind (kind_of E t) = _ |- _ => rewrite Q in K' end); exact K' end).
  Qed.
End Fine.
