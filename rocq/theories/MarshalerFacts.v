(** Custom Marshalers, and values found inside interfaces. *)
From Coq Require Import Strings.String Strings.Byte ZArith List Bool Lia Permutation Floats.SpecFloat.
From Verif Require Import Base GoTypes Strconv Tags Grammar Denote Memory EncCompile Encode Php Repr EncApi EncCompileFacts NumEnc EncFacts
  EncSound EncComplete ReprFacts PhpFacts MarshalFacts RoundTrip AnyTrip Positions PosFacts.
Import ListNotations.
Open Scope Z_scope.

Section Marshalers.
  Context (X : Ext) (E : env) (H : heap) (ord : nat -> list (hval * hval) -> list (hval * hval)).

  Lemma method_refuses t v e : iface_kind (kind_of E t) = false -> call_method X E H t v = RErr e -> refuses X E H t v e.
  Proof.
    intros Hi Q. unfold call_method in Q.
    destruct t as [| | | | | | | | |t'| | | |n]; try discriminate.
    - destruct t' as [| | | | | | | | | | | | |n]; try discriminate. destruct (nth_error E n) as [d|] eqn:Hd; [|discriminate].
      destruct (d_marshal d) eqn:Hm; try (destruct v; discriminate).
      + destruct v as [| | | | | | | | |[[o i]|]| | |]; try discriminate. destruct (cell H o i) as [c|] eqn:Hc; [|discriminate].
        eapply rf_pointee; eauto.
      + destruct v as [| | | | | | | | |p| | |]; try discriminate. eapply rf_pointer; eauto.
    - apply rf_value; assumption.
  Qed.
  Lemma call_refuses t v e : call_marshal X E H t v = RErr e <-> refuses X E H t v e.
  Proof.
    split.
    - unfold call_marshal. intros Q. destruct (iface_kind (kind_of E t)) eqn:Hi; [|apply method_refuses; assumption].
      destruct v as [| | | | | | | | | |[[t' v']|]| |]; try discriminate. destruct (iface_kind (kind_of E t')) eqn:Hi'; [discriminate|].
      apply rf_iface; auto. apply method_refuses; assumption.
    - assert (forall t v e, refuses X E H t v e -> iface_kind (kind_of E t) = false -> call_method X E H t v = RErr e) as Hm.
      { intros t0 v0 b0 Hs Hi. inversion Hs as [n v1 b1 Hx Hi'|n d p b1 Hd Hr Hx|n d o i c b1 Hd Hr Hc Hx|t1 t2 v1 b1 Hi1 Hi2 Hs']; subst; cbn [call_method].
        - exact Hx.
        - rewrite Hd, Hr. exact Hx.
        - rewrite Hd, Hr, Hc. exact Hx.
        - congruence. }
      intros Hs. unfold call_marshal. destruct (iface_kind (kind_of E t)) eqn:Hi; [|apply Hm; assumption].
      inversion Hs as [n v1 b1 Hx Hi'|n d p b1 Hd Hr Hx|n d o i c b1 Hd Hr Hc Hx|t1 t2 v1 b1 Hi1 Hi2 Hs']; subst; try congruence; try discriminate.
      rewrite Hi2. apply Hm; assumption.
  Qed.
  Lemma call_says t v b : call_marshal X E H t v = ROk b <-> says X E H t v b.
  Proof. split; [apply marshal_sound|apply says_complete]. Qed.

  Lemma implements_compiles f t s : marshaler E t = true -> compile_now X E (S f) t s = (s, ROk tt).
  Proof. intros Hi. unfold compile_now, bindM, lift, ret. cbn [ecompile_f]. rewrite implements_eq, Hi. reflexivity. Qed.
  Lemma implements_run f c t v : marshaler E t = true -> marshal X E H ord (S f) c (Some (t, v)) = (c, call_marshal X E H t v).
  Proof.
    intros Hi. unfold marshal, bindM. rewrite (implements_compiles f t c Hi). cbn [enc_f]. rewrite implements_eq, Hi. reflexivity.
  Qed.
  Theorem marshaler_top c t v : marshaler E t = true ->
    (forall b, MarshalsIn X E H ord c t v b <-> says X E H t v b) /\
    (forall e, MarshalFailsIn X E H ord c t v e <-> refuses X E H t v e).
  Proof.
    intros Hi. split.
    - intros b. rewrite <- call_says. split.
      + intros [[|f] Q]; [discriminate|]. rewrite implements_run in Q by exact Hi. exact Q.
      + intros Q. exists 1%nat. rewrite implements_run by exact Hi. exact Q.
    - intros e. rewrite <- call_refuses. split.
      + intros [[|f] Q]; [discriminate|]. rewrite implements_run in Q by exact Hi. exact Q.
      + intros Q. exists 1%nat. rewrite implements_run by exact Hi. exact Q.
  Qed.
  Lemma marshaler_represents t v p : marshaler E t = true -> Represents X E H t v p <-> exists b, p = PRaw b /\ says X E H t v b.
  Proof.
    intros Hi. split.
    - intros Q. inversion Q; subst; try congruence. eauto.
    - intros (b & -> & Hs). apply rp_marshaler; assumption.
  Qed.

  (** The text of numbered elements. *)
  Fixpoint numbered_text (i : Z) (l : list bytes) : bytes :=
    match l with [] => [] | b :: l' => bs "i:" ++ decimal i ++ bs ";" ++ b ++ numbered_text (i + 1) l' end.
  Lemma elems_said s t l i ps : marshaler E t = true -> elems X E H anything s false t i l ps ->
    exists said, Forall2 (says X E H t) l said /\ length ps = length l /\
      flat_map (fun e => serialize (fst e) ++ serialize (snd e)) ps = numbered_text i said.
  Proof.
    intros Hi. revert i ps. induction l as [|v l IH]; intros i ps Q; inversion Q; subst.
    - exists []. repeat split. constructor.
    - destruct s. match goal with A : elems _ _ _ _ _ _ _ _ l _ |- _ => apply IH in A; destruct A as (said & Hs & Hl & Ht) end.
      match goal with A : repr _ _ _ _ _ t v _ |- _ => apply marshaler_represents in A; [destruct A as (b & -> & Hb)|exact Hi] end.
      exists (b :: said). split; [constructor; assumption|]. split; [cbn [length]; congruence|].
      cbn [flat_map fst snd numbered_text serialize]. rewrite Ht, <- !app_assoc. reflexivity.
  Qed.
  Theorem marshaler_elements c T t o i n b : fair_order ord -> kind_of E T = KSlice t -> marshaler E T = false -> marshaler E t = true ->
    MarshalsIn X E H ord c T (HSlice (Some (o, i, n))) b ->
    exists l said, cells H o i n = Some l /\ Forall2 (says X E H t) l said /\
      b = bs "a:" ++ decimal (blen l) ++ bs ":{" ++ numbered_text 0 said ++ bs "}".
  Proof.
    intros Ho Hk HT Ht Hm. destruct (marshal_represents X E H ord Ho _ _ _ _ Hm) as (p & Hp & ->).
    inversion Hp as [|? ? ? ? _ Hb|? ? ? ? _ _ Hs]; subst; [congruence| |].
    - destruct T; try discriminate. destruct T; try discriminate. destruct k; try discriminate. cbn in Hk. injection Hk as <-. discriminate.
    - inversion Hs; subst; kinds E; try discriminate.
      + match goal with A : scalar_repr _ _ _ _ |- _ => inversion A end.
      + replace t' with t in * by congruence. match goal with A : elems _ _ _ _ _ _ _ _ _ _ |- _ => apply elems_said in A; [destruct A as (said & Hf & Hl & Ht')|exact Ht] end.
        exists l, said. split; [assumption|]. split; [exact Hf|]. cbn [serialize]. rewrite Ht'. unfold blen. rewrite Hl. reflexivity.
  Qed.
  Theorem marshaler_field f v p : marshaler E (f_ty f) = true -> ptr_kind (kind_of E (f_ty f)) = false -> tag_string (tag_of X f) = false ->
    FieldRepresents X E H f v p <-> exists b, p = PRaw b /\ says X E H (f_ty f) v b.
  Proof.
    intros Hi Hk Ht. rewrite <- (marshaler_represents _ v p Hi). split.
    - intros Q. inversion Q; subst; kinds E; try discriminate; try congruence; assumption.
    - intros Q. apply fv_plain; assumption.
  Qed.
  Theorem marshaler_pointer_field f t o i c p : kind_of E (f_ty f) = KPtr t -> marshaler E t = true -> tag_string (tag_of X f) = false ->
    cell H o i = Some c ->
    FieldRepresents X E H f (HPtr (Some (o, i))) p <-> exists b, p = PRaw b /\ says X E H t c b.
  Proof.
    intros Hk Hi Ht Hc. rewrite <- (marshaler_represents t c p Hi). split.
    - intros Q. inversion Q; subst; kinds E; try discriminate; try congruence.
      + replace t' with t in * by congruence. replace c0 with c in * by congruence. destruct s'. assumption.
      + replace t' with t in * by congruence. replace c0 with c in * by congruence. assumption.
    - intros Q. destruct (struct_kind (kind_of E t)) eqn:Qs.
      + eapply fv_ptr_struct with (s' := tt); try eassumption. exact I.
      + eapply fv_ptr; eassumption.
  Qed.
  Theorem marshaler_in_interface t n fs v p : kind_of E t = KStruct n fs -> marshaler E t = true ->
    Represents X E H TAny (HIface (Some (t, v))) p <-> encodable X E t /\ exists b, p = PRaw b /\ says X E H t v b.
  Proof.
    intros Hk Hi. rewrite <- (marshaler_represents t v p Hi). unfold Represents.
    rewrite (iface_repr X E H anything tt TAny _ p eq_refl eq_refl). split.
    - intros Q. inversion Q as [| | |? ? ? ? ? _ Q'|? ? ? ? Qs| | | | | | | |]; subst.
      2: { inversion Qs. }
      2: { discriminate. }
      inversion Q'; subst; kinds E; try discriminate; try (split; assumption).
      match goal with A : scalar_repr _ _ _ _ |- _ => inversion A end.
    - intros [He Q]. apply in_iface; [reflexivity|]. eapply in_struct; eassumption.
  Qed.
  Lemma says_run f t v b s : marshaler E t = true -> says X E H t v b -> enc_f X E H ord (S f) MType t v s = (s, ROk b).
  Proof. intros Hi Hs. cbn [enc_f]. rewrite implements_eq, Hi. unfold lift. apply call_says in Hs. rewrite Hs. reflexivity. Qed.
  Lemma refuses_run f t v e s : marshaler E t = true -> refuses X E H t v e -> enc_f X E H ord (S f) MType t v s = (s, RErr e).
  Proof. intros Hi Hs. cbn [enc_f]. rewrite implements_eq, Hi. unfold lift. apply call_refuses in Hs. rewrite Hs. reflexivity. Qed.
  Lemma refused_elems f t l1 said v e l2 s : marshaler E t = true -> Forall2 (says X E H t) l1 said -> refuses X E H t v e ->
    forall i, enc_elems (enc_f X E H ord (S f) MType t) i (l1 ++ v :: l2) s = (s, RErr e).
  Proof.
    intros Hi Hs Hr. induction Hs as [|w b l1 said Hw Hs IH]; intros i; cbn [app enc_elems]; unfold bindM.
    - rewrite (refuses_run f t v e s Hi Hr). reflexivity.
    - rewrite (says_run f t w b s Hi Hw), IH. reflexivity.
  Qed.
  Theorem marshaler_first_error T t o i n l1 said v e l2 : kind_of E T = KSlice t -> marshaler E T = false -> marshaler E t = true ->
    cells H o i n = Some (l1 ++ v :: l2) -> Forall2 (says X E H t) l1 said -> refuses X E H t v e ->
    MarshalFails X E H ord T (HSlice (Some (o, i, n))) e.
  Proof.
    intros Hk HT Ht Hc Hs Hr.
    assert (bytes_type T = false) as Hb.
    { destruct T; try reflexivity. destruct T; try reflexivity. destruct k; try reflexivity. cbn in Hk. injection Hk as <-. discriminate. }
    exists 3%nat. unfold marshal, bindM.
    assert (compile_now X E 3 T st0 = (st0, ROk tt)) as ->.
    { unfold compile_now, bindM, lift. cbn [ecompile_f]. rewrite implements_eq, is_bytes_eq, HT, Hb, Hk, implements_eq, Ht. reflexivity. }
    cbn [enc_f]. rewrite implements_eq, is_bytes_eq, HT, Hb, Hk, Hc. unfold check_rec. change (1000 <? depth st0 + 1) with false. cbv iota.
    unfold enc_seq, bindM. rewrite (refused_elems 0 t l1 said v e l2 _ Ht Hs Hr 0). reflexivity.
  Qed.
End Marshalers.

(** ** Inside an interface *)
Section Inside.
  Context (X : Ext) (E : env) (H : heap) (ord : nat -> list (hval * hval) -> list (hval * hval)).
  Hypothesis Hord : fair_order ord.

  Lemma anys_encodable : encodable X E (TSlice TAny).
  Proof. eapply (compile_encodable X E 9 _ _). vm_compute. reflexivity. Qed.
  Lemma any_elem T v o i p : cells H o i 1 = Some [HIface (Some (T, v))] ->
    Represents X E H (TSlice TAny) (HSlice (Some (o, i, 1%nat))) p -> exists p', p = PArr [(PInt 0, p')] /\ inner X E H anything tt T v p'.
  Proof.
    intros Hc Q. inversion Q as [|? ? ? ? _ Hb|? ? ? ? _ _ Hs]; subst; [discriminate|discriminate|].
    inversion Hs; subst; cbn in *; try discriminate.
    - match goal with A : scalar_repr _ _ _ _ |- _ => inversion A end.
    - replace l with [HIface (Some (T, v))] in * by congruence. replace t' with TAny in * by congruence. destruct s'.
      match goal with A : elems _ _ _ _ _ _ _ _ _ _ |- _ => inversion A; subst end.
      match goal with A : elems _ _ _ _ _ _ _ _ [] _ |- _ => inversion A; subst end.
      match goal with A : repr _ _ _ _ _ TAny _ _ |- _ => apply iface_repr in A; [|reflexivity|reflexivity]; rename A into Hin end.
      eexists. split; [reflexivity|]. inversion Hin; subst; try discriminate; [assumption|].
      match goal with A : scalar_repr _ _ _ _ |- _ => inversion A end.
  Qed.
  Theorem inside_output T v o i b : alike E T -> cells H o i 1 = Some [HIface (Some (T, v))] ->
    Marshals X E H ord (TSlice TAny) (HSlice (Some (o, i, 1%nat))) b ->
    exists p, Represents X E H T v p /\ b = bs "a:1:{i:0;" ++ serialize p ++ bs "}".
  Proof.
    intros Ha Hc Hm. destruct (marshal_represents X E H ord Hord _ _ _ _ Hm) as (p & Hp & ->).
    destruct (any_elem _ _ _ _ _ Hc Hp) as (p' & -> & Hi). exists p'. split; [exact (inner_outside X E H T v p' Ha Hi)|].
    cbn [serialize flat_map fst snd]. rewrite app_nil_r. change (decimal (blen [(PInt 0, p')])) with (bs "1"). change (decimal 0) with (bs "0").
    rewrite <- !app_assoc. reflexivity.
  Qed.
  Theorem inside_accepts T v o i p : encodable X E T -> alike E T -> cells H o i 1 = Some [HIface (Some (T, v))] ->
    repr X E H (apart_below 998) (0, []) T v p ->
    (exists b, Marshals X E H ord T v b) /\ exists b, Marshals X E H ord (TSlice TAny) (HSlice (Some (o, i, 1%nat))) b.
  Proof.
    intros He Ha Hc Hr. split.
    - apply (marshal_shallow X E H ord Hord T v p He). eapply sim_repr; [|exact Hr]. split; [cbn; lia|intros x []].
    - apply (marshal_shallow X E H ord Hord (TSlice TAny) _ (PArr [(PInt 0, p)]) anys_encodable).
      apply rp_shape; [reflexivity|reflexivity|]. eapply (sh_slice X E H nested_1000 (0, []) (1, [])); [reflexivity|exact Hc|split; [cbn; lia|reflexivity]|].
      apply el_cons; [|apply el_nil]. apply rp_shape; [reflexivity|reflexivity|]. apply sh_iface; [reflexivity|]. apply in_iface; [reflexivity|].
      eapply repr_inside; [exact Ha|exact He| |reflexivity|exact Hr]. split; [cbn; lia|intros x []].
  Qed.
End Inside.

(** ** Marshal of what Unmarshal stored in an [any] *)
Section Again.
  Context (X : Ext) (E : env) (H : heap) (ord : nat -> list (hval * hval) -> list (hval * hval)).
  Lemma again_array es w a : any_of X (PArr es) w -> passed H w a -> forall f c, (1 < f)%nat ->
    snd (marshal X E H ord f c a) = RErr (EMarshal (CKey TAny)).
  Proof.
    intros Hw Hp f c Hf. inversion Hw; subst. inversion Hp; subst. destruct f as [|[|f]]; [lia|lia|]. reflexivity.
  Qed.
  Definition scalar_php (p : php) : bool := match p with PNull | PBool _ | PInt _ | PFloat _ | PStr _ => true | _ => false end.
  Lemma again_scalar p w a : any_of X p w -> passed H w a -> scalar_php p = true ->
    (forall t f, p = PFloat t -> float_text X t f -> t = float_repr X false f) ->
    snd (marshal X E H ord 9 st0 a) = ROk (serialize p).
  Proof.
    intros Hw Hp Hs Hf. destruct Hw as [|b|z Hz|t f Ht|s|es ws Hes]; try discriminate; inversion Hp as [|? ? ? Hh]; subst; try reflexivity;
      inversion Hh; subst.
    - destruct b; reflexivity.
    - unfold marshal. cbn. apply int_ok_range in Hz. rewrite Hz. cbn. f_equal. exact (out_int_eq z).
    - unfold marshal. cbn. f_equal. rewrite out_float_eq. rewrite (Hf t f eq_refl Ht). reflexivity.
    - unfold marshal. cbn. f_equal. exact (out_string_eq s).
  Qed.
End Again.
