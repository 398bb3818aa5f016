(** What Marshal writes for a settled value and for what is left of it after a
    trip through Marshal and Unmarshal. *)
From Coq Require Import Strings.String Strings.Byte ZArith List Bool Lia Floats.SpecFloat Permutation.
From Verif Require Import Base GoTypes Tags Grammar Denote Typing Memory EncCompile Php Repr EncApi ReprFacts MarshalFacts GvalInd RoundTrip RoundTripFacts Alike AlikeFacts Settled.
Import ListNotations.
Open Scope Z_scope.

(** ** Zero values are empty *)
Lemma zero_f_blank E : forall n t, blank (zero_f n E t).
Proof.
  assert (forall n, (forall m t, (m < n)%nat -> blank (zero_f m E t)) -> forall t, blank (zero_f n E t)) as Hstep.
  { intros n IH t. induction t as [|k|k| | | |t' _|n0 t' IHt|k _ t' _|t' _| |o| |nm] ; try (destruct n; constructor; fail).
    - destruct n; cbn [zero_f]; apply bl_arr, Forall_forall; intros x Hx; apply repeat_spec in Hx; subst x; exact IHt.
    - destruct n as [|n]; cbn [zero_f]; [constructor|]. destruct (nth_error E nm) as [d|]; [|constructor].
      destruct (d_under d) as [fs|t']; [|apply IH; lia].
      apply bl_struct, Forall_forall. intros x Hx. apply in_map_iff in Hx. destruct Hx as (f & <- & _). apply IH. lia. }
  intros n. induction n as [n IH] using (well_founded_induction Wf_nat.lt_wf). intros t. apply Hstep. intros m t' Hm. apply IH. exact Hm.
Qed.
Lemma zero_blank E t : blank (zero E t).
Proof. apply zero_f_blank. Qed.


Lemma Forall2_flip {A B} (R : A -> B -> Prop) l l' : Forall2 R l l' -> Forall2 (fun b a => R a b) l' l.
Proof. induction 1; constructor; assumption. Qed.

Section Settle.
  Context (X : Ext) (E : env).

  (** ** Emptiness is kept *)
  Lemma survives_blank : forall w T w', settled X E T w -> survives X E T w w' -> blank w' -> bare X E T w.
  Proof.
    induction w as [b|z|z|f|f|s| |l IH|l IH| |m IH| |v IH| |t v IH|l IH| ] using gval_ind'; intros T w' S V B;
      inversion V; subst; try (inversion B; fail); try (apply ba_blank; exact B); try solve [apply ba_blank; constructor].
    - inversion S; subst; try discriminate; congruence.
    - inversion S as [? ? Q|? ? Q|?|? ? ? Q|? n1 t1 l1 K1 F1|?|? ? ? ? Q|?|? ? ? Q|? ? ? ? Q]; subst; try discriminate.
      assert (t1 = t) as -> by congruence.
      inversion B as [| | | | | | | | | |l1 Bl| |]; subst. eapply ba_arr; [eassumption|].
      match goal with F2 : Forall2 _ l _ |- _ => clear - IH F1 F2 Bl; revert F1 Bl; induction F2 as [|a b l l' R F2 IHF]; intros F1 Bl; constructor; inversion IH; inversion F1; inversion Bl; subst; [eauto|apply IHF; assumption] end.
    - inversion S as [? ? Q|? ? Q|?|? ? ? Q|? n1 t1 l1 K1 F1|?|? ? ? ? Q|?|? t1 v1 K1 N1 S1|? ? ? ? Q]; subst; try discriminate.
      exfalso. assert (t1 = t) as -> by congruence. contradiction.
    - inversion S as [? ? Q|? ? Q|?|? ? ? Q|? n1 t1 l1 K1 F1|?|? ? ? ? Q|?|? t1 v1 K1 N1 S1|? id1 fs1 l1 K1 F1]; subst; try discriminate.
      assert (fs1 = fs) as -> by congruence. inversion B as [| | | | | | | | | | |l1 Bl|]; subst. eapply ba_struct; [eassumption|].
      match goal with F2 : Forall2 _ (combine fs l) _ |- _ => revert F2 end. intros F2. apply Forall_forall. intros [f x] Hin. cbn [fst snd].
      assert (exists y, In y l' /\ ((left_out X f x /\ y = zero E (f_ty f)) \/ ~ left_out X f x /\ survives X E (f_ty f) x y)) as (y & Hy & D).
      { clear - F2 Hin. induction F2 as [|a b c d R F2 IHF]; [destruct Hin|]. destruct Hin as [->|Hin]; [exists b; split; [left; reflexivity|exact R]|].
        destruct (IHF Hin) as (y & Hy & D). exists y. split; [right; exact Hy|exact D]. }
      rewrite Forall_forall in F1, Bl, IH. pose proof (F1 _ Hin) as S1. cbn [fst snd] in S1.
      destruct D as [[[W|[O Bx]] _]|[NL Sv]].
      + left. exact W.
      + right. apply ba_blank. exact Bx.
      + destruct S1 as [L|[S1 _]]; [contradiction|]. right. apply (IH x (in_combine_r _ _ _ _ Hin) _ y S1 Sv). apply Bl. exact Hy.
  Qed.

  (** ** The next trip changes nothing *)
  Lemma zero_left_out f v : left_out X f v -> left_out X f (zero E (f_ty f)).
  Proof. intros [W|[O _]]; [left; exact W|right; split; [exact O|apply zero_blank]]. Qed.
  Lemma survivor_survives : forall w T w', settled X E T w -> survives X E T w w' -> survives X E T w' w'.
  Proof.
    induction w as [b|z|z|f|f|s| |l IH|l IH| |m IH| |v IH| |t v IH|l IH| ] using gval_ind'; intros T w' S V;
      inversion V; subst; try discriminate; try (constructor; assumption); try (econstructor; eassumption).
    - inversion S as [? ? Q|? ? Q|?|? t1 l1 K1 N1 F1|? n1 t1 l1 K1 F1|?|? ? ? ? Q|?|? t1 v1 K1 N1 S1|? id1 fs1 l1 K1 F1]; subst; try discriminate; try congruence.
      assert (t1 = t) as -> by congruence.
      eapply sv_slice; [eassumption|assumption| |].
      + intros ->. match goal with F2 : Forall2 _ l [] |- _ => inversion F2; subst end. congruence.
      + match goal with F2 : Forall2 _ l _ |- _ => clear - IH F1 F2; induction F2 as [|a b l l' R F2 IHF]; constructor; inversion IH; inversion F1; subst; [eauto|apply IHF; assumption] end.
    - inversion S as [? ? Q|? ? Q|?|? t1 l1 K1 N1 F1|? n1 t1 l1 K1 F1|?|? ? ? ? Q|?|? t1 v1 K1 N1 S1|? id1 fs1 l1 K1 F1]; subst; try discriminate; try congruence.
      assert (t1 = t) as -> by congruence. eapply sv_arr; [eassumption|].
      match goal with F2 : Forall2 _ l _ |- _ => clear - IH F1 F2; induction F2 as [|a b l l' R F2 IHF]; constructor; inversion IH; inversion F1; subst; [eauto|apply IHF; assumption] end.
    - inversion S as [? ? Q|? ? Q|?|? t1 l1 K1 N1 F1|? n1 t1 l1 K1 F1|?|? k1 t1 m2 K1 F1|?|? t1 v1 K1 N1 S1|? id1 fs1 l1 K1 F1]; subst; try discriminate; try congruence.
      assert (t1 = t) as -> by congruence. eapply sv_map; [eassumption|apply Permutation_refl|].
      match goal with P : Permutation m ?m1, F2 : Forall2 _ ?m1 _ |- _ => 
        assert (Forall (fun e : gval * gval => forall T w', settled X E T (snd e) -> survives X E T (snd e) w' -> survives X E T w' w') m1) as IH1
          by (eapply Permutation_Forall; [exact P|]; clear - IH; induction IH as [|e m [_ Q] F I]; constructor; assumption);
        apply (Permutation_Forall P) in F1; clear - IH1 F1 F2; induction F2 as [|a b l l' [R1 R2] F2 IHF]; constructor; inversion IH1; inversion F1; subst;
        [split; [reflexivity|eauto]|apply IHF; assumption] end.
    - inversion S as [? ? Q|? ? Q|?|? t1 l1 K1 N1 F1|? n1 t1 l1 K1 F1|?|? k1 t1 m2 K1 F1|?|? t1 v1 K1 N1 S1|? id1 fs1 l1 K1 F1]; subst; try discriminate; try congruence.
      assert (t1 = t) as -> by congruence. eapply sv_ptr; [eassumption| |eapply IH; eassumption].
      intros Q. match goal with Sv : survives _ _ t v _ |- _ => inversion Q; subst; inversion Sv; subst; try discriminate; try congruence end;
        try (apply N1; econstructor; eassumption).
      inversion S1; subst; try discriminate; try congruence.
    - inversion S as [? ? Q|? ? Q|?|? t1 l1 K1 N1 F1|? n1 t1 l1 K1 F1|?|? k1 t1 m2 K1 F1|?|? t1 v1 K1 N1 S1|? id1 fs1 l1 K1 F1]; subst; try discriminate; try congruence.
      assert (fs1 = fs) as -> by congruence.
      match goal with F2 : Forall2 _ (combine fs l) l', L : length l = length fs |- _ => rename F2 into G; rename L into Len end.
      assert (length l' = length fs) as Len' by (apply f2_len in G; rewrite combine_length in G; lia).
      eapply sv_struct; [eassumption|exact Len'|].
      clear - IH F1 G Len Len'. revert l l' IH F1 G Len Len'. induction fs as [|f fs IHfs]; intros l l' IH F1 G Len Len'.
      + destruct l'; [constructor|discriminate].
      + destruct l as [|x l]; [discriminate|]. destruct l' as [|y l']; [discriminate|]. cbn [combine] in *.
        inversion G as [|? ? ? ? D G']; subst. inversion F1 as [|? ? S1 F1']; subst. inversion IH as [|? ? IHx IH']; subst. cbn [fst snd] in *.
        constructor; [|apply (IHfs l l' IH' F1' G'); [injection Len as Len; exact Len|injection Len' as Len'; exact Len']]. cbn [fst snd].
        destruct D as [[L ->]|[NL Sv]]; [left; split; [exact (zero_left_out _ _ L)|reflexivity]|].
        destruct S1 as [L|[S1 NB]]; [contradiction|]. right. split; [|eapply IHx; eassumption].
        intros [W|[O Bl]]; [apply NL; left; exact W|]. exact (NB O (survives_blank _ _ _ S1 Sv Bl)).
  Qed.
End Settle.

(** ** What comes back represents the same *)
Section Again.
  Context (X : Ext) (E : env) (H H' : heap) (T0 : gty).
  Hypothesis Hdata : data_type E T0.
  Notation good := (inside E T0).
  Context {S : Type} (en : S -> bool -> addr -> S -> Prop).

  Lemma good_part T U : good T -> component E T U -> good U.
  Proof. intros A C. eapply in_step; eassumption. Qed.
  Lemma good_plain0 T k : good T -> kind_of E T = k -> plain E T k.
  Proof. intros A K. split; [apply (Hdata T A)|exact K]. Qed.
  Lemma good_quiet T : good T -> marshaler E T = false.
  Proof. intros A. apply (Hdata T A). Qed.
  Lemma good_no_iface T : good T -> iface_kind (kind_of E T) = false.
  Proof. intros A. destruct (Hdata T A) as (_ & _ & K). destruct (kind_of E T); try reflexivity; discriminate. Qed.

  (** [v] holds a settled tree, [v'] what is left of it. *)
  Definition back (T : gty) (v v' : hval) : Prop :=
    exists w w', settled X E T w /\ holds H v w /\ survives X E T w w' /\ holds H' v' w'.
  Definition back_field (f : field) (v v' : hval) : Prop :=
    (exists w, left_out X f w /\ holds H v w /\ holds H' v' (zero E (f_ty f))) \/
    (exists w w', ~ left_out X f w /\ settled X E (f_ty f) w /\ (tag_omitempty (tag_of X f) = true -> ~ bare X E (f_ty f) w) /\
       holds H v w /\ survives X E (f_ty f) w w' /\ holds H' v' w').

  Lemma scalar_holds k v p w : scalar_repr X k v p -> holds H v w -> scalar w = true.
  Proof. intros Q A. destruct Q; inversion A; reflexivity. Qed.
  Lemma scalar_survives T w w' : scalar w = true -> survives X E T w w' -> w' = w.
  Proof. intros Q V. destruct V; try discriminate; reflexivity. Qed.
  Lemma scalar_held w v v' : scalar w = true -> holds H v w -> holds H' v' w -> v' = v.
  Proof. intros Q A B. destruct A; try discriminate; inversion B; reflexivity. Qed.
  Lemma back_scalar k T v p v' : scalar_repr X k v p -> back T v v' -> v' = v.
  Proof.
    intros Q (w & w' & _ & A & V & B). pose proof (scalar_holds _ _ _ _ Q A) as Sc. apply (scalar_survives _ _ _ Sc) in V. subst w'.
    exact (scalar_held w v v' Sc A B).
  Qed.
  Lemma back_ptr T t o i c v' : kind_of E T = KPtr t -> cell H o i = Some c -> back T (HPtr (Some (o, i))) v' ->
    exists o' i' c', v' = HPtr (Some (o', i')) /\ cell H' o' i' = Some c' /\ back t c c'.
  Proof.
    intros K C (w & w' & St & A & V & B). inversion A as [| | | | | | | | | | | |o1 i1 c1 w1 C1 A1| | | |]; subst.
    assert (c1 = c) as -> by congruence.
    inversion St as [? ? Q|? ? Q|?|? t1 l1 K1 N1 F1|? n1 t1 l1 K1 F1|?|? k1 t1 m2 K1 F1|?|? t1 v1 K1 N1 S1|? id1 fs1 l1 K1 F1]; subst; try discriminate.
    assert (t1 = t) as -> by congruence.
    inversion V as [| | | | | | | | | |? t2 ? K2 N2|? t2 ? w2 K2 N2 V2|]; subst; try discriminate; assert (t2 = t) as -> by congruence; [contradiction|].
    inversion B as [| | | | | | | | | | | |o' i' c' w3 C' B'| | | |]; subst. exists o', i', c'. split; [reflexivity|]. split; [exact C'|]. exists w1, w2. auto.
  Qed.
  Lemma back_ptr_nil T v' : back T (HPtr None) v' -> v' = HPtr None.
  Proof.
    intros (w & w' & St & A & V & B). inversion A; subst. inversion V; subst; try discriminate. inversion B; subst. reflexivity.
  Qed.
  Lemma back_list (t : gty) l l' ws ws' :
    Forall (settled X E t) ws -> Forall2 (holds H) l ws -> Forall2 (survives X E t) ws ws' -> Forall2 (holds H') l' ws' -> Forall2 (back t) l l'.
  Proof.
    intros F A V B. revert l l' A B. induction V as [|w w' ws ws' V0 V IH]; intros l l' A B; inversion A; subst; inversion B; subst; constructor.
    - inversion F; subst. exists w, w'. auto.
    - inversion F; subst. apply IH; assumption.
  Qed.
  Definition back_entry (t : gty) (e e' : hval * hval) : Prop :=
    (forall k p, scalar_repr X k (fst e) p -> fst e' = fst e) /\ back t (snd e) (snd e').
  Lemma back_pairs (t : gty) m m' ws ws' :
    Forall (fun e => settled X E t (snd e)) ws ->
    Forall2 (fun e x => holds H (fst e) (fst x) /\ holds H (snd e) (snd x)) m ws ->
    Forall2 (fun e x => fst x = fst e /\ survives X E t (snd e) (snd x)) ws ws' ->
    Forall2 (fun e x => holds H' (fst e) (fst x) /\ holds H' (snd e) (snd x)) m' ws' -> Forall2 (back_entry t) m m'.
  Proof.
    intros F A V B. revert m m' A B. induction V as [|w w' ws ws' [Vk V0] V IH]; intros m m' A B; inversion A as [|a ? m0 ? [A1 A2] A3]; subst; inversion B as [|b ? m1 ? [B1 B2] B3]; subst; constructor.
    - inversion F; subst. split; [|exists (snd w), (snd w'); auto]. intros k p Q. rewrite Vk in B1.
      exact (scalar_held (fst w) (fst a) (fst b) (scalar_holds _ _ _ _ Q A1) A1 B1).
    - inversion F; subst. apply IH; assumption.
  Qed.
  Lemma back_fields fs : forall l l' ws ws', length ws = length fs ->
    Forall (fun x => left_out X (fst x) (snd x) \/
      (settled X E (f_ty (fst x)) (snd x) /\
       (tag_omitempty (tag_of X (fst x)) = true -> ~ bare X E (f_ty (fst x)) (snd x)))) (combine fs ws) ->
    Forall2 (holds H) l ws -> Forall2 (holds H') l' ws' ->
    Forall2 (fun x w => (left_out X (fst x) (snd x) /\ w = zero E (f_ty (fst x))) \/
                        (~ left_out X (fst x) (snd x) /\ survives X E (f_ty (fst x)) (snd x) w)) (combine fs ws) ws' ->
    length l = length fs /\ Forall2 (fun x v' => back_field (fst x) (snd x) v') (combine fs l) l'.
  Proof.
    induction fs as [|f fs IH]; intros l l' ws ws' L F A B V.
    - destruct ws; [|discriminate]. inversion A; subst. cbn [combine] in *. inversion V; subst. inversion B; subst. split; [reflexivity|constructor].
    - destruct ws as [|w ws]; [discriminate|]. injection L as L. cbn [combine] in *. inversion A as [|v ? l0 ? A1 A2]; subst.
      inversion V as [|? w' ? ws0 D V2]; subst. inversion B as [|v' ? l1 ? B1 B2]; subst. inversion F as [|? ? F1 F2]; subst. cbn [fst snd] in *.
      destruct (IH l0 l1 ws ws0 L F2 A2 B2 V2) as [L' G]. split; [cbn [length]; congruence|]. cbn [combine]. constructor; [|exact G]. cbn [fst snd].
      destruct D as [[Lo ->]|[NL V1]]; [left; exists w; auto|]. destruct F1 as [Lo|[S1 N1]]; [contradiction|]. right. exists w, w'. exact (conj NL (conj S1 (conj N1 (conj A1 (conj V1 B1))))).
  Qed.

  Lemma back_bytes T v v' b : bytes_type T = true -> byte_slice H v = Some b -> back T v v' -> byte_slice H' v' = Some b.
  Proof.
    intros Bt Q (w & w' & _ & A & V & B). assert (exists l, w = VSlice l) as [l ->].
    { destruct v as [| | | | | |[[[o i] n]|]| | | | | |]; try discriminate; inversion A; subst; eauto. }
    destruct l as [l|].
    - inversion V; subst; try discriminate; try congruence. exact (byte_slice_alike H H' v v' b (holds_alike H H' v _ A v' B) Q).
    - inversion V; subst; try discriminate; try congruence.
      inversion A; subst. cbn [byte_slice] in Q. injection Q as <-.
      inversion B as [| | | | | | |o i n l ws C F| | | | | | | | |]; subst. inversion F; subst. cbn [byte_slice]. rewrite C. reflexivity.
  Qed.
  Lemma bytes_kind T : bytes_type T = true -> exists t, kind_of E T = KSlice t.
  Proof. destruct T; try discriminate. intros _. eexists. reflexivity. Qed.

  Lemma quoted_back' t v p v' : good t -> quoted_repr X E H t v p -> back t v v' -> quoted_repr X E H' t v' p.
  Proof.
    intros G Q (w & w' & _ & A & V & B). destruct Q as [b K|k z K R|k z K R|f K|f K|s K|v p K _].
    1-6: inversion A; subst; apply scalar_survives in V; [|reflexivity]; subst; inversion B; subst; econstructor; eassumption.
    rewrite (good_no_iface t G) in K. discriminate.
  Qed.

  Theorem repr_back :
    (forall s t v p, repr X E H en s t v p -> forall v', good t -> back t v v' -> repr X E H' anything tt t v' p) /\
    (forall s t v p, shape X E H en s t v p -> forall v', good t -> bytes_type t = false -> back t v v' -> shape X E H' anything tt t v' p) /\
    (forall s t v p, inner X E H en s t v p -> True) /\
    (forall s b t i l ps, elems X E H en s b t i l ps -> b = false -> forall l', good t -> Forall2 (back t) l l' -> elems X E H' anything tt b t i l' ps) /\
    (forall s b k t l ps, pairs X E H en s b k t l ps -> b = false -> forall l', good t -> Forall2 (back_entry t) l l' -> pairs X E H' anything tt b k t l' ps) /\
    (forall s fs l ps, fields X E H en s fs l ps -> forall l', (forall f, In f fs -> is_ignored f = false -> good (f_ty f)) ->
       Forall2 (fun x v' => back_field (fst x) (snd x) v') (combine fs l) l' -> fields X E H' anything tt fs l' ps) /\
    (forall s f v p, field_val X E H en s f v p -> forall v', good (f_ty f) -> back (f_ty f) v v' -> field_val X E H' anything tt f v' p).
  Proof.
    apply repr_ind7; try (intros; exact I).
    - intros s t v b Hm _ v' G _. rewrite (good_quiet t G) in Hm. discriminate.
    - intros s t v b Hm Hb Q v' G Bk. apply rp_bytes; [exact Hm|exact Hb|]. exact (back_bytes t v v' b Hb Q Bk).
    - intros s t v p Hm Hb _ IH v' G Bk. apply rp_shape; [exact Hm|exact Hb|]. exact (IH v' G Hb Bk).
    - (* shape *)
      intros s t v p Q v' G _ Bk. rewrite (back_scalar _ _ _ _ _ Q Bk). apply sh_scalar. exact Q.
    - intros s t id fs l ps K _ IH v' G _ (w & w' & St & A & V & B).
      inversion A as [| | | | | | | | | | | | | | |l1 ws A1|]; subst.
      inversion V as [| | | | | | | | | | | |? id2 fs2 ? l2 K2 L2 F2]; subst; try discriminate. assert (fs2 = fs) as -> by congruence.
      inversion B as [| | | | | | | | | | | | | | |l' ws' B1|]; subst.
      inversion St as [? ? Q|? ? Q|?|? t1 l3 K1 N1 F1|? n1 t1 l3 K1 F1|?|? k1 t1 m2 K1 F1|?|? t1 v1 K1 N1 S1|? id1 fs1 l3 K1 F1]; subst; try discriminate.
      assert (fs1 = fs) as -> by congruence.
      destruct (back_fields fs l l' ws l2 L2 F1 A1 B1 F2) as [_ Bf].
      eapply sh_struct; [exact K|]. apply IH; [|exact Bf].
      intros f Hf Hi. eapply good_part; [exact G|]. eapply co_field; [apply good_plain0; [exact G|exact K]|exact Hf|exact Hi].
    - intros s t n t' l ps K L _ IH v' G _ (w & w' & St & A & V & B).
      inversion A as [| | | | | | | |l1 ws A1| | | | | | | |]; subst.
      inversion V as [| | | | | |? n2 t2 ? l2 K2 F2| | | | | |]; subst; try discriminate. assert (t2 = t') as -> by congruence.
      inversion B as [| | | | | | | |l' ws' B1| | | | | | | |]; subst.
      inversion St as [? ? Q|? ? Q|?|? t1 l3 K1 N1 F1|? n1 t1 l3 K1 F1|?|? k1 t1 m2 K1 F1|?|? t1 v1 K1 N1 S1|? id1 fs1 l3 K1 F1]; subst; try discriminate.
      assert (t1 = t') as -> by congruence. pose proof (back_list t' l l' ws l2 F1 A1 F2 B1) as Bl.
      eapply sh_array; [exact K|symmetry; exact (f2_len _ _ _ Bl)|]. apply IH; [reflexivity| |exact Bl].
      eapply good_part; [exact G|]. eapply co_array. apply good_plain0; [exact G|exact K].
    - intros s t t' K v' G Nb (w & w' & St & A & V & B). inversion A; subst. inversion V; subst; try discriminate; try congruence. inversion B; subst. eapply sh_slice_nil; exact K.
    - intros s s' t t' o i n l ps K C _ _ IH v' G Nb (w & w' & St & A & V & B).
      inversion A as [| | | | | | |o1 i1 n1 l1 ws C1 A1| | | | | | | | |]; subst. assert (l1 = l) as -> by congruence.
      inversion St as [? ? Q|? ? Q|?|? t1 l3 K1 N1 F1|? n1 t1 l3 K1 F1|?|? k1 t1 m2 K1 F1|?|? t1 v1 K1 N1 S1|? id1 fs1 l3 K1 F1]; subst; try discriminate; try congruence.
      assert (t1 = t') as -> by congruence.
      inversion V as [| | | | |? t2 ? l2 K2 Nb2 Ne2 F2| | | | | | |]; subst; try discriminate; try congruence. assert (t2 = t') as -> by congruence.
      inversion B as [| | | | | | |o' i' n' l' ws' C' B1| | | | | | | | |]; subst.
      eapply (sh_slice X E H' anything tt tt); [exact K|exact C'|exact I|]. apply IH; [reflexivity| |exact (back_list t' l l' ws l2 F1 A1 F2 B1)].
      eapply good_part; [exact G|]. eapply co_slice. apply good_plain0; [exact G|exact K].
    - intros s t k t' K v' G Nb (w & w' & St & A & V & B). inversion A; subst. inversion V; subst; try discriminate; try congruence. inversion B; subst. eapply sh_map_nil; exact K.
    - intros s s' t k t' o m l ps K En P _ _ IH v' G Nb (w & w' & St & A & V & B).
      inversion A as [| | | | | | | | | |o1 m1 ws En1 D A1| | | | | |]; subst. assert (m1 = m) as -> by congruence.
      inversion St as [? ? Q|? ? Q|?|? t1 l3 K1 N1 F1|? n1 t1 l3 K1 F1|?|? k1 t1 m2 K1 F1|?|? t1 v1 K1 N1 S1|? id1 fs1 l3 K1 F1]; subst; try discriminate.
      assert (t1 = t') as -> by congruence.
      inversion V as [| | | | | | | |? k2 t2 ? w1 w2 K2 P2 F2| | | |]; subst; try discriminate. assert (t2 = t') as -> by congruence.
      inversion B as [| | | | | | | | | |o' m' ws' En' D' B1| | | | | |]; subst.
      apply (Permutation_Forall P2) in F1.
      assert (exists m2, Permutation m m2 /\ Forall2 (fun e x => holds H (fst e) (fst x) /\ holds H (snd e) (snd x)) m2 w1) as (m2 & Pm & A2).
      { apply Forall2_flip in A1. destruct (Permutation_Forall2 P2 A1) as (m2 & Pm & A2). exists m2. split; [exact Pm|]. apply Forall2_flip in A2. exact A2. }
      pose proof (back_pairs t' m2 m' w1 w2 F1 A2 F2 B1) as Bp.
      destruct (Permutation_Forall2 (Permutation_trans (Permutation_sym Pm) P) Bp) as (l2 & Pl & Bl).
      eapply (sh_map X E H' anything tt tt); [exact K|exact En'|exact Pl|exact I|]. apply IH; [reflexivity| |exact Bl].
      eapply good_part; [exact G|]. eapply co_val. apply good_plain0; [exact G|exact K].
    - intros s t v p K _ _ v' G. rewrite (good_no_iface t G) in K. discriminate.
    - intros s t t' v p K K' _ _ v' G. assert (good t') as G' by (eapply good_part; [exact G|eapply co_ptr; apply good_plain0; [exact G|exact K]]).
      rewrite (good_no_iface t' G') in K'. discriminate.
    - intros s t t' K K' v' G _ Bk. rewrite (back_ptr_nil t v' Bk). eapply sh_ptr_nil; [exact K|exact K'].
    - intros s s' t t' o i c p K K' C _ _ IH v' G _ Bk. destruct (back_ptr t t' o i c v' K C Bk) as (o' & i' & c' & -> & C' & Bc).
      eapply (sh_ptr_struct X E H' anything tt tt); [exact K|exact K'|exact C'|exact I|]. apply IH; [| |exact Bc].
      + eapply good_part; [exact G|]. eapply co_ptr. apply good_plain0; [exact G|exact K].
      + destruct (bytes_type t') eqn:Q; [|reflexivity]. apply bytes_kind in Q. destruct Q as [u Q]. rewrite Q in K'. discriminate.
    - intros s t t' o i c p K K' Bs C _ IH v' G _ Bk. destruct (back_ptr t t' o i c v' K C Bk) as (o' & i' & c' & -> & C' & Bc).
      eapply sh_ptr_direct; [exact K|exact K'|exact Bs|exact C'|]. apply IH; [| |exact Bc].
      + eapply good_part; [exact G|]. eapply co_ptr. apply good_plain0; [exact G|exact K].
      + destruct (bytes_type t') eqn:Q; [|reflexivity]. apply bytes_kind in Q. destruct Q as [u Q]. rewrite Q in Bs. discriminate.
    - intros s t t' o i c p K Bs K' C _ IH v' G _ Bk. destruct (back_ptr t t' o i c v' K C Bk) as (o' & i' & c' & -> & C' & Bc).
      eapply sh_ptr; [exact K|exact Bs|exact K'|exact C'|]. apply IH; [|exact Bc].
      eapply good_part; [exact G|]. eapply co_ptr. apply good_plain0; [exact G|exact K].
    - (* elems *)
      intros s b t i _ l' _ F. inversion F; subst. apply el_nil.
    - intros s t i v l p ps _ IHv _ IHl _ l' G F. inversion F; subst. apply el_cons; [apply IHv; assumption|apply IHl; [reflexivity|exact G|assumption]].
    - intros; discriminate.
    - (* pairs *)
      intros s b k t _ l' _ F. inversion F; subst. apply pa_nil.
    - intros s k t kv v l kp p ps Q _ IHv _ IHl _ l' G F. inversion F as [|e e' l0 l1 [Ek Ev] F']; subst. destruct e' as [k' w]. cbn [fst snd] in *.
      rewrite (Ek _ _ (proj2 Q)). apply pa_cons; [exact Q|apply IHv; assumption|apply IHl; [reflexivity|exact G|assumption]].
    - intros; discriminate.
    - (* fields *)
      intros s l' _ F. inversion F; subst. apply fl_nil.
    - intros s f fs v l ps W _ IH l' G F. cbn [combine] in F. inversion F as [|? v' ? l1 F1 F2]; subst.
      apply fl_skip; [exact W|]. apply IH; [|exact F2]. intros g Hg. apply G. right. exact Hg.
    - intros s f fs v l ps W O Z _ IH l' G F. cbn [combine] in F. inversion F as [|? v' ? l1 F1 F2]; subst. cbn [fst snd] in F1.
      apply fl_omit; [exact W|exact O| |apply IH; [intros g Hg; apply G; right; exact Hg|exact F2]].
      destruct F1 as [(w & Lo & A & B)|(w & w' & NL & _ & _ & A & _)].
      + apply (holds_blank H' _ _ B). apply zero_blank.
      + exfalso. apply NL. right. split; [exact O|]. apply (holds_blank H _ _ A). exact Z.
    - intros s f fs v l p ps W O _ IHv _ IHl l' G F. cbn [combine] in F. inversion F as [|? v' ? l1 F1 F2]; subst. cbn [fst snd] in F1.
      destruct F1 as [(w & Lo & A & B)|(w & w' & NL & S1 & N1 & A & V1 & B1)].
      + exfalso. destruct Lo as [W'|[O' Bl]]; [congruence|]. apply (O O'). apply (holds_blank H _ _ A). exact Bl.
      + apply fl_write; [exact W| |apply IHv|apply IHl; [intros g Hg; apply G; right; exact Hg|exact F2]].
        * intros O' Z. apply (N1 O'). apply (survives_blank X E w (f_ty f) w' S1 V1). apply (holds_blank H' _ _ B1). exact Z.
        * apply G; [left; reflexivity|]. exact (written_not_ignored X f W).
        * exists w, w'. auto.
    - (* field values *)
      intros s f t' K v' G Bk. rewrite (back_ptr_nil _ v' Bk). eapply fv_nil; exact K.
    - intros s s' f t' o i c p K T K' C _ _ IH v' G Bk. destruct (back_ptr _ t' o i c v' K C Bk) as (o' & i' & c' & -> & C' & Bc).
      eapply (fv_ptr_struct X E H' anything tt tt); [exact K|exact T|exact K'|exact C'|exact I|]. apply IH; [|exact Bc].
      eapply good_part; [exact G|]. eapply co_ptr. apply good_plain0; [exact G|exact K].
    - intros s f t' o i c p K T K' C _ IH v' G Bk. destruct (back_ptr _ t' o i c v' K C Bk) as (o' & i' & c' & -> & C' & Bc).
      eapply fv_ptr; [exact K|exact T|exact K'|exact C'|]. apply IH; [|exact Bc].
      eapply good_part; [exact G|]. eapply co_ptr. apply good_plain0; [exact G|exact K].
    - intros s f v p K T _ IH v' G Bk. apply fv_plain; [exact K|exact T|]. exact (IH v' G Bk).
    - intros s f t' o i c p K T C Q v' G Bk. destruct (back_ptr _ t' o i c v' K C Bk) as (o' & i' & c' & -> & C' & Bc).
      eapply fv_ptr_quoted; [exact K|exact T|exact C'|]. apply (quoted_back' t' c p c'); [|exact Q|exact Bc].
      eapply good_part; [exact G|]. eapply co_ptr. apply good_plain0; [exact G|exact K].
    - intros s f v p K T Q v' G Bk. apply fv_quoted; [exact K|exact T|]. exact (quoted_back' _ v p v' G Q Bk).
  Qed.
End Again.
