(** Marshal as a whole, from EncSound.v, EncComplete.v and ReprFacts.v. *)
From Coq Require Import Strings.String Strings.Byte ZArith List Bool Lia Floats.SpecFloat Permutation.
From Verif Require Import Base GoTypes Strconv Tags Grammar Denote Memory EncCompile Encode Php Repr EncApi EncCompileFacts EncTerm NumEnc EncFacts EncSound EncComplete ReprFacts PhpFacts.
Import ListNotations.
Open Scope Z_scope.

Section Facts.
  Context (X : Ext) (E : env) (H : heap) (ord : nat -> list (hval * hval) -> list (hval * hval)).
  Hypothesis Hord : fair_order ord.

  Lemma marshal_sound_at c t v b : MarshalsIn X E H ord c t v b ->
    encodable X E t /\ exists p, repr X E H code_enter (tr c) t v p /\ b = serialize p.
  Proof.
    intros [f Q]. destruct (marshal X E H ord f c (Some (t, v))) as [s r] eqn:Q'. cbn in Q. subst r.
    unfold marshal in Q'. apply bind_ok in Q'. destruct Q' as (s1 & u & Q1 & Q2).
    destruct (compile_now_ok _ _ _ _ _ _ _ Q1) as [-> He]. split; [exact He|]. exact (enc_sound X E H ord Hord f MType t v _ _ _ Q2).
  Qed.
  Theorem marshal_represents c t v b : MarshalsIn X E H ord c t v b -> exists p, Represents X E H t v p /\ b = serialize p.
  Proof.
    intros Q. destruct (marshal_sound_at _ _ _ _ Q) as (_ & p & Hr & Hb). exists p. split; [|exact Hb]. exact (repr_represents X E H code_enter _ _ _ _ Hr).
  Qed.
  Theorem marshal_complete_at c t v p : encodable X E t -> repr X E H code_enter (tr c) t v p ->
    exists b, MarshalsIn X E H ord c t v b.
  Proof.
    intros He Hr. destruct (proj1 (enc_complete X E H ord Hord) _ _ _ _ Hr (iters c)) as (f & Hf).
    assert (exists f, succeeds (enc_f X E H ord f MType t v) (at_ (tr c) (iters c))) as Q by eauto.
    apply (run_compiled X E H ord t v (tr c) (iters c) He) in Q. destruct Q as (f' & s' & b & Q).
    exists b, f'. unfold marshal. assert (at_ (tr c) (iters c) = c) as <- by (destruct c; reflexivity). rewrite Q. reflexivity.
  Qed.

  Theorem marshal_shallow t v p : encodable X E t -> repr X E H nested_1000 (0, []) t v p ->
    exists b, Marshals X E H ord t v b.
  Proof.
    intros He Hr. apply (marshal_complete_at st0 t v p He).
    refine (proj1 (repr_sim X E H nested_1000 code_enter (fun s1 s2 => s2 = (snd s1, fst s1)) _) _ _ _ _ Hr _ _); [|reflexivity].
    intros s1 s2 b a s1' -> Hen. unfold nested_1000, code_enter in *. cbn [fst snd]. destruct b.
    - destruct Hen as [Hn ->]. eexists. split; [split; [exact Hn|reflexivity]|reflexivity].
    - destruct Hen as [Hn ->]. replace (1000 <? fst s1 + 1) with false by (symmetry; apply Z.ltb_ge; lia). eexists. split; [reflexivity|reflexivity].
  Qed.
  Theorem marshal_apart t v p : encodable X E t -> repr X E H apart [] t v p ->
    exists b, Marshals X E H ord t v b.
  Proof.
    intros He Hr. apply (marshal_complete_at st0 t v p He).
    refine (proj1 (repr_sim X E H apart code_enter (fun s1 s2 => incl (fst s2) s1) _) _ _ _ _ Hr _ _); [|intros x []].
    intros s1 s2 b a s1' Hi [Hn ->]. unfold code_enter. assert (~ In a (fst s2)) as Hn2 by (intros Q; exact (Hn (Hi _ Q))).
    assert (incl (a :: fst s2) (a :: s1)) as Hi2 by (intros x [->|Hx]; [left; reflexivity|right; exact (Hi _ Hx)]).
    destruct b; [|destruct (1000 <? snd s2 + 1)].
    - eexists. split; [split; [exact Hn2|reflexivity]|exact Hi2].
    - eexists. split; [split; [exact Hn2|reflexivity]|exact Hi2].
    - eexists. split; [reflexivity|]. intros x Hx. right. exact (Hi _ Hx).
  Qed.
End Facts.

(** Two outputs for one value differ in the order of entries only. *)
Theorem marshal_same X E H ord ord' c c' t v b b' : fair_order ord -> fair_order ord' ->
  MarshalsIn X E H ord c t v b -> MarshalsIn X E H ord' c' t v b' ->
  exists p p', b = serialize p /\ b' = serialize p' /\ psame p p'.
Proof.
  intros Ho Ho' Hb Hb'. destruct (marshal_represents X E H ord Ho _ _ _ _ Hb) as (p & Hp & ->).
  destruct (marshal_represents X E H ord' Ho' _ _ _ _ Hb') as (p' & Hp' & ->).
  exists p, p'. split; [reflexivity|]. split; [reflexivity|]. exact (proj1 (repr_det X E H anything anything) _ _ _ _ Hp _ _ Hp').
Qed.

(** Floats that represent something have proper texts. *)
Section FloatsOk.
  Context (X : Ext) (E : env) (H : heap) {S : Type} (en : S -> bool -> addr -> S -> Prop).
  Hypothesis HX : fmt_ok X.
  Lemma text_ok t : t <> [] -> ~ In ";"%byte t -> float_texts_ok (PFloat t) = true.
  Proof.
    intros Hn Hs. cbn [float_texts_ok]. destruct t as [|c t]; [congruence|]. cbn [negb andb]. apply negb_true_iff.
    apply not_true_iff_false. intros Q. apply existsb_exists in Q. destruct Q as (x & Hx & Q). apply Byte.byte_dec_bl in Q. subst x. exact (Hs Hx).
  Qed.
  Lemma float_repr_ok s f : float_texts_ok (PFloat (float_repr X s f)) = true.
  Proof.
    unfold float_repr, float_text_of. destruct f as [b|[]| |b m e]; try reflexivity; (apply text_ok; apply HX).
  Qed.
  Lemma scalar_floats k v p : scalar_repr X k v p -> float_texts_ok p = true.
  Proof. intros []; try reflexivity; apply float_repr_ok. Qed.
  Lemma quoted_any_floats t v p : quoted_any X E H t v p -> float_texts_ok p = true.
  Proof. induction 1; try reflexivity; assumption. Qed.
  Lemma key_floats k v p : key_repr X k v p -> float_texts_ok p = true.
  Proof. intros [_ Hs]. eapply scalar_floats; exact Hs. Qed.
  Lemma quoted_floats t v p : quoted_repr X E H t v p -> float_texts_ok p = true.
  Proof. intros []; try reflexivity. eapply quoted_any_floats. eassumption. Qed.
  Notation all_ok := (Forall (fun e : php * php => float_texts_ok (fst e) = true /\ float_texts_ok (snd e) = true)).
  Theorem repr_floats :
    (forall s t v p, repr X E H en s t v p -> float_texts_ok p = true) /\
    (forall s t v p, shape X E H en s t v p -> float_texts_ok p = true) /\
    (forall s t v p, inner X E H en s t v p -> float_texts_ok p = true) /\
    (forall s b t i l ps, elems X E H en s b t i l ps -> all_ok ps) /\
    (forall s b k t l ps, pairs X E H en s b k t l ps -> all_ok ps) /\
    (forall s fs l ps, fields X E H en s fs l ps -> all_ok ps) /\
    (forall s g v p, field_val X E H en s g v p -> float_texts_ok p = true).
  Proof.
    apply repr_ind7; intros; try reflexivity; try assumption; try (apply floats_arr; assumption);
      try (eapply scalar_floats; eassumption); try (eapply quoted_floats; eassumption);
      try (constructor; [split; [first [reflexivity|eapply key_floats; eassumption]|assumption]|assumption]); apply Forall_nil.
  Qed.
End FloatsOk.

(** No custom Marshaler takes part in the encoding of the value. *)
Definition unspoken (X : Ext) (E : env) (H : heap) (t : gty) (v : hval) : Prop :=
  exists p, Represents X E H t v p /\ raw_free p = true.
Lemma unspoken_all X E H t v p : unspoken X E H t v -> Represents X E H t v p -> raw_free p = true.
Proof.
  intros (q & Hq & Hr) Hp. eapply psame_raw_free; [apply le_n| |exact Hr]. exact (proj1 (repr_det X E H anything anything) _ _ _ _ Hq _ _ Hp).
Qed.

Theorem marshal_injective X E H ord H' ord' E' t v b t' v' b' r r' : fmt_ok X -> fair_order ord -> fair_order ord' ->
  Marshals X E H ord t v b -> Marshals X E' H' ord' t' v' b' ->
  unspoken X E H t v -> unspoken X E' H' t' v' ->
  b ++ r = b' ++ r' -> b = b' /\ r = r' /\ exists p, Represents X E H t v p /\ Represents X E' H' t' v' p /\ b = serialize p.
Proof.
  intros HX Ho Ho' Hm Hm' Hr Hr' Q. destruct (marshal_represents X E H ord Ho _ _ _ _ Hm) as (p & Hp & ->).
  destruct (marshal_represents X E' H' ord' Ho' _ _ _ _ Hm') as (p' & Hp' & ->).
  assert (php_ok p) as O1 by (split; [exact (unspoken_all _ _ _ _ _ _ Hr Hp)|exact (proj1 (repr_floats X E H anything HX) _ _ _ _ Hp)]).
  assert (php_ok p') as O2 by (split; [exact (unspoken_all _ _ _ _ _ _ Hr' Hp')|exact (proj1 (repr_floats X E' H' anything HX) _ _ _ _ Hp')]).
  destruct (serialize_inj p p' r r' O1 O2 Q) as [-> ->]. repeat split. exists p'. auto.
Qed.

(** Structs. *)
Inductive selected {A} (P : A -> Prop) : list A -> list A -> Prop :=
| sel_nil : selected P [] []
| sel_take x l l' : P x -> selected P l l' -> selected P (x :: l) (x :: l')
| sel_drop x l l' : ~ P x -> selected P l l' -> selected P (x :: l) l'.

Definition shown (X : Ext) (e : field * hval) : Prop :=
  written_field X (fst e) = true /\ ~ (tag_omitempty (tag_of X (fst e)) = true /\ zero_value (snd e)).

Lemma fields_selected X E H fs l ps : fields X E H anything tt fs l ps ->
  length l = length fs /\ exists sel, selected (shown X) (combine fs l) sel /\
  Forall2 (fun e x => fst x = PStr (field_key X (fst e)) /\ FieldRepresents X E H (fst e) (snd e) (snd x)) sel ps.
Proof.
  revert l ps. induction fs as [|f fs IH]; intros l ps Hf; inversion Hf as [|s1 f1 fs1 v1 l1 ps1 Hw Hf1|s1 f1 fs1 v1 l1 ps1 Hw Ho Hz Hf1|s1 f1 fs1 v1 l1 p1 ps1 Hw Ho Hv Hf1]; subst; cbn [length combine].
  - split; [reflexivity|]. exists []. split; constructor.
  - destruct (IH _ _ Hf1) as (Hl & sel & Hs & Hp). split; [congruence|]. exists sel. split; [|exact Hp]. apply sel_drop; [|exact Hs].
    intros [Q _]. cbn in Q. congruence.
  - destruct (IH _ _ Hf1) as (Hl & sel & Hs & Hp). split; [congruence|]. exists sel. split; [|exact Hp]. apply sel_drop; [|exact Hs].
    intros [_ Q]. cbn in Q. tauto.
  - destruct (IH _ _ Hf1) as (Hl & sel & Hs & Hp). split; [congruence|]. exists ((f, v1) :: sel). split.
    + apply sel_take; [|exact Hs]. split; [exact Hw|]. cbn. tauto.
    + constructor; [split; [reflexivity|exact Hv]|exact Hp].
Qed.
Theorem marshal_struct X E H ord c t id fs v b : fair_order ord -> marshaler E t = false -> kind_of E t = KStruct id fs ->
  MarshalsIn X E H ord c t v b ->
  exists l sel ps, v = HStruct l /\ length l = length fs /\ selected (shown X) (combine fs l) sel /\
    Forall2 (fun e x => fst x = PStr (field_key X (fst e)) /\ FieldRepresents X E H (fst e) (snd e) (snd x)) sel ps /\
    b = serialize (PArr ps).
Proof.
  intros Ho Hi Hk Hm. destruct (marshal_represents X E H ord Ho _ _ _ _ Hm) as (p & Hp & ->).
  assert (bytes_type t = false) as Hb by (destruct t as [| | | | | |[]| | | | | | |]; try reflexivity; discriminate).
  inversion Hp; subst; try congruence. match goal with Q : shape _ _ _ _ _ _ _ _ |- _ => rename Q into Hs end.
  inversion Hs; subst; kinds E; try discriminate.
  - match goal with Q : scalar_repr _ _ _ _ |- _ => apply scalar_shape in Q; discriminate end.
  - replace fs0 with fs in * by congruence. match goal with Q : fields _ _ _ _ _ _ _ _ |- _ => apply fields_selected in Q; destruct Q as (Hl & sel & Hsel & Hf) end.
    exists l, sel, ps. auto.
Qed.

(** The contexts a call can be given: new ones, and ones given back by earlier
    calls (a call that panics does not give its context back).  The field
    [iters] counts the map iterations of the whole process. *)
Definition new_context (n : nat) : st := St [] 0 n.
Inductive pooled (X : Ext) (E : env) : st -> Prop :=
| pooled_new n : pooled X E (new_context n)
| pooled_back H ord f c a c' r :
    pooled X E c -> marshal X E H ord f c a = (c', r) -> (exists b, r = ROk b) \/ (exists e, r = RErr e) ->
    pooled X E c'.
(** History: contexts that have served other calls. *)
Lemma clean_context X E H ord f c a : seen c = [] -> depth c = 0 ->
  seen (fst (marshal X E H ord f c a)) = [] /\ depth (fst (marshal X E H ord f c a)) = 0.
Proof. intros Hs Hd. destruct (marshal_framed X E H ord f a c) as [-> ->]. auto. Qed.
Theorem pooled_is_new X E c : pooled X E c -> c = new_context (iters c).
Proof.
  induction 1 as [n|H ord f c a c' r Hp IH Hm Hr]; [reflexivity|].
  destruct (clean_context X E H ord f c a) as [Hs Hd]; [rewrite IH; reflexivity|rewrite IH; reflexivity|].
  rewrite Hm in Hs, Hd. destruct c' as [sn d n]. cbn in *. subst. reflexivity.
Qed.
