(** A value that contains itself represents no PHP value. *)
From Coq Require Import Strings.String Strings.Byte ZArith List Bool Lia Permutation Relations.Relation_Operators Relations.Operators_Properties Wellfounded.
From Verif Require Import Base GoTypes Tags Denote Memory EncCompile Php Repr Values.
Import ListNotations.
Open Scope Z_scope.

Section Cyc.
  Context (X : Ext) (E : env) (H : heap).
  Notation sh := (shown X E H).
  Notation ac := (Acc (fun b a => sh a b)).

  Lemma acc_ptr t u o i c : kind_of E t = KPtr u -> cell H o i = Some c -> ac (u, c) -> ac (t, HPtr (Some (o, i))).
  Proof. intros Hk Hc A. constructor. intros [u' c'] S. inversion S; subst. replace u' with u by congruence. replace c' with c by congruence. exact A. Qed.
  Lemma acc_iface t u x : ac (u, x) -> ac (t, HIface (Some (u, x))).
  Proof. intros A. constructor. intros [u' c'] S. inversion S; subst. exact A. Qed.
  Lemma acc_none t v : (forall u w, ~ sh (t, v) (u, w)) -> ac (t, v).
  Proof. intros N. constructor. intros [u w] S. destruct (N u w S). Qed.
  Lemma acc_scalar t v p : scalar_repr X (kind_of E t) v p -> ac (t, v).
  Proof. intros S. apply acc_none. intros u w D. inversion D; subst; inversion S. Qed.
  Ltac nothing := apply acc_none; intros ?u ?w D; inversion D.
  Lemma acc_quoted_any t v p : quoted_any X E H t v p -> ac (t, v).
  Proof.
    induction 1; try solve [nothing].
    - eapply acc_ptr; eassumption.
    - apply acc_iface. assumption.
  Qed.
  Lemma acc_quoted t v p : quoted_repr X E H t v p -> ac (t, v).
  Proof. intros Q. inversion Q; subst; try solve [nothing]. eapply acc_quoted_any. eassumption. Qed.

  Context {S : Type} (enter : S -> bool -> addr -> S -> Prop).
  Lemma repr_acc :
    (forall s t v p, repr X E H enter s t v p -> ac (t, v)) /\
    (forall s t v p, shape X E H enter s t v p -> ac (t, v)) /\
    (forall s t v p, inner X E H enter s t v p -> ac (t, v)) /\
    (forall s b t i l ps, elems X E H enter s b t i l ps -> forall x, In x l -> ac (t, x)) /\
    (forall s b k t l ps, pairs X E H enter s b k t l ps -> forall y x, In (y, x) l -> ac (t, x)) /\
    (forall s fs l ps, fields X E H enter s fs l ps -> forall f x, In (f, x) (combine fs l) -> written_field X f = true ->
        (tag_omitempty (tag_of X f) = true -> ~ zero_value x) -> ac (f_ty f, x)) /\
    (forall s f v p, field_val X E H enter s f v p -> ac (f_ty f, v)).
  Proof.
    apply (repr_ind7 X E H S enter (fun _ t v _ => ac (t, v)) (fun _ t v _ => ac (t, v)) (fun _ t v _ => ac (t, v))
      (fun _ _ t _ l _ => forall x, In x l -> ac (t, x)) (fun _ _ _ t l _ => forall y x, In (y, x) l -> ac (t, x))
      (fun _ fs l _ => forall f x, In (f, x) (combine fs l) -> written_field X f = true -> (tag_omitempty (tag_of X f) = true -> ~ zero_value x) -> ac (f_ty f, x))
      (fun _ f v _ => ac (f_ty f, v))).
    - intros s t v b Hi _. apply acc_none. intros u w D. inversion D; subst; congruence.
    - intros s t v b Hi Hb Hv. destruct t as [| | | | | |t'| | | | | | |]; try discriminate. destruct t' as [| |[]| | | | | | | | | | |]; try discriminate.
      constructor. intros [u w] D. inversion D as [t u0 o i n l x _ Hk Hc Hx| | | | |]; subst; try discriminate. cbn in Hk. injection Hk as <-. apply acc_none. intros u' w' D'.
      inversion D'; subst; try discriminate.
    - intros s t v p _ _ _ A. exact A.
    - intros s t v p Hs. eapply acc_scalar. exact Hs.
    - intros s t id fs l ps Hk _ A. constructor. intros [u w] D. inversion D; subst. replace fs0 with fs in * by congruence. eapply A; eassumption.
    - intros s t n t' l ps Hk _ _ A. constructor. intros [u w] D. inversion D; subst. replace u with t' in * by congruence. apply A. assumption.
    - intros. nothing.
    - intros s s' t t' o i n l ps Hk Hc _ _ A. constructor. intros [u w] D. inversion D; subst. replace u with t' in * by congruence. replace l0 with l in * by congruence. apply A. assumption.
    - intros. nothing.
    - intros s s' t k t' o m l ps Hk He Hp _ _ A. constructor. intros [u w] D. inversion D; subst. replace u with t' in * by congruence. replace m0 with m in * by congruence.
      eapply A. eapply Permutation_in; eassumption.
    - intros s t v p _ _ A. exact A.
    - intros s t t' v p _ _ _ A. exact A.
    - intros. nothing.
    - intros s s' t t' o i c p Hk _ Hc _ _ A. eapply acc_ptr; eassumption.
    - intros s t t' o i c p Hk _ _ Hc _ A. eapply acc_ptr; eassumption.
    - intros s t t' o i c p Hk _ _ Hc _ A. eapply acc_ptr; eassumption.
    - intros. nothing.
    - intros s t t' o i c p Hk Hc _ A. eapply acc_ptr; eassumption.
    - intros. nothing.
    - intros s t t' v p _ _ A. apply acc_iface. exact A.
    - intros s t v p Hs. eapply acc_scalar. exact Hs.
    - intros. nothing.
    - intros s s' t t' o i n l ps Hk _ Hc _ _ A. constructor. intros [u w] D. inversion D; subst. replace u with t' in * by congruence. replace l0 with l in * by congruence. apply A. assumption.
    - intros. nothing.
    - intros s s' t t' o i n p _ _ _ _ _ A. exact A.
    - intros. nothing.
    - intros s s' t k t' o Hk _ He _. apply acc_none. intros u w D. inversion D; subst. replace m with (@nil (hval * hval)) in * by congruence. contradiction.
    - intros s s' t k t' o m l ps Hk _ He _ _ Hp _ _ A. constructor. intros [u w] D. inversion D; subst. replace u with t' in * by congruence. replace m0 with m in * by congruence.
      eapply A. eapply Permutation_in; eassumption.
    - intros s t id fs v p _ _ _ A. exact A.
    - intros s b t i x [].
    - intros s t i v l p ps _ A _ B x [<-|Hx]; [exact A|apply B; exact Hx].
    - intros s t i v l p ps _ A _ B x [<-|Hx]; [exact A|apply B; exact Hx].
    - intros s b k t y x [].
    - intros s k t kv v l kp p ps _ _ A _ B y x [Q|Hx]; [injection Q as <- <-; exact A|eapply B; exact Hx].
    - intros s k t kv v l kp p ps _ _ A _ B y x [Q|Hx]; [injection Q as <- <-; exact A|eapply B; exact Hx].
    - intros s f x [].
    - intros s f fs v l ps Hw _ A g x [Q|Hx] Hg Ho; [injection Q as <- <-; congruence|eapply A; eassumption].
    - intros s f fs v l ps Hw Ht Hz _ A g x [Q|Hx] Hg Ho; [injection Q as <- <-; destruct (Ho Ht Hz)|eapply A; eassumption].
    - intros s f fs v l p ps Hw Hn _ A _ B g x [Q|Hx] Hg Ho; [injection Q as <- <-; exact A|eapply B; eassumption].
    - intros. nothing.
    - intros s s' f t' o i c p Hk _ _ Hc _ _ A. eapply acc_ptr; eassumption.
    - intros s f t' o i c p Hk _ _ Hc _ A. eapply acc_ptr; eassumption.
    - intros s f v p _ _ _ A. exact A.
    - intros s f t' o i c p Hk _ Hc Hq. eapply acc_ptr; [eassumption|eassumption|]. eapply acc_quoted. exact Hq.
    - intros s f v p _ _ Hq. eapply acc_quoted. exact Hq.
  Qed.
End Cyc.

Theorem cyclic_represents_nothing X E H t v p : cyclic X E H t v -> ~ Represents X E H t v p.
Proof.
  intros (n & L & C) R. apply (proj1 (repr_acc X E H anything)) in R.
  assert (Acc (fun b a => shown X E H a b) n) as A.
  { clear C. apply clos_rt_rt1n in L. induction L as [|x y z S _ IH]; [exact R|]. apply IH. apply (Acc_inv R). exact S. }
  apply Acc_clos_trans in A. induction A as [n _ IH]. apply (IH n); [|exact L|exact C].
  clear - C. enough (forall a b, clos_trans _ (shown X E H) a b -> clos_trans _ (fun b a => shown X E H a b) b a) as Q by (apply Q; exact C).
  intros a b. induction 1 as [x y Q|x y z _ I1 _ I2]; [apply t_step; exact Q|eapply t_trans; eassumption].
Qed.
