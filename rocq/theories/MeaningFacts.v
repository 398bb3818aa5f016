(** A value that means something is encoded, or refused as recursive. *)
From Coq Require Import Strings.String Strings.Byte ZArith NArith List Bool Lia Permutation Arith Relations.Relation_Operators.
From Verif Require Import Base GoTypes Strconv Tags Denote Memory EncCompile Encode Php Repr Positions EncApi EncCompileFacts EncTerm EncFacts EncSound Values CalmFacts Obstacle ObstacleFacts.
Import ListNotations.
Open Scope Z_scope.

(** ** Where there is a meaning, only the recursion check stops Marshal *)
Section Meaning.
  Context (X : Ext) (E : env) (H : heap).
  Notation en := anything.
  (** The value at [p] represents something. *)
  Definition means (p : place_in) : Prop :=
    match p with
    | At w s t v =>
        match w with
        | ByType => exists r, repr X E H en tt t v r
        | ByKind => exists r, shape X E H en tt t v r
        | Inside => exists r, inner X E H en tt t v r
        | AsField f => t = f_ty f /\ exists r, field_val X E H en tt f v r
        | AsText => exists r, quoted_repr X E H t v r
        | AsTextInside => exists r, quoted_any X E H t v r
        end
    end.
  Lemma elems_mean s b t : forall l i ps x, elems X E H en s b t i l ps -> In x l ->
    if b then exists r, inner X E H en s t x r else exists r, repr X E H en s t x r.
  Proof.
    induction l as [|y l IH]; intros i ps x El; [intros []|]. intros [->|J]; inversion El; subst; eauto.
  Qed.
  Lemma pairs_mean s b k t : forall l ps y x, pairs X E H en s b k t l ps -> In (y, x) l ->
    if b then exists r, inner X E H en s t x r else exists r, repr X E H en s t x r.
  Proof.
    induction l as [|[z w] l IH]; intros ps y x Pa; [intros []|]. intros [Q|J]; [injection Q as -> ->|]; inversion Pa; subst; eauto.
  Qed.
  Lemma fields_mean s : forall fs l ps f x, fields X E H en s fs l ps -> In (f, x) (combine fs l) -> written_field X f = true ->
    (tag_omitempty (tag_of X f) = true -> ~ zero_value x) -> exists r, field_val X E H en s f x r.
  Proof.
    induction fs as [|g fs IH]; intros l ps f x Fi; [intros []|]. destruct l as [|y l]; [intros []|]. intros [Q|J] Hw Ho.
    - injection Q as -> ->. inversion Fi; subst; [congruence|exfalso; apply Ho; assumption|eauto].
    - inversion Fi; subst; eapply IH; eassumption.
  Qed.

  Ltac same := repeat match goal with
    | s : unit |- _ => destruct s
    | A : cells ?h ?o ?i ?n = Some ?x, B : cells ?h ?o ?i ?n = Some ?y |- _ => rewrite A in B; injection B as <-
    | A : entries ?h ?o = Some ?x, B : entries ?h ?o = Some ?y |- _ => rewrite A in B; injection B as <-
    | A : cell ?h ?o ?i = Some ?x, B : cell ?h ?o ?i = Some ?y |- _ => rewrite A in B; injection B as <-
    | A : kind_of ?e ?t = ?x, B : kind_of ?e ?t = ?y |- _ => rewrite A in B; (discriminate B || (injection B; intros; subst; clear B) || fail 1)
    end.
  Ltac kinds := repeat match goal with
    | A : kind_of ?e ?t = _, B : iface_kind (kind_of ?e ?t) = _ |- _ => rewrite A in B; cbn in B; try discriminate B
    | A : kind_of ?e ?t = _, B : ptr_kind (kind_of ?e ?t) = _ |- _ => rewrite A in B; cbn in B; try discriminate B
    | A : kind_of ?e ?t = _, B : scalar_repr _ (kind_of ?e ?t) _ _ |- _ => rewrite A in B; inversion B
    end.
  Lemma means_below p q : below X E H p q -> means p -> means q.
  Proof.
    intros B. destruct B; cbn [means].
    all: try (intros [-> [r R]]; inversion R; subst; same; kinds; try congruence; eauto; fail).
    all: try (intros [r R]; inversion R; subst; same; kinds; try congruence; eauto; fail).
    all: intros [r R]; inversion R; subst; same; kinds; try congruence; eauto.
    - eapply (elems_mean _ false); eassumption.
    - eapply (elems_mean _ false); eassumption.
    - eapply (pairs_mean _ false); [eassumption|]. eapply Permutation_in; eassumption.
    - split; [reflexivity|]. eapply fields_mean; eassumption.
    - destruct (kind_of E t'); discriminate.
    - destruct (kind_of E t'); discriminate.
    - destruct (kind_of E t'); discriminate.
    - destruct (kind_of E t'); discriminate.
    - match goal with Q : scalar_repr _ _ _ _, K : iface_kind (kind_of E t) = true |- _ => destruct (kind_of E t); try discriminate; inversion Q end.
    - destruct (kind_of E t'); discriminate.
    - destruct (kind_of E t'); discriminate.
    - match goal with Q : scalar_repr _ _ _ _, K : iface_kind (kind_of E t) = true |- _ => destruct (kind_of E t); try discriminate; inversion Q end.
    - eapply (elems_mean _ true); eassumption.
    - match goal with Q : In _ [] |- _ => destruct Q end.
    - match goal with Q : pairs _ _ _ _ _ (iface_kind ?k) _ _ _ _, K : iface_kind ?k = true |- _ => rewrite K in Q; eapply (pairs_mean _ true); [exact Q|] end. eapply Permutation_in; eassumption.
    - match goal with Q : In _ [] |- _ => destruct Q end.
    - match goal with Q : pairs _ _ _ _ _ (iface_kind ?k) _ _ _ _, K : iface_kind ?k = false |- _ => rewrite K in Q; eapply (pairs_mean _ false); [exact Q|] end. eapply Permutation_in; eassumption.
  Qed.
  Lemma means_reached p q : clos_refl_trans _ (below X E H) p q -> means p -> means q.
  Proof. induction 1; eauto. intros. eapply means_below; eassumption. Qed.

  Lemma obstacle_means p e : obstacle X E H p e -> means p -> exists t, e = EMarshal (CRecursive t).
  Proof.
    intros O. destruct O; cbn [means].
    { intros [r R]. inversion R; subst; try congruence. exfalso; eapply refuses_says; eassumption. }
    all: intros Q; try destruct Q as [-> Q]; destruct Q as [r R]; inversion R; subst; same; kinds; try congruence.
    all: try (eexists; reflexivity).
    all: exfalso.
    all: try (match goal with A : faulty _ _ _ _, B : encodable _ _ _ |- _ => exact (faulty_not_encodable _ _ _ _ A B) end).
    all: try (match goal with A : not_inside (kind_of E ?t), B : kind_of E ?t = _ |- _ => rewrite B in A; exact A end).
    all: try (match goal with A : not_inside (kind_of E ?t), B : iface_kind (kind_of E ?t) = true |- _ => destruct (kind_of E t); try discriminate; exact A end).
    all: try (match goal with A : struct_kind (kind_of E ?t) = true |- _ => destruct (kind_of E t); discriminate end).
    all: try (match goal with A : ~ text_type _ |- _ => apply A; exact I end).
    all: try (match goal with A : iface_kind (kind_of E ?t) = true \/ encodable X E ?t |- _ => destruct A as [A|A]; [congruence|] end;
      match goal with A : faulty _ _ _ _, B : encodable _ _ _ |- _ => exact (faulty_not_encodable _ _ _ _ A B) end).
    - match goal with Q : scalar_repr _ _ _ _, A : not_inside (kind_of E t) |- _ => destruct (kind_of E t) as [| |[]| | | | | | | | | | |]; try exact A; inversion Q; congruence end.
    - match goal with Q : ~ text_type (TUint ?k) |- _ => apply Q; destruct k; try exact I; congruence end.
  Qed.
  Lemma accident_not_mean p x : accident X E H p x -> ~ means p.
  Proof. intros O. destruct O; cbn [means]. intros [r R]. inversion R; subst; try congruence. eapply collapses_says; eassumption. Qed.

  (** ** ... and is finite *)
  Notation ends_at := (Acc (fun q p => below X E H p q)).
  Definition elem_way (b : bool) : way := if b then Inside else ByType.
  Lemma meaning_ends :
    (forall s t v r, repr X E H en s t v r -> forall s', ends_at (At ByType s' t v)) /\
    (forall s t v r, shape X E H en s t v r -> forall s', ends_at (At ByKind s' t v)) /\
    (forall s t v r, inner X E H en s t v r -> forall s', ends_at (At Inside s' t v)) /\
    (forall s b t i l ps, elems X E H en s b t i l ps -> forall s' x, In x l -> ends_at (At (elem_way b) s' t x)) /\
    (forall s b k t l ps, pairs X E H en s b k t l ps -> forall s' y x, In (y, x) l -> ends_at (At (elem_way b) s' t x)) /\
    (forall s fs l ps, fields X E H en s fs l ps -> forall s' f x, In (f, x) (combine fs l) -> written_field X f = true ->
       (tag_omitempty (tag_of X f) = true -> ~ zero_value x) -> ends_at (At (AsField f) s' (f_ty f) x)) /\
    (forall s f v r, field_val X E H en s f v r -> forall s', ends_at (At (AsField f) s' (f_ty f) v)).
  Proof.
    assert (forall t v r, quoted_any X E H t v r -> forall s, ends_at (At AsTextInside s t v)) as Hqa.
    { intros t v r Q. induction Q; intros s; constructor; intros q B; inversion B; subst; same; kinds; try congruence; auto;
        try (match goal with A : iface_kind (kind_of E _) = true |- _ => discriminate A end);
        try (match goal with A : kind_of E _ = KPtr _ |- _ => discriminate A end). }
    assert (forall t v r, quoted_repr X E H t v r -> forall s, ends_at (At AsText s t v)) as Hqr.
    { intros t v r Q s. constructor. intros q B. inversion B; subst. inversion Q; subst; kinds. eapply Hqa. eassumption. }
    apply repr_ind7; intros; try (exfalso; match goal with Q : In _ _ |- _ => exact Q end);
      try (constructor; intros q B; inversion B; subst; same; kinds; try congruence; eauto; fail).
    all: try (match goal with J : In _ (_ :: _) |- _ => destruct J as [J|J]; [try (injection J as -> ->); subst|]; cbn [elem_way]; eauto end; fail).
    all: try (match goal with J : In (?f, ?x) (combine (_ :: _) (_ :: _)) |- _ => destruct J as [J|J]; [injection J as -> ->|]; [|eauto; fail];
      first [congruence|exfalso; match goal with O : _ -> ~ zero_value _ |- _ => apply O; assumption end|eauto] end).
    all: constructor; intros q B; inversion B; subst; same; kinds; try congruence; eauto.
    all: try (match goal with J : In _ [] |- _ => destruct J end).
    all: try (match goal with K : scalar_repr _ (kind_of E ?t) _ _, I : iface_kind (kind_of E ?t) = true |- _ => exfalso; destruct (kind_of E t); try discriminate; inversion K end; fail).
    all: try (exfalso; match goal with K : kind_of E ?t = KPtr ?u |- _ => destruct (kind_of E u); discriminate end).
    all: try (match goal with K : forall s y x, In (y, x) ?l -> Acc _ (At (elem_way ?b) s ?t x), P : Permutation _ ?l, J : In (?y, ?x) _ |- Acc _ (At _ ?s _ _) =>
      pose proof (K s y x (Permutation_in _ P J)) as K'; try (match goal with Q : iface_kind (kind_of E t) = _ |- _ => rewrite Q in K' end); exact K' end).
  Qed.
End Meaning.
