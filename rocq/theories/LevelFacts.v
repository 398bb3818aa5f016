(** Values without interfaces that are not nested deeply meet no obstacle (C90). *)
From Coq Require Import Strings.String Strings.Byte ZArith List Bool Lia Relations.Relation_Operators.
From Verif Require Import Base GoTypes Tags Grammar Denote Typing Memory EncCompile Php Repr EncApi ReprFacts PhpFacts MarshalFacts RoundTrip RoundTripFacts Values Obstacle QuietFacts SoundValue Levels.
Import ListNotations.
Open Scope Z_scope.

Section Low.
  Context (X : Ext) (E : env) (H : heap).
  Definition plain (T : gty) : Prop := forall U, inside E T U -> has_unmarshal E U = None /\ marshaler E U = false /\ iface_kind (kind_of E U) = false.
  Lemma inside_trans T U V : inside E T U -> inside E U V -> inside E T V.
  Proof. intros A B. induction B as [|U' V' _ IH C]; [exact A|]. eapply in_step; eassumption. Qed.
  Lemma plain_part T U : plain T -> component E T U -> plain U.
  Proof. intros P C V I. apply P. eapply inside_trans; [eapply in_step; [apply Typing.in_refl|exact C]|exact I]. Qed.
  Lemma plain_here T : plain T -> has_unmarshal E T = None /\ marshaler E T = false /\ iface_kind (kind_of E T) = false.
  Proof. intros P. apply P. apply Typing.in_refl. Qed.
  Lemma plain_mute T : plain T -> mute E T.
  Proof. intros P U I. destruct (P U I) as (A & B & _). split; assumption. Qed.
  Lemma plain_ptr T t : plain T -> kind_of E T = KPtr t -> plain t.
  Proof. intros P K. eapply plain_part; [exact P|]. eapply co_ptr. split; [apply plain_here; exact P|exact K]. Qed.
  Lemma plain_slice T t : plain T -> kind_of E T = KSlice t -> plain t.
  Proof. intros P K. eapply plain_part; [exact P|]. eapply co_slice. split; [apply plain_here; exact P|exact K]. Qed.
  Lemma plain_array T n t : plain T -> kind_of E T = KArray n t -> plain t.
  Proof. intros P K. eapply plain_part; [exact P|]. eapply co_array. split; [apply plain_here; exact P|exact K]. Qed.
  Lemma plain_val T k t : plain T -> kind_of E T = KMap k t -> plain t.
  Proof. intros P K. eapply plain_part; [exact P|]. eapply co_val. split; [apply plain_here; exact P|exact K]. Qed.

  Definition low (n : Z) (q : place_in) : Prop :=
    plain (type_ q) /\ by_ q <> Inside /\ by_ q <> AsTextInside /\
    exists w, holds H (value_ q) w /\ snd (trail_ q) + Z.of_nat (levels w) <= n.
  Lemma le_max f (l : list gval) w : In w l -> (f w <= list_max (map f l))%nat.
  Proof. induction l as [|x l IH]; intros []; cbn [map list_max fold_right]; [subst; apply Nat.le_max_l|]. unfold list_max in IH. specialize (IH H0). lia. Qed.
  Lemma le_max2 (l : list (gval * gval)) k w : In (k, w) l -> (levels w <= list_max (map (fun e => match e with (_, x) => levels x end) l))%nat.
  Proof. induction l as [|x l IH]; intros []; cbn [map list_max fold_right]; [subst; apply Nat.le_max_l|]. unfold list_max in IH. specialize (IH H0). lia. Qed.
  Lemma deeper n s s' a l ws x : enters s false a s' -> snd s + Z.of_nat (S (list_max (map levels ws))) <= n -> Forall2 (holds H) l ws -> In x l ->
    exists w, holds H x w /\ snd s' + Z.of_nat (levels w) <= n.
  Proof.
    intros (_ & _ & Hs) L F Hi. destruct (forall2_in _ _ _ _ F Hi) as (w & Hw & Hh). exists w. split; [exact Hh|]. pose proof (le_max levels ws w Hw). lia.
  Qed.
  Lemma low_below n p q : low n p -> below X E H p q -> low n q.
  Proof.
    intros (P & Hi & Ht & w & Hh & L) B. destruct B; cbn [type_ value_ by_ trail_] in *; try (destruct (Hi eq_refl); fail); try (destruct (Ht eq_refl); fail).
    all: try (unfold low; cbn [type_ value_ by_ trail_]; split; [exact P|split; [discriminate|split; [discriminate|exists w; split; assumption]]]; fail).
    all: try (exfalso; destruct (plain_here _ P) as (_ & _ & Q); congruence).
    all: try (exfalso; match goal with K : kind_of E _ = KPtr _, Q : iface_kind _ = true |- _ => destruct (plain_here _ (plain_ptr _ _ P K)) as (_ & _ & Q'); congruence end).
    all: try (match goal with _ : cell _ _ _ = Some _ |- _ => idtac end; inversion Hh as [| | | | | | | | | | | |o' i' c' w' C' Hw| | | |]; subst; (split; [eapply plain_ptr; eassumption|split; [discriminate|split; [discriminate|]]]); cbn [type_ value_ by_ trail_ levels] in *; exists w'; (split; [congruence|]);
      try (match goal with Q : enters _ false _ _ |- _ => destruct Q as (_ & _ & Hs) end); lia).
    - inversion Hh as [| | | | | | | |l' ws F| | | | | | | |]; subst. split; [eapply plain_array; eassumption|]. split; [discriminate|]. split; [discriminate|]. cbn [type_ value_ by_ trail_].
      destruct (forall2_in _ _ _ _ F H1) as (y & Hy & Hh'). exists y. split; [exact Hh'|]. pose proof (le_max levels ws y Hy). cbn [levels] in L. lia.
    - inversion Hh as [| | | | | | |o' i' n' l' ws C' F| | | | | | | | |]; subst. replace l' with l in F by congruence. split; [eapply plain_slice; eassumption|]. split; [discriminate|]. split; [discriminate|]. eapply deeper; eassumption.
    - inversion Hh as [| | | | | | | | | |o' m' ws C' _ F| | | | | |]; subst. replace m' with m in F by congruence. split; [eapply plain_val; eassumption|]. split; [discriminate|]. split; [discriminate|]. cbn [type_ value_ by_ trail_].
      destruct (forall2_in _ _ _ _ F H3) as ([a b] & Hy & _ & Hv). exists b. split; [exact Hv|]. pose proof (le_max2 ws a b Hy). cbn [levels] in L. destruct H2 as (_ & _ & Hs). lia.
    - inversion Hh as [| | | | | | | | | | | | | | |l' ws F|]; subst. split.
      { eapply plain_part; [exact P|]. eapply co_field; [split; [apply plain_here; exact P|eassumption]|eapply in_combine_l; eassumption|eapply written_not_ignored; eassumption]. }
      split; [discriminate|]. split; [discriminate|]. cbn [type_ value_ by_ trail_].
      destruct (forall2_in _ _ _ _ F (in_combine_r _ _ _ _ H1)) as (y & Hy & Hh'). exists y. split; [exact Hh'|]. pose proof (le_max levels ws y Hy). cbn [levels] in L. lia.
  Qed.
  Lemma low_reached n t v w q : plain t -> holds H v w -> Z.of_nat (levels w) <= n -> reached X E H t v q -> low n q.
  Proof.
    intros P Hh L R. unfold reached in R. remember (At ByType ([], 0) t v) as p eqn:Ep.
    assert (low n p) as Lp by (subst p; split; [exact P|split; [discriminate|split; [discriminate|exists w; split; [exact Hh|cbn [trail_ snd]; lia]]]]). clear Ep.
    induction R as [p q B|p|p q r R1 IH1 R2 IH2]; [eapply low_below; eassumption|exact Lp|]. apply IH2. apply IH1. exact Lp.
  Qed.
  Lemma low_obstacle n q e : n <= 1000 -> low n q -> ~ obstacle X E H q e.
  Proof.
    intros Hn (P & Hi & Ht & w & Hh & L) B. destruct B; cbn [type_ value_ by_ trail_] in *; try (destruct (Hi eq_refl); fail); try (destruct (Ht eq_refl); fail).
    all: try (destruct (plain_here _ P) as (_ & Q & _); congruence).
    all: match goal with Q : refused _ _ _ |- _ => destruct Q as [[Q|Q] _]; [discriminate Q|] end; inversion Hh; subst; cbn [levels] in L; lia.
  Qed.
End Low.
