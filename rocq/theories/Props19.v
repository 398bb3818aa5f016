(** Errors inside of longer inputs (C61). *)
From Coq Require Import Strings.String Strings.Byte ZArith List Bool Lia Floats.SpecFloat.
From Verif Require Import Base GoTypes Tags Scan Decode Unmarshal Grammar Denote Typing Api SoundT CompileFacts UnmFacts NumFacts Context ShiftFacts ContextFacts Demo Props5.
Import ListNotations.
Open Scope Z_scope.

(** No start of [rest] is a value for a [t] that holds [old]. *)
Definition starts_no_value (X : Ext) (E : env) (rest : bytes) (t : gty) (old : gval) : Prop :=
  forall s1 s2 w, rest = s1 ++ s2 -> ~ Decodes X E s1 t old w.

Section C61.
  Context (X : Ext) (E : env) (T t : gty) (v old : gval) (pre rest : bytes) (d : Z) (put : gval -> gval).
  Context (Hs : supported X E T) (Hc : context X E 0 T v pre d t old put)
          (Hne : rest <> []) (Hsm : small (pre ++ rest)) (Hb : d + braces rest < 10000)
          (Hno : starts_no_value X E rest t old).

  Lemma C61_stuck cf w r : unmarshal X E cf rest (TgPtr t old) = (w, r) -> r <> RFuel ->
    exists r0, r = fail r0 /\ @stuck Z r0 /\ exists cf' r', unmarshal X E cf' (pre ++ rest) (TgPtr T v) = (put w, fail r') /\
      match r0 with RErr e => exists e', r' = @RErr Z e' /\ moved rest (blen pre) e e' | _ => r' = r0 end.
  Proof.
    intros H Hr. assert (supported X E t) as Ht.
    { eapply supported_inside; [exact Hs|]. eapply context_inside; exact Hc. }
    assert (small rest) as Hsr by (unfold small in *; rewrite blen_app in Hsm; unfold blen in *; lia).
    unfold unmarshal in H. destruct rest as [|b rest'] eqn:Er; [congruence|]. rewrite <- Er in *.
    apply (compile_iff X E t) in Ht as Ht'. destruct Ht' as [cf0 Hcf0].
    assert (compile_f X E cf [] t = ROk tt) as Hcf.
    { destruct (compile_f X E cf [] t) as [[]|e|p|] eqn:Ec; [reflexivity|..|injection H as _ <-; congruence];
        rewrite <- (compile_mono X E cf [] t ltac:(congruence) (Nat.max cf cf0) ltac:(lia)) in Ec;
        rewrite (compile_mono X E cf0 [] t ltac:(congruence) (Nat.max cf cf0) ltac:(lia)) in Ec; congruence. }
    rewrite Hcf in H. pose proof (decode_out X E t rest old Hsr Hne) as O.
    destruct (decode X E t rest 0 0 old) as [w1 r1] eqn:Ed1. injection H as -> H.
    destruct r1 as [c|e|p|]; cbn [bind] in H; subst r; [|exists (RErr e)|exists (RPanic p)|congruence].
    - exfalso. destruct O as (p & s' & Hst & Ep & _). eapply (Hno (text p) s'); [exact Ep|]. apply decodes_store; eauto.
      unfold small in *. rewrite Ep, blen_app in Hsr. unfold blen in *. lia.
    - split; [reflexivity|]. split; [exact I|].
      destruct (context_stuck X E T v pre d t old put rest w _ Hsm Hc Hne Hb Ed1 I) as (r' & H' & Hm).
      apply (compile_iff X E T) in Hs as [cf1 Hcf1]. exists cf1, r'. split; [|exact Hm].
      destruct Hm as (e' & -> & _). unfold unmarshal. rewrite Hcf1, H'. destruct (pre ++ rest) eqn:En; [|reflexivity].
      apply app_eq_nil in En as [_ En]. congruence.
    - split; [reflexivity|]. split; [exact I|].
      destruct (context_stuck X E T v pre d t old put rest w _ Hsm Hc Hne Hb Ed1 I) as (r' & H' & Hm).
      apply (compile_iff X E T) in Hs as [cf1 Hcf1]. exists cf1, r'. split; [|exact Hm]. subst r'.
      unfold unmarshal. rewrite Hcf1, H'. destruct (pre ++ rest) eqn:En; [|reflexivity].
      apply app_eq_nil in En as [_ En]. congruence.
  Qed.
End C61.

(** ** C61 Errors are compositional: when [Unmarshal] rejects [rest] for a [t]
    that holds [old], it rejects every longer input in which [rest] stands in the
    place of a value that is to be read into a [t] that holds [old], with the same
    error, found as many bytes further on as there are bytes before [rest].  The
    [t] at that place is left as [Unmarshal] of [rest] alone leaves it, and all
    before it has been stored. *)
Theorem C61_error : forall X E T t v old pre rest d put cf w e,
  supported X E T -> context X E 0 T v pre d t old put ->
  rest <> [] -> small (pre ++ rest) -> d + braces rest < 10000 -> starts_no_value X E rest t old ->
  unmarshal X E cf rest (TgPtr t old) = (w, RErr e) ->
  exists cf' e', unmarshal X E cf' (pre ++ rest) (TgPtr T v) = (put w, RErr e') /\ moved rest (blen pre) e e'.
Proof.
  intros X E T t v old pre rest d put cf w e Hs Hc Hne Hsm Hb Hno H.
  destruct (C61_stuck X E T t v old pre rest d put Hs Hc Hne Hsm Hb Hno cf w _ H ltac:(discriminate)) as (r0 & Er & Hr & cf' & r' & Hu & Hm).
  destruct r0 as [| e0 | |]; try destruct Hr; try discriminate. injection Er as <-. destruct Hm as (e' & -> & Hm). exists cf', e'. auto.
Qed.
Print Assumptions C61_error.
Theorem C61_panic : forall X E T t v old pre rest d put cf w p,
  supported X E T -> context X E 0 T v pre d t old put ->
  rest <> [] -> small (pre ++ rest) -> d + braces rest < 10000 -> starts_no_value X E rest t old ->
  unmarshal X E cf rest (TgPtr t old) = (w, RPanic p) ->
  exists cf', unmarshal X E cf' (pre ++ rest) (TgPtr T v) = (put w, RPanic p).
Proof.
  intros X E T t v old pre rest d put cf w p Hs Hc Hne Hsm Hb Hno H.
  destruct (C61_stuck X E T t v old pre rest d put Hs Hc Hne Hsm Hb Hno cf w _ H ltac:(discriminate)) as (r0 & Er & Hr & cf' & r' & Hu & Hm).
  destruct r0 as [| | p0 |]; try destruct Hr; try discriminate. injection Er as <-. subst r'. exists cf'. exact Hu.
Qed.
Print Assumptions C61_panic.

(** An int is expected in the "a" of the "Next" of a Node. *)
Definition before : bytes := bs "a:2:{s:1:""a"";i:7;s:4:""Next"";a:1:{s:1:""a"";".
Definition broken : bytes := bs "b:1;}}".
Definition node_fs : list field := match nth_error Ed 0 with Some (Decl (UStruct fs) _ _) => fs | _ => [] end.
Definition holds_7 (a : gval) : gval :=
  VStruct [VInt 7; VStr []; VPtr (Some (VStruct [a; VStr []; VPtr None; VInt 0; VSlice None])); VInt 0; VSlice None].
Example C61_example : exists d put,
  supported Xd Ed (TName 0) /\ context Xd Ed 0 (TName 0) (zero Ed (TName 0)) before d (TInt IInt) (VInt 0) put /\
  small (before ++ broken) /\ d + braces broken < 10000 /\ starts_no_value Xd Ed broken (TInt IInt) (VInt 0) /\
  put (VInt 0) = holds_7 (VInt 0) /\
  unmarshal Xd Ed 5 broken (TgPtr (TInt IInt) (VInt 0)) = (VInt 0, RErr (ESyntax 0 (WExpected "'i' to start an integer" "b"%byte))) /\
  unmarshal Xd Ed 9 (before ++ broken) (TgPtr (TName 0) (zero Ed (TName 0))) = (holds_7 (VInt 0), RErr (ESyntax (blen before) (WExpected "'i' to start an integer" "b"%byte))).
Proof.
  exists 2. eexists. split.
  { eapply supported_inside; [exact node_supported|]. eapply in_step; [apply in_refl|]. eapply co_ptr. split; reflexivity. }
  split.
  { change before with (opening (LArr (bs "2") [(LStr (bs "1") (bs "a"), LInt (bs "7"))]) ++
      entries [(LStr (bs "1") (bs "a"), LInt (bs "7"))] ++ text (LStr (bs "4") (bs "Next")) ++
      (opening (LArr (bs "1") []) ++ entries [] ++ text (LStr (bs "1") (bs "a")) ++ [])).
    eapply (cx_field Xd Ed 0 (TName 0) 0 node_fs) with (k := bs "Next") (l' := [VInt 7; VStr []; VPtr None; VInt 0; VSlice None]) (old := VPtr None); try reflexivity.
    - split; reflexivity.
    - constructor.
    - split; [discriminate|reflexivity].
    - eapply ste_known with (k := bs "a") (v := VInt 7); try reflexivity; [constructor; split; [split; [discriminate|reflexivity]|reflexivity]| |apply ste_nil].
      apply (sto_int Xd Ed 1 (TInt IInt) IInt (bs "7") 7); [split; reflexivity| |]; [apply it_pos; split; [discriminate|reflexivity]|vm_compute; split; congruence].
    - constructor. split; [split; [discriminate|reflexivity]|reflexivity].
    - apply cx_ptr with (t := TName 0); [split; reflexivity|reflexivity|discriminate|].
      eapply (cx_field Xd Ed 1 (TName 0) 0 node_fs) with (k := bs "a") (l' := [VInt 0; VStr []; VPtr None; VInt 0; VSlice None]) (old := VInt 0); try reflexivity.
      + split; reflexivity.
      + constructor.
      + split; [discriminate|reflexivity].
      + apply ste_nil.
      + constructor. split; [split; [discriminate|reflexivity]|reflexivity].
      + apply cx_here. }
  split; [reflexivity|]. split; [reflexivity|]. split.
  { intros s1 s2 w Hs H. assert (small s1) as Hsm by (assert (small broken) as Hb by reflexivity; rewrite Hs in Hb; unfold small, blen in *; rewrite app_length in Hb; lia).
    apply (decodes_iff Xd Ed s1 (TInt IInt) _ _ Hsm) in H as (_ & p & -> & Hst).
    inversion Hst as []; subst; try (match goal with HP : plain _ _ _ |- _ => destruct HP as [_ HP]; discriminate HP end); try discriminate. }
  split; [reflexivity|]. split; vm_compute; reflexivity.
Qed.
