(** Properties of Marshal, part 10: which bytes it may return for a value, the
    order of map iterations being left open by Go (C78). *)
From Coq Require Import Strings.String Strings.Byte ZArith List Bool Lia Permutation.
From Verif Require Import Base GoTypes Strconv Tags Grammar Denote Memory EncCompile Encode Php Repr EncApi EncCompileFacts EncTerm NumEnc EncFacts EncSound EncComplete ReprFacts PhpFacts MarshalFacts Alike AlikeFacts OrderFacts CarryFacts Demo DemoEnc.
Import ListNotations.
Open Scope Z_scope.

Lemma orders_fair (os : list order) : Forall fair1 os -> fair_order (fun n => nth n os (fun m => m)).
Proof.
  intros Ho n m. destruct (nth_in_or_default n os (fun m => m)) as [I| ->]; [|reflexivity].
  rewrite Forall_forall in Ho. exact (Ho _ I m).
Qed.
Lemma marshal_reaches X E H t v p : encodable X E t -> repr X E H code_enter ([], 0) t v p ->
  exists ord, fair_order ord /\ Marshals X E H ord t v (serialize p).
Proof.
  intros He Hr. pose proof (proj1 (enc_reaches X E H) _ _ _ _ Hr) as Q.
  destruct (reach_compiled X E t _ _ _ He (fun ord f f' Hf => enc_mono X E H ord f f' MType t v Hf) Q 0%nat) as (os & Ho & R).
  exists (fun n => nth n os (fun m => m)). split; [apply orders_fair, Ho|].
  destruct (R (fun n => nth n os (fun m => m))) as (f & Qf).
  - intros j o Hj. cbn [Nat.add]. apply nth_error_nth. exact Hj.
  - exists f. unfold marshal. change st0 with (at_ ([], 0) 0). rewrite Qf. reflexivity.
Qed.

(** ** C78 Which bytes Marshal may return.

    If Marshal accepts a value, then whatever the orders of the map iterations
    are it accepts it, ... *)
Theorem C78_accepted_always : forall X E H ord ord' t v b, fair_order ord -> fair_order ord' ->
  Marshals X E H ord t v b -> exists b', Marshals X E H ord' t v b'.
Proof.
  intros X E H ord ord' t v b Ho Ho' Q. destruct (marshal_sound_at X E H ord Ho st0 t v b Q) as (He & p & R & _).
  exact (marshal_complete_at X E H ord' Ho' st0 t v p He R).
Qed.
Print Assumptions C78_accepted_always.
(** ... and what it may return are the serializations of all the PHP values the
    argument represents, in every order of the entries of its maps. *)
Theorem C78_possible_bytes : forall X E H ord t v b, fair_order ord -> Marshals X E H ord t v b ->
  forall b', (exists ord', fair_order ord' /\ Marshals X E H ord' t v b') <->
             (exists p, Represents X E H t v p /\ b' = serialize p).
Proof.
  intros X E H ord t v b Ho Q b'. split.
  - intros (ord' & Ho' & Q'). exact (marshal_represents X E H ord' Ho' st0 t v b' Q').
  - intros (p & R & ->). destruct (marshal_sound_at X E H ord Ho st0 t v b Q) as (He & p0 & R0 & _).
    apply marshal_reaches; [exact He|]. exact (proj1 (repr_carry X E H anything code_enter) _ _ _ _ R _ _ R0).
Qed.
Print Assumptions C78_possible_bytes.
Example C78_example : let v := HMap (Some 3%nat) in let t := TMap TString TAny in
  let other := bs "a:2:{s:1:""n"";N;s:1:""k"";a:2:{i:0;i:1;i:1;N;}}" in
  Marshals Xd Ed Hd in_order t v (bs "a:2:{s:1:""k"";a:2:{i:0;i:1;i:1;N;}s:1:""n"";N;}") /\
  (exists ord', fair_order ord' /\ Marshals Xd Ed Hd ord' t v other) /\ other <> bs "a:2:{s:1:""k"";a:2:{i:0;i:1;i:1;N;}s:1:""n"";N;}".
Proof.
  split; [exists 12%nat; vm_compute; reflexivity|]. split; [|vm_compute; discriminate].
  exists backwards. split; [exact backwards_fair|]. exists 12%nat. vm_compute. reflexivity.
Qed.

(** So the bytes need not be the same from call to call: they vary for every
    map with two entries, ... *)
Lemma key_back X k v v' p : key_repr X k v p -> key_repr X k v' p -> v = v'.
Proof.
  intros [Hk A] [_ B]. destruct A; try discriminate Hk; inversion B; subst; reflexivity.
Qed.
Lemma key_ok X k v p : key_repr X k v p -> php_ok p.
Proof. intros [Hk A]. destruct A; try discriminate Hk; split; reflexivity. Qed.
Lemma pairs_swap X E H S (en : S -> bool -> addr -> S -> Prop) s b k t e1 e2 l x1 x2 ps :
  pairs X E H en s b k t (e1 :: e2 :: l) (x1 :: x2 :: ps) -> pairs X E H en s b k t (e2 :: e1 :: l) (x2 :: x1 :: ps).
Proof.
  intros P. inversion P as [|s1 k1 t1 kv1 v1 l1 kp1 p1 ps1 K1 R1 P1|s1 k1 t1 kv1 v1 l1 kp1 p1 ps1 K1 R1 P1]; subst;
    inversion P1 as [|s2 k2 t2 kv2 v2 l2 kp2 p2 ps2 K2 R2 P2|s2 k2 t2 kv2 v2 l2 kp2 p2 ps2 K2 R2 P2]; subst.
  - apply pa_cons; [exact K2|exact R2|]. apply pa_cons; assumption.
  - apply pa_cons_in; [exact K2|exact R2|]. apply pa_cons_in; assumption.
Qed.
Theorem C78_two_entries_vary : forall X E H ord k t o m b, fair_order ord ->
  entries H o = Some m -> NoDup (map fst m) -> (2 <= length m)%nat ->
  Marshals X E H ord (TMap k t) (HMap (Some o)) b ->
  exists ord' b', fair_order ord' /\ Marshals X E H ord' (TMap k t) (HMap (Some o)) b' /\ b' <> b.
Proof.
  intros X E H ord k t o m b Ho Hm Hn Hl Q. destruct (marshal_sound_at X E H ord Ho st0 _ _ b Q) as (He & p & R & ->).
  inversion R as [s1 t1 v1 b1 Mm|s1 t1 v1 b1 Mm Mb|s1 t1 v1 p1 Mm Mb Sh]; subst; [discriminate Mm|discriminate Mb|].
  inversion Sh as [s1 t1 v1 p1 Sc| | | | | |s1 s2 t1 k1 t1' o1 m1 l1 ps1 Hk Hm1 Hp En Pa|s1 t1 v1 p1 Ik|s1 t1 t1' v1 p1 Pk| | | | ]; subst; try discriminate.
  - inversion Sc.
  - replace m1 with m in * by congruence. clear m1 Hm1. cbn [kind_of kind0] in Hk. injection Hk as <- <-.
    pose proof (Permutation_length Hp) as Hlen. destruct l1 as [|e1 [|e2 l1]]; cbn [length] in Hlen; try lia.
    assert (exists x1 x2 ps, ps1 = x1 :: x2 :: ps) as (x1 & x2 & ps & ->).
    { inversion Pa as [|? ? ? ? ? ? ? ? ? ? ? P1|]; subst. inversion P1; subst. eauto. }
    assert (repr X E H code_enter ([], 0) (TMap k t) (HMap (Some o)) (PArr (x2 :: x1 :: ps))) as R2.
    { apply rp_shape; [exact Mm|exact Mb|]. eapply sh_map; [reflexivity|exact Hm| |exact En|exact (pairs_swap _ _ _ _ _ _ _ _ _ _ _ _ _ _ _ Pa)].
      eapply Permutation_trans; [exact Hp|apply perm_swap]. }
    destruct (marshal_reaches X E H _ _ _ He R2) as (ord' & Ho' & Q'). exists ord', (serialize (PArr (x2 :: x1 :: ps))).
    split; [exact Ho'|]. split; [exact Q'|]. intros EQ.
    inversion Pa as [|s3 k3 t3 kv1 v1 l3 kp1 p1 ps3 K1 R1 P1|]; subst. inversion P1 as [|s4 k4 t4 kv2 v2 l4 kp2 p2 ps4 K2 R3 P2|]; subst.
    cbn [serialize] in EQ. unfold blen in EQ. cbn [length] in EQ. apply app_inv_head in EQ. apply app_inv_head in EQ. apply app_inv_head in EQ.
    cbn [flat_map fst snd] in EQ. rewrite <- !app_assoc in EQ.
    destruct (serialize_inj kp2 kp1 _ _ (key_ok _ _ _ _ K2) (key_ok _ _ _ _ K1) EQ) as [-> _].
    pose proof (key_back _ _ _ _ _ K1 K2) as ->.
    apply (Permutation_NoDup (Permutation_map fst Hp)) in Hn. cbn [map fst] in Hn. inversion Hn as [|? ? Hx _]; subst. apply Hx. left. reflexivity.
Qed.
Print Assumptions C78_two_entries_vary.
(** ... and are fixed if no map has two entries. *)
Theorem C78_one_entry_fixed : forall X E H ord ord' t v b b', fair_order ord -> fair_order ord' -> no_order H ->
  Marshals X E H ord t v b -> Marshals X E H ord' t v b' -> b' = b.
Proof.
  intros X E H ord ord' t v b b' Ho Ho' N Q Q'.
  destruct (marshal_represents X E H ord Ho _ _ _ _ Q) as (p & R & ->). destruct (marshal_represents X E H ord' Ho' _ _ _ _ Q') as (p' & R' & ->).
  f_equal. symmetry. exact (proj1 (repr_only X E H anything anything N) _ _ _ _ R _ _ R').
Qed.
Print Assumptions C78_one_entry_fixed.
Example C78_example_two : entries Hd 3 = Some [(HStr (bs "k"), HIface (Some (TSlice TAny, HSlice (Some (4, 0, 2)%nat)))); (HStr (bs "n"), HIface None)] /\
  NoDup (map fst [(HStr (bs "k"), HIface (Some (TSlice TAny, HSlice (Some (4, 0, 2)%nat)))); (HStr (bs "n"), HIface None)]).
Proof.
  split; [reflexivity|]. cbn [map fst]. constructor; [|constructor; [intros []|constructor]]. intros [Q|[]]. discriminate Q.
Qed.
Definition H78 : heap := [MapObj [(HInt 1, HStr (bs "x"))]].
Example C78_example_one : no_order H78 /\ Marshals Xd [] H78 in_order (TMap (TInt IInt) TString) (HMap (Some 0%nat)) (bs "a:1:{i:1;s:1:""x"";}").
Proof.
  split; [|exists 9%nat; vm_compute; reflexivity]. intros [|[|o]] m Q; cbn in Q; try discriminate. injection Q as <-. cbn. lia.
Qed.
