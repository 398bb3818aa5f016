(** Properties of Marshal, part 7: its errors and panics are about something in
    the value, and it accepts exactly the values in which there is nothing of the
    kind (C70). *)
From Coq Require Import Strings.String Strings.Byte ZArith List Bool Lia Permutation Relations.Relation_Operators.
From Verif Require Import Base GoTypes Strconv Tags Grammar Denote Memory EncCompile Encode Php Repr Positions EncApi EncCompileFacts EncTerm EncFacts EncSound ReprFacts MarshalFacts Values Jobs JobFacts Obstacle ObstacleFacts ObstacleEnds Demo DemoEnc Props8.
Import ListNotations.
Open Scope Z_scope.

(** ** C70 *)

(** Going down from [v] comes to an end: no path is infinite. *)
Definition finite_paths (X : Ext) (E : env) (H : heap) (t : gty) (v : hval) : Prop :=
  Acc (fun q p => below X E H p q) (At ByType ([], 0) t v).

(** An error is about a type inside the type of the value, which cannot be encoded
    and is what the error says; or about a place in the value which Marshal comes to. *)
Theorem C70_error_cause : forall X E H ord t v e, fair_order ord -> well_typed E H t v -> MarshalFails X E H ord t v e ->
  (exists c, e = EMarshal c /\ faulty X E t c) \/
  (encodable X E t /\ exists q, reached X E H t v q /\ obstacle X E H q e).
Proof. intros X E H ord t v e Ho Hty. exact (marshal_fails_for X E H ord Ho t v Hty e). Qed.
Print Assumptions C70_error_cause.
(** A panic is that of a MarshalPHP method, which Marshal comes to. *)
Theorem C70_panic_cause : forall X E H ord t v p, fair_order ord -> well_typed E H t v -> MarshalPanics X E H ord t v p ->
  exists q, reached X E H t v q /\ accident X E H q p.
Proof. intros X E H ord t v p Ho Hty Q. exact (proj2 (marshal_panics_for X E H ord Ho t v Hty p Q)). Qed.
Print Assumptions C70_panic_cause.

(** One such type or place is enough: nothing is encoded. *)
Lemma marshals_fine X E H ord t v b : fair_order ord -> Marshals X E H ord t v b ->
  encodable X E t /\ finite_paths X E H t v /\ (forall q, reached X E H t v q -> fine X E H q).
Proof.
  intros Ho Q. destruct (marshal_sound_at X E H ord Ho st0 t v b Q) as (He & p & R & _). split; [exact He|]. split.
  - exact (proj1 (represented_ends X E H) _ _ _ _ R).
  - intros q P. eapply fine_reached; [exact P|]. exists p. exact R.
Qed.
Theorem C70_faulty_never_encoded : forall X E H ord t v b, fair_order ord ->
  (exists c, faulty X E t c) \/ (exists q e, reached X E H t v q /\ obstacle X E H q e) \/
  (exists q p, reached X E H t v q /\ accident X E H q p) -> ~ Marshals X E H ord t v b.
Proof.
  intros X E H ord t v b Ho D Q. destruct (marshals_fine X E H ord t v b Ho Q) as (He & _ & F). destruct D as [[c D]|[(q & e & P & D)|(q & p & P & D)]].
  - exact (faulty_not_encodable X E t c D He).
  - exact (obstacle_not_fine X E H q e D (F q P)).
  - exact (accident_not_fine X E H q p D (F q P)).
Qed.
Print Assumptions C70_faulty_never_encoded.

(** If every path ends, Marshal returns. *)
Theorem C70_returns : forall X E H ord t v, fair_order ord -> methods_return X ->
  (forall u w, within E H t v u w -> finite_arrays X E u) -> finite_paths X E H t v -> MarshalReturns X E H ord t v.
Proof.
  intros X E H ord t v Ho Hm Hf A. apply returns.
  destruct (compile_ends X E t) as [f0 N0]; [apply (Hf t v), wi_refl|].
  assert (ends (fun f => (_ <== compile_now X E f t ;; enc_f X E H ord f MType t v)) st0) as [f N].
  { apply (compiled_end X E _ (fun f => enc_f X E H ord f MType t v)); [apply enc_rising|apply (Hf t v), wi_refl|].
    intros _ s' T. apply (finite_halts X E H ord Ho Hm t v Hf _ A); [|exact T]. split; [apply wi_refl|exact I]. }
  exists f. exact N.
Qed.
Print Assumptions C70_returns.

(** Together: which values Marshal accepts. *)
Theorem C70_accepts_iff : forall X E H ord t v, fair_order ord -> well_typed E H t v -> methods_return X ->
  (forall u w, within E H t v u w -> finite_arrays X E u) ->
  ((exists b, Marshals X E H ord t v b) <->
   encodable X E t /\ finite_paths X E H t v /\
   (forall q e, reached X E H t v q -> ~ obstacle X E H q e) /\ (forall q p, reached X E H t v q -> ~ accident X E H q p)).
Proof.
  intros X E H ord t v Ho Hty Hm Hf. split.
  - intros [b Q]. destruct (marshals_fine X E H ord t v b Ho Q) as (He & A & F). split; [exact He|]. split; [exact A|]. split.
    + intros q e P D. exact (obstacle_not_fine X E H q e D (F q P)).
    + intros q p P D. exact (accident_not_fine X E H q p D (F q P)).
  - intros (He & A & No & Na). destruct (C70_returns X E H ord t v Ho Hm Hf A) as [Q|[[e Q]|[p Q]]]; [exact Q| |].
    + destruct (C70_error_cause X E H ord t v e Ho Hty Q) as [(c & _ & D)|(_ & q & P & D)].
      * destruct (faulty_not_encodable X E t c D He).
      * destruct (No q e P D).
    + destruct (C70_panic_cause X E H ord t v p Ho Hty Q) as (q & P & D). destruct (Na q p P D).
Qed.
Print Assumptions C70_accepts_iff.
(** ... and on which it does not return, where nothing stops it. *)
Theorem C70_diverges_iff : forall X E H ord t v, fair_order ord -> well_typed E H t v -> methods_return X ->
  (forall u w, within E H t v u w -> finite_arrays X E u) -> encodable X E t ->
  (forall q e, reached X E H t v q -> ~ obstacle X E H q e) -> (forall q p, reached X E H t v q -> ~ accident X E H q p) ->
  (MarshalDiverges X E H ord t v <-> ~ finite_paths X E H t v).
Proof.
  intros X E H ord t v Ho Hty Hm Hf He No Na. split.
  - intros D A. exact (marshal_ends X E H ord Ho Hm t v Hf A D).
  - intros NA f. destruct (snd (marshal X E H ord f st0 (Some (t, v)))) as [b|e|p|] eqn:Q; [| | |reflexivity]; exfalso.
    + destruct (marshals_fine X E H ord t v b Ho (ex_intro _ f Q)) as (_ & A & _). exact (NA A).
    + destruct (C70_error_cause X E H ord t v e Ho Hty (ex_intro _ f Q)) as [(c & _ & D)|(_ & q & P & D)].
      * exact (faulty_not_encodable X E t c D He).
      * exact (No q e P D).
    + destruct (C70_panic_cause X E H ord t v p Ho Hty (ex_intro _ f Q)) as (q & P & D). exact (Na q p P D).
Qed.
Print Assumptions C70_diverges_iff.

(** type S struct { A any }; S{A: [1]int{5}}: arrays are not encoded inside interfaces. *)
Definition Es : env := [ Decl (UStruct [Field (bs "A") true false [] TAny]) NoMethod false ].
Definition vs : hval := HStruct [HIface (Some (TArray 1 (TInt IInt), HArr [HInt 5]))].
Lemma Es_within u w : within Es [] (TName 0) vs u w ->
  (u = TName 0 /\ w = vs) \/ (u = TAny /\ w = HIface (Some (TArray 1 (TInt IInt), HArr [HInt 5]))) \/
  (u = TArray 1 (TInt IInt) /\ w = HArr [HInt 5]) \/ (u = TInt IInt /\ w = HInt 5).
Proof.
  induction 1 as [|u w u' w' _ IH P]; [left; split; reflexivity|]. destruct IH as [[-> ->]|[[-> ->]|[[-> ->]|[-> ->]]]].
  - right. left. inversion P as [| | | |id fs l f x Hk Hin| |]; subst; try discriminate. cbn in Hk. injection Hk as <- <-. destruct Hin as [Q|[]]. injection Q as <- <-. split; reflexivity.
  - right. right. left. inversion P; subst; try discriminate. split; reflexivity.
  - right. right. right. inversion P as [|n u0 l x Hk Hx| | | | |]; subst; try discriminate. cbn in Hk. injection Hk as <- <-. destruct Hx as [<-|[]]. split; reflexivity.
  - inversion P; subst; discriminate.
Qed.
Example C70_example_error : well_typed Es [] (TName 0) vs /\ encodable Xd Es (TName 0) /\
  MarshalFails Xd Es [] in_order (TName 0) vs (EMarshal (CInside (TArray 1 (TInt IInt)))) /\
  exists q, reached Xd Es [] (TName 0) vs q /\ obstacle Xd Es [] q (EMarshal (CInside (TArray 1 (TInt IInt)))).
Proof.
  split; [|split; [|split]].
  - intros u w I. apply Es_within in I as [[-> ->]|[[-> ->]|[[-> ->]|[-> ->]]]].
    + eapply hr_struct; reflexivity.
    + eapply hr_iface; [reflexivity|reflexivity|discriminate].
    + eapply hr_array; reflexivity.
    + eapply hr_int; try reflexivity. cbv. split; [discriminate|reflexivity].
  - refine (compile_encodable Xd Es 9 _ _ _). vm_compute. reflexivity.
  - exists 9%nat. vm_compute. reflexivity.
  - exists (At Inside ([], 0) (TArray 1 (TInt IInt)) (HArr [HInt 5])). split; [|apply ob_inside; exact I].
    eapply rt_trans; [apply rt_step; apply bl_type; reflexivity|].
    eapply rt_trans; [apply rt_step; eapply (bl_struct Xd Es [] _ (TName 0) _ _ _ (Field (bs "A") true false [] TAny)); [reflexivity|left; reflexivity|reflexivity|discriminate]|].
    eapply rt_trans; [apply rt_step; apply bl_field; reflexivity|].
    eapply rt_trans; [apply rt_step; apply bl_type; reflexivity|].
    eapply rt_trans; [apply rt_step; apply bl_iface; reflexivity|].
    apply rt_step. apply bl_in_iface. reflexivity.
Qed.
(** s := []any{nil}; s[0] = s *)
Example C70_example_recursive :
  MarshalFails Xd [] Hs in_order (TSlice TAny) (HSlice (Some (0, 0, 1)%nat)) (EMarshal (CRecursive (TSlice TAny))) /\
  exists q, reached Xd [] Hs (TSlice TAny) (HSlice (Some (0, 0, 1)%nat)) q /\ obstacle Xd [] Hs q (EMarshal (CRecursive (TSlice TAny))).
Proof.
  split; [exists 19%nat; vm_compute; reflexivity|].
  exists (At Inside ([cell_at Xd 0 0], 1) (TSlice TAny) (HSlice (Some (0, 0, 1)%nat))). split.
  2:{ eapply ob_in_slice; [reflexivity|]. split; [left; reflexivity|left; reflexivity]. }
  eapply rt_trans; [apply rt_step; apply bl_type; reflexivity|].
  eapply rt_trans; [apply rt_step; eapply (bl_slice Xd [] Hs _ ([], 1)); [reflexivity|reflexivity| |left; reflexivity]|].
  { split; [|split; reflexivity]. intros [Q|Q]; [discriminate|]. destruct (Q eq_refl). }
  eapply rt_trans; [apply rt_step; apply bl_type; reflexivity|].
  eapply rt_trans; [apply rt_step; apply bl_iface; reflexivity|].
  eapply rt_trans; [apply rt_step; apply bl_in_iface; reflexivity|].
  eapply rt_trans; [apply rt_step; eapply (bl_in_slice Xd [] Hs _ ([cell_at Xd 0 0], 1)); [reflexivity|reflexivity|reflexivity| |left; reflexivity]|].
  { split; [|split; [|reflexivity]]; [intros _; split; [intros []|reflexivity]|]. intros N. destruct N. left. reflexivity. }
  apply rt_step. apply bl_in_iface. reflexivity.
Qed.
(** S{A: int(5)} is accepted, S{A: [1]int{5}} is not; both meet the hypotheses. *)
Example C70_example_accepts : let v := HStruct [HIface (Some (TInt IInt, HInt 5))] in
  well_typed Es [] (TName 0) v /\ methods_return Xd /\ (forall u w, within Es [] (TName 0) v u w -> finite_arrays Xd Es u) /\
  Marshals Xd Es [] in_order (TName 0) v (bs "a:1:{s:1:""A"";i:5;}").
Proof.
  cbv zeta. set (v := HStruct [HIface (Some (TInt IInt, HInt 5))]).
  assert (forall u w, within Es [] (TName 0) v u w -> (u = TName 0 /\ w = v) \/ (u = TAny /\ w = HIface (Some (TInt IInt, HInt 5))) \/ (u = TInt IInt /\ w = HInt 5)) as Hw.
  { induction 1 as [|u w u' w' _ IH P]; [left; split; reflexivity|]. destruct IH as [[-> ->]|[[-> ->]|[-> ->]]].
    - right. left. inversion P as [| | | |id fs l f x Hk Hin| |]; subst; try discriminate. cbn in Hk. injection Hk as <- <-. destruct Hin as [Q|[]]. injection Q as <- <-. split; reflexivity.
    - right. right. inversion P; subst; try discriminate. split; reflexivity.
    - inversion P; subst; discriminate. }
  split; [|split; [discriminate|split]].
  - intros u w I. apply Hw in I as [[-> ->]|[[-> ->]|[-> ->]]].
    + eapply hr_struct; reflexivity.
    + eapply hr_iface; [reflexivity|reflexivity|discriminate].
    + eapply hr_int; try reflexivity. cbv. split; [discriminate|reflexivity].
  - intros u w I. apply Hw in I as [[-> ->]|[[-> ->]|[-> ->]]]; (refine (proj2 (compile_encodable Xd Es 9 _ _ _)); vm_compute; reflexivity).
  - exists 9%nat. vm_compute. reflexivity.
Qed.
(** var p any; p = &p: nothing stops Marshal(&p), and it does not return. *)
Definition Hp : heap := [ Cells [HIface (Some (TPtr TAny, HPtr (Some (0, 0)%nat)))] ].
Example C70_example_diverges : let t := TPtr TAny in let v := HPtr (Some (0, 0)%nat) in
  well_typed [] Hp t v /\ (forall u w, within [] Hp t v u w -> finite_arrays Xd [] u) /\ encodable Xd [] t /\
  (forall q e, reached Xd [] Hp t v q -> ~ obstacle Xd [] Hp q e) /\ (forall q p, reached Xd [] Hp t v q -> ~ accident Xd [] Hp q p) /\
  ~ finite_paths Xd [] Hp t v.
Proof.
  cbv zeta. set (v := HPtr (Some (0, 0)%nat)). set (w0 := HIface (Some (TPtr TAny, v))).
  assert (forall u w, within [] Hp (TPtr TAny) v u w -> (u = TPtr TAny /\ w = v) \/ (u = TAny /\ w = w0)) as Hw.
  { induction 1 as [|u w u' w' _ IH P]; [left; split; reflexivity|]. destruct IH as [[-> ->]|[-> ->]].
    - right. inversion P as [| | | | |u0 o i c Hk Hc|]; subst; try discriminate. cbn in Hk, Hc. injection Hk as <-. injection Hc as <-. split; reflexivity.
    - left. inversion P; subst; try discriminate. split; reflexivity. }
  assert (forall q, reached Xd [] Hp (TPtr TAny) v q -> In q [At ByType ([], 0) (TPtr TAny) v; At ByKind ([], 0) (TPtr TAny) v; At Inside ([], 0) (TPtr TAny) v; At Inside ([], 0) TAny w0]) as Hr.
  { intros q R. apply Operators_Properties.clos_rt_rtn1 in R. induction R as [|p q B _ IH]; [left; reflexivity|].
    destruct IH as [<-|[<-|[<-|[<-|[]]]]]; inversion B; subst; try discriminate; cbn in *; auto.
    all: repeat match goal with h : KPtr _ = KPtr _ |- _ => injection h as <- | c : Some _ = Some _ |- _ => injection c as <- end; try discriminate; auto. }
  split; [|split; [|split; [|split; [|split]]]].
  - intros u w I. apply Hw in I as [[-> ->]|[-> ->]]; [eapply hr_ptr; reflexivity|eapply hr_iface; [reflexivity|reflexivity|discriminate]].
  - intros u w I. apply Hw in I as [[-> ->]|[-> ->]]; (refine (proj2 (compile_encodable Xd [] 9 _ _ _)); vm_compute; reflexivity).
  - refine (compile_encodable Xd [] 9 _ _ _). vm_compute. reflexivity.
  - intros q e R O. apply Hr in R. destruct R as [<-|[<-|[<-|[<-|[]]]]]; inversion O; subst; try discriminate; try contradiction.
    match goal with h : kind_of [] (TPtr TAny) = KPtr _ |- _ => injection h as <- end. discriminate.
  - intros q p R O. apply Hr in R. destruct R as [<-|[<-|[<-|[<-|[]]]]]; inversion O; subst; discriminate.
  - intros A. assert (forall q, Acc (fun q p => below Xd [] Hp p q) q -> q <> At Inside ([], 0) (TPtr TAny) v /\ q <> At Inside ([], 0) TAny w0) as Loop.
    { induction 1 as [q _ IH]. split; intros ->.
      - apply (proj2 (IH (At Inside ([], 0) TAny w0) (bl_in_ptr Xd [] Hp _ (TPtr TAny) TAny 0 0 w0 eq_refl eq_refl))). reflexivity.
      - apply (proj1 (IH (At Inside ([], 0) (TPtr TAny) v) (bl_in_iface Xd [] Hp _ TAny (TPtr TAny) v eq_refl))). reflexivity. }
    refine (proj1 (Loop (At Inside ([], 0) (TPtr TAny) v) _) eq_refl).
    refine (Acc_inv (Acc_inv A (bl_type Xd [] Hp _ (TPtr TAny) v eq_refl eq_refl)) _). eapply bl_ptr_iface; reflexivity.
Qed.
