(** Unmarshal and Marshal together: data from anywhere can be passed on (C90). *)
From Coq Require Import Strings.String Strings.Byte ZArith List Bool Lia Relations.Relation_Operators.
From Verif Require Import Base GoTypes Strconv Tags Unmarshal Grammar Denote Typing Api UnmFacts Memory EncCompile Encode Php Repr EncApi RoundTrip Values Obstacle ObstacleFacts QuietFacts SoundValue Levels LevelFacts EncCompileFacts Demo DemoEnc Props5 Props8 Props25.
Import ListNotations.
Open Scope Z_scope.

(** ** C90 Marshal of what Unmarshal made of any input returns and does not panic.

    Whatever the input is, and wherever the result lies in memory: if Unmarshal
    into a zero value of a type without methods succeeds (once, or several times
    into the same variable), Marshal of the result gives bytes or an error.  It
    does not panic and does not run forever.  (No array type may contain itself,
    see C40.) *)
(** What a variable may hold after successful calls of Unmarshal. *)
Inductive filled (X : Ext) (E : env) (T : gty) : gval -> Prop :=
| fi_zero : filled X E T (zero E T)
| fi_unmarshal data v w : filled X E T v -> small data -> Decodes X E data T v w -> filled X E T w.
Lemma filled_sound X E T w : go_env E -> mute E T -> filled X E T w -> sound E T w.
Proof.
  intros Hgo M. induction 1 as [|data v w _ IH Hsm HD]; [exact (zero_sound E T Hgo)|].
  destruct (decodes_inv X E data T v w Hsm HD) as (_ & p & _ & Hst). exact (sound_store X E Hgo _ _ _ _ _ Hst M IH).
Qed.
Theorem C90_returns : forall X E T w H ord v,
  go_env E -> (forall u x, within E H T v u x -> finite_arrays X E u) -> methods_return X -> fair_order ord ->
  (forall U, inside E T U -> has_unmarshal E U = None /\ marshaler E U = false) ->
  filled X E T w -> holds H v w ->
  (exists b, Marshals X E H ord T v b) \/ (exists e, MarshalFails X E H ord T v e).
Proof.
  intros X E T w H ord v Hgo Hf Hm Ho M HD Hh.
  assert (okay E H T v) as O by (exists w; split; [exact (filled_sound X E T w Hgo M HD)|exact Hh]).
  destruct (C70_returns X E H ord T v Ho Hm Hf (ends X E H v w Hh _ _ _)) as [Q|[Q|[q Q]]]; [left; exact Q|right; exact Q|]. exfalso.
  destruct (C70_panic_cause X E H ord T v q Ho (okay_typed E H T v O) Q) as (r & R & A).
  destruct (mutely_reached X E H T v r M O R) as [Mr _]. destruct A as [s t x p' Hma _]. cbn [type_] in Mr. destruct (mute_here _ _ Mr). congruence.
Qed.
Print Assumptions C90_returns.
(** Neither of the other outcomes is possible. *)
Theorem C90_no_panic : forall X E T w H ord v p,
  go_env E -> fair_order ord -> (forall U, inside E T U -> has_unmarshal E U = None /\ marshaler E U = false) ->
  filled X E T w -> holds H v w -> ~ MarshalPanics X E H ord T v p.
Proof.
  intros X E T w H ord v q Hgo Ho M HD Hh Q.
  assert (okay E H T v) as O by (exists w; split; [exact (filled_sound X E T w Hgo M HD)|exact Hh]).
  destruct (C70_panic_cause X E H ord T v q Ho (okay_typed E H T v O) Q) as (r & R & A).
  destruct (mutely_reached X E H T v r M O R) as [Mr _]. destruct A as [s t x p' Hma _]. cbn [type_] in Mr. destruct (mute_here _ _ Mr). congruence.
Qed.
Print Assumptions C90_no_panic.
Theorem C90_not_endless : forall X E T w H ord v,
  go_env E -> (forall u x, within E H T v u x -> finite_arrays X E u) -> methods_return X -> fair_order ord ->
  (forall U, inside E T U -> has_unmarshal E U = None /\ marshaler E U = false) ->
  filled X E T w -> holds H v w -> ~ MarshalDiverges X E H ord T v.
Proof.
  intros X E T w H ord v Hgo Hf Hm Ho M HD Hh D. destruct (C90_returns X E T w H ord v Hgo Hf Hm Ho M HD Hh) as [[b [f Q]]|[e [f Q]]]; rewrite (D f) in Q; discriminate Q.
Qed.
Print Assumptions C90_not_endless.
(** The values are as Go's type system wants them, for every accepted input. *)
Theorem C90_well_typed : forall X E T w H v,
  go_env E -> (forall U, inside E T U -> has_unmarshal E U = None /\ marshaler E U = false) ->
  filled X E T w -> holds H v w -> well_typed E H T v.
Proof.
  intros X E T w H v Hgo M HD Hh.
  apply okay_typed. exists w. split; [exact (filled_sound X E T w Hgo M HD)|exact Hh].
Qed.
Print Assumptions C90_well_typed.
(** If the type can be encoded, the error is one of three: something seems to lie
    inside itself, an interface holds a PHP array, or the string option stands
    over an interface that holds a string, an array or an object. *)
Theorem C90_errors : forall X E T w H ord v e,
  go_env E -> fair_order ord -> (forall U, inside E T U -> has_unmarshal E U = None /\ marshaler E U = false) ->
  filled X E T w -> holds H v w -> encodable X E T -> MarshalFails X E H ord T v e ->
  (exists t, e = EMarshal (CRecursive t)) \/ e = EMarshal (CKey TAny) \/
  (exists t, In t [TString; TMap TString TAny; TMap TAny TAny] /\ e = EMarshal (CAsString t)).
Proof.
  intros X E T w H ord v e Hgo Ho M HD Hh He Q.
  assert (okay E H T v) as O by (exists w; split; [exact (filled_sound X E T w Hgo M HD)|exact Hh]).
  destruct (C70_error_cause X E H ord T v e Ho (okay_typed E H T v O) Q) as [(c & _ & D)|(_ & r & R & D)].
  - destruct (faulty_not_encodable X E T c D He).
  - destruct (tame_reached X E H T v r M O R) as [Mr Tr]. exact (tame_obstacle X E H r e Mr Tr D).
Qed.
Print Assumptions C90_errors.
(** Without interfaces in the type, everything decoded with at most 1000 levels is
    accepted. *)
Theorem C90_accepted : forall X E T w H ord v,
  go_env E -> (forall u x, within E H T v u x -> finite_arrays X E u) -> methods_return X -> fair_order ord ->
  (forall U, inside E T U -> has_unmarshal E U = None /\ marshaler E U = false /\ iface_kind (kind_of E U) = false) ->
  filled X E T w -> holds H v w -> encodable X E T -> (levels w <= 1000)%nat ->
  exists b, Marshals X E H ord T v b.
Proof.
  intros X E T w H ord v Hgo Hf Hm Ho P HD Hh He L. pose proof (plain_mute E T P) as M.
  destruct (C90_returns X E T w H ord v Hgo Hf Hm Ho M HD Hh) as [Q|[e Q]]; [exact Q|exfalso].
  destruct (C70_error_cause X E H ord T v e Ho (C90_well_typed X E T w H v Hgo M HD Hh) Q) as [(c & _ & D)|(_ & r & R & D)].
  - exact (faulty_not_encodable X E T c D He).
  - refine (low_obstacle X E H 1000 r e _ (low_reached X E H 1000 T v w r P Hh _ R) D); lia.
Qed.
Print Assumptions C90_accepted.

(** From []any: a:2:{i:0;i:5;i:1;a:0:{}} is accepted; Marshal of the result is an
    error, because of the map[any]any in it.  From a:1:{i:0;i:5;} it gives bytes. *)
Definition H90 : heap := [ Cells [HIface (Some (TInt I64, HInt 5)); HIface (Some (TMap TAny TAny, HMap (Some 1%nat)))]; MapObj [] ].
Definition v90 : hval := HSlice (Some (0, 0, 2)%nat).
Definition w90 : gval := VSlice (Some [VIface (Some (TInt I64, VInt 5)); VIface (Some (TMap TAny TAny, VMap (Some [])))]).
Definition places90 : list (gty * hval) := [(TSlice TAny, v90); (TAny, HIface (Some (TInt I64, HInt 5)));
  (TAny, HIface (Some (TMap TAny TAny, HMap (Some 1%nat)))); (TInt I64, HInt 5); (TMap TAny TAny, HMap (Some 1%nat))].
Lemma within90 u x : within [] H90 (TSlice TAny) v90 u x -> In (u, x) places90.
Proof.
  induction 1 as [|u x u' x' _ IH P]; [left; reflexivity|]. unfold places90, v90 in *. cbn [In] in IH.
  repeat (destruct IH as [IH|IH]; [injection IH as <- <-; inversion P; subst; try discriminate;
    try (match goal with C : cells _ _ _ _ = Some _, J : In _ _ |- _ => cbn in C; injection C as <-; cbn in J end);
    try (match goal with C : entries _ _ = Some _, J : In _ _ |- _ => cbn in C; injection C as <-; cbn in J end);
    try (match goal with K : kind_of _ _ = KSlice _ |- _ => cbn in K; injection K as <- end);
    try (match goal with J : _ \/ _ \/ False |- _ => destruct J as [<-|[<-|[]]] end); try contradiction; cbn; tauto|]). destruct IH.
Qed.
Lemma inside90 U : inside [] (TSlice TAny) U -> In U [TSlice TAny; TAny].
Proof.
  apply inside_list; [left; reflexivity|]. intros V W Hv Hc.
  repeat (destruct Hv as [<-|Hv]); try destruct Hv;
    inversion Hc as [t [_ Q]|t [_ Q]|n t [_ Q]|k t [_ Q]|k t [_ Q]|id fs f [_ Q] Hf Hi]; cbn in Q; try discriminate Q; injection Q as; subst; cbn; tauto.
Qed.
Lemma finite90 : finite_arrays Xd [] (TMap TAny TAny).
Proof.
  assert (forall a, einside Xd [] (false, TMap TAny TAny) a -> In a [(false, TMap TAny TAny); (false, TAny)]) as Q.
  { induction 1 as [|a b _ IH P]; [left; reflexivity|]. destruct IH as [<-|[<-|[]]]; destruct P as [u _ K|u _ _ K|k u _ K|k u _ K|id fs f _ K]; cbn in K; try discriminate K.
    injection K as <- <-. cbn. tauto. }
  intros a k u I _ K. destruct (Q a I) as [<-|[<-|[]]]; discriminate K.
Qed.
Example C90_example : go_env [] /\ (forall u x, within [] H90 (TSlice TAny) v90 u x -> finite_arrays Xd [] u) /\ methods_return Xd /\ fair_order in_order /\
  (forall U, inside [] (TSlice TAny) U -> has_unmarshal [] U = None /\ marshaler [] U = false) /\
  small (bs "a:2:{i:0;i:5;i:1;a:0:{}}") /\ Decodes Xd [] (bs "a:2:{i:0;i:5;i:1;a:0:{}}") (TSlice TAny) (zero [] (TSlice TAny)) w90 /\ filled Xd [] (TSlice TAny) w90 /\ holds H90 v90 w90 /\
  encodable Xd [] (TSlice TAny) /\ MarshalFails Xd [] H90 in_order (TSlice TAny) v90 (EMarshal (CKey TAny)) /\
  Decodes Xd [] (bs "a:1:{i:0;i:5;}") (TSlice TAny) (zero [] (TSlice TAny)) (VSlice (Some [VIface (Some (TInt I64, VInt 5))])) /\
  holds H90 (HSlice (Some (0, 0, 1)%nat)) (VSlice (Some [VIface (Some (TInt I64, VInt 5))])) /\
  Marshals Xd [] H90 in_order (TSlice TAny) (HSlice (Some (0, 0, 1)%nat)) (bs "a:1:{i:0;i:5;}").
Proof.
  split; [split; [exists (fun _ => 0%nat)|]; intros [|n] d; discriminate|]. split.
  { intros u x I. apply within90 in I. unfold places90 in I. cbn [In] in I.
    repeat (destruct I as [I|I]; [injection I as <- <-; first [exact finite90|refine (proj2 (compile_encodable Xd [] 9 _ _ _)); vm_compute; reflexivity]|]). destruct I. }
  split; [intros n b H v Q; discriminate|]. split; [exact in_order_fair|]. split.
  { intros U I. destruct (inside90 U I) as [<-|[<-|[]]]; split; reflexivity. }
  assert (Decodes Xd [] (bs "a:2:{i:0;i:5;i:1;a:0:{}}") (TSlice TAny) (zero [] (TSlice TAny)) w90) as HD by (exists 12%nat; vm_compute; reflexivity).
  split; [reflexivity|]. split; [exact HD|]. split; [eapply fi_unmarshal; [apply fi_zero| |exact HD]; reflexivity|]. split.
  { eapply ho_slice; [reflexivity|]. repeat first [apply Forall2_cons | apply Forall2_nil | apply ho_iface | apply ho_int]. eapply ho_map; [reflexivity|constructor|constructor]. }
  split; [refine (compile_encodable Xd [] 9 _ _ _); vm_compute; reflexivity|]. split; [exists 12%nat; vm_compute; reflexivity|]. split; [exists 12%nat; vm_compute; reflexivity|]. split.
  { eapply ho_slice; [reflexivity|]. repeat first [apply Forall2_cons | apply Forall2_nil | apply ho_iface | apply ho_int]. }
  exists 12%nat. vm_compute. reflexivity.
Qed.

(** map[string][]int from a:1:{s:1:"k";a:1:{i:0;i:5;}} *)
Definition T90 : gty := TMap TString (TSlice (TInt IInt)).
Definition H90' : heap := [ MapObj [(HStr (bs "k"), HSlice (Some (1, 0, 1)%nat))]; Cells [HInt 5] ].
Definition places90' : list (gty * hval) := [(T90, HMap (Some 0%nat)); (TString, HStr (bs "k")); (TSlice (TInt IInt), HSlice (Some (1, 0, 1)%nat)); (TInt IInt, HInt 5)].
Lemma within90' u x : within [] H90' T90 (HMap (Some 0%nat)) u x -> In (u, x) places90'.
Proof.
  induction 1 as [|u x u' x' _ IH P]; [left; reflexivity|]. unfold places90', T90 in *. cbn [In] in IH.
  repeat (destruct IH as [IH|IH]; [injection IH as <- <-; inversion P; subst; try discriminate;
    try (match goal with C : cells _ _ _ _ = Some _, J : In _ _ |- _ => cbn in C; injection C as <-; cbn in J end);
    try (match goal with C : entries _ _ = Some _, J : In _ _ |- _ => cbn in C; injection C as <-; cbn in J end);
    try (match goal with K : kind_of _ _ = _ |- _ => cbn in K; injection K as; subst end);
    repeat (match goal with J : _ \/ False |- _ => destruct J as [J|[]]; try (injection J as; subst); subst end); try contradiction; cbn; tauto|]). destruct IH.
Qed.
Lemma inside90' U : inside [] T90 U -> In U [T90; TString; TSlice (TInt IInt); TInt IInt].
Proof.
  apply inside_list; [left; reflexivity|]. intros V W Hv Hc.
  repeat (destruct Hv as [<-|Hv]); try destruct Hv;
    inversion Hc as [t [_ Q]|t [_ Q]|n t [_ Q]|k t [_ Q]|k t [_ Q]|id fs f [_ Q] Hf Hi]; cbn in Q; try discriminate Q; injection Q as; subst; cbn; tauto.
Qed.
Example C90_accepted_example : let w := VMap (Some [(VStr (bs "k"), VSlice (Some [VInt 5]))]) in
  (forall u x, within [] H90' T90 (HMap (Some 0%nat)) u x -> finite_arrays Xd [] u) /\
  (forall U, inside [] T90 U -> has_unmarshal [] U = None /\ marshaler [] U = false /\ iface_kind (kind_of [] U) = false) /\
  Decodes Xd [] (bs "a:1:{s:1:""k"";a:1:{i:0;i:5;}}") T90 (zero [] T90) w /\ holds H90' (HMap (Some 0%nat)) w /\ encodable Xd [] T90 /\ levels w = 2%nat.
Proof.
  cbv zeta. split.
  { intros u x I. apply within90' in I. unfold places90' in I. cbn [In] in I.
    repeat (destruct I as [I|I]; [injection I as <- <-; (refine (proj2 (compile_encodable Xd [] 9 _ _ _)); vm_compute; reflexivity)|]). destruct I. }
  split; [intros U I; apply inside90' in I; cbn [In] in I; repeat (destruct I as [<-|I]; [repeat split; reflexivity|]); destruct I|].
  split; [exists 12%nat; vm_compute; reflexivity|]. split.
  { eapply ho_map; [reflexivity|repeat constructor|]. constructor; [|constructor]. split; [apply ho_str|]. eapply ho_slice; [reflexivity|]. repeat constructor. }
  split; [refine (compile_encodable Xd [] 9 _ _ _); vm_compute; reflexivity|reflexivity].
Qed.
