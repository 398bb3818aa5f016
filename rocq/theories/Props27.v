(** Properties of Marshal, part 8: the only finite values it refuses are those
    its recursion check mistakes for recursive (C33), nothing but the value
    matters (C72), and writing again what was read gives the same bytes (C73). *)
From Coq Require Import Strings.String Strings.Byte ZArith List Bool Lia Permutation Relations.Relation_Operators.
From Verif Require Import Base GoTypes Strconv Tags Grammar Denote Typing NumEnc Api Unmarshal UnmFacts Memory EncCompile Encode Php Repr Positions EncApi EncCompileFacts EncTerm EncFacts EncSound ReprFacts MarshalFacts Values RoundTrip RoundTripFacts Obstacle ObstacleFacts MeaningFacts Alike AlikeFacts Settled SettleFacts Demo DemoEnc Props4 Props5 Props8 Props25.
Import ListNotations.
Open Scope Z_scope.

(** ** C33: a value of an encodable type that has a meaning is encoded, or
    refused with the error "recursive"; there is no other error and no panic. *)
Theorem C33_nothing_else_refused : forall X E H ord t v p, fair_order ord -> well_typed E H t v -> methods_return X ->
  (forall u w, within E H t v u w -> finite_arrays X E u) -> encodable X E t -> Represents X E H t v p ->
  (exists b, Marshals X E H ord t v b) \/ (exists u, MarshalFails X E H ord t v (EMarshal (CRecursive u))).
Proof.
  intros X E H ord t v p Ho Hty Hm Hf He R.
  assert (means X E H (At ByType ([], 0) t v)) as Me by (exists p; exact R).
  destruct (C70_returns X E H ord t v Ho Hm Hf) as [[b Q]|[[e Q]|[x Q]]].
  - unfold finite_paths. exact (proj1 (meaning_ends X E H) _ _ _ _ R ([], 0)).
  - left. exists b. exact Q.
  - right. destruct (C70_error_cause X E H ord t v e Ho Hty Q) as [(c & _ & Fa)|(_ & q & P & D)].
    + destruct (faulty_not_encodable X E t c Fa He).
    + destruct (obstacle_means X E H q e D (means_reached X E H _ _ P Me)) as [u ->]. exists u. exact Q.
  - exfalso. destruct (C70_panic_cause X E H ord t v x Ho Hty Q) as (q & P & D). exact (accident_not_mean X E H q x D (means_reached X E H _ _ P Me)).
Qed.
Print Assumptions C33_nothing_else_refused.
(** The slice of C33_no_false_recursion_refuted has a meaning and is refused. *)
Definition places33 : list (gty * hval) := [
  (TSlice TAny, HSlice (Some (1, 0, 1)%nat)); (TAny, HIface (Some (TSlice TAny, HSlice (Some (0, 0, 1)%nat))));
  (TSlice TAny, HSlice (Some (0, 0, 1)%nat)); (TAny, HIface (Some (TSlice TAny, HSlice (Some (0, 0, 0)%nat))));
  (TSlice TAny, HSlice (Some (0, 0, 0)%nat))].
Lemma within33 u w : within [] H33 (TSlice TAny) (HSlice (Some (1, 0, 1)%nat)) u w -> In (u, w) places33.
Proof.
  induction 1 as [|u w u' w' _ IH P]; [left; reflexivity|]. unfold places33 in *. cbn [In] in IH.
  repeat (destruct IH as [IH|IH]; [injection IH as <- <-; inversion P; subst; try discriminate;
    try (match goal with C : cells _ _ _ _ = Some _, J : In _ _ |- _ => cbn in C; injection C as <-; cbn in J end);
    try (match goal with K : kind_of _ _ = KSlice _ |- _ => cbn in K; injection K as <- end);
    try (match goal with J : _ \/ False |- _ => destruct J as [<-|[]] end); try contradiction; cbn; tauto|]). destruct IH.
Qed.
Example C33_example_refused : well_typed [] H33 (TSlice TAny) (HSlice (Some (1, 0, 1)%nat)) /\ methods_return Xd /\
  (forall u w, within [] H33 (TSlice TAny) (HSlice (Some (1, 0, 1)%nat)) u w -> finite_arrays Xd [] u) /\
  encodable Xd [] (TSlice TAny) /\ Represents Xd [] H33 (TSlice TAny) (HSlice (Some (1, 0, 1)%nat)) (PArr [(PInt 0, PArr [(PInt 0, PArr [])])]) /\
  MarshalFails Xd [] H33 in_order (TSlice TAny) (HSlice (Some (1, 0, 1)%nat)) (EMarshal (CRecursive (TSlice TAny))).
Proof.
  destruct (C33_no_false_recursion_refuted Xd [] in_order) as [A B].
  assert (encodable Xd [] (TSlice TAny)) as He by (refine (compile_encodable Xd [] 9 _ _ _); vm_compute; reflexivity).
  assert (encodable Xd [] TAny) as Ha by (refine (compile_encodable Xd [] 9 _ _ _); vm_compute; reflexivity).
  split; [|split; [intros n b H v Q; discriminate|split; [|split; [exact He|split; assumption]]]].
  - intros u w I. apply within33 in I. unfold places33 in I. cbn [In] in I.
    repeat (destruct I as [I|I]; [injection I as <- <-; first [eapply hr_slice; reflexivity|eapply hr_iface; [reflexivity|reflexivity|discriminate]]|]). destruct I.
  - intros u w I. apply within33 in I. unfold places33 in I. cbn [In] in I.
    repeat (destruct I as [I|I]; [injection I as <- <-; first [exact (proj2 He)|exact (proj2 Ha)]|]). destruct I.
Qed.

(** ** C72: what Marshal writes depends on the value alone, not on where it lies
    in memory: values that are alike mean the same, ... *)
Theorem C72_same_meaning : forall X E H H' t v v' p, methods_alike X H H' -> alike H H' v v' ->
  Represents X E H t v p -> Represents X E H' t v' p.
Proof. intros X E H H' t v v' p HM A R. exact (proj1 (repr_alike X E H H' HM anything) _ _ _ _ R v' A). Qed.
Print Assumptions C72_same_meaning.
(** ... what is written for them is the same up to the order of map entries,
    byte by byte if no map has two, ... *)
Theorem C72_same_bytes : forall X E H H' ord ord' t v v' b b', fair_order ord -> fair_order ord' ->
  methods_alike X H H' -> alike H H' v v' -> Marshals X E H ord t v b -> Marshals X E H' ord' t v' b' ->
  (exists p p', b = serialize p /\ b' = serialize p' /\ psame p p') /\ (no_order H' -> b' = b).
Proof.
  intros X E H H' ord ord' t v v' b b' Ho Ho' HM A Q Q'.
  destruct (marshal_represents X E H ord Ho _ _ _ _ Q) as (p & R & ->). destruct (marshal_represents X E H' ord' Ho' _ _ _ _ Q') as (p' & R' & ->).
  pose proof (C72_same_meaning X E H H' t v v' p HM A R) as R2. split.
  - exists p, p'. split; [reflexivity|]. split; [reflexivity|]. exact (proj1 (repr_det X E H' anything anything) _ _ _ _ R2 _ _ R').
  - intros N. f_equal. symmetry. exact (proj1 (repr_only X E H' anything anything N) _ _ _ _ R2 _ _ R').
Qed.
Print Assumptions C72_same_bytes.
(** ... and what is accepted in one place is, in another, accepted or taken for
    recursive (which it may be: that check looks at addresses). *)
Theorem C72_accepted_partial : forall X E H H' ord ord' t v v' b, fair_order ord -> fair_order ord' ->
  methods_alike X H H' -> alike H H' v v' -> Marshals X E H ord t v b ->
  well_typed E H' t v' -> methods_return X -> (forall u w, within E H' t v' u w -> finite_arrays X E u) ->
  (exists b', Marshals X E H' ord' t v' b') \/ (exists u, MarshalFails X E H' ord' t v' (EMarshal (CRecursive u))).
Proof.
  intros X E H H' ord ord' t v v' b Ho Ho' HM A Q Hty Hm Hf.
  destruct (marshal_sound_at X E H ord Ho st0 t v b Q) as (He & _). destruct (marshal_represents X E H ord Ho _ _ _ _ Q) as (p & R & _).
  exact (C33_nothing_else_refused X E H' ord' t v' p Ho' Hty Hm Hf He (C72_same_meaning X E H H' t v v' p HM A R)).
Qed.
Print Assumptions C72_accepted_partial.
(** In particular for two copies of one tree. *)
Theorem C72_copies : forall H H' v v' w, holds H v w -> holds H' v' w -> alike H H' v v'.
Proof. intros H H' v v' w A B. exact (holds_alike H H' v w A v' B). Qed.
Print Assumptions C72_copies.
(** The node of DemoEnc.v and the same node elsewhere in another memory. *)
Definition Hd' : heap := [
  MapObj [];
  Cells [HInt 5; HStruct [HInt 7; HStr []; HPtr (Some (3, 1)%nat); HInt 0; HSlice (Some (2, 1, 2)%nat)]];
  Cells [HStr (bs "before"); HStr (bs "x"); HStr []; HStr (bs "behind")];
  Cells [HInt 6; HStruct [HInt (-1); HStr (bs "yes"); HPtr None; HInt 3; HSlice None]] ].
Lemma node_elsewhere : holds Hd' (HPtr (Some (1, 1)%nat)) node_tree.
Proof.
  repeat first [eapply ho_ptr; [reflexivity|] | apply ho_ptr_nil | apply ho_struct | apply Forall2_cons | apply Forall2_nil | constructor; fail
    | apply ho_int | apply ho_str | apply ho_slice_nil | eapply ho_slice; [reflexivity|]].
Qed.
Example C72_example : methods_alike Xd Hd Hd' /\ alike Hd Hd' (HPtr (Some (2, 0)%nat)) (HPtr (Some (1, 1)%nat)) /\ no_order Hd' /\
  Marshals Xd Ed Hd in_order (TPtr (TName 0)) (HPtr (Some (2, 0)%nat)) node_text /\
  Marshals Xd Ed Hd' backwards (TPtr (TName 0)) (HPtr (Some (1, 1)%nat)) node_text.
Proof.
  split; [intros n ptr v v' _; reflexivity|]. split; [exact (C72_copies _ _ _ _ _ node_holds node_elsewhere)|]. split; [|split; [exact node_marshals|exists 12%nat; vm_compute; reflexivity]].
  intros o m Q. destruct o as [|[|[|[|[|o]]]]]; cbn in Q; try discriminate. injection Q as <-. cbn. lia.
Qed.
(** A cyclic value is alike its copy in which the cycle is twice as long. *)
Definition loop1 : heap := [Cells [HPtr (Some (0, 0)%nat)]].
Definition loop2 : heap := [Cells [HPtr (Some (1, 0)%nat)]; Cells [HPtr (Some (0, 0)%nat)]].
Example C72_example_cyclic : alike loop1 loop2 (HPtr (Some (0, 0)%nat)) (HPtr (Some (0, 0)%nat)).
Proof.
  cofix CH. eapply ak_ptr; [reflexivity|reflexivity|]. eapply ak_ptr; [reflexivity|reflexivity|]. exact CH.
Qed.

(** ** C73: Marshal of what Unmarshal made of Marshal's output writes the same
    again.  False: an empty slice is written a:0:{}, comes back as a nil slice
    and is then written N;.  A pointer to a nil slice in an omitempty field is
    written N; and, having come back as nil, not at all; likewise a struct in an
    omitempty field in which only a field tagged "-" is not empty. *)
Definition E73 : env := [
  Decl (UStruct [Field (bs "P") true false (bs ",omitempty") (TPtr (TSlice (TInt IInt)))]) NoMethod false;
  Decl (UStruct [Field (bs "A") true false (bs "-") (TInt IInt)]) NoMethod false;
  Decl (UStruct [Field (bs "S") true false (bs ",omitempty") (TName 1)]) NoMethod false].
Theorem C73_refuted : forall X ord,
  (let T := TSlice (TInt IInt) in
   Marshals X E73 [Cells []] ord T (HSlice (Some (0, 0, 0)%nat)) (bs "a:0:{}") /\
   Decodes X E73 (bs "a:0:{}") T (zero E73 T) (VSlice None) /\ holds [] (HSlice None) (VSlice None) /\
   Marshals X E73 [] ord T (HSlice None) (bs "N;")) /\
  (let T := TName 0 in
   Marshals X E73 [Cells [HSlice None]] ord T (HStruct [HPtr (Some (0, 0)%nat)]) (bs "a:1:{s:1:""P"";N;}") /\
   Decodes X E73 (bs "a:1:{s:1:""P"";N;}") T (zero E73 T) (VStruct [VPtr None]) /\ holds [] (HStruct [HPtr None]) (VStruct [VPtr None]) /\
   Marshals X E73 [] ord T (HStruct [HPtr None]) (bs "a:0:{}")) /\
  (let T := TName 2 in
   Marshals X E73 [] ord T (HStruct [HStruct [HInt 1]]) (bs "a:1:{s:1:""S"";a:0:{}}") /\
   Decodes X E73 (bs "a:1:{s:1:""S"";a:0:{}}") T (zero E73 T) (VStruct [VStruct [VInt 0]]) /\
   holds [] (HStruct [HStruct [HInt 0]]) (VStruct [VStruct [VInt 0]]) /\
   Marshals X E73 [] ord T (HStruct [HStruct [HInt 0]]) (bs "a:0:{}")).
Proof.
  intros X ord. destruct X. repeat split; try (repeat constructor; fail); exists 9%nat; vm_compute; reflexivity.
Qed.
Print Assumptions C73_refuted.
(** With none of these in the value (it is [settled]), and as far as the first
    trip works at all (the guards of C35): what is written the second time is
    the same up to the order of map entries, byte by byte if no map has two, ... *)
Theorem C73_same_bytes_partial : forall X E H ord T v w b H' ord' v' w' b',
  fmt_ok X -> fair_order ord -> fair_order ord' -> go_env E -> supported X E T -> data_type E T -> small b ->
  (forall U t n, inside E T U -> kind_of E U = KSlice t -> 0 <= n <= blen b -> x_slots X t n = true) ->
  holds H v w -> Forall (strconv_exact X) (leaves w) -> levels w < 10000 -> settled X E T w ->
  Marshals X E H ord T v b -> Decodes X E b T (zero E T) w' -> holds H' v' w' -> Marshals X E H' ord' T v' b' ->
  (exists p p', b = serialize p /\ b' = serialize p' /\ psame p p') /\ (no_order H' -> b' = b).
Proof.
  intros X E H ord T v w b H' ord' v' w' b' Hf Ho Ho' Hg Hs Hd Hb Hsl Hh Hl Hlev St Q D Hh' Q'.
  destruct (C35_round_trip X E H ord T v w b) as (w1 & V & D1); try assumption.
  pose proof (decodes_det _ _ _ _ _ _ _ D D1) as <-.
  destruct (marshal_represents X E H ord Ho _ _ _ _ Q) as (p & R & ->). destruct (marshal_represents X E H' ord' Ho' _ _ _ _ Q') as (p' & R' & ->).
  assert (Represents X E H' T v' p) as R2.
  { refine (proj1 (repr_back X E H H' T Hd anything) _ _ _ _ R v' (in_refl _ _) _). exists w, w'. auto. }
  split.
  - exists p, p'. split; [reflexivity|]. split; [reflexivity|]. exact (proj1 (repr_det X E H' anything anything) _ _ _ _ R2 _ _ R').
  - intros N. f_equal. symmetry. exact (proj1 (repr_only X E H' anything anything N) _ _ _ _ R2 _ _ R').
Qed.
Print Assumptions C73_same_bytes_partial.
(** ... and reading that gives what was read the first time, up to map order. *)
Theorem C73_second_trip_partial : forall X E H ord T v w b H' ord' v' w' b',
  fmt_ok X -> fair_order ord -> fair_order ord' -> go_env E -> supported X E T -> data_type E T -> small b -> small b' ->
  (forall U t n, inside E T U -> kind_of E U = KSlice t -> 0 <= n <= Z.max (blen b) (blen b') -> x_slots X t n = true) ->
  holds H v w -> Forall (strconv_exact X) (leaves w) -> levels w < 10000 -> settled X E T w ->
  Marshals X E H ord T v b -> Decodes X E b T (zero E T) w' ->
  holds H' v' w' -> Forall (strconv_exact X) (leaves w') -> levels w' < 10000 -> Marshals X E H' ord' T v' b' ->
  exists w'', Decodes X E b' T (zero E T) w'' /\ same w' w''.
Proof.
  intros X E H ord T v w b H' ord' v' w' b' Hf Ho Ho' Hg Hs Hd Hb Hb' Hsl Hh Hl Hlev St Q D Hh' Hl' Hlev' Q'.
  destruct (C35_round_trip X E H ord T v w b) as (w1 & V & D1); try assumption.
  { intros U t n Hu Hk Hn. eapply Hsl; [exact Hu|exact Hk|lia]. }
  pose proof (decodes_det _ _ _ _ _ _ _ D D1) as <-.
  destruct (C35_round_trip X E H' ord' T v' w' b') as (w2 & V' & D2); try assumption.
  { intros U t n Hu Hk Hn. eapply Hsl; [exact Hu|exact Hk|lia]. }
  exists w2. split; [exact D2|]. exact (survives_same X E w' T w' w2 (survivor_survives X E w T w' St V) V').
Qed.
Print Assumptions C73_second_trip_partial.
Definition node_back : gval :=
  VPtr (Some (VStruct [VInt 7; VStr []; VPtr (Some (VStruct [VInt (-1); VStr (bs "yes"); VPtr None; VInt 0; VSlice None])); VInt 0;
                       VSlice (Some [VStr (bs "x"); VStr []])])).
Definition Hb : heap := [
  Cells [HStruct [HInt (-1); HStr (bs "yes"); HPtr None; HInt 0; HSlice None]];
  Cells [HStr (bs "x"); HStr []];
  Cells [HStruct [HInt 7; HStr []; HPtr (Some (0, 0)%nat); HInt 0; HSlice (Some (1, 0, 2)%nat)]]].
Lemma node_settled : settled Xd Ed (TPtr (TName 0)) node_tree.
Proof.
  assert (forall P : Prop, false = true -> P) as No by discriminate.
  unfold node_tree. eapply st_ptr; [reflexivity|intros Q; inversion Q|]. eapply st_struct; [reflexivity|].
  cbn [combine]. apply Forall_cons; [right; split; [apply st_scalar; reflexivity|discriminate]|].
  apply Forall_cons; [left; right; split; [reflexivity|constructor]|].
  apply Forall_cons.
  { right. split; [|discriminate]. eapply st_ptr; [reflexivity|intros Q; inversion Q|]. eapply st_struct; [reflexivity|]. cbn [combine].
    apply Forall_cons; [right; split; [apply st_scalar; reflexivity|discriminate]|].
    apply Forall_cons; [right; split; [apply st_scalar; reflexivity|intros _ Q; inversion Q as [? ? B| |]; subst; inversion B]|].
    apply Forall_cons; [right; split; [apply st_ptr_nil|discriminate]|].
    apply Forall_cons; [left; left; reflexivity|].
    apply Forall_cons; [right; split; [apply st_slice_nil|discriminate]|]. apply Forall_nil. }
  apply Forall_cons; [left; left; reflexivity|].
  apply Forall_cons; [|apply Forall_nil]. right. split; [|discriminate]. eapply st_slice; [reflexivity|discriminate|].
  repeat (apply Forall_cons; [apply st_scalar; reflexivity|]). apply Forall_nil.
Qed.
(** The other hypotheses are met by C35_example. *)
Example C73_example : settled Xd Ed (TPtr (TName 0)) node_tree /\ holds Hd (HPtr (Some (2, 0)%nat)) node_tree /\
  Marshals Xd Ed Hd in_order (TPtr (TName 0)) (HPtr (Some (2, 0)%nat)) node_text /\
  Decodes Xd Ed node_text (TPtr (TName 0)) (zero Ed (TPtr (TName 0))) node_back /\ node_back <> node_tree /\
  holds Hb (HPtr (Some (2, 0)%nat)) node_back /\ Forall (strconv_exact Xd) (leaves node_back) /\ levels node_back < 10000 /\ no_order Hb /\
  Marshals Xd Ed Hb in_order (TPtr (TName 0)) (HPtr (Some (2, 0)%nat)) node_text.
Proof.
  split; [exact node_settled|]. split; [exact node_holds|]. split; [exact node_marshals|]. split; [exists 12%nat; vm_compute; reflexivity|].
  split; [discriminate|]. split; [|split; [repeat constructor|split; [reflexivity|split; [|exists 12%nat; vm_compute; reflexivity]]]].
  - repeat first [eapply ho_ptr; [reflexivity|] | apply ho_ptr_nil | apply ho_struct | apply Forall2_cons | apply Forall2_nil | constructor; fail
      | apply ho_int | apply ho_str | apply ho_slice_nil | eapply ho_slice; [reflexivity|]].
  - intros o m Q. destruct o as [|[|[|[|o]]]]; cbn in Q; discriminate.
Qed.
