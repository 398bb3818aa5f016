(** Unmarshal into memory with pointers, sharing and cycles (C49-C51). *)
From Coq Require Import Strings.String Strings.Byte ZArith List Bool Lia.
From Verif Require Import Base GoTypes Scan Decode Unmarshal Grammar Denote Typing NumFacts ScanFacts CompileFacts MemDecode MemSpec MemFacts MemRefine MemFrame MemApi Demo.
Import ListNotations.
Open Scope Z_scope.

(** ** A world for the examples *)

(** 0: type T struct { A int `php:"a"`; P *int `php:"p"`; S []int `php:"s"` }
    1: type U int64 with UnmarshalPHP
    2: type L struct { V int `php:"v"`; Next *L `php:"next"`; W U `php:"w"` }
    3: type D struct { P *int `php:"p"`; Q *int `php:"q"` } *)
Definition Eh : env := [
  Decl (UStruct [Field (bs "A") true false (bs "a") (TInt IInt);
                 Field (bs "P") true false (bs "p") (TPtr (TInt IInt));
                 Field (bs "S") true false (bs "s") (TSlice (TInt IInt))]) NoMethod false;
  Decl (UTy (TInt I64)) NoMethod true;
  Decl (UStruct [Field (bs "V") true false (bs "v") (TInt IInt);
                 Field (bs "Next") true false (bs "next") (TPtr (TName 2));
                 Field (bs "W") true false (bs "w") (TName 1)]) NoMethod false;
  Decl (UStruct [Field (bs "P") true false (bs "p") (TPtr (TInt IInt));
                 Field (bs "Q") true false (bs "q") (TPtr (TInt IInt))]) NoMethod false ].
(** UnmarshalPHP of [U], as [x_unmarshal Xd] *)
Definition Ud : method := fun n b M L =>
  match read M L with
  | Some (DInt z) => (write M L (DInt (z mod 10 + 1)), true)
  | _ => (M, true)
  end.
Lemma Ud_as : methods_as Xd Ud.
Proof.
  intros n b M L g fp [d P]. pose proof P as (R & H & _). unfold Ud. rewrite R. cbn [Xd x_unmarshal].
  assert (updated M L fp M g) as Same by (apply updated_same; exists d; exact P).
  inversion H; subst; cbn [fst snd]; split; auto.
  exists (DInt (z mod 10 + 1)), []. eapply out_set; [exact P|constructor].
Qed.
Lemma Ud_modest : modest Ud.
Proof.
  intros n b M L. unfold Ud. destruct (read M L) as [d|]; [|constructor]. destruct d; try constructor; [constructor|left; constructor|].
  intros [|k q] x Hx; cbn in Hx; [injection Hx as <-; exact I|discriminate].
Qed.

(** ** C49 Destinations without sharing.  If a variable holds a value and no
    allocation is reached from it twice, Unmarshal into it gives the outcome and
    the value of the tree model ([unmarshal], about which the other properties
    speak); the variable then again holds its value without sharing. *)
Theorem C49_unshared : forall U X E cfuel data t M L g fp, methods_as X U -> holds M L g fp ->
  exists M' fp' r g',
    hunmarshal U X E cfuel data M (HtPtr t L) = (M', r) /\
    unmarshal X E cfuel data (TgPtr t g) = (g', r) /\
    holds M' L g' fp' /\
    (forall Q, (l_obj Q < length M)%nat -> ~ In (l_obj Q) fp -> ~ overlap L Q -> read M' Q = read M Q) /\
    (forall o, (o < length M)%nat -> ~ In o fp -> o <> l_obj L -> nth_error M' o = nth_error M o).
Proof.
  intros U X E cfuel data t M L g fp HU H. destruct (hunmarshal_refines U X E cfuel data t M L g fp HU H) as [Er Up].
  destruct (hunmarshal _ _ _ _ _ _ _) as [M' r]. destruct (unmarshal _ _ _ _ _) as [g' r']. cbn [fst snd] in *. subst r'.
  destruct (updated_holds _ _ _ _ _ _ H Up) as [fp' H']. exists M', fp', r, g'.
  split; [reflexivity|]. split; [reflexivity|]. split; [exact H'|]. split.
  - intros Q. eapply updated_frame; eassumption.
  - intros o Ho Hn Hne. destruct Up as (d' & f' & O). apply (out_frame _ _ _ _ _ _ _ O); assumption.
Qed.
Print Assumptions C49_unshared.
(** Every value is held without sharing by some memory. *)
Theorem C49_every_value : forall g, exists M L fp, holds M L g fp.
Proof. exact holds_exists. Qed.
Print Assumptions C49_every_value.
Example C49_example :
  let M := [OCells [DStruct [DInt 1; DPtr (Some (Loc 1 0 [])); DSlice (Some (2%nat, 0%nat, 2%nat))]];
            OCells [DInt 2]; OCells [DInt 3; DInt 4; DInt 5]] in
  methods_as Xd Ud /\
  holds M (Loc 0 0 []) (VStruct [VInt 1; VPtr (Some (VInt 2)); VSlice (Some [VInt 3; VInt 4])]) [1%nat; 2%nat] /\
  exists M', hunmarshal Ud Xd Eh 10 (bs "a:2:{s:1:""p"";i:7;s:1:""s"";a:1:{i:0;i:9;}}") M (HtPtr (TName 0) (Loc 0 0 [])) = (M', ROk tt) /\
    read M' (Loc 1 0 []) = Some (DInt 7) /\ read M' (Loc 2 0 []) = Some (DInt 3).
Proof.
  cbn zeta. split; [exact Ud_as|]. split.
  - eexists. split; [reflexivity|]. split.
    + constructor. apply (rs_cons _ _ _ []); [constructor|]. apply (rs_cons _ _ _ [1%nat]); [eapply rp_ptr; [reflexivity|constructor]|].
      apply (rs_cons _ _ _ [2%nat] _ _ []); [|constructor]. eapply rp_slice; [reflexivity|cbn; lia|].
      apply (rs_cons _ _ _ []); [constructor|]. apply (rs_cons _ _ _ []); constructor.
    + split; [repeat constructor; cbn; intuition discriminate|cbn; intuition discriminate].
  - eexists. split; [vm_compute; reflexivity|]. vm_compute. auto.
Qed.

(** Without the condition on sharing this is false.  Two pointers of the
    destination to the same variable: Unmarshal of an array that only names one
    changes what the other points to. *)
Theorem C49_sharing_refuted : ~ (forall U X E cfuel data t M L d g fp M' g' r, methods_as X U ->
  read M L = Some d -> rep M d g fp ->
  hunmarshal U X E cfuel data M (HtPtr t L) = (M', r) -> unmarshal X E cfuel data (TgPtr t g) = (g', r) ->
  exists d' fp', read M' L = Some d' /\ rep M' d' g' fp').
Proof.
  intros C.
  destruct (C Ud Xd Eh 10%nat (bs "a:1:{s:1:""p"";i:7;}") (TName 3)
      [OCells [DStruct [DPtr (Some (Loc 1 0 [])); DPtr (Some (Loc 1 0 []))]]; OCells [DInt 1]] (Loc 0 0 [])
      (DStruct [DPtr (Some (Loc 1 0 [])); DPtr (Some (Loc 1 0 []))])
      (VStruct [VPtr (Some (VInt 1)); VPtr (Some (VInt 1))]) [1%nat; 1%nat]
      [OCells [DStruct [DPtr (Some (Loc 1 0 [])); DPtr (Some (Loc 1 0 []))]]; OCells [DInt 7]]
      (VStruct [VPtr (Some (VInt 7)); VPtr (Some (VInt 1))]) (ROk tt)) as (d' & fp' & R & H).
  - exact Ud_as.
  - reflexivity.
  - constructor. apply (rs_cons _ _ _ [1%nat]); [eapply rp_ptr; [reflexivity|constructor]|].
    apply (rs_cons _ _ _ [1%nat] _ _ []); [eapply rp_ptr; [reflexivity|constructor]|constructor].
  - vm_compute. reflexivity.
  - vm_compute. reflexivity.
  - injection R as <-. inversion H as [| | | | | | | | | | | | | | |l0 gs0 fp0 Hs|]; subst.
    inversion Hs as [|? ? ? ? ? ? _ Hs2]; subst. inversion Hs2 as [|? ? ? ? ? ? Hp _]; subst.
    inversion Hp as [| | | | | | | | | | | |o1 d1 g1 fp1 Ho Hd| | | |]; subst. injection Ho as <-. inversion Hd.
Qed.
Print Assumptions C49_sharing_refuted.
(** A pointer to another field of the same struct: the array names p only, and
    field a changes. *)
Example C49_field_of_itself :
  hunmarshal Ud Xd Eh 10 (bs "a:1:{s:1:""p"";i:7;}")
    [OCells [DStruct [DInt 1; DPtr (Some (Loc 0 0 [0%nat])); DSlice None]]] (HtPtr (TName 0) (Loc 0 0 [])) =
  ([OCells [DStruct [DInt 7; DPtr (Some (Loc 0 0 [0%nat])); DSlice None]]], ROk tt).
Proof. vm_compute. reflexivity. Qed.

(** ** C50 Unmarshal writes only to its destination.  Whatever the memory
    (shared, cyclic): only variables reachable from the pointer argument through
    fields, array elements, pointers and interfaces, and maps held in them,
    change.  Everything else keeps its contents: in particular the elements of
    slices the destination held before, which are replaced and not reused. *)
Theorem C50_only_destination : forall U X E cfuel data M tg M' r, modest U ->
  hunmarshal U X E cfuel data M tg = (M', r) ->
  match tg with
  | HtPtr _ L =>
      (forall Q, (l_obj Q < length M)%nat -> (forall P, leads M L P -> ~ overlap P Q) -> read M' Q = read M Q) /\
      (forall o m, ~ leads_map M L o -> nth_error M o = Some (OMap m) -> nth_error M' o = Some (OMap m))
  | _ => M' = M
  end.
Proof.
  intros U X E cfuel data M tg M' r HU Q.
  destruct tg as [|t|t|t L]; try (unfold hunmarshal in Q; destruct data; injection Q as <- _; reflexivity).
  pose proof (hunmarshal_modest U X E cfuel data t M L HU) as Ev. rewrite Q in Ev. cbn [fst] in Ev. split.
  - intros P HP H. eapply ev_frame; [exact Ev|exact HP|]. apply mine_apart; assumption.
  - intros o m Ho Hm. eapply ev_frame_map; [exact Ev| |exact Hm]. intros [H|H]; [auto|].
    pose proof (proj1 (nth_error_Some M o) ltac:(congruence)). lia.
Qed.
Print Assumptions C50_only_destination.
(** An allocation none of whose variables is reachable is left alone, although a
    slice in the destination may use it. *)
Theorem C50_old_elements : forall U X E cfuel data M t L o M' r, modest U ->
  hunmarshal U X E cfuel data M (HtPtr t L) = (M', r) ->
  (o < length M)%nat -> (forall P, leads M L P -> l_obj P <> o) -> ~ leads_map M L o ->
  nth_error M' o = nth_error M o.
Proof.
  intros U X E cfuel data M t L o M' r HU Q Ho HP Hm.
  pose proof (hunmarshal_modest U X E cfuel data t M L HU) as Ev. rewrite Q in Ev. cbn [fst] in Ev.
  eapply ev_frame_obj; [exact Ev|exact Ho| |].
  - intros P [H|H]; [auto|lia].
  - intros [H|H]; [auto|lia].
Qed.
Print Assumptions C50_old_elements.
(** The slice of the destination keeps its allocation 2 until it is replaced. *)
Example C50_example :
  let M := [OCells [DStruct [DInt 1; DPtr (Some (Loc 1 0 [])); DSlice (Some (2%nat, 0%nat, 2%nat))]];
            OCells [DInt 2]; OCells [DInt 3; DInt 4; DInt 5]] in
  modest Ud /\ (forall P, leads M (Loc 0 0 []) P -> l_obj P <> 2%nat) /\ (forall o, ~ leads_map M (Loc 0 0 []) o) /\
  exists M', hunmarshal Ud Xd Eh 10 (bs "a:1:{s:1:""s"";a:1:{i:0;i:9;}}") M (HtPtr (TName 0) (Loc 0 0 [])) = (M', ROk tt) /\
    nth_error M' 2 = Some (OCells [DInt 3; DInt 4; DInt 5]).
Proof.
  cbn zeta. set (M := [_; _; _]).
  assert (forall Q x, read M Q = Some x -> (l_obj Q = 0 \/ l_obj Q = 1)%nat ->
    match x with DPtr (Some p) => p = Loc 1 0 [] | DIface (Some _) | DMap (Some _) => False | _ => True end) as K.
  { intros [o i p] x R Ho. unfold read in R. cbn [l_obj l_cell l_path] in *. destruct Ho as [->| ->]; cbn in R.
    - destruct i as [|[|i]]; cbn in R; try discriminate.
      destruct p as [|k p]; cbn in R; [injection R as <-; exact I|].
      destruct k as [|[|[|k]]]; cbn in R; try (destruct p; cbn in R; [injection R as <-; auto|discriminate]).
      destruct k; discriminate.
    - destruct i as [|[|i]]; cbn in R; try discriminate. destruct p; cbn in R; [injection R as <-; exact I|discriminate]. }
  assert (forall P, leads M (Loc 0 0 []) P -> (l_obj P = 0 \/ l_obj P = 1)%nat) as G.
  { intros P H. induction H as [|Q k H IH|Q p H IH R|Q t p H IH R]; [left; reflexivity|exact IH| |].
    - apply K in R; [|exact IH]. subst p. right. reflexivity.
    - apply K in R; [destruct R|exact IH]. }
  split; [exact Ud_modest|]. split; [intros P H; apply G in H; lia|]. split.
  - intros o (Q & H & R). apply G in H. apply K in R; [exact R|exact H].
  - eexists. split; vm_compute; reflexivity.
Qed.

(** ** C51 Unmarshal comes to an end on every destination, also on one that
    contains itself: for every memory the call returns or panics, never reads
    outside the input, and returns nil only if the input is exactly the text of
    one value. *)
Theorem C51_any_destination : forall U X E cfuel data t M L, small data ->
  compile_f X E cfuel [] t <> RFuel ->
  match snd (hunmarshal U X E cfuel data M (HtPtr t L)) with
  | ROk _ => exists p, data = text p
  | RErr _ => True
  | RPanic p => p <> PIndex
  | RFuel => False
  end.
Proof. exact hunmarshal_three. Qed.
Print Assumptions C51_any_destination.
(** A list whose Next is the list itself, decoded from a three times nested
    array: the innermost value stays. *)
Example C51_example :
  let M := [OCells [DStruct [DInt 1; DPtr (Some (Loc 0 0 [])); DInt 5]]] in
  let data := bs "a:2:{s:4:""next"";a:2:{s:4:""next"";a:1:{s:1:""v"";i:8;}s:1:""w"";i:3;}s:3:""abc"";b:1;}" in
  small data /\ compile_f Xd Eh 10 [] (TName 2) = ROk tt /\
  hunmarshal Ud Xd Eh 10 data M (HtPtr (TName 2) (Loc 0 0 [])) =
    ([OCells [DStruct [DInt 8; DPtr (Some (Loc 0 0 [])); DInt 1]]; OCells [DInt 1]], ROk tt).
Proof. cbn zeta. split; [reflexivity|]. split; vm_compute; reflexivity. Qed.
