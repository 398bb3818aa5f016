(** Properties of Marshal, part 2: it returns (C32) and does not panic (C39). *)
From Coq Require Import Strings.String Strings.Byte ZArith List Bool Lia Permutation Relations.Relation_Operators.
From Verif Require Import Base GoTypes Strconv Tags Grammar Denote Memory EncCompile Encode Php Repr EncApi EncCompileFacts EncTerm EncFacts ReprFacts MarshalFacts Values Jobs JobFacts HaltFacts CalmFacts CycleFacts Demo DemoEnc.
Import ListNotations.
Open Scope Z_scope.

(** [Marshal] comes back: it returns bytes, returns an error, or panics. *)
Definition MarshalReturns (X : Ext) (E : env) (H : heap) ord (t : gty) (v : hval) : Prop :=
  (exists b, Marshals X E H ord t v b) \/ (exists e, MarshalFails X E H ord t v e) \/ (exists p, MarshalPanics X E H ord t v p).
Lemma returns X E H ord t v : (exists f, snd (marshal X E H ord f st0 (Some (t, v))) <> RFuel) -> MarshalReturns X E H ord t v.
Proof.
  intros [f N]. destruct (snd (marshal X E H ord f st0 (Some (t, v)))) as [b|e|p|] eqn:Q; [left|right; left|right; right|congruence].
  - exists b, f. exact Q.
  - exists e, f. exact Q.
  - exists p, f. exact Q.
Qed.

(** ** C32 Marshal of a recursive value returns an error.  False in general
    (Props4.v: C32_recursive_value_refuted, C32_recursive_struct_refuted).

    The true part: Marshal returns if every cycle in memory passes through a
    slice or a map ... *)
Theorem C32_container_cycles_partial : forall X E H ord t v, fair_order ord ->
  (forall u w, within E H t v u w -> finite_arrays X E u) -> methods_return X ->
  container_cycles H -> MarshalReturns X E H ord t v.
Proof. intros X E H ord t v Ho Hg Hm Hc. apply returns. exact (halts_container_cycles X E H ord st0 t v Ho Hg Hm Hc). Qed.
Print Assumptions C32_container_cycles_partial.
(** ... and, whatever the memory, if the type mentions no interface.  Missing:
    cycles of pointers (and structs and arrays) that pass through an interface;
    on those Marshal may not return. *)
Theorem C32_no_interfaces_partial : forall X E H ord t v, fair_order ord -> finite_arrays X E t -> methods_return X ->
  no_interfaces X E t -> MarshalReturns X E H ord t v.
Proof. intros X E H ord t v Ho Hg Hm Hc. apply returns. exact (halts_no_interfaces X E H ord st0 t v Ho Hg Hm Hc). Qed.
Print Assumptions C32_no_interfaces_partial.
(** In both cases the answer for a value that contains itself is an error (if it
    panics at all, it is because of a Marshaler, see C39). *)
Theorem C32_recursive_value_error_partial : forall X E H ord t v, fair_order ord ->
  (forall u w, within E H t v u w -> finite_arrays X E u) ->
  methods_return X -> methods_do_not_panic X -> well_typed E H t v -> no_nil_marshalers E H t v ->
  container_cycles H \/ no_interfaces X E t ->
  cyclic X E H t v -> exists e, MarshalFails X E H ord t v e.
Proof.
  intros X E H ord t v Ho Hg Hm Hp Hty Hnm Hc Hcy.
  assert (MarshalReturns X E H ord t v) as [[b Q]|[Q|[p Q]]] by (destruct Hc; [apply C32_container_cycles_partial|apply C32_no_interfaces_partial; [..|apply (Hg t v), wi_refl| |]]; assumption).
  - destruct (marshal_represents X E H ord Ho st0 t v b Q) as (p & R & _). destruct (cyclic_represents_nothing X E H t v p Hcy R).
  - exact Q.
  - destruct (marshal_calm X E H ord Ho Hp t v Hty Hnm st0 p Q).
Qed.
Print Assumptions C32_recursive_value_error_partial.
(** A value that contains itself is never encoded, even where Marshal may diverge. *)
Theorem C32_recursive_value_never_encoded : forall X E H ord t v b, fair_order ord -> cyclic X E H t v -> ~ Marshals X E H ord t v b.
Proof.
  intros X E H ord t v b Ho Hcy Q. destruct (marshal_represents X E H ord Ho st0 t v b Q) as (p & R & _). exact (cyclic_represents_nothing X E H t v p Hcy R).
Qed.
Print Assumptions C32_recursive_value_never_encoded.

(** type L struct { Next *L }; l := &L{}; l.Next = l: *)
Definition El : env := [ Decl (UStruct [Field (bs "Next") true false [] (TPtr (TName 0))]) NoMethod false ].
Definition Hl : heap := [ Cells [HStruct [HPtr (Some (0, 0)%nat)]] ].
Lemma El_within u w : within El Hl (TPtr (TName 0)) (HPtr (Some (0, 0)%nat)) u w ->
  (u = TPtr (TName 0) /\ w = HPtr (Some (0, 0)%nat)) \/ (u = TName 0 /\ w = HStruct [HPtr (Some (0, 0)%nat)]).
Proof.
  induction 1 as [|u w u' w' _ IH P]; [left; split; reflexivity|]. destruct IH as [[-> ->]|[-> ->]].
  - right. inversion P as [| | | | |u0 o i c Hk Hc|]; subst; try discriminate. cbn in Hk, Hc. injection Hk as <-. injection Hc as <-. split; reflexivity.
  - left. inversion P as [| | | |id fs l f x Hk Hin| |]; subst; try discriminate. cbn in Hk. injection Hk as <- <-. destruct Hin as [Q|[]]. injection Q as <- <-. split; reflexivity.
Qed.
Example C32_example_no_interfaces : (forall u w, within El Hl (TPtr (TName 0)) (HPtr (Some (0, 0)%nat)) u w -> finite_arrays Xd El u) /\ methods_return Xd /\ methods_do_not_panic Xd /\ no_interfaces Xd El (TPtr (TName 0)) /\
  well_typed El Hl (TPtr (TName 0)) (HPtr (Some (0, 0)%nat)) /\ no_nil_marshalers El Hl (TPtr (TName 0)) (HPtr (Some (0, 0)%nat)) /\
  cyclic Xd El Hl (TPtr (TName 0)) (HPtr (Some (0, 0)%nat)).
Proof.
  split; [|split; [discriminate|split; [discriminate|split; [|split; [|split]]]]].
  - intros u w I. apply El_within in I as [[-> ->]|[-> ->]]; (refine (proj2 (compile_encodable Xd El 9 _ _ _)); vm_compute; reflexivity).
  - intros n I. assert (snd n = TPtr (TName 0) \/ snd n = TName 0) as Hn.
    { induction I as [|u w _ IH P]; [left; reflexivity|].
      inversion P as [u0 _ Hk|u0 _ _ Hk|k u0 _ Hk|k u0 _ Hk|id fs f _ Hk Hf _ _]; subst w; cbn [snd]; destruct IH as [Q|Q]; rewrite Q in Hk; cbn in Hk; try discriminate.
      - injection Hk as <-. right. reflexivity.
      - injection Hk as <- <-. destruct Hf as [<-|[]]. right. reflexivity. }
    intros Hi. inversion Hi as [_ Hk|u _ Hk Hk'|id fs f _ Hk Hf _ Ht _]; destruct Hn as [Q|Q]; rewrite Q in Hk; cbn in Hk; try discriminate.
    + injection Hk as <-. discriminate.
    + injection Hk as <- <-. destruct Hf as [<-|[]]. discriminate.
  - intros u w I. apply El_within in I as [[-> ->]|[-> ->]]; [eapply hr_ptr; reflexivity|eapply hr_struct; reflexivity].
  - intros u w I. apply El_within in I as [[-> ->]|[-> ->]]; intros N; inversion N.
  - exists (TPtr (TName 0), HPtr (Some (0, 0)%nat)). split; [apply rt_refl|]. eapply t_trans; apply t_step.
    + eapply sn_ptr; reflexivity.
    + eapply (sn_field Xd El Hl (TName 0) _ _ [HPtr (Some (0, 0)%nat)] (Field (bs "Next") true false [] (TPtr (TName 0)))); try reflexivity; [left; reflexivity|discriminate].
Qed.
(** s := []any{nil}; s[0] = s *)
Lemma measured (H : heap) (m : hval -> nat) : (forall v w, direct H v w -> (m w < m v)%nat) -> container_cycles H.
Proof.
  intros Hm v C. assert (forall a b, clos_trans hval (direct H) a b -> (m b < m a)%nat) as Q by (induction 1; [apply Hm; assumption|lia]).
  specialize (Q v v C). lia.
Qed.
Fixpoint psize (v : hval) : nat :=
  match v with
  | HArr l | HStruct l => S (list_sum (map psize l))
  | HIface (Some (_, x)) => S (psize x)
  | HPtr (Some _) => 9
  | _ => 1
  end%nat.
Lemma in_psize x l : In x l -> (psize x <= list_sum (map psize l))%nat.
Proof. unfold list_sum. induction l as [|y l IH]; intros []; cbn [map fold_right]; [subst; lia|]. specialize (IH H). lia. Qed.
Definition Hs : heap := [ Cells [HIface (Some (TSlice TAny, HSlice (Some (0, 0, 1)%nat)))] ].
Example C32_example_containers : container_cycles Hs /\
  (forall u w, within [] Hs (TSlice TAny) (HSlice (Some (0, 0, 1)%nat)) u w -> finite_arrays Xd [] u) /\ cyclic Xd [] Hs (TSlice TAny) (HSlice (Some (0, 0, 1)%nat)).
Proof.
  split; [|split].
  - apply (measured Hs psize). intros v w D. inversion D as [l x Hx|l x Hx|t x|o i c Hc]; subst.
    + apply in_psize in Hx. cbn [psize]. lia.
    + apply in_psize in Hx. cbn [psize]. lia.
    + cbn [psize]. lia.
    + destruct o as [|[|o]], i as [|[|i]]; try discriminate. cbn in Hc. injection Hc as <-. cbn. lia.
  - intros u w I.
    assert ((u = TSlice TAny /\ w = HSlice (Some (0, 0, 1)%nat)) \/ (u = TAny /\ w = HIface (Some (TSlice TAny, HSlice (Some (0, 0, 1)%nat))))) as [[-> ->]|[-> ->]].
    { induction I as [|u w u' w' _ IH P]; [left; split; reflexivity|]. destruct IH as [[-> ->]|[-> ->]].
      - right. inversion P as [u0 o i n l x Hk Hc Hx| | | | | |]; subst; try discriminate. cbn in Hk, Hc. injection Hk as <-. injection Hc as <-. destruct Hx as [<-|[]]. split; reflexivity.
      - left. inversion P as [| | | | | |u0 x Hk]; subst; try discriminate. split; reflexivity. }
    all: refine (proj2 (compile_encodable Xd [] 9 _ _ _)); vm_compute; reflexivity.
  - exists (TSlice TAny, HSlice (Some (0, 0, 1)%nat)). split; [apply rt_refl|]. eapply t_trans; apply t_step.
    + eapply sn_slice; [reflexivity|reflexivity|reflexivity|left; reflexivity].
    + apply sn_iface; reflexivity.
Qed.

(** ** C39 Marshal does not panic on nil.  False for Marshalers.

    type T struct{}; func (T) MarshalPHP() ([]byte, error); var t *T; Marshal(t): *)
Theorem C39_nil_marshaler_refuted : forall X H ord,
  MarshalPanics X [Decl (UStruct []) ValueRecv false] H ord (TPtr (TName 0)) (HPtr None) PNilDeref.
Proof. intros X H ord. exists 2%nat. destruct X. reflexivity. Qed.
Print Assumptions C39_nil_marshaler_refuted.
(** Marshal([]Marshaler{nil}), Marshal(struct{ M Marshaler }{}): *)
Theorem C39_nil_interface_refuted : forall X E ord,
  MarshalPanics X E [Cells [HIface None]] ord (TSlice (TIface true)) (HSlice (Some (0, 0, 1)%nat)) PNilDeref /\
  MarshalPanics X [Decl (UStruct [Field (bs "M") true false [] (TIface true)]) NoMethod false] [] ord (TName 0) (HStruct [HIface None]) PNilDeref.
Proof. intros X E ord. split; [exists 4%nat|exists 4%nat]; destruct X; vm_compute; reflexivity. Qed.
Print Assumptions C39_nil_interface_refuted.
(** The true part: Marshal of a well-typed value never panics by itself, unless
    there is a Marshaler without a receiver in it (a nil pointer whose method
    has a value receiver, or a nil interface with the method). *)
Theorem C39_no_panic_partial : forall X E H ord t v p, fair_order ord -> methods_do_not_panic X -> well_typed E H t v ->
  no_nil_marshalers E H t v -> ~ MarshalPanics X E H ord t v p.
Proof. intros X E H ord t v p Ho Hp Hty Hnm. exact (marshal_calm X E H ord Ho Hp t v Hty Hnm st0 p). Qed.
Print Assumptions C39_no_panic_partial.
(** A nil pointer or interface that is not a Marshaler is null, wherever it is ... *)
Theorem C39_nil_is_null : forall X E H t v p, marshaler E t = false -> v = HPtr None \/ v = HIface None ->
  Represents X E H t v p -> p = PNull.
Proof.
  intros X E H t v p Hi Hv R. inversion R as [? ? ? ? Hi'|? ? ? ? _ Hb Hs|? ? ? ? _ _ Sh]; subst; [congruence|destruct Hv; subst v; discriminate|].
  assert (forall s q, inner X E H anything s t v q -> q = PNull) as Hin.
  { intros s q In. destruct Hv as [-> | ->]; inversion In; subst; try reflexivity;
      try (match goal with Q : scalar_repr _ _ _ _ |- _ => inversion Q end);
      match goal with Q : repr _ _ _ _ _ _ _ _, K : kind_of E t = KStruct _ _ |- _ => inversion Q as [? ? ? ? Hi'|? ? ? ? _ Hb Hs|? ? ? ? _ _ Sh']; subst; [congruence|discriminate|] end;
      inversion Sh'; subst; try congruence;
      try (match goal with Q : scalar_repr _ _ _ _ |- _ => inversion Q end);
      match goal with K : kind_of E t = KStruct _ _, Q : iface_kind (kind_of E t) = true |- _ => rewrite K in Q; discriminate end. }
  destruct Hv as [-> | ->]; inversion Sh; subst; try reflexivity; try (match goal with Q : scalar_repr _ _ _ _ |- _ => inversion Q end); eapply Hin; eassumption.
Qed.
Print Assumptions C39_nil_is_null.
(** ... and is accepted at the top. *)
Theorem C39_nil_accepted : forall X E H ord t, marshaler E t = false ->
  (forall u, kind_of E t = KPtr u -> encodable X E t -> Marshals X E H ord t (HPtr None) (serialize PNull)) /\
  (iface_kind (kind_of E t) = true -> Marshals X E H ord t (HIface None) (serialize PNull)).
Proof.
  intros X E H ord t Hi. split.
  - intros u Hk He. destruct (encodable_compiles X E t He) as (f & S' & Q). exists (S (S (S f))).
    unfold marshal, compile_now, bindM, lift.
    rewrite (ecompile_mono X E f false [] t) by (rewrite ?Q; (discriminate || lia)). rewrite Q. cbn [ret enc_f]. rewrite implements_eq, is_bytes_eq, Hi.
    assert (bytes_type t = false) as -> by (destruct t as [| | | | | |[]| | | | | | |]; try reflexivity; discriminate).
    rewrite Hk. destruct (iface_kind (kind_of E u)); reflexivity.
  - intros Hk. exists 3%nat. unfold marshal, compile_now, bindM, lift. cbn [ecompile_f negb andb]. rewrite implements_eq, is_bytes_eq, Hi.
    assert (bytes_type t = false) as Hb by (destruct t as [| | | | | |[]| | | | | | |]; try reflexivity; discriminate).
    rewrite Hb. destruct (kind_of E t) eqn:Q; try discriminate; cbn [ret enc_f]; rewrite implements_eq, is_bytes_eq, Hi, Hb; cbn [enc_f]; rewrite Q; reflexivity.
Qed.
Print Assumptions C39_nil_accepted.
(** &L{Next: nil} *)
Definition Hn : heap := [ Cells [HStruct [HPtr None]] ].
Example C39_example : methods_do_not_panic Xd /\ well_typed El Hn (TPtr (TName 0)) (HPtr (Some (0, 0)%nat)) /\
  no_nil_marshalers El Hn (TPtr (TName 0)) (HPtr (Some (0, 0)%nat)) /\
  Marshals Xd El Hn in_order (TPtr (TName 0)) (HPtr (Some (0, 0)%nat)) (bs "a:1:{s:4:""Next"";N;}").
Proof.
  assert (forall u w, within El Hn (TPtr (TName 0)) (HPtr (Some (0, 0)%nat)) u w ->
    (u = TPtr (TName 0) /\ (w = HPtr (Some (0, 0)%nat) \/ w = HPtr None)) \/ (u = TName 0 /\ w = HStruct [HPtr None])) as Q.
  { induction 1 as [|u w u' w' _ IH P]; [left; auto|]. destruct IH as [[-> [-> | ->]]|[-> ->]].
    - right. inversion P as [| | | | |u0 o i c Hk Hc|]; subst; try discriminate. cbn in Hk, Hc. injection Hk as <-. injection Hc as <-. split; reflexivity.
    - inversion P.
    - left. inversion P as [| | | |id fs l f x Hk Hin| |]; subst; try discriminate. cbn in Hk. injection Hk as <- <-. destruct Hin as [Q|[]]. injection Q as <- <-. auto. }
  split; [discriminate|split; [|split; [|exists 9%nat; vm_compute; reflexivity]]]; intros u w I; apply Q in I as [[-> [-> | ->]]|[-> ->]].
  - eapply hr_ptr; reflexivity.
  - eapply hr_ptr_nil. reflexivity.
  - eapply hr_struct; reflexivity.
  - intros N. inversion N.
  - intros N. inversion N as [n d Hd Hm| |]; subst. cbn in Hd. injection Hd as <-. discriminate.
  - intros N. inversion N.
Qed.
