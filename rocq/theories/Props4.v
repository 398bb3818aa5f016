(** Properties of Marshal, part 1: what it writes (C28-C31), recursion
    (C32, C33), histories (C34), compilation (C40). *)
From Coq Require Import Strings.String Strings.Byte ZArith List Bool Lia Floats.SpecFloat Permutation.
From Verif Require Import Base GoTypes Strconv Tags Grammar Denote Memory EncCompile Encode Php Repr EncApi EncCompileFacts EncTerm NumEnc EncFacts EncSound EncComplete ReprFacts PhpFacts MarshalFacts Demo DemoEnc.
Import ListNotations.
Open Scope Z_scope.

(** ** C28 Marshal emits exactly PHP's serialization of the value.

    Whatever Marshal returns is the serialization of a PHP value the argument
    represents (in the sense of Repr.v). *)
Theorem C28_marshal_is_serialize : forall X E H ord t v b, fair_order ord -> Marshals X E H ord t v b ->
  exists p, Represents X E H t v p /\ b = serialize p.
Proof. intros X E H ord t v b Ho Hm. exact (marshal_represents X E H ord Ho st0 t v b Hm). Qed.
Print Assumptions C28_marshal_is_serialize.
(** Marshal accepts every value of an encodable type that unfolds finitely with
    at most 1000 nested containers ... *)
Theorem C28_marshal_accepts : forall X E H ord t v p, fair_order ord -> encodable X E t ->
  repr X E H nested_1000 (0, []) t v p ->
  exists b p', Marshals X E H ord t v b /\ Represents X E H t v p' /\ psame p p' /\ b = serialize p'.
Proof.
  intros X E H ord t v p Ho He Hr. destruct (marshal_shallow X E H ord Ho t v p He Hr) as (b & Hb).
  destruct (marshal_represents X E H ord Ho _ _ _ _ Hb) as (p' & Hp' & Q). exists b, p'. repeat split; try assumption.
  exact (proj1 (repr_det X E H nested_1000 anything) _ _ _ _ Hr _ _ Hp').
Qed.
Print Assumptions C28_marshal_accepts.
(** ... or, at any depth, whose containers are all different from those they
    lie in. *)
Theorem C28_marshal_accepts_deep : forall X E H ord t v p, fair_order ord -> encodable X E t ->
  repr X E H apart [] t v p ->
  exists b p', Marshals X E H ord t v b /\ Represents X E H t v p' /\ psame p p' /\ b = serialize p'.
Proof.
  intros X E H ord t v p Ho He Hr. destruct (marshal_apart X E H ord Ho t v p He Hr) as (b & Hb).
  destruct (marshal_represents X E H ord Ho _ _ _ _ Hb) as (p' & Hp' & Q). exists b, p'. repeat split; try assumption.
  exact (proj1 (repr_det X E H apart anything) _ _ _ _ Hr _ _ Hp').
Qed.
Print Assumptions C28_marshal_accepts_deep.
(** An untyped nil is null. *)
Theorem C28_marshal_nil : forall X E H ord c f, snd (marshal X E H ord f c None) = ROk (serialize PNull).
Proof. reflexivity. Qed.
Print Assumptions C28_marshal_nil.
Example C28_example : fair_order in_order /\ encodable Xd Ed (TPtr (TName 0)) /\
  repr Xd Ed Hd nested_1000 (0, []) (TPtr (TName 0)) (HPtr (Some (2, 0)%nat)) node_php /\
  repr Xd Ed Hd apart [] (TPtr (TName 0)) (HPtr (Some (2, 0)%nat)) node_php /\
  Marshals Xd Ed Hd in_order (TPtr (TName 0)) (HPtr (Some (2, 0)%nat)) node_text /\ serialize node_php = node_text.
Proof.
  split; [exact in_order_fair|]. split; [exact Ed_node_encodable|]. split; [|split; [|split; [exact node_marshals|reflexivity]]].
  - apply (node_repr nested_1000 (0, []) (1, []) (2, []) (2, [])); (split; [cbn; lia|reflexivity]).
  - apply (node_repr apart [] [cell_at Xd 2 0] [cell_at Xd 0 0; cell_at Xd 2 0] [cell_at Xd 1 0; cell_at Xd 2 0]); (split; [|reflexivity]); intros Q; cbn in Q; repeat destruct Q as [Q|Q]; try discriminate; exact Q.
Qed.

(** ** C29 Length prefixes: string-tagged integers are preceded by the number
    of bytes of their decimal form, over the whole of int64 and uint64. *)
Definition E29 : env := [
  Decl (UStruct [Field (bs "I") true false (bs ",string") (TInt I64);
                 Field (bs "U") true false (bs ",string") (TUint U64)]) NoMethod false ].
Theorem C29_length_prefix : forall X H ord z u, int_range I64 z -> uint_range U64 u ->
  Marshals X E29 H ord (TName 0) (HStruct [HInt z; HUint u])
    (bs "a:2:{s:1:""I"";s:" ++ decimal (blen (decimal z)) ++ bs ":""" ++ decimal z ++ bs """;" ++
     bs "s:1:""U"";s:" ++ decimal (blen (decimal u)) ++ bs ":""" ++ decimal u ++ bs """;}").
Proof.
  intros X H ord z u Hz Hu. exists 4%nat. destruct X as [fm pa le un uq sl ma].
  assert (out_int_str z = serialize (PStr (decimal z))) as Ez by (apply out_int_str_eq with I64; exact Hz).
  assert (out_uint_str u = serialize (PStr (decimal u))) as Eu by (apply out_uint_str_eq with U64; exact Hu).
  assert (int_ok I64 z = true) as Oz by (apply int_ok_range; exact Hz).
  assert (uint_ok U64 u = true) as Ou by (apply uint_ok_range; exact Hu).
  cbv -[out_int_str out_uint_str int_ok uint_ok decimal blen app List.length Z.add]. rewrite Oz, Ou, Ez, Eu.
  cbn [serialize]. generalize (decimal (blen (decimal z))) as lz, (decimal z) as dz, (decimal (blen (decimal u))) as lu, (decimal u) as du.
  intros. cbv -[app]. f_equal. rewrite <- !app_assoc. cbn [app]. reflexivity.
Qed.
Print Assumptions C29_length_prefix.
Example C29_example : int_range I64 (- 2 ^ 63) /\ uint_range U64 (2 ^ 64 - 1).
Proof. split; cbv; split; congruence. Qed.

(** ** C30 The output determines the PHP value, and no output is a proper
    prefix of another. *)
Theorem C30_output_determines_value : forall X E H ord H' ord' E' t v b t' v' b' r r',
  fmt_ok X -> fair_order ord -> fair_order ord' ->
  Marshals X E H ord t v b -> Marshals X E' H' ord' t' v' b' ->
  unspoken X E H t v -> unspoken X E' H' t' v' ->
  b ++ r = b' ++ r' ->
  b = b' /\ r = r' /\ exists p, Represents X E H t v p /\ Represents X E' H' t' v' p /\ b = serialize p.
Proof. exact marshal_injective. Qed.
Print Assumptions C30_output_determines_value.
(** As a statement about PHP values alone. *)
Theorem C30_serialize_injective : forall p q r r', php_ok p -> php_ok q ->
  serialize p ++ r = serialize q ++ r' -> p = q /\ r = r'.
Proof. exact serialize_inj. Qed.
Print Assumptions C30_serialize_injective.
Example C30_example : fmt_ok Xd /\ unspoken Xd Ed Hd (TPtr (TName 0)) (HPtr (Some (2, 0)%nat)) /\
  Marshals Xd Ed Hd in_order (TPtr (TName 0)) (HPtr (Some (2, 0)%nat)) node_text /\ php_ok node_php.
Proof.
  split; [intros c s f; split; [discriminate|cbn; intros Q; repeat destruct Q as [Q|Q]; try discriminate; exact Q]|].
  split; [|split; [exact node_marshals|split; reflexivity]]. exists node_php. split; [|reflexivity].
  apply (node_repr anything tt tt tt tt); exact I.
Qed.

(** ** C31 Struct encoding: exactly the exported fields not named "-" and not
    omitted by omitempty-and-zero, in declaration order, each under its key. *)
Theorem C31_struct_fields : forall X E H ord t id fs v b, fair_order ord ->
  marshaler E t = false -> kind_of E t = KStruct id fs -> Marshals X E H ord t v b ->
  exists l sel ps, v = HStruct l /\ length l = length fs /\ selected (shown X) (combine fs l) sel /\
    Forall2 (fun e x => fst x = PStr (field_key X (fst e)) /\ FieldRepresents X E H (fst e) (snd e) (snd x)) sel ps /\
    b = serialize (PArr ps).
Proof. intros X E H ord t id fs v b Ho Hi Hk Hm. exact (marshal_struct X E H ord st0 t id fs v b Ho Hi Hk Hm). Qed.
Print Assumptions C31_struct_fields.
(** A nil pointer field is null; a field that is no pointer and not
    string-tagged is what its value represents. *)
Theorem C31_nil_pointer_field : forall X E H f t p, kind_of E (f_ty f) = KPtr t ->
  FieldRepresents X E H f (HPtr None) p -> p = PNull.
Proof.
  intros X E H f t p Hk Hf. inversion Hf; subst; try reflexivity; kinds E; discriminate.
Qed.
Print Assumptions C31_nil_pointer_field.
Theorem C31_plain_field : forall X E H f v p, ptr_kind (kind_of E (f_ty f)) = false -> tag_string (tag_of X f) = false ->
  (FieldRepresents X E H f v p <-> Represents X E H (f_ty f) v p).
Proof.
  intros X E H f v p Hk Ht. split.
  - intros Hf. inversion Hf; subst; kinds E; try discriminate; try congruence; assumption.
  - intros Hr. apply fv_plain; assumption.
Qed.
Print Assumptions C31_plain_field.
Example C31_example : exists b, marshaler Ed (TName 0) = false /\
  Marshals Xd Ed Hd in_order (TName 0) (HStruct [HInt 7; HStr []; HPtr (Some (0, 0)%nat); HInt 0; HSlice None]) b.
Proof. eexists. split; [reflexivity|]. exists 12%nat. vm_compute. reflexivity. Qed.

(** ** C32 Marshal of a recursive value returns an error.  False: pointers
    found inside interfaces are followed without any check.

    var p any; p = &p; Marshal(p) never returns: *)
Theorem C32_recursive_value_refuted : forall X E ord,
  MarshalDiverges X E [Cells [HIface (Some (TPtr TAny, HPtr (Some (0, 0)%nat)))]] ord (TPtr TAny) (HPtr (Some (0, 0)%nat)).
Proof.
  intros X E ord f. set (H := [Cells [HIface (Some (TPtr TAny, HPtr (Some (0, 0)%nat)))]]).
  assert (forall f s, snd (enc_f X E H ord f MIface (TPtr TAny) (HPtr (Some (0, 0)%nat)) s) = RFuel /\
                      snd (enc_f X E H ord f MIface TAny (HIface (Some (TPtr TAny, HPtr (Some (0, 0)%nat)))) s) = RFuel) as Q.
  { induction f0 as [|f0 IH]; intros s; [split; reflexivity|]. cbn. split; apply IH. }
  destruct f as [|[|[|f]]]; try reflexivity. cbn. apply Q.
Qed.
Print Assumptions C32_recursive_value_refuted.
(** type T struct { X any }; t := &T{}; t.X = t; Marshal(t) never returns: *)
Theorem C32_recursive_struct_refuted : forall X ord,
  MarshalDiverges X [Decl (UStruct [Field (bs "X") true false [] TAny]) NoMethod false]
    [Cells [HStruct [HIface (Some (TPtr (TName 0), HPtr (Some (0, 0)%nat)))]]] ord
    (TPtr (TName 0)) (HPtr (Some (0, 0)%nat)).
Proof.
  intros X ord f. set (E := [Decl (UStruct [Field (bs "X") true false [] TAny]) NoMethod false]).
  set (H := [Cells [HStruct [HIface (Some (TPtr (TName 0), HPtr (Some (0, 0)%nat)))]]]).
  set (v := HStruct [HIface (Some (TPtr (TName 0), HPtr (Some (0, 0)%nat)))]).
  set (w := HIface (Some (TPtr (TName 0), HPtr (Some (0, 0)%nat)))).
  assert (Hc : forall f s, compile_now X E f (TName 0) s = (s, ROk tt) \/ compile_now X E f (TName 0) s = (s, RFuel)).
  { intros [|[|f0]] s; [right; reflexivity|right; destruct X; reflexivity|left; destruct X; vm_compute; reflexivity]. }
  assert (Hs : enc_skipped X (Field (bs "X") true false [] TAny) = false /\ tag_omitempty (tag_of X (Field (bs "X") true false [] TAny)) = false /\
               tag_string (tag_of X (Field (bs "X") true false [] TAny)) = false) by (destruct X; repeat split; reflexivity).
  destruct Hs as (Hs1 & Hs2 & Hs3).
  assert (forall f s, snd (enc_f X E H ord f MIface (TPtr (TName 0)) (HPtr (Some (0, 0)%nat)) s) = RFuel /\
                      snd (enc_f X E H ord f MIface (TName 0) v s) = RFuel /\
                      snd (enc_f X E H ord f MType (TName 0) v s) = RFuel /\
                      snd (enc_f X E H ord f MShape (TName 0) v s) = RFuel /\
                      snd (enc_f X E H ord f MType TAny w s) = RFuel /\
                      snd (enc_f X E H ord f MShape TAny w s) = RFuel /\
                      snd (enc_f X E H ord f MIface TAny w s) = RFuel) as Q.
  { induction f0 as [|f0 IH]; intros s; [repeat split; reflexivity|].
    pose proof (IH s) as (I1 & I2 & I3 & I4 & I5 & I6 & I7).
    split; [exact I2|]. split; [|split; [exact I4|split; [|split; [exact I6|split; [exact I7|exact I1]]]]].
    - cbn [enc_f kind_of E nth_error d_under]. unfold bindM. destruct (Hc f0 s) as [->| ->]; [exact I3|reflexivity].
    - cbn [enc_f kind_of E nth_error d_under v enc_struct enc_fields]. unfold enc_struct, bindM. cbn [enc_fields]. rewrite Hs1, Hs2. cbn [andb].
      unfold enc_field. cbn [kind_of f_ty kind0]. rewrite Hs3. unfold bindM. destruct (enc_f X E H ord f0 MType TAny _ s) as [s' r] eqn:Q.
      cbn in I5. subst r. reflexivity. }
  assert (Hn : forall f s, compile_now X E f (TPtr (TName 0)) s = (s, ROk tt) \/ compile_now X E f (TPtr (TName 0)) s = (s, RFuel)).
  { intros [|[|[|f0]]] s; [right; reflexivity|right; destruct X; reflexivity|right; destruct X; reflexivity|left; destruct X; vm_compute; reflexivity]. }
  unfold marshal, bindM. destruct (Hn f st0) as [->| ->]; [|reflexivity].
  destruct f as [|[|f]]; try reflexivity. cbn [enc_f implements E nth_error d_marshal d_under is_bytes kind_of kind0 iface_kind struct_kind cell H ptr_direct].
  unfold check_rec. change (1000 <? depth st0 + 1) with false. cbn iota beta.
  destruct (enc_f X E H ord f MShape (TName 0) _ _) as [s' r] eqn:Q'. pose proof (proj1 (proj2 (proj2 (proj2 (Q f (St (seen st0) (depth st0 + 1) (iters st0))))))) as Q4.
  assert (r = RFuel) as -> by (change r with (snd (s', r)); rewrite <- Q'; exact Q4). reflexivity.
Qed.
Print Assumptions C32_recursive_struct_refuted.

(** ** C33 Marshal never rejects a finite value as recursive.  False.

    s := []any{nil}; s[0] = s[:0]; Marshal([]any{s}): the empty slice inside
    starts at the same address as the one it lies in: *)
Definition H33 : heap := [
  Cells [HIface (Some (TSlice TAny, HSlice (Some (0, 0, 0)%nat)))];
  Cells [HIface (Some (TSlice TAny, HSlice (Some (0, 0, 1)%nat)))] ].
Theorem C33_no_false_recursion_refuted : forall X E ord,
  Represents X E H33 (TSlice TAny) (HSlice (Some (1, 0, 1)%nat)) (PArr [(PInt 0, PArr [(PInt 0, PArr [])])]) /\
  MarshalFails X E H33 ord (TSlice TAny) (HSlice (Some (1, 0, 1)%nat)) (EMarshal (CRecursive (TSlice TAny))).
Proof.
  intros X E ord. split; [|exists 9%nat; cbv -[Z.eqb x_addr]; rewrite Z.eqb_refl; reflexivity].
  apply rp_shape; [reflexivity|reflexivity|]. eapply sh_slice with (s' := tt); [reflexivity|reflexivity|exact I|].
  apply el_cons; [|apply el_nil]. apply rp_shape; [reflexivity|reflexivity|]. apply sh_iface; [reflexivity|]. apply in_iface; [reflexivity|].
  eapply in_slice with (s' := tt); [reflexivity|reflexivity|reflexivity|exact I|]. apply el_cons_in; [|apply el_nil].
  apply in_iface; [reflexivity|]. eapply in_slice with (s' := tt); [reflexivity|reflexivity|reflexivity|exact I|]. apply el_nil.
Qed.
Print Assumptions C33_no_false_recursion_refuted.
(** type In struct { N int }; type L struct { A In; Next *L; P *In; V any }.
    [links n last extra]: a chain of [n] links that ends in [last], at place 1;
    place 0 is for something it may point to: *)
Definition E33 : env := [
  Decl (UStruct [Field (bs "A") true false [] (TName 1); Field (bs "Next") true false [] (TPtr (TName 0));
                 Field (bs "P") true false [] (TPtr (TName 1)); Field (bs "V") true false [] TAny]) NoMethod false;
  Decl (UStruct [Field (bs "N") true false [] (TInt IInt)]) NoMethod false ].
Definition link (k : nat) : hval := HStruct [HStruct [HInt 0]; HPtr (Some (k, 0%nat)); HPtr None; HIface None].
Definition links (n : nat) (last extra : hval) : heap := Cells [extra] :: Cells [last] :: map (fun k => Cells [link k]) (seq 1 n).
Definition in_php : php := PArr [(PStr (bs "N"), PInt 0)].
Definition link_php (next p v : php) : php := PArr [(PStr (bs "A"), in_php); (PStr (bs "Next"), next); (PStr (bs "P"), p); (PStr (bs "V"), v)].
Fixpoint chain_php (m : nat) (last : php) : php :=
  match m with O => last | S m' => link_php (chain_php m' last) PNull PNull end.

Lemma links_cell n last extra k : (k < n)%nat -> cell (links n last extra) (S (S k)) 0 = Some (link (S k)).
Proof.
  intros Hk. unfold cell, links. cbn [nth_error].
  rewrite nth_error_map, (nth_error_nth' (seq 1 n) 0%nat) by (rewrite seq_length; exact Hk). rewrite seq_nth by exact Hk. reflexivity.
Qed.
Lemma E33_ints X : encodable X E33 (TSlice (TInt IInt)).
Proof. eapply (compile_encodable X E33 3). reflexivity. Qed.

Section Chain.
  Context (X : Ext) (ord : nat -> list (hval * hval) -> list (hval * hval)) (H : heap).
  Notation rep := (repr X E33 H anything tt).
  Notation enc f t v := (enc_f X E33 H ord f MType t v).
  Lemma fields_33 nm t : (nm = bs "A" \/ nm = bs "Next" \/ nm = bs "P" \/ nm = bs "V" \/ nm = bs "N") -> let f := Field nm true false [] t in
    written_field X f = true /\ tag_omitempty (tag_of X f) = false /\ tag_string (tag_of X f) = false /\ field_key X f = nm.
  Proof. intros Hn f. unfold f. destruct X; destruct Hn as [->|[->|[->|[->| ->]]]]; repeat split; reflexivity. Qed.
  Lemma in_repr : rep (TName 1) (HStruct [HInt 0]) in_php.
  Proof.
    apply rp_shape; [reflexivity|reflexivity|]. eapply sh_struct; [reflexivity|]. unfold in_php.
    destruct (fields_33 (bs "N") (TInt IInt)) as (F1 & F2 & F3 & F4); [auto 6|]. rewrite <- F4 at 2.
    apply fl_write; [exact F1|rewrite F2; discriminate| |apply fl_nil]. apply fv_plain; [reflexivity|exact F3|].
    apply rp_shape; [reflexivity|reflexivity|]. apply sh_scalar. apply sr_int. cbv. split; congruence.
  Qed.
  Lemma link_repr nv pv vv np pp vp :
    field_val X E33 H anything tt (Field (bs "Next") true false [] (TPtr (TName 0))) nv np ->
    field_val X E33 H anything tt (Field (bs "P") true false [] (TPtr (TName 1))) pv pp ->
    rep TAny vv vp -> rep (TName 0) (HStruct [HStruct [HInt 0]; nv; pv; vv]) (link_php np pp vp).
  Proof.
    intros Hn Hp Hv. apply rp_shape; [reflexivity|reflexivity|].
    destruct (fields_33 (bs "A") (TName 1)) as (A1 & A2 & A3 & A4); [auto 6|].
    destruct (fields_33 (bs "Next") (TPtr (TName 0))) as (F1 & F2 & F3 & F4); [auto 6|].
    destruct (fields_33 (bs "P") (TPtr (TName 1))) as (P1 & P2 & P3 & P4); [auto 6|].
    destruct (fields_33 (bs "V") TAny) as (V1 & V2 & V3 & V4); [auto 6|].
    eassert (fields X E33 H anything tt _ _ _) as Q.
    { apply fl_write; [exact A1|rewrite A2; discriminate|apply fv_plain; [reflexivity|exact A3|apply in_repr]|].
      apply fl_write; [exact F1|rewrite F2; discriminate|exact Hn|].
      apply fl_write; [exact P1|rewrite P2; discriminate|exact Hp|].
      apply fl_write; [exact V1|rewrite V2; discriminate|apply fv_plain; [reflexivity|exact V3|exact Hv]|apply fl_nil]. }
    rewrite A4, F4, P4, V4 in Q. eapply sh_struct; [reflexivity|exact Q].
  Qed.
  Lemma ptr_33 nm n o i c p : (nm = bs "A" \/ nm = bs "Next" \/ nm = bs "P" \/ nm = bs "V" \/ nm = bs "N") -> (n < 2)%nat ->
    cell H o i = Some c -> rep (TName n) c p ->
    field_val X E33 H anything tt (Field nm true false [] (TPtr (TName n))) (HPtr (Some (o, i))) p.
  Proof.
    intros Hn Hlt Hc Hp. destruct (fields_33 nm (TPtr (TName n)) Hn) as (_ & _ & F3 & _).
    eapply fv_ptr_struct with (s' := tt); [reflexivity|exact F3| |exact Hc|exact I|exact Hp].
    destruct n as [|[|n]]; [reflexivity|reflexivity|lia].
  Qed.
  Lemma any_nil_33 : rep TAny (HIface None) PNull.
  Proof. apply rp_shape; [reflexivity|reflexivity|]. apply sh_iface; [reflexivity|]. apply in_nil. reflexivity. Qed.

  Context (n : nat) (last extra : hval).
  Hypothesis HH : H = links n last extra.
  Lemma links_repr p : rep (TName 0) last p -> forall m, (m <= n)%nat ->
    exists c', cell H (S m) 0 = Some c' /\ rep (TName 0) c' (chain_php m p).
  Proof.
    intros Hl. induction m as [|m IH]; intros Hm.
    - exists last. split; [rewrite HH; reflexivity|exact Hl].
    - destruct (IH ltac:(lia)) as (c' & Hc & Hr). exists (link (S m)). split; [rewrite HH; apply links_cell; lia|].
      apply link_repr; [|eapply fv_nil; reflexivity|apply any_nil_33]. eapply ptr_33; [auto|lia|exact Hc|exact Hr].
  Qed.

  Lemma enc_in f s : exists b, enc (6 + f)%nat (TName 1) (HStruct [HInt 0]) s = (s, ROk b).
  Proof. eexists. destruct X; vm_compute. destruct s; reflexivity. Qed.
  Lemma snd_rec t a body e s : depth s < 1000 -> snd (body (St (seen s) (depth s + 1) (iters s))) = RErr e -> snd (check_rec t a body s) = RErr e.
  Proof.
    intros Hd Hb. unfold check_rec. replace (1000 <? depth s + 1) with false by (symmetry; apply Z.ltb_ge; lia).
    destruct (body _) as [s' r]. exact Hb.
  Qed.
  Lemma links_fails f0 e :
    (forall s, seen s = [] -> depth s = Z.of_nat n -> snd (check_rec (TPtr (TName 0)) (cell_at X 1 0) (enc (6 + f0)%nat (TName 0) last) s) = RErr e) ->
    (n <= 1000)%nat -> forall m s, (m <= n)%nat -> seen s = [] -> depth s = Z.of_nat (n - m) ->
    exists f c', cell H (S m) 0 = Some c' /\ snd (check_rec (TPtr (TName 0)) (cell_at X (S m) 0) (enc (6 + f)%nat (TName 0) c') s) = RErr e.
  Proof.
    intros Hlst Hn. induction m as [|m IH]; intros s Hm Hs Hd.
    - exists f0, last. split; [rewrite HH; reflexivity|]. apply Hlst; [exact Hs|]. rewrite Hd. f_equal. lia.
    - destruct (IH (St (seen s) (depth s + 1) (iters s)) ltac:(lia) Hs ltac:(cbn [depth]; lia)) as (f & c' & Hc & Hf).
      exists (2 + f)%nat, (link (S m)). split; [rewrite HH; apply links_cell; lia|]. apply snd_rec; [lia|].
      destruct (fields_33 (bs "A") (TName 1)) as (_ & A2 & A3 & _); [auto 6|].
      destruct (fields_33 (bs "Next") (TPtr (TName 0))) as (_ & F2 & F3 & _); [auto 6|].
      assert (enc_skipped X (Field (bs "A") true false [] (TName 1)) = false /\ enc_skipped X (Field (bs "Next") true false [] (TPtr (TName 0))) = false) as [SA SF] by (destruct X; split; reflexivity).
      change (6 + (2 + f))%nat with (S (S (6 + f))). remember (6 + f)%nat as g eqn:Hg.
      cbn [enc_f implements is_bytes kind_of E33 nth_error d_under d_marshal link]. unfold enc_struct, bindM at 1. cbn [enc_fields]. rewrite SA, A2. cbn [andb].
      unfold bindM at 1. unfold enc_field at 1. cbn [f_ty kind_of E33 nth_error d_under]. rewrite A3. rewrite Hg at 1.
      destruct (enc_in f (St (seen s) (depth s + 1) (iters s))) as (b & ->). unfold bindM at 1. rewrite SF, F2. cbn [andb]. unfold bindM at 1.
      unfold enc_field at 1. cbn [f_ty kind_of kind0 E33 nth_error d_under struct_kind]. rewrite F3, Hc.
      destruct (check_rec _ _ _) as [s' r]. cbn [snd] in Hf. subst r. reflexivity.
  Qed.
  Lemma links_marshal_fails f0 e :
    (forall s, seen s = [] -> depth s = Z.of_nat n -> snd (check_rec (TPtr (TName 0)) (cell_at X 1 0) (enc (6 + f0)%nat (TName 0) last) s) = RErr e) ->
    (n <= 1000)%nat -> MarshalFails X E33 H ord (TPtr (TName 0)) (HPtr (Some (S n, 0)%nat)) e.
  Proof.
    intros Hl Hn. destruct (links_fails f0 e Hl Hn n st0 (Nat.le_refl n) eq_refl) as (f & c' & Hc & Hf); [rewrite Nat.sub_diag; reflexivity|].
    exists (S (6 + f))%nat. unfold marshal, bindM at 1.
    assert (compile_now X E33 (S (6 + f))%nat (TPtr (TName 0)) st0 = (st0, ROk tt)) as -> by (destruct X; reflexivity).
    change (6 + f)%nat with (S (5 + f)) in *. remember (5 + f)%nat as g eqn:Hg.
    cbn [enc_f implements is_bytes kind_of kind0 E33 nth_error d_under d_marshal iface_kind struct_kind ptr_direct] in Hf |- *. rewrite Hc. exact Hf.
  Qed.
End Chain.

(** A chain of 1000, the last with V = []int{1}: below 1000 nested containers, a
    slice inside an interface is entered twice and so taken for recursive: *)
Definition int_slice (o : nat) : hval := HIface (Some (TSlice (TInt IInt), HSlice (Some (o, 0, 1)%nat))).
Definition deep_slice : heap := links 999 (HStruct [HStruct [HInt 0]; HPtr None; HPtr None; int_slice 0]) (HInt 1).
Theorem C33_deep_slice_refuted : forall X ord,
  Represents X E33 deep_slice (TPtr (TName 0)) (HPtr (Some (1000, 0)%nat)) (chain_php 999 (link_php PNull PNull (PArr [(PInt 0, PInt 1)]))) /\
  MarshalFails X E33 deep_slice ord (TPtr (TName 0)) (HPtr (Some (1000, 0)%nat)) (EMarshal (CRecursive (TSlice (TInt IInt)))).
Proof.
  intros X ord. split.
  - destruct (links_repr X deep_slice 999 _ _ eq_refl (link_php PNull PNull (PArr [(PInt 0, PInt 1)]))) with (m := 999%nat) as (c' & Hc & Hr); [|apply Nat.le_refl|].
    + apply link_repr; [eapply fv_nil; reflexivity|eapply fv_nil; reflexivity|]. apply rp_shape; [reflexivity|reflexivity|]. apply sh_iface; [reflexivity|]. apply in_iface; [reflexivity|].
      eapply in_slice_typed with (s' := tt); [reflexivity|reflexivity|apply E33_ints|exact I|]. apply rp_shape; [reflexivity|reflexivity|].
      eapply sh_slice with (s' := tt); [reflexivity|reflexivity|exact I|]. apply el_cons; [|apply el_nil].
      apply rp_shape; [reflexivity|reflexivity|]. apply sh_scalar. apply sr_int. cbv. split; congruence.
    + apply rp_shape; [reflexivity|reflexivity|]. eapply sh_ptr_struct with (s' := tt); [reflexivity|reflexivity|exact Hc|exact I|].
      inversion Hr as [| |? ? ? ? _ _ Hsh]; subst; try discriminate; exact Hsh.
  - apply (links_marshal_fails X ord deep_slice 999 _ _ eq_refl 6); [|lia].
    unfold deep_slice, links. generalize (map (fun k => Cells [link k]) (seq 1 999)). intros rest [sn d it] Hsn Hd. cbn [seen depth] in Hsn, Hd.
    subst sn. vm_compute in Hd. subst d. destruct X as [x1 x2 x3 x4 x5 x6 x7 adr]. cbv -[Z.eqb]. rewrite Z.eqb_refl. reflexivity.
Qed.
Print Assumptions C33_deep_slice_refuted.
(** The last of a chain of 1001 with P = &A: the address of the first field of a
    struct is the address of the struct, so it is taken for the struct itself: *)
Definition deep_field : heap := links 1000 (HStruct [HStruct [HInt 0]; HPtr None; HPtr (Some (0, 0)%nat); HIface None]) (HStruct [HInt 0]).
Theorem C33_first_field_refuted : forall X ord, x_addr X (ACell 0 0) = x_addr X (ACell 1 0) ->
  Represents X E33 deep_field (TPtr (TName 0)) (HPtr (Some (1001, 0)%nat)) (chain_php 1000 (link_php PNull in_php PNull)) /\
  MarshalFails X E33 deep_field ord (TPtr (TName 0)) (HPtr (Some (1001, 0)%nat)) (EMarshal (CRecursive (TPtr (TName 1)))).
Proof.
  intros X ord Hsame. split.
  - destruct (links_repr X deep_field 1000 _ _ eq_refl (link_php PNull in_php PNull)) with (m := 1000%nat) as (c' & Hc & Hr); [|apply Nat.le_refl|].
    + apply link_repr; [eapply fv_nil; reflexivity| |apply any_nil_33]. eapply ptr_33; [auto|lia|reflexivity|apply in_repr].
    + apply rp_shape; [reflexivity|reflexivity|]. eapply sh_ptr_struct with (s' := tt); [reflexivity|reflexivity|exact Hc|exact I|].
      inversion Hr as [| |? ? ? ? _ _ Hsh]; subst; try discriminate; exact Hsh.
  - apply (links_marshal_fails X ord deep_field 1000 _ _ eq_refl 6); [|lia].
    unfold deep_field, links. generalize (map (fun k => Cells [link k]) (seq 1 1000)). intros rest [sn d it] Hsn Hd. cbn [seen depth] in Hsn, Hd.
    subst sn. vm_compute in Hd. subst d. destruct X as [x1 x2 x3 x4 x5 x6 x7 adr]. cbn [x_addr] in Hsame. cbv -[Z.eqb]. rewrite Hsame, Z.eqb_refl. reflexivity.
Qed.
Print Assumptions C33_first_field_refuted.
Example C33_first_field_example : exists X : Ext, x_addr X (ACell 0 0) = x_addr X (ACell 1 0).
Proof. exists {| x_fmt := x_fmt Xd; x_parse := x_parse Xd; x_letter := x_letter Xd; x_unmarshal := x_unmarshal Xd; x_unquote := x_unquote Xd; x_slots := x_slots Xd;
  x_marshal := x_marshal Xd; x_addr := fun p => match p with ACell o i => Z.of_nat (Nat.max o 1) | AMap _ => 0 end |}. reflexivity. Qed.
(** The true part: no value nested at most 1000 deep whose interface contents
    are not inside themselves, and no value at any depth whose containers have
    addresses different from those they lie in, is rejected.  Missing: the three
    situations above. *)
Theorem C33_no_false_recursion_partial : forall X E H ord t v p, fair_order ord -> encodable X E t ->
  repr X E H nested_1000 (0, []) t v p \/ repr X E H apart [] t v p ->
  exists b, Marshals X E H ord t v b.
Proof.
  intros X E H ord t v p Ho He [Hr|Hr]; [exact (marshal_shallow X E H ord Ho t v p He Hr)|exact (marshal_apart X E H ord Ho t v p He Hr)].
Qed.
Print Assumptions C33_no_false_recursion_partial.
Example C33_example : repr Xd Ed Hd apart [] (TPtr (TName 0)) (HPtr (Some (2, 0)%nat)) node_php.
Proof. exact (proj1 (proj2 (proj2 (proj2 C28_example)))). Qed.

(** ** C34 Marshal calls do not influence later calls: whatever calls a context
    has served before, of whatever values in whatever memory, a call on it
    does exactly what it does on a new one. *)
Theorem C34_history_does_not_matter : forall X E c, pooled X E c ->
  forall H ord f a, marshal X E H ord f c a = marshal X E H ord f (new_context (iters c)) a.
Proof. intros X E c Hc H ord f a. rewrite <- (pooled_is_new X E c Hc). reflexivity. Qed.
Print Assumptions C34_history_does_not_matter.
Example C34_example : exists c, pooled Xd Ed c /\ iters c = 1%nat /\
  marshal Xd Ed H33 in_order 9 c (Some (TSlice TAny, HSlice (Some (1, 0, 1)%nat))) = (c, RErr (EMarshal (CRecursive (TSlice TAny)))) .
Proof.
  exists (fst (marshal Xd Ed Hd in_order 9 st0 (Some (TMap TString TAny, HMap (Some 3%nat))))). split; [|split; vm_compute; reflexivity].
  eapply (pooled_back Xd Ed Hd in_order 9 st0 (Some (TMap TString TAny, HMap (Some 3%nat)))); [exact (pooled_new Xd Ed 0)|apply surjective_pairing|].
  left. vm_compute. eexists. reflexivity.
Qed.

(** ** C40 Compiling a source type terminates.  False: a type that contains
    itself below an array is compiled for ever.
    type Node struct { Children [2]*Node }; Marshal(Node{}): *)
Definition E40 : env := [ Decl (UStruct [Field (bs "Children") true false [] (TArray 2 (TPtr (TName 0)))]) NoMethod false ].
Theorem C40_source_compiles_refuted : forall X H ord,
  MarshalDiverges X E40 H ord (TName 0) (HStruct [HArr [HPtr None; HPtr None]]).
Proof.
  intros X H ord f. unfold marshal, compile_now.
  assert (forall f, ecompile_f X E40 f false [] (TName 0) = RFuel /\ ecompile_f X E40 f true [] (TName 0) = RFuel /\
            ecompile_f X E40 f false [] (TPtr (TName 0)) = RFuel /\
            ecompile_f X E40 f false [TName 0] (TArray 2 (TPtr (TName 0))) = RFuel) as Q.
  { assert (enc_skipped X (Field (bs "Children") true false [] (TArray 2 (TPtr (TName 0)))) = false /\
            tag_string (tag_of X (Field (bs "Children") true false [] (TArray 2 (TPtr (TName 0))))) = false) as [F1 F2] by (destruct X; split; reflexivity).
    induction f0 as [|f0 (I1 & I2 & I3 & I4)]; [repeat split; reflexivity|].
    assert (ecompile_fields X E40 (ecompile_f X E40 f0 false) [TName 0] [Field (bs "Children") true false [] (TArray 2 (TPtr (TName 0)))] = RFuel) as I5.
    { cbn [ecompile_fields]. rewrite F1. cbn [f_ty kind_of kind0 f_anon andb struct_kind]. rewrite F2. rewrite I4. reflexivity. }
    split; [exact I5|]. split; [exact I5|]. split; [exact I2|]. cbn. rewrite I3. reflexivity. }
  destruct (Q f) as (-> & _). reflexivity.
Qed.
Print Assumptions C40_source_compiles_refuted.
(** The true part: types inside which no array contains itself compile or are
    rejected.  Missing: the others. *)
Theorem C40_source_compiles_partial : forall X E t, finite_arrays X E t -> exists f, ecompile_f X E f false [] t <> RFuel.
Proof. exact compile_ends. Qed.
Print Assumptions C40_source_compiles_partial.
(** Those are all: for every other type, unless it is rejected for another reason,
    Marshal recurses for ever, whatever the value. *)
Theorem C40_all_others_refuted : forall X E H ord t v a k u,
  einside X E (false, t) a -> speaks E a = false -> kind_of E (snd a) = KArray k u -> einside X E (false, u) a ->
  (forall w, einside X E (false, t) w -> ~ unencodable X E w) ->
  forall f, snd (marshal X E H ord f st0 (Some (t, v))) = RFuel.
Proof.
  intros X E H ord t v a k u Ha Hs Hk Hin He f. unfold marshal, compile_now, bindM, lift.
  rewrite (compile_endless X E f t a k u He Ha Hs Hk Hin). reflexivity.
Qed.
Print Assumptions C40_all_others_refuted.
(** Exactly the encodable types are accepted. *)
Theorem C40_accepted_types : forall X E t,
  (exists f S, ecompile_f X E f false [] t = ROk S) <-> encodable X E t.
Proof.
  intros X E t. split; [intros (f & S' & Hf); exact (compile_encodable X E f S' t Hf)|exact (encodable_compiles X E t)].
Qed.
Print Assumptions C40_accepted_types.
Example C40_example : encodable Xd Ed (TPtr (TName 0)) /\
  (* type A [2][]A *)
  let E := [Decl (UTy (TArray 2 (TSlice (TName 0)))) NoMethod false] in
  speaks E (false, TName 0) = false /\ einside Xd E (false, TSlice (TName 0)) (false, TName 0).
Proof.
  split; [exact Ed_node_encodable|]. split; [reflexivity|]. eapply ei_step; [apply ei_refl|]. apply ep_slice; reflexivity.
Qed.
