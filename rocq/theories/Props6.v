(** Values decoded into any (C36, C48), custom Marshalers (C38), nil (C39) and
    values inside interfaces (C46). *)
From Coq Require Import Strings.String Strings.Byte ZArith List Bool Lia Floats.SpecFloat Permutation.
From Verif Require Import Base GoTypes Strconv Tags Grammar Denote Typing NumFacts NumEnc Api Unmarshal CompileFacts UnmFacts Memory EncCompile Encode Php Repr EncApi EncCompileFacts EncSound MarshalFacts ReprFacts PhpFacts RoundTrip RoundTripFacts AnyTrip AnyTripFacts Positions PosFacts MarshalerFacts Demo DemoEnc Props4 Props5.
Import ListNotations.
Open Scope Z_scope.

(** ** C36 Unmarshal of Marshal's output into an any: exactly the
    any-representation ([any_of], AnyTrip.v) of a PHP value the argument
    represents, if its arrays nest at most 10000 deep. *)
Theorem C36_any : forall X E H ord T v b old w, fmt_ok X -> fair_order ord -> small b ->
  unspoken X E H T v -> Marshals X E H ord T v b ->
  (Decodes X E b TAny old w <->
   exists p, Represents X E H T v p /\ b = serialize p /\ any_of X p w /\ array_depth p <= 10000).
Proof. intros X E H ord T v b old w HX Ho. exact (marshal_any X E H ord HX Ho T v b old w). Qed.
Print Assumptions C36_any.

(** Marshalling the result again fails whenever it is an array: arrays become
    map[any]any, which Marshal does not support. *)
Lemma array_text p : raw_free p = true -> (hd_error (serialize p) = Some "a"%byte <-> exists es, p = PArr es).
Proof.
  intros Hr. destruct p as [|[|]| | | | |]; try discriminate Hr; cbn; split; intros Q; try (destruct Q; discriminate); try discriminate Q; [eexists; reflexivity|reflexivity].
Qed.
Theorem C36_remarshal_refuted : forall X E H ord T v b old w, fmt_ok X -> fair_order ord -> small b ->
  unspoken X E H T v -> Marshals X E H ord T v b -> hd_error b = Some "a"%byte ->
  Decodes X E b TAny old w ->
  forall H' ord' a, passed H' w a -> exists t x, a = Some (t, x) /\ MarshalFails X E H' ord' t x (EMarshal (CKey TAny)).
Proof.
  intros X E H ord T v b old w HX Ho Hs Hu Hm Hb Hd H' ord' a Ha.
  apply (C36_any X E H ord T v b old w HX Ho Hs Hu Hm) in Hd. destruct Hd as (p & Hp & -> & Hw & _).
  apply array_text in Hb; [|exact (unspoken_all X E H T v p Hu Hp)]. destruct Hb as [es ->].
  pose proof (again_array X E H' ord' es w a Hw Ha 2 st0 (le_n 2)) as Q.
  inversion Hw; subst. inversion Ha; subst. eexists. eexists. split; [reflexivity|]. exists 2%nat. exact Q.
Qed.
Print Assumptions C36_remarshal_refuted.
(** Anything else comes out again byte for byte, if strconv writes a float it
    has read as it was. *)
Theorem C36_remarshal_partial : forall X E H ord T v b old w, fmt_ok X -> fair_order ord -> small b ->
  unspoken X E H T v -> Marshals X E H ord T v b -> hd_error b <> Some "a"%byte ->
  (forall t f, b = bs "d:" ++ t ++ bs ";" -> float_text X t f -> float_repr X false f = t) ->
  Decodes X E b TAny old w ->
  forall H' ord' a, passed H' w a -> exists f, snd (marshal X E H' ord' f st0 a) = ROk b.
Proof.
  intros X E H ord T v b old w HX Ho Hs Hu Hm Hb Hf Hd H' ord' a Ha.
  apply (C36_any X E H ord T v b old w HX Ho Hs Hu Hm) in Hd. destruct Hd as (p & Hp & -> & Hw & _).
  exists 9%nat. apply (again_scalar X E H' ord' p w a Hw Ha).
  - pose proof (unspoken_all X E H T v p Hu Hp) as Hr. destruct p; try reflexivity; try discriminate. exfalso. apply Hb. reflexivity.
  - intros t f -> Ht. symmetry. apply (Hf t f); [reflexivity|exact Ht].
Qed.
Print Assumptions C36_remarshal_partial.
Example C36_example : exists w, unspoken Xd Ed Hd (TPtr (TName 0)) (HPtr (Some (2, 0)%nat)) /\ hd_error node_text = Some "a"%byte /\
  Decodes Xd Ed node_text TAny (VIface None) w.
Proof.
  eexists. split; [|split].
  - exists node_php. split; [apply (node_repr anything tt tt tt tt); exact I|vm_compute; reflexivity].
  - reflexivity.
  - exists 20%nat. vm_compute. reflexivity.
Qed.
Example C36_example_scalar : Marshals Xd [] [] in_order TString (HStr (bs "a")) (bs "s:1:""a"";") /\
  Decodes Xd [] (bs "s:1:""a"";") TAny (VIface None) (VIface (Some (TString, VStr (bs "a")))) /\
  passed [] (VIface (Some (TString, VStr (bs "a")))) (Some (TString, HStr (bs "a"))).
Proof. split; [exists 9%nat; vm_compute; reflexivity|]. split; [exists 9%nat; vm_compute; reflexivity|]. apply pd_some. constructor. Qed.

(** ** C48 Every value Marshal accepts can be decoded into any.  False: Marshal
    writes uint64 values above MaxInt64, which any does not take. *)
Theorem C48_any_total_refuted : forall X E H ord,
  Marshals X E H ord (TUint U64) (HUint (2 ^ 63)) (bs "i:9223372036854775808;") /\
  forall old w, ~ Decodes X E (bs "i:9223372036854775808;") TAny old w.
Proof.
  intros X E H ord. split; [exists 9%nat; vm_compute; reflexivity|].
  intros old w [f Q]. destruct X. destruct f as [|f]; vm_compute in Q; discriminate.
Qed.
Print Assumptions C48_any_total_refuted.
(** Exactly when it can be: the integers fit int64, strconv reads the floats,
    and arrays nest at most 10000 deep. *)
Theorem C48_any_total_partial : forall X E H ord T v b old, fmt_ok X -> fair_order ord -> small b ->
  unspoken X E H T v -> Marshals X E H ord T v b ->
  ((exists w, Decodes X E b TAny old w) <->
   exists p, Represents X E H T v p /\ b = serialize p /\
     Forall (int_range I64) (ints p) /\ Forall (fun t => exists f, float_text X t f) (floats p) /\ array_depth p <= 10000).
Proof. intros X E H ord T v b old HX Ho. exact (marshal_any_total X E H ord HX Ho T v b old). Qed.
Print Assumptions C48_any_total_partial.
Example C48_example : Represents Xd Ed Hd (TPtr (TName 0)) (HPtr (Some (2, 0)%nat)) node_php /\ node_text = serialize node_php /\
  ints node_php = [7; -1; 0; 1] /\ array_depth node_php <= 10000.
Proof. split; [apply (node_repr anything tt tt tt tt); exact I|]. repeat split; vm_compute; congruence. Qed.

(** ** C38 Custom Marshalers are honoured.

    At the top level, in every state of the context: Marshal returns what
    MarshalPHP says, and its error. *)
Theorem C38_top_level : forall X E H ord c T v, marshaler E T = true ->
  (forall b, MarshalsIn X E H ord c T v b <-> says X E H T v b) /\
  (forall e, MarshalFailsIn X E H ord c T v e <-> refuses X E H T v e).
Proof. intros X E H ord c T v. exact (marshaler_top X E H ord c T v). Qed.
Print Assumptions C38_top_level.
(** As elements of a slice: their texts, verbatim, in order. *)
Theorem C38_elements : forall X E H ord c T t o i n b, fair_order ord ->
  kind_of E T = KSlice t -> marshaler E T = false -> marshaler E t = true ->
  MarshalsIn X E H ord c T (HSlice (Some (o, i, n))) b ->
  exists l said, cells H o i n = Some l /\ Forall2 (says X E H t) l said /\
    b = bs "a:" ++ decimal (blen l) ++ bs ":{" ++ numbered_text 0 said ++ bs "}".
Proof. intros X E H ord c T t o i n b. exact (marshaler_elements X E H ord c T t o i n b). Qed.
Print Assumptions C38_elements.
(** The first element whose MarshalPHP fails decides the error. *)
Theorem C38_first_error : forall X E H ord T t o i n l1 said v e l2,
  kind_of E T = KSlice t -> marshaler E T = false -> marshaler E t = true ->
  cells H o i n = Some (l1 ++ v :: l2) -> Forall2 (says X E H t) l1 said -> refuses X E H t v e ->
  MarshalFails X E H ord T (HSlice (Some (o, i, n))) e.
Proof. intros X E H ord. exact (marshaler_first_error X E H ord). Qed.
Print Assumptions C38_first_error.
(** As fields, and behind pointer fields when the pointee has the method. *)
Theorem C38_field : forall X E H f v p,
  marshaler E (f_ty f) = true -> ptr_kind (kind_of E (f_ty f)) = false -> tag_string (tag_of X f) = false ->
  (FieldRepresents X E H f v p <-> exists b, p = PRaw b /\ says X E H (f_ty f) v b).
Proof. intros X E H f v p. exact (marshaler_field X E H f v p). Qed.
Print Assumptions C38_field.
Theorem C38_pointer_field : forall X E H f t o i c p,
  kind_of E (f_ty f) = KPtr t -> marshaler E t = true -> tag_string (tag_of X f) = false -> cell H o i = Some c ->
  (FieldRepresents X E H f (HPtr (Some (o, i))) p <-> exists b, p = PRaw b /\ says X E H t c b).
Proof. intros X E H f t o i c p. exact (marshaler_pointer_field X E H f t o i c p). Qed.
Print Assumptions C38_pointer_field.
(** Structs inside an interface. *)
Theorem C38_struct_in_interface : forall X E H t id fs v p, kind_of E t = KStruct id fs -> marshaler E t = true ->
  (Represents X E H TAny (HIface (Some (t, v))) p <-> encodable X E t /\ exists b, p = PRaw b /\ says X E H t v b).
Proof. intros X E H t id fs v p. exact (marshaler_in_interface X E H t id fs v p). Qed.
Print Assumptions C38_struct_in_interface.
(** Together: the positions in which a Marshaler is honoured. *)
Theorem C38_honoured_partial : forall X E H t, marshaler E t = true ->
  (forall ord c v b, MarshalsIn X E H ord c t v b <-> says X E H t v b) /\
  (forall ord c v e, MarshalFailsIn X E H ord c t v e <-> refuses X E H t v e) /\
  (forall v p, Represents X E H t v p <-> exists b, p = PRaw b /\ says X E H t v b) /\
  (forall f v p, f_ty f = t -> ptr_kind (kind_of E t) = false -> tag_string (tag_of X f) = false ->
     (FieldRepresents X E H f v p <-> exists b, p = PRaw b /\ says X E H t v b)) /\
  (forall f o i c p, kind_of E (f_ty f) = KPtr t -> tag_string (tag_of X f) = false -> cell H o i = Some c ->
     (FieldRepresents X E H f (HPtr (Some (o, i))) p <-> exists b, p = PRaw b /\ says X E H t c b)) /\
  (forall id fs v p, kind_of E t = KStruct id fs ->
     (Represents X E H TAny (HIface (Some (t, v))) p <-> encodable X E t /\ exists b, p = PRaw b /\ says X E H t v b)).
Proof.
  intros X E H t Hi. split; [intros ord c v; exact (proj1 (marshaler_top X E H ord c t v Hi))|].
  split; [intros ord c v; exact (proj2 (marshaler_top X E H ord c t v Hi))|].
  split; [intros v p; exact (marshaler_represents X E H t v p Hi)|].
  split; [intros f v p <- Hk Ht; exact (marshaler_field X E H f v p Hi Hk Ht)|].
  split; [intros f o i c p Hk Ht Hc; exact (marshaler_pointer_field X E H f t o i c p Hk Hi Ht Hc)|].
  intros id fs v p Hk. exact (marshaler_in_interface X E H t id fs v p Hk Hi).
Qed.
Print Assumptions C38_honoured_partial.
(** Elsewhere they are not.  Whatever MarshalPHP would say:
    - a Marshaler that is not a struct is encoded by its kind inside an interface;
    - a pointer-receiver Marshaler inside an interface, and
    - one behind a pointer field, are encoded by their structure. *)
Definition E38 : env := [
  Decl (UTy (TInt I64)) ValueRecv false;                              (* type N int64 *)
  Decl (UStruct [Field (bs "A") true false [] TBool]) PointerRecv false;       (* type S struct { A bool } *)
  Decl (UStruct [Field (bs "P") true false [] (TPtr (TName 1))]) NoMethod false ].
Theorem C38_honoured_refuted : forall X ord,
  marshaler E38 (TName 0) = true /\
  Marshals X E38 [Cells [HIface (Some (TName 0, HInt 5))]] ord (TSlice TAny) (HSlice (Some (0, 0, 1)%nat)) (bs "a:1:{i:0;i:5;}") /\
  marshaler E38 (TPtr (TName 1)) = true /\
  Marshals X E38 [Cells [HStruct [HBool true]]; Cells [HIface (Some (TPtr (TName 1), HPtr (Some (0, 0)%nat)))]] ord
    (TSlice TAny) (HSlice (Some (1, 0, 1)%nat)) (bs "a:1:{i:0;a:1:{s:1:""A"";b:1;}}") /\
  Marshals X E38 [Cells [HStruct [HBool true]]] ord (TName 2) (HStruct [HPtr (Some (0, 0)%nat)]) (bs "a:1:{s:1:""P"";a:1:{s:1:""A"";b:1;}}").
Proof. intros X ord. destruct X. repeat split; try reflexivity; exists 12%nat; vm_compute; reflexivity. Qed.
Print Assumptions C38_honoured_refuted.
Example C38_example : marshaler E38 (TName 0) = true /\ says Xd E38 [Cells [HInt 1; HInt 2]] (TName 0) (HInt 1) (bs "N;") /\
  Marshals Xd E38 [Cells [HInt 1; HInt 2]] in_order (TSlice (TName 0)) (HSlice (Some (0, 0, 2)%nat)) (bs "a:2:{i:0;N;i:1;N;}").
Proof. split; [reflexivity|]. split; [apply sy_value; reflexivity|]. exists 9%nat. vm_compute. reflexivity. Qed.

(** ** C46 Every encodable value is encodable inside an interface.  False:
    arrays are not, and neither is a slice that starts where one around it does. *)
Theorem C46_inside_interface_refuted : forall X E ord,
  Marshals X E [] ord (TArray 1 TBool) (HArr [HBool true]) (bs "a:1:{i:0;b:1;}") /\
  MarshalFails X E [Cells [HIface (Some (TArray 1 TBool, HArr [HBool true]))]] ord (TSlice TAny) (HSlice (Some (0, 0, 1)%nat)) (EMarshal (CInside (TArray 1 TBool))).
Proof. intros X E ord. destruct X. split; exists 9%nat; vm_compute; reflexivity. Qed.
Print Assumptions C46_inside_interface_refuted.
(** It holds for the types [alike] describes (Positions.v) and values that nest
    fewer than 998 slices, maps and struct pointers, each different from those
    it lies in: the value is accepted by itself and as the element of an []any, *)
Theorem C46_inside_interface_partial : forall X E H ord T v o i p, fair_order ord -> encodable X E T -> alike E T ->
  cells H o i 1 = Some [HIface (Some (T, v))] -> repr X E H (apart_below 998) (0, []) T v p ->
  (exists b, Marshals X E H ord T v b) /\ exists b, Marshals X E H ord (TSlice TAny) (HSlice (Some (o, i, 1%nat))) b.
Proof. intros X E H ord T v o i p Ho. exact (inside_accepts X E H ord Ho T v o i p). Qed.
Print Assumptions C46_inside_interface_partial.
(** and whenever the []any is accepted, the element is written as a serialization of what the
    value represents by itself. *)
Theorem C46_same_value : forall X E H ord T v o i b, fair_order ord -> alike E T ->
  cells H o i 1 = Some [HIface (Some (T, v))] ->
  Marshals X E H ord (TSlice TAny) (HSlice (Some (o, i, 1%nat))) b ->
  exists p, Represents X E H T v p /\ b = bs "a:1:{i:0;" ++ serialize p ++ bs "}".
Proof. intros X E H ord T v o i b Ho. exact (inside_output X E H ord Ho T v o i b). Qed.
Print Assumptions C46_same_value.
Definition H46 : heap := Hd ++ [Cells [HIface (Some (TPtr (TName 0), HPtr (Some (2, 0)%nat)))]].
Example C46_example : fair_order in_order /\ encodable Xd Ed (TPtr (TName 0)) /\ alike Ed (TPtr (TName 0)) /\
  cells H46 5 0 1 = Some [HIface (Some (TPtr (TName 0), HPtr (Some (2, 0)%nat)))] /\
  Marshals Xd Ed H46 in_order (TSlice TAny) (HSlice (Some (5, 0, 1)%nat)) (bs "a:1:{i:0;" ++ node_text ++ bs "}").
Proof.
  split; [exact in_order_fair|]. split; [exact Ed_node_encodable|]. split.
  - eapply al_ptr; [reflexivity|reflexivity|reflexivity|]. eapply al_struct. reflexivity.
  - split; [reflexivity|]. exists 20%nat. vm_compute. reflexivity.
Qed.
Example C46_example_nesting : repr Xd Ed Hd (apart_below 998) (0, []) (TPtr (TName 0)) (HPtr (Some (2, 0)%nat)) node_php.
Proof.
  apply (node_repr (apart_below 998) (0, []) (1, [cell_at Xd 2 0]) (2, [cell_at Xd 0 0; cell_at Xd 2 0]) (2, [cell_at Xd 1 0; cell_at Xd 2 0]));
    (split; [cbn; lia|split; [cbn; intuition discriminate|reflexivity]]).
Qed.
