(** Marshal and Unmarshal together: the typed round trip (C35), map order
    (C37), string-tagged fields (C41), floats (C42) and field names (C45). *)
From Coq Require Import Strings.String Strings.Byte ZArith List Bool Lia Floats.SpecFloat Permutation.
From Verif Require Import Base GoTypes Strconv Tags Grammar Denote Typing NumFacts NumEnc Api Unmarshal CompileFacts UnmFacts StructFacts Memory EncCompile Encode Php Repr EncApi EncCompileFacts EncSound MarshalFacts ReprFacts PhpFacts RoundTrip RoundTripFacts Demo DemoEnc Props4.
Import ListNotations.
Open Scope Z_scope.

(** ** C35 Typed round trip: Unmarshal of what Marshal wrote for [v], into a
    zero value of the same type, gives [v] back in the sense of [survives]
    (RoundTrip.v).  Guards: the type is plain data and both sides support it;
    the allocator can provide slices no longer than the output; the value nests
    containers less than 10000 deep; and strconv reads back the floats in it. *)
Theorem C35_round_trip : forall X E H ord T v w b,
  fmt_ok X -> fair_order ord -> go_env E -> supported X E T -> data_type E T -> small b ->
  (forall U t n, inside E T U -> kind_of E U = KSlice t -> 0 <= n <= blen b -> x_slots X t n = true) ->
  holds H v w -> Forall (strconv_exact X) (leaves w) -> levels w < 10000 ->
  Marshals X E H ord T v b ->
  exists w', survives X E T w w' /\ Decodes X E b T (zero E T) w'.
Proof. intros X E H ord T v w b. exact (round_trip X E H ord st0 T v w b). Qed.
Print Assumptions C35_round_trip.
(** [survives] leaves nothing but map order open. *)
Theorem C35_survivor_unique : forall X E T w w1 w2, survives X E T w w1 -> survives X E T w w2 -> same w1 w2.
Proof. intros X E T w w1 w2. exact (survives_same X E w T w1 w2). Qed.
Print Assumptions C35_survivor_unique.
(** The exceptions in [survives] are real: the value itself does not come back
    for an empty slice, a nil []byte, a pointer to a nil slice and a field
    tagged "-". *)
Theorem C35_identity_refuted : forall X ord,
  (Marshals X [] [Cells []] ord (TSlice (TInt IInt)) (HSlice (Some (0, 0, 0)%nat)) (bs "a:0:{}") /\
   Decodes X [] (bs "a:0:{}") (TSlice (TInt IInt)) (VSlice None) (VSlice None)) /\
  (Marshals X [] [] ord (TSlice (TUint U8)) (HSlice None) (bs "s:0:"""";") /\
   Decodes X [] (bs "s:0:"""";") (TSlice (TUint U8)) (VSlice None) (VSlice (Some []))) /\
  (Marshals X [] [Cells [HSlice None]] ord (TPtr (TSlice (TInt IInt))) (HPtr (Some (0, 0)%nat)) (bs "N;") /\
   Decodes X [] (bs "N;") (TPtr (TSlice (TInt IInt))) (VPtr None) (VPtr None)) /\
  (let E := [Decl (UStruct [Field (bs "A") true false (bs "-") (TInt IInt)]) NoMethod false] in
   Marshals X E [] ord (TName 0) (HStruct [HInt 1]) (bs "a:0:{}") /\
   Decodes X E (bs "a:0:{}") (TName 0) (VStruct [VInt 0]) (VStruct [VInt 0])).
Proof.
  intros X ord. destruct X. repeat split; exists 9%nat; vm_compute; reflexivity.
Qed.
Print Assumptions C35_identity_refuted.

(** A list containing [T] and closed under components contains all of [T]. *)
Lemma inside_list E T l : In T l -> (forall U V, In U l -> component E U V -> In V l) -> forall U, inside E T U -> In U l.
Proof. intros H0 Hc U Hi. induction Hi; [exact H0|eapply Hc; eassumption]. Qed.
Definition node_tree : gval :=
  VPtr (Some (VStruct [VInt 7; VStr []; VPtr (Some (VStruct [VInt (-1); VStr (bs "yes"); VPtr None; VInt 3; VSlice None])); VInt 0;
                       VSlice (Some [VStr (bs "x"); VStr []])])).
Definition node_types : list gty := [TPtr (TName 0); TName 0; TInt IInt; TString; TSlice TString].
Lemma node_inside U : inside Ed (TPtr (TName 0)) U -> In U node_types.
Proof.
  apply inside_list; [left; reflexivity|]. intros V W Hv Hc.
  repeat (destruct Hv as [<-|Hv]); try destruct Hv;
    inversion Hc as [t [_ Q]|t [_ Q]|n t [_ Q]|k t [_ Q]|k t [_ Q]|id fs f [_ Q] Hf Hi]; cbn in Q; try discriminate Q; injection Q as; subst;
    try (cbn; tauto).
  cbn in Hf. repeat (destruct Hf as [<-|Hf]; [cbn; tauto|]). destruct Hf.
Qed.
Lemma node_data : data_type Ed (TPtr (TName 0)).
Proof. intros U Hu. apply node_inside in Hu. repeat (destruct Hu as [<-|Hu]; [repeat split; reflexivity|]). destruct Hu. Qed.
Lemma node_supported : supported Xd Ed (TPtr (TName 0)).
Proof. apply (compile_supported Xd Ed 9). vm_compute. reflexivity. Qed.
Lemma node_holds : holds Hd (HPtr (Some (2, 0)%nat)) node_tree.
Proof.
  repeat first [eapply ho_ptr; [reflexivity|] | apply ho_ptr_nil | apply ho_struct | apply Forall2_cons | apply Forall2_nil | constructor; fail
    | apply ho_int | apply ho_str | apply ho_slice_nil | eapply ho_slice; [reflexivity|]].
Qed.
Lemma Xd_fmt : fmt_ok Xd.
Proof. intros c s f. split; [discriminate|cbn; intros Q; repeat destruct Q as [Q|Q]; try discriminate; exact Q]. Qed.
Example C35_example : fmt_ok Xd /\ fair_order in_order /\ go_env Ed /\ supported Xd Ed (TPtr (TName 0)) /\
  data_type Ed (TPtr (TName 0)) /\ small node_text /\
  (forall U t n, inside Ed (TPtr (TName 0)) U -> kind_of Ed U = KSlice t -> 0 <= n <= blen node_text -> x_slots Xd t n = true) /\
  holds Hd (HPtr (Some (2, 0)%nat)) node_tree /\ Forall (strconv_exact Xd) (leaves node_tree) /\ levels node_tree < 10000 /\
  Marshals Xd Ed Hd in_order (TPtr (TName 0)) (HPtr (Some (2, 0)%nat)) node_text /\
  Decodes Xd Ed node_text (TPtr (TName 0)) (VPtr None)
    (VPtr (Some (VStruct [VInt 7; VStr []; VPtr (Some (VStruct [VInt (-1); VStr (bs "yes"); VPtr None; VInt 0; VSlice None])); VInt 0;
                          VSlice (Some [VStr (bs "x"); VStr []])]))).
Proof.
  split; [exact Xd_fmt|]. split; [exact in_order_fair|]. split; [exact Ed_go|]. split; [exact node_supported|].
  split; [exact node_data|]. split; [reflexivity|]. split.
  { intros U t n _ _ [_ Hn]. cbn. apply Z.ltb_lt. eapply Z.le_lt_trans; [exact Hn|reflexivity]. }
  split; [exact node_holds|]. split; [|split; [reflexivity|split; [exact node_marshals|exists 12%nat; vm_compute; reflexivity]]].
  repeat constructor.
Qed.

(** ** C37 Map iteration order does not matter: whether Marshal succeeds does
    not depend on it, ... *)
Theorem C37_order_irrelevant : forall X E H ord ord' T v b, fair_order ord -> fair_order ord' ->
  Marshals X E H ord T v b ->
  exists b' p p', Marshals X E H ord' T v b' /\ b = serialize p /\ b' = serialize p' /\ psame p p'.
Proof.
  intros X E H ord ord' T v b Ho Ho' Hm. destruct (marshal_sound_at X E H ord Ho st0 T v b Hm) as (He & p & Hr & _).
  destruct (marshal_complete_at X E H ord' Ho' st0 T v p He Hr) as (b' & Hb').
  destruct (marshal_same X E H ord ord' st0 st0 T v b b' Ho Ho' Hm Hb') as (q & q' & Hq). exists b', q, q'. split; [exact Hb'|exact Hq].
Qed.
Print Assumptions C37_order_irrelevant.
(** ... and outputs written in different orders decode to the same value. *)
Theorem C37_same_value : forall X E H ord ord' T v w b b',
  fmt_ok X -> fair_order ord -> fair_order ord' -> go_env E -> supported X E T -> data_type E T ->
  small b -> small b' ->
  (forall U t n, inside E T U -> kind_of E U = KSlice t -> 0 <= n <= Z.max (blen b) (blen b') -> x_slots X t n = true) ->
  holds H v w -> Forall (strconv_exact X) (leaves w) -> levels w < 10000 ->
  Marshals X E H ord T v b -> Marshals X E H ord' T v b' ->
  exists x x', Decodes X E b T (zero E T) x /\ Decodes X E b' T (zero E T) x' /\ same x x'.
Proof.
  intros X E H ord ord' T v w b b' Hf Ho Ho' Hg Hs Hd Hb Hb' Hsl Hh Hl Hlev Hm Hm'.
  destruct (round_trip X E H ord st0 T v w b) as (x & Hx & Hdx); try assumption.
  { intros U t n Hu Hk Hn. eapply Hsl; [exact Hu|exact Hk|lia]. }
  destruct (round_trip X E H ord' st0 T v w b') as (x' & Hx' & Hdx'); try assumption.
  { intros U t n Hu Hk Hn. eapply Hsl; [exact Hu|exact Hk|lia]. }
  exists x, x'. split; [exact Hdx|]. split; [exact Hdx'|]. exact (survives_same X E w T x x' Hx Hx').
Qed.
Print Assumptions C37_same_value.
Definition H37 : heap := [MapObj [(HStr (bs "a"), HInt 1); (HStr (bs "b"), HInt 2)]].
Example C37_example : exists b b', b <> b' /\
  Marshals Xd Ed H37 in_order (TMap TString (TInt IInt)) (HMap (Some 0%nat)) b /\
  Marshals Xd Ed H37 backwards (TMap TString (TInt IInt)) (HMap (Some 0%nat)) b' /\
  holds H37 (HMap (Some 0%nat)) (VMap (Some [(VStr (bs "a"), VInt 1); (VStr (bs "b"), VInt 2)])) /\
  data_type Ed (TMap TString (TInt IInt)).
Proof.
  eexists. eexists. split; [|split; [exists 9%nat; vm_compute; reflexivity|split; [exists 9%nat; vm_compute; reflexivity|split]]].
  - discriminate.
  - eapply ho_map; [reflexivity| |].
    + apply FOP_cons; [repeat constructor|]. apply FOP_cons; [apply Forall_nil|]. apply FOP_nil.
    + repeat (apply Forall2_cons; [split; constructor|]). apply Forall2_nil.
  - intros U Hu. apply (inside_list Ed _ [TMap TString (TInt IInt); TString; TInt IInt]) in Hu; [|left; reflexivity|].
    + repeat (destruct Hu as [<-|Hu]; [repeat split; reflexivity|]). destruct Hu.
    + intros V W Hv Hc. repeat (destruct Hv as [<-|Hv]); try destruct Hv;
        inversion Hc as [t [_ Q]|t [_ Q]|n t [_ Q]|k t [_ Q]|k t [_ Q]|id fs f [_ Q] Hf Hi]; cbn in Q; try discriminate Q; injection Q as; subst; cbn; tauto.
Qed.

(** ** C41 String-tagged fields round trip.  False for fields of kind string:
    Marshal encodes them, Unmarshal rejects the type whatever the input; and
    for interface fields: a number comes back as a string. *)
Definition E41 : env := [
  Decl (UStruct [Field (bs "S") true false (bs ",string") TString]) NoMethod false;
  Decl (UStruct [Field (bs "A") true false (bs ",string") TAny]) NoMethod false ].
Theorem C41_string_kind_refuted : forall X H ord s,
  (exists b, Marshals X E41 H ord (TName 0) (HStruct [HStr s]) b) /\
  (forall data v, Fails X E41 data (TName 0) v v).
Proof.
  intros X H ord s. destruct X. split.
  - eexists. exists 9%nat. cbv -[serialize out_string app]. reflexivity.
  - intros data v. exists 9%nat. destruct data as [|c data]; eexists; reflexivity.
Qed.
Print Assumptions C41_string_kind_refuted.
Theorem C41_interface_refuted : forall X ord,
  Marshals X E41 [] ord (TName 1) (HStruct [HIface (Some (TInt IInt, HInt 5))]) (bs "a:1:{s:1:""A"";s:1:""5"";}") /\
  Decodes X E41 (bs "a:1:{s:1:""A"";s:1:""5"";}") (TName 1) (VStruct [VIface None]) (VStruct [VIface (Some (TString, VStr (bs "5")))]).
Proof. intros X ord. destruct X. split; exists 9%nat; vm_compute; reflexivity. Qed.
Print Assumptions C41_interface_refuted.
(** A boolean, a number or a pointer to one in a string-tagged field of a plain
    data struct comes back (unless it is left out because of omitempty). *)
Definition number_or_ptr (x : gval) : bool :=
  match x with VPtr None => true | VPtr (Some y) => scalar y | _ => scalar x end.
Theorem C41_string_tag_partial : forall X E H ord T id fs f i v l x b,
  fmt_ok X -> fair_order ord -> go_env E -> supported X E T -> data_type E T -> small b ->
  (forall U t n, inside E T U -> kind_of E U = KSlice t -> 0 <= n <= blen b -> x_slots X t n = true) ->
  holds H v (VStruct l) -> Forall (strconv_exact X) (leaves (VStruct l)) -> levels (VStruct l) < 10000 ->
  Marshals X E H ord T v b ->
  kind_of E T = KStruct id fs -> nth_error fs i = Some f -> tag_string (tag_of X f) = true ->
  nth_error l i = Some x -> number_or_ptr x = true -> ~ left_out X f x ->
  exists l', Decodes X E b T (zero E T) (VStruct l') /\ nth_error l' i = Some x.
Proof.
  intros X E H ord T id fs f i v l x b Hf Ho Hg Hs Hd Hb Hsl Hh Hl Hlev Hm Hk Hi _ Hx Hn Hlo.
  destruct (round_trip X E H ord st0 T v (VStruct l) b) as (w & Hsv & Hdc); try assumption.
  inversion Hsv as [| | | | | | | | | | | |T0 id' fs' l0 l' Hk' Hlen Hfs]; subst; [discriminate|]. replace fs' with fs in * by congruence. clear Hk'.
  exists l'. split; [exact Hdc|]. clear - Hfs Hi Hx Hn Hlo Hlen.
  assert (forall (fs : list field) (l : list gval) i, nth_error fs i = Some f -> nth_error l i = Some x -> nth_error (combine fs l) i = Some (f, x)) as Hc.
  { clear. induction fs as [|g fs IH]; intros [|y l] [|i] Hi Hx; try discriminate; cbn in *; [congruence|]. apply IH; assumption. }
  specialize (Hc _ _ _ Hi Hx). clear Hi Hx Hlen. revert i Hc. induction Hfs as [|e y es ys He _ IH]; intros [|i] Hc; try discriminate Hc; [|exact (IH i Hc)].
  cbn in Hc. injection Hc as ->. cbn [fst snd] in He. destruct He as [[Q _]|[_ He]]; [contradiction|]. cbn. f_equal.
  clear - He Hn. destruct x; try discriminate Hn; inversion He; subst; try reflexivity; try discriminate.
  - match goal with Q : written_null _ _ _ |- _ => destruct Q; discriminate Hn end.
  - match goal with Q : survives _ _ _ _ _ |- _ => inversion Q; subst; try reflexivity; discriminate Hn end.
Qed.
Print Assumptions C41_string_tag_partial.
Example C41_example : exists b : bytes, Marshals Xd E29 [] in_order (TName 0) (HStruct [HInt (-5); HUint 18446744073709551615]) b /\ Decodes Xd E29 b (TName 0) (VStruct [VInt 0; VUint 0]) (VStruct [VInt (-5); VUint 18446744073709551615]).
Proof. eexists. split; [exists 9%nat; vm_compute; reflexivity|]. exists 9%nat. vm_compute. reflexivity. Qed.

(** ** C42 Floats.  The special values, whatever strconv does: *)
Definition specials : list (spec_float * bytes) :=
  [(S754_nan, bs "d:NAN;"); (S754_infinity false, bs "d:INF;"); (S754_infinity true, bs "d:-INF;")].
Theorem C42_specials : forall X E H ord, Forall (fun e =>
    Marshals X E H ord TF64 (HF64 (fst e)) (snd e) /\ (forall v, Decodes X E (snd e) TF64 v (VF64 (fst e))) /\
    Marshals X E H ord TF32 (HF32 (fst e)) (snd e) /\ (forall v, Decodes X E (snd e) TF32 v (VF32 (fst e)))) specials.
Proof.
  intros X E H ord. destruct X. repeat (apply Forall_cons; [|]); [| | |apply Forall_nil];
    (split; [|split; [|split]]); try (exists 9%nat; vm_compute; reflexivity); intros v; exists 9%nat; vm_compute; reflexivity.
Qed.
Print Assumptions C42_specials.
(** Every other float is written d:<text>; with the text strconv chooses, and
    comes back if strconv reads its own text back (for a float32: if the text,
    read as a float64, is not beyond MaxFloat32). *)
Theorem C42_floats_partial : forall X E H ord f,
  fmt_ok X ->
  (exists b, Marshals X E H ord TF64 (HF64 f) b /\ b = bs "d:" ++ float_repr X false f ++ bs ";" /\
    (small b -> strconv_exact X (VF64 f) -> forall v, Decodes X E b TF64 v (VF64 f))) /\
  (exists b, Marshals X E H ord TF32 (HF32 f) b /\ b = bs "d:" ++ float_repr X true f ++ bs ";" /\
    (small b -> strconv_exact X (VF32 f) -> forall v, Decodes X E b TF32 v (VF32 f))).
Proof.
  intros X E H ord f Hf.
  assert (forall T, T = TF64 \/ T = TF32 -> supported X E T) as Hs.
  { intros T [->| ->]; apply (compile_supported X E 9); destruct X; reflexivity. }
  split; (eexists; split; [|split; [reflexivity|]]).
  - exists 9%nat. change (ROk (out_float X false f) = ROk (serialize (PFloat (float_repr X false f)))). rewrite out_float_eq. reflexivity.
  - intros Hsm Hx v. apply (decodes_store X E TF64 (LFloat (float_repr X false f))); [exact Hsm|apply Hs; tauto|].
    destruct (float_repr_chars X Hf false f) as [Hc1 Hc2]. apply sto_f64; [split; reflexivity|exact Hc1|exact Hc2|exact (back64 X f Hx)].
  - exists 9%nat. change (ROk (out_float X true f) = ROk (serialize (PFloat (float_repr X true f)))). rewrite out_float_eq. reflexivity.
  - intros Hsm Hx v. apply (decodes_store X E TF32 (LFloat (float_repr X true f))); [exact Hsm|apply Hs; tauto|].
    destruct (float_repr_chars X Hf true f) as [Hc1 Hc2]. destruct (back32 X f Hx) as (g & Hg1 & Hg2 & <-). apply sto_f32; [split; reflexivity|exact Hc1|exact Hc2|exact Hg1|exact Hg2].
Qed.
Print Assumptions C42_floats_partial.
(** The guard on float32 fails: MaxFloat32 is written 3.4028235e+38, which as a
    float64 is greater than MaxFloat32, so Unmarshal reports an overflow. *)
Definition max_float32 : spec_float := S754_finite false 16777215 104.
Theorem C42_maxfloat32_refuted : forall X E H ord v,
  x_fmt X "e"%byte true max_float32 = bs "3.4028235e+38" ->
  x_parse X (bs "3.4028235e+38") = Some (S754_finite false 9007198806847480 75) ->
  Marshals X E H ord TF32 (HF32 max_float32) (bs "d:3.4028235e+38;") /\
  Fails X E (bs "d:3.4028235e+38;") TF32 v v.
Proof.
  intros X E H ord v Hf Hp. destruct X as [fm pa le un uq sl ma]. cbn in Hf, Hp. split.
  - exists 9%nat. change (ROk (serialize (PFloat (fm "e"%byte true max_float32))) = ROk (bs "d:3.4028235e+38;")). rewrite Hf. reflexivity.
  - exists 9%nat, (EOverflow (OvFloat (S754_finite false 9007198806847480 75))). cbv -[SFltb SFleb] in Hp. cbv -[SFltb SFleb max_f32 max_f64]. rewrite Hp. reflexivity.
Qed.
Print Assumptions C42_maxfloat32_refuted.
(** A choice of strconv's functions that meets the hypotheses. *)
Definition X42 : Ext := {|
  x_fmt := fun c single f => if SFeqb f max_float32 then bs "3.4028235e+38" else bs "1.5";
  x_parse := fun b => if bytes_eqb b (bs "3.4028235e+38") then Some (S754_finite false 9007198806847480 75)
                      else if bytes_eqb b (bs "1.5") then Some (S754_finite false 6755399441055744 (-52)) else None;
  x_letter := x_letter Xd; x_unmarshal := x_unmarshal Xd; x_unquote := x_unquote Xd; x_slots := x_slots Xd; x_marshal := x_marshal Xd; x_addr := x_addr Xd |}.
Example C42_example : fmt_ok X42 /\
  strconv_exact X42 (VF64 (S754_finite false 6755399441055744 (-52))) /\ strconv_exact X42 (VF32 (S754_finite false 12582912 (-23))) /\
  x_fmt X42 "e"%byte true max_float32 = bs "3.4028235e+38" /\ exponent_form true max_float32 = true.
Proof.
  split. { intros c s f. cbn. destruct (SFeqb f max_float32); (split; [discriminate|cbn; intros Q; repeat destruct Q as [Q|Q]; try discriminate; exact Q]). }
  split; [|split; [|split; reflexivity]].
  - intros c _. right. right. right. repeat split; discriminate.
  - intros c _. exists (S754_finite false 6755399441055744 (-52)). split; [|split; vm_compute; reflexivity]. right. right. right. repeat split; discriminate.
Qed.

(** ** C45 Field names: Marshal writes a field under a key iff Unmarshal reads
    it from that key.  False for tags that start with "-,": Marshal takes the
    name "-" to mean that the field is left out, Unmarshal takes it as a name. *)
Theorem C45_naming_refuted : forall X ord,
  let E := [Decl (UStruct [Field (bs "A") true false (bs "-,omitempty") (TInt IInt)]) NoMethod false] in
  Marshals X E [] ord (TName 0) (HStruct [HInt 5]) (bs "a:0:{}") /\
  Decodes X E (bs "a:1:{s:1:""-"";i:5;}") (TName 0) (VStruct [VInt 0]) (VStruct [VInt 5]).
Proof. intros X ord. destruct X. split; exists 9%nat; vm_compute; reflexivity. Qed.
Print Assumptions C45_naming_refuted.
(** For every other tag: of a struct with one field of any name, exported or
    not, and any tag without the string option, Marshal writes the value [z]
    as {k: z} iff Unmarshal reads {k: z} as the value [z]. *)
Definition one_field (name : bytes) (ex : bool) (tag : bytes) : field := Field name ex false tag (TInt IInt).
Definition one_field_env (name : bytes) (ex : bool) (tag : bytes) : env :=
  [Decl (UStruct [one_field name ex tag]) NoMethod false].
Lemma split_head s : exists p ps, split_comma s = p :: ps.
Proof. induction s as [|c s IH]; [eexists; eexists; reflexivity|]. cbn. destruct (c =b ","%byte); [eexists; eexists; reflexivity|]. destruct IH as (p & ps & ->). eexists; eexists; reflexivity. Qed.
Lemma split_dash s ps : split_comma s = bs "-" :: ps -> s = bs "-" \/ exists r, s = bs "-," ++ r.
Proof.
  destruct s as [|c s]; [discriminate|]. cbn [split_comma]. destruct (c =b ","%byte); [discriminate|].
  destruct (split_head s) as (p & qs & Hq). rewrite Hq. intros Q. injection Q as Hc Hp Hps. subst c p.
  destruct s as [|c s]; [left; reflexivity|]. right. exists s. cbn [split_comma] in Hq. destruct (c =b ","%byte) eqn:Hc.
  - apply Byte.byte_dec_bl in Hc. subst c. reflexivity.
  - destruct (split_comma s); discriminate.
Qed.
Lemma naming_agrees X f : f_name f <> bs "-" -> (forall r, f_tag f <> bs "-," ++ r) -> written_field X f = negb (is_ignored f).
Proof.
  intros Hn Ht. unfold written_field, is_ignored. rewrite negb_orb, negb_involutive. f_equal.
  destruct (bytes_eqb (f_tag f) (bs "-")) eqn:Q1.
  - apply bytes_eqb_eq in Q1. unfold tag_of. rewrite Q1. cbn. reflexivity.
  - f_equal. apply bytes_eqb_neq in Q1. apply not_true_is_false. intros Q. apply bytes_eqb_eq in Q. unfold tag_of in Q.
    destruct (split_head (f_tag f)) as (p & ps & Hp). rewrite Hp in Q. cbn [tag_key] in Q.
    destruct p as [|c p]; [contradiction|]. destruct (is_valid_tag X (c :: p)); [|contradiction]. rewrite Q in Hp.
    destruct (split_dash _ _ Hp) as [Hd|[r Hd]]; [contradiction|exact (Ht r Hd)].
Qed.
Section OneField.
  Context (X : Ext) (ord : nat -> list (hval * hval) -> list (hval * hval)) (name : bytes) (ex : bool) (tag : bytes).
  Hypothesis Hord : fair_order ord.
  Hypothesis Hts : tag_string (tag_of X (one_field name ex tag)) = false.
  Notation f1 := (one_field name ex tag).
  Notation E := (one_field_env name ex tag).

  Lemma one_inside U : inside E (TName 0) U -> U = TName 0 \/ U = TInt IInt.
  Proof.
    intros Hu. apply (inside_list E _ [TName 0; TInt IInt]) in Hu; [cbn in Hu; intuition auto|left; reflexivity|].
    intros V W [<-|[<-|[]]] Hc; inversion Hc as [t [_ Q]|t [_ Q]|n t [_ Q]|k t [_ Q]|k t [_ Q]|id fs f [_ Q] Hf Hi]; cbn in Q; try discriminate Q.
    injection Q as <- <-. destruct Hf as [<-|[]]. cbn. tauto.
  Qed.
  Lemma one_supported : supported X E (TName 0).
  Proof.
    apply (compile_supported X E 2). cbn. rewrite Hts. destruct (is_ignored f1); reflexivity.
  Qed.
  Lemma one_encodable : encodable X E (TName 0).
  Proof.
    assert (forall u, einside X E (false, TName 0) u -> u = (false, TName 0) \/ u = (false, TInt IInt)) as Hin.
    { intros u Hu. induction Hu as [|u w Hu IH Hp]; [left; reflexivity|].
      destruct IH as [-> | ->]; inversion Hp as [v _ Q|v _ _ Q|k v _ Q|k v _ Q|id fs f _ Q Hf]; cbn in Q; try discriminate Q.
      injection Q as <- <-. destruct Hf as [<-|[]]. right. reflexivity. }
    split; [|intros a k u Ha _ Hk; apply Hin in Ha as [-> | ->]; discriminate Hk]. intros u Hu Hx. apply Hin in Hu as [-> | ->];
      inversion Hx as [_ Q|_ Q|v w _ Q|k v _ Q|id fs f _ Q Hf Hw Ha|id fs f v w _ Q Hf Hw Hv|id fs f _ Q Hf Hw Ht]; cbn in Q; try discriminate Q; injection Q as <- <-; destruct Hf as [<-|[]]; try discriminate.
  Qed.
  Lemma one_marshals z b : int_range IInt z -> z <> 0 ->
    (Marshals X E [] ord (TName 0) (HStruct [HInt z]) b <->
     b = serialize (PArr (if written_field X f1 then [(PStr (field_key X f1), PInt z)] else []))).
  Proof.
    intros Hz Hnz.
    assert (forall b, Marshals X E [] ord (TName 0) (HStruct [HInt z]) b ->
     b = serialize (PArr (if written_field X f1 then [(PStr (field_key X f1), PInt z)] else []))) as Hone.
    { clear b. intros b Hm. destruct (marshal_struct X E [] ord st0 (TName 0) 0%nat [f1] _ b Hord eq_refl eq_refl Hm) as (l & sel & ps & Q & _ & Hsel & Hps & ->).
      injection Q as <-. cbn [combine] in Hsel. inversion Hsel as [|x m m' [Hs _] Hr|x m m' Hs Hr]; subst; inversion Hr; subst.
      - cbn [fst] in Hs. rewrite Hs. inversion Hps as [|e y es ys [Hk Hf] Hy]; subst. inversion Hy; subst. destruct y as [ky vy]. cbn [fst snd] in *. subst ky.
        apply C31_plain_field in Hf; [|reflexivity|exact Hts]. inversion Hf; subst; try discriminate. match goal with Q : shape _ _ _ _ _ _ _ _ |- _ => inversion Q; subst; try discriminate end.
        match goal with Q : scalar_repr _ _ _ _ |- _ => inversion Q; subst end. reflexivity.
      - destruct (written_field X f1) eqn:Hw; [|inversion Hps; reflexivity]. exfalso. apply Hs. split; [exact Hw|]. cbn. intros [_ Hzv]. inversion Hzv. congruence. }
    split; [apply Hone|]. intros ->.
    destruct (marshal_complete_at X E [] ord Hord st0 (TName 0) (HStruct [HInt z]) (PArr (if written_field X f1 then [(PStr (field_key X f1), PInt z)] else [])) one_encodable) as (b & Hb).
    - apply rp_shape; [reflexivity|reflexivity|]. eapply sh_struct; [reflexivity|]. destruct (written_field X f1) eqn:Hw.
      + apply fl_write; [exact Hw|intros _ Q; inversion Q; congruence| |apply fl_nil].
        apply fv_plain; [reflexivity|exact Hts|]. apply rp_shape; [reflexivity|reflexivity|]. apply sh_scalar. apply sr_int. exact Hz.
      + apply fl_skip; [exact Hw|apply fl_nil].
    - pose proof (Hone _ Hb) as Q. rewrite Q in Hb. exact Hb.
  Qed.
  Lemma one_decodes z k : int_range IInt z -> z <> 0 -> small (serialize (PArr [(PStr k, PInt z)])) ->
    (Decodes X E (serialize (PArr [(PStr k, PInt z)])) (TName 0) (VStruct [VInt 0]) (VStruct [VInt z]) <->
     is_ignored f1 = false /\ field_key X f1 = k).
  Proof.
    intros Hz Hnz. rewrite serialize_text by reflexivity. intros Hsm.
    rewrite (decodes_text X E (TName 0)) by (first [exact Hsm|exact one_supported|apply syntax_wf; split; reflexivity]).
    assert (lookup X [f1] k = if negb (is_ignored f1) && bytes_eqb (field_key X f1) k then Some (0%nat, f1) else None) as Hlk by reflexivity.
    assert (string_tagged X E f1 = false) as Hst by (unfold string_tagged; rewrite Hts; reflexivity). split.
    - intros Hsto. inversion Hsto; subst; try (match goal with Q : plain _ _ _ |- _ => destruct Q; discriminate end); try discriminate.
      match goal with Q : plain _ _ (KStruct _ _) |- _ => destruct Q as [_ Q']; cbn in Q'; injection Q' as <- <- end.
      match goal with Q : body_of _ _ _ |- _ => inversion Q; subst end. cbn [map fst snd] in *.
      match goal with Q : struct_entries _ _ _ _ _ _ _ _ |- _ => rename Q into Hse end.
      assert (forall k', key_text (syntax (PStr k)) k' -> k' = k) as Hkt by (intros k' Q; inversion Q; reflexivity).
      destruct (negb (is_ignored f1) && bytes_eqb (field_key X f1) k) eqn:Hb.
      + apply andb_true_iff in Hb as [Hb1 Hb2]. apply negb_true_iff in Hb1. apply bytes_eqb_eq in Hb2. auto.
      + inversion Hse; subst; match goal with Q : key_text _ _ |- _ => apply Hkt in Q; subst end; rewrite Hlk in *; try discriminate.
        match goal with Q : struct_entries _ _ _ _ _ _ _ _ |- _ => inversion Q; subst end. congruence.
    - intros [Hi Hk]. eapply sto_struct; [split; reflexivity|reflexivity|apply body_arr|apply (proj1 (decimal_numeral 1 ltac:(lia)))|].
      eapply ste_known with (i := 0%nat) (f := f1); [apply kt_str; apply str_ok_dec|rewrite Hlk, Hi, Hk; replace (bytes_eqb k k) with true by (symmetry; apply bytes_eqb_eq; reflexivity); reflexivity|reflexivity|exact Hst| |apply ste_nil].
      eapply sto_int; [split; reflexivity|apply decimal_int_text|exact Hz].
  Qed.
End OneField.
Theorem C45_naming_partial : forall X ord name ex tag k z,
  fair_order ord -> name <> bs "-" -> (forall r, tag <> bs "-," ++ r) ->
  tag_string (tag_of X (one_field name ex tag)) = false -> int_range IInt z -> z <> 0 ->
  let b := serialize (PArr [(PStr k, PInt z)]) in small b ->
  (Marshals X (one_field_env name ex tag) [] ord (TName 0) (HStruct [HInt z]) b <->
   Decodes X (one_field_env name ex tag) b (TName 0) (VStruct [VInt 0]) (VStruct [VInt z])).
Proof.
  intros X ord name ex tag k z Ho Hn Ht Hts Hz Hnz b Hsm. unfold b in *.
  rewrite one_marshals by assumption. rewrite one_decodes by assumption.
  rewrite (naming_agrees X (one_field name ex tag) Hn Ht). destruct (is_ignored (one_field name ex tag)) eqn:Hi; cbn [negb].
  - split; [|intros [Q _]; discriminate]. intros Q. exfalso. rewrite <- (app_nil_r (serialize _)) in Q. rewrite <- (app_nil_r (serialize (PArr []))) in Q.
    apply serialize_inj in Q as [Q _]; [discriminate|split; reflexivity|split; reflexivity].
  - split.
    + intros Q. split; [reflexivity|]. rewrite <- (app_nil_r (serialize _)) in Q. symmetry in Q. rewrite <- (app_nil_r (serialize _)) in Q.
      apply serialize_inj in Q as [Q _]; [congruence|split; reflexivity|split; reflexivity].
    + intros [_ ->]. reflexivity.
Qed.
Print Assumptions C45_naming_partial.
Example C45_example : fair_order in_order /\ bs "Name" <> bs "-" /\ (forall r, bs "my_name,omitempty" <> bs "-," ++ r) /\
  tag_string (tag_of Xd (one_field (bs "Name") true (bs "my_name,omitempty"))) = false /\
  Marshals Xd (one_field_env (bs "Name") true (bs "my_name,omitempty")) [] in_order (TName 0) (HStruct [HInt 5]) (bs "a:1:{s:7:""my_name"";i:5;}").
Proof. split; [exact in_order_fair|]. split; [discriminate|]. split; [discriminate|]. split; [reflexivity|]. exists 9%nat. vm_compute. reflexivity. Qed.
