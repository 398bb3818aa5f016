(** Unmarshal and Marshal together, the other way round: PHP data that goes
    through Go (C75). *)
From Coq Require Import Strings.String Strings.Byte ZArith List Bool Lia Floats.SpecFloat Permutation.
From Verif Require Import Base GoTypes Strconv Tags Grammar Denote Typing NumFacts NumEnc Api Unmarshal CompileFacts UnmFacts StructFacts Memory EncCompile Encode Php Repr EncApi EncCompileFacts EncSound MarshalFacts ReprFacts PhpFacts RoundTrip RoundTripFacts AnyTripFacts Mirror MirrorFacts MirrorExact QuietFacts Demo DemoEnc Props4 Props5.
Import ListNotations.
Open Scope Z_scope.

(** ** C75 PHP data whose shape fits a Go type ([mirrors], Mirror.v) survives a
    trip through Go: Unmarshal into a zero value of the type accepts it, and
    Marshal of any value that holds the result writes the same data again; only
    arrays that Go keeps in maps may have their entries in another order. *)
Theorem C75_survives : forall X E T p w,
  fmt_ok X -> go_env E -> supported X E T -> encodable X E T -> small (serialize p) ->
  (forall U t n, inside E T U -> kind_of E U = KSlice t -> 0 <= n <= blen (serialize p) -> x_slots X t n = true) ->
  mirrors X E T p w -> array_depth p <= 1000 ->
  Decodes X E (serialize p) T (zero E T) w /\
  forall H ord v, fair_order ord -> holds H v w ->
  (exists b, Marshals X E H ord T v b) /\
  (forall b, Marshals X E H ord T v b -> exists q, b = serialize q /\ reordered X E T p q).
Proof.
  intros X E T p w Hfmt Hgo Hsup Henc Hsm Hsl Hm Hdep. split.
  - assert (blen (serialize p) < max_int64) as HN by (unfold small in Hsm; unfold max_int64; lia).
    destruct (proj1 (read X E T (blen (serialize p)) Hgo Hfmt HN Hsup Hsl) T p w Hm 0) as (Hraw & Hst).
    + apply Typing.in_refl.
    + lia.
    + unfold limit. lia.
    + lia.
    + rewrite serialize_text in * by exact Hraw. apply decodes_store; assumption.
  - intros H ord v Ho Hh. split.
    + apply (marshal_shallow X E H ord Ho T v p Henc).
      refine (proj1 (written X E H nested_1000 (fun s => 1000 - fst s) _) T p w Hm (0, []) v Hh _).
      * intros s a Hr. exists (fst s + 1, snd s). cbn [fst snd]. split; [split; [lia|reflexivity]|lia].
      * cbn [fst]. pose proof (need_le E T p). lia.
    + intros b Hb. destruct (marshal_represents X E H ord Ho _ _ _ _ Hb) as (q & Hq & ->). exists q. split; [reflexivity|].
      exact (proj1 (only X E H) T p w Hm tt v q Hh Hq).
Qed.
Print Assumptions C75_survives.

(** Without maps the bytes are the same. *)
Lemma reordered_same X E T0 : (forall U, inside E T0 U -> has_unmarshal E U = None /\ forall k t, kind_of E U <> KMap k t) ->
  forall T p q, reordered X E T p q -> inside E T0 T -> p = q.
Proof.
  intros Hno. fix IH 4. intros T p q R HI.
  assert (forall t, (inside E T0 t) -> forall ps qs, Forall2 (fun a b : php * php => fst a = fst b /\ reordered X E t (snd a) (snd b)) ps qs -> ps = qs) as L.
  { intros t Ht. fix IHl 3. intros ps qs [|[k1 a] [k2 b] ps' qs' [Hk Hr] F]; [reflexivity|]. cbn [fst snd] in *. rewrite (IH _ _ _ Hr Ht), Hk, (IHl _ _ F). reflexivity. }
  destruct R as [T p|T t ps qs K F|T n t ps qs K F|T k t ps ps' qs K _ F|T id fs ps qs K F|T t p q K R]; destruct (Hno T HI) as [Hu Hk].
  - reflexivity.
  - rewrite (L t) with (ps := ps) (qs := qs); [reflexivity| |exact F]. eapply in_step; [exact HI|eapply co_slice; split; eassumption].
  - rewrite (L t) with (ps := ps) (qs := qs); [reflexivity| |exact F]. eapply in_step; [exact HI|eapply co_array; split; eassumption].
  - exfalso. exact (Hk _ _ K).
  - enough (ps = qs) as -> by reflexivity. clear L. revert ps qs F. fix IHl 3. intros ps qs [|[k1 a] [k2 b] ps' qs' [Hkk (f & Hf & Hw & _ & Hr)] F]; [reflexivity|]. cbn [fst snd] in *.
    assert (inside E T0 (f_ty f)) as HIf by (eapply in_step; [exact HI|eapply co_field; [split; eassumption|exact Hf|exact (written_not_ignored _ _ Hw)]]).
    rewrite (IH _ _ _ Hr HIf), Hkk, (IHl _ _ F). reflexivity.
  - apply (IH t p q R). eapply in_step; [exact HI|eapply co_ptr; split; eassumption].
Qed.
Theorem C75_same_bytes : forall X E T p w H ord v,
  fmt_ok X -> go_env E -> supported X E T -> encodable X E T -> small (serialize p) ->
  (forall U t n, inside E T U -> kind_of E U = KSlice t -> 0 <= n <= blen (serialize p) -> x_slots X t n = true) ->
  (forall U, inside E T U -> has_unmarshal E U = None /\ forall k t, kind_of E U <> KMap k t) ->
  mirrors X E T p w -> array_depth p <= 1000 -> fair_order ord -> holds H v w ->
  Decodes X E (serialize p) T (zero E T) w /\ Marshals X E H ord T v (serialize p).
Proof.
  intros X E T p w H ord v Hfmt Hgo Hsup Henc Hsm Hsl Hno Hm Hdep Ho Hh.
  destruct (C75_survives X E T p w Hfmt Hgo Hsup Henc Hsm Hsl Hm Hdep) as [HD HM]. split; [exact HD|].
  destruct (HM H ord v Ho Hh) as [[b Hb] Hall]. destruct (Hall b Hb) as (q & -> & Hr).
  rewrite <- (reordered_same X E T Hno T p q Hr (Typing.in_refl E T)) in Hb. exact Hb.
Qed.
Print Assumptions C75_same_bytes.

(** Nothing else survives: if the types have no methods, and Marshal of the
    result writes the bytes that were read, then the data fits the type. *)
Theorem C75_exact : forall X E T p w H ord v,
  fmt_ok X -> go_env E -> (forall U, inside E T U -> has_unmarshal E U = None /\ marshaler E U = false) ->
  php_ok p -> small (serialize p) -> Decodes X E (serialize p) T (zero E T) w ->
  fair_order ord -> holds H v w -> Marshals X E H ord T v (serialize p) ->
  mirrors X E T p w.
Proof.
  intros X E T p w H ord v Hfmt Hgo Hfree Hok Hsm HD Ho Hh HM.
  destruct (marshal_represents X E H ord Ho _ _ _ _ HM) as (q & Hq & Hpq).
  destruct (decodes_inv X E _ T _ w Hsm HD) as (_ & p0 & _ & Hst0).
  assert (php_ok q) as Hokq by (split; [exact (decoded_unspoken X E H T p0 w v q Hfree Hst0 Hh Hq)|exact (proj1 (repr_floats X E H anything Hfmt) _ _ _ _ Hq)]).
  destruct (serialize_inj p q [] [] Hok Hokq) as [<- _]; [rewrite !app_nil_r; exact Hpq|].
  pose proof (proj1 (decodes_inv X E _ T _ w Hsm HD)) as Hsup. rewrite serialize_text in HD, Hsm by apply Hok.
  apply (decodes_text X E T) in HD; [|exact Hsm|apply syntax_wf; exact Hok|exact Hsup].
  exact (proj1 (exact X E H T Hgo Hsup Hfree) tt T v p Hq 0 w (Typing.in_refl E T) Hh HD).
Qed.
Print Assumptions C75_exact.

(** A page with a number, a list, a map, an optional page and a number that is
    kept as text. *)
Definition E75 : env := [Decl (UStruct [
  Field (bs "ID") true false (bs "id") (TInt IInt);
  Field (bs "Tags") true false [] (TSlice TString);
  Field (bs "Meta") true false (bs "meta") (TMap TString TAny);
  Field (bs "Next") true false (bs "next,omitempty") (TPtr (TName 0));
  Field (bs "Size") true false (bs "size,string") (TInt I64) ]) NoMethod false].
Definition page_data : php := PArr [
  (PStr (bs "id"), PInt 7);
  (PStr (bs "Tags"), PArr [(PInt 0, PStr (bs "a")); (PInt 1, PStr (bs "b"))]);
  (PStr (bs "meta"), PArr [(PStr (bs "x"), PBool true); (PStr (bs "y"), PInt (-3)); (PStr (bs "z"), PNull)]);
  (PStr (bs "next"), PArr [(PStr (bs "id"), PInt 8); (PStr (bs "Tags"), PNull); (PStr (bs "meta"), PArr []); (PStr (bs "size"), PStr (bs "0"))]);
  (PStr (bs "size"), PStr (bs "42"))].
Definition page_value : gval := VStruct [
  VInt 7;
  VSlice (Some [VStr (bs "a"); VStr (bs "b")]);
  VMap (Some [(VStr (bs "x"), VIface (Some (TBool, VBool true))); (VStr (bs "y"), VIface (Some (TInt I64, VInt (-3)))); (VStr (bs "z"), VIface None)]);
  VPtr (Some (VStruct [VInt 8; VSlice None; VMap (Some []); VPtr None; VInt 0]));
  VInt 42].
Definition H75 : heap := [Cells [HStr (bs "a"); HStr (bs "b")];
  MapObj [(HStr (bs "x"), HIface (Some (TBool, HBool true))); (HStr (bs "y"), HIface (Some (TInt I64, HInt (-3)))); (HStr (bs "z"), HIface None)];
  MapObj [];
  Cells [HStruct [HInt 8; HSlice None; HMap (Some 2%nat); HPtr None; HInt 0]]].
Definition page : hval := HStruct [HInt 7; HSlice (Some (0, 0, 2)%nat); HMap (Some 1%nat); HPtr (Some (3, 0)%nat); HInt 42].

Definition page_types : list gty := [TName 0; TInt IInt; TSlice TString; TString; TMap TString TAny; TAny; TPtr (TName 0); TInt I64].
Lemma page_inside U : inside E75 (TName 0) U -> In U page_types.
Proof.
  apply inside_list; [left; reflexivity|]. intros V W Hv Hc.
  repeat (destruct Hv as [<-|Hv]); try destruct Hv;
    inversion Hc as [t [_ Q]|t [_ Q]|n t [_ Q]|k t [_ Q]|k t [_ Q]|id fs f [_ Q] Hf Hi]; cbn in Q; try discriminate Q; injection Q as; subst;
    try (cbn; tauto).
  cbn in Hf. repeat (destruct Hf as [<-|Hf]; [cbn; tauto|]). destruct Hf.
Qed.
Lemma page_methods U : inside E75 (TName 0) U -> has_unmarshal E75 U = None /\ marshaler E75 U = false.
Proof. intros Hu. apply page_inside in Hu. repeat (destruct Hu as [<-|Hu]; [split; reflexivity|]). destruct Hu. Qed.
Ltac smpl := split; [reflexivity|split; reflexivity].
Ltac mir := repeat first
  [ eapply mi_slice_null; [smpl|reflexivity] | eapply mi_slice; [smpl|reflexivity|discriminate|]
  | eapply mi_ptr_null; [smpl] | eapply mi_ptr; [smpl|discriminate|]
  | eapply mi_iface_null; [smpl|reflexivity]
  | eapply mi_any; [smpl|cbn; tauto|]
  | eapply mi_struct; [smpl|] | eapply mi_bool; smpl | eapply mi_int; [smpl|split; [discriminate|reflexivity]] | eapply mi_str; smpl
  | apply ml_nil | apply ml_cons | apply mm_nil | eapply mm_cons; [reflexivity| | |]
  | apply mf_nil ].

Lemma page_mirrors : mirrors Xd E75 (TName 0) page_data page_value.
Proof.
  eapply mi_struct; [smpl|]. apply (mf_write Xd E75 (Field (bs "ID") true false (bs "id") (TInt IInt))); [reflexivity|discriminate|apply mv_plain; [reflexivity|mir]|].
  apply (mf_write Xd E75 (Field (bs "Tags") true false [] (TSlice TString))); [reflexivity|discriminate|apply mv_plain; [reflexivity|mir]|].
  apply (mf_write Xd E75 (Field (bs "Meta") true false (bs "meta") (TMap TString TAny))); [reflexivity|discriminate|apply mv_plain; [reflexivity|]|].
  { eapply mi_map; [smpl| |mir]. repeat constructor. }
  apply (mf_write Xd E75 (Field (bs "Next") true false (bs "next,omitempty") (TPtr (TName 0)))); [reflexivity|intros _ Q; inversion Q|apply mv_plain; [reflexivity|]|].
  { eapply mi_ptr; [smpl|discriminate|]. eapply mi_struct; [smpl|].
    apply (mf_write Xd E75 (Field (bs "ID") true false (bs "id") (TInt IInt))); [reflexivity|discriminate|apply mv_plain; [reflexivity|mir]|].
    apply (mf_write Xd E75 (Field (bs "Tags") true false [] (TSlice TString))); [reflexivity|discriminate|apply mv_plain; [reflexivity|mir]|].
    apply (mf_write Xd E75 (Field (bs "Meta") true false (bs "meta") (TMap TString TAny))); [reflexivity|discriminate|apply mv_plain; [reflexivity|]|].
    { eapply mi_map; [smpl|apply FOP_nil|apply mm_nil]. }
    apply (mf_omit Xd E75 (Field (bs "Next") true false (bs "next,omitempty") (TPtr (TName 0)))); [reflexivity|reflexivity|].
    apply (mf_write Xd E75 (Field (bs "Size") true false (bs "size,string") (TInt I64))); [reflexivity|discriminate| |apply mf_nil].
    apply mv_text; [reflexivity|]. apply (mt_int Xd E75 (TInt I64) I64 0); [smpl|split; [discriminate|reflexivity]]. }
  apply (mf_write Xd E75 (Field (bs "Size") true false (bs "size,string") (TInt I64))); [reflexivity|discriminate| |apply mf_nil].
  apply mv_text; [reflexivity|]. apply (mt_int Xd E75 (TInt I64) I64 42); [smpl|split; [discriminate|reflexivity]].
Qed.
Lemma page_holds : holds H75 page page_value.
Proof.
  repeat first [eapply ho_ptr; [reflexivity|] | apply ho_ptr_nil | apply ho_struct | apply Forall2_cons | apply Forall2_nil
    | apply ho_int | apply ho_str | apply ho_bool | apply ho_slice_nil | eapply ho_slice; [reflexivity|] | eapply ho_map; [reflexivity|repeat constructor|]
    | apply ho_iface_nil | apply ho_iface | split ].
Qed.
Lemma E75_go : go_env E75.
Proof.
  split.
  - exists (fun _ => 0%nat). intros n d Hn. destruct n as [|[|n]]; try discriminate. cbn in Hn. injection Hn as <-. split; [cbn; lia|]. intros m Hm. cbn in Hm. tauto.
  - intros n d t m Hn Hd. destruct n as [|[|n]]; try discriminate. cbn in Hn. injection Hn as <-. discriminate.
Qed.
Example C75_example : fmt_ok Xd /\ go_env E75 /\ supported Xd E75 (TName 0) /\ encodable Xd E75 (TName 0) /\ small (serialize page_data) /\
  (forall U t n, inside E75 (TName 0) U -> kind_of E75 U = KSlice t -> 0 <= n <= blen (serialize page_data) -> x_slots Xd t n = true) /\
  (forall U, inside E75 (TName 0) U -> has_unmarshal E75 U = None /\ marshaler E75 U = false) /\
  mirrors Xd E75 (TName 0) page_data page_value /\ array_depth page_data <= 1000 /\ php_ok page_data /\
  fair_order in_order /\ fair_order backwards /\ holds H75 page page_value /\ unspoken Xd E75 H75 (TName 0) page /\
  Marshals Xd E75 H75 in_order (TName 0) page (serialize page_data) /\ (exists b, b <> serialize page_data /\ Marshals Xd E75 H75 backwards (TName 0) page b).
Proof.
  split; [exact Xd_fmt|]. split; [exact E75_go|]. split; [apply (compile_supported Xd E75 9); vm_compute; reflexivity|].
  assert (Marshals Xd E75 H75 in_order (TName 0) page (serialize page_data)) as HM by (exists 12%nat; vm_compute; reflexivity).
  assert (encodable Xd E75 (TName 0)) as He by (destruct (marshal_sound_at Xd E75 H75 in_order in_order_fair _ _ _ _ HM) as [He _]; exact He).
  split; [exact He|]. split; [reflexivity|]. split.
  { intros U t n _ _ [_ Hn]. cbn. apply Z.ltb_lt. eapply Z.le_lt_trans; [exact Hn|reflexivity]. }
  split; [exact page_methods|]. split; [exact page_mirrors|]. split; [discriminate|]. split; [split; reflexivity|].
  split; [exact in_order_fair|]. split; [exact backwards_fair|]. split; [exact page_holds|]. split.
  { exists page_data. split; [|reflexivity].
    refine (proj1 (written Xd E75 H75 anything (fun _ => 1000) _) _ _ _ page_mirrors tt page page_holds _); [|discriminate].
    intros s a _. exists tt. split; [exact I|lia]. }
  split; [exact HM|]. eexists. split; [|exists 12%nat; vm_compute; reflexivity]. vm_compute. discriminate.
Qed.

(** Data that fits less well is read but does not come back: null as a number,
    an empty list in a slice, a list that starts at 1, and an array in an
    interface (which Marshal rejects). *)
Theorem C75_all_data_refuted : forall H ord,
  (Decodes Xd [] (serialize PNull) (TInt IInt) (VInt 0) (VInt 0) /\ Marshals Xd [] H ord (TInt IInt) (HInt 0) (serialize (PInt 0))) /\
  (Decodes Xd [] (serialize (PArr [])) (TSlice TBool) (VSlice None) (VSlice None) /\ Marshals Xd [] H ord (TSlice TBool) (HSlice None) (serialize PNull)) /\
  (Decodes Xd [] (serialize (PArr [(PInt 1, PBool true)])) (TSlice TBool) (VSlice None) (VSlice (Some [VBool false; VBool true])) /\
   let H2 := [Cells [HBool false; HBool true]] in holds H2 (HSlice (Some (0, 0, 2)%nat)) (VSlice (Some [VBool false; VBool true])) /\
   Marshals Xd [] H2 ord (TSlice TBool) (HSlice (Some (0, 0, 2)%nat)) (serialize (PArr [(PInt 0, PBool false); (PInt 1, PBool true)]))) /\
  (Decodes Xd [] (serialize (PArr [])) TAny (VIface None) (VIface (Some (TMap TAny TAny, VMap (Some [])))) /\
   let H1 := [MapObj []] in holds H1 (HIface (Some (TMap TAny TAny, HMap (Some 0%nat)))) (VIface (Some (TMap TAny TAny, VMap (Some [])))) /\
   forall b, fair_order ord -> ~ Marshals Xd [] H1 ord TAny (HIface (Some (TMap TAny TAny, HMap (Some 0%nat)))) b).
Proof.
  intros H ord. cbn zeta. repeat match goal with |- _ /\ _ => split end; try (exists 9%nat; vm_compute; reflexivity).
  - eapply ho_slice; [reflexivity|]. repeat constructor.
  - apply ho_iface. eapply ho_map; [reflexivity|constructor|constructor].
  - intros b Ho HM. destruct (marshal_represents Xd [] _ ord Ho _ _ _ _ HM) as (q & Hq & _).
    inversion Hq; subst; try discriminate.
    repeat match goal with
      | Q : shape _ _ _ _ _ _ _ _ |- _ => inversion Q; subst; clear Q; try discriminate
      | Q : scalar_repr _ _ _ _ |- _ => inversion Q
      | Q : inner _ _ _ _ _ _ _ _ |- _ => inversion Q; subst; clear Q; try discriminate
      | Q : kind_of [] (TMap _ _) = _ |- _ => injection Q; intros; subst; discriminate
      end.
Qed.
Print Assumptions C75_all_data_refuted.
