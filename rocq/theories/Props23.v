(** What PHP makes of Marshal's output: the values PHP has (C67), and the way
    through PHP and back (C68). *)
From Coq Require Import Strings.String Strings.Byte ZArith List Bool Lia Permutation.
From Verif Require Import Base GoTypes Tags Grammar Denote Typing Api Unmarshal NumFacts NumEnc CompileFacts UnmFacts Memory EncCompile Encode Php Repr Values EncApi
  MarshalFacts ReprFacts PhpFacts RoundTrip RoundTripFacts AnyTrip AnyTripFacts PhpKeys PhpKeyFacts Demo DemoEnc Props4 Props5.
Import ListNotations.
Open Scope Z_scope.

(** ** C67 What Marshal writes is a value PHP has: its integers have 64 bits and
    the keys of every array differ, as PHP tells keys apart.  False in two cases:
    unsigned numbers above MaxInt64, and structs in which two fields are given one
    name, which Marshal accepts. *)
Definition twice : env :=
  [Decl (UStruct [Field (bs "A") true false (bs "x") (TInt IInt); Field (bs "B") true false (bs "x") (TInt IInt)]) NoMethod false].
Theorem C67_refuted : forall X ord,
  (Marshals X [] [] ord (TUint U64) (HUint (2 ^ 63)) (bs "i:9223372036854775808;") /\
   ~ exists p, bs "i:9223372036854775808;" = serialize p /\ raw_free p = true /\ php_value p) /\
  (Marshals X twice [] ord (TName 0) (HStruct [HInt 1; HInt 2]) (bs "a:2:{s:1:""x"";i:1;s:1:""x"";i:2;}") /\
   ~ exists p, Represents X twice [] (TName 0) (HStruct [HInt 1; HInt 2]) p /\ php_value p).
Proof.
  intros X ord. split; split.
  - exists 9%nat. vm_compute. reflexivity.
  - intros (p & Q & R & V). destruct p as [|[]|z|t|s|es|b]; try discriminate Q; try discriminate R.
    change (bs "i:9223372036854775808;") with (serialize (PInt (2 ^ 63))) in Q. cbn [serialize] in Q.
    apply app_inv_head in Q. apply app_inv_tail in Q. apply decimal_inj in Q. inversion V as [| |? I| | | |]; subst.
    unfold int64, max_int64 in I. lia.
  - exists 9%nat. destruct X. vm_compute. reflexivity.
  - intros (p & R & V). inversion R as [? ? ? ? M|? ? ? ? ? B|? ? ? ? _ _ S]; subst; [discriminate M|discriminate B|].
    inversion S as [? ? ? ? Sc|? ? id fs l ps K F| | | | | |? ? ? ? K|? ? ? ? ? K|  | | |]; subst; [|  |discriminate K|discriminate K].
    { cbn in Sc. inversion Sc. }
    cbn in K. injection K as <- <-.
    assert (map fst ps = [PStr (bs "x"); PStr (bs "x")]) as M.
    { destruct X. inversion F as [|? ? ? ? ? ? W|? ? ? ? ? ? W O|? ? ? ? ? p1 ps1 W O V1 F1]; subst; [vm_compute in W; discriminate W|vm_compute in O; discriminate O|].
      inversion F1 as [|? ? ? ? ? ? W'|? ? ? ? ? ? W' O'|? ? ? ? ? p2 ps2 W' O' V2 F2]; subst; [vm_compute in W'; discriminate W'|vm_compute in O'; discriminate O'|].
      inversion F2; subst. reflexivity. }
    inversion V as [| | | | | |es ks K2 N _]; subst. destruct ps as [|[k1 x1] [|[k2 x2] [|]]]; try discriminate M. injection M as -> ->.
    inversion K2 as [|? a ? ks1 A1 K3]; subst. inversion K3 as [|? b ? ks2 A2 K4]; subst. cbn [fst] in *.
    inversion N as [|? ? NI _]; subst. apply NI. left. exact (php_key_det _ _ _ A2 A1).
Qed.
Print Assumptions C67_refuted.
(** Otherwise it holds, for every value without such numbers and structs in it.  What custom
    Marshalers write is not looked at ([php_value]). *)
Theorem C67_php_value_partial : forall X E H ord t v b, fair_order ord -> maps_keyed H ->
  numbers_fit E H t v -> fields_differ X E H t v -> small b -> Marshals X E H ord t v b ->
  exists p, Represents X E H t v p /\ b = serialize p /\ php_value p.
Proof.
  intros X E H ord t v b Ho Hk Hn Hf Hs Hm. destruct (C28_marshal_is_serialize X E H ord t v b Ho Hm) as (p & R & ->).
  exists p. split; [exact R|]. split; [reflexivity|]. exact (proj1 (repr_values X E H Hk anything t v Hn Hf) _ _ _ _ R (wi_refl _ _ _ _) Hs).
Qed.
Print Assumptions C67_php_value_partial.

(** All that is in a value, from a list closed under [part]. *)
Lemma within_list E H t v (l : list (gty * hval)) : In (t, v) l -> (forall u w u' w', In (u, w) l -> part E H u w u' w' -> In (u', w') l) ->
  forall u w, within E H t v u w -> In (u, w) l.
Proof. intros H0 Hc u w Hw. induction Hw; [exact H0|eapply Hc; eassumption]. Qed.
Definition demo_map : heap := [MapObj [(HStr (bs "a"), HUint 1); (HStr (bs "b"), HUint 2)]].
Definition demo_map_type : gty := TMap TString (TUint U64).
Lemma demo_map_within u w : within [] demo_map demo_map_type (HMap (Some 0%nat)) u w ->
  In (u, w) [(demo_map_type, HMap (Some 0%nat)); (TString, HStr (bs "a")); (TUint U64, HUint 1); (TString, HStr (bs "b")); (TUint U64, HUint 2)].
Proof.
  apply within_list; [left; reflexivity|]. intros u1 w1 u2 w2 J P.
  repeat (destruct J as [[= <- <-]|J]; [inversion P as [? ? ? ? ? ? K|? ? ? ? K|k u' o m y x K En Hi|k u' o m y x K En Hi|? ? ? ? ? K|? ? ? ? K|? ? K]; subst; cbn in K; try discriminate K|]); [| |destruct J];
    injection K as <- <-; cbn in En; injection En as <-; cbn in Hi; destruct Hi as [[= <- <-]|[[= <- <-]|[]]]; cbn; tauto.
Qed.
Lemma demo_map_keyed : maps_keyed demo_map.
Proof.
  intros [|o] m Q; [|destruct o; discriminate Q]. injection Q as <-. cbn. repeat constructor; cbn; intros h; repeat (destruct h as [h|h]; [discriminate h|]); exact h.
Qed.
Example C67_example : fair_order in_order /\ maps_keyed demo_map /\ numbers_fit [] demo_map demo_map_type (HMap (Some 0%nat)) /\
  fields_differ Xd [] demo_map demo_map_type (HMap (Some 0%nat)) /\
  exists b, small b /\ Marshals Xd [] demo_map in_order demo_map_type (HMap (Some 0%nat)) b.
Proof.
  split; [exact in_order_fair|]. split; [exact demo_map_keyed|]. split; [|split].
  - intros u z J. apply demo_map_within in J. cbn in J. repeat (destruct J as [J|J]; [try discriminate J; injection J as _ <-; unfold max_int64; lia|]). destruct J.
  - intros u w id fs J K. apply demo_map_within in J. cbn in J. repeat (destruct J as [[= <- <-]|J]; [discriminate K|]). destruct J.
  - eexists. split; [|exists 9%nat; vm_compute; reflexivity]. reflexivity.
Qed.

(** ** C68 Through PHP and back: what PHP writes after it has read what Marshal
    wrote is the same text, so Unmarshal gives what it would have given without
    the detour.  False if a key is a string in Go and a number to PHP: a map
    with the key 1 as a string comes back with the integer 1 and is rejected, and so
    is a struct with a field of that name. *)
Definition numbered_field : env := [Decl (UStruct [Field (bs "A") true false (bs "1") (TInt IInt)]) NoMethod false].
Definition after_php : bytes := bs "a:1:{i:1;i:5;}".
Theorem C68_refuted : forall X reprint,
  through reprint (PArr [(PStr (bs "1"), PInt 5)]) (PArr [(PInt 1, PInt 5)]) /\ serialize (PArr [(PInt 1, PInt 5)]) = after_php /\
  (let H := [MapObj [(HStr (bs "1"), HInt 5)]] in let T := TMap TString (TInt IInt) in
   Marshals X [] H in_order T (HMap (Some 0%nat)) (serialize (PArr [(PStr (bs "1"), PInt 5)])) /\ Fails X [] after_php T (VMap None) (VMap (Some []))) /\
  (Marshals X numbered_field [] in_order (TName 0) (HStruct [HInt 5]) (serialize (PArr [(PStr (bs "1"), PInt 5)])) /\
   Fails X numbered_field after_php (TName 0) (VStruct [VInt 0]) (VStruct [VInt 0])).
Proof.
  intros X reprint. split.
  { apply (th_arr reprint _ _ [KI 1]).
    - repeat constructor. cbn [fst]. change (bs "1") with (decimal 1). constructor. unfold int64, min_int64, max_int64. lia.
    - repeat constructor. intros [].
    - reflexivity.
    - repeat constructor; unfold int64, min_int64, max_int64; lia. }
  split; [reflexivity|]. destruct X. split; split.
  - exists 9%nat. vm_compute. reflexivity.
  - exists 9%nat. eexists. vm_compute. reflexivity.
  - exists 9%nat. vm_compute. reflexivity.
  - exists 9%nat. eexists. vm_compute. reflexivity.
Qed.
Print Assumptions C68_refuted.
(** It holds if there is no such key, PHP has the value (C67), no custom Marshaler wrote a part
    of it, and PHP prints its floats as they were ([reprint]). *)
Theorem C68_through_php_partial : forall X E H ord t v b reprint, fair_order ord -> maps_keyed H ->
  numbers_fit E H t v -> fields_differ X E H t v -> plain_names X E H t v -> small b -> Marshals X E H ord t v b ->
  exists p, Represents X E H t v p /\ b = serialize p /\
    (raw_free p = true -> Forall (fun x => reprint x = x) (floats p) ->
     (exists q, through reprint p q) /\ forall q, through reprint p q -> serialize q = b).
Proof.
  intros X E H ord t v b reprint Ho Hk Hn Hf Hp Hs Hm.
  destruct (C67_php_value_partial X E H ord t v b Ho Hk Hn Hf Hs Hm) as (p & R & -> & V). exists p. split; [exact R|]. split; [reflexivity|].
  intros Hr Hfl. split; [exact (through_exists reprint p V Hr)|]. intros q T. f_equal. apply (through_same reprint p q T); [|exact Hfl].
  exact (proj1 (repr_plain X E H anything t v Hp) _ _ _ _ R (wi_refl _ _ _ _)).
Qed.
Print Assumptions C68_through_php_partial.
(** So a value of plain data survives the way through PHP as it survives the direct way (C35). *)
Theorem C68_round_trip_partial : forall X E H ord T v w b reprint,
  fmt_ok X -> fair_order ord -> go_env E -> supported X E T -> data_type E T -> small b ->
  (forall U t n, inside E T U -> kind_of E U = KSlice t -> 0 <= n <= blen b -> x_slots X t n = true) ->
  holds H v w -> Forall (strconv_exact X) (leaves w) -> levels w < 10000 ->
  maps_keyed H -> numbers_fit E H T v -> fields_differ X E H T v -> plain_names X E H T v ->
  (forall p, Represents X E H T v p -> Forall (fun x => reprint x = x) (floats p)) ->
  Marshals X E H ord T v b ->
  exists p, b = serialize p /\ (exists q, through reprint p q) /\
    forall q, through reprint p q -> exists w', survives X E T w w' /\ Decodes X E (serialize q) T (zero E T) w'.
Proof.
  intros X E H ord T v w b reprint Hfmt Ho Hgo Hsup Hdt Hsm Hsl Hh Hl Hlev Hk Hn Hf Hp Hrp Hm.
  destruct (C68_through_php_partial X E H ord T v b reprint Ho Hk Hn Hf Hp Hsm Hm) as (p & R & -> & Q).
  assert (blen (serialize p) < max_int64) as HN by (unfold small in Hsm; unfold max_int64; lia).
  destruct (proj1 (trip X E H T (blen (serialize p)) Hgo Hfmt HN Hsup Hdt Hsl) _ _ _ _ R w 0) as (Hraw & _); [apply Typing.in_refl|exact Hh|split; [exact Hl|unfold limit; lia]|lia|].
  destruct (Q Hraw (Hrp p R)) as [Q1 Q2]. exists p. split; [reflexivity|]. split; [exact Q1|]. intros q T0. rewrite (Q2 q T0).
  exact (C35_round_trip X E H ord T v w _ Hfmt Ho Hgo Hsup Hdt Hsm Hsl Hh Hl Hlev Hm).
Qed.
Print Assumptions C68_round_trip_partial.
Lemma demo_map_plain : plain_names Xd [] demo_map demo_map_type (HMap (Some 0%nat)).
Proof.
  split.
  - intros u o m s x J En Hi (z & _ & Q). apply demo_map_within in J. cbn in J.
    destruct J as [[= <- <-]|J]; [|repeat (destruct J as [J|J]; [discriminate J|]); destruct J]. cbn in En. injection En as <-.
    pose proof (decimal_int_text z) as It. rewrite <- Q in It. cbn in Hi.
    destruct Hi as [[= <- <-]|[[= <- <-]|[]]]; inversion It as [ds [_ D]|ds [_ D]]; subst; discriminate D.
  - intros u w id fs f J K. apply demo_map_within in J. cbn in J. repeat (destruct J as [[= <- <-]|J]; [discriminate K|]). destruct J.
Qed.
Definition demo_map_types : list gty := [demo_map_type; TString; TUint U64].
Lemma demo_map_inside U : inside [] demo_map_type U -> In U demo_map_types.
Proof.
  apply inside_list; [left; reflexivity|]. intros V W Hv Hc.
  repeat (destruct Hv as [<-|Hv]); try destruct Hv;
    inversion Hc as [t [_ Q]|t [_ Q]|n t [_ Q]|k t [_ Q]|k t [_ Q]|id fs f [_ Q] Hf Hi]; cbn in Q; try discriminate Q; injection Q as; subst; cbn; tauto.
Qed.
Example C68_example : let T := demo_map_type in let v := HMap (Some 0%nat) in
  let w := VMap (Some [(VStr (bs "a"), VUint 1); (VStr (bs "b"), VUint 2)]) in
  fmt_ok Xd /\ go_env [] /\ supported Xd [] T /\ data_type [] T /\ holds demo_map v w /\ Forall (strconv_exact Xd) (leaves w) /\ levels w < 10000 /\
  plain_names Xd [] demo_map T v /\ (forall p, Represents Xd [] demo_map T v p -> Forall (fun x => x = x) (floats p)) /\
  exists b, Marshals Xd [] demo_map in_order T v b /\ Decodes Xd [] b T (zero [] T) w.
Proof.
  cbv zeta. split; [exact Xd_fmt|]. split; [split; [exists (fun _ => 0%nat)|]; intros [|n] d; discriminate|]. split; [apply (compile_supported Xd [] 9); vm_compute; reflexivity|]. split.
  { intros U Hu. apply demo_map_inside in Hu. repeat (destruct Hu as [<-|Hu]; [repeat split; reflexivity|]). destruct Hu. }
  split.
  { eapply ho_map; [reflexivity| |].
    - repeat constructor.
    - repeat constructor. }
  split; [repeat constructor|]. split; [reflexivity|]. split; [exact demo_map_plain|]. split.
  { intros p _. apply Forall_forall. reflexivity. }
  eexists. split; [exists 9%nat; vm_compute; reflexivity|]. exists 9%nat. vm_compute. reflexivity.
Qed.
