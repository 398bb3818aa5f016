(** Properties of Marshal and Unmarshal together: the order of maps (C85). *)
From Coq Require Import Strings.String Strings.Byte ZArith List Bool Lia Permutation.
From Verif Require Import Base GoTypes Tags Grammar Denote Typing Memory Encode Php Repr EncApi Values Api Unmarshal PhpFacts ReprFacts MarshalFacts AnyTripFacts PhpKeys
  CompileFacts Reorder ReorderFacts OrderTripFacts Demo DemoEnc Props2 Props5 Props38.
Import ListNotations.
Open Scope Z_scope.

(** ** C85 No reader can tell in which order Marshal went through the maps of a
    value: two outputs for one value are accepted by the same types, which get
    values that look the same, whatever they are and held before.  (Values in which
    no MarshalPHP method takes part; types that have no UnmarshalPHP methods.) *)
Theorem C85_any_reader : forall X E H ord ord' t v b b' E' T u w,
  fmt_ok X -> shorter_fits X -> fair_order ord -> fair_order ord' ->
  maps_keyed H -> unspoken X E H t v ->
  Marshals X E H ord t v b -> Marshals X E H ord' t v b' -> small b ->
  no_methods E' T -> Decodes X E' b T u w ->
  exists w', Decodes X E' b' T u w' /\ looks_same w w'.
Proof.
  intros X E H ord ord' t v b b' E' T u w HX Hf Ho Ho' Hk Hu Hb Hb' Hs Hm D.
  destruct (marshal_represents X E H ord Ho _ _ _ _ Hb) as (p & Hp & ->). destruct (marshal_represents X E H ord' Ho' _ _ _ _ Hb') as (p' & Hp' & ->).
  pose proof (proj1 (repr_reordered X E H Hk anything anything) _ _ _ _ Hp _ _ Hp') as R.
  pose proof (unspoken_ok X E H HX t v p Hu Hp) as O. pose proof (unspoken_ok X E H HX t v p' Hu Hp') as O'.
  rewrite (serialize_text p (proj1 O)) in *. rewrite (serialize_text p' (proj1 O')).
  pose proof (proj1 (UnmFacts.decodes_inv X E' (text (syntax p)) T u w Hs D)) as HT.
  exact (C84_order X E' T _ _ u u w Hf Hs (syntax_wf p O) HT Hm R (looks_refl u) D).
Qed.
Print Assumptions C85_any_reader.
(** Both are accepted or neither is. *)
Theorem C85_accepted : forall X E H ord ord' t v b b' E' T u,
  fmt_ok X -> shorter_fits X -> fair_order ord -> fair_order ord' ->
  maps_keyed H -> unspoken X E H t v ->
  Marshals X E H ord t v b -> Marshals X E H ord' t v b' -> small b -> small b' -> no_methods E' T ->
  (exists w, Decodes X E' b T u w) <-> (exists w, Decodes X E' b' T u w).
Proof.
  intros X E H ord ord' t v b b' E' T u HX Hf Ho Ho' Hk Hu Hb Hb' Hs Hs' Hm. split; intros [w D].
  - destruct (C85_any_reader X E H ord ord' t v b b' E' T u w) as (w' & D' & _); eauto.
  - destruct (C85_any_reader X E H ord' ord t v b' b E' T u w) as (w' & D' & _); eauto.
Qed.
Print Assumptions C85_accepted.

(** A map of maps, read as any by a program that has none of the types. *)
Definition H85 : heap := [MapObj [(HStr (bs "p"), HMap (Some 1%nat)); (HStr (bs "q"), HMap None)]; MapObj [(HInt 1, HBool true); (HInt (-2), HBool false)]].
Definition T85 : gty := TMap TString (TMap (TInt I8) TBool).
Definition p85 : php := PArr [(PStr (bs "p"), PArr [(PInt 1, PBool true); (PInt (-2), PBool false)]); (PStr (bs "q"), PNull)].
Example C85_example : exists b b' w w',
  fmt_ok Xd /\ shorter_fits Xd /\ fair_order in_order /\ fair_order backwards /\ maps_keyed H85 /\ unspoken Xd [] H85 T85 (HMap (Some 0%nat)) /\
  Marshals Xd [] H85 in_order T85 (HMap (Some 0%nat)) b /\ Marshals Xd [] H85 backwards T85 (HMap (Some 0%nat)) b' /\ b <> b' /\ small b /\
  no_methods [] TAny /\ Decodes Xd [] b TAny (VIface None) w /\ Decodes Xd [] b' TAny (VIface None) w' /\ w <> w'.
Proof.
  do 4 eexists. split; [exact Props5.Xd_fmt|]. split; [apply C84_example|]. split; [exact in_order_fair|]. split; [exact backwards_fair|].
  split; [|split; [|split; [exists 9%nat; vm_compute; reflexivity|split; [exists 9%nat; vm_compute; reflexivity|
    split; [discriminate|split; [reflexivity|split; [|split; [exists 9%nat; vm_compute; reflexivity|split; [exists 9%nat; vm_compute; reflexivity|discriminate]]]]]]]]].
  - intros [|[|o]] m Q; cbn in Q; [injection Q as <-|injection Q as <-|destruct o; discriminate Q];
      (constructor; [intros [J|[]]; discriminate J|constructor; [intros []|constructor]]).
  - exists p85. split; [|reflexivity]. unfold Represents.
    apply rp_shape; [reflexivity|reflexivity|].
    eapply (sh_map _ _ _ _ tt tt); [reflexivity|reflexivity|apply Permutation_refl|exact I|].
    apply pa_cons; [split; [reflexivity|constructor]| |apply pa_cons; [split; [reflexivity|constructor]| |apply pa_nil]].
    + apply rp_shape; [reflexivity|reflexivity|]. eapply (sh_map _ _ _ _ tt tt); [reflexivity|reflexivity|apply Permutation_refl|exact I|].
      apply pa_cons; [split; [reflexivity|apply sr_int; unfold int_range; cbn [ibits]; split; reflexivity || (intros Q; discriminate Q)]| |apply pa_cons; [split; [reflexivity|apply sr_int; unfold int_range; cbn [ibits]; split; reflexivity || (intros Q; discriminate Q)]| |apply pa_nil]];
        (apply rp_shape; [reflexivity|reflexivity|apply sh_scalar; constructor]).
    + apply rp_shape; [reflexivity|reflexivity|]. eapply sh_map_nil. reflexivity.
  - intros U I. assert (U = TAny) as ->.
    { revert U I. assert (forall U, inside [] TAny U -> In U [TAny]) as G; [|intros U I; destruct (G U I) as [<-|[]]; reflexivity].
      apply Props5.inside_list; [left; reflexivity|]. intros V W [<-|[]] Hc. inversion Hc as [t [_ Q]|t [_ Q]|n t [_ Q]|k t [_ Q]|k t [_ Q]|id fs f [_ Q] Hf Hi]; discriminate Q. }
    split; [reflexivity|intros m; discriminate].
Qed.
