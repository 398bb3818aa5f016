(** Properties of Marshal, part 11: the names of Go types and fields do not
    matter to it (C87). *)
From Coq Require Import Strings.String Strings.Byte ZArith List Bool Lia Permutation.
From Verif Require Import Base GoTypes Strconv Tags Grammar Denote Memory EncCompile Encode Php Repr EncApi EncCompileFacts EncSound ReprFacts PhpFacts MarshalFacts Rename RenameFacts Props32 Demo DemoEnc.
Import ListNotations.
Open Scope Z_scope.

(** ** C87 The names of types and fields do not matter to Marshal.

    [T'] has the structure of [T] (Rename.v) under other names of the types in
    it, with other names of fields whose tags give the same keys, or with more
    bits for integers.  Every text Marshal may return for a value as a [T] it
    may return for it as a [T']. *)
Theorem C87_renamed : forall X E H ord T T' v b, fair_order ord ->
  renamed X E T T' -> encodable X E T' -> Marshals X E H ord T v b ->
  exists ord', fair_order ord' /\ Marshals X E H ord' T' v b.
Proof.
  intros X E H ord T T' v b Ho R He Q. destruct (marshal_sound_at X E H ord Ho st0 T v b Q) as (_ & p & Hr & ->).
  apply marshal_reaches; [exact He|]. exact (proj1 (ren X E H code_enter) _ _ _ _ Hr _ R).
Qed.
Print Assumptions C87_renamed.

(** The same the other way round, so that the possible texts are the same, if
    the types are renamings of each other. *)
Theorem C87_same_texts : forall X E H T T' v b, renamed X E T T' -> renamed X E T' T -> encodable X E T -> encodable X E T' ->
  (exists ord, fair_order ord /\ Marshals X E H ord T v b) <-> (exists ord, fair_order ord /\ Marshals X E H ord T' v b).
Proof.
  intros X E H T T' v b R R' He He'. split; intros (ord & Ho & Q); eapply C87_renamed; eauto.
Qed.
Print Assumptions C87_same_texts.

Section SameKind.
  Context (X : Ext) (E : env).
  Lemma einside_trans a b c : einside X E a b -> einside X E b c -> einside X E a c.
  Proof. intros A B. induction B as [|u w _ IH S]; [exact A|eapply ei_step; eauto]. Qed.
  Lemma epart_same T T' k u : by_kind E T k -> by_kind E T' k -> epart X E (false, T) u -> epart X E (false, T') u.
  Proof.
    intros (M & B & K) (M' & B' & K') P. destruct P as [u Hs Q I|u Hs Hb Q|n u Hs Q|kt u Hs Q|id fs f Hs Q Hf Hw Ht]; cbn [fst snd] in *; rewrite K, <- K' in Q.
    - apply ep_ptr; [exact M'|exact Q|exact I].
    - apply ep_slice; [exact M'|cbn [fst snd orb]; rewrite B'; reflexivity|exact Q].
    - eapply ep_array; [exact M'|exact Q].
    - eapply ep_map; [exact M'|exact Q].
    - eapply ep_field; [exact M'|exact Q|exact Hf|exact Hw|exact Ht].
  Qed.
  Lemma einside_first n a : einside X E n a -> a = n \/ exists u, epart X E n u /\ einside X E u a.
  Proof.
    intros A. induction A as [|u w A IH S]; [left; reflexivity|]. right. destruct IH as [->|(x & P & Q)].
    - exists w. split; [exact S|apply ei_refl].
    - exists x. split; [exact P|eapply ei_step; eauto].
  Qed.
  Lemma einside_same T T' k a : by_kind E T k -> by_kind E T' k -> einside X E (false, T') a -> a = (false, T') \/ einside X E (false, T) a.
  Proof.
    intros B B' A. apply einside_first in A as [->|(u & P & Q)]; [left; reflexivity|]. right.
    eapply einside_trans; [|exact Q]. eapply ei_step; [apply ei_refl|]. eapply epart_same; [exact B'|exact B|exact P].
  Qed.
  Lemma encodable_same T T' k : by_kind E T k -> by_kind E T' k -> encodable X E T -> encodable X E T'.
  Proof.
    intros B B' [Hu Hf]. pose proof B as (M & Bb & K). pose proof B' as (M' & Bb' & K'). split.
    - intros u A U. destruct (einside_same _ _ _ _ B B' A) as [->|A']; [|exact (Hu u A' U)].
      apply (Hu (false, T) (ei_refl _ _ _)).
      destruct U as [Hs Q|Hs Q|u w Hs Q Q2|kt u Hs Q Hk|id fs f Hs Q Hi Hw Ha Hst|id fs f u w Hs Q Hi Hw Q1 Q2|id fs f Hs Q Hi Hw Ht Hq]; cbn [fst snd] in *; rewrite K', <- K in Q.
      + apply ue_uintptr; [exact M|exact Q].
      + apply ue_other; [exact M|exact Q].
      + eapply ue_ptr; [exact M|exact Q|exact Q2].
      + eapply ue_key; [exact M|exact Q|exact Hk].
      + eapply ue_embedded; [exact M|exact Q|exact Hi|exact Hw|exact Ha|exact Hst].
      + eapply ue_field_ptr; [exact M|exact Q|exact Hi|exact Hw|exact Q1|exact Q2].
      + eapply ue_string; [exact M|exact Q|exact Hi|exact Hw|exact Ht|exact Hq].
    - intros a n u A Hs Q In. destruct (einside_same _ _ _ _ B B' A) as [->|A']; [|exact (Hf a n u A' Hs Q In)].
      cbn [snd] in Q. assert (A' : einside X E (false, T) (false, T')).
      { eapply einside_trans; [|exact In]. eapply ei_step; [apply ei_refl|]. eapply ep_array; [exact M|]. cbn [snd]. rewrite K, <- K'. exact Q. }
      exact (Hf (false, T') n u A' Hs Q In).
  Qed.
  Lemma renamed_same T T' k : by_kind E T k -> by_kind E T' k -> encodable X E T -> renamed X E T T'.
  Proof.
    intros B B' [Hu _]. pose proof B as (M & Bb & K). destruct k as [|i|u| | | |t|n t|kt t|t| |m| |id fs].
    1,2,4,5,6: eapply rn_scalar; [exact B|exact B'|cbn; first [exact I | lia]].
    - destruct u; try (eapply rn_scalar; [exact B|exact B'|cbn; repeat split; try discriminate; lia]).
      exfalso. apply (Hu (false, T) (ei_refl _ _ _)). apply ue_uintptr; [exact M|exact K].
    - eapply rn_slice; [exact B|exact B'|apply rn_same].
    - eapply rn_array; [exact B|exact B'|apply rn_same].
    - eapply rn_map; [exact B|exact B'|left; reflexivity|apply rn_same].
    - eapply rn_ptr; [exact B|exact B'|apply rn_same].
    - eapply rn_iface; [exact B|exact B'|reflexivity|reflexivity].
    - eapply rn_iface; [exact B|exact B'|reflexivity|reflexivity].
    - exfalso. apply (Hu (false, T) (ei_refl _ _ _)). apply ue_other; [exact M|exact K].
    - eapply rn_struct; [exact B|exact B'|reflexivity|]. intros i f f' A A'. rewrite A in A'. injection A' as <-.
      split; [reflexivity|]. intros _. split; [repeat split; reflexivity|apply rn_same].
  Qed.
End SameKind.

(** In particular a declared type without MarshalPHP is encoded as the type it
    is declared from, [type N t], unless that is []byte or has a MarshalPHP
    itself; both are accepted for the same values. *)
Theorem C87_declared : forall X E H n t p v b,
  nth_error E n = Some (Decl (UTy t) NoMethod p) -> (forall m, t <> TName m) -> marshaler E t = false -> bytes_type t = false ->
  (exists ord, fair_order ord /\ Marshals X E H ord (TName n) v b) <-> (exists ord, fair_order ord /\ Marshals X E H ord t v b).
Proof.
  intros X E H n t p v b Hn Ht M B.
  assert (K : kind_of E (TName n) = kind_of E t).
  { cbn. rewrite Hn. cbn. destruct t; try reflexivity. destruct (Ht n0 eq_refl). }
  assert (B1 : by_kind E t (kind_of E t)) by (repeat split; assumption).
  assert (B2 : by_kind E (TName n) (kind_of E t)).
  { repeat split; [|exact K]. unfold marshaler. rewrite K. cbn [receiver_of]. rewrite Hn. cbn [d_marshal].
    unfold marshaler in M. apply orb_false_iff in M as [M _]. rewrite orb_false_r.
    destruct (receiver_of E t); destruct (kind_of E t); try reflexivity; try discriminate M; exact M. }
  split; intros (ord & Ho & Q); destruct (marshal_sound_at X E H ord Ho st0 _ v b Q) as (He & _).
  - eapply C87_renamed; [exact Ho|eapply renamed_same; [exact B2|exact B1|exact He]|eapply encodable_same; [exact B2|exact B1|exact He]|exact Q].
  - eapply C87_renamed; [exact Ho|eapply renamed_same; [exact B1|exact B2|exact He]|eapply encodable_same; [exact B1|exact B2|exact He]|exact Q].
Qed.
Print Assumptions C87_declared.

(** 0: type Node struct { ID int32 `php:"id"`; Kids []*Node; Note string; skip bool }
    1: type Tree struct { Number int64 `php:"id"`; Children []*Tree `php:"Kids"`; Note Text; Hidden bool `php:"-"` }
    2: type Text string
    3: type Raw []byte *)
Definition E87 : env := [
  Decl (UStruct [Field (bs "ID") true false (bs "id") (TInt I32); Field (bs "Kids") true false [] (TSlice (TPtr (TName 0)));
                 Field (bs "Note") true false [] TString; Field (bs "skip") false false [] TBool]) NoMethod false;
  Decl (UStruct [Field (bs "Number") true false (bs "id") (TInt I64); Field (bs "Children") true false (bs "Kids") (TSlice (TPtr (TName 1)));
                 Field (bs "Note") true false [] (TName 2); Field (bs "Hidden") true false (bs "-") TBool]) NoMethod false;
  Decl (UTy TString) NoMethod false;
  Decl (UTy (TSlice (TUint U8))) NoMethod false ].
Definition H87 : heap := [
  Cells [HPtr None; HPtr (Some (1, 0)%nat)]; Cells [HStruct [HInt 7; HSlice None; HStr (bs "kid"); HBool true]]; Cells [HUint 104; HUint 105]].
Definition v87 : hval := HStruct [HInt (-5); HSlice (Some (0, 0, 2)%nat); HStr (bs "hi"); HBool false].
Definition b87 : bytes := bs "a:3:{s:2:""id"";i:-5;s:4:""Kids"";a:2:{i:0;N;i:1;a:3:{s:2:""id"";i:7;s:4:""Kids"";N;s:4:""Note"";s:3:""kid"";}}s:4:""Note"";s:2:""hi"";}".
Lemma renamed87 : renamed Xd E87 (TName 0) (TName 1).
Proof.
  cofix CH. eapply rn_struct; [repeat split; reflexivity|repeat split; reflexivity|reflexivity|].
  intros i f f' A A'. destruct i as [|[|[|[|i]]]]; [| | | |destruct i; discriminate]; injection A as <-; injection A' as <-; (split; [reflexivity|]); intros W.
  - split; [repeat split; reflexivity|]. eapply rn_scalar; [repeat split; reflexivity|repeat split; reflexivity|discriminate].
  - split; [repeat split; reflexivity|]. eapply rn_slice; [repeat split; reflexivity|repeat split; reflexivity|].
    eapply rn_ptr; [repeat split; reflexivity|repeat split; reflexivity|]. exact CH.
  - split; [repeat split; reflexivity|]. eapply rn_scalar; [repeat split; reflexivity|repeat split; reflexivity|exact I].
  - discriminate W.
Qed.
Example C87_example :
  fair_order in_order /\ renamed Xd E87 (TName 0) (TName 1) /\ encodable Xd E87 (TName 1) /\
  Marshals Xd E87 H87 in_order (TName 0) v87 b87 /\ Marshals Xd E87 H87 in_order (TName 1) v87 b87 /\
  (nth_error E87 2 = Some (Decl (UTy TString) NoMethod false) /\ marshaler E87 TString = false /\ bytes_type TString = false).
Proof.
  split; [exact in_order_fair|]. split; [exact renamed87|].
  split; [eapply (compile_encodable Xd E87 9 _ _); vm_compute; reflexivity|].
  split; [exists 12%nat; vm_compute; reflexivity|]. split; [exists 12%nat; vm_compute; reflexivity|]. repeat split.
Qed.

(** Without the exception for []byte this is false of the code: []byte is
    written as a string, but a type declared from it, [type Raw []byte], as an
    array of numbers. *)
Theorem C87_named_bytes_refuted : ~ (forall X E H n t p v b,
  nth_error E n = Some (Decl (UTy t) NoMethod p) -> (forall m, t <> TName m) -> marshaler E t = false ->
  (exists ord, fair_order ord /\ Marshals X E H ord (TName n) v b) -> (exists ord, fair_order ord /\ Marshals X E H ord t v b)).
Proof.
  intros C. destruct (C Xd E87 H87 3%nat (TSlice (TUint U8)) false (HSlice (Some (2, 0, 2)%nat)) (bs "a:2:{i:0;i:104;i:1;i:105;}") eq_refl) as (ord & Ho & f & Q).
  - discriminate.
  - reflexivity.
  - exists in_order. split; [exact in_order_fair|]. exists 12%nat. vm_compute. reflexivity.
  - destruct (marshal_sound_at Xd E87 H87 ord Ho st0 _ _ _ (ex_intro _ f Q)) as (_ & q & Hr & Hb).
    inversion Hr as [s t v b M|s t v b M B Hv|s t v p M B]; subst; [discriminate M| |discriminate B]. vm_compute in Hb. discriminate Hb.
Qed.
Print Assumptions C87_named_bytes_refuted.
