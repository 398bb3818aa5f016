(** Properties of Unmarshal, part 19: old programs read new data (C86). *)
From Coq Require Import Strings.String Strings.Byte ZArith List Bool Lia Floats.SpecFloat.
From Verif Require Import Base GoTypes Strconv Tags Grammar Denote Typing Safe NumFacts Memory Encode Php Repr EncApi Values RoundTrip Api Unmarshal CompileFacts UnmFacts
  PhpFacts NumEnc ReprFacts MarshalFacts RoundTripFacts AnyTripFacts StoreFacts StructFacts Wider WiderFacts Fewer FewerFacts Demo DemoEnc Props2 Props4 Props5 Props28.
Import ListNotations.
Open Scope Z_scope.

(** ** C86 Old programs read new data: what a type accepts is accepted by the type
    without some of its fields, at any depth, and what is stored is the same under
    every key that is left, if the counts in the data are true.  ([C74_fewer_fields_refuted]:
    if they are not, the data of a field that is not there may be refused.) *)
Theorem C86_fewer : forall X E T T' p v v' w', small (text p) -> wf p -> counted p -> go_env E -> supported X E T -> allocatable X E T (text p) ->
  fewer X E T T' -> same_data X E T T' v v' ->
  Decodes X E (text p) T' v' w' -> exists w, Decodes X E (text p) T v w /\ same_data X E T T' w w'.
Proof.
  intros X E T T' p v v' w' Hsm Hw Hc He Hs Ha HF HS H. pose proof (proj1 (decodes_inv X E (text p) T' v' w' Hsm H)) as HsT.
  apply (decodes_text X E T' p v' w' Hsm Hw HsT) in H.
  destruct (few X E He T (text p) Ha 0 T T' p v v' w') as (w & Hw' & HR); auto.
  - apply in_refl.
  - exists [], []. rewrite app_nil_r. reflexivity.
  - apply counted_strict; auto. eapply store_nest. exact H.
  - exists w. split; [|exact HR]. apply (decodes_text X E T p v w Hsm Hw Hs). exact Hw'.
Qed.
Print Assumptions C86_fewer.

(** Destinations that hold nothing yet hold the same data. *)
Theorem C86_zero : forall X E T T', go_env E -> fewer X E T T' -> same_data X E T T' (zero E T) (zero E T').
Proof. intros X E T T' He HF. exact (few_zero X E He T T' HF). Qed.
Print Assumptions C86_zero.

(** What Marshal writes is counted. *)
Lemma syntax_counted : forall p, counted (syntax p).
Proof.
  induction p as [|b|z|t|s|es IH|b] using php_ind'; try constructor. rewrite (proj2 (decimal_numeral (blen es) (blen_nonneg _))).
  - unfold blen. rewrite map_length. reflexivity.
  - apply Forall_map. exact IH.
Qed.
Theorem C86_marshalled : forall X E H ord E' S x b T T' v v' w', fmt_ok X -> fair_order ord -> unspoken X E H S x -> Marshals X E H ord S x b ->
  small b -> go_env E' -> supported X E' T -> allocatable X E' T b -> fewer X E' T T' -> same_data X E' T T' v v' ->
  Decodes X E' b T' v' w' -> exists w, Decodes X E' b T v w /\ same_data X E' T T' w w'.
Proof.
  intros X E H ord E' S x b T T' v v' w' HX Ho Hu Hm Hsm He Hs Ha HF HS HD.
  destruct (marshal_represents X E H ord Ho _ _ _ _ Hm) as (p & Hp & ->). pose proof (unspoken_ok X E H HX S x p Hu Hp) as O.
  rewrite (serialize_text p (proj1 O)) in *.
  eapply C86_fewer; eauto; [exact (syntax_wf p O)|apply syntax_counted].
Qed.
Print Assumptions C86_marshalled.

(** A new program writes a value; an old one, which knows fewer fields, reads of it
    what the new one would, under the keys it has. *)
Theorem C86_new_to_old : forall X E H ord T T' v w b, fmt_ok X -> fair_order ord -> go_env E ->
  supported X E T' -> data_type E T' -> small b ->
  (forall U t n, inside E T' U -> kind_of E U = KSlice t -> 0 <= n <= blen b -> x_slots X t n = true) ->
  holds H v w -> Forall (strconv_exact X) (leaves w) -> levels w < 10000 ->
  Marshals X E H ord T' v b ->
  fewer X E T T' -> supported X E T -> allocatable X E T b ->
  exists w' u, survives X E T' w w' /\ Decodes X E b T (zero E T) u /\ same_data X E T T' u w'.
Proof.
  intros X E H ord T T' v w b Hfmt Hord Hgo Hsup Hdt Hsm Hsl Hh Hl Hlev Hm HF Hs Ha.
  destruct (marshal_represents X E H ord Hord st0 T' v b Hm) as (p & Hr & ->).
  assert (blen (serialize p) < max_int64) as HN by (unfold small in Hsm; unfold max_int64; lia).
  destruct (proj1 (trip X E H T' (blen (serialize p)) Hgo Hfmt HN Hsup Hdt Hsl) _ _ _ _ Hr w 0) as (Hraw & _ & _ & w' & Hsv & Hst).
  { apply Typing.in_refl. } { exact Hh. } { split; [exact Hl|]. unfold limit. lia. } { lia. }
  assert (php_ok p) as O by (split; [exact Hraw|exact (proj1 (repr_floats X E H anything Hfmt) _ _ _ _ Hr)]).
  rewrite (serialize_text p Hraw) in *.
  destruct (C86_fewer X E T T' (syntax p) (zero E T) (zero E T') w') as (u & Hu & HS); auto.
  - exact (syntax_wf p O).
  - apply syntax_counted.
  - apply C86_zero; assumption.
  - apply decodes_store; assumption.
  - exists w', u. auto.
Qed.
Print Assumptions C86_new_to_old.

(** 0: type Old struct { ID int64 `php:"id"`; Kids []*Old }
    1: type New struct { Kids []*New; Note string; More []string; Key int64 `php:"id"` } *)
Definition E86 : env := [
  Decl (UStruct [Field (bs "ID") true false (bs "id") (TInt I64); Field (bs "Kids") true false [] (TSlice (TPtr (TName 0)))]) NoMethod false;
  Decl (UStruct [Field (bs "Kids") true false [] (TSlice (TPtr (TName 1))); Field (bs "Note") true false [] TString;
                 Field (bs "More") true false [] (TSlice TString); Field (bs "Key") true false (bs "id") (TInt I64)]) NoMethod false ].
Definition H86 : heap := [
  Cells [HPtr None; HPtr (Some (1, 0)%nat)]; Cells [HStruct [HSlice None; HStr (bs "kid"); HSlice None; HInt 7]]; Cells [HStr (bs "x"); HStr []]].
Definition v86 : hval := HStruct [HSlice (Some (0, 0, 2)%nat); HStr (bs "hi"); HSlice (Some (2, 0, 2)%nat); HInt (-5)].
Definition w86 : gval :=
  VStruct [VSlice (Some [VPtr None; VPtr (Some (VStruct [VSlice None; VStr (bs "kid"); VSlice None; VInt 7]))]); VStr (bs "hi");
           VSlice (Some [VStr (bs "x"); VStr []]); VInt (-5)].
Definition u86 : gval := VStruct [VInt (-5); VSlice (Some [VPtr None; VPtr (Some (VStruct [VInt 7; VSlice None]))])].
Lemma E86_go : go_env E86.
Proof.
  split.
  - exists (fun _ => 0%nat). intros n d Hn. do 2 (destruct n as [|n]; [cbn in Hn; injection Hn as <-; split; [cbn; lia|]; intros m Hm; cbn in Hm; tauto|]).
    destruct n; discriminate.
  - intros n d t m Hn Hd. do 2 (destruct n as [|n]; [cbn in Hn; injection Hn as <-; discriminate Hd|]). destruct n; discriminate.
Qed.
Lemma fewer86 : fewer Xd E86 (TName 0) (TName 1).
Proof.
  cofix CH. eapply fe_struct; [split; reflexivity|split; reflexivity|].
  intros key i f Hl. apply lookup_spec in Hl as (Hn & _ & Hk). destruct i as [|[|i]]; [| |destruct i; discriminate]; injection Hn as <-; vm_compute in Hk; subst key.
  - eexists 3%nat, _. split; [vm_compute; reflexivity|]. split; [reflexivity|]. eapply (fe_scalar Xd E86 _ _ (KInt I64)); [split; reflexivity|split; reflexivity|exact I].
  - eexists 0%nat, _. split; [vm_compute; reflexivity|]. split; [reflexivity|].
    eapply fe_slice; [split; reflexivity|split; reflexivity|reflexivity|]. eapply fe_ptr; [split; reflexivity|split; reflexivity|]. exact CH.
Qed.
Lemma inside86 U : inside E86 (TName 1) U -> In U [TName 1; TSlice (TPtr (TName 1)); TPtr (TName 1); TString; TSlice TString; TInt I64].
Proof.
  apply inside_list; [left; reflexivity|]. intros V W Hv Hc.
  repeat (destruct Hv as [<-|Hv]); try destruct Hv;
    inversion Hc as [t [_ Q]|t [_ Q]|n t [_ Q]|k t [_ Q]|k t [_ Q]|id fs f [_ Q] Hf Hi]; cbn in Q; try discriminate Q; injection Q as; subst;
    try (cbn; tauto).
  cbn in Hf. repeat (destruct Hf as [<-|Hf]; [cbn; tauto|]). destruct Hf.
Qed.
Definition b86 : bytes := bs "a:4:{s:4:""Kids"";a:2:{i:0;N;i:1;a:4:{s:4:""Kids"";N;s:4:""Note"";s:3:""kid"";s:4:""More"";N;s:2:""id"";i:7;}}s:4:""Note"";s:2:""hi"";s:4:""More"";a:2:{i:0;s:1:""x"";i:1;s:0:"""";}s:2:""id"";i:-5;}".
Example C86_example :
  fmt_ok Xd /\ fair_order in_order /\ go_env E86 /\ supported Xd E86 (TName 1) /\ data_type E86 (TName 1) /\ small b86 /\
  (forall U t n, inside E86 (TName 1) U -> kind_of E86 U = KSlice t -> 0 <= n <= blen b86 -> x_slots Xd t n = true) /\
  holds H86 v86 w86 /\ Forall (strconv_exact Xd) (leaves w86) /\ levels w86 < 10000 /\
  Marshals Xd E86 H86 in_order (TName 1) v86 b86 /\
  fewer Xd E86 (TName 0) (TName 1) /\ supported Xd E86 (TName 0) /\ allocatable Xd E86 (TName 0) b86 /\
  Decodes Xd E86 b86 (TName 1) (zero E86 (TName 1)) w86 /\ Decodes Xd E86 b86 (TName 0) (zero E86 (TName 0)) u86.
Proof.
  split; [exact Xd_fmt|]. split; [exact in_order_fair|]. split; [exact E86_go|]. split; [apply (compile_supported Xd E86 9); vm_compute; reflexivity|].
  split. { intros U Hu. apply inside86 in Hu. repeat (destruct Hu as [<-|Hu]; [repeat split; reflexivity|]). destruct Hu. }
  split; [reflexivity|]. split. { intros U t n _ _ [_ Hn]. cbn. apply Z.ltb_lt. eapply Z.le_lt_trans; [exact Hn|reflexivity]. }
  split. { repeat first [eapply ho_ptr; [reflexivity|] | apply ho_ptr_nil | apply ho_struct | apply Forall2_cons | apply Forall2_nil | constructor; fail
    | apply ho_int | apply ho_str | apply ho_slice_nil | eapply ho_slice; [reflexivity|]]. }
  split; [repeat constructor|]. split; [reflexivity|]. split; [exists 12%nat; vm_compute; reflexivity|]. split; [exact fewer86|].
  split; [apply (compile_supported Xd E86 9); vm_compute; reflexivity|]. split.
  { intros U t n _ _ Hw. apply no_run_small in Hw; [|vm_compute; reflexivity]. cbn [x_slots Xd].
    split; [unfold max_int64; lia|]. split; apply Z.ltb_lt; lia. }
  split; exists 12%nat; vm_compute; reflexivity.
Qed.

(** Readers that share no type with the writer (Demo.v's Node):
    0: type All struct { A int `php:"a"`; Next map[string]any; Tags []string }
    1: type Some struct { Tags []string } *)
Definition E86' : env := [
  Decl (UStruct [Field (bs "A") true false (bs "a") (TInt IInt); Field (bs "Next") true false [] (TMap TString TAny);
                 Field (bs "Tags") true false [] (TSlice TString)]) NoMethod false;
  Decl (UStruct [Field (bs "Tags") true false [] (TSlice TString)]) NoMethod false ].
Lemma E86'_go : go_env E86'.
Proof.
  split.
  - exists (fun _ => 0%nat). intros n d Hn. do 2 (destruct n as [|n]; [cbn in Hn; injection Hn as <-; split; [cbn; lia|]; intros m Hm; cbn in Hm; tauto|]).
    destruct n; discriminate.
  - intros n d t m Hn Hd. do 2 (destruct n as [|n]; [cbn in Hn; injection Hn as <-; discriminate Hd|]). destruct n; discriminate.
Qed.
Lemma fewer86' : fewer Xd E86' (TName 1) (TName 0).
Proof.
  eapply fe_struct; [split; reflexivity|split; reflexivity|].
  intros key i f Hl. apply lookup_spec in Hl as (Hn & _ & Hk). destruct i as [|i]; [|destruct i; discriminate]; injection Hn as <-; vm_compute in Hk; subst key.
  eexists 2%nat, _. split; [vm_compute; reflexivity|]. split; [reflexivity|].
  eapply fe_slice; [split; reflexivity|split; reflexivity|reflexivity|]. eapply fe_scalar; [split; reflexivity|split; reflexivity|reflexivity].
Qed.
Example C86_example_marshalled :
  fmt_ok Xd /\ fair_order in_order /\ unspoken Xd Ed Hd (TPtr (TName 0)) (HPtr (Some (2, 0)%nat)) /\
  Marshals Xd Ed Hd in_order (TPtr (TName 0)) (HPtr (Some (2, 0)%nat)) node_text /\ small node_text /\
  go_env E86' /\ supported Xd E86' (TName 1) /\ allocatable Xd E86' (TName 1) node_text /\ fewer Xd E86' (TName 1) (TName 0) /\
  same_data Xd E86' (TName 1) (TName 0) (zero E86' (TName 1)) (zero E86' (TName 0)) /\
  (exists w', Decodes Xd E86' node_text (TName 0) (zero E86' (TName 0)) w') /\
  Decodes Xd E86' node_text (TName 1) (zero E86' (TName 1)) (VStruct [VSlice (Some [VStr (bs "x"); VStr []])]) /\
  (node_text = text (syntax node_php) /\ wf (syntax node_php) /\ counted (syntax node_php)).
Proof.
  split; [exact Xd_fmt|]. split; [exact in_order_fair|]. split; [exact (proj1 (proj2 C30_example))|]. split; [exact node_marshals|]. split; [reflexivity|].
  split; [exact E86'_go|]. split; [apply (compile_supported Xd E86' 9); vm_compute; reflexivity|]. split.
  { intros U t n _ _ Hw. apply no_run_small in Hw; [|vm_compute; reflexivity]. cbn [x_slots Xd].
    split; [unfold max_int64; lia|]. split; apply Z.ltb_lt; lia. }
  split; [exact fewer86'|]. split; [exact (C86_zero Xd E86' _ _ E86'_go fewer86')|].
  split; [eexists; exists 12%nat; vm_compute; reflexivity|]. split; [exists 12%nat; vm_compute; reflexivity|].
  split; [vm_compute; reflexivity|]. split; [apply syntax_wf; split; reflexivity|apply syntax_counted].
Qed.
