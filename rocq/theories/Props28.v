(** Properties of Unmarshal, part 13: programs change (C74). *)
From Coq Require Import Strings.String Strings.Byte ZArith List Bool Lia Floats.SpecFloat.
From Verif Require Import Base GoTypes Strconv Tags Grammar Denote Typing Safe NumFacts Api Unmarshal CompileFacts UnmFacts StructFacts Wider WiderFacts Demo Props2.
Import ListNotations.
Open Scope Z_scope.

(** ** C74 What a type accepts, a wider type accepts, and it gets the same data:
    data that was stored for an old version of a program can be read by a new one
    in which types and Go fields have other names, integers have more bits, or
    structs have another order of fields or more fields (unless the data mentions
    those). *)
Theorem C74_wider : forall X E new T T' p v v' w, small (text p) -> wf p -> go_env E -> supported X E T' -> allocatable X E T' (text p) ->
  wider X E new T T' -> (forall k, mentions p k -> ~ new k) -> same_data X E T T' v v' ->
  Decodes X E (text p) T v w -> exists w', Decodes X E (text p) T' v' w' /\ same_data X E T T' w w'.
Proof.
  intros X E new T T' p v v' w Hsm Hw He Hs Ha HW HN HS H. pose proof (proj1 (decodes_inv X E (text p) T v w Hsm H)) as HsT.
  apply (decodes_text X E T p v w Hsm Hw HsT) in H.
  destruct (wide X E new He T' (text p) Ha 0 T' T p v v' w) as (w' & Hw' & HR); auto.
  - apply in_refl.
  - exists [], []. rewrite app_nil_r. reflexivity.
  - exists w'. split; [|exact HR]. apply (decodes_text X E T' p v' w' Hsm Hw Hs). exact Hw'.
Qed.
Print Assumptions C74_wider.

(** Destinations that hold nothing yet hold the same data. *)
Theorem C74_zero : forall X E new T T', go_env E -> wider X E new T T' -> same_data X E T T' (zero E T) (zero E T').
Proof. intros X E new T T' He HW. exact (zero_same X E new He _ T T' eq_refl HW). Qed.
Print Assumptions C74_zero.

(** Every type is wider than itself (unless it mentions types that are no data at
    all: channels, functions and the like). *)
Theorem C74_same_type : forall X E T, (forall U, inside E T U -> kind_of E U <> KOther) -> wider X E (fun _ => False) T T.
Proof.
  intros X E T0 Hk. assert (forall T, inside E T0 T -> wider X E (fun _ => False) T T) as G; [|apply G, in_refl].
  cofix CH. intros T HI. destruct (has_unmarshal E T) as [n|] eqn:Hu; [eapply wd_unm; eauto|].
  destruct (kind_of E T) eqn:Ek; try (eapply wd_flat; [split; eassumption|split; eassumption|reflexivity]).
  - eapply wd_int; [split; eassumption|split; eassumption|lia].
  - eapply wd_uint; [split; eassumption|split; eassumption|lia].
  - eapply wd_slice; [split; eassumption|split; eassumption|reflexivity|]. apply CH. eapply in_step; [exact HI|]. eapply co_slice; split; eassumption.
  - eapply wd_array; [split; eassumption|split; eassumption|]. apply CH. eapply in_step; [exact HI|]. eapply co_array; split; eassumption.
  - eapply wd_map; [split; eassumption|split; eassumption|left; reflexivity|]. apply CH. eapply in_step; [exact HI|]. eapply co_val; split; eassumption.
  - eapply wd_ptr; [split; eassumption|split; eassumption|]. apply CH. eapply in_step; [exact HI|]. eapply co_ptr; split; eassumption.
  - exfalso. exact (Hk T HI Ek).
  - eapply wd_struct; [split; eassumption|split; eassumption| |].
    + intros key i f Hl. exists i, f. split; [exact Hl|]. split; [reflexivity|]. apply CH. eapply in_step; [exact HI|].
      pose proof (lookup_spec X fs key i f Hl) as (Hn & Hig & _). eapply co_field; [split; eassumption| |exact Hig]. eapply nth_error_In; eauto.
    + intros key Hn Hs. destruct (Hs Hn).
Qed.
Print Assumptions C74_same_type.

(** What is not covered, because the code rejects it: a type with fewer fields (the
    elements of a field that is no longer there are counted, those of a field that
    is there are not). *)
Theorem C74_fewer_fields_refuted : exists E p w, wf p /\ go_env E /\ supported Xd E (TName 0) /\ supported Xd E (TName 1) /\
  wider Xd E (fun k => k = bs "L") (TName 1) (TName 0) /\
  Decodes Xd E (text p) (TName 0) (zero E (TName 0)) w /\ exists w', Fails Xd E (text p) (TName 1) (zero E (TName 1)) w'.
Proof.
  exists [Decl (UStruct [Field (bs "A") true false [] TBool; Field (bs "L") true false [] (TSlice TBool)]) NoMethod false;
          Decl (UStruct [Field (bs "A") true false [] TBool]) NoMethod false],
    (LArr (bs "1") [(LStr (bs "1") (bs "L"), LArr (bs "5") [(LInt (bs "0"), LBool true)])]), (VStruct [VBool false; VSlice (Some [VBool true])]).
  assert (forall d, numeral [d] <-> is_digit d = true) as D.
  { intros d. unfold numeral. cbn. rewrite andb_true_r. split; [intros [_ A]; exact A|intros A; split; [discriminate|exact A]]. }
  split; [|split; [|split; [|split; [|split; [|split]]]]].
  - apply wf_arr; [apply D; reflexivity|]. constructor; [|constructor]. cbn [fst snd]. split; [apply wf_str; [apply D; reflexivity|reflexivity]|].
    apply wf_arr; [apply D; reflexivity|]. constructor; [|constructor]. cbn [fst snd]. split; [|constructor]. eapply wf_int, it_pos, D. reflexivity.
  - split.
    + exists (fun _ => 0%nat). intros n d Hn. do 2 (destruct n as [|n]; [cbn in Hn; injection Hn as <-; split; [cbn; lia|]; intros m Hm; cbn in Hm; tauto|]).
      destruct n; discriminate.
    + intros n d t m Hn Hd. do 2 (destruct n as [|n]; [cbn in Hn; injection Hn as <-; discriminate Hd|]). destruct n; discriminate.
  - apply (compile_supported Xd _ 9). vm_compute. reflexivity.
  - apply (compile_supported Xd _ 9). vm_compute. reflexivity.
  - eapply wd_struct; [split; reflexivity|split; reflexivity| |].
    + intros key i f Hl. pose proof Hl as Hl'. apply lookup_spec in Hl' as (Hn & _ & Hk). destruct i as [|[|i]]; [|discriminate|destruct i; discriminate].
      injection Hn as <-. vm_compute in Hk. subst key. eexists 0%nat, _. split; [vm_compute; reflexivity|]. split; [reflexivity|].
      eapply (wd_flat Xd _ _ TBool TBool KBool); solve [split; reflexivity | reflexivity].
    + intros key Hn Hs. destruct (lookup Xd [Field (bs "A") true false [] TBool; Field (bs "L") true false [] (TSlice TBool)] key) as [[i f]|] eqn:El; [|destruct Hs; reflexivity].
      apply lookup_spec in El as (Hi & _ & Hk). destruct i as [|[|i]]; [| |destruct i; discriminate].
      * injection Hi as <-. vm_compute in Hk. subst key. discriminate Hn.
      * injection Hi as <-. vm_compute in Hk. subst key. reflexivity.
  - exists 9%nat. vm_compute. reflexivity.
  - eexists. exists 9%nat. eexists. vm_compute. reflexivity.
Qed.
Print Assumptions C74_fewer_fields_refuted.

(** 0: type Old struct { A int8 `php:"a"`; Kids []*Old; M map[uint8]float32 }
    1: type New struct { Kids []*New; Big int64 `php:"a"`; M map[uint16]float64; Note string } *)
Definition Ew : env := [
  Decl (UStruct [Field (bs "A") true false (bs "a") (TInt I8); Field (bs "Kids") true false [] (TSlice (TPtr (TName 0)));
                 Field (bs "M") true false [] (TMap (TUint U8) TF32)]) NoMethod false;
  Decl (UStruct [Field (bs "Kids") true false [] (TSlice (TPtr (TName 1))); Field (bs "Big") true false (bs "a") (TInt I64);
                 Field (bs "M") true false [] (TMap (TUint U16) TF64); Field (bs "Note") true false [] TString]) NoMethod false ].
Definition note (k : bytes) : Prop := k = bs "Note".
(** a:3:{s:1:"a";i:-5;s:4:"Kids";a:1:{i:1;O:3:"Old":1:{s:1:"a";i:7;}}s:1:"M";a:1:{i:9;d:1.5;}} *)
Definition old_data : lval := LArr (bs "3") [
  (LStr (bs "1") (bs "a"), LInt (bs "-5"));
  (LStr (bs "4") (bs "Kids"), LArr (bs "1") [(LInt (bs "1"), LObj (bs "3") (bs "Old") (bs "1") [(LStr (bs "1") (bs "a"), LInt (bs "7"))])]);
  (LStr (bs "1") (bs "M"), LArr (bs "1") [(LInt (bs "9"), LFloat (bs "1.5"))])].
Lemma lookup_old k i f : lookup Xd [Field (bs "A") true false (bs "a") (TInt I8); Field (bs "Kids") true false [] (TSlice (TPtr (TName 0)));
                 Field (bs "M") true false [] (TMap (TUint U8) TF32)] k = Some (i, f) ->
  (k = bs "a" /\ f_ty f = TInt I8 /\ string_tagged Xd Ew f = false) \/ (k = bs "Kids" /\ f_ty f = TSlice (TPtr (TName 0)) /\ string_tagged Xd Ew f = false) \/
  (k = bs "M" /\ f_ty f = TMap (TUint U8) TF32 /\ string_tagged Xd Ew f = false).
Proof.
  intros Hl. apply lookup_spec in Hl as (Hn & _ & Hk).
  do 3 (destruct i as [|i]; [injection Hn as <-; vm_compute in Hk; subst k; cbn; auto 6|]). destruct i; discriminate.
Qed.
Lemma wider_old : wider Xd Ew note (TName 0) (TName 1).
Proof.
  cofix CH. eapply wd_struct; [split; reflexivity|split; reflexivity| |].
  - intros key i f Hl. destruct (lookup_old key i f Hl) as [(-> & -> & ->)|[(-> & -> & ->)|(-> & -> & ->)]].
    + eexists 1%nat, _. split; [vm_compute; reflexivity|]. split; [reflexivity|]. eapply wd_int; [split; reflexivity|split; reflexivity|cbn; lia].
    + eexists 0%nat, _. split; [vm_compute; reflexivity|]. split; [reflexivity|].
      eapply wd_slice; [split; reflexivity|split; reflexivity|reflexivity|]. eapply wd_ptr; [split; reflexivity|split; reflexivity|]. exact CH.
    + eexists 2%nat, _. split; [vm_compute; reflexivity|]. split; [reflexivity|]. eapply wd_map; [split; reflexivity|split; reflexivity| |].
      * right. exists (KUint U8), (KUint U16). split; [split; reflexivity|]. split; [split; reflexivity|]. cbn. lia.
      * apply wd_float; split; reflexivity.
  - intros key Hn Hs. destruct (lookup Xd _ key) as [[i f]|] eqn:El in Hs; [|destruct Hs; reflexivity].
    apply lookup_spec in El as (Hi & _ & Hk). do 3 (destruct i as [|i]; [injection Hi as <-; vm_compute in Hk; subst key; discriminate Hn|]).
    destruct i as [|i]; [|destruct i; discriminate]. injection Hi as <-. vm_compute in Hk. subst key. reflexivity.
Qed.
Definition no_run (data : bytes) : bool :=
  forallb (fun i => negb ((Nat.leb 3 (length (firstn 3 (skipn i data)))) && forallb is_digit (firstn 3 (skipn i data)))) (seq 0 (S (length data))).
Lemma no_run_small data n : no_run data = true -> written data n -> n < 1000.
Proof.
  intros Hr (pre & ds & post & -> & [_ Hd] & <-). pose proof (num_bound ds Hd) as Hb.
  destruct (Nat.leb_spec 3 (length ds)) as [Hl|Hl].
  - exfalso. unfold no_run in Hr. rewrite forallb_forall in Hr. specialize (Hr (length pre)).
    assert (firstn 3 (skipn (length pre) (pre ++ ds ++ post)) = firstn 3 ds) as Ef.
    { rewrite skipn_app, Nat.sub_diag, skipn_all2 by lia. cbn [app skipn]. rewrite firstn_app. replace (3 - length ds)%nat with 0%nat by lia. cbn [firstn]. apply app_nil_r. }
    rewrite Ef in Hr. assert (In (length pre) (seq 0 (S (length (pre ++ ds ++ post))))) as Hi by (apply in_seq; rewrite !app_length; lia).
    apply Hr in Hi. rewrite firstn_length_le in Hi by exact Hl. cbn [Nat.leb andb] in Hi.
    assert (forallb is_digit (firstn 3 ds) = true) as Hq; [|rewrite Hq in Hi; discriminate].
    rewrite <- (firstn_skipn 3 ds), forallb_app in Hd. apply andb_true_iff in Hd. apply Hd.
  - apply Z.lt_le_trans with (10 ^ blen ds); [apply Hb|]. change 1000 with (10 ^ 3). apply Z.pow_le_mono_r; [lia|]. unfold blen. lia.
Qed.
Definition old_value : gval :=
  VStruct [VInt (-5); VSlice (Some [VPtr None; VPtr (Some (VStruct [VInt 7; VSlice None; VMap None]))]);
           VMap (Some [(VUint 9, VF32 (f32_of_f64 (S754_finite false 3 (-1))))])].
Definition new_value : gval :=
  VStruct [VSlice (Some [VPtr None; VPtr (Some (VStruct [VSlice None; VInt 7; VMap None; VStr []]))]); VInt (-5);
           VMap (Some [(VUint 9, VF64 (S754_finite false 3 (-1)))]); VStr []].
Example C74_example : small (text old_data) /\ wf old_data /\ go_env Ew /\ supported Xd Ew (TName 1) /\ allocatable Xd Ew (TName 1) (text old_data) /\
  wider Xd Ew note (TName 0) (TName 1) /\ (forall k, mentions old_data k -> ~ note k) /\
  same_data Xd Ew (TName 0) (TName 1) (zero Ew (TName 0)) (zero Ew (TName 1)) /\
  Decodes Xd Ew (text old_data) (TName 0) (zero Ew (TName 0)) old_value /\ Decodes Xd Ew (text old_data) (TName 1) (zero Ew (TName 1)) new_value.
Proof.
  assert (forall d, numeral [d] <-> is_digit d = true) as D.
  { intros d. unfold numeral. cbn. rewrite andb_true_r. split; [intros [_ A]; exact A|intros A; split; [discriminate|exact A]]. }
  assert (go_env Ew) as He.
  { split.
    - exists (fun _ => 0%nat). intros n d Hn. do 2 (destruct n as [|n]; [cbn in Hn; injection Hn as <-; split; [cbn; lia|]; intros m Hm; cbn in Hm; tauto|]).
      destruct n; discriminate.
    - intros n d t m Hn Hd. do 2 (destruct n as [|n]; [cbn in Hn; injection Hn as <-; discriminate Hd|]). destruct n; discriminate. }
  split; [reflexivity|]. split.
  { repeat first [apply wf_arr; [apply D; reflexivity|] | apply wf_obj; [apply D; reflexivity|reflexivity|apply D; reflexivity|] | apply Forall_nil | apply Forall_cons | split; cbn [fst snd]
      | apply wf_str; [apply D; reflexivity|reflexivity] | eapply wf_int; apply (it_neg (bs "5")), D; reflexivity | eapply wf_int; apply it_pos, D; reflexivity
      | apply wf_float; [discriminate|cbn; intuition discriminate]]. }
  split; [exact He|]. split; [apply (compile_supported Xd _ 9); vm_compute; reflexivity|]. split.
  { intros U t n _ _ Hw. apply no_run_small in Hw; [|vm_compute; reflexivity]. cbn [x_slots Xd].
    split; [unfold max_int64; lia|]. split; apply Z.ltb_lt; lia. }
  split; [exact wider_old|]. split.
  { intros k Hk. assert (In k [bs "a"; bs "Kids"; bs "M"]) as Hi.
    { assert (forall k, mentions (LObj (bs "3") (bs "Old") (bs "1") [(LStr (bs "1") (bs "a"), LInt (bs "7"))]) k -> k = bs "a") as G.
      { intros q Hq. inversion Hq as [|? ? ? ? ? ? ? Hi Hkt| |? ? ? ? ? ? ? Hi Hm]; subst.
        - destruct Hi as [[= <- <-]|[]]. inversion Hkt. reflexivity.
        - destruct Hi as [[= <- <-]|[]]. inversion Hm. }
      inversion Hk as [? ? ? ? ? Hi Hkt| |? ? ? ? ? Hi Hm|]; subst.
      - destruct Hi as [[= <- <-]|[[= <- <-]|[[= <- <-]|[]]]]; inversion Hkt; subst; cbn; auto.
      - destruct Hi as [[= <- <-]|[[= <- <-]|[[= <- <-]|[]]]]; inversion Hm as [? ? ? ? ? Hi2 Hkt2| |? ? ? ? ? Hi2 Hm2|]; subst;
          destruct Hi2 as [[= <- <-]|[]]; try (inversion Hkt2; fail); try (inversion Hm2; fail). left. symmetry. apply G. exact Hm2. }
    intros ->. destruct Hi as [Hi|[Hi|[Hi|[]]]]; discriminate Hi. }
  split; [exact (C74_zero Xd Ew note _ _ He wider_old)|]. split; exists 9%nat; vm_compute; reflexivity.
Qed.
