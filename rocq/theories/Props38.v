(** Properties of Unmarshal: the order of entries (C84). *)
From Coq Require Import Strings.String Strings.Byte ZArith List Bool Lia Permutation Floats.SpecFloat.
From Verif Require Import Base GoTypes Tags Grammar Denote Typing Safe NumFacts Api Unmarshal TextFacts CompileFacts UnmFacts StructFacts MapSpec Demo Props2 Props5 Reorder ReorderFacts.
Import ListNotations.
Open Scope Z_scope.

(** ** C84 The order of the entries of arrays and objects does not matter to
    Unmarshal, at any depth: entries with different keys may change places, and the
    same data is accepted and leaves a value that looks the same to the program,
    whichever way it looks.  (For destinations without UnmarshalPHP methods, which
    see the text itself.  Destinations may hold something before the call.) *)
Theorem C84_order : forall X E T p q v v' w, shorter_fits X -> small (text p) -> wf p -> supported X E T -> no_methods E T ->
  reordered p q -> looks_same v v' -> Decodes X E (text p) T v w ->
  exists w', Decodes X E (text q) T v' w' /\ looks_same w w'.
Proof.
  intros X E T p q v v' w Hf Hsm Hw Hs Hm R A H. apply decodes_text in H; [|assumption..].
  destruct (sim_store X E p q 0 T (sim_all X E Hf p q R) Hm _ _ _ A H) as (w' & H' & B).
  exists w'. split; [|exact B]. apply decodes_text; [eapply reordered_small; eassumption|eapply reordered_wf; eassumption|exact Hs|exact H'].
Qed.
Print Assumptions C84_order.

(** Both are accepted or neither is. *)
Theorem C84_accepted : forall X E T p q v, shorter_fits X -> small (text p) -> wf p -> supported X E T -> no_methods E T ->
  reordered p q -> (exists w, Decodes X E (text p) T v w) <-> (exists w, Decodes X E (text q) T v w).
Proof.
  intros X E T p q v Hf Hsm Hw Hs Hm R. split; intros [w H].
  - destruct (C84_order X E T p q v v w Hf Hsm Hw Hs Hm R (looks_refl v) H) as (w' & H' & _). eauto.
  - destruct (C84_order X E T q p v v w Hf) as (w' & H' & _); eauto.
    + eapply reordered_small; eassumption.
    + eapply reordered_wf; eassumption.
    + apply reordered_sym, R.
    + apply looks_refl.
Qed.
Print Assumptions C84_accepted.

(** [looks_same] is not too weak: values of the kinds a decoder fills with no map
    in them look the same only if they are equal, and maps that look the same have
    the same keys with values that look the same. *)
Theorem C84_looks : forall v v', looks_same v v' ->
  match v with
  | VSlice (Some l) => exists l', v' = VSlice (Some l') /\ Forall2 looks_same l l'
  | VArr l => exists l', v' = VArr l' /\ Forall2 looks_same l l'
  | VStruct l => exists l', v' = VStruct l' /\ Forall2 looks_same l l'
  | VMap (Some m) => exists m', v' = VMap (Some m') /\
      forall q, match at_key q m, at_key q m' with Some x, Some y => looks_same x y | None, None => True | _, _ => False end
  | VPtr (Some u) => exists u', v' = VPtr (Some u') /\ looks_same u u'
  | VIface (Some (t, u)) => exists u', v' = VIface (Some (t, u')) /\ looks_same u u'
  | _ => v' = v
  end.
Proof.
  intros v v' A. pose proof (looks_face _ _ A) as F.
  destruct v as [| | | | | |[l|]|l|[m|]|[u|]|[[t u]|]|l|], v' as [| | | | | |[l'|]|l'|[m'|]|[u'|]|[[t' u']|]|l'|]; cbn in F; try discriminate F; try (symmetry; exact F).
  - exists l'. split; [reflexivity|]. apply same_slice, A.
  - exists l'. split; [reflexivity|]. apply same_array, A.
  - exists m'. split; [reflexivity|]. intros q. exact (proj1 (same_map m m') A q).
  - exists u'. split; [reflexivity|]. apply same_ptr, A.
  - injection F as <-. exists u'. split; [reflexivity|]. exact (looks_into Follow _ _ A).
  - exists l'. split; [reflexivity|]. apply same_struct, A.
Qed.
Print Assumptions C84_looks.

(** A Node whose fields, and those of the Node it points to, and its tags, come in
    another order. *)
Definition tags (b : bool) : lval :=
  let x := (LInt (bs "0"), LStr (bs "1") (bs "x")) in let y := (LInt (bs "1"), LStr (bs "1") (bs "y")) in
  LArr (bs "2") (if b then [x; y] else [y; x]).
Definition inner (b : bool) : lval :=
  let x := (LStr (bs "4") (bs "Tags"), tags b) in let y := (LStr (bs "1") (bs "b"), LStr (bs "1") (bs "z")) in
  LObj (bs "1") (bs "N") (bs "2") (if b then [x; y] else [y; x]).
Definition outer (b : bool) : lval :=
  let x := (LStr (bs "1") (bs "a"), LInt (bs "7")) in let y := (LStr (bs "4") (bs "Next"), inner b) in let z := (LStr (bs "2") (bs "zz"), LNull) in
  LArr (bs "3") (if b then [x; y; z] else [z; x; y]).
Lemma str_key n s : str_ok n s -> key_is (LStr n s) (inr s). Proof. apply ki_str. Qed.
Ltac strs := split; [split; [discriminate|reflexivity]|reflexivity].
Lemma outer_reordered : reordered (outer true) (outer false).
Proof.
  assert (reordered (inner true) (inner false)) as I.
  { unfold inner. apply reo_obj, shu_swap; [| |constructor|constructor].
    - exists (inr (bs "Tags")), (inr (bs "b")). split; [apply str_key; strs|]. split; [apply str_key; strs|discriminate].
    - unfold tags. apply reo_arr, shu_swap; [|constructor|constructor|constructor].
      exists (inl 0), (inl 1). split; [apply (ki_int _ _ (it_pos (bs "0") ltac:(split; [discriminate|reflexivity])))|].
      split; [apply (ki_int _ _ (it_pos (bs "1") ltac:(split; [discriminate|reflexivity])))|discriminate]. }
  unfold outer. apply reo_arr. cbv zeta iota.
  eapply shu_trans with (b := [(LStr (bs "1") (bs "a"), LInt (bs "7")); (LStr (bs "2") (bs "zz"), LNull); (LStr (bs "4") (bs "Next"), inner false)]).
  - apply shu_cons; [constructor|]. apply shu_swap; [|exact I|constructor|constructor].
    exists (inr (bs "Next")), (inr (bs "zz")). split; [apply str_key; strs|]. split; [apply str_key; strs|discriminate].
  - apply shu_swap; [|constructor|constructor|apply shu_cons; [|constructor]].
    + exists (inr (bs "a")), (inr (bs "zz")). split; [apply str_key; strs|]. split; [apply str_key; strs|discriminate].
    + unfold inner, tags. apply reo_obj. repeat (apply shu_cons; [constructor; repeat (apply shu_cons; [constructor|]); constructor|]). constructor.
Qed.
Example C84_example :
  shorter_fits Xd /\ small (text (outer true)) /\ wf (outer true) /\ supported Xd Ed (TPtr (TName 0)) /\ no_methods Ed (TPtr (TName 0)) /\
  text (outer true) <> text (outer false) /\
  Decodes Xd Ed (text (outer true)) (TPtr (TName 0)) (VPtr None)
    (VPtr (Some (VStruct [VInt 7; VStr []; VPtr (Some (VStruct [VInt 0; VStr (bs "z"); VPtr None; VInt 0; VSlice (Some [VStr (bs "x"); VStr (bs "y")])])); VInt 0; VSlice None]))).
Proof.
  split; [|split; [reflexivity|split; [|split; [|split; [|split; [discriminate|exists 9%nat; vm_compute; reflexivity]]]]]].
  - intros t m n Hmn. cbn. rewrite !Z.ltb_lt. lia.
  - unfold outer, inner, tags.
    repeat first [apply wf_arr; [split; [discriminate|reflexivity]|] | apply wf_obj; [split; [discriminate|reflexivity]|reflexivity|split; [discriminate|reflexivity]|]
      | apply Forall_cons; [split; cbn [fst snd]|] | apply Forall_nil | apply wf_null
      | eapply wf_int; apply it_pos; split; [discriminate|reflexivity] | eapply wf_str; [split; [discriminate|reflexivity]|reflexivity]].
  - apply (compile_supported Xd Ed 9). vm_compute. reflexivity.
  - intros U I. apply node_inside in I. repeat (destruct I as [<-|I]; [split; [reflexivity|intros m; discriminate]|]). destruct I.
Qed.

(** What is not covered, because the order does matter there.  Repeated keys: the
    last one counts. *)
Theorem C84_repeats_refuted : exists T es es' v w w', Permutation es es' /\ wf (LArr (bs "2") es) /\ supported Xd [] T /\ no_methods [] T /\
  Decodes Xd [] (text (LArr (bs "2") es)) T v w /\ Decodes Xd [] (text (LArr (bs "2") es')) T v w' /\ ~ looks_same w w'.
Proof.
  exists (TSlice TBool), [(LInt (bs "0"), LBool true); (LInt (bs "0"), LBool false)], [(LInt (bs "0"), LBool false); (LInt (bs "0"), LBool true)],
    (VSlice None), (VSlice (Some [VBool false])), (VSlice (Some [VBool true])).
  split; [apply perm_swap|]. split; [|split; [|split; [|split; [|split]]]].
  - repeat first [apply wf_arr; [split; [discriminate|reflexivity]|] | apply Forall_cons; [split; cbn [fst snd]|] | apply Forall_nil | apply wf_bool
      | eapply wf_int; apply it_pos; split; [discriminate|reflexivity]].
  - apply (compile_supported Xd [] 9). vm_compute. reflexivity.
  - intros U I. assert (In U [TSlice TBool; TBool]) as J.
    { revert U I. apply inside_list; [left; reflexivity|]. intros V W Hv Hc. destruct Hv as [<-|[<-|[]]];
        inversion Hc as [t [_ Q]|t [_ Q]|n t [_ Q]|k t [_ Q]|k t [_ Q]|id fs f [_ Q] Hf Hi]; cbn in Q; try discriminate Q. injection Q as <-. cbn. tauto. }
    destruct J as [<-|[<-|[]]]; (split; [reflexivity|intros m; discriminate]).
  - exists 9%nat. vm_compute. reflexivity.
  - exists 9%nat. vm_compute. reflexivity.
  - intros A. specialize (A [Element 0]). discriminate A.
Qed.
Print Assumptions C84_repeats_refuted.
(** Types with an UnmarshalPHP method see the text: one that keeps it keeps the
    order. *)
Definition Xt : Ext := {| x_fmt := x_fmt Xd; x_parse := x_parse Xd; x_letter := x_letter Xd; x_unmarshal := fun _ b _ => (VStr b, true);
  x_unquote := x_unquote Xd; x_slots := x_slots Xd; x_marshal := x_marshal Xd; x_addr := x_addr Xd |}.
Theorem C84_methods_refuted : exists E T p q v w w', reordered p q /\ wf p /\ small (text p) /\ supported Xt E T /\
  Decodes Xt E (text p) T v w /\ Decodes Xt E (text q) T v w' /\ ~ looks_same w w'.
Proof.
  exists [Decl (UTy TString) NoMethod true], (TName 0), (outer true), (outer false), (VStr []), (VStr (text (outer true))), (VStr (text (outer false))).
  split; [exact outer_reordered|]. split; [apply C84_example|]. split; [reflexivity|]. split; [apply (compile_supported Xt _ 9); vm_compute; reflexivity|].
  split; [exists 9%nat; vm_compute; reflexivity|]. split; [exists 9%nat; vm_compute; reflexivity|].
  intros A. specialize (A []). discriminate A.
Qed.
Print Assumptions C84_methods_refuted.
