(** Properties of Unmarshal, part 3: sequences, headers, Unmarshalers, targets,
    destination types, failed decodes (C19-C27). *)
From Coq Require Import Strings.String Strings.Byte ZArith List Bool Lia Permutation Floats.SpecFloat.
From Verif Require Import Base GoTypes Tags Unmarshal Grammar Denote Elements Typing Api NumFacts CompileFacts Safe UnmFacts StoreFacts
  StructFacts SeqFacts Demo.
Import ListNotations.
Open Scope Z_scope.

(** ** C19 Slices: length is the greatest index plus one, element [i] is what
    the entries written at [i] leave, in order, starting from zero.  (Guards:
    the allocator provides, nesting below the limit; the header form a:0:{} and
    headers with leading zeros are treated apart by the decoder.) *)
Theorem C19_slice_elements : forall X E T t n es is v w,
  small (text (LArr n es)) -> wf (LArr n es) -> supported X E T -> plain E T (KSlice t) ->
  es <> [] -> hd_error n <> Some "0"%byte -> num n <= max_int64 -> x_slots X t (num n) = true ->
  indexes es is -> Forall (fun i => Z.of_nat i < max_int64 /\ x_slots X t (Z.of_nat i + 1) = true) is ->
  nesting (LArr n es) < 10000 ->
  Decodes X E (text (LArr n es)) T v w <->
  exists l, w = VSlice (Some l) /\ length l = list_max (map S is) /\
    forall i x, nth_error l i = Some x -> landed (fun p => Decodes X E (text p) t) i es (zero E t) x.
Proof. exact slice_exact. Qed.
Print Assumptions C19_slice_elements.
Theorem C19_keys_are_indexes : forall X E T t n es v w, small (text (LArr n es)) -> wf (LArr n es) ->
  plain E T (KSlice t) \/ (exists k, plain E T (KArray k t)) ->
  Decodes X E (text (LArr n es)) T v w -> exists is, indexes es is.
Proof. exact seq_indexes. Qed.
Print Assumptions C19_keys_are_indexes.

Ltac numerals := split; [discriminate|reflexivity].
Ltac wfs := repeat first
  [ apply wf_arr; [numerals|] | apply Forall_cons; [split|] | apply Forall_nil
  | eapply wf_int; first [apply it_pos; numerals|apply (it_neg (bs "1")); numerals] | apply wf_null ].
(** index 2, then 0, then 2 again *)
Definition gaps : list (lval * lval) :=
  [(LInt (bs "2"), LInt (bs "5")); (LInt (bs "0"), LInt (bs "-1")); (LInt (bs "2"), LInt (bs "9"))].
Example C19_example : wf (LArr (bs "3") gaps) /\ indexes gaps [2; 0; 2]%nat /\
  Forall (fun i => Z.of_nat i < max_int64 /\ x_slots Xd (TInt IInt) (Z.of_nat i + 1) = true) [2; 0; 2]%nat /\
  nesting (LArr (bs "3") gaps) < 10000 /\
  Decodes Xd Ed (text (LArr (bs "3") gaps)) (TSlice (TInt IInt)) (VSlice None) (VSlice (Some [VInt (-1); VInt 0; VInt 9])).
Proof.
  split; [unfold gaps; wfs|]. split.
  { repeat constructor; eexists; (split; [reflexivity|]); split;
      try (apply (it_pos (bs "2")); numerals); try (apply (it_pos (bs "0")); numerals); vm_compute; discriminate. }
  split; [repeat constructor|]. split; [reflexivity|]. exists 9%nat. vm_compute. reflexivity.
Qed.

(** ** C20 Fixed arrays: the length is kept, entries beyond it are validated and
    dropped, element [i] is as for slices, and nothing of the old content
    remains. *)
Theorem C20_array_elements : forall X E T k t n es is v w,
  small (text (LArr n es)) -> wf (LArr n es) -> supported X E T -> plain E T (KArray k t) ->
  es <> [] -> hd_error n <> Some "0"%byte -> num n <= max_int64 -> indexes es is -> nesting (LArr n es) < 10000 ->
  Decodes X E (text (LArr n es)) T v w <->
  Forall2 (fun e i => (k <= i)%nat -> strict 1 (snd e)) es is /\
  exists l, w = VArr l /\ length l = k /\
    forall i x, nth_error l i = Some x -> landed (fun p => Decodes X E (text p) t) i es (zero E t) x.
Proof. exact array_exact. Qed.
Print Assumptions C20_array_elements.
Example C20_example : plain Ed (TArray 2 (TInt I8)) (KArray 2 (TInt I8)) /\
  Decodes Xd Ed (text (LArr (bs "3") gaps)) (TArray 2 (TInt I8)) (VArr [VInt 8; VInt 8]) (VArr [VInt (-1); VInt 0]).
Proof. split; [split; reflexivity|]. exists 9%nat. vm_compute. reflexivity. Qed.

(** ** C21 Declared counts are enforced.  False everywhere except where values
    are skipped or handed over raw (C12). *)
Theorem C21_counts_enforced_refuted : forall X E,
  (forall v, Decodes X E (bs "a:5:{}") TAny v (VIface (Some (TMap TAny TAny, VMap (Some []))))) /\
  (Decodes X E (bs "a:5:{}") (TMap TString TBool) (VMap None) (VMap (Some []))) /\
  (x_slots X (TInt IInt) 5 = true -> x_slots X (TInt IInt) 1 = true ->
     forall v, Decodes X E (bs "a:5:{i:0;i:7;}") (TSlice (TInt IInt)) v (VSlice (Some [VInt 7]))).
Proof.
  intros [f p l u q slots m] E. split; [intros v; exists 3%nat; vm_compute; reflexivity|].
  split; [exists 3%nat; vm_compute; reflexivity|]. intros H H' v. cbn in H, H'. exists 3%nat. vm_compute. rewrite H, H'. reflexivity.
Qed.
Print Assumptions C21_counts_enforced_refuted.
(** What holds instead.  For structs and maps the header (kind, class name,
    count) has no influence at all; for any the count has none. *)
Theorem C21_count_ignored_any : forall X E T n n' es v w,
  small (text (LArr n es)) -> small (text (LArr n' es)) -> wf (LArr n es) -> numeral n' -> num n' <= max_int64 -> plain E T KAny ->
  Decodes X E (text (LArr n es)) T v w -> Decodes X E (text (LArr n' es)) T v w.
Proof. exact any_header_arr. Qed.
Print Assumptions C21_count_ignored_any.
Theorem C21_count_ignored_seq : forall X E T t n n' es v w,
  small (text (LArr n es)) -> small (text (LArr n' es)) -> wf (LArr n es) ->
  plain E T (KSlice t) \/ (exists k, plain E T (KArray k t)) -> es <> [] ->
  numeral n' -> hd_error n' <> Some "0"%byte -> num n' <= max_int64 -> x_slots X t (num n') = true ->
  Decodes X E (text (LArr n es)) T v w -> Decodes X E (text (LArr n' es)) T v w.
Proof. exact seq_count. Qed.
Print Assumptions C21_count_ignored_seq.
(** The true part of C21: custom Unmarshalers (and skipped values, C12) see
    right counts only.  Missing: every other destination. *)
Theorem C21_counts_enforced_partial : forall X E T n es k data v w, small data -> has_unmarshal E T = Some n ->
  wf (LArr k es) -> data = text (LArr k es) -> Decodes X E data T v w -> num k = blen es.
Proof.
  intros X E T n es k data v w Hsm Hu Hw -> H. apply (unmarshaler_iff X E T n _ v w Hsm Hu) in H as [[H _]|(p & _ & Hs & Ht & _)].
  - discriminate H.
  - apply text_inj0 in Ht; [subst p; inversion Hs; assumption|exact Hw|]. eapply TextFacts.strict_wf; eauto.
Qed.
Print Assumptions C21_counts_enforced_partial.
Example C21_example : has_unmarshal Ed (TName 1) = Some 1%nat /\ wf (LArr (bs "3") gaps) /\
  Decodes Xd Ed (text (LArr (bs "3") gaps)) (TName 1) (VInt 5) (VInt 1).
Proof. split; [reflexivity|]. split; [unfold gaps; wfs|]. exists 3%nat. vm_compute. reflexivity. Qed.

(** ** C22 Class names are irrelevant: for structs and maps an object and an
    array with the same entries decode alike, whatever class and count. *)
Theorem C22_header_irrelevant : forall X E T p n p' n' es v w,
  small (text p) -> small (text p') -> wf p -> wf p' ->
  (exists id fs, plain E T (KStruct id fs)) \/ (exists k t, plain E T (KMap k t)) ->
  body_of p n es -> body_of p' n' es -> num n <= max_int64 -> num n' <= max_int64 ->
  Decodes X E (text p) T v w <-> Decodes X E (text p') T v w.
Proof. exact header_irrelevant. Qed.
Print Assumptions C22_header_irrelevant.
Theorem C22_class_irrelevant_any : forall X E T cn cls n cn' cls' n' es v w,
  small (text (LObj cn cls n es)) -> small (text (LObj cn' cls' n' es)) -> wf (LObj cn cls n es) -> wf (LObj cn' cls' n' es) ->
  num n' <= max_int64 -> plain E T KAny ->
  Decodes X E (text (LObj cn cls n es)) T v w -> Decodes X E (text (LObj cn' cls' n' es)) T v w.
Proof. exact any_header_obj. Qed.
Print Assumptions C22_class_irrelevant_any.
Theorem C22_objects_elsewhere_rejected : forall X E T cn cls n es v w,
  small (text (LObj cn cls n es)) -> wf (LObj cn cls n es) -> has_unmarshal E T = None ->
  match kind_of E T with KStruct _ _ | KMap _ _ | KAny | KIface _ | KPtr _ => False | _ => True end ->
  ~ Decodes X E (text (LObj cn cls n es)) T v w.
Proof. exact object_rejected. Qed.
Print Assumptions C22_objects_elsewhere_rejected.
Example C22_example : let es := [(LStr (bs "1") (bs "a"), LInt (bs "7"))] in
  wf (LObj (bs "3") (bs """:{") (bs "1") es) /\
  Decodes Xd Ed (text (LObj (bs "3") (bs """:{") (bs "1") es)) (TName 0) (zero Ed (TName 0))
    (VStruct [VInt 7; VStr []; VPtr None; VInt 0; VSlice None]).
Proof.
  cbn zeta. split; [|exists 9%nat; vm_compute; reflexivity].
  apply wf_obj; try numerals; [reflexivity|]. constructor; [|constructor]. split; [eapply wf_str; [numerals|reflexivity]|].
  eapply wf_int. apply it_pos. numerals.
Qed.

(** ** C23 Custom Unmarshalers receive exactly the raw value (C12 above says
    when); their error is Unmarshal's error and the destination is untouched. *)
Theorem C23_unmarshaler_gets_raw_text : forall X E T n data v w, small data -> has_unmarshal E T = Some n ->
  Decodes X E data T v w <->
  (data = bs "N;" /\ w = zero E T) \/
  (exists p, p <> LNull /\ strict 0 p /\ data = text p /\ x_unmarshal X n data (zero E T) = (w, true)).
Proof. exact unmarshaler_iff. Qed.
Print Assumptions C23_unmarshaler_gets_raw_text.
Theorem C23_unmarshaler_error : forall X E T n p v w, small (text p) -> has_unmarshal E T = Some n -> p <> LNull -> strict 0 p ->
  x_unmarshal X n (text p) (zero E T) = (w, false) ->
  unmarshal X E 1 (text p) (TgPtr T v) = (v, RErr EUser).
Proof. exact unmarshaler_error. Qed.
Print Assumptions C23_unmarshaler_error.
Definition Xbad : Ext := {|
  x_fmt := x_fmt Xd; x_parse := x_parse Xd; x_letter := x_letter Xd;
  x_unmarshal := fun n b v => (VInt 99, bytes_eqb b (bs "i:1;")); x_unquote := x_unquote Xd; x_slots := x_slots Xd; x_marshal := x_marshal Xd; x_addr := x_addr Xd |}.
Example C23_example : has_unmarshal Ed (TName 1) = Some 1%nat /\ strict 0 (LStr (bs "2") (bs """x")) /\
  x_unmarshal Xbad 1 (text (LStr (bs "2") (bs """x"))) (zero Ed (TName 1)) = (VInt 99, false) /\
  Decodes Xbad Ed (bs "i:1;") (TName 1) (VInt 5) (VInt 99).
Proof. split; [reflexivity|]. split; [apply st_str; [numerals|reflexivity]|]. split; [reflexivity|]. exists 1%nat. vm_compute. reflexivity. Qed.

(** ** C24 Bad targets give an error.  False for an untyped nil target. *)
Theorem C24_bad_target_error_refuted : forall X E cf data, data <> [] ->
  snd (unmarshal X E cf data TgNil) = RPanic PReflect.
Proof. intros X E cf [|b data] H; [congruence|reflexivity]. Qed.
Print Assumptions C24_bad_target_error_refuted.
Theorem C24_bad_target_error_partial : forall X E cf data,
  (forall T v, exists e, unmarshal X E cf data (TgVal T v) = (v, RErr e)) /\
  (forall T, exists e, snd (unmarshal X E cf data (TgNilPtr T)) = RErr e) /\
  (forall tg, data = [] -> snd (unmarshal X E cf data tg) = RErr EEmpty /\ fst (unmarshal X E cf data tg) = pointee tg).
Proof.
  intros X E cf data. split; [|split].
  - intros T v. destruct data; eexists; reflexivity.
  - intros T. destruct data; eexists; reflexivity.
  - intros tg ->. split; reflexivity.
Qed.
Print Assumptions C24_bad_target_error_partial.
Example C24_example : snd (unmarshal Xd Ed 0 (bs "i:1;") (TgVal (TInt IInt) (VInt 3))) = RErr (EInvalidTarget (TInt IInt)).
Proof. reflexivity. Qed.

(** ** C25 A destination type with a forbidden shape anywhere inside is an error,
    before the data is looked at and with the destination untouched; and a type
    without one is never rejected as such (C08). *)
Theorem C25_unsupported_type_error : forall X E T U data v, grounded E T ->
  inside E T U -> unsupported X E U -> Fails X E data T v v.
Proof.
  intros X E T U data v Hg HU Hun. assert (~ supported X E T) as Hns by (intros [H _]; exact (H U HU Hun)).
  apply (compile_rejects X E T Hg) in Hns as (cf & e & Hc). exists cf.
  destruct data as [|b data]; [exists EEmpty; reflexivity|]. exists e. unfold unmarshal. rewrite Hc. reflexivity.
Qed.
Print Assumptions C25_unsupported_type_error.
Theorem C25_supported_type_compiles : forall X E T,
  supported X E T <-> exists cf, compile_f X E cf [] T = ROk tt.
Proof. intros X E T. symmetry. apply compile_iff. Qed.
Print Assumptions C25_supported_type_compiles.
Example C25_example : inside Ed (TMap TString (TPtr (TPtr TBool))) (TPtr (TPtr TBool)) /\ unsupported Xd Ed (TPtr (TPtr TBool)).
Proof.
  split.
  - eapply in_step; [apply in_refl|]. eapply co_val. split; reflexivity.
  - eapply us_ptr; [split; reflexivity|reflexivity].
Qed.

(** ** C26 Compiling the destination type terminates.  False: for the Go types
    type S []S and type M map[string]M, Unmarshal recurses for ever. *)
Theorem C26_destination_compiles_refuted : forall X data v, data <> [] ->
  Diverges X [Decl (UTy (TSlice (TName 0))) NoMethod false] data (TName 0) v /\
  Diverges X [Decl (UTy (TMap TString (TName 0))) NoMethod false] data (TName 0) v.
Proof.
  intros X data v Hd. split; intros cf.
  - set (E := [Decl (UTy (TSlice (TName 0))) NoMethod false]).
    assert (forall cf st, compile_f X E cf st (TName 0) = RFuel) as H.
    { induction cf0 as [|f IH]; intros st; [reflexivity|]. cbn. apply IH. }
    unfold unmarshal. destruct data; [congruence|]. rewrite H. reflexivity.
  - set (E := [Decl (UTy (TMap TString (TName 0))) NoMethod false]).
    assert (forall cf st, compile_f X E cf st (TName 0) = RFuel) as H.
    { induction cf0 as [|f IH]; intros st; [reflexivity|]. cbn. apply IH. }
    unfold unmarshal. destruct data; [congruence|]. rewrite H. reflexivity.
Qed.
Print Assumptions C26_destination_compiles_refuted.
(** The true part: types whose recursion goes through structs compile or are
    rejected.  Missing: recursion through slices, arrays, maps or pointers alone. *)
Theorem C26_destination_compiles_partial : forall X E T, grounded E T ->
  exists cf, compile_f X E cf [] T <> RFuel.
Proof. intros X E T Hg. exact (compile_terminates X E T Hg). Qed.
Print Assumptions C26_destination_compiles_partial.
(** These are all: for every other type, unless it is rejected for another reason,
    Unmarshal recurses for ever, whatever the data. *)
Theorem C26_all_others_refuted : forall X E T U data v, data <> [] ->
  inside E T U -> within_ty E U U -> (forall V, inside E T V -> ~ unsupported X E V) ->
  Diverges X E data T v.
Proof.
  intros X E T U data v Hd HU Hw Hs cf. unfold unmarshal. destruct data; [congruence|].
  rewrite (compile_endless X E T U Hs HU Hw cf). reflexivity.
Qed.
Print Assumptions C26_all_others_refuted.
Example C26_example : grounded Ed (TName 0) /\
  let E := [Decl (UTy (TMap TString (TSlice (TName 0)))) NoMethod false] in
  within_ty E (TName 0) (TName 0).
Proof.
  split; [apply Ed_grounded|]. cbv zeta. eapply wi_more; [apply wi_step; [eapply co_val; split; reflexivity|reflexivity]| |reflexivity].
  eapply co_slice. split; reflexivity.
Qed.

(** ** C27 A failed decode leaves scalar and any destinations alone.  False:
    trailing bytes are noticed after the value has been stored. *)
Theorem C27_failed_decode_refuted : forall X E v, Fails X E (bs "i:1;x") (TInt IInt) v (VInt 1).
Proof. intros X E v. exists 2%nat. eexists. vm_compute. reflexivity. Qed.
Print Assumptions C27_failed_decode_refuted.
(** The true part: that is the only way.  Missing: inputs that start with a
    complete value (and []byte destinations). *)
Theorem C27_failed_decode_partial : forall X E data T k v w, small data -> plain E T k -> simple_kind k = true ->
  Fails X E data T v w -> w = v \/ exists p s, s <> [] /\ data = p ++ s /\ Decodes X E p T v w.
Proof. exact scalar_error_api. Qed.
Print Assumptions C27_failed_decode_partial.
Example C27_example : Fails Xd Ed (bs "i:128;") (TInt I8) (VInt 5) (VInt 5).
Proof. exists 1%nat. eexists. vm_compute. reflexivity. Qed.
