(** Properties of Unmarshal, part 2: panics, strings, skipping, nesting,
    structs, null, any (C04, C05, C11-C18). *)
From Coq Require Import Strings.String Strings.Byte ZArith List Bool Lia Permutation Floats.SpecFloat.
From Verif Require Import Base GoTypes Tags Unmarshal Grammar Denote Elements Typing Api NumFacts CompileFacts Safe UnmFacts StoreFacts
  StructFacts SeqFacts Demo.
Import ListNotations.
Open Scope Z_scope.

(** ** C04 No panic when decoding into slices.  False: an index of MaxInt64
    makes Unmarshal panic, and so does any declared length the allocator cannot
    provide. *)
Theorem C04_slices_never_panic_refuted :
  (forall X E k v, x_slots X (TInt k) 1 = true ->
     Panics X E (bs "a:1:{i:9223372036854775807;i:0;}") (TSlice (TInt k)) v PAlloc) /\
  (forall X E k v, x_slots X (TInt k) max_int64 = false ->
     Panics X E (bs "a:9223372036854775807:{}") (TSlice (TInt k)) v PAlloc).
Proof.
  split; intros [f p l u q slots m] E k v H; cbn in H; exists 3%nat.
  - vm_compute. rewrite H. destruct k; reflexivity.
  - vm_compute. unfold max_int64 in H. cbn in H. rewrite H. reflexivity.
Qed.
Print Assumptions C04_slices_never_panic_refuted.
Example C04_refuted_example : x_slots Xd (TInt IInt) 1 = true /\ x_slots Xd (TInt IInt) max_int64 = false.
Proof. split; reflexivity. Qed.

(** The true part: no panic as long as every number written in the input is
    below MaxInt64 and the allocator can provide slices that long.  Missing from
    C04: that guard. *)
Theorem C04_slices_never_panic_partial : forall X E data T v p, small data -> go_env E -> user_ok X E ->
  keys_safe E T -> allocatable X E T data -> typed E T v -> ~ Panics X E data T v p.
Proof. exact panics_safe. Qed.
Print Assumptions C04_slices_never_panic_partial.

Lemma written_short data n : written data n -> blen data <= 12 -> n < 2 ^ 40 - 1.
Proof.
  intros (pre & ds & post & -> & [_ Hd] & <-) Hl. rewrite !blen_app in Hl.
  assert (num ds < 10 ^ 12); [|cbn in *; lia].
  apply Z.lt_le_trans with (10 ^ blen ds).
  - apply num_bound. exact Hd.
  - apply Z.pow_le_mono_r; [lia|]. unfold blen in *. lia.
Qed.
Example C04_example : allocatable Xd Ed (TSlice TString) (bs "a:1:{i:0;N;}") /\ keys_safe Ed (TSlice TString).
Proof.
  assert (forall U, inside Ed (TSlice TString) U -> U = TSlice TString \/ U = TString) as H.
  { induction 1 as [|U V H IH Hc]; [auto|].
    destruct IH as [-> | ->]; inversion Hc as [t [Hu Hk]|t [Hu Hk]|n t [Hu Hk]|k t [Hu Hk]|k t [Hu Hk]|id fs f [Hu Hk]];
      try discriminate; cbn in Hk; injection Hk as <-; auto. }
  split.
  - intros U t n HU [Hu Hk] Hw. apply H in HU as [-> | ->]; [|discriminate]. cbn in Hk. injection Hk as <-.
    apply written_short in Hw; [|reflexivity || (cbn; lia)]. unfold max_int64. cbn [x_slots Xd].
    assert ((2 ^ 40 < 2 ^ 63)%Z) by reflexivity. repeat split; [lia|apply Z.ltb_lt; lia|apply Z.ltb_lt; lia].
  - intros U k t HU [Hu Hk]. apply H in HU as [-> | ->]; discriminate.
Qed.

(** ** C05 No panic when decoding into maps.  False: an array as key of a
    map[any]T, or any integer key of a map[*int]T. *)
Theorem C05_maps_never_panic_refuted : forall X E v,
  (exists o, v = VMap o) ->
  Panics X E (bs "a:1:{a:0:{}i:1;}") (TMap TAny TAny) v PUnhashable /\
  Panics X E (bs "a:1:{i:1;i:1;}") (TMap (TPtr (TInt IInt)) (TInt IInt)) v PReflect.
Proof. intros X E v [o ->]. split; exists 3%nat; vm_compute; reflexivity. Qed.
Print Assumptions C05_maps_never_panic_refuted.

(** The true part: no panic when no map inside the destination is keyed by any
    or a pointer (and the slices it contains can be allocated). *)
Theorem C05_maps_never_panic_partial : forall X E data T v p, small data -> go_env E -> user_ok X E ->
  keys_safe E T -> allocatable X E T data -> typed E T v -> ~ Panics X E data T v p.
Proof. exact panics_safe. Qed.
Print Assumptions C05_maps_never_panic_partial.
Example C05_example : keys_safe Ed (TMap TString (TUint U8)) /\ forall data, allocatable Xd Ed (TMap TString (TUint U8)) data.
Proof.
  assert (forall U, inside Ed (TMap TString (TUint U8)) U -> In U [TMap TString (TUint U8); TString; TUint U8]) as H.
  { induction 1 as [|U V H IH Hc]; [cbn; auto|]. cbn in IH.
    destruct IH as [<-|[<-|[<-|[]]]]; inversion Hc as [t [Hu Hk]|t [Hu Hk]|n t [Hu Hk]|k t [Hu Hk]|k t [Hu Hk]|id fs f [Hu Hk]];
      try discriminate; cbn in Hk; injection Hk as <- <-; cbn; auto. }
  split.
  - intros U k t HU [Hu Hk]. apply H in HU. cbn in HU. destruct HU as [<-|[<-|[<-|[]]]]; try discriminate. cbn in Hk. injection Hk as <- <-. exact I.
  - intros data U t n HU [Hu Hk]. apply H in HU. cbn in HU. destruct HU as [<-|[<-|[<-|[]]]]; discriminate.
Qed.

(** ** C11 Strings are binary safe: the declared length alone delimits them. *)
Theorem C11_strings_exact : forall X E T v w n b, small (text (LStr n b)) -> numeral n -> plain E T KString ->
  (Decodes X E (text (LStr n b)) T v w <-> num n = blen b /\ w = VStr b) /\
  (num n <> blen b -> exists w', Fails X E (text (LStr n b)) T v w').
Proof. exact string_exact. Qed.
Print Assumptions C11_strings_exact.
Theorem C11_byte_slices_exact : forall X E T t v w n b, small (text (LStr n b)) -> numeral n ->
  plain E T (KSlice t) -> is_byte E t = true ->
  (Decodes X E (text (LStr n b)) T v w <-> num n = blen b /\ w = vbytes b).
Proof. exact bytes_exact. Qed.
Print Assumptions C11_byte_slices_exact.
Example C11_example : let b := bs """;}s:9:" ++ ["000"%byte; "255"%byte] in
  numeral (bs "9") /\ num (bs "9") = blen b /\ plain Ed TString KString /\ plain Ed (TSlice (TUint U8)) (KSlice (TUint U8)).
Proof. repeat split; discriminate. Qed.

(** ** C12 A value that is only skipped or handed over raw is fully validated:
    a custom Unmarshaler is called exactly on strictly well-formed values
    (right lengths, right counts, bounded nesting), and gets exactly their
    text; the value under an unknown struct key must be strictly well formed. *)
Theorem C12_raw_value_validated : forall X E T n data v w, small data -> has_unmarshal E T = Some n ->
  Decodes X E data T v w <->
  (data = bs "N;" /\ w = zero E T) \/
  (exists p, p <> LNull /\ strict 0 p /\ data = text p /\ x_unmarshal X n data (zero E T) = (w, true)).
Proof. exact unmarshaler_iff. Qed.
Print Assumptions C12_raw_value_validated.
Theorem C12_skipped_value_validated : forall X E T id fs p n es kp k u v w,
  small (text p) -> wf p -> plain E T (KStruct id fs) -> body_of p n es -> In (kp, u) es ->
  key_text kp k -> (forall f, In f fs -> is_ignored f = false -> field_key X f <> k) ->
  Decodes X E (text p) T v w -> strict 1 u.
Proof. exact unknown_key_strict. Qed.
Print Assumptions C12_skipped_value_validated.
Example C12_example : has_unmarshal Ed (TName 1) = Some 1%nat /\
  strict 0 (LArr (bs "1") [(LInt (bs "0"), LStr (bs "1") (bs "}"))]) /\
  Decodes Xd Ed (bs "a:2:{s:1:""a"";i:1;s:1:""z"";a:1:{i:0;N;}}") (TName 0) (zero Ed (TName 0))
    (VStruct [VInt 1; VStr []; VPtr None; VInt 0; VSlice None]).
Proof.
  split; [reflexivity|]. split; [|exists 9%nat; vm_compute; reflexivity].
  apply st_arr; [lia|split; [discriminate|reflexivity]|reflexivity|]. constructor; [|constructor]. split.
  - eapply st_int. apply it_pos. split; [discriminate|reflexivity].
  - eapply st_str; [split; [discriminate|reflexivity]|reflexivity].
Qed.

(** ** C13 Nesting deeper than 10000 is rejected; up to there (below, for typed
    destinations) depth does not matter. *)
Theorem C13_too_deep_rejected : forall X E T p v w, small (text p) -> wf p -> 10000 < nesting p ->
  ~ Decodes X E (text p) T v w.
Proof. exact too_deep. Qed.
Print Assumptions C13_too_deep_rejected.
Theorem C13_any_up_to_limit : forall X E T p v w, small (text p) -> plain E T KAny -> (exists d, any_val X d p w) ->
  (Decodes X E (text p) T v w <-> nesting p <= 10000).
Proof. exact any_depth. Qed.
Print Assumptions C13_any_up_to_limit.
Theorem C13_typed_below_limit : forall X E T p v w, small (text p) -> supported X E T -> nesting p < 10000 ->
  (exists d, store X E d T p v w) -> Decodes X E (text p) T v w.
Proof. exact room_decodes. Qed.
Print Assumptions C13_typed_below_limit.
(** n arrays around an empty one *)
Fixpoint nested (n : nat) : lval :=
  match n with O => LArr (bs "0") [] | S n' => LArr (bs "1") [(LInt (bs "0"), nested n')] end.
Lemma nested_nesting n : nesting (nested n) = 1 + Z.of_nat n.
Proof. induction n as [|n IH]; [reflexivity|]. cbn [nested]. rewrite nesting_arr. cbn [nest_body fold_right fst snd]. rewrite IH. cbn [nesting]. lia. Qed.
Lemma nested_wf n : wf (nested n).
Proof.
  induction n as [|n IH]; cbn [nested]; apply wf_arr; try (split; [discriminate|reflexivity]); repeat constructor; auto.
  eapply wf_int. apply it_pos. split; [discriminate|reflexivity].
Qed.
Lemma nested_any X n : forall d, d <= 10000 - (1 + Z.of_nat n) -> exists w, any_val X d (nested n) w.
Proof.
  induction n as [|n IH]; intros d Hd; cbn [nested].
  - eexists. apply av_arr; [unfold limit; lia|split; [discriminate|reflexivity]|cbn; lia|constructor].
  - destruct (IH (d + 1)) as [w Hw]; [lia|]. eexists. apply av_arr; [unfold limit; lia|split; [discriminate|reflexivity]|cbn; lia|].
    eapply me_cons; [|exact Hw| |constructor].
    + eapply ak_int; [apply it_pos; split; [discriminate|reflexivity]|unfold int_range; cbn; lia].
    + reflexivity.
Qed.
Example C13_example : wf (nested (Z.to_nat 10000)) /\ 10000 < nesting (nested (Z.to_nat 10000)) /\
  (exists w d, any_val Xd d (nested (Z.to_nat 9999)) w).
Proof.
  split; [apply nested_wf|]. split; [rewrite nested_nesting, Z2Nat.id; lia|].
  destruct (nested_any Xd (Z.to_nat 9999) 0) as [w Hw]; [rewrite Z2Nat.id; lia|]. eauto.
Qed.

(** ** C14 Unknown keys are ignored. *)
Theorem C14_unknown_keys_ignored : forall X E T id fs p n p' n' es1 es2 kp k u v w,
  small (text p) -> small (text p') -> wf p -> wf p' -> supported X E T -> plain E T (KStruct id fs) ->
  body_of p n (es1 ++ (kp, u) :: es2) -> body_of p' n' (es1 ++ es2) ->
  key_text kp k -> (forall f, In f fs -> is_ignored f = false -> field_key X f <> k) -> strict 1 u ->
  Decodes X E (text p) T v w <-> Decodes X E (text p') T v w.
Proof. exact unknown_key_skipped. Qed.
Print Assumptions C14_unknown_keys_ignored.
(** "skip" is the name of an unexported field of Node *)
Example C14_example : supported Xd Ed (TName 0) /\ key_text (LStr (bs "4") (bs "skip")) (bs "skip") /\
  exists id fs, plain Ed (TName 0) (KStruct id fs) /\ (forall f, In f fs -> is_ignored f = false -> field_key Xd f <> bs "skip").
Proof.
  split; [apply (compile_supported Xd Ed 9); vm_compute; reflexivity|].
  split; [apply kt_str; split; [split; [discriminate|reflexivity]|reflexivity]|].
  eexists _, _. split; [split; reflexivity|]. cbn. intros f [<-|[<-|[<-|[<-|[<-|[]]]]]]; vm_compute; discriminate.
Qed.

(** ** C15 The order of the entries of a struct does not matter (no key
    twice). *)
Theorem C15_field_order_irrelevant : forall X E T id fs p n p' n' es es' v w,
  small (text p) -> small (text p') -> wf p -> wf p' -> supported X E T -> plain E T (KStruct id fs) ->
  body_of p n es -> body_of p' n' es' -> Permutation es es' -> NoDup (map entry_key es) ->
  Decodes X E (text p) T v w <-> Decodes X E (text p') T v w.
Proof. exact field_order_irrelevant. Qed.
Print Assumptions C15_field_order_irrelevant.
Example C15_example : let a := (LStr (bs "1") (bs "a"), LInt (bs "1")) in let b := (LStr (bs "1") (bs "b"), LNull) in
  Permutation [a; b] [b; a] /\ NoDup (map entry_key [a; b]) /\ body_of (LArr (bs "2") [a; b]) (bs "2") [a; b].
Proof.
  cbn zeta. split; [apply perm_swap|]. split; [|constructor]. cbn. repeat constructor; cbn; intuition discriminate.
Qed.

(** ** C16 Fields not mentioned keep their values (and so do ignored fields);
    a field mentioned once gets what decoding its entry alone into it gives. *)
Theorem C16_fields_after : forall X E T id fs p n es l w, small (text p) -> wf p -> plain E T (KStruct id fs) ->
  body_of p n es -> Decodes X E (text p) T (VStruct l) w ->
  exists l', w = VStruct l' /\ length l' = length l /\
  (forall i f, nth_error fs i = Some f -> is_ignored f = true \/ ~ In (field_key X f) (map entry_key es) ->
     nth_error l' i = nth_error l i) /\
  (NoDup (map entry_key es) -> forall i f kp u, nth_error fs i = Some f -> is_ignored f = false -> string_tagged X E f = false ->
     In (kp, u) es -> key_text kp (field_key X f) ->
     exists old new, nth_error l i = Some old /\ nth_error l' i = Some new /\ Decodes X E (text u) (f_ty f) old new).
Proof. exact fields_after. Qed.
Print Assumptions C16_fields_after.
Example C16_example : Decodes Xd Ed (bs "a:1:{s:1:""a"";i:7;}") (TName 0)
  (VStruct [VInt 1; VStr (bs "old"); VPtr None; VInt 3; VSlice None])
  (VStruct [VInt 7; VStr (bs "old"); VPtr None; VInt 3; VSlice None]).
Proof. exists 9%nat. vm_compute. reflexivity. Qed.

(** ** C17 What null does is fixed by the destination type. *)
Theorem C17_null : forall X E T v w, supported X E T ->
  Decodes X E (bs "N;") T v w <-> null_result E T v w.
Proof. exact null_decodes. Qed.
Print Assumptions C17_null.
Example C17_example : supported Xd Ed (TName 2) /\ null_result Ed (TName 2) (VSlice (Some [])) (VSlice None).
Proof. split; [apply (compile_supported Xd Ed 9); vm_compute; reflexivity|reflexivity]. Qed.

(** ** C18 Decoding into any: only nil, bool, int64, float64, string and maps of
    these come out, at every depth, and what any held before does not matter. *)
Theorem C18_any_closed : forall X E data T v w, small data -> plain E T KAny -> Decodes X E data T v w -> php_any w.
Proof. exact any_closed. Qed.
Print Assumptions C18_any_closed.
Theorem C18_any_forgets : forall X E data T v v' w, small data -> plain E T KAny ->
  Decodes X E data T v w -> Decodes X E data T v' w.
Proof. exact any_prior. Qed.
Print Assumptions C18_any_forgets.
Example C18_example : Decodes Xd Ed (bs "a:2:{i:3;O:1:""C"":1:{s:1:""k"";b:1;}s:1:""k"";d:1.5;}") TAny (VIface None)
  (VIface (Some (TMap TAny TAny, VMap (Some
    [(VIface (Some (TInt I64, VInt 3)), VIface (Some (TMap TString TAny, VMap (Some [(VStr (bs "k"), VIface (Some (TBool, VBool true)))]))));
     (VIface (Some (TString, VStr (bs "k"))), VIface (Some (TF64, VF64 (S754_finite false 3 (-1)))))])))).
Proof. exists 9%nat. vm_compute. reflexivity. Qed.
