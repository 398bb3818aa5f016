(** What Unmarshal's errors about types and about numbers that do not fit tell (C71). *)
From Coq Require Import Strings.String Strings.Byte ZArith List Bool Lia Floats.SpecFloat.
From Verif Require Import Base GoTypes Strconv Tags Scan Decode Unmarshal Grammar Denote Typing Api NumFacts ScanFacts Complete Sound SoundT CompileFacts Safe UnmFacts
  Says SayFacts NameSound TypeFault TruthFacts Demo Props22.
Import ListNotations.
Open Scope Z_scope.

(** ** C71 *)

(** One statement for all errors: what each of them says is true. *)
Definition true_of (X : Ext) (E : env) (data : bytes) (tg : target) (e : error) : Prop :=
  match e with
  | EEmpty => data = []
  | EInvalidTarget t => data <> [] /\ ((exists v, tg = TgVal t v) \/ (exists u, t = TPtr u /\ tg = TgNilPtr u))
  | EUnsupportedType _ | EAnonymous | EDuplicate _ _ =>
      exists T v, tg = TgPtr T v /\ exists U, inside E T U /\ rejected X E U e
  | EOverflow o => exists T v, tg = TgPtr T v /\ supported X E T /\ overflows X E data T o
  | ESyntax o w => (exists T v, tg = TgPtr T v /\ supported X E T) /\ claims data o w
  | EType _ | EUser => exists T v, tg = TgPtr T v /\ supported X E T     (* see C60 and C62 *)
  | EMarshal _ | ETypeAt _ _ | EUserAt _ => False
  end.
Theorem C71_every_error : forall X E cf data tg v e, small data ->
  unmarshal X E cf data tg = (v, RErr e) -> true_of X E data tg e.
Proof.
  intros X E cf data tg v e Hsm Hu.
  assert (forall o w, e = ESyntax o w -> claims data o w) as HC by (intros o w ->; eapply C64_messages_partial; eauto).
  unfold unmarshal in Hu. destruct data as [|b data]; [injection Hu as _ <-; reflexivity|].
  assert (b :: data <> []) as Hne by discriminate.
  remember (b :: data) as buf eqn:Eb. destruct tg as [|t v0|t|T v0]; try discriminate Hu.
  - injection Hu as _ <-. split; [exact Hne|]. left. eauto.
  - injection Hu as _ <-. split; [exact Hne|]. right. eauto.
  - destruct (compile_f X E cf [] T) as [[]|e'|p|] eqn:Ec; try discriminate Hu.
    + pose proof (compile_supported X E _ _ Ec) as Hs. unfold decode in Hu.
      pose proof (decode_fine X E T buf Hsm (proj1 Hs) (decode_fuel buf) T 0 0 v0 (in_refl E T)) as K.
      destruct (decode_f X E (decode_fuel buf) T buf 0 0 v0) as [v' r]. injection Hu as _ Hu. unfold F2 in K. cbn [snd] in K.
      assert (fine X E T buf e) as He.
      { destruct r as [c|e'|p|]; cbn [bind on] in *; try discriminate Hu; [|injection Hu as ->; exact K].
        pose proof (syn_end buf c) as Hy. rewrite Hu in Hy. destruct e; destruct Hy; exact I. }
      destruct e; cbn [fine] in He; try contradiction; cbn [true_of]; [split; [|apply HC; reflexivity]|..]; exists T, v0; auto.
    + injection Hu as -> ->. destruct (compile_rejected X E _ _ _ _ Ec) as (U & HU & HR). pose proof HR as HR'.
      destruct HR'; cbn [true_of]; eauto 8.
Qed.
Print Assumptions C71_every_error.

(** An error about a type is about a type inside that of the destination, and says
    what is wrong with it.  Nothing has been stored, and the error is the same for
    every input and every value of the destination. *)
Definition about_type (e : error) : Prop :=
  match e with EUnsupportedType _ | EAnonymous | EDuplicate _ _ => True | _ => False end.
Theorem C71_type_problem : forall X E cf data T v v' e, small data -> about_type e ->
  unmarshal X E cf data (TgPtr T v) = (v', RErr e) ->
  (exists U, inside E T U /\ rejected X E U e /\ unsupported X E U) /\
  forall data' w, data' <> [] -> unmarshal X E cf data' (TgPtr T w) = (w, RErr e).
Proof.
  intros X E cf data T v v' e Hsm He Hu. pose proof (C71_every_error X E cf data _ v' e Hsm Hu) as Ht.
  assert (exists T0 v0, TgPtr T v = TgPtr T0 v0 /\ exists U, inside E T0 U /\ rejected X E U e) as (T0 & v0 & [= <- <-] & U & HU & HR) by (destruct e; destruct He; exact Ht).
  pose proof (rejected_unsupported X E U e HR) as HB. split; [eauto|].
  assert (compile_f X E cf [] T = RErr e) as Hc.
  { unfold unmarshal in Hu. destruct data as [|b data]; [injection Hu as _ <-; destruct He|].
    destruct (compile_f X E cf [] T) as [[]|e'|p|] eqn:Ec; try discriminate Hu; [|injection Hu as _ ->; reflexivity].
    exfalso. exact (proj1 (compile_supported X E _ _ Ec) U HU HB). }
  intros [|b data'] w Hd; [congruence|]. unfold unmarshal. rewrite Hc. reflexivity.
Qed.
Print Assumptions C71_type_problem.

(** An overflow error names a number of the input which the destination's numbers
    of that kind cannot hold. *)
Theorem C71_overflow : forall X E cf data T v v' o, small data ->
  unmarshal X E cf data (TgPtr T v) = (v', RErr (EOverflow o)) -> overflows X E data T o.
Proof. intros X E cf data T v v' o Hsm Hu. destruct (C71_every_error X E cf data _ v' _ Hsm Hu) as (T0 & v0 & [= <- <-] & _ & H). exact H. Qed.
Print Assumptions C71_overflow.

(** Conversely such a number is reported so, and the destination keeps its value. *)
Theorem C71_overflow_int : forall X E cf k T t z v, plain E T (KInt k) -> int_text t z -> int_range I64 z -> ~ int_range k z ->
  unmarshal X E (S cf) (text (LInt t)) (TgPtr T v) = (v, RErr (EOverflow (OvInt z k))).
Proof.
  intros X E cf k T t z v Hp Ht H64 Hn. remember (text (LInt t)) as data eqn:Ed.
  assert (pos data 0 (text (LInt t) ++ [])) as Hpos by (exists []; rewrite app_nil_r; auto).
  destruct (int_bytes_int data 0 t z [] Hpos Ht) as (c' & Hb & _).
  unfold unmarshal. destruct data as [|b data]; [discriminate Ed|].
  rewrite (compile_scalar X E cf [] T (KInt k) Hp eq_refl). unfold decode, decode_fuel. rewrite Nat.add_comm. cbn [Nat.add decode_f].
  rewrite (node_of_plain _ _ _ Hp). unfold dec_int, dec_text. rewrite Hb. unfold process_int.
  rewrite (proj2 (parse_int64_iff t z)) by (split; [exact Ht|]; unfold int_range, min_int64, max_int64 in *; cbn [ibits] in H64; lia).
  replace (_ || _) with true; [reflexivity|]. symmetry. apply orb_true_iff. rewrite !Z.ltb_lt. unfold int_range in Hn. lia.
Qed.
Print Assumptions C71_overflow_int.
Theorem C71_overflow_uint : forall X E cf k T t v, plain E T (KUint k) -> numeral t -> uint_range U64 (num t) -> ~ uint_range k (num t) ->
  unmarshal X E (S cf) (text (LInt t)) (TgPtr T v) = (v, RErr (EOverflow (OvUint (num t) k))).
Proof.
  intros X E cf k T t v Hp Ht H64 Hn. remember (text (LInt t)) as data eqn:Ed.
  assert (pos data 0 (text (LInt t) ++ [])) as Hpos by (exists []; rewrite app_nil_r; auto).
  destruct (int_bytes_int data 0 t (num t) [] Hpos (it_pos t Ht)) as (c' & Hb & _).
  unfold unmarshal. destruct data as [|b data]; [discriminate Ed|].
  rewrite (compile_scalar X E cf [] T (KUint k) Hp eq_refl). unfold decode, decode_fuel. rewrite Nat.add_comm. cbn [Nat.add decode_f].
  rewrite (node_of_plain _ _ _ Hp). unfold dec_uint, dec_text. rewrite Hb. unfold process_uint.
  rewrite (proj2 (parse_uint64_iff t (num t))) by (split; [exact Ht|]; split; [reflexivity|]; unfold uint_range in H64; cbn [ubits] in H64; lia).
  replace (_ <? _) with true; [reflexivity|]. symmetry. apply Z.ltb_lt. unfold uint_range in *. lia.
Qed.
Print Assumptions C71_overflow_uint.

(** In Box (see Demo.v): 300 in a map[string]uint8, "99" and 300 in a [2]int8 *)
Example C71_example : exists v1 v2,
  unmarshal Xd Ed 9 (bs "a:1:{s:1:""M"";a:1:{s:1:""k"";i:300;}}") (TgPtr (TName 3) (zero Ed (TName 3))) = (v1, RErr (EOverflow (OvUint 300 U8))) /\
  unmarshal Xd Ed 9 (bs "a:1:{s:2:""ID"";a:2:{i:0;i:99;i:1;i:-129;}}") (TgPtr (TName 3) (zero Ed (TName 3))) = (v2, RErr (EOverflow (OvInt (-129) I8))).
Proof. eexists _, _. split; vm_compute; reflexivity. Qed.
(** a struct with two fields of one key, deep inside *)
Example C71_example_type : let E := [Decl (UStruct [Field (bs "A") true false (bs "x") TBool; Field (bs "B") true false (bs "y") TBool; Field (bs "y") true false [] TString]) NoMethod false] in
  unmarshal Xd E 9 (bs "N;") (TgPtr (TSlice (TMap TString (TPtr (TName 0)))) (VSlice None)) = (VSlice None, RErr (EDuplicate (TName 0) (bs "y"))) /\
  about_type (EDuplicate (TName 0) (bs "y")).
Proof. split; [vm_compute; reflexivity|exact I]. Qed.
