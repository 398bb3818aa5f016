(** What the syntax errors of Unmarshal tell (C64, C65, C66). *)
From Coq Require Import Strings.String Strings.Byte ZArith List Bool Lia Floats.SpecFloat.
From Verif Require Import Base GoTypes Strconv Tags Scan Decode Unmarshal Grammar Denote Typing Api NumFacts ScanFacts SoundT CompileFacts Safe UnmFacts
  Offsets OffsetFacts Says SayFacts GrowFacts Message Demo Props17.
Import ListNotations.
Open Scope Z_scope.

(** ** C64 The character that a syntax error names is the one at its offset.

    This is false for some messages. *)
Theorem C64_character_refuted : forall X E v,
  (* 'x' is at 1 *)
  unmarshal X E 1 (bs "Nx") (TgPtr TAny v) = (v, RErr (ESyntax 0 (WChar "x" "null"))) /\
  (* '7' is at 2 *)
  unmarshal X E 1 (bs "b:7;") (TgPtr TAny v) = (v, RErr (ESyntax 0 (WChar "7" "bool"))) /\
  (* 'x' is at 2, where the value ends *)
  unmarshal X E 1 (bs "N;x") (TgPtr TAny v) = (VIface None, RErr (ESyntax 3 (WAfter "x"))).
Proof. intros X E v. repeat split; vm_compute; reflexivity. Qed.
Print Assumptions C64_character_refuted.

Lemma compile_no_syntax X E f st t o w : compile_f X E f st t <> RErr (ESyntax o w).
Proof. intros H. apply compile_no_offset in H. discriminate H. Qed.

(** [claims] says, message by message, what is true of the input. *)
Theorem C64_messages_partial : forall X E cf data tg v o w, small data ->
  unmarshal X E cf data tg = (v, RErr (ESyntax o w)) -> claims data o w.
Proof.
  intros X E cf data tg v o w Hsm Hu. unfold unmarshal in Hu. destruct data as [|b data]; [discriminate Hu|].
  remember (b :: data) as buf eqn:Eb. destruct tg as [|t v0|t|t v0]; try discriminate Hu.
  destruct (compile_f X E cf [] t) as [[]|e'|p|] eqn:Ec; try discriminate Hu.
  2:{ injection Hu as _ ->. exfalso. eapply compile_no_syntax, Ec. }
  pose proof (decode_says buf Hsm X E (decode_fuel buf) t 0 0 v0 ltac:(cbv beta; pose proof (blen_nonneg buf); lia)) as g. unfold decode in Hu. unfold TD in g.
  destruct (decode_f X E (decode_fuel buf) t buf 0 0 v0) as [v' r]. cbn [snd] in g. injection Hu as _ Hu.
  destruct r as [c|e'|p|]; cbn [bind T] in *; try discriminate Hu.
  - unfold validate_end in Hu. destruct (blen buf =? c); [discriminate Hu|].
    pose proof (T_rd buf c) as gr. destruct (rd buf c) as [x|e|p|] eqn:Er; cbn [bind T told] in *; try discriminate Hu.
    + injection Hu as <- <-. cbn [claims]. replace (c + 1 - 1) with c by lia. exact gr.
    + injection Hu as ->. exact gr.
  - injection Hu as ->. exact g.
Qed.
Print Assumptions C64_messages_partial.

(** The way a byte is shown in a message is the UTF-8 text of the character with that
    number: what utf8.DecodeRuneInString reads back, using up all of it. *)
Theorem C64_shown : forall c, exists b bs, char c = b :: bs /\ decode_rune b bs = (Byte.to_N c, List.length (char c)).
Proof. intros c. destruct c; eexists _, _; (split; [reflexivity|vm_compute; reflexivity]). Qed.
Print Assumptions C64_shown.

(** The character that a message names. *)
Definition named (w : why) : option byte :=
  match w with
  | WAfter c | WDepth c | WStart _ c | WExpected _ c | WChar c _ | WValue c | WArray c => Some c
  | _ => None
  end.
(** It stands in the message, except for NUL in two of them. *)
Lemma named_said S o w c : named w = Some c ->
  (exists context, w = WChar "000" context) \/ exists before after, syntax_message S o w = before ++ char c ++ after.
Proof.
  destruct w as [msg|t|t|c0|c0|typ c0|what|what c0|c0 context|c0|c0]; intros [= ->].
  - right. eexists (bs _), _. reflexivity.
  - right. eexists (bs _), _. reflexivity.
  - right. eexists (bs _), _. reflexivity.
  - right. exists (bs "php-serialize: expecting " ++ bs what ++ bs ", get char '"), (bs "' instead at offset: " ++ append_int o). cbn [syntax_message]. rewrite <- !app_assoc. reflexivity.
  - cbn [syntax_message]. destruct (c =b "000"%byte) eqn:E; [left; exists context; apply eqb_eq in E as ->; reflexivity|]. right. eexists (bs _), _. reflexivity.
  - right. eexists (bs _), _. reflexivity.
  - right. eexists (bs _), _. reflexivity.
Qed.
Lemma text_byte data i a c s : text_at data i (a ++ c :: s) -> byte_at data (i + blen a) c.
Proof.
  intros (before & after & -> & <-). split; [pose proof (blen_nonneg before); pose proof (blen_nonneg a); lia|].
  rewrite app_assoc, <- app_assoc. rewrite nth_error_app2 by (rewrite ?app_length; unfold blen in *; lia).
  match goal with |- nth_error _ ?n = _ => replace n with (length a) by (unfold blen in *; lia) end.
  rewrite <- app_assoc, nth_error_app2, PeanoNat.Nat.sub_diag by lia. reflexivity.
Qed.
(** In every case the character is in the input, and not far from the offset: between
    one byte before it and two behind.  The exception is input that is nested too
    deeply and skipped: that message always names 'a'. *)
Theorem C64_near_partial : forall X E cf data tg v o w c, small data ->
  unmarshal X E cf data tg = (v, RErr (ESyntax o w)) -> named w = Some c ->
  (exists i, byte_at data i c /\ o - 1 <= i <= o + 2) \/ w = WDepth "a".
Proof.
  intros X E cf data tg v o w c Hsm Hu Hn. apply C64_messages_partial in Hu; [|exact Hsm].
  destruct w as [msg|t|t|c0|c0|typ c0|what|what c0|c0 context|c0|c0]; cbn [named] in Hn; try discriminate Hn; injection Hn as ->; cbn [claims] in Hu.
  - left. exists (o - 1). split; [exact Hu|lia].
  - destruct Hu as [Hu|[-> _]]; [left; exists o; split; [exact Hu|lia]|right; reflexivity].
  - left. exists o. split; [apply Hu|lia].
  - destruct Hu as (l & _ & Hu & _). left. exists o. split; [exact Hu|lia].
  - left. destruct Hu as [(_ & _ & Hu & _)|[(_ & _ & Hu & _)|[(_ & _ & Hu & _)|(_ & _ & Hu & _)]]].
    + exists (o + 1). split; [exact Hu|lia].
    + exists (o + 1). split; [exact Hu|lia].
    + exists (o + 2). split; [exact Hu|lia].
    + exists o. split; [exact Hu|lia].
  - left. exists o. split; [exact Hu|lia].
  - left. exists o. split; [apply Hu|lia].
Qed.
Print Assumptions C64_near_partial.

Example C64_example : let data := bs "a:1:{i:0;d:1x5;}" in forall S,
  small data /\ (exists v o w, unmarshal Xd Ed 3 (bs "a:1:{i:0.5;i:1;}") (TgPtr TAny VOther) = (v, RErr (ESyntax o w)) /\
    claims (bs "a:1:{i:0.5;i:1;}") o w /\ named w = Some "."%byte /\
    syntax_message S o w = bs "php-serialize: expecting ';' after integer, get char '.' instead at offset: 8") /\
  (* a byte above 127 is shown as a character of two bytes *)
  (forall w, w = WValue "255" -> unmarshal Xd Ed 3 ["255"%byte] (TgPtr TAny VOther) = (VOther, RErr (ESyntax 0 w)) /\
    syntax_message S 0 w = bs "php-serialize: invalid character '" ++ ["195"; "191"]%byte ++ bs "' looking for beginning of value").
Proof.
  cbv zeta. intros S. split; [reflexivity|]. split.
  - eexists _, _, _. split; [vm_compute; reflexivity|]. split; [|split; vm_compute; reflexivity].
    cbn [claims]. exists [";"%byte]. split; [do 10 right; left; reflexivity|]. split; [split; [lia|reflexivity]|]. cbn. intros [Q|[]]. discriminate Q.
  - intros w ->. split; vm_compute; reflexivity.
Qed.

(** ** C65 An error is final: more input behind it does not change it.

    A program that gets its input piece by piece wants to know whether to wait for
    more.  Every error that is not [unfinished] stays the same, whatever follows; so
    does what is in the destination.  So does a panic. *)
Lemma rd_more data more c : 0 <= c < blen data -> rd (data ++ more) c = rd data c.
Proof.
  intros h. unfold rd. rewrite nth_error_app1; [reflexivity|]. unfold blen in h. lia.
Qed.
Theorem C65_final : forall X E cf data more tg v r, small (data ++ more) -> data <> [] ->
  unmarshal X E cf data tg = (v, r) -> (exists e, r = RErr e /\ ~ unfinished data e) \/ (exists p, r = RPanic p) ->
  unmarshal X E cf (data ++ more) tg = (v, r).
Proof.
  intros X E cf data more tg v r Hsm Hne Hu Hr. unfold unmarshal in *. destruct data as [|b data]; [congruence|].
  remember (b :: data) as buf eqn:Eb. destruct (buf ++ more) as [|b1 d1] eqn:E1; [subst buf; discriminate E1|]. rewrite <- E1 in *. clear b1 d1 E1.
  destruct tg as [|t v0|t|t v0]; try exact Hu.
  destruct (compile_f X E cf [] t) as [[]|e'|p|] eqn:Ec; try exact Hu.
  pose proof (w_decode buf more Hsm X E t v0 Hne) as g. unfold WD in g.
  assert (0 < blen buf) as Hl by (rewrite Eb, blen_cons; pose proof (blen_nonneg data); lia).
  destruct (decode X E t buf 0 0 v0) as [v' r'] eqn:Ed. cbn [snd] in g. injection Hu as <- Hu.
  destruct r' as [c|e'|p|]; cbn [bind] in *.
  - destruct g as [-> Hon]. cbn [bind]. unfold on in Hon. unfold validate_end in *. destruct (blen buf =? c) eqn:E0.
    { subst r. destruct Hr as [(e & [=] & _)|(p & [=])]. }
    apply Z.eqb_neq in E0. replace (blen (buf ++ more) =? c) with false by (symmetry; apply Z.eqb_neq; rewrite blen_app; pose proof (blen_nonneg more); lia).
    rewrite rd_more by lia. rewrite Hu. reflexivity.
  - subst r. destruct g as [g| ->]; [|reflexivity]. destruct Hr as [(e & [= ->] & h)|(p & [=])]. contradiction.
  - rewrite g. cbn [bind]. rewrite Hu. reflexivity.
  - subst r. destruct Hr as [(e & [=] & _)|(p & [=])].
Qed.
Print Assumptions C65_final.
(** The message alone does not tell: "unexpected end of input" is also said where the
    input goes on, and then it is final. *)
Theorem C65_end_refuted : forall X E v more, small (bs "x;;;" ++ more) ->
  unmarshal X E 1 (bs "x;;;" ++ more) (TgPtr TBool v) = (v, RErr (ESyntax 0 (WEnd "bool"))).
Proof.
  intros X E v more Hsm. apply C65_final; [exact Hsm|discriminate|vm_compute; reflexivity|]. left. eexists. split; [reflexivity|].
  cbn [unfinished]. intros [Q|Q]; [discriminate Q|]. vm_compute in Q. discriminate Q.
Qed.
Print Assumptions C65_end_refuted.
(** An error in the middle is final; one at the end is not: the rest may make the
    input right, or wrong in another way. *)
Example C65_example : let wrong := bs "a:2:{i:0;i:0.5" in let part := bs "a:2:{i:0;i:" in
  wrong <> [] /\ (exists o w, unmarshal Xd Ed 3 wrong (TgPtr TAny VOther) = (VOther, RErr (ESyntax o w)) /\ ~ unfinished wrong (ESyntax o w)) /\
  (exists o w, unmarshal Xd Ed 3 part (TgPtr TAny VOther) = (VOther, RErr (ESyntax o w)) /\ unfinished part (ESyntax o w)).
Proof.
  cbv zeta. split; [discriminate|]. split.
  - eexists _, _. split; [vm_compute; reflexivity|]. intros Q. exact Q.
  - eexists _, _. split; [vm_compute; reflexivity|]. right. vm_compute. reflexivity.
Qed.

(** ** C66 Every beginning of an accepted input is rejected, with an error that
    leaves it open whether it is wrong or only not complete. *)
Theorem C66_beginnings : forall X E data more T v w, small (data ++ more) -> data <> [] -> more <> [] ->
  Decodes X E (data ++ more) T v w ->
  exists cf w' e, unmarshal X E cf data (TgPtr T v) = (w', RErr e) /\ unfinished data e.
Proof.
  intros X E data more T v w Hsm Hne Hm [cf H]. exists cf.
  assert (small data) as Hsm1 by (unfold small in *; rewrite blen_app in Hsm; pose proof (blen_nonneg more); lia).
  destruct (unmarshal X E cf data (TgPtr T v)) as [w' r] eqn:Hu. exists w'.
  destruct r as [[]|e|p|].
  - (* accepted: then what follows is junk *)
    exfalso. destruct more as [|c junk]; [congruence|].
    destruct (C59_trailing X E data T v w' c junk Hsm (ex_intro _ cf Hu)) as [cf' H'].
    pose proof (unmarshal_ok_inv _ _ _ _ _ _ _ Hsm H) as (Hc & _).
    apply unmarshal_ok_inv in Hu as (Hc0 & _); [|exact Hsm1].
    unfold unmarshal in H, H'. destruct (data ++ c :: junk) as [|b1 d1] eqn:E1; [discriminate H|]. rewrite <- E1 in *.
    destruct (compile_f X E cf [] T) as [[]|e|p|] eqn:Ec; try discriminate H.
    destruct (compile_f X E cf' [] T) as [[]|e|p|] eqn:Ec'; try discriminate H'.
    + rewrite H' in H. discriminate H.
    + injection H' as _ ->. eapply compile_no_syntax, Ec'.
  - exists e. split; [reflexivity|].
    assert (~ ~ unfinished data e) as nn.
    { intros h. rewrite (C65_final X E cf data more (TgPtr T v) w' (RErr e) Hsm Hne Hu) in H; [discriminate H|]. left. exists e. auto. }
    destruct e as [o y| | | | | | | | | | |]; cbn [unfinished] in *; try solve [exfalso; apply nn; intros []].
    destruct y as [msg|t|t|c|c|typ c|what|what c|c context|c|c]; try solve [exfalso; apply nn; intros []].
    + destruct (Z.eq_dec o (blen data)) as [->|h]; [|exfalso; apply nn; intros [Q _]; contradiction]. split; [reflexivity|].
      destruct (in_dec string_dec msg missing) as [i|i]; [exact i|exfalso; apply nn; intros [_ Q]; contradiction].
    + destruct (string_dec what "string") as [i|i]; [left; exact i|]. destruct (Z_lt_dec (blen data) (o + 4)) as [h|h]; [right; exact h|].
      exfalso. apply nn. intros [Q|Q]; contradiction.
  - exfalso. rewrite (C65_final X E cf data more (TgPtr T v) w' (RPanic p) Hsm Hne Hu) in H; [discriminate H|]. right. exists p. reflexivity.
  - exfalso. unfold unmarshal in H, Hu. destruct (data ++ more) as [|b1 d1] eqn:E1; [discriminate H|]. rewrite <- E1 in *.
    destruct data as [|b d]; [congruence|]. destruct (compile_f X E cf [] T) as [[]|e|p|] eqn:Ec; try discriminate H.
    pose proof (decode_out X E T (b :: d) v Hsm1 Hne) as D. destruct (decode X E T (b :: d) 0 0 v) as [v1 r1]. injection Hu as _ Hu.
    destruct r1 as [c|e|p|]; cbn [bind] in Hu; try discriminate Hu; [|exact D].
    unfold validate_end in Hu. destruct (blen (b :: d) =? c); [discriminate Hu|]. unfold rd in Hu.
    destruct (0 <=? c); [|discriminate Hu]. destruct (nth_error (b :: d) (Z.to_nat c)); discriminate Hu.
Qed.
Print Assumptions C66_beginnings.
(** The message is not always "unexpected end of input". *)
Theorem C66_end_refuted : forall X E v,
  unmarshal X E 1 (bs "s:") (TgPtr TString v) = (v, RErr (ESyntax 2 (WText "php-serialize: length requires at least one digit"))) /\
  Decodes X E (bs "s:1:""x"";") TString v (VStr (bs "x")).
Proof. intros X E v. split; [vm_compute; reflexivity|]. exists 1%nat. vm_compute. reflexivity. Qed.
Print Assumptions C66_end_refuted.
Example C66_example : let data := bs "a:1:{s:1:" in let more := bs """k"";a:1:{i:0;N;}}" in
  small (data ++ more) /\ data <> [] /\ more <> [] /\ exists w, Decodes Xd Ed (data ++ more) TAny VOther w.
Proof. cbv zeta. split; [reflexivity|]. split; [discriminate|]. split; [discriminate|]. eexists. exists 3%nat. vm_compute. reflexivity. Qed.
