(** The offsets in the errors of Unmarshal (C59). *)
From Coq Require Import Strings.String Strings.Byte ZArith List Bool Lia Floats.SpecFloat.
From Verif Require Import Base GoTypes Tags Scan Decode Unmarshal Grammar Denote Typing Api NumFacts ScanFacts Complete CompileFacts Safe UnmFacts
  Offsets OffsetFacts Demo.
Import ListNotations.
Open Scope Z_scope.

Lemma compile_fields_no_offset X E comp : (forall t e, comp t = RErr e -> offset_of e = None) ->
  forall fs e, compile_fields X E comp fs = RErr e -> offset_of e = None.
Proof.
  intros Hc. induction fs as [|f fs IH]; intros e; cbn [compile_fields]; [discriminate|].
  destruct (is_ignored f); [apply IH|]. destruct (_ && _); [intros [= <-]; reflexivity|].
  destruct (comp (f_ty f)) eqn:Ec; cbn [bind]; try discriminate; [|intros [= <-]; eapply Hc, Ec].
  destruct (_ && _); [intros [= <-]; reflexivity|apply IH].
Qed.
Lemma compile_no_offset X E : forall f st t e, compile_f X E f st t = RErr e -> offset_of e = None.
Proof.
  induction f as [|f IH]; intros st t e; cbn [compile_f]; [discriminate|].
  destruct (has_unmarshal E t); [discriminate|]. destruct (kind_of E t) as [| | | | | |t1|n t1|kt vt|t1| | | |id fs]; try discriminate.
  - destruct (kind_of E t1) as [| |[]| | | | | | | | | | |]; try apply IH; discriminate.
  - apply IH.
  - destruct (has_unmarshal E kt) as [m|]; cbn [bind]; [apply IH|].
    destruct (kind_of E kt); try (cbn [bind]; apply IH).
    all: destruct (compile_f X E f st kt) eqn:Ec; cbn [bind]; try discriminate; try apply IH; intros [= <-]; eapply IH, Ec.
  - destruct (compile_f X E f st t1) eqn:Ec; cbn [bind]; try discriminate; [|intros [= <-]; eapply IH, Ec].
    destruct (kind_of E t1); try discriminate. intros [= <-]. reflexivity.
  - destruct (mem id st); [discriminate|]. destruct (compile_fields _ _ _ fs) eqn:Ec; cbn [bind]; try discriminate.
    + destruct (first_dup _ _); [|discriminate]. intros [= <-]. reflexivity.
    + intros [= <-]. eapply compile_fields_no_offset; [|exact Ec]. intros. eapply IH; eassumption.
Qed.

(** ** C59 The offset in an error lies within the input.  This is false: for an
    object whose class name is said to be longer than the input the offset is
    where the name would end, which may be far beyond the input or negative. *)
Theorem C59_offsets_refuted : forall X E v,
  let far := bs "O:1000:""A"":0:{}" in let wrapped := bs "O:9223372036854775800:""" in
  unmarshal X E 1 far (TgPtr TAny v) = (v, RErr (ESyntax 1008 (WEnd "class name"))) /\ blen far = 15 /\
  unmarshal X E 1 wrapped (TgPtr TAny v) = (v, RErr (ESyntax (- 9223372036854775793) (WEnd "class name"))).
Proof. intros X E v. cbv zeta. split; [|split]; vm_compute; reflexivity. Qed.
Print Assumptions C59_offsets_refuted.
(** Apart from that it is true: every other offset is between 0 and the length
    of the input. *)
Theorem C59_offsets_partial : forall X E cf data tg w e o, small data ->
  unmarshal X E cf data tg = (w, RErr e) -> offset_of e = Some o -> 0 <= o <= blen data \/ class_end data o.
Proof.
  intros X E cf data tg w e o Hsm Hu Ho. unfold unmarshal in Hu. destruct data as [|b data]; [injection Hu as _ <-; discriminate Ho|].
  remember (b :: data) as buf eqn:Eb. destruct tg as [|t v|t|t v]; try (injection Hu as _ <-; discriminate Ho); [discriminate Hu|].
  destruct (compile_f X E cf [] t) as [[]|e'|p|] eqn:Ec; try discriminate Hu.
  2:{ injection Hu as _ <-. rewrite (compile_no_offset _ _ _ _ _ _ Ec) in Ho. discriminate Ho. }
  assert (within buf 0) as H0 by (split; [lia|apply blen_nonneg]).
  pose proof (decode_offsets buf Hsm X E (decode_fuel buf) t 0 0 v H0) as g. unfold decode in Hu. unfold GD in g.
  destruct (decode_f X E (decode_fuel buf) t buf 0 0 v) as [v' r]. cbn [snd] in g. injection Hu as _ Hu.
  destruct r as [c|e'|p|]; cbn [bind G] in *; try discriminate Hu.
  - unfold validate_end in Hu. destruct (blen buf =? c); [discriminate Hu|].
    pose proof (G_rd buf c) as gr. destruct (rd buf c); cbn [bind G] in *; try discriminate Hu; injection Hu as <-.
    + injection Ho as <-. left. lia.
    + exact (located_offset _ _ _ gr Ho).
  - injection Hu as <-. exact (located_offset _ _ _ g Ho).
Qed.
Print Assumptions C59_offsets_partial.
(** An input that is not cut off inside an object's class name: the number in
    every object header fits into what follows. *)
Definition names_fit (data : bytes) : Prop := forall before ds rest,
  data = before ++ bs "O:" ++ ds ++ bs ":""" ++ rest -> numeral ds -> num ds + 2 <= blen rest.
Theorem C59_offsets_inside : forall X E cf data tg w e o, small data -> names_fit data ->
  unmarshal X E cf data tg = (w, RErr e) -> offset_of e = Some o -> 0 <= o <= blen data.
Proof.
  intros X E cf data tg w e o Hsm Hf Hu Ho. destruct (C59_offsets_partial X E cf data tg w e o Hsm Hu Ho) as [h|(before & ds & rest & Ed & Hn & _ & Hl & _)]; [exact h|].
  specialize (Hf before ds rest Ed Hn). lia.
Qed.
Print Assumptions C59_offsets_inside.
(** Bytes after a complete value: the offset is just after the first of them, which
    the message names. *)
Theorem C59_trailing : forall X E data T v w c junk, small (data ++ c :: junk) -> Decodes X E data T v w ->
  exists cf, unmarshal X E cf (data ++ c :: junk) (TgPtr T v) = (w, RErr (ESyntax (blen data + 1) (WAfter c))).
Proof.
  intros X E data T v w c junk Hsm [cf H]. remember (c :: junk) as s eqn:Es. assert (s <> []) as Hs by (rewrite Es; discriminate). assert (small data) as Hsm1 by (unfold small in *; rewrite blen_app in Hsm; pose proof (blen_nonneg s); lia).
  apply unmarshal_ok_inv in H as (Hc & p & -> & Hst); [|exact Hsm1].
  exists cf. pose proof (decode_ok X E T p v w s Hsm Hst) as D. unfold unmarshal.
  pose proof (text_ne p) as Hne.
  destruct (text p ++ s) as [|b r] eqn:Et; [destruct (text p); [congruence|discriminate]|]. rewrite <- Et in *.
  rewrite Hc, D. cbn [bind]. unfold validate_end.
  replace (blen (text p ++ s) =? blen (text p)) with false.
  2:{ symmetry. apply Z.eqb_neq. rewrite blen_app. pose proof (blen_zero s). intros Q. apply Hs. apply H. lia. }
  pose proof (pos_start (text p ++ s)) as P.
  apply pos_app with (c' := blen (text p)) in P; [|lia].
  rewrite Es in P. rewrite Es, (pos_rd _ _ _ _ P). reflexivity.
Qed.
Print Assumptions C59_trailing.
(** An error deep inside an input: its offset is absolute. *)
Example C59_example : let data := bs "a:1:{s:1:""k"";a:1:{i:0;b:7;}}" in
  small data /\ names_fit data /\ unmarshal Xd Ed 3 data (TgPtr TAny VOther) = (VOther, RErr (ESyntax 22 (WChar "7"%byte "bool"))) /\
  (let obj := bs "O:1:""A"":1:{s:1:""k"";a:1:{i:0;b:7;}}" in
   unmarshal Xd Ed 3 obj (TgPtr TAny VOther) = (VOther, RErr (ESyntax 28 (WChar "7"%byte "bool")))) /\
  Decodes Xd Ed (bs "i:3;") (TInt IInt) (VInt 0) (VInt 3).
Proof.
  cbv zeta. split; [reflexivity|]. split.
  { intros before ds rest Ed _. exfalso. assert (In "O"%byte (before ++ bs "O:" ++ ds ++ bs ":""" ++ rest)) as H.
    { apply in_or_app. right. left. reflexivity. }
    rewrite <- Ed in H. cbn in H. repeat (destruct H as [H|H]; [discriminate H|]). exact H. }
  split; [vm_compute; reflexivity|]. split; [vm_compute; reflexivity|]. exists 1%nat. vm_compute. reflexivity.
Qed.
