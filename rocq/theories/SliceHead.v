(** The header of a slice is the header of an array, except that a number is
    a type error, and that messages have "slice" for "array" where neither is. *)
From Coq Require Import Strings.String Strings.Byte ZArith List Bool.
From Verif Require Import Base GoTypes Scan Decode.
Import ListNotations.
Open Scope Z_scope.

Lemma seq_header_as what what' buf c d :
  seq_header what buf c d = seq_header what' buf c d \/
  seq_header what buf c d = RErr (ESyntax c (WEnd what)) /\ seq_header what' buf c d = RErr (ESyntax c (WEnd what')).
Proof.
  unfold seq_header. destruct (has_byte buf c) eqn:Hb; [|right; split; reflexivity]. cbn [negb].
  destruct (rd buf c) as [x|e|p|]; cbn [bind]; try (left; reflexivity).
  destruct (max_depth <? d + 1); [left; reflexivity|]. destruct (x =b "N"%byte); [left; reflexivity|].
  destruct (x =b "a"%byte); [left; reflexivity|right; split; reflexivity].
Qed.

Lemma slice_header_cases buf c d :
  slice_header buf c d = array_header buf c d \/
  exists e, slice_header buf c d = RErr e /\ array_header buf c d = RErr (ESyntax c (WEnd "array")) /\
    (e = ESyntax c (WEnd "slice") \/ e = EType c /\ has_byte buf c = true).
Proof.
  unfold slice_header, array_header.
  assert (seq_header "slice" buf c d = seq_header "array" buf c d \/
    exists e, seq_header "slice" buf c d = RErr e /\ seq_header "array" buf c d = RErr (ESyntax c (WEnd "array")) /\
      (e = ESyntax c (WEnd "slice") \/ e = EType c /\ has_byte buf c = true)) as G.
  { destruct (seq_header_as "slice" "array" buf c d) as [->|[-> ->]]; [left; reflexivity|right; eauto]. }
  destruct (has_byte buf c) eqn:Hb; [|exact G].
  destruct (max_depth <? d + 1) eqn:Hd; [exact G|]. cbn [negb andb].
  destruct (number_at buf c) eqn:Hn; [|exact G]. right. exists (EType c). split; [reflexivity|]. split; [|auto].
  clear G. unfold number_at in Hn. unfold seq_header. rewrite Hb, Hd. cbn [negb]. destruct (rd buf c) as [x|e|p|]; try discriminate Hn.
  cbn [bind]. destruct (x =b "N"%byte) eqn:E1; [apply Byte.byte_dec_bl in E1; subst; discriminate Hn|].
  destruct (x =b "a"%byte) eqn:E2; [apply Byte.byte_dec_bl in E2; subst; discriminate Hn|reflexivity].
Qed.

Lemma slice_header_ok buf c d h : slice_header buf c d = ROk h <-> array_header buf c d = ROk h.
Proof.
  destruct (slice_header_cases buf c d) as [->|(e & -> & -> & _)]; split; intros H; congruence.
Qed.
