(** What an UnmarshalPHP method does to the bytes it is given (C60). *)
From Coq Require Import Strings.String Strings.Byte ZArith List Bool Lia Floats.SpecFloat.
From Verif Require Import Base GoTypes Tags Scan Decode Unmarshal Grammar NumFacts LocalFacts BufDecode BufFacts Demo.
Import ListNotations.
Open Scope Z_scope.

(** The methods of a program: the receiver's new value and the success of a
    call are a function of the argument and the receiver's old value, namely
    [x_unmarshal]; what a call does to the buffer is unconstrained, except that
    the buffer keeps its size. *)
Definition methods_of (X : Ext) (meth : method) : Prop := forall n arg buf i j v,
  fst (meth n arg buf i j v) = x_unmarshal X n arg v /\ length (snd (meth n arg buf i j v)) = length buf.
(** No call changes a byte behind its argument, [buf[i:j]]. *)
Definition within_argument (meth : method) : Prop := forall n arg buf i j v,
  skipn (Z.to_nat j) (snd (meth n arg buf i j v)) = skipn (Z.to_nat j) buf.

(** ** C60 What a method does to the bytes of its argument does not influence
    what else is decoded.  This is true of methods that write to the argument
    (or to arguments of earlier calls, which they kept): destination and outcome
    are those of [unmarshal], where nothing is written. *)
Theorem C60_in_place_partial : forall X E meth cf data tg, small data -> methods_of X meth -> within_argument meth ->
  snd (unmarshal_b X E meth cf data tg) = unmarshal X E cf data tg.
Proof.
  intros X E meth cf data tg Hsm Hx Hw. unfold unmarshal_b, unmarshal. destruct data as [|b data]; [reflexivity|].
  remember (b :: data) as buf eqn:Eb. destruct tg as [|t v|t|t v]; try reflexivity.
  destruct (compile_f X E cf [] t); try reflexivity.
  assert (forall n arg b i j v, ag j buf b -> exists b', meth n arg b i j v = (x_unmarshal X n arg v, b') /\ ag j buf b') as Hm.
  { intros n arg b1 i j v1 H. destruct (Hx n arg b1 i j v1) as [h1 h2]. pose proof (Hw n arg b1 i j v1) as h3.
    destruct (meth n arg b1 i j v1) as [r b']. cbn [fst snd] in *. subst r. exists b'. split; [reflexivity|].
    apply (ag_trans j buf b1 b' H). split; [apply H|]. split; [now rewrite h2|now rewrite h3]. }
  assert (ag 0 buf buf) as H0 by (apply ag_refl; lia).
  destruct (b_decode X E meth buf Hsm Hm (decode_fuel buf) t buf 0 0 v H0) as [e h]. unfold decode.
  destruct (decode_b X E meth (decode_fuel buf) t buf 0 0 v) as [src [v' r]]. cbn [fst snd] in *. rewrite <- e in *. cbn [snd] in h.
  f_equal. destruct r as [c|e'|p|]; cbn [bind]; try reflexivity. destruct h as [_ h].
  unfold validate_end. rewrite (ag_blen _ _ _ h), (ag_rd _ _ _ c h) by lia. reflexivity.
Qed.
Print Assumptions C60_in_place_partial.

(** A method that decodes to the text of its argument, and appends to its
    argument: [_ = append(data, "i:1;i:9"...)].  The append stays in the buffer
    when the capacity allows, and goes to a new array otherwise. *)
Definition put (buf : bytes) (j : nat) (s : bytes) : bytes :=
  if (length s <=? length buf - j)%nat then firstn j buf ++ s ++ skipn (j + length s) buf else buf.
Definition Xapp : Ext := {| x_fmt := x_fmt Xd; x_parse := x_parse Xd; x_letter := x_letter Xd;
  x_unmarshal := fun _ arg _ => (VStr arg, true);
  x_unquote := x_unquote Xd; x_slots := x_slots Xd; x_marshal := x_marshal Xd; x_addr := x_addr Xd |}.
Definition appends : method := fun n arg buf i j v => (x_unmarshal Xapp n arg v, put buf (Z.to_nat j) (bs "i:1;i:9")).
Definition Eapp : env := [Decl (UTy TString) NoMethod true].
Definition two : bytes := bs "a:2:{i:0;i:1;i:1;i:2;}".
(** It is false of methods that append to the argument: the argument's capacity
    reaches to the end of the buffer, so that the append replaces what is
    decoded next. *)
Theorem C60_append_refuted : methods_of Xapp appends /\ small two /\
  unmarshal Xapp Eapp 3 two (TgPtr (TSlice (TName 0)) (VSlice None)) =
    (VSlice (Some [VStr (bs "i:1;"); VStr (bs "i:2;")]), ROk tt) /\
  snd (unmarshal_b Xapp Eapp appends 3 two (TgPtr (TSlice (TName 0)) (VSlice None))) =
    (VSlice (Some [VStr (bs "i:1;"); VStr (bs "i:9;")]), ROk tt).
Proof.
  split; [|split; [reflexivity|split; vm_compute; reflexivity]].
  intros n arg buf i j v. split; [reflexivity|]. cbn [appends snd]. unfold put.
  set (s := bs "i:1;i:9"). clearbody s. destruct (Nat.leb_spec (length s) (length buf - Z.to_nat j)); [|reflexivity].
  destruct (Nat.le_gt_cases (Z.to_nat j) (length buf)) as [h|h].
  - rewrite !app_length, firstn_length_le, skipn_length by exact h. lia.
  - rewrite firstn_all2, skipn_all2 by lia. rewrite !app_length. cbn. lia.
Qed.
Print Assumptions C60_append_refuted.
(** A method that overwrites its whole argument with zero bytes meets the
    hypotheses. *)
Definition scrub (buf : bytes) (i j : Z) : bytes :=
  if (0 <=? i) && (i <=? j) && (j <=? blen buf)
  then firstn (Z.to_nat i) buf ++ repeat x00 (Z.to_nat (j - i)) ++ skipn (Z.to_nat j) buf else buf.
Definition scrubs : method := fun n arg buf i j v => (x_unmarshal Xapp n arg v, scrub buf i j).
Example C60_example : small two /\ methods_of Xapp scrubs /\ within_argument scrubs /\
  snd (unmarshal_b Xapp Eapp scrubs 3 two (TgPtr (TSlice (TName 0)) (VSlice None))) =
    (VSlice (Some [VStr (bs "i:1;"); VStr (bs "i:2;")]), ROk tt) /\
  fst (unmarshal_b Xapp Eapp scrubs 3 two (TgPtr (TSlice (TName 0)) (VSlice None))) =
    bs "a:2:{i:0;" ++ [x00; x00; x00; x00] ++ bs "i:1;" ++ [x00; x00; x00; x00] ++ bs "}".
Proof.
  assert (forall buf i j, length (scrub buf i j) = length buf /\ skipn (Z.to_nat j) (scrub buf i j) = skipn (Z.to_nat j) buf) as H.
  { intros buf i j. unfold scrub. destruct (_ && _) eqn:Eb; [|auto]. rewrite !andb_true_iff, !Z.leb_le in Eb. unfold blen in Eb.
    assert (length (firstn (Z.to_nat i) buf ++ repeat x00 (Z.to_nat (j - i))) = Z.to_nat j) as Hl.
    { rewrite app_length, firstn_length_le, repeat_length by lia. lia. }
    rewrite app_assoc. split.
    - rewrite app_length, Hl, skipn_length. lia.
    - rewrite <- Hl at 1. rewrite skipn_app, skipn_all, Nat.sub_diag. reflexivity. }
  split; [reflexivity|]. split; [intros n arg buf i j v; split; [reflexivity|apply H]|]. split; [intros n arg buf i j v; apply H|].
  split; vm_compute; reflexivity.
Qed.
