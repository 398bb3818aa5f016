(** Soundness of decoding, continued: slices, arrays, structs, pointers, and
    the whole decoder. *)
From Coq Require Import Strings.String Strings.Byte ZArith List Bool Lia Floats.SpecFloat.
From Verif Require Import Base GoTypes Strconv Tags Scan Decode Grammar Denote NumFacts ScanFacts SkipFacts Sound SliceHead.
Import ListNotations.
Open Scope Z_scope.

Definition array_header_at (buf s : bytes) (h : ahdr) : Prop :=
  match h with
  | AhNull c' => exists s', s = text LNull ++ s' /\ pos buf c' s'
  | AhEmpty c' => exists s', s = text (LArr (bs "0") []) ++ s' /\ pos buf c' s'
  | AhBody len c' => exists n s', numeral n /\ len = num n /\ num n <= max_int64 /\
      hd_error n <> Some "0"%byte /\
      (forall es r, s' = body es ++ "}"%byte :: r -> s = text (LArr n es) ++ r) /\
      (length s' + 2 <= length s)%nat /\ pos buf c' s'
  end.

Lemma array_header_out buf c d s : pos buf c s ->
  outcome (array_header buf c d) (fun h => d < limit /\ array_header_at buf s h).
Proof.
  intros H. unfold array_header, seq_header. destruct s as [|b s]; [rewrite (pos_has_nil _ _ H); exact I|]. rdn H.
  destruct (max_depth <? d + 1) eqn:Ed; [exact I|]. apply Z.ltb_ge in Ed.
  assert (d < limit) as Hd by (unfold max_depth, limit in *; lia).
  destruct (b =b "N"%byte) eqn:E.
  { apply eqb_eq in E as ->. eapply outcome_bind; [eapply null_out; exact H|].
    intros _ (s' & -> & H'). cbn. eauto. }
  destruct (b =b "a"%byte) eqn:Ea; [|exact I]. apply eqb_eq in Ea as ->.
  pose proof (pos_cons _ _ _ _ H) as H1. cbn zeta.
  destruct s as [|x s]; [rewrite (pos_has_nil _ _ H1); exact I|]. rdn H1.
  destruct (x =b ":"%byte) eqn:E0; cbn [negb]; [|exact I]. apply eqb_eq in E0 as ->.
  pose proof (pos_cons _ _ _ _ H1) as H2.
  destruct s as [|y s]; [rewrite (pos_has_nil _ _ H2); exact I|]. rdn H2.
  destruct (y =b "0"%byte) eqn:Ey.
  { apply eqb_eq in Ey as ->. eapply outcome_bind; [eapply empty_array_out; exact H2|].
    intros _ (s' & -> & H'). cbn [outcome]. split; [exact Hd|]. exists s'. split; [reflexivity|exact H']. }
  replace (c + 1 + 1 - 1) with (c + 1) by lia. unfold read_length_int.
  eapply outcome_bind; [apply read_length_out; exact H1|].
  intros [n c1] (ds & s2 & Hds & Es & -> & Hn & -> & H3). cbn beta iota.
  destruct s2 as [|z s2]; [rewrite (pos_has_nil _ _ H3); exact I|]. rdn H3.
  destruct (z =b "{"%byte) eqn:E2; cbn [negb]; [|exact I]. apply eqb_eq in E2 as ->.
  cbn [outcome]. split; [exact Hd|]. exists ds, s2. split; [exact Hds|]. split; [reflexivity|]. split; [lia|].
  injection Es as Es.
  split.
  { destruct ds as [|d0 ds]; [discriminate|]. cbn. cbn [app] in Es. injection Es as -> _.
    apply eqb_neq in Ey. congruence. }
  split; [intros es r ->; rewrite text_arr, Es; reflexivity|].
  split; [|eapply pos_cons; exact H3]. rewrite Es. cbn [length]. rewrite app_length. cbn [length]. lia.
Qed.

Lemma slice_header_out buf c d s : pos buf c s ->
  outcome (slice_header buf c d) (fun h => d < limit /\ array_header_at buf s h).
Proof.
  intros H. destruct (slice_header_cases buf c d) as [->|(e0 & -> & _)]; [apply array_header_out, H|exact I].
Qed.

Lemma nth_error_nth_lt {A} (l : list A) i d : (i < length l)%nat -> nth_error l i = Some (nth i l d).
Proof. revert i; induction l as [|x l IH]; destruct i; cbn; try lia; auto. intros H. apply IH. lia. Qed.

Lemma slice_loop_out X E et buf (ed : Z -> gval -> dres) (V : lval -> gval -> gval -> Prop) (L : nat) :
  (forall c s old, pos buf c s -> s <> [] -> (length s <= L)%nat -> dout (ed c old) (reads (fun p w => V p old w) buf s)) ->
  forall n c l rv s, pos buf c s -> (length s < n)%nat -> (length s <= L)%nat ->
  dout (slice_loop X E et ed buf n c l rv) (fun w c' => exists l' es s', w = VSlice (Some l') /\ es <> [] /\
    slice_entries (x_slots X et) (zero E et) V l es l' /\ s = body es ++ "}"%byte :: s' /\ pos buf c' s').
Proof.
  intros He n. induction n as [|n IH]; intros c l rv s H Hn HL; [lia|].
  cbn [slice_loop]. destruct s as [|b0 s0] eqn:Es0; [rewrite (pos_has_nil _ _ H); exact I|].
  rdn H. rewrite <- Es0 in *. clear Es0 b0 s0.
  pose proof (read_int_out _ _ _ H) as RI.
  destruct (read_int buf c) as [[idx c1]|e|p|]; try (cbn in RI |- *; tauto).
  cbn [outcome] in RI. destruct RI as (t & s1 & Ht & Hidx & Es & H1).
  destruct s1 as [|b1 s1'] eqn:Es1; [rewrite (pos_has_nil _ _ H1); exact I|].
  rdn H1. assert (s1 <> []) as Hne1 by (subst; discriminate). rewrite <- Es1 in *. clear Es1 b1 s1'.
  assert (S (length s1) <= length s)%nat as L1.
  { subst s. cbn [length]. rewrite app_length. cbn [length]. lia. }
  rewrite <- text_int in Es.
  assert (forall l1 (pv : lval) s2 c2, s1 = text pv ++ s2 -> pos buf c2 s2 ->
    dout (if negb (has_byte buf c2) then (VSlice (Some l1), RErr (ESyntax c2 (WEnd "array")))
          else match rd buf c2 with
               | ROk b => if b =b "}"%byte then (VSlice (Some l1), ROk (c2 + 1))
                          else slice_loop X E et ed buf n c2 l1 (VSlice (Some l1))
               | r => (VSlice (Some l1), fail r)
               end)
      (fun w c' => exists l' es s', w = VSlice (Some l') /\
         slice_entries (x_slots X et) (zero E et) V l1 es l' /\ s2 = body es ++ "}"%byte :: s' /\ pos buf c' s')) as CONT.
  { intros l1 pv s2 c2 E2 H2. destruct s2 as [|b s2']; [rewrite (pos_has_nil _ _ H2); exact I|].
    rdn H2. destruct (b =b "}"%byte) eqn:Eb.
    - apply eqb_eq in Eb as ->. exists l1, [], s2'. cbn [fst]. split; [reflexivity|]. split; [constructor|].
      split; [reflexivity|]. eapply pos_cons; exact H2.
    - assert (length (b :: s2') < n)%nat as L2.
      { assert (length s1 = length (text pv) + length (b :: s2'))%nat as EL by (rewrite E2; apply app_length). lia. }
      eapply dout_imp; [apply IH; [exact H2|exact L2|]|].
      + assert (length s1 = length (text pv) + length (b :: s2'))%nat as EL by (rewrite E2; apply app_length). lia.
      + intros w c' (l' & es & s' & -> & _ & R). exists l', es, s'. auto. }
  destruct (idx <? blen l) eqn:Ei.
  - apply Z.ltb_lt in Ei. rewrite index_ok by lia.
    pose proof (He c1 s1 (nth (Z.to_nat idx) l VOther) H1 Hne1 ltac:(lia)) as D.
    destruct (ed c1 (nth (Z.to_nat idx) l VOther)) as [v r].
    destruct r as [c2|e|p|]; try exact D.
    destruct D as (pv & s2 & Vp & E2 & H2). cbn [fst] in Vp.
    eapply dout_imp; [apply (CONT _ pv s2 c2 E2 H2)|].
    intros w c' (l' & es & s' & -> & Hse & Eb & H'). exists l', ((LInt t, pv) :: es), s'.
    split; [reflexivity|]. split; [discriminate|]. split.
    + eapply se_in with (i := Z.to_nat idx); eauto.
      * unfold index_text. rewrite Z2Nat.id by lia. split; [exact Ht|lia].
      * apply nth_error_nth_lt. unfold blen in Ei. lia.
    + split; [|exact H']. rewrite body_cons, Es, E2, Eb. reflexivity.
  - apply Z.ltb_ge in Ei.
    destruct ((wrap64 (idx + 1) <? 0) || negb (x_slots X et (wrap64 (idx + 1)))) eqn:Ew; [unfold dout; cbn; discriminate|].
    apply orb_false_iff in Ew as [Ew1 Ew2]. apply Z.ltb_ge in Ew1. apply negb_false_iff in Ew2.
    assert (idx < max_int64) as Hlt.
    { destruct (Z.eq_dec idx max_int64) as [->|]; [|lia]. exfalso. revert Ew1. vm_compute. tauto. }
    rewrite wrap64_id in Ew2 |- * by (unfold min_int64; lia). rewrite index_ok by lia.
    pose proof (He c1 s1 (zero E et) H1 Hne1 ltac:(lia)) as D.
    destruct (ed c1 (zero E et)) as [v r].
    destruct r as [c2|e|p|]; try exact D.
    destruct D as (pv & s2 & Vp & E2 & H2). cbn [fst] in Vp.
    eapply dout_imp; [apply (CONT _ pv s2 c2 E2 H2)|].
    intros w c' (l' & es & s' & -> & Hse & Eb & H'). exists l', ((LInt t, pv) :: es), s'.
    split; [reflexivity|]. split; [discriminate|]. split.
    + eapply se_grow with (i := Z.to_nat idx); eauto; rewrite ?Z2Nat.id by lia; auto.
      * unfold index_text. rewrite Z2Nat.id by lia. split; [exact Ht|lia].
      * unfold blen in Ei. lia.
    + split; [|exact H']. rewrite body_cons, Es, E2, Eb. reflexivity.
Qed.

Lemma array_loop_out buf d (ed : Z -> gval -> dres) (V : lval -> gval -> gval -> Prop) (L : nat) : small buf ->
  (forall c s old, pos buf c s -> s <> [] -> (length s <= L)%nat -> dout (ed c old) (reads (fun p w => V p old w) buf s)) ->
  forall n c l s, pos buf c s -> (length s < n)%nat -> (length s <= L)%nat ->
  dout (array_loop ed buf d n c l) (fun l' c' => exists es s', es <> [] /\
    array_entries d V l es l' /\ s = body es ++ "}"%byte :: s' /\ pos buf c' s').
Proof.
  intros Hsm He n. induction n as [|n IH]; intros c l s H Hn HL; [lia|].
  cbn [array_loop]. destruct s as [|b0 s0] eqn:Es0; [rewrite (pos_has_nil _ _ H); exact I|].
  rdn H. rewrite <- Es0 in *. clear Es0 b0 s0.
  pose proof (read_int_out _ _ _ H) as RI.
  destruct (read_int buf c) as [[idx c1]|e|p|]; try (cbn in RI |- *; tauto).
  cbn [outcome] in RI. destruct RI as (t & s1 & Ht & Hidx & Es & H1).
  destruct s1 as [|b1 s1'] eqn:Es1; [rewrite (pos_has_nil _ _ H1); exact I|].
  rdn H1. assert (s1 <> []) as Hne1 by (subst; discriminate). rewrite <- Es1 in *. clear Es1 b1 s1'.
  assert (S (length s1) <= length s)%nat as L1.
  { subst s. cbn [length]. rewrite app_length. cbn [length]. lia. }
  rewrite <- text_int in Es.
  assert (forall l1 (pv : lval) s2 c2, s1 = text pv ++ s2 -> pos buf c2 s2 ->
    dout (if negb (has_byte buf c2) then (l1, RErr (ESyntax c2 (WEnd "array")))
          else match rd buf c2 with
               | ROk b => if b =b "}"%byte then (l1, ROk (c2 + 1)) else array_loop ed buf d n c2 l1
               | r => (l1, fail r)
               end)
      (fun l' c' => exists es s', array_entries d V l1 es l' /\ s2 = body es ++ "}"%byte :: s' /\ pos buf c' s')) as CONT.
  { intros l1 pv s2 c2 E2 H2. destruct s2 as [|b s2']; [rewrite (pos_has_nil _ _ H2); exact I|].
    rdn H2. destruct (b =b "}"%byte) eqn:Eb.
    - apply eqb_eq in Eb as ->. exists [], s2'. cbn [fst]. split; [constructor|].
      split; [reflexivity|]. eapply pos_cons; exact H2.
    - assert (length (b :: s2') < n)%nat as L2.
      { assert (length s1 = length (text pv) + length (b :: s2'))%nat as EL by (rewrite E2; apply app_length). lia. }
      eapply dout_imp; [apply IH; [exact H2|exact L2|]|].
      + assert (length s1 = length (text pv) + length (b :: s2'))%nat as EL by (rewrite E2; apply app_length). lia.
      + intros w c' (es & s' & _ & R). exists es, s'. auto. }
  destruct (idx <? blen l) eqn:Ei.
  - apply Z.ltb_lt in Ei. rewrite index_ok by lia.
    pose proof (He c1 s1 (nth (Z.to_nat idx) l VOther) H1 Hne1 ltac:(lia)) as D.
    destruct (ed c1 (nth (Z.to_nat idx) l VOther)) as [v r].
    destruct r as [c2|e|p|]; try exact D.
    destruct D as (pv & s2 & Vp & E2 & H2). cbn [fst] in Vp.
    eapply dout_imp; [apply (CONT _ pv s2 c2 E2 H2)|].
    intros l' c' (es & s' & Hse & Eb & H'). exists ((LInt t, pv) :: es), s'.
    split; [discriminate|]. split.
    + eapply ae_in with (i := Z.to_nat idx); eauto.
      * unfold index_text. rewrite Z2Nat.id by lia. split; [exact Ht|lia].
      * apply nth_error_nth_lt. unfold blen in Ei. lia.
    + split; [|exact H']. rewrite body_cons, Es, E2, Eb. reflexivity.
  - apply Z.ltb_ge in Ei.
    pose proof (skip_value_out buf c1 d s1 Hsm H1) as D.
    destruct (skip_value buf c1 d) as [c2|e|p|]; try (cbn in D |- *; tauto).
    destruct D as (pv & s2 & Vp & E2 & H2).
    eapply dout_imp; [apply (CONT _ pv s2 c2 E2 H2)|].
    intros l' c' (es & s' & Hse & Eb & H'). exists ((LInt t, pv) :: es), s'.
    split; [discriminate|]. split.
    + eapply ae_out; eauto. lia.
    + split; [|exact H']. rewrite body_cons, Es, E2, Eb. reflexivity.
Qed.

(** The field a key selects, in the model and in the specification. *)
Lemma find_field_lookup X E fs k : forall i,
  find_field k (field_decs X E i fs) =
  match lookup_from X i fs k with
  | Some (j, f) => Some (FDec k j (f_ty f) (string_tagged X E f))
  | None => None
  end.
Proof.
  induction fs as [|f fs IH]; intros i; [reflexivity|].
  cbn [field_decs lookup_from]. destruct (is_ignored f); cbn [negb andb]; [apply IH|].
  unfold find_field. cbn [find fd_key]. fold (field_key X f). change (match tag_key (tag_of X f) with [] => f_name f | _ => _ end) with (field_key X f).
  destruct (bytes_eqb (field_key X f) k) eqn:Ek.
  - apply bytes_eqb_eq in Ek as ->. unfold string_tagged, string_tag_supported.
    destruct (has_unmarshal E (f_ty f)); [reflexivity|]. destruct (kind_of E (f_ty f)); reflexivity.
  - apply IH.
Qed.

Lemma struct_loop_out X E fs buf d (fd : fdec -> Z -> gval -> dres) (V : gty -> lval -> gval -> gval -> Prop) (L : nat) :
  small buf ->
  (forall c s old k i f, pos buf c s -> s <> [] -> (length s <= L)%nat ->
     string_tagged X E f = false ->
     dout (fd (FDec k i (f_ty f) false) c old) (reads (fun p w => V (f_ty f) p old w) buf s)) ->
  (forall c s old k i f, pos buf c s -> s <> [] -> string_tagged X E f = true ->
     dout (fd (FDec k i (f_ty f) true) c old) (reads (fun p w => store_quoted X E (f_ty f) p old w) buf s)) ->
  forall n c l s, pos buf c s -> (length s < n)%nat -> (length s <= L)%nat ->
  dout (struct_loop (field_decs X E 0 fs) fd buf d n c l) (fun l' c' => exists es s', es <> [] /\
    struct_entries X E d fs V l es l' /\ s = body es ++ "}"%byte :: s' /\ pos buf c' s').
Proof.
  intros Hsm He Hq n. induction n as [|n IH]; intros c l s H Hn HL; [lia|].
  cbn [struct_loop]. destruct s as [|b0 s0] eqn:Es0; [rewrite (pos_has_nil _ _ H); exact I|].
  rdn H. rewrite <- Es0 in *. clear Es0 b0 s0.
  pose proof (string_bytes_out _ _ _ Hsm H) as RI.
  destruct (decode_string_bytes buf c) as [[key c1]|e|p|]; try (cbn in RI |- *; tauto).
  cbn [outcome] in RI. destruct RI as (kp & s1 & Es & H1 & Hkp).
  set (k := match key with Some k => k | None => [] end).
  assert (key_text kp k) as Hk.
  { subst k. destruct key as [b|]; [destruct Hkp as (nn & -> & Hs)|subst kp]; constructor; auto. }
  clear Hkp. clearbody k.
  destruct s1 as [|b1 s1'] eqn:Es1; [rewrite (pos_has_nil _ _ H1); exact I|].
  rdn H1. assert (s1 <> []) as Hne1 by (subst; discriminate). rewrite <- Es1 in *. clear Es1 b1 s1'.
  pose proof (text_pos kp) as Tk.
  assert (length s = length (text kp) + length s1)%nat as L1 by (rewrite Es; apply app_length).
  assert (forall l1 (pv : lval) s2 c2, s1 = text pv ++ s2 -> pos buf c2 s2 ->
    dout (if negb (has_byte buf c2) then (l1, RErr (ESyntax c2 (WEnd "object")))
          else match rd buf c2 with
               | ROk b => if b =b "}"%byte then (l1, ROk (c2 + 1)) else struct_loop (field_decs X E 0 fs) fd buf d n c2 l1
               | r => (l1, fail r)
               end)
      (fun l' c' => exists es s', struct_entries X E d fs V l1 es l' /\ s2 = body es ++ "}"%byte :: s' /\ pos buf c' s')) as CONT.
  { intros l1 pv s2 c2 E2 H2. destruct s2 as [|b s2']; [rewrite (pos_has_nil _ _ H2); exact I|].
    rdn H2. destruct (b =b "}"%byte) eqn:Eb.
    - apply eqb_eq in Eb as ->. exists [], s2'. cbn [fst]. split; [constructor|].
      split; [reflexivity|]. eapply pos_cons; exact H2.
    - assert (length (b :: s2') < n)%nat as L2.
      { assert (length s1 = length (text pv) + length (b :: s2'))%nat as EL by (rewrite E2; apply app_length). lia. }
      eapply dout_imp; [apply IH; [exact H2|exact L2|]|].
      + assert (length s1 = length (text pv) + length (b :: s2'))%nat as EL by (rewrite E2; apply app_length). lia.
      + intros w c' (es & s' & _ & R). exists es, s'. auto. }
  rewrite find_field_lookup. fold (lookup X fs k). destruct (lookup X fs k) as [[i f]|] eqn:El.
  - cbn [fd_idx]. destruct (nth_error l i) as [old|] eqn:En; [|unfold dout; cbn; discriminate].
    destruct (string_tagged X E f) eqn:Est.
    + pose proof (Hq c1 s1 old k i f H1 Hne1 Est) as D.
      destruct (fd (FDec k i (f_ty f) true) c1 old) as [v r].
      destruct r as [c2|e|p|]; try exact D.
      destruct D as (pv & s2 & Vp & E2 & H2). cbn [fst] in Vp.
      eapply dout_imp; [apply (CONT _ pv s2 c2 E2 H2)|].
      intros l' c' (es & s' & Hse & Eb & H'). exists ((kp, pv) :: es), s'.
      split; [discriminate|]. split; [eapply ste_quoted; eauto|].
      split; [|exact H']. rewrite body_cons, Es, E2, Eb. reflexivity.
    + pose proof (He c1 s1 old k i f H1 Hne1 ltac:(lia) Est) as D.
      destruct (fd (FDec k i (f_ty f) false) c1 old) as [v r].
      destruct r as [c2|e|p|]; try exact D.
      destruct D as (pv & s2 & Vp & E2 & H2). cbn [fst] in Vp.
      eapply dout_imp; [apply (CONT _ pv s2 c2 E2 H2)|].
      intros l' c' (es & s' & Hse & Eb & H'). exists ((kp, pv) :: es), s'.
      split; [discriminate|]. split; [eapply ste_known; eauto|].
      split; [|exact H']. rewrite body_cons, Es, E2, Eb. reflexivity.
  - pose proof (skip_value_out buf c1 d s1 Hsm H1) as D.
    destruct (skip_value buf c1 d) as [c2|e|p|]; try (cbn in D |- *; tauto).
    destruct D as (pv & s2 & Vp & E2 & H2).
    eapply dout_imp; [apply (CONT _ pv s2 c2 E2 H2)|].
    intros l' c' (es & s' & Hse & Eb & H'). exists ((kp, pv) :: es), s'.
    split; [discriminate|]. split; [eapply ste_unknown; eauto|].
    split; [|exact H']. rewrite body_cons, Es, E2, Eb. reflexivity.
Qed.

(** String-tagged fields *)
Lemma parse_bool_some b v : parse_bool b = Some v <-> bool_text b v.
Proof.
  unfold parse_bool. split.
  - intros H.
    destruct (existsb (bytes_eqb b) (map bs ["1"; "t"; "T"; "true"; "TRUE"; "True"]%string)) eqn:E1.
    { injection H as <-. constructor. apply existsb_exists in E1 as (x & Hx & Ex). apply bytes_eqb_eq in Ex as ->. exact Hx. }
    destruct (existsb (bytes_eqb b) (map bs ["0"; "f"; "F"; "false"; "FALSE"; "False"]%string)) eqn:E2; [|discriminate].
    injection H as <-. constructor. apply existsb_exists in E2 as (x & Hx & Ex). apply bytes_eqb_eq in Ex as ->. exact Hx.
  - intros H. inversion H as [t Ht|t Ht]; subst; cbn in Ht; repeat (destruct Ht as [<-|Ht]; [reflexivity|]); destruct Ht.
Qed.

Lemma wrapped_out X E T buf c rv s : small buf -> pos buf c s ->
  dout (dec_wrapped X (node_of E T) buf c rv) (fun w c' => exists p s', s = text p ++ s' /\ pos buf c' s' /\
    ((p = LNull /\ w = rv) \/ exists n b, p = LStr n b /\ str_ok n b /\ quoted_scalar X E T b w)).
Proof.
  intros Hsm H. unfold dec_wrapped. apply dout_text. eapply outcome_imp; [apply string_bytes_out; eassumption|].
  intros [o c'] (p & s' & Es & H' & O). destruct o as [b|].
  2:{ subst p. exists LNull, s'. auto. }
  destruct O as (n & -> & Hn).
  set (Q := fun w c'0 => exists p s'0, s = text p ++ s'0 /\ pos buf c'0 s'0 /\ (p = LNull /\ w = rv \/ (exists n0 b0, p = LStr n0 b0 /\ str_ok n0 b0 /\ quoted_scalar X E T b0 w))).
  assert (forall w, quoted_scalar X E T b w -> Q w c') as G.
  { intros w Hw. exists (LStr n b), s'. split; [exact Es|]. split; [exact H'|]. right. eauto. }
  assert (forall r : dres, dout r (fun w _ => quoted_scalar X E T b w) ->
     dout (match r with (v, ROk _) => (v, ROk c') | r => r end) Q) as KC.
  { intros [w r] D. destruct r; auto. apply G. exact D. }
  pose proof (node_plain E T) as NP. destruct (node_of E T); try exact I.
  - apply KC. apply process_uint_out. intros. econstructor; eauto.
  - apply KC. apply process_int_out. intros. econstructor; eauto.
  - destruct (parse_bool b) as [v|] eqn:Eb; [|exact I]. apply G. apply parse_bool_some in Eb. econstructor; eauto.
  - apply KC. apply process_float_out. intros f Hf Ho. eapply qs_f32; eauto.
  - apply KC. apply process_float_out. intros f Hf. eapply qs_f64; eauto.
Qed.

Lemma quoted_out X E T buf c rv s : small buf -> pos buf c s -> s <> [] ->
  has_unmarshal E T = None ->
  dout (match node_of E T with
        | NPtr t' => dec_ptr E t' (fun c v => dec_wrapped X (node_of E t') buf c v) buf c rv
        | nd => dec_wrapped X nd buf c rv
        end) (reads (fun p w => store_quoted X E T p rv w) buf s).
Proof.
  intros Hsm H Hne Hu. pose proof (node_plain E T) as NP.
  assert (is_ptr E T = false -> dout (dec_wrapped X (node_of E T) buf c rv) (reads (fun p w => store_quoted X E T p rv w) buf s)) as G.
  { intros Hp. eapply dout_imp; [apply wrapped_out; eassumption|].
    intros w c' (p & s' & Es & H' & [[-> ->]|(n & b & -> & Hn & Hq)]).
    - exists LNull, s'. repeat split; auto. apply sq_null; auto.
    - exists (LStr n b), s'. split; [apply sq_str; auto|]. auto. }
  unfold is_ptr in G.
  destruct (node_of E T) as [n|t|id fs|t|t|n t|kt vt| | |uk|ik| | | | |] eqn:En;
    try congruence;
    try (apply G; first [rewrite (proj2 NP); reflexivity | rewrite (proj2 (proj1 NP)); reflexivity
      | destruct NP as [m NP]; rewrite (proj2 NP); reflexivity]).
  unfold dec_ptr. destruct s as [|b s]; [congruence|]. rewrite (pos_rd _ _ _ _ H).
  destruct (b =b "N"%byte) eqn:Eb.
  { apply eqb_eq in Eb as ->. pose proof (null_out _ _ _ _ H) as O.
    destruct (validate_null buf c); try (cbn in *; tauto).
    destruct O as (s' & -> & H'). exists LNull, s'. repeat split; auto. eapply sq_ptr_null; eauto. }
  destruct rv as [| | | | | | | | |o| | |]; try (unfold dout; cbn; discriminate).
  pose proof (wrapped_out X E t buf c (match o with Some v => v | None => zero E t end) _ Hsm H) as D.
  destruct (dec_wrapped X (node_of E t) buf c _) as [w r]. destruct r as [c'|e|p|]; try exact D.
  unfold dout in D. cbn [fst snd] in D.
  destruct D as (p & s' & Es & H' & [[-> ->]|(n & str & -> & Hn & Hq)]).
  { rewrite text_null in Es. injection Es as -> _. discriminate Eb. }
  exists (LStr n str), s'. split; [eapply sq_ptr; eauto|]. auto.
Qed.

(** The whole decoder *)
Definition ptr_cost (E : env) (T : gty) : nat := if is_ptr E T then 1 else 0.

Lemma string_tagged_unm X E f : string_tagged X E f = true -> has_unmarshal E (f_ty f) = None.
Proof.
  unfold string_tagged. intros H. apply andb_true_iff in H as [_ H].
  destruct (has_unmarshal E (f_ty f)); [discriminate|reflexivity].
Qed.

Theorem decode_f_out X E buf : small buf -> forall fuel T c d rv s,
  pos buf c s -> s <> [] -> (2 * length s + ptr_cost E T < fuel)%nat ->
  dout (decode_f X E fuel T buf c d rv) (reads (fun p w => store X E d T p rv w) buf s).
Proof.
  intros Hsm fuel. induction fuel as [|f IH]; intros T c d rv s H Hne HL; [lia|].
  cbn [decode_f]. cbn zeta.
  assert (forall et c' s' old, pos buf c' s' -> s' <> [] -> (S (length s') < length s)%nat ->
    dout (decode_f X E f et buf c' (d + 1) old) (reads (fun p w => store X E (d + 1) et p old w) buf s')) as He.
  { intros et c' s' old H' Hne' L'. apply IH; auto. unfold ptr_cost. destruct (is_ptr E et); lia. }
  pose proof (node_plain E T) as NP.
  assert (forall et, plain E T (KSlice et) -> dout (dec_slice X E et (fun c0 v => decode_f X E f et buf c0 (d + 1) v) buf c d rv)
    (fun w c' => reads (fun p w => store X E d T p rv w) buf s w c' \/ exists s', s = text LNull ++ s' /\ pos buf c' s' /\ w = VSlice None /\ d < limit)) as Hsl.
  { intros et Hk. unfold dec_slice. pose proof (slice_header_out buf c d s H) as O.
    destruct (slice_header buf c d) as [h|e|p|]; try (cbn in O |- *; tauto). cbn [outcome] in O. destruct O as [Hd O].
    destruct h as [c'|c'|len c'].
    - destruct O as (s' & Es & H'). right. exists s'. auto.
    - destruct O as (s' & Es & H'). left. exists (LArr (bs "0") []), s'. repeat split; auto. eapply sto_slice_empty; eauto.
    - destruct O as (n & s1 & Hn & -> & Hmax & Hhd & Kmk & Ls & H1).
      destruct (x_slots X et (num n)) eqn:Esl; cbn [negb]; [|unfold dout; cbn; discriminate].
      eapply dout_imp.
      { apply (slice_loop_out X E et buf _ (store X E (d + 1) et) (length s1)) with (s := s1); auto.
        - intros c0 s0 old H0 Hne0 L0. apply He; auto. lia.
        - apply pos_len in H as L. apply pos_nonneg in H. unfold blen in L. lia. }
      intros w c2 (l' & es & s' & -> & Hes & Hse & Es & H'). left.
      exists (LArr n es), s'. repeat split; auto. eapply sto_slice; eauto. }
  destruct (node_of E T) as [n|t|id fs|t|t|n t|kt vt| | |uk|ik| | | | |] eqn:En.
  - apply unm_out; auto.
  - destruct (is_ptr E t) eqn:Ep; [unfold is_ptr in Ep; destruct (kind_of E t); try discriminate; exact I|].
    assert (dout (dec_ptr E t (fun c0 v => decode_f X E f t buf c0 d v) buf c rv) (reads (fun p w => store X E d T p rv w) buf s)) as G.
    2:{ unfold is_ptr in Ep. destruct (kind_of E t); try discriminate; exact G. }
    unfold dec_ptr. destruct s as [|b s]; [congruence|]. rewrite (pos_rd _ _ _ _ H).
    destruct (b =b "N"%byte) eqn:Eb.
    { apply eqb_eq in Eb as ->. pose proof (null_out _ _ _ _ H) as O.
      destruct (validate_null buf c); try (cbn in *; tauto).
      destruct O as (s' & -> & H'). exists LNull, s'. repeat split; auto. eapply sto_ptr_null; eauto. }
    destruct rv as [| | | | | | | | |o| | |]; try (unfold dout; cbn; discriminate).
    pose proof (IH t c d (match o with Some v => v | None => zero E t end) (b :: s) H ltac:(discriminate)) as D.
    assert (ptr_cost E T = 1%nat) as PT by (unfold ptr_cost, is_ptr; destruct NP as [_ ->]; reflexivity).
    assert (ptr_cost E t = 0%nat) as Pt by (unfold ptr_cost; rewrite Ep; reflexivity).
    specialize (D ltac:(lia)).
    destruct (decode_f X E f t buf c d _) as [w r]. destruct r as [c'|e|p|]; try exact D.
    destruct D as (p & s' & Hp & Es & H').
    exists p, s'. repeat split; auto. eapply sto_ptr; eauto. intros ->. rewrite text_null in Es. injection Es as -> _. discriminate Eb.
  - unfold dec_struct. pose proof (struct_header_out buf c d s Hsm H) as O.
    destruct (struct_header buf c d) as [h|e|p|]; try (cbn in O |- *; tauto). cbn [outcome] in O. destruct O as [Hd O].
    destruct h as [c'|c'].
    + destruct O as (s' & Es & H'). exists LNull, s'. repeat split; auto. eapply sto_struct_null; eauto.
    + destruct O as (n & mk & s1 & Hn & _ & Hmk & Kmk & Ls & H1).
      destruct rv as [| | | | | | | | | | |vals|]; try (unfold dout; cbn; discriminate).
      destruct s1 as [|b s1'] eqn:Es1; [rewrite (pos_has_nil _ _ H1); exact I|].
      rdn H1. destruct (b =b "}"%byte) eqn:Eb.
      { apply eqb_eq in Eb as ->. exists (mk []), s1'. split; [|split; [apply Kmk; reflexivity|eapply pos_cons; exact H1]].
        eapply sto_struct; eauto; [apply header_body; exact Hmk|constructor]. }
      rewrite <- Es1 in *. clear Es1.
      set (fd := fun (d0 : fdec) (c0 : Z) (v : gval) => _).
      pose proof (struct_loop_out X E fs buf (d + 1) fd (store X E (d + 1)) (length s1) Hsm) as SL.
      assert (length s1 < length buf)%nat as Lb.
      { apply pos_len in H as L. apply pos_nonneg in H. unfold blen in L. lia. }
      specialize (fun A B => SL A B (length buf) c' vals s1 H1 Lb (le_n _)).
      destruct (struct_loop _ _ _ _ _ _ _) as [l r].
      assert (dout (l, r) (fun l' c' => exists es s', es <> [] /\
        struct_entries X E (d + 1) fs (store X E (d + 1)) vals es l' /\ s1 = body es ++ "}"%byte :: s' /\ pos buf c' s')) as D.
      { apply SL; clear SL.
        - intros c0 s0 old k i fl H0 Hne0 L0 Hst. subst fd. cbn [fd_str fd_ty]. apply He; auto. lia.
        - intros c0 s0 old k i fl H0 Hne0 Hst. subst fd. cbn [fd_str fd_ty]. apply quoted_out; auto.
          eapply string_tagged_unm; eauto. }
      clear SL. destruct r as [c2|e|p|]; try exact D.
      destruct D as (es & s' & _ & Hse & Es & H'). cbn [fst] in Hse.
      exists (mk es), s'. split; [|split; [apply Kmk; exact Es|exact H']].
      eapply sto_struct; eauto. apply header_body; exact Hmk.
  - destruct NP as [NP Hby]. unfold dec_bytes. destruct s as [|b s]; [congruence|]. rewrite (pos_rd _ _ _ _ H).
    destruct (b =b "a"%byte) eqn:Eb.
    + eapply dout_imp; [apply (Hsl t NP)|]. intros w c' [R|(s' & Es & _)]; [exact R|].
      rewrite text_null in Es. injection Es as -> _. discriminate Eb.
    + apply dout_text. eapply outcome_imp; [apply string_bytes_out; eassumption|].
      intros [o c'] (p & s' & Es & H' & O). destruct o as [str|].
      * destruct O as (n & -> & Hn). exists (LStr n str), s'. repeat split; auto. eapply sto_bytes; eauto.
      * subst p. exists LNull, s'. repeat split; auto. eapply sto_bytes_null; eauto.
  - destruct NP as [NP Hby]. eapply dout_imp; [apply (Hsl t NP)|].
    intros w c' [R|(s' & Es & H' & -> & Hd)]; [exact R|].
    exists LNull, s'. repeat split; auto. eapply sto_slice_null; eauto.
  - unfold dec_array. cbn zeta. pose proof (array_header_out buf c d s H) as O.
    destruct (array_header buf c d) as [h|e|p|]; try (cbn in O |- *; tauto). cbn [outcome] in O. destruct O as [Hd O].
    destruct h as [c'|c'|len c'].
    + destruct O as (s' & Es & H'). exists LNull, s'. repeat split; auto. eapply sto_array_null; eauto.
    + destruct O as (s' & Es & H'). exists (LArr (bs "0") []), s'. repeat split; auto. eapply sto_array_empty; eauto.
    + destruct O as (m & s1 & Hn & -> & Hmax & Hhd & Kmk & Ls & H1).
      pose proof (array_loop_out buf (d + 1) (fun c0 v => decode_f X E f t buf c0 (d + 1) v) (store X E (d + 1) t) (length s1) Hsm) as AL.
      assert (length s1 < length buf)%nat as Lb.
      { apply pos_len in H as L. apply pos_nonneg in H. unfold blen in L. lia. }
      specialize (fun A => AL A (length buf) c' (repeat (zero E t) n) s1 H1 Lb (le_n _)).
      destruct (array_loop _ _ _ _ _ _) as [l r].
      match type of AL with ?A -> ?B => assert B as D by (apply AL; intros c0 s0 old H0 Hne0 L0; apply He; auto; lia) end.
      clear AL. destruct r as [c2|e|p|]; try exact D.
      destruct D as (es & s' & Hes & Hse & Es & H'). cbn [fst] in Hse.
      exists (LArr m es), s'. split; [|split; [apply Kmk; exact Es|exact H']].
      eapply sto_array; eauto.
  - eapply (dec_map_out buf c d rv s _ _ (store_key X E (d + 1) kt) (fun q w => store X E (d + 1) vt q (zero E vt) w)); [exact Hsm|exact H|..].
    + intros c0 s0 H0 Hne0 _. apply key_out; auto.
    + intros c0 s0 H0 Hne0 L0. apply He; auto.
    + intros c' s' Hd Es H'. exists LNull, s'. repeat split; auto. eapply sto_map_null; eauto.
    + intros n mk es m m' c' s' o Hd Hn Hmax Hmk -> -> Hme Es H'.
      exists (mk es), s'. repeat split; auto. eapply sto_map; eauto. apply header_body; exact Hmk.
  - eapply dout_imp; [apply iface_any_out; eauto|].
    intros w c' (p & s' & Hp & Es & H'). exists p, s'. repeat split; auto. eapply sto_any; eauto.
  - destruct NP as [m NP]. eapply iface_out; eauto.
  - apply uint_out; auto.
  - apply int_out; auto.
  - apply string_out; auto.
  - apply bool_dec_out; auto.
  - apply float_dec_out; auto.
  - apply float_dec_out; auto.
  - exact I.
Qed.

Theorem decode_out X E T buf rv : small buf -> buf <> [] ->
  dout (decode X E T buf 0 0 rv) (reads (fun p w => store X E 0 T p rv w) buf buf).
Proof.
  intros Hsm Hne. apply decode_f_out; auto; [apply pos_start|]. unfold decode_fuel, ptr_cost. destruct (is_ptr E T); lia.
Qed.
