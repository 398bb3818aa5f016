(** Decoding into any memory, shared or cyclic, comes to an end without reading
    outside the buffer, and succeeds only after reading the text of one value. *)
From Coq Require Import Strings.String Strings.Byte ZArith List Bool Lia Floats.SpecFloat.
From Verif Require Import Base GoTypes Strconv Tags Scan Decode Unmarshal Grammar Denote NumFacts ScanFacts SkipFacts Sound SoundT MemDecode SliceHead.
Import ListNotations.
Open Scope Z_scope.

(** One value has been read. *)
Definition ends (buf s : bytes) (c' : Z) : Prop := exists p s', s = text p ++ s' /\ pos buf c' s'.
Definition hout {A} (buf s : bytes) (r : A * R Z) : Prop := dout r (fun _ c' => ends buf s c').

Lemma reads_ends {S buf s} : forall (w : gval) c', reads S buf s w c' -> ends buf s c'.
Proof. intros w c' (p & s' & _ & Es & H). exists p, s'. auto. Qed.
Lemma hout_of (S : lval -> gval -> Prop) buf s r : dout r (reads S buf s) -> hout buf s r.
Proof. intros H. eapply dout_imp; [exact H|]. apply reads_ends. Qed.

Lemma new_out buf s dec M L : hout buf s (dec VOther) -> hout buf s (h_new dec M L).
Proof.
  unfold h_new, hout, dout. destruct (dec VOther) as [v r]. cbn [fst snd]. intros H.
  destruct v; try exact H; destruct (build _ M); exact H.
Qed.

Lemma unm_ends U X E n buf c d M L s : small buf -> pos buf c s -> hout buf s (h_unm U X E n buf c d M L).
Proof.
  intros Hsm H. unfold h_unm. pose proof (span_out _ _ d _ Hsm H) as O.
  destruct (bind _ _) as [[src cend]|e|pn|]; cbn [outcome] in O; try (cbn; tauto).
  destruct O as (p & s' & Hp & -> & Es & H'). cbn zeta.
  assert (ends buf s cend) as G by (exists p, s'; auto).
  assert (hout buf s match U n (unquoted X (text p)) (new_cell M (dzero E (TName n))) (new_at M) with
     | (M1, true) => match read M1 (new_at M) with Some d => (write M1 L d, ROk cend) | None => (M1, RPanic PNilDeref) end
     | (M1, false) => (M1, RErr EUser) end) as Go.
  { destruct (U n _ _ _) as [M1 ok]. destruct ok; [|exact I]. destruct (read M1 (new_at M)); [exact G|unfold hout, dout; cbn; discriminate]. }
  destruct (text p) as [|b r]; [exact Go|]. destruct (_ || _); [exact I|]. destruct (_ && _); [exact G|exact Go].
Qed.

Lemma iface_ends U X E buf c d M L s : small buf -> pos buf c s -> s <> [] -> hout buf s (h_iface U X E buf c d M L).
Proof.
  intros Hsm H Hne. unfold h_iface. cbn zeta.
  set (pl := match rd buf c with ROk c0 => _ | _ => _ end).
  assert (hout buf s pl) as G.
  { subst pl. destruct s as [|b s]; [congruence|]. rewrite (pos_rd _ _ _ _ H).
    destruct (b =b "N"%byte) eqn:Eb; [|exact I]. apply eqb_eq in Eb as ->.
    pose proof (null_out _ _ _ _ H) as O. destruct (validate_null buf c); try (cbn in *; tauto).
    destruct O as (s' & -> & H'). exists LNull, s'. auto. }
  destruct (read M L) as [d0|]; [|exact G].
  destruct d0 as [| | | | | |o|l|o|o|o|l|]; try exact G. destruct o as [[t d0]|]; [|exact G].
  destruct t as [| | | | | | | | |t| | | |]; try exact G. destruct d0 as [| | | | | |o|l|o|p|o|l|]; try exact G.
  destruct (has_unmarshal E t) as [n|]; [|exact G].
  pose proof (span_out _ _ d _ Hsm H) as O.
  destruct (bind _ _) as [[src cend]|e|pn|]; cbn [outcome] in O; try (cbn; tauto).
  destruct O as (q & s' & Hp & -> & Es & H').
  assert (ends buf s cend) as Ge by (exists q, s'; auto).
  destruct (bytes_eqb _ _); [exact Ge|]. destruct p as [Lp|]; [|unfold hout, dout; cbn; discriminate].
  destruct (U n _ _ _) as [M1 ok]. destruct ok; [exact Ge|exact I].
Qed.

Lemma ptr_ends z ed buf c M L s : pos buf c s -> s <> [] ->
  (forall M L, hout buf s (ed c M L)) -> hout buf s (h_ptr z ed buf c M L).
Proof.
  intros H Hne He. unfold h_ptr. destruct s as [|b s]; [congruence|]. rewrite (pos_rd _ _ _ _ H).
  destruct (b =b "N"%byte) eqn:Eb.
  { apply eqb_eq in Eb as ->. pose proof (null_out _ _ _ _ H) as O.
    destruct (validate_null buf c); try (cbn in *; tauto).
    destruct O as (s' & -> & H'). exists LNull, s'. auto. }
  destruct (read M L) as [d|]; [|unfold hout, dout; cbn; discriminate].
  destruct d as [| | | | | |o|l|o|o|o|l|]; try (unfold hout, dout; cbn; discriminate). destruct o; apply He.
Qed.

(** ** Loops *)

(** The rest of a container. *)
Definition ends_body {A} (buf s : bytes) (r : A * R Z) : Prop :=
  dout r (fun _ c' => exists es s', s = body es ++ "}"%byte :: s' /\ pos buf c' s').
(** Elements can be decoded at any later position. *)
Definition elems (buf : bytes) (n : nat) (ed : Z -> memory -> loc -> hres) : Prop :=
  forall c s M L, pos buf c s -> s <> [] -> (length s <= n)%nat -> hout buf s (ed c M L).

Lemma entry_ends {A} buf s (pk pv : lval) s2 (r : A * R Z) : s = text pk ++ text pv ++ s2 -> ends_body buf s2 r -> ends_body buf s r.
Proof.
  intros -> H. eapply dout_imp; [exact H|]. intros _ c' (es & s' & -> & H'). exists ((pk, pv) :: es), s'.
  rewrite body_cons, <- ?app_assoc. auto.
Qed.

Lemma map_loop_ends kd vd vz buf n0 :
  (forall c s M, pos buf c s -> s <> [] -> (length s <= n0)%nat ->
     match snd (kd c M) with ROk (_, c') => ends buf s c' | RErr _ => True | RPanic p => p <> PIndex | RFuel => False end) ->
  elems buf n0 vd ->
  forall n c M L s, pos buf c s -> (length s < n)%nat -> (length s <= n0)%nat -> ends_body buf s (h_map_loop kd vd vz buf n c M L).
Proof.
  intros Hk Hv n. induction n as [|n IH]; intros c M L s H Hn HL; [lia|].
  cbn [h_map_loop]. destruct s as [|b0 s0] eqn:Es0; [rewrite (pos_has_nil _ _ H); exact I|].
  rdn H. assert (s <> []) as Hne by (subst; discriminate). rewrite <- Es0 in *. clear Es0 b0 s0.
  specialize (Hk c s M H Hne HL). destruct (kd c M) as [M1 kr]. cbn [snd] in Hk.
  destruct kr as [[k c1]|e|p|]; [|exact I|exact Hk|exact Hk].
  destruct Hk as (kp & s1 & -> & H1). rewrite app_length in *. pose proof (text_pos kp) as Tk.
  destruct s1 as [|b1 s1'] eqn:Es1; [rewrite (pos_has_nil _ _ H1); exact I|].
  rdn H1. assert (s1 <> []) as Hne1 by (subst; discriminate). rewrite <- Es1 in *. clear Es1 b1 s1'. cbn zeta.
  specialize (Hv c1 s1 (new_cell M1 vz) (new_at M1) H1 Hne1 ltac:(lia)) as Dv. destruct (vd c1 _ _) as [M2 vr].
  destruct vr as [c2|e|p|]; [|exact I|exact Dv|exact Dv].
  unfold hout, dout in Dv. cbn [fst snd] in Dv. destruct Dv as (vp & s2 & -> & H2).
  rewrite app_length in *. pose proof (text_pos vp) as Tv.
  destruct (read M2 (new_at M1)) as [v|]; [|unfold ends_body, dout; cbn; discriminate].
  destruct (negb (mhashable k)); [unfold ends_body, dout; cbn; discriminate|].
  destruct (read M2 L) as [d|]; [|unfold ends_body, dout; cbn; discriminate].
  destruct d as [| | | | | |o|l|o|o|o|l|]; try (unfold ends_body, dout; cbn; discriminate).
  destruct o as [o|]; [|unfold ends_body, dout; cbn; discriminate].
  destruct (nth_error M2 o) as [[l|m]|]; try (unfold ends_body, dout; cbn; discriminate).
  eapply entry_ends; [reflexivity|].
  destruct s2 as [|b s2']; [rewrite (pos_has_nil _ _ H2); exact I|]. rdn H2. destruct (b =b "}"%byte) eqn:Eb.
  - apply eqb_eq in Eb as ->. exists [], s2'. split; [reflexivity|]. eapply pos_cons; exact H2.
  - apply IH; [exact H2|lia|lia].
Qed.

Lemma key_ends U X E kt buf c d M s : small buf -> pos buf c s -> s <> [] ->
  match snd (h_key U X E kt buf c d M) with ROk (_, c') => ends buf s c' | RErr _ => True | RPanic p => p <> PIndex | RFuel => False end.
Proof.
  intros Hsm H Hne. unfold h_key.
  assert (match snd (let '(g, r) := dec_key X E kt buf c d in
      match r with ROk c => let '(d, M1) := build g M in (M1, ROk (d, c)) | r => (M, fail r) end)
      with ROk (_, c') => ends buf s c' | RErr _ => True | RPanic p => p <> PIndex | RFuel => False end) as Dflt.
  { pose proof (key_out X E kt buf c d s Hsm H Hne) as D. apply hout_of in D. unfold hout, dout in D.
    destruct (dec_key X E kt buf c d) as [g r]. cbn [fst snd] in D. destruct r as [c'|e|p|]; try exact D. destruct (build g M). exact D. }
  destruct (key_node E kt) as [n| | | | | | | |]; try exact Dflt. cbn zeta.
  pose proof (unm_ends U X E n buf c d (new_cell M (dzero E kt)) (new_at M) s Hsm H) as D. unfold hout, dout in D.
  destruct (h_unm _ _ _ _ _ _ _ _ _) as [M1 r]. cbn [fst snd] in *. destruct r as [c'|e|p|]; try exact D.
  destruct (read M1 (new_at M)); [exact D|discriminate].
Qed.

Lemma slice_loop_ends X et z ed buf n0 : elems buf n0 ed ->
  forall n c o M L s, pos buf c s -> (length s < n)%nat -> (length s <= n0)%nat -> ends_body buf s (h_slice_loop X et z ed buf n c o M L).
Proof.
  intros He n. induction n as [|n IH]; intros c o M L s H Hn HL; [lia|].
  cbn [h_slice_loop]. destruct s as [|b0 s0] eqn:Es0; [rewrite (pos_has_nil _ _ H); exact I|].
  rdn H. rewrite <- Es0 in *. clear Es0 b0 s0.
  pose proof (read_int_out _ _ _ H) as RI.
  destruct (read_int buf c) as [[idx c1]|e|p|]; try (cbn in RI |- *; tauto).
  cbn [outcome] in RI. destruct RI as (t & s1 & Ht & Hidx & Es & H1).
  destruct s1 as [|b1 s1'] eqn:Es1; [rewrite (pos_has_nil _ _ H1); exact I|].
  rdn H1. assert (s1 <> []) as Hne1 by (subst; discriminate). rewrite <- Es1 in *. clear Es1 b1 s1'.
  assert (S (length s1) <= length s)%nat as L1. { subst s. cbn [length]. rewrite app_length. cbn [length]. lia. }
  assert (s = text (LInt t) ++ s1) as Et by (rewrite text_int; exact Es).
  assert (forall o1 M1 (pv : lval) s2 c2, s1 = text pv ++ s2 -> pos buf c2 s2 ->
    ends_body buf s (match nth_error M1 o1 with
        | Some (OCells l) =>
            let M1 := write M1 L (DSlice (Some (o1, 0%nat, length l))) in
            if negb (has_byte buf c2) then (M1, RErr (ESyntax c2 (WEnd "array")))
            else match rd buf c2 with
                 | ROk b => if b =b "}"%byte then (M1, ROk (c2 + 1)) else h_slice_loop X et z ed buf n c2 o1 M1 L
                 | r => (M1, fail r)
                 end
        | _ => (M1, RPanic PNilDeref)
        end)) as CONT.
  { intros o1 M1 pv s2 c2 E2 H2. destruct (nth_error M1 o1) as [[l1|m1]|]; try (unfold ends_body, dout; cbn; discriminate). cbn zeta.
    eapply entry_ends; [rewrite Et, E2; reflexivity|].
    destruct s2 as [|b s2']; [rewrite (pos_has_nil _ _ H2); exact I|]. rdn H2. destruct (b =b "}"%byte) eqn:Eb.
    - apply eqb_eq in Eb as ->. exists [], s2'. split; [reflexivity|]. eapply pos_cons; exact H2.
    - assert (length s1 = length (text pv) + length (b :: s2'))%nat as EL by (rewrite E2; apply app_length).
      apply IH; [exact H2|lia|lia]. }
  destruct (nth_error M o) as [[l|m]|]; try (unfold ends_body, dout; cbn; discriminate).
  destruct (idx <? blen l) eqn:El.
  - apply Z.ltb_lt in El. rewrite index_ok by lia.
    pose proof (He c1 s1 M (Loc o (Z.to_nat idx) []) H1 Hne1 ltac:(lia)) as D. destruct (ed c1 _ _) as [M1 r].
    destruct r as [c2|e|p|]; try exact D. destruct D as (pv & s2 & E2 & H2). eapply CONT; eassumption.
  - destruct (wrap64 (idx + 1) <? 0) eqn:Ew; cbn [orb]; [unfold ends_body, dout; cbn; discriminate|]. apply Z.ltb_ge in Ew.
    rewrite index_next by lia. destruct (negb _); [unfold ends_body, dout; cbn; discriminate|]. cbn zeta.
    match goal with |- context [ed c1 ?a ?b] => pose proof (He c1 s1 a b H1 Hne1 ltac:(lia)) as D; destruct (ed c1 a b) as [M1 r] end.
    destruct r as [c2|e|p|]; try exact D. destruct D as (pv & s2 & E2 & H2). eapply CONT; eassumption.
Qed.

Lemma array_loop_ends ed buf d len n0 : small buf -> elems buf n0 ed ->
  forall n c M L s, pos buf c s -> (length s < n)%nat -> (length s <= n0)%nat -> ends_body buf s (h_array_loop ed buf d len n c M L).
Proof.
  intros Hsm He n. induction n as [|n IH]; intros c M L s H Hn HL; [lia|].
  cbn [h_array_loop]. destruct s as [|b0 s0] eqn:Es0; [rewrite (pos_has_nil _ _ H); exact I|].
  rdn H. rewrite <- Es0 in *. clear Es0 b0 s0.
  pose proof (read_int_out _ _ _ H) as RI.
  destruct (read_int buf c) as [[idx c1]|e|p|]; try (cbn in RI |- *; tauto).
  cbn [outcome] in RI. destruct RI as (t & s1 & Ht & Hidx & Es & H1).
  destruct s1 as [|b1 s1'] eqn:Es1; [rewrite (pos_has_nil _ _ H1); exact I|].
  rdn H1. assert (s1 <> []) as Hne1 by (subst; discriminate). rewrite <- Es1 in *. clear Es1 b1 s1'.
  assert (S (length s1) <= length s)%nat as L1. { subst s. cbn [length]. rewrite app_length. cbn [length]. lia. }
  assert (s = text (LInt t) ++ s1) as Et by (rewrite text_int; exact Es).
  assert (forall M1 (pv : lval) s2 c2, s1 = text pv ++ s2 -> pos buf c2 s2 ->
    ends_body buf s (if negb (has_byte buf c2) then (M1, RErr (ESyntax c2 (WEnd "array")))
            else match rd buf c2 with
                 | ROk b => if b =b "}"%byte then (M1, ROk (c2 + 1)) else h_array_loop ed buf d len n c2 M1 L
                 | r => (M1, fail r)
                 end)) as CONT.
  { intros M1 pv s2 c2 E2 H2. eapply entry_ends; [rewrite Et, E2; reflexivity|].
    destruct s2 as [|b s2']; [rewrite (pos_has_nil _ _ H2); exact I|]. rdn H2. destruct (b =b "}"%byte) eqn:Eb.
    - apply eqb_eq in Eb as ->. exists [], s2'. split; [reflexivity|]. eapply pos_cons; exact H2.
    - assert (length s1 = length (text pv) + length (b :: s2'))%nat as EL by (rewrite E2; apply app_length).
      apply IH; [exact H2|lia|lia]. }
  destruct (_ <? _) eqn:El.
  - apply Z.ltb_lt in El. rewrite index_ok by lia.
    pose proof (He c1 s1 M (at_sub L (Z.to_nat idx)) H1 Hne1 ltac:(lia)) as D. destruct (ed c1 _ _) as [M1 r].
    destruct r as [c2|e|p|]; try exact D. destruct D as (pv & s2 & E2 & H2). eapply CONT; eassumption.
  - pose proof (skip_value_out buf c1 d s1 Hsm H1) as D.
    destruct (skip_value buf c1 d) as [c2|e|p|]; try (cbn in D |- *; tauto).
    destruct D as (pv & s2 & _ & E2 & H2). eapply CONT; eassumption.
Qed.

Lemma struct_loop_ends decs fd buf d n0 : small buf -> (forall f, elems buf n0 (fd f)) ->
  forall n c M L s, pos buf c s -> (length s < n)%nat -> (length s <= n0)%nat -> ends_body buf s (h_struct_loop decs fd buf d n c M L).
Proof.
  intros Hsm He n. induction n as [|n IH]; intros c M L s H Hn HL; [lia|].
  cbn [h_struct_loop]. destruct s as [|b0 s0] eqn:Es0; [rewrite (pos_has_nil _ _ H); exact I|].
  rdn H. rewrite <- Es0 in *. clear Es0 b0 s0.
  pose proof (string_bytes_out _ _ _ Hsm H) as RI.
  destruct (decode_string_bytes buf c) as [[key c1]|e|p|]; try (cbn in RI |- *; tauto).
  cbn [outcome] in RI. destruct RI as (kp & s1 & Es & H1 & _).
  destruct s1 as [|b1 s1'] eqn:Es1; [rewrite (pos_has_nil _ _ H1); exact I|].
  rdn H1. assert (s1 <> []) as Hne1 by (subst; discriminate). rewrite <- Es1 in *. clear Es1 b1 s1'.
  pose proof (text_pos kp) as Tk.
  assert (S (length s1) <= length s)%nat as L1. { subst s. rewrite app_length. lia. }
  assert (forall M1 (pv : lval) s2 c2, s1 = text pv ++ s2 -> pos buf c2 s2 ->
    ends_body buf s (if negb (has_byte buf c2) then (M1, RErr (ESyntax c2 (WEnd "object")))
            else match rd buf c2 with
                 | ROk b => if b =b "}"%byte then (M1, ROk (c2 + 1)) else h_struct_loop decs fd buf d n c2 M1 L
                 | r => (M1, fail r)
                 end)) as CONT.
  { intros M1 pv s2 c2 E2 H2. eapply entry_ends; [rewrite Es, E2; reflexivity|].
    destruct s2 as [|b s2']; [rewrite (pos_has_nil _ _ H2); exact I|]. rdn H2. destruct (b =b "}"%byte) eqn:Eb.
    - apply eqb_eq in Eb as ->. exists [], s2'. split; [reflexivity|]. eapply pos_cons; exact H2.
    - assert (length s1 = length (text pv) + length (b :: s2'))%nat as EL by (rewrite E2; apply app_length).
      apply IH; [exact H2|lia|lia]. }
  destruct (find_field _ decs) as [f|].
  - destruct (read M _); [|unfold ends_body, dout; cbn; discriminate].
    pose proof (He f c1 s1 M (at_sub L (fd_idx f)) H1 Hne1 ltac:(lia)) as D. destruct (fd f c1 _ _) as [M1 r].
    destruct r as [c2|e|p|]; try exact D. destruct D as (pv & s2 & E2 & H2). eapply CONT; eassumption.
  - pose proof (skip_value_out buf c1 d s1 Hsm H1) as D.
    destruct (skip_value buf c1 d) as [c2|e|p|]; try (cbn in D |- *; tauto).
    destruct D as (pv & s2 & _ & E2 & H2). eapply CONT; eassumption.
Qed.

(** ** All decoders *)

Lemma slice_ends X et z ed buf c d M L s : pos buf c s -> elems buf (length s - 2) ed -> hout buf s (h_slice X et z ed buf c d M L).
Proof.
  intros H He. unfold h_slice. pose proof (slice_header_out buf c d s H) as O.
  destruct (slice_header buf c d) as [h|e|p|]; try (cbn in O |- *; tauto). cbn [outcome] in O. destruct O as [Hd O].
  destruct h as [c'|c'|len c'].
  - destruct O as (s' & Es & H'). exists LNull, s'. auto.
  - destruct O as (s' & Es & H'). exists (LArr (bs "0") []), s'. auto.
  - destruct O as (n & s1 & Hn & -> & Hmax & Hhd & Kmk & Ls & H1).
    destruct (negb _); [unfold hout, dout; cbn; discriminate|].
    eapply dout_imp.
    { apply (slice_loop_ends X et z ed buf _ He) with (s := s1); auto; [|lia].
      apply pos_len in H as Lp. apply pos_nonneg in H. unfold blen in Lp. lia. }
    intros _ c2 (es & s' & Es & H'). exists (LArr n es), s'. auto.
Qed.

Theorem hdecode_ends U X E buf : small buf -> forall fuel T c d M L s,
  pos buf c s -> s <> [] -> (2 * length s + ptr_cost E T < fuel)%nat ->
  hout buf s (hdecode_f U X E fuel T buf c d M L).
Proof.
  intros Hsm fuel. induction fuel as [|f IH]; intros T c d M L s H Hne HL; [lia|].
  cbn [hdecode_f]. cbn zeta.
  assert (length s <= length buf)%nat as Lb.
  { apply pos_len in H as Lp. apply pos_nonneg in H. unfold blen in Lp. lia. }
  assert (forall et, elems buf (length s - 2) (fun c M L => hdecode_f U X E f et buf c (d + 1) M L)) as He.
  { intros et c' s' M' L' H' Hne' L1. apply IH; auto. unfold ptr_cost. destruct s'; [congruence|]. cbn [length] in *. destruct (is_ptr E et); lia. }
  pose proof (node_plain E T) as NP.
  destruct (node_of E T) as [n|t|id fs|t|t|n t|kt vt| | |uk|ik| | | | |] eqn:En.
  - apply unm_ends; auto.
  - destruct (is_ptr E t) eqn:Ep; [unfold is_ptr in Ep; destruct (kind_of E t); try discriminate; exact I|].
    assert (hout buf s (h_ptr (dzero E t) (fun c0 M L => hdecode_f U X E f t buf c0 d M L) buf c M L)) as G.
    2:{ unfold is_ptr in Ep. destruct (kind_of E t); try discriminate; exact G. }
    apply ptr_ends; auto. intros M' L'. apply IH; auto.
    assert (ptr_cost E T = 1%nat) as PT by (unfold ptr_cost, is_ptr; destruct NP as [_ ->]; reflexivity).
    assert (ptr_cost E t = 0%nat) as Pt by (unfold ptr_cost; rewrite Ep; reflexivity). lia.
  - unfold h_struct. pose proof (struct_header_out buf c d s Hsm H) as O.
    destruct (struct_header buf c d) as [h|e|p|]; try (cbn in O |- *; tauto). cbn [outcome] in O. destruct O as [Hd O].
    destruct h as [c'|c'].
    + destruct O as (s' & Es & H'). exists LNull, s'. auto.
    + destruct O as (n & mk & s1 & Hn & _ & Hmk & Kmk & Ls & H1).
      destruct (read M L) as [dv|]; [|unfold hout, dout; cbn; discriminate].
      destruct dv; try (unfold hout, dout; cbn; discriminate).
      destruct s1 as [|b s1'] eqn:Es1; [rewrite (pos_has_nil _ _ H1); exact I|].
      rdn H1. destruct (b =b "}"%byte) eqn:Eb.
      { apply eqb_eq in Eb as ->. exists (mk []), s1'. split; [apply Kmk; reflexivity|eapply pos_cons; exact H1]. }
      rewrite <- Es1 in *. clear Es1.
      eapply dout_imp.
      { eapply (struct_loop_ends _ _ buf (d + 1) (length s - 2) Hsm) with (s := s1); auto; [|lia|lia].
        intros fl c0 s0 M0 L0 H0 Hne0 L1. destruct (fd_str fl); [|apply He; auto].
        assert (forall t', hout buf s0 (dec_wrapped X (node_of E t') buf c0 VOther)) as W.
        { intros t'. eapply dout_imp; [apply wrapped_out; eassumption|]. intros w c1 (p & s' & Es & H' & _). exists p, s'. auto. }
        pose proof (W (fd_ty fl)) as W0.
        destruct (node_of E (fd_ty fl)) as [n2|t2|id2 fs2|t2|t2|n2 t2|kt2 vt2| | |uk2|ik2| | | | |]; try (apply new_out; exact W0).
        apply ptr_ends; auto. intros M' L'. apply new_out. apply W. }
      intros _ c2 (es & s' & Es & H'). exists (mk es), s'. auto.
  - unfold h_bytes. destruct s as [|b s]; [congruence|]. rewrite (pos_rd _ _ _ _ H).
    destruct (b =b "a"%byte) eqn:Eb; [apply slice_ends; auto|].
    apply new_out. unfold hout. unfold dec_bytes. rewrite (pos_rd _ _ _ _ H), Eb.
    apply dout_text. eapply outcome_imp; [apply string_bytes_out; eassumption|].
    intros [o c'] (p & s' & Es & H' & O). destruct o as [str|]; exists p, s'; auto.
  - apply slice_ends; auto.
  - unfold h_array. cbn zeta. pose proof (array_header_out buf c d s H) as O.
    destruct (array_header buf c d) as [h|e|p|]; try (cbn in O |- *; tauto). cbn [outcome] in O. destruct O as [Hd O].
    destruct h as [c'|c'|len c'].
    + destruct O as (s' & Es & H'). exists LNull, s'. auto.
    + destruct O as (s' & Es & H'). exists (LArr (bs "0") []), s'. auto.
    + destruct O as (m & s1 & Hn & -> & Hmax & Hhd & Kmk & Ls & H1).
      eapply dout_imp.
      { apply (array_loop_ends _ buf (d + 1) n _ Hsm (He t)) with (s := s1); auto; lia. }
      intros _ c2 (es & s' & Es & H'). exists (LArr m es), s'. auto.
  - unfold h_map. pose proof (map_header_out _ _ d _ Hsm H) as O.
    destruct (map_header buf c d) as [h|e|p|]; try (cbn in O |- *; tauto).
    cbn [outcome] in O. destruct O as [Hd O]. destruct h as [c'|c'].
    { destruct O as (s' & Es & H'). exists LNull, s'. auto. }
    destruct O as (n & mk & s1 & Hn & _ & Hmk & Kmk & Ls & H1).
    destruct (read M L) as [dv|]; [|unfold hout, dout; cbn; discriminate].
    destruct dv as [| | | | | |o|l|o|o|o|l|]; try (unfold hout, dout; cbn; discriminate). cbn zeta.
    match goal with |- hout buf s (if _ then (?m, _) else _) => set (M1 := m) end.
    destruct s1 as [|b s1'] eqn:Es1; [rewrite (pos_has_nil _ _ H1); exact I|].
    rdn H1. destruct (b =b "}"%byte) eqn:Eb.
    { apply eqb_eq in Eb as ->. exists (mk []), s1'. split; [apply Kmk; reflexivity|eapply pos_cons; exact H1]. }
    rewrite <- Es1 in *. clear Es1.
    eapply dout_imp.
    { eapply (map_loop_ends _ _ _ buf (length s - 2)) with (s := s1); [|apply (He vt)|exact H1|lia|lia].
      intros c0 s0 M0 H0 Hne0 _. apply key_ends; auto. }
    intros _ c2 (es & s' & Es & H'). exists (mk es), s'. auto.
  - apply new_out. eapply hout_of. apply iface_any_out; auto.
  - apply iface_ends; auto.
  - apply new_out. eapply hout_of. apply (uint_out X E T uk buf c d VOther s); auto.
  - apply new_out. eapply hout_of. apply (int_out X E T ik buf c d VOther s); auto.
  - apply new_out. eapply hout_of. apply (string_out X E T buf c d VOther s); auto.
  - apply new_out. eapply hout_of. apply (bool_dec_out X E T buf c d VOther s); auto.
  - apply new_out. eapply hout_of. apply (float_dec_out X E T true buf c d VOther s); auto.
  - apply new_out. eapply hout_of. apply (float_dec_out X E T false buf c d VOther s); auto.
  - exact I.
Qed.
