(** The decoder with errors in full (NameDecode.v) is the decoder of Decode.v. *)
From Coq Require Import Strings.String Strings.Byte ZArith List Bool Lia Floats.SpecFloat.
From Verif Require Import Base GoTypes Strconv Tags Scan Decode Unmarshal Grammar Denote NumFacts ScanFacts OffsetFacts NameDecode.
Import ListNotations.
Open Scope Z_scope.

(** what Decode.v keeps of an error *)
Definition strip (e : error) : error :=
  match e with ETypeAt o _ => EType o | EUserAt _ => EUser | e => e end.
Definition strip_r {A} (r : R A) : R A := match r with RErr e => RErr (strip e) | r => r end.

(** the same up to what is left out *)
Definition like {A} (r r' : R A) : Prop :=
  match r, r' with
  | ROk a, ROk a' => a = a'
  | RErr e, RErr e' => strip e = strip e'
  | RPanic p, RPanic p' => p = p'
  | RFuel, RFuel => True
  | _, _ => False
  end.
Definition like2 {B A} (d d' : B * R A) : Prop := fst d = fst d' /\ like (snd d) (snd d').

Lemma like_refl {A} (r : R A) : like r r.
Proof. destruct r; cbn; auto. Qed.
Lemma like2_refl {A B} (r : B * R A) : like2 r r.
Proof. split; [reflexivity|apply like_refl]. Qed.
Lemma like_fail {A B} (r r' : R A) : like r r' -> @like B (fail r) (fail r').
Proof. destruct r, r'; cbn; auto; intros []. Qed.
Lemma like_bind {A B} (r r' : R A) (k k' : A -> R B) : like r r' -> (forall a, like (k a) (k' a)) -> like (bind r k) (bind r' k').
Proof. intros H Hk. destruct r, r'; cbn [like bind] in *; try contradiction; subst; auto. Qed.
Lemma like_strip {A} (r r' : R A) : like r r' -> strip_r r = strip_r r'.
Proof. destruct r, r'; cbn; try intros []; try reflexivity; congruence. Qed.

(** one step on both sides *)
Ltac both1 := match goal with
  | |- like2 ?x ?x => apply like2_refl
  | |- like ?x ?x => apply like_refl
  | |- like2 (if ?b then _ else _) (if ?b then _ else _) => destruct b
  | |- like (if ?b then _ else _) (if ?b then _ else _) => destruct b
  | |- like2 (_, RErr _) (_, RErr _) => split; reflexivity
  | |- like (RErr _) (RErr _) => reflexivity
  | |- like (bind ?r _) (bind ?r _) => apply like_bind; [apply like_refl|intro]
  | |- like2 (match ?r with ROk _ => _ | RErr _ => _ | RPanic _ => _ | RFuel => _ end) (match ?r with ROk _ => _ | RErr _ => _ | RPanic _ => _ | RFuel => _ end) => destruct r
  | |- like2 (match ?r with Some _ => _ | None => _ end) (match ?r with Some _ => _ | None => _ end) => destruct r
  | |- like2 (match ?r with None => _ | Some _ => _ end) (match ?r with None => _ | Some _ => _ end) => destruct r
  end.
Ltac both := repeat both1.
(** a pair of related decoder results *)
Ltac sub H := let v := fresh "v" in let v' := fresh "v'" in let r := fresh "r" in let r' := fresh "r'" in
  let E1 := fresh "E1" in let E2 := fresh "E2" in
  destruct H as [E1 E2];
  match type of E1 with fst ?a = fst ?b => destruct a as [v r]; destruct b as [v' r'] end; cbn [fst snd] in E1, E2; subst v';
  destruct r, r'; cbn [like] in E2; try contradiction; try subst.

Lemma like_string_bytes nm buf c : like (decode_string_bytes buf c) (decode_string_bytes_n nm buf c).
Proof.
  unfold decode_string_bytes, decode_string_bytes_n. both. destruct (a =b "b"%byte); [reflexivity|]. destruct (a =b "d"%byte); [reflexivity|].
  destruct (a =b "i"%byte); [reflexivity|]. cbn [orb]. both.
Qed.
Lemma like_text r r' p p' rv : like r r' -> (forall b c rv, like2 (p b c rv) (p' b c rv)) -> like2 (dec_text r p rv) (dec_text r' p' rv).
Proof.
  intros H Hp. unfold dec_text. destruct r as [[[b|] c]| | |], r'; cbn [like] in H; try contradiction; try subst; try apply Hp; try (split; [reflexivity|]; cbn; auto; fail).
Qed.
Lemma like_process_int nm t k b c rv : like2 (process_int k b c rv) (process_int_n nm t k b c rv).
Proof. unfold process_int, process_int_n, process_int. destruct (parse_int64 b); both. Qed.
Lemma like_process_uint t k b c rv : like2 (process_uint k b c rv) (process_uint_n t k b c rv).
Proof. unfold process_uint, process_uint_n, process_uint. destruct (parse_uint64 b); both. Qed.
Lemma like_int nm t k buf c rv : like2 (dec_int k buf c rv) (dec_int_n nm t k buf c rv).
Proof. apply like_text; [apply like_refl|]. intros. apply like_process_int. Qed.
Lemma like_uint t k buf c rv : like2 (dec_uint k buf c rv) (dec_uint_n t k buf c rv).
Proof. apply like_text; [apply like_refl|]. intros. apply like_process_uint. Qed.
Lemma like_string nm buf c rv : like2 (dec_string buf c rv) (dec_string_n nm buf c rv).
Proof. apply like_text; [apply like_string_bytes|]. intros. apply like2_refl. Qed.

Lemma like_map_loop kd kd' vd vd' buf : (forall c, like2 (kd c) (kd' c)) -> (forall c, like2 (vd c) (vd' c)) ->
  forall n c m, like2 (map_loop kd vd buf n c m) (map_loop kd' vd' buf n c m).
Proof.
  intros Hk Hv. induction n as [|n IH]; intros c m; cbn [map_loop]; [both|]. both1; [both|].
  pose proof (Hk c) as H. sub H; try (split; [reflexivity|cbn; auto; fail]).
  both1; [both|]. match goal with |- context [vd ?x] => pose proof (Hv x) as H end. sub H; try (split; [reflexivity|cbn; auto; fail]).
  repeat (first [apply IH|both1]).
Qed.
Lemma like_map kd kd' vd vd' buf c d rv : (forall c, like2 (kd c) (kd' c)) -> (forall c, like2 (vd c) (vd' c)) ->
  like2 (dec_map kd vd buf c d rv) (dec_map kd' vd' buf c d rv).
Proof.
  intros Hk Hv. unfold dec_map. destruct (map_header buf c d) as [[]| | |]; both. destruct rv; both.
  pose proof (like_map_loop kd kd' vd vd' buf Hk Hv (length buf) c0 (match o with Some m => m | None => [] end)) as [H1 H2].
  destruct (map_loop kd _ _ _ _ _), (map_loop kd' _ _ _ _ _). cbn [fst snd] in *. subst. split; auto.
Qed.
Lemma like_any_key nm buf c : like2 (dec_any_key buf c) (dec_any_key_n nm buf c).
Proof.
  unfold dec_any_key, dec_any_key_n. both.
  - pose proof (like_string nm buf c (VStr [])) as H. sub H; split; cbn; auto.
  - pose proof (like_int nm (TInt I64) I64 buf c (VInt 0)) as H. sub H; split; cbn; auto.
Qed.
Lemma like_any X nm buf : forall f c d, like (dec_any_f X f buf c d) (dec_any_n_f X nm f buf c d).
Proof.
  induction f as [|f IH]; intros c d; cbn [dec_any_f dec_any_n_f]; [exact I|]. cbv zeta.
  set (vd := fun c0 : Z => match dec_any_f X f buf c0 (d + 1) with ROk (o, c') => (VIface o, ROk c') | r => (VIface None, fail r) end : dres).
  set (vd' := fun c0 : Z => match dec_any_n_f X nm f buf c0 (d + 1) with ROk (o, c') => (VIface o, ROk c') | r => (VIface None, fail r) end : dres).
  assert (forall c, like2 (vd c) (vd' c)) as Hv.
  { intros c0. subst vd vd'. cbn beta. pose proof (IH c0 (d + 1)) as H.
    destruct (dec_any_f X f buf c0 (d + 1)) as [[]| | |], (dec_any_n_f X nm f buf c0 (d + 1)) as [[]| | |]; cbn [like] in H; try contradiction; try subst; try (split; [reflexivity|cbn; auto; fail]).
    injection H as -> ->. apply like2_refl. }
  assert (forall t (r r' : dres), like2 r r' ->
    @like (option (gty * gval) * Z) (match r with (v, ROk c) => ROk (Some (t, v), c) | (_, r) => fail r end)
      (match r' with (v, ROk c) => ROk (Some (t, v), c) | (_, r) => fail r end)) as W.
  { intros t r r' H. sub H; cbn; auto. }
  apply like_bind; [apply like_refl|]. intros b. both1; [apply W, like_map; [intros; apply like_string|exact Hv]|].
  both1; [apply W, like_map; [intros; apply like_any_key|exact Hv]|]. both1; [apply W, like2_refl|]. both1; [both|].
  both1; [apply W, like_int|]. both.
Qed.
Lemma like_iface_any X nm buf c d rv : like2 (dec_iface_any X buf c d rv) (dec_iface_any_n X nm buf c d rv).
Proof.
  unfold dec_iface_any, dec_iface_any_n, dec_any, dec_any_n. pose proof (like_any X nm buf (S (length buf)) c d) as H.
  destruct (dec_any_f _ _ _ _ _) as [[]| | |], (dec_any_n_f _ _ _ _ _ _) as [[]| | |]; cbn [like] in H; try contradiction; try subst; try (split; [reflexivity|cbn; auto; fail]).
  injection H as -> ->. apply like2_refl.
Qed.
Lemma like_unm X Q E nm n buf c d rv : like2 (dec_unm X E n buf c d rv) (dec_unm_n X Q E nm n buf c d rv).
Proof.
  unfold dec_unm, dec_unm_n. destruct (_ <- skip_value buf c d ;; _) as [[src e]| | |]; both.
  assert (like2 (match x_unmarshal X n (unquoted X src) (zero E (TName n)) with (v, true) => (v, ROk e) | (_, false) => (rv, RErr EUser) end)
    (match x_unmarshal X n (unquoted X src) (zero E (TName n)) with (v, true) => (v, ROk e)
     | (_, false) => (rv, RErr (EUserAt (annotate nm c (r_error Q n (unquoted X src) (zero E (TName n)))))) end)) as G.
  { destruct (x_unmarshal X n _ _) as [v []]; both. }
  destruct src as [|b src]; [exact G|]. destruct (b =b "["%byte); [split; reflexivity|]. destruct (b =b "{"%byte); [split; reflexivity|]. cbn [orb].
  both; exact G.
Qed.
Lemma like_iface X Q E nm t buf c d rv : like2 (dec_iface X E buf c d rv) (dec_iface_n X Q E nm t buf c d rv).
Proof.
  unfold dec_iface, dec_iface_n. cbv zeta.
  destruct rv as [| | | | | | | | | |[[t' v]|]| |]; try solve [both]. destruct t' as [| | | | | | | | |t1| | | |]; try solve [both].
  destruct v as [| | | | | | | | |p| | |]; try solve [both].
  destruct (has_unmarshal E t1) as [n|]; [|both]. destruct (_ <- skip_value buf c d ;; _) as [[src e]| | |]; both.
  destruct (x_unmarshal X n _ _) as [v []]; both.
Qed.
Lemma like_key X Q E nm kt buf c d : like2 (dec_key X E kt buf c d) (dec_key_n X Q E nm kt buf c d).
Proof.
  unfold dec_key, dec_key_n. cbv zeta. destruct (key_node E kt) as [n| | |k|k| | |nd|].
  - apply like_unm.
  - apply like_string.
  - both.
  - apply like_int.
  - apply like_uint.
  - apply like_iface_any.
  - apply like_iface.
  - assert (like2 (match dec_any X buf c d with ROk (None, c) => (zero E kt, ROk c) | ROk (Some _, _) => (zero E kt, RPanic PReflect) | r => (zero E kt, fail r) end)
                  (match dec_any_n X nm buf c d with ROk (None, c) => (zero E kt, ROk c) | ROk (Some _, _) => (zero E kt, RPanic PReflect) | r => (zero E kt, fail r) end)) as G.
    { unfold dec_any, dec_any_n. pose proof (like_any X nm buf (S (length buf)) c d) as H.
      destruct (dec_any_f _ _ _ _ _) as [[[]]| | |], (dec_any_n_f _ _ _ _ _ _) as [[[]]| | |]; cbn [like] in H; try contradiction; try subst; try discriminate H; try (split; [reflexivity|cbn; auto; fail]).
      injection H as ->. both. }
    destruct nd; try exact G; clear G.
    + apply like_text; [apply like_refl|]. intros b c' rv. destruct (parse_uint64 b); both.
    + apply like_text; [apply like_refl|]. intros b c' rv. destruct (parse_int64 b); both.
    + apply like_text; [apply like_string_bytes|]. intros. both.
    + both.
  - both.
Qed.

Definition like_el (ed ed' : Z -> gval -> dres) : Prop := forall c v, like2 (ed c v) (ed' c v).
Ltac leaf := split; [reflexivity|cbn; auto; fail].
Lemma like_slice_loop X E et ed ed' buf : like_el ed ed' -> forall n c sl rv, like2 (slice_loop X E et ed buf n c sl rv) (slice_loop X E et ed' buf n c sl rv).
Proof.
  intros He. induction n as [|n IH]; intros c sl rv; cbn [slice_loop]; [both|]. cbv zeta. both1; [both|].
  destruct (read_int buf c) as [[i c1]| | |]; both.
  - pose proof (He c1 (nth (Z.to_nat i) sl VOther)) as H. sub H; try leaf. repeat (first [apply IH|both1]).
  - pose proof (He c1 (zero E et)) as H. sub H; try leaf. repeat (first [apply IH|both1]).
Qed.
Lemma like_slice X E nm et ed ed' buf c d rv : like_el ed ed' -> like2 (dec_slice X E et ed buf c d rv) (dec_slice_n X E nm et ed' buf c d rv).
Proof.
  intros He. unfold dec_slice_n. destruct (has_byte buf c && _ && number_at buf c) eqn:Hn; unfold dec_slice, slice_header; rewrite Hn; [split; reflexivity|].
  destruct (seq_header "slice" buf c d) as [[]| | |]; both. apply like_slice_loop, He.
Qed.
Lemma like_array_loop ed ed' buf d : like_el ed ed' -> forall n c l, like2 (array_loop ed buf d n c l) (array_loop ed' buf d n c l).
Proof.
  intros He. induction n as [|n IH]; intros c l; cbn [array_loop]; [both|]. cbv zeta. both1; [both|].
  destruct (read_int buf c) as [[i c1]| | |]; both; try apply IH.
  pose proof (He c1 (nth (Z.to_nat i) l VOther)) as H. sub H; try leaf. repeat (first [apply IH|both1]).
Qed.
Lemma like_array E n et ed ed' buf c d rv : like_el ed ed' -> like2 (dec_array E n et ed buf c d rv) (dec_array E n et ed' buf c d rv).
Proof.
  intros He. unfold dec_array. cbv zeta. destruct (array_header buf c d) as [[| |l c1]| | |]; both.
  pose proof (like_array_loop ed ed' buf (d + 1) He (length buf) c1 (repeat (zero E et) n)) as [H1 H2].
  destruct (array_loop ed _ _ _ _ _), (array_loop ed' _ _ _ _ _). cbn [fst snd] in *. subst. split; auto.
Qed.
Lemma like_struct_loop nm decs fd fd' buf d : (forall x, like_el (fd x) (fd' x)) ->
  forall n c l, like2 (struct_loop decs fd buf d n c l) (struct_loop_n nm decs fd' buf d n c l).
Proof.
  intros He. induction n as [|n IH]; intros c l; cbn [struct_loop struct_loop_n]; [both|]. cbv zeta. both1; [both|].
  pose proof (like_string_bytes nm buf c) as H.
  destruct (decode_string_bytes buf c) as [[k c1]| | |], (decode_string_bytes_n nm buf c) as [[k' c1']| | |]; cbn [like] in H; try contradiction; try subst; try leaf.
  injection H as <- <-. both; try apply IH.
  pose proof (He f c1 g) as H. sub H; try leaf. repeat (first [apply IH|both1]).
Qed.
Lemma like_struct nm decs fd fd' buf c d rv : (forall x, like_el (fd x) (fd' x)) -> like2 (dec_struct decs fd buf c d rv) (dec_struct_n nm decs fd' buf c d rv).
Proof.
  intros He. unfold dec_struct, dec_struct_n. destruct (struct_header buf c d) as [[|c1]| | |]; both. destruct rv; both.
  pose proof (like_struct_loop nm decs fd fd' buf (d + 1) He (length buf) c1 l) as [H1 H2].
  destruct (struct_loop _ _ _ _ _ _ _), (struct_loop_n _ _ _ _ _ _ _ _). cbn [fst snd] in *. subst. split; auto.
Qed.
Lemma like_ptr E t ed ed' buf c rv : like_el ed ed' -> like2 (dec_ptr E t ed buf c rv) (dec_ptr E t ed' buf c rv).
Proof.
  intros He. unfold dec_ptr. both. destruct rv; both. pose proof (He c (match o with Some v => v | None => zero E t end)) as [H1 H2].
  destruct (ed _ _), (ed' _ _). cbn [fst snd] in *. subst. split; auto.
Qed.
Lemma like_wrapped X nm t nd buf c rv : like2 (dec_wrapped X nd buf c rv) (dec_wrapped_n X nm t nd buf c rv).
Proof.
  unfold dec_wrapped, dec_wrapped_n. cbv zeta. apply like_text; [apply like_string_bytes|]. intros b c1 rv1. destruct nd; both.
  - pose proof (like_process_uint t k b c rv1) as H. sub H; leaf.
  - pose proof (like_process_int nm t k b c rv1) as H. sub H; leaf.
Qed.
Lemma like_bytes nm sd sd' buf c rv : like2 (sd rv) (sd' rv) -> like2 (dec_bytes sd buf c rv) (dec_bytes_n nm sd' buf c rv).
Proof. intros H. unfold dec_bytes, dec_bytes_n. both; [exact H|]. apply like_text; [apply like_string_bytes|]. intros. both. Qed.

Theorem decode_like X Q E buf : forall f nm st t c d rv, like2 (decode_f X E f t buf c d rv) (decode_n_f X Q E f nm st t buf c d rv).
Proof.
  induction f as [|f IH]; intros nm st t c d rv; cbn [decode_f decode_n_f]; [both|]. cbv zeta.
  destruct (node_of E t) as [n|t'|id fs|et|et|n et|kt vt| | |k|k| | | | |].
  - apply like_unm.
  - destruct (kind_of E t'); try (apply like_ptr; intros c1 v1; apply IH). both.
  - destruct (enter id nm st st) as [nm' st']. apply like_struct. intros x c1 v1. destruct (fd_str x); [|apply IH].
    destruct (node_of E (fd_ty x)); try apply like_wrapped. apply like_ptr. intros c2 v2. apply like_wrapped.
  - apply like_bytes. apply like_slice. intros c1 v1. apply IH.
  - apply like_slice. intros c1 v1. apply IH.
  - apply like_array. intros c1 v1. apply IH.
  - apply like_map; intros c1; [apply like_key|apply IH].
  - apply like_iface_any.
  - apply like_iface.
  - apply like_uint.
  - apply like_int.
  - apply like_string.
  - both.
  - both.
  - both.
  - both.
Qed.
