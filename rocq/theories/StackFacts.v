(** With enough calls allowed, Unmarshal with a limit on its nested calls is Unmarshal. *)
From Coq Require Import Strings.String Strings.Byte ZArith List Bool Lia Floats.SpecFloat.
From Verif Require Import Base GoTypes Strconv Tags Scan Decode Unmarshal Stack.
Import ListNotations.
Open Scope Z_scope.

(** Equal, or (if [fl]) the first reached its limit. *)
Definition rel {A} (fl : bool) (r r' : R A) : Prop := (fl = true /\ r = RFuel) \/ r = r'.
Definition reld {V} (fl : bool) (p p' : V * R Z) : Prop := (fl = true /\ snd p = RFuel) \/ p = p'.

Lemma rel_refl {A} fl (r : R A) : rel fl r r. Proof. right; reflexivity. Qed.
Lemma reld_refl {V} fl (p : V * R Z) : reld fl p p. Proof. right; reflexivity. Qed.
#[local] Hint Resolve rel_refl reld_refl : core.

Lemma rel_bind {A B} fl (r r' : R A) (f f' : A -> R B) :
  rel fl r r' -> (forall a, rel fl (f a) (f' a)) -> rel fl (bind r f) (bind r' f').
Proof.
  intros [[H ->]| ->] Hf; [left; split; [exact H|reflexivity]|].
  destruct r'; cbn [bind]; auto.
Qed.

(** ** skipValue *)
Lemma entries_rel fl skip skip' (H : forall c, rel fl (skip c) (skip' c)) :
  forall n len c, rel fl (skip_entries skip n len c) (skip_entries skip' n len c).
Proof.
  induction n as [|n IH]; intros len c; cbn [skip_entries]; [auto|].
  destruct (len <=? 0); [auto|].
  apply rel_bind; [apply H|]. intros c1. apply rel_bind; [apply H|]. intros c2. apply IH.
Qed.

Lemma skip_array_rel fl skip skip' buf c d (H : d <= max_depth -> forall c, rel fl (skip c) (skip' c)) :
  rel fl (skip_array skip buf c d) (skip_array skip' buf c d).
Proof.
  unfold skip_array. destruct (Z.ltb_spec max_depth d) as [|Hd]; [auto|]. specialize (H Hd).
  apply rel_bind; [auto|]. intros [len cend]. destruct (negb (has_byte buf cend)); [auto|].
  apply rel_bind; [auto|]. intros b. destruct (negb (b =b "{"%byte)); [auto|].
  apply rel_bind; [apply entries_rel; exact H|]. intros cur. auto.
Qed.

Lemma skip_step_rel fl f f' buf c d
    (H : d + 1 <= max_depth -> forall c, rel fl (skip_value_f f buf c (d + 1)) (skip_value_f f' buf c (d + 1))) :
  rel fl (skip_value_f (S f) buf c d) (skip_value_f (S f') buf c d).
Proof.
  cbn [skip_value_f]. cbv zeta. destruct (negb (has_byte buf c)); [auto|].
  apply rel_bind; [auto|]. intros b.
  destruct (b =b "O"%byte). { apply rel_bind; [auto|]. intros cend. apply skip_array_rel, H. }
  destruct (b =b "a"%byte). { apply skip_array_rel, H. }
  auto.
Qed.

Lemma skip_up buf : forall f f' c d, (f <= f')%nat -> rel true (skip_value_f f buf c d) (skip_value_f f' buf c d).
Proof.
  induction f as [|f IH]; intros f' c d L; [left; split; reflexivity|].
  destruct f' as [|f']; [lia|]. apply skip_step_rel. intros _ c1. apply IH; lia.
Qed.

Lemma skip_deep buf : forall f f' c d, max_depth - d < Z.of_nat f -> max_depth - d < Z.of_nat f' ->
  (0 < f)%nat -> (0 < f')%nat ->
  rel false (skip_value_f f buf c d) (skip_value_f f' buf c d).
Proof.
  induction f as [|f IH]; intros f' c d L L' P P'; [lia|].
  destruct f' as [|f']; [lia|]. apply skip_step_rel. intros Hd c1. apply IH; lia.
Qed.

(** ** Maps and values of unknown type *)
Lemma map_header_deep buf c d : max_depth <? d + 1 = true -> forall h, map_header buf c d <> ROk h.
Proof.
  intros H h. unfold map_header. destruct (negb (has_byte buf c)); [discriminate|].
  destruct (rd buf c); cbn [bind]; try discriminate. rewrite H. discriminate.
Qed.
Lemma struct_header_deep buf c d : max_depth <? d + 1 = true -> forall h, struct_header buf c d <> ROk h.
Proof.
  intros H h. unfold struct_header. destruct (negb (has_byte buf c)); [discriminate|].
  destruct (rd buf c); cbn [bind]; try discriminate. rewrite H. discriminate.
Qed.
Lemma seq_header_deep what buf c d : max_depth <? d + 1 = true -> forall h, seq_header what buf c d <> ROk h.
Proof.
  intros H h. unfold seq_header. destruct (negb (has_byte buf c)); [discriminate|].
  destruct (rd buf c); cbn [bind]; try discriminate. rewrite H. discriminate.
Qed.
Lemma slice_header_deep buf c d : max_depth <? d + 1 = true -> forall h, slice_header buf c d <> ROk h.
Proof.
  intros H h. unfold slice_header. destruct (_ && _ && _); [discriminate|]. apply seq_header_deep, H.
Qed.

Ltac same := first [apply reld_refl | apply rel_refl].
Ltac out := left; split; [assumption|reflexivity].

Lemma map_loop_rel fl kd kd' vd vd' buf
    (Hk : forall c, reld fl (kd c) (kd' c)) (Hv : forall c, reld fl (vd c) (vd' c)) :
  forall n c m, reld fl (map_loop kd vd buf n c m) (map_loop kd' vd' buf n c m).
Proof.
  induction n as [|n IH]; intros c m; cbn [map_loop]; [auto|].
  destruct (negb (has_byte buf c)); [auto|].
  specialize (Hk c). destruct (kd c) as [k kr], (kd' c) as [k' kr'].
  destruct Hk as [[Hf Q]|Q]; [cbn [snd] in Q; subst kr; out|]. injection Q as <- <-.
  destruct kr as [c1| | |]; [|auto..].
  destruct (negb (has_byte buf c1)); [auto|].
  specialize (Hv c1). destruct (vd c1) as [v vr], (vd' c1) as [v' vr'].
  destruct Hv as [[Hf Q]|Q]; [cbn [snd] in Q; subst vr; out|]. injection Q as <- <-.
  destruct vr as [c2| | |]; [|auto..].
  destruct (negb (hashable k)); [auto|]. destruct (negb (has_byte buf c2)); [auto|].
  destruct (rd buf c2) as [b| | |]; [|auto..]. destruct (b =b "}"%byte); [auto|apply IH].
Qed.

Lemma dec_map_rel fl kd kd' vd vd' buf c d rv
    (Hk : d + 1 <= max_depth -> forall c, reld fl (kd c) (kd' c)) (Hv : d + 1 <= max_depth -> forall c, reld fl (vd c) (vd' c)) :
  reld fl (dec_map kd vd buf c d rv) (dec_map kd' vd' buf c d rv).
Proof.
  unfold dec_map. destruct (map_header buf c d) as [[a|a]| | |] eqn:Hh; try same.
  assert (d + 1 <= max_depth) as Hd.
  { destruct (Z.ltb_spec max_depth (d + 1)) as [L|L]; [|exact L]. exfalso. apply (map_header_deep buf c d (proj2 (Z.ltb_lt _ _) L) _ Hh). }
  destruct rv; try same. destruct (negb (has_byte buf a)); [same|].
  destruct (rd buf a) as [b| | |]; try same. destruct (b =b "}"%byte); [same|].
  pose proof (map_loop_rel fl kd kd' vd vd' buf (Hk Hd) (Hv Hd) (length buf) a match o with None => [] | Some m => m end) as H.
  destruct (map_loop kd vd _ _ _ _) as [m r], (map_loop kd' vd' _ _ _ _) as [m' r'].
  destruct H as [[Hf Q]|Q]; [cbn [snd] in Q; subst r; out|]. injection Q as <- <-. same.
Qed.

Lemma any_step_rel X fl f f' buf c d
    (H : d + 1 <= max_depth -> forall c, rel fl (dec_any_f X f buf c (d + 1)) (dec_any_f X f' buf c (d + 1))) :
  rel fl (dec_any_f X (S f) buf c d) (dec_any_f X (S f') buf c d).
Proof.
  cbn [dec_any_f]. cbv zeta. apply rel_bind; [auto|]. intros b.
  set (vd := fun c0 : Z => match dec_any_f X f buf c0 (d + 1) return dres with
                           | ROk (o, c') => (VIface o, ROk c') | r => (VIface None, fail r) end).
  set (vd' := fun c0 : Z => match dec_any_f X f' buf c0 (d + 1) return dres with
                            | ROk (o, c') => (VIface o, ROk c') | r => (VIface None, fail r) end).
  assert (d + 1 <= max_depth -> forall c, reld fl (vd c) (vd' c)) as Hv.
  { intros Hd c1. unfold vd, vd'. destruct (H Hd c1) as [[Hf ->]| ->]; [out|same]. }
  assert (forall t p p', reld fl p p' ->
    rel fl match p with (v, ROk c) => ROk (Some (t : gty, v : gval), c) | (_, r) => fail r end
           match p' with (v, ROk c) => ROk (Some (t, v), c) | (_, r) => fail r end) as W.
  { intros t [v r] p' [[Hf Q]| <-]; [cbn [snd] in Q; subst r; out|same]. }
  destruct (b =b "O"%byte). { apply W. apply dec_map_rel; [intros; same|exact Hv]. }
  destruct (b =b "a"%byte). { apply W. apply dec_map_rel; [intros; same|exact Hv]. }
  same.
Qed.

Lemma any_up X buf : forall f f' c d, (f <= f')%nat -> rel true (dec_any_f X f buf c d) (dec_any_f X f' buf c d).
Proof.
  induction f as [|f IH]; intros f' c d L; [left; split; reflexivity|].
  destruct f' as [|f']; [lia|]. apply any_step_rel. intros _ c1. apply IH; lia.
Qed.

Lemma any_deep X buf : forall f f' c d, max_depth - d < Z.of_nat f -> max_depth - d < Z.of_nat f' ->
  (0 < f)%nat -> (0 < f')%nat ->
  rel false (dec_any_f X f buf c d) (dec_any_f X f' buf c d).
Proof.
  induction f as [|f IH]; intros f' c d L L' P P'; [lia|].
  destruct f' as [|f']; [lia|]. apply any_step_rel. intros Hd c1. apply IH; lia.
Qed.

(** ** The other decoders *)
Section Bodies.
  Context (X : Ext) (E : env) (fl : bool) (buf : bytes).
  Context (skip skip' : bytes -> Z -> Z -> R Z) (any any' : bytes -> Z -> Z -> R (option (gty * gval) * Z)).
  Notation sk d := (forall c, rel fl (skip buf c d) (skip' buf c d)).
  Notation an d := (forall c, rel fl (any buf c d) (any' buf c d)).

  Lemma iface_any_rel c d rv (Ha : an d) : reld fl (s_dec_iface_any any X buf c d rv) (s_dec_iface_any any' X buf c d rv).
  Proof. unfold s_dec_iface_any. destruct (Ha c) as [[Hf ->]| ->]; [out|same]. Qed.

  Lemma unm_rel n c d rv (Hs : sk d) : reld fl (s_dec_unm skip X E n buf c d rv) (s_dec_unm skip' X E n buf c d rv).
  Proof. unfold s_dec_unm. destruct (Hs c) as [[Hf ->]| ->]; [cbn [bind]; out|same]. Qed.

  Lemma iface_rel c d rv (Hs : sk d) : reld fl (s_dec_iface skip X E buf c d rv) (s_dec_iface skip' X E buf c d rv).
  Proof.
    unfold s_dec_iface. cbv zeta. destruct rv as [| | | | | | | | | |[[[] []]|]| | ]; try same.
    destruct (has_unmarshal E _); [|same]. destruct (Hs c) as [[Hf ->]| ->]; [cbn [bind]; out|same].
  Qed.

  Lemma key_rel kt c d (Hs : sk d) (Ha : an d) :
    reld fl (s_dec_key skip any X E kt buf c d) (s_dec_key skip' any' X E kt buf c d).
  Proof.
    unfold s_dec_key. cbv zeta. destruct (key_node E kt) as [| | | | | | |dd|]; try same.
    - apply unm_rel, Hs.
    - apply iface_any_rel, Ha.
    - apply iface_rel, Hs.
    - destruct dd; try same; (destruct (Ha c) as [[Hf ->]| ->]; [out|same]).
  Qed.

  Lemma slice_loop_rel et ed ed' (He : forall c v, reld fl (ed c v) (ed' c v)) :
    forall n c l rv, reld fl (slice_loop X E et ed buf n c l rv) (slice_loop X E et ed' buf n c l rv).
  Proof.
    induction n as [|n IH]; intros c l rv; cbn [slice_loop]; [same|]. cbv zeta.
    destruct (negb (has_byte buf c)); [same|]. destruct (read_int buf c) as [[idx a]| | |]; try same.
    destruct (negb (has_byte buf a)); [same|].
    destruct (idx <? blen l).
    - destruct (bad_index _ _); [same|].
      specialize (He a (nth (Z.to_nat idx) l VOther)). destruct (ed _ _) as [v r], (ed' _ _) as [v' r'].
      destruct He as [[Hf Q]|Q]; [cbn [snd] in Q; subst r; out|]. injection Q as <- <-.
      destruct r as [a'| | |]; try same. destruct (negb (has_byte buf a')); [same|].
      destruct (rd buf a') as [b| | |]; try same. destruct (b =b "}"%byte); [same|apply IH].
    - destruct (_ || _); [same|]. destruct (bad_index _ _); [same|].
      specialize (He a (zero E et)). destruct (ed _ _) as [v r], (ed' _ _) as [v' r'].
      destruct He as [[Hf Q]|Q]; [cbn [snd] in Q; subst r; out|]. injection Q as <- <-.
      destruct r as [a'| | |]; try same. destruct (negb (has_byte buf a')); [same|].
      destruct (rd buf a') as [b| | |]; try same. destruct (b =b "}"%byte); [same|apply IH].
  Qed.

  Lemma slice_rel et ed ed' c d rv (He : d + 1 <= max_depth -> forall c v, reld fl (ed c v) (ed' c v)) :
    reld fl (dec_slice X E et ed buf c d rv) (dec_slice X E et ed' buf c d rv).
  Proof.
    unfold dec_slice. destruct (slice_header buf c d) as [[a|a|len a]| | |] eqn:Hh; try same.
    all: destruct (Z.ltb_spec max_depth (d + 1)) as [L|L]; [exfalso; apply (slice_header_deep buf c d (proj2 (Z.ltb_lt _ _) L) _ Hh)|].
    all: try (destruct (negb (x_slots X et _)); [same|]; apply slice_loop_rel, He, L).
  Qed.

  Lemma array_loop_rel ed ed' d (He : forall c v, reld fl (ed c v) (ed' c v)) (Hs : sk d) :
    forall n c l, reld fl (s_array_loop skip ed buf d n c l) (s_array_loop skip' ed' buf d n c l).
  Proof.
    induction n as [|n IH]; intros c l; cbn [s_array_loop]; [same|]. cbv zeta.
    destruct (negb (has_byte buf c)); [same|]. destruct (read_int buf c) as [[idx a]| | |]; try same.
    destruct (negb (has_byte buf a)); [same|].
    destruct (idx <? blen l).
    - destruct (bad_index _ _); [same|].
      specialize (He a (nth (Z.to_nat idx) l VOther)). destruct (ed _ _) as [v r], (ed' _ _) as [v' r'].
      destruct He as [[Hf Q]|Q]; [cbn [snd] in Q; subst r; out|]. injection Q as <- <-.
      destruct r as [a'| | |]; try same. destruct (negb (has_byte buf a')); [same|].
      destruct (rd buf a') as [b| | |]; try same. destruct (b =b "}"%byte); [same|apply IH].
    - destruct (Hs a) as [[Hf ->]| ->]; [out|].
      destruct (skip' buf a d) as [a'| | |]; try same. destruct (negb (has_byte buf a')); [same|].
      destruct (rd buf a') as [b| | |]; try same. destruct (b =b "}"%byte); [same|apply IH].
  Qed.

  Lemma array_rel n et ed ed' c d rv (He : d + 1 <= max_depth -> forall c v, reld fl (ed c v) (ed' c v))
      (Hs : d + 1 <= max_depth -> sk (d + 1)) :
    reld fl (s_dec_array skip E n et ed buf c d rv) (s_dec_array skip' E n et ed' buf c d rv).
  Proof.
    unfold s_dec_array. cbv zeta. unfold array_header. destruct (seq_header _ buf c d) as [[a|a|len a]| | |] eqn:Hh; try same.
    all: destruct (Z.ltb_spec max_depth (d + 1)) as [L|L]; [exfalso; apply (seq_header_deep _ buf c d (proj2 (Z.ltb_lt _ _) L) _ Hh)|].
    all: try match goal with |- reld _ (let '(_, _) := s_array_loop _ _ _ _ ?n ?c ?z in _) _ =>
      pose proof (array_loop_rel ed ed' (d + 1) (He L) (Hs L) n c z) as H end.
    all: destruct (s_array_loop skip _ _ _ _ _ _) as [m r], (s_array_loop skip' _ _ _ _ _ _) as [m' r'].
    all: destruct H as [[Hf Q]|Q]; [cbn [snd] in Q; subst r; out|]; injection Q as <- <-; same.
  Qed.

  Lemma struct_loop_rel decs fd fd' d (He : forall x c v, reld fl (fd x c v) (fd' x c v)) (Hs : sk d) :
    forall n c l, reld fl (s_struct_loop skip decs fd buf d n c l) (s_struct_loop skip' decs fd' buf d n c l).
  Proof.
    induction n as [|n IH]; intros c l; cbn [s_struct_loop]; [same|]. cbv zeta.
    destruct (negb (has_byte buf c)); [same|]. destruct (decode_string_bytes buf c) as [[key a]| | |]; try same.
    destruct (negb (has_byte buf a)); [same|].
    destruct (find_field _ decs) as [x|].
    - destruct (nth_error l (fd_idx x)) as [v0|]; [|same].
      specialize (He x a v0). destruct (fd _ _ _) as [v r], (fd' _ _ _) as [v' r'].
      destruct He as [[Hf Q]|Q]; [cbn [snd] in Q; subst r; out|]. injection Q as <- <-.
      destruct r as [a'| | |]; try same. destruct (negb (has_byte buf a')); [same|].
      destruct (rd buf a') as [b| | |]; try same. destruct (b =b "}"%byte); [same|apply IH].
    - destruct (Hs a) as [[Hf ->]| ->]; [out|].
      destruct (skip' buf a d) as [a'| | |]; try same. destruct (negb (has_byte buf a')); [same|].
      destruct (rd buf a') as [b| | |]; try same. destruct (b =b "}"%byte); [same|apply IH].
  Qed.

  Lemma struct_rel decs fd fd' c d rv (He : d + 1 <= max_depth -> forall x c v, reld fl (fd x c v) (fd' x c v))
      (Hs : d + 1 <= max_depth -> sk (d + 1)) :
    reld fl (s_dec_struct skip decs fd buf c d rv) (s_dec_struct skip' decs fd' buf c d rv).
  Proof.
    unfold s_dec_struct. destruct (struct_header buf c d) as [[a|a]| | |] eqn:Hh; try same.
    assert (d + 1 <= max_depth) as L.
    { destruct (Z.ltb_spec max_depth (d + 1)) as [L|L]; [|exact L]. exfalso. apply (struct_header_deep buf c d (proj2 (Z.ltb_lt _ _) L) _ Hh). }
    destruct rv as [| | | | | | | | | | |vals|]; try same. destruct (negb (has_byte buf a)); [same|].
    destruct (rd buf a) as [b| | |]; try same. destruct (b =b "}"%byte); [same|].
    pose proof (struct_loop_rel decs fd fd' (d + 1) (He L) (Hs L) (length buf) a vals) as H.
    destruct (s_struct_loop skip _ _ _ _ _ _ _) as [m r], (s_struct_loop skip' _ _ _ _ _ _ _) as [m' r'].
    destruct H as [[Hf Q]|Q]; [cbn [snd] in Q; subst r; out|]. injection Q as <- <-. same.
  Qed.

  Lemma ptr_rel t ed ed' c rv (He : forall c v, reld fl (ed c v) (ed' c v)) :
    reld fl (dec_ptr E t ed buf c rv) (dec_ptr E t ed' buf c rv).
  Proof.
    unfold dec_ptr. destruct (rd buf c) as [b| | |]; try same. destruct (b =b "N"%byte); [same|].
    destruct rv as [| | | | | | | | |o| | |]; try same.
    match goal with |- reld _ (let '(_, _) := ed ?a ?b in _) _ => specialize (He a b) end.
    destruct (ed _ _) as [v r], (ed' _ _) as [v' r'].
    destruct He as [[Hf Q]|Q]; [cbn [snd] in Q; subst r; out|]. injection Q as <- <-. same.
  Qed.

  (** One decoder, given the ones it calls. *)
  Lemma body_rel elem elem' t c d rv
      (Hs : sk d) (Ha : an d)
      (Hs1 : d + 1 <= max_depth -> sk (d + 1)) (Ha1 : d + 1 <= max_depth -> an (d + 1))
      (He : d + 1 <= max_depth -> forall t' c v, reld fl (elem t' buf c (d + 1) v) (elem' t' buf c (d + 1) v))
      (Hp : forall t', node_of E t = NPtr t' -> (forall u, kind_of E t' <> KPtr u) ->
            forall c v, reld fl (elem t' buf c d v) (elem' t' buf c d v)) :
    reld fl (s_decode_body skip any X E elem t buf c d rv) (s_decode_body skip' any' X E elem' t buf c d rv).
  Proof.
    unfold s_decode_body. cbv zeta. destruct (node_of E t) as [n|t'|id fs|et|et|n et|kt vt| | | | | | | | |] eqn:Hn; try same.
    - apply unm_rel, Hs.
    - destruct (kind_of E t') eqn:Hk; try same; apply ptr_rel, (Hp t' eq_refl); intros u Q; rewrite Hk in Q; discriminate Q.
    - apply struct_rel; [|exact Hs1]. intros Hd x c1 v. destruct (fd_str x); [same|]. apply He, Hd.
    - unfold dec_bytes. destruct (rd buf c) as [b| | |]; try same. destruct (b =b "a"%byte); [|same].
      apply slice_rel. intros Hd c1 v. apply He, Hd.
    - apply slice_rel. intros Hd c1 v. apply He, Hd.
    - apply array_rel; [|exact Hs1]. intros Hd c1 v. apply He, Hd.
    - apply dec_map_rel; intros Hd c1; [apply key_rel; auto|apply He, Hd].
    - apply iface_any_rel, Ha.
    - apply iface_rel, Hs.
  Qed.
End Bodies.

(** Without the limit these are the decoders of Decode.v. *)
Lemma body_model X E f t buf c d rv :
  decode_f X E (S f) t buf c d rv = s_decode_body skip_value (dec_any X) X E (decode_f X E f) t buf c d rv.
Proof. reflexivity. Qed.

Lemma decode_up X E buf : forall f n t c d rv, (f + S (length buf) <= n)%nat ->
  reld true (decode_f X E f t buf c d rv) (s_decode X E n t buf c d rv).
Proof.
  induction f as [|f IH]; intros n t c d rv L; [left; split; reflexivity|].
  destruct n as [|n]; [lia|]. rewrite body_model. cbn [s_decode]. apply body_rel.
  - intros c1. apply skip_up; lia.
  - intros c1. apply any_up; lia.
  - intros _ c1. apply skip_up; lia.
  - intros _ c1. apply any_up; lia.
  - intros _ t' c1 v. apply IH; lia.
  - intros t' _ _ c1 v. apply IH; lia.
Qed.

(** The calls that decoding a [t] at depth [d] may need. *)
Definition is_ptr (nd : node) : Z := match nd with NPtr _ => 1 | _ => 0 end.
Definition calls (E : env) (t : gty) (d : Z) : Z := 2 * (max_depth - d) + 2 + is_ptr (node_of E t).

Lemma not_ptr E t : (forall u, kind_of E t <> KPtr u) -> is_ptr (node_of E t) = 0.
Proof.
  intros H. unfold node_of. destruct (has_unmarshal E t); [reflexivity|].
  destruct (kind_of E t) as [| | | | | |et| | |u| | | |] eqn:Hk; try reflexivity.
  - destruct (kind_of E et) as [| |[]| | | | | | | | | | |]; reflexivity.
  - exfalso. exact (H u eq_refl).
Qed.

Lemma decode_deep X E buf : forall n m t c d rv, d <= max_depth ->
  calls E t d <= Z.of_nat n -> calls E t d <= Z.of_nat m ->
  reld false (s_decode X E n t buf c d rv) (s_decode X E m t buf c d rv).
Proof.
  unfold calls. assert (forall nd, 0 <= is_ptr nd <= 1) as I by (intros []; cbn; lia).
  induction n as [|n IH]; intros m t c d rv Hd L L'; pose proof (I (node_of E t)) as It; [lia|].
  destruct m as [|m]; [lia|]. cbn [s_decode]. apply body_rel.
  - intros c1. apply skip_deep; lia.
  - intros c1. apply any_deep; lia.
  - intros D c1. apply skip_deep; lia.
  - intros D c1. apply any_deep; lia.
  - intros D t' c1 v. pose proof (I (node_of E t')). apply IH; lia.
  - intros t' Hn Hk c1 v. rewrite Hn in *. cbn [is_ptr] in *. rewrite <- (not_ptr E t' Hk) in *.
    apply IH; rewrite ?(not_ptr E t' Hk) in *; lia.
Qed.
