(** Which panics Unmarshal can end in. *)
From Coq Require Import Strings.String Strings.Byte ZArith List Bool Lia Floats.SpecFloat.
From Verif Require Import Base GoTypes Strconv Tags Scan Decode Grammar Denote NumFacts ScanFacts SkipFacts
  Sound SoundT TextFacts Typing SliceHead.
Import ListNotations.
Open Scope Z_scope.

Lemma typed_kind E T U v : kind_of E T = kind_of E U -> typed E T v -> typed E U v.
Proof.
  intros Hk H. inversion H; subst; rewrite Hk in *;
    solve [econstructor; eauto | eapply ty_iface_nil; eauto | eapply ty_iface; eauto].
Qed.

(** ** Zero values are well typed *)
Lemma zero_f_typed E rank :
  (forall n d, nth_error E n = Some d ->
     (rank n <= length E)%nat /\
     forall m, In m (decl_names d) -> nth_error E m <> None -> (rank m < rank n)%nat) ->
  (forall n d t m, nth_error E n = Some d -> d_under d = UTy t -> t <> TName m) ->
  forall fuel t, (forall m, In m (by_value t) -> nth_error E m <> None -> (rank m < fuel)%nat) ->
  typed E t (zero_f fuel E t).
Proof.
  intros Hr Hn fuel. induction fuel as [fuel IHf] using lt_wf_ind.
  induction t as [| | | | | |t _|n t IHt|k _ v _|t _| |m| |n]; intros Hb; destruct fuel as [|f]; cbn [zero_f];
    try (econstructor; try reflexivity; try (unfold int_range, uint_range; destruct k; cbn; lia); fail).
  all: try (eapply ty_arr; [reflexivity|apply repeat_length|];
            apply Forall_forall; intros x Hx; apply repeat_spec in Hx as ->; apply IHt; exact Hb).
  - destruct (nth_error E n) eqn:En; [exfalso; assert (rank n < 0)%nat by (apply Hb; cbn; [auto|congruence]); lia|].
    apply ty_other. cbn. rewrite En. reflexivity.
  - destruct (nth_error E n) as [d|] eqn:En; [|apply ty_other; cbn; rewrite En; reflexivity].
    destruct (Hr n d En) as [_ Hlt].
    assert (rank n < S f)%nat as HnF by (apply Hb; cbn; [auto|congruence]).
    destruct (d_under d) as [fs|t'] eqn:Ed.
    + eapply ty_struct; [cbn; rewrite En, Ed; reflexivity|].
      assert (forall f0, In f0 fs -> typed E (f_ty f0) (zero_f f E (f_ty f0))) as Hfs.
      { intros f0 Hf0. apply IHf; [lia|]. intros m Hm Hd.
        assert (rank m < rank n)%nat; [|lia]. apply Hlt; [|exact Hd]. unfold decl_names. rewrite Ed.
        apply in_flat_map. eauto. }
      clear - Hfs. induction fs as [|f0 fs IH]; cbn; constructor; [apply Hfs; cbn; auto|]. apply IH. intros. apply Hfs. cbn; auto.
    + assert (typed E t' (zero_f f E t')) as Ht.
      { apply IHf; [lia|]. intros m Hm Hd. assert (rank m < rank n)%nat; [|lia]. apply Hlt; [|exact Hd].
        unfold decl_names. rewrite Ed. exact Hm. }
      assert (kind_of E (TName n) = kind_of E t') as Hk.
      { cbn [kind_of]. rewrite En, Ed. pose proof (Hn n d t') as Hnn. destruct t'; try reflexivity.
        exfalso. eapply Hnn; eauto. }
      eapply typed_kind; [symmetry; exact Hk|exact Ht].
Qed.
Lemma zero_typed E t : go_env E -> typed E t (zero E t).
Proof.
  intros [(rank & Hr) Hn]. apply (zero_f_typed E rank Hr Hn). intros m _ Hd.
  destruct (nth_error E m) as [d|] eqn:Em; [|congruence]. apply Hr in Em. lia.
Qed.

(** ** Scanners only panic on indexes *)
Definition rok {A} (r : R A) : Prop := match r with RPanic p => p = PIndex | _ => True end.
Lemma rok_bind {A B} (r : R A) (k : A -> R B) : rok r -> (forall a, rok (k a)) -> rok (bind r k).
Proof. destruct r; cbn; auto. Qed.
Lemma rok_rd buf c : rok (rd buf c).
Proof. unfold rd. destruct (0 <=? c); [destruct (nth_error _ _)|]; cbn; auto. Qed.
Lemma rok_sub buf i j : rok (sub buf i j).
Proof. unfold sub. destruct (_ && _); cbn; auto. Qed.
Lemma rok_scan_while p buf n : forall c, rok (scan_while p buf n c).
Proof.
  induction n as [|n IH]; intros c; cbn [scan_while]; [exact I|]. destruct (has_byte buf c); [|exact I].
  apply rok_bind; [apply rok_rd|]. intros b. destruct (p b); [apply IH|exact I].
Qed.
Ltac rokk :=
  repeat match goal with
  | |- rok (ROk _) => exact I
  | |- rok (RErr _) => exact I
  | |- rok RFuel => exact I
  | |- rok (rd _ _) => apply rok_rd
  | |- rok (sub _ _ _) => apply rok_sub
  | |- rok (scan_while _ _ _ _) => apply rok_scan_while
  | |- rok (bind _ _) => apply rok_bind; [|intros ?]
  | |- rok (if ?b then _ else _) => destruct b
  | |- rok (match ?o with Some _ => _ | None => _ end) => destruct o
  | |- rok (let '(_, _) := ?x in _) => destruct x
  | |- rok (let x := _ in _) => cbv zeta
  end; auto.
Lemma rok_skip_length buf c : rok (skip_length buf c). Proof. unfold skip_length. rokk. Qed.
Lemma rok_read_length buf c : rok (read_length buf c).
Proof. unfold read_length. apply rok_bind; [apply rok_skip_length|]. intros. rokk. Qed.
Lemma rok_class buf c : rok (skip_class_name buf c).
Proof.
  unfold skip_class_name. destruct (negb _); [exact I|]. apply rok_bind; [apply rok_rd|]. intros b. destruct (negb _); [exact I|].
  apply rok_bind; [apply rok_read_length|]. intros [l s]. rokk.
Qed.
Lemma rok_null buf c : rok (validate_null buf c). Proof. unfold validate_null. rokk. Qed.
Lemma rok_empty buf c : rok (validate_empty_array buf c). Proof. unfold validate_empty_array. rokk. Qed.
Lemma rok_read_string buf c : rok (read_string buf c).
Proof. unfold read_string. apply rok_bind; [apply rok_read_length|]. intros [l s]. rokk. Qed.
Lemma rok_integer buf c : rok (read_integer_bytes buf c). Proof. unfold read_integer_bytes. rokk. Qed.
Lemma rok_float buf c : rok (read_float_bytes buf c). Proof. unfold read_float_bytes. rokk. Qed.
Lemma rok_bool buf c : rok (read_bool buf c). Proof. unfold read_bool. rokk. Qed.
Lemma rok_read_int buf c : rok (read_int buf c).
Proof. unfold read_int. apply rok_bind; [apply rok_integer|]. intros [l s]. rokk. Qed.
Lemma rok_skip_entries skip : (forall c, rok (skip c)) -> forall n len c, rok (skip_entries skip n len c).
Proof. intros H n. induction n as [|n IH]; intros len c; cbn [skip_entries]; destruct (len <=? 0); try exact I. rokk; apply H. Qed.
Lemma rok_skip_value_f buf : forall fuel c d, rok (skip_value_f fuel buf c d).
Proof.
  induction fuel as [|f IH]; intros c d; cbn [skip_value_f]; [exact I|]. cbv zeta.
  assert (forall cur, rok (skip_array (fun c => skip_value_f f buf c (d + 1)) buf (cur + 1) (d + 1))) as A.
  { intros cur. unfold skip_array. destruct (_ <? _); [exact I|]. apply rok_bind; [apply rok_read_length|].
    intros [l s]. rokk. apply rok_skip_entries. auto. }
  destruct (negb _); [exact I|]. apply rok_bind; [apply rok_rd|]. intros b.
  destruct (b =b "O"%byte); [apply rok_bind; [apply rok_class|]; auto|].
  destruct (b =b "a"%byte); [auto|].
  destruct (b =b "s"%byte).
  { unfold skip_string. destruct (negb _); [exact I|]. apply rok_bind; [apply rok_rd|]. intros b0. destruct (negb _); [exact I|].
    apply rok_bind; [apply rok_read_string|]. intros [? ?]. exact I. }
  destruct (b =b "d"%byte). { apply rok_bind; [apply rok_float|]. intros [? ?]. exact I. }
  destruct (b =b "i"%byte). { unfold skip_int. apply rok_bind; [apply rok_integer|]. intros [? ?]. exact I. }
  destruct (b =b "b"%byte). { apply rok_bind; [apply rok_bool|]. intros ?. exact I. }
  destruct (b =b "N"%byte). { apply rok_bind; [apply rok_null|]. intros ?. exact I. }
  exact I.
Qed.
Lemma rok_skip_value buf c d : rok (skip_value buf c d). Proof. apply rok_skip_value_f. Qed.
Lemma rok_string_bytes buf c : rok (decode_string_bytes buf c).
Proof.
  unfold decode_string_bytes. rokk; try apply rok_null. apply rok_read_string.
Qed.
Lemma rok_int_bytes buf c : rok (decode_int_bytes buf c).
Proof. unfold decode_int_bytes. rokk; try apply rok_null. apply rok_integer. Qed.
Lemma rok_float_bytes buf c : rok (decode_float_bytes buf c).
Proof. unfold decode_float_bytes. rokk; try apply rok_null. apply rok_float. Qed.

(** ** Decoders: on success [Q], panics only on indexes *)
Definition okp {A} (r : A * R Z) (Q : A -> Prop) : Prop :=
  match snd r with ROk _ => Q (fst r) | RPanic p => p = PIndex | _ => True end.
Lemma okp_imp {A} (r : A * R Z) (P Q : A -> Prop) : okp r P -> (forall a, P a -> Q a) -> okp r Q.
Proof. unfold okp. destruct (snd r); auto. Qed.
Lemma okp_fail {A B} (r : R B) (a : A) Q : rok r -> (forall b, r <> ROk b) -> okp (a, fail r) Q.
Proof. intros H Hn. unfold okp. destruct r; cbn in *; auto. Qed.

Lemma okp_text rdt process rv (Q : gval -> Prop) :
  rok rdt -> Q rv -> (forall b c, okp (process b c rv) Q) -> okp (dec_text rdt process rv) Q.
Proof. intros Hr Hq Hp. unfold dec_text. destruct rdt as [[[b|] c]|e|p|]; cbn in *; auto. Qed.

Lemma map_set_all {K V : gval -> Prop} k v m : K k -> V v ->
  Forall (fun e => K (fst e) /\ V (snd e)) m -> Forall (fun e => K (fst e) /\ V (snd e)) (map_set k v m).
Proof.
  intros Hk Hv H. induction H as [|[k' v'] m [Hk' Hv'] Hm IH]; cbn [map_set]; [repeat constructor; auto|].
  destruct (key_eqb k' k); constructor; auto.
Qed.

Lemma map_loop_safe kd vd buf (K V : gval -> Prop) :
  (forall c, okp (kd c) (fun k => K k /\ hashable k = true)) -> (forall c, okp (vd c) V) ->
  forall n c m, Forall (fun e => K (fst e) /\ V (snd e)) m ->
  okp (map_loop kd vd buf n c m) (Forall (fun e => K (fst e) /\ V (snd e))).
Proof.
  intros Hk Hv n. induction n as [|n IH]; intros c m Hm; cbn [map_loop]; [exact I|].
  destruct (negb _); [exact I|]. pose proof (Hk c) as HK. destruct (kd c) as [k [c1|e|p|]]; unfold okp in HK; cbn [fst snd] in HK; try exact HK.
  destruct HK as [HK Hh].
  destruct (negb _); [exact I|]. pose proof (Hv c1) as HV. destruct (vd c1) as [v [c2|e|p|]]; unfold okp in HV; cbn [fst snd] in HV; try exact HV.
  rewrite Hh. cbn [negb]. assert (Forall (fun e => K (fst e) /\ V (snd e)) (map_set k v m)) as Hm' by (apply map_set_all; auto).
  destruct (negb _); [exact I|]. pose proof (rok_rd buf c2) as HR. destruct (rd buf c2); try exact HR.
  destruct (_ =b _); [exact Hm'|apply IH; exact Hm'].
Qed.

Lemma rok_map_header buf c d : rok (map_header buf c d).
Proof.
  unfold map_header. destruct (negb _); [exact I|]. apply rok_bind; [apply rok_rd|]. intros b.
  destruct (_ <? _); [exact I|]. destruct (b =b "N"%byte). { apply rok_bind; [apply rok_null|]. intros. exact I. }
  apply rok_bind. { destruct (b =b "O"%byte); [apply rok_bind; [apply rok_class|]; intros; exact I|]. destruct (_ =b _); exact I. }
  intros cur. apply rok_bind; [apply rok_read_length|]. intros [? ?]. rokk.
Qed.
Lemma rok_struct_header buf c d : rok (struct_header buf c d).
Proof.
  unfold struct_header. destruct (negb _); [exact I|]. apply rok_bind; [apply rok_rd|]. intros b.
  destruct (_ <? _); [exact I|]. destruct (b =b "N"%byte). { apply rok_bind; [apply rok_null|]. intros. exact I. }
  apply rok_bind. { destruct (b =b "O"%byte); [apply rok_bind; [apply rok_class|]; intros; exact I|]. destruct (_ =b _); exact I. }
  intros cur. rokk. apply rok_skip_length.
Qed.
Lemma rok_array_header buf c d : rok (array_header buf c d).
Proof.
  unfold array_header, seq_header. rokk; try apply rok_null; try apply rok_empty. apply rok_read_length.
Qed.
Lemma rok_slice_header buf c d : rok (slice_header buf c d).
Proof.
  destruct (slice_header_cases buf c d) as [->|(e0 & -> & _)]; [apply rok_array_header|exact I].
Qed.

Lemma dec_map_safe kd vd buf c d o (K V : gval -> Prop) (Q : gval -> Prop) :
  (forall c, okp (kd c) (fun k => K k /\ hashable k = true)) -> (forall c, okp (vd c) V) ->
  Q (VMap None) -> (forall m, Forall (fun e => K (fst e) /\ V (snd e)) m -> Q (VMap (Some m))) ->
  (match o with Some m => Forall (fun e => K (fst e) /\ V (snd e)) m | None => True end) ->
  okp (dec_map kd vd buf c d (VMap o)) Q.
Proof.
  intros Hk Hv Q0 Q1 Ho. unfold dec_map. pose proof (rok_map_header buf c d) as HH.
  destruct (map_header buf c d) as [[c'|c']|e|p|]; try exact HH; [exact Q0|].
  assert (Forall (fun e => K (fst e) /\ V (snd e)) (match o with None => [] | Some m => m end)) as Hm by (destruct o; auto).
  destruct (negb _); [exact I|]. pose proof (rok_rd buf c') as HR. destruct (rd buf c'); try exact HR.
  destruct (_ =b _); [exact (Q1 _ Hm)|].
  pose proof (map_loop_safe kd vd buf K V Hk Hv (length buf) c' _ Hm) as L.
  destruct (map_loop _ _ _ _ _ _) as [m' [c2|e|p|]]; unfold okp in *; cbn [fst snd] in *; auto.
Qed.

Section Any.
  Context (X : Ext) (E : env) (buf : bytes).

  Lemma any_key_safe c : okp (dec_any_key buf c) (fun k => typed E TAny k /\ hashable k = true).
  Proof.
    unfold dec_any_key. pose proof (rok_rd buf c) as HR. destruct (rd buf c); try exact HR.
    destruct (_ =b _).
    - unfold dec_string, dec_text. pose proof (rok_string_bytes buf c) as HS. destruct (decode_string_bytes buf c) as [[[b|] c1]|e|p|]; cbn in *; auto;
        (split; [eapply ty_any; [reflexivity|eapply ty_str; reflexivity]|reflexivity]).
    - destruct (_ =b _); [|exact I]. unfold dec_int, dec_text. pose proof (rok_int_bytes buf c) as HS.
      destruct (decode_int_bytes buf c) as [[[b|] c1]|e|p|]; cbn in *; auto.
      + unfold process_int. destruct (parse_int64 b) as [z|]; [|exact I]. destruct (_ || _) eqn:Er; [exact I|].
        apply orb_false_iff in Er. rewrite !Z.ltb_ge in Er. cbn in *.
        split; [eapply ty_any; [reflexivity|eapply ty_int; [reflexivity|unfold int_range; cbn; lia]]|reflexivity].
      + split; [eapply ty_any; [reflexivity|eapply ty_int; [reflexivity|unfold int_range; cbn; lia]]|reflexivity].
  Qed.

  Definition any_safe (r : R (option (gty * gval) * Z)) : Prop :=
    match r with ROk (o, _) => typed E TAny (VIface o) | RPanic p => p = PIndex | _ => True end.

  Lemma any_f_safe : forall fuel c d, any_safe (dec_any_f X fuel buf c d).
  Proof.
    induction fuel as [|f IH]; intros c d; cbn [dec_any_f]; [exact I|]. cbv zeta.
    set (vd := fun c0 : Z => match dec_any_f X f buf c0 (d + 1) return dres with
             | ROk (o, c') => (VIface o, ROk c') | r => (VIface None, fail r) end).
    assert (forall c, okp (vd c) (typed E TAny)) as Hvd.
    { intros c0. subst vd. cbn beta. pose proof (IH c0 (d + 1)) as H. destruct (dec_any_f X f buf c0 (d + 1)) as [[o c1]|e|p|]; cbn in *; auto. }
    pose proof (rok_rd buf c) as HR. destruct (rd buf c) as [b|e|p|]; try exact HR. cbn [bind].
    assert (forall T t r, kind_of E T = t -> okp r (typed E T) ->
      any_safe (match r with (v, ROk c) => ROk (Some (T, v), c) | (_, r) => fail r end)) as W.
    { intros T t [v [c1|e|p|]] Ht Hr; unfold okp in Hr; cbn in *; auto. eapply ty_any; [reflexivity|exact Hr]. }
    destruct (b =b "O"%byte).
    { eapply W; [reflexivity|]. eapply dec_map_safe with (K := typed E TString) (V := typed E TAny); auto.
      - intros c0. eapply okp_imp with (P := fun k => typed E TString k /\ hashable k = true); auto.
        unfold dec_string. apply okp_text; [apply rok_string_bytes|split; [eapply ty_str|]; reflexivity|].
        intros. cbn. split; [eapply ty_str|]; reflexivity.
      - eapply ty_map_nil; reflexivity.
      - intros m Hm. eapply ty_map; [reflexivity|exact Hm]. }
    destruct (b =b "a"%byte).
    { eapply W; [reflexivity|]. eapply dec_map_safe with (K := typed E TAny) (V := typed E TAny); auto.
      - intros c0. apply any_key_safe.
      - eapply ty_map_nil; reflexivity.
      - intros m Hm. eapply ty_map; [reflexivity|exact Hm]. }
    destruct (b =b "d"%byte).
    { eapply W; [reflexivity|]. unfold dec_float. apply okp_text; [apply rok_float_bytes|eapply ty_f64; reflexivity|].
      intros. unfold process_float. destruct (parse_float X _); [|exact I]. eapply ty_f64; reflexivity. }
    destruct (b =b "s"%byte).
    { pose proof (rok_read_string buf (c + 1)) as HS. destruct (read_string buf (c + 1)) as [[s c1]|e|p|]; cbn in *; auto.
      eapply ty_any; [reflexivity|eapply ty_str; reflexivity]. }
    destruct (b =b "i"%byte).
    { eapply W; [reflexivity|]. unfold dec_int. apply okp_text; [apply rok_int_bytes|eapply ty_int; [reflexivity|unfold int_range; cbn; lia]|].
      intros. unfold process_int. destruct (parse_int64 _) as [z|]; [|exact I]. destruct (_ || _) eqn:Er; [exact I|].
      apply orb_false_iff in Er. rewrite !Z.ltb_ge in Er. cbn in *. eapply ty_int; [reflexivity|unfold int_range; cbn; lia]. }
    destruct (b =b "b"%byte).
    { pose proof (rok_bool buf c) as HS. destruct (read_bool buf c) as [v|e|p|]; cbn in *; auto.
      eapply ty_any; [reflexivity|eapply ty_bool; reflexivity]. }
    destruct (b =b "N"%byte); [|exact I].
    pose proof (rok_null buf c) as HS. destruct (validate_null buf c) as [v|e|p|]; cbn in *; auto.
    eapply ty_any_nil; reflexivity.
  Qed.
  Lemma any_safe_top c d : any_safe (dec_any X buf c d).
  Proof. apply any_f_safe. Qed.
End Any.


Lemma hash_typed E T : hash_ty E T -> forall v, typed E T v -> hashable v = true.
Proof.
  revert T. fix IH 2. intros T H v Hv. destruct H as [T Hs|T t Hk|T n t Hk Ht|T id fs Hk Hf].
  - destruct Hv as [? ? Hk|? ? ? Hk|? ? ? Hk|? ? Hk|? ? Hk|? ? Hk|? ? Hk|? ? ? Hk|? ? ? ? Hk|? ? ? Hk|? ? ? ? Hk|? ? Hk|? ? ? Hk|? Hk|? ? ? Hk|? ? Hk|? ? ? ? Hk|? ? ? ? Hk|? Hk];
      rewrite Hk in Hs; try discriminate; reflexivity.
  - inversion Hv; subst; try congruence; reflexivity.
  - assert (exists l, v = VArr l /\ Forall (typed E t) l) as (l & -> & Hl).
    { inversion Hv; subst; try congruence. match goal with HA : Forall (typed E ?u) ?l |- _ => replace u with t in HA by congruence; eauto end. }
    cbn [hashable]. clear - IH Ht Hl. induction Hl as [|x l Hx Hl IHl]; [reflexivity|]. cbn [forallb]. rewrite (IH t Ht x Hx), IHl. reflexivity.
  - assert (exists l, v = VStruct l /\ Forall2 (fun f v => typed E (f_ty f) v) fs l) as (l & -> & Hl).
    { inversion Hv; subst; try congruence. match goal with HA : Forall2 _ ?u ?l |- _ => replace u with fs in HA by congruence; eauto end. }
    cbn [hashable]. clear - IH Hf Hl. revert l Hl. induction Hf as [|f fs Hf0 Hf IHf]; intros l Hl; inversion Hl; subst; [reflexivity|].
    cbn [forallb]. rewrite (IH (f_ty f) Hf0 y H1), (IHf l'); auto.
Qed.

(** ** Typed destinations *)
Section Safe.
  Context (X : Ext) (E : env) (buf : bytes) (T0 : gty).
  Hypothesis Henv : go_env E.
  Hypothesis Huser : user_ok X E.
  Hypothesis Hsmall : small buf.
  Hypothesis Hkeys : keys_safe E T0.
  Hypothesis Halloc : allocatable X E T0 buf.

  Lemma dec_bool_safe c rv T : kind_of E T = KBool -> typed E T rv -> okp (dec_bool buf c rv) (typed E T).
  Proof.
    intros Hk Hv. unfold dec_bool. destruct (negb _); [exact I|]. pose proof (rok_rd buf c) as HR. destruct (rd buf c); try exact HR.
    destruct (_ =b _).
    - pose proof (rok_bool buf c) as HB. destruct (read_bool buf c); cbn in *; auto. eapply ty_bool; auto.
    - destruct (_ =b _); [|exact I]. pose proof (rok_null buf c) as HB. destruct (validate_null buf c); cbn in *; auto.
  Qed.
  Lemma process_int_safe k b c rv T : kind_of E T = KInt k -> okp (process_int k b c rv) (typed E T).
  Proof.
    intros Hk. unfold process_int. destruct (parse_int64 b) as [z|]; [|exact I]. destruct (_ || _) eqn:Er; [exact I|].
    apply orb_false_iff in Er. rewrite !Z.ltb_ge in Er. cbn. eapply ty_int; [eauto|unfold int_range; lia].
  Qed.
  Lemma process_uint_safe k b c rv T : kind_of E T = KUint k -> okp (process_uint k b c rv) (typed E T).
  Proof.
    intros Hk. unfold process_uint. destruct (parse_uint64 b) as [z|] eqn:Ep; [|exact I]. destruct (_ <? _) eqn:Er; [exact I|].
    rewrite Z.ltb_ge in Er. apply parse_uint64_iff in Ep as (Hn & -> & _). pose proof (num_nonneg b (proj2 Hn)).
    cbn. eapply ty_uint; [eauto|unfold uint_range; lia].
  Qed.
  Lemma process_f64_safe b c rv T : kind_of E T = KF64 -> okp (process_float X false b c rv) (typed E T).
  Proof. intros Hk. unfold process_float. destruct (parse_float X b); [|exact I]. eapply ty_f64; auto. Qed.
  Lemma process_f32_safe b c rv T : kind_of E T = KF32 -> okp (process_float X true b c rv) (typed E T).
  Proof. intros Hk. unfold process_float. destruct (parse_float X b); [|exact I]. destruct (overflow_f32 _); [exact I|]. eapply ty_f32; auto. Qed.

  Lemma dec_string_safe c rv T : kind_of E T = KString -> typed E T rv -> okp (dec_string buf c rv) (typed E T).
  Proof. intros Hk Hv. apply okp_text; [apply rok_string_bytes|exact Hv|]. intros. eapply ty_str; auto. Qed.
  Lemma dec_int_safe k c rv T : kind_of E T = KInt k -> typed E T rv -> okp (dec_int k buf c rv) (typed E T).
  Proof. intros Hk Hv. apply okp_text; [apply rok_int_bytes|exact Hv|]. intros. apply process_int_safe; auto. Qed.
  Lemma dec_uint_safe k c rv T : kind_of E T = KUint k -> typed E T rv -> okp (dec_uint k buf c rv) (typed E T).
  Proof. intros Hk Hv. apply okp_text; [apply rok_int_bytes|exact Hv|]. intros. apply process_uint_safe; auto. Qed.
  Lemma dec_f64_safe c rv T : kind_of E T = KF64 -> typed E T rv -> okp (dec_float X false buf c rv) (typed E T).
  Proof. intros Hk Hv. apply okp_text; [apply rok_float_bytes|exact Hv|]. intros. apply process_f64_safe; auto. Qed.
  Lemma dec_f32_safe c rv T : kind_of E T = KF32 -> typed E T rv -> okp (dec_float X true buf c rv) (typed E T).
  Proof. intros Hk Hv. apply okp_text; [apply rok_float_bytes|exact Hv|]. intros. apply process_f32_safe; auto. Qed.

  Lemma dec_iface_any_safe c d rv T : kind_of E T = KAny -> okp (dec_iface_any X buf c d rv) (typed E T).
  Proof.
    intros Hk. unfold dec_iface_any. pose proof (any_safe_top X E buf c d) as H. destruct (dec_any X buf c d) as [[o c1]|e|p|]; cbn in *; auto.
    eapply typed_kind; [|exact H]. auto.
  Qed.

  Lemma rok_span c d : rok (cend <- skip_value buf c d ;; src <- sub buf c cend ;; ROk (src, cend)).
  Proof. apply rok_bind; [apply rok_skip_value|]. intros. rokk. Qed.

  Lemma dec_unm_safe n c d rv T : has_unmarshal E T = Some n -> okp (dec_unm X E n buf c d rv) (typed E T).
  Proof.
    intros Hu. apply has_unmarshal_name in Hu as ->. unfold dec_unm. pose proof (rok_span c d) as HS.
    destruct (bind (skip_value buf c d) _) as [[src cend]|e|p|]; cbn in HS; try exact HS. cbv zeta.
    set (go := match x_unmarshal X n _ _ with (v, true) => _ | (_, false) => _ end).
    assert (okp go (typed E (TName n))) as G.
    { subst go. pose proof (Huser n (unquoted X src) (zero E (TName n)) (zero_typed E _ Henv)) as HU.
      destruct (x_unmarshal X n _ _) as [v []]; cbn in *; auto. }
    destruct src; [exact G|]. destruct (_ || _); [exact I|]. destruct (_ && _); [cbn; apply zero_typed; exact Henv|exact G].
  Qed.

  Lemma dec_iface_safe m c d rv T : kind_of E T = KIface m -> typed E T rv -> okp (dec_iface X E buf c d rv) (typed E T).
  Proof.
    intros Hk Hv. unfold dec_iface.
    set (pl := match rd buf c with ROk c0 => _ | _ => _ end).
    assert (okp pl (typed E T)) as G.
    { subst pl. pose proof (rok_rd buf c) as HR. destruct (rd buf c); try exact HR. destruct (_ =b _); [|exact I].
      pose proof (rok_null buf c) as HB. destruct (validate_null buf c); cbn in *; auto. eapply ty_iface_nil; eauto. }
    destruct rv as [| | | | | | | | | |o| |]; try exact G. destruct o as [[t v]|]; [|exact G]. destruct t; try exact G. destruct v; try exact G.
    destruct (has_unmarshal E t) as [n|] eqn:Hu; [|exact G].
    pose proof (rok_span c d) as HS. destruct (bind (skip_value buf c d) _) as [[src cend]|e|p|]; cbn in HS; try exact HS.
    destruct (bytes_eqb _ _); [cbn; eapply ty_iface_nil; eauto|].
    assert (exists old, o = Some old /\ typed E t old) as (old & -> & Hold).
    { inversion Hv as [| | | | | | | | | | | | | |? ? ? Hk'|? ? Hk'|? ? ? ? Hk' Ht Hnn| |]; subst; [congruence|].
      inversion Ht as [| | | | | | | | | | |? ? Hkp|? ? ? Hkp Hto| | | | | |]; subst; [congruence|]. cbn in Hkp. injection Hkp as <-. eauto. }
    pose proof (Huser n (unquoted X src) old) as HU. apply has_unmarshal_name in Hu as ->. specialize (HU Hold).
    destruct (x_unmarshal X n _ old) as [new []]; cbn in *; auto.
    eapply ty_iface; [eauto|eapply ty_ptr; [reflexivity|exact HU]|discriminate].
  Qed.

  Lemma dec_key_safe k c d : safe_key E k -> okp (dec_key X E k buf c d) (fun w => typed E k w /\ hashable w = true).
  Proof.
    intros Hk. unfold safe_key in Hk. unfold dec_key, key_node. pose proof (zero_typed E k Henv) as Hz.
    destruct (has_unmarshal E k) as [n|] eqn:Hu.
    { eapply okp_imp; [apply dec_unm_safe; exact Hu|]. intros w Hw. split; [exact Hw|]. eapply hash_typed; eauto. }
    unfold node_of. rewrite Hu. destruct (kind_of E k) eqn:Ek; try destruct Hk; cbn iota; try exact I.
    - eapply okp_imp; [eapply dec_bool_safe; eauto|]. intros w Hw. split; [exact Hw|]. eapply hash_typed; [|exact Hw]. apply ht_scalar. rewrite Ek. reflexivity.
    - eapply okp_imp; [eapply dec_int_safe; eauto|]. intros w Hw. split; [exact Hw|]. eapply hash_typed; [|exact Hw]. apply ht_scalar. rewrite Ek. reflexivity.
    - eapply okp_imp; [eapply dec_uint_safe; eauto|]. intros w Hw. split; [exact Hw|]. eapply hash_typed; [|exact Hw]. apply ht_scalar. rewrite Ek. reflexivity.
    - eapply okp_imp; [eapply dec_string_safe; eauto|]. intros w Hw. split; [exact Hw|]. eapply hash_typed; [|exact Hw]. apply ht_scalar. rewrite Ek. reflexivity.
    - destruct (kind_of E t) as [| |[]| | | | | | | | | | |]; exact I.
    - assert (zero E k = VIface None) as ->.
      { inversion Hz; subst; congruence || auto. unfold zero in *. clear - H Hz Ek.
        assert (forall fuel t u w, zero_f fuel E t <> VIface (Some (u, w))) as N; [|exfalso; eapply N; symmetry; exact H].
        clear. induction fuel as [|f IH]; intros t u w; destruct t; cbn; try discriminate. destruct (nth_error E n) as [dd|]; [|discriminate].
        destruct (d_under dd); [discriminate|]. apply IH. }
      unfold dec_iface. pose proof (rok_rd buf c) as HR. destruct (rd buf c); try exact HR. destruct (_ =b _); [|exact I].
      pose proof (rok_null buf c) as HB. destruct (validate_null buf c); cbn in *; auto. split; [eapply ty_iface_nil; eauto|reflexivity].
  Qed.

  (** numbers scanned from the buffer are written in it *)
  Lemma int_text_written t i pre post : buf = pre ++ t ++ post -> int_text t i -> 0 <= i -> written buf i.
  Proof.
    intros Hb Ht Hi. destruct Ht as [ds Hd|ds Hd].
    - exists pre, ds, post. auto.
    - pose proof (num_nonneg ds (proj2 Hd)). exists (pre ++ ["-"%byte]), ds, post. rewrite Hb, <- !app_assoc. cbn. repeat split; auto; try apply Hd. lia.
  Qed.
  Lemma read_int_written c i c' : read_int buf c = ROk (i, c') -> 0 <= i /\ written buf i.
  Proof.
    intros H.
    assert (0 <= c <= blen buf) as Hc.
    { unfold read_int, read_integer_bytes in H. destruct (has_byte buf c) eqn:Hb; cbn in H; [|discriminate].
      unfold has_byte in Hb. apply andb_true_iff in Hb as [H1 H2]. apply Z.leb_le in H1. apply Z.ltb_lt in H2. lia. }
    destruct (pos_ex buf c Hc) as [s Hs]. pose proof (read_int_out buf c s Hs) as O. rewrite H in O. cbn in O.
    destruct O as (t & s' & Ht & Hi & -> & Hp). split; [lia|]. destruct Hs as (pre & Hb & _).
    eapply int_text_written with (pre := pre ++ ["i"%byte; ":"%byte]) (post := ";"%byte :: s'); [|exact Ht|lia].
    rewrite Hb, <- !app_assoc. reflexivity.
  Qed.
  Lemma sub_split i j t : sub buf i j = ROk t -> exists pre post, buf = pre ++ t ++ post.
  Proof.
    unfold sub. destruct (_ && _); [|discriminate]. intros H. injection H as <-.
    exists (firstn (Z.to_nat i) buf), (skipn (Z.to_nat (j - i)) (skipn (Z.to_nat i) buf)). rewrite !firstn_skipn. reflexivity.
  Qed.
  Lemma read_length_written c n c' : read_length buf c = ROk (n, c') -> written buf n.
  Proof.
    unfold read_length. destruct (skip_length buf c) as [cend|e|p|]; cbn [bind]; try discriminate.
    destruct (sub buf (c + 1) (cend - 1)) as [ds|e|p|] eqn:Es; cbn [bind]; try discriminate.
    destruct (parse_int64 ds) as [l|] eqn:Ep; [|discriminate]. destruct (l <? 0) eqn:El; [discriminate|]. intros H. injection H as -> ->.
    apply sub_split in Es as (pre & post & Hb). apply parse_int64_some in Ep as [Ht _]. apply Z.ltb_ge in El.
    eapply int_text_written; eauto.
  Qed.
  Lemma array_header_written c d n c' : array_header buf c d = ROk (AhBody n c') -> written buf n.
  Proof.
    unfold array_header, seq_header. destruct (negb _); [discriminate|]. destruct (rd buf c) as [b|e|p|]; cbn [bind]; try discriminate.
    destruct (_ <? _); [discriminate|]. destruct (b =b "N"%byte).
    { destruct (validate_null buf c); cbn [bind]; discriminate. }
    destruct (b =b "a"%byte); [|discriminate]. cbv zeta. destruct (negb _); [discriminate|].
    destruct (rd buf (c + 1)) as [b1|e|p|]; cbn [bind]; try discriminate. destruct (negb _); [discriminate|]. destruct (negb _); [discriminate|].
    destruct (rd buf (c + 1 + 1)) as [b2|e|p|]; cbn [bind]; try discriminate. destruct (_ =b _).
    { destruct (validate_empty_array buf (c + 1 + 1)); cbn [bind]; discriminate. }
    unfold read_length_int. destruct (read_length buf (c + 1 + 1 - 1)) as [[l cend]|e|p|] eqn:Er; cbn [bind]; try discriminate.
    destruct (negb _); [discriminate|]. destruct (rd buf cend); cbn [bind]; try discriminate. destruct (negb _); [discriminate|].
    intros H. injection H as -> <-. eapply read_length_written; eauto.
  Qed.
  Lemma slice_header_written c d n c' : slice_header buf c d = ROk (AhBody n c') -> written buf n.
  Proof. intros H. apply slice_header_ok in H. eapply array_header_written; exact H. Qed.

  Lemma Forall_update {A} (P : A -> Prop) l i a : Forall P l -> P a -> Forall P (update l i a).
  Proof. intros H. revert i. induction H as [|x l Hx Hl IH]; intros [|i] Ha; cbn; constructor; auto. Qed.
  Lemma update_length {A} (l : list A) i a : length (update l i a) = length l.
  Proof. revert i. induction l as [|x l IH]; intros [|i]; cbn; auto. Qed.
  Lemma nth_typed et l i : Forall (typed E et) l -> (i < length l)%nat -> typed E et (nth i l VOther).
  Proof. intros H Hi. rewrite Forall_forall in H. apply H. apply nth_In. exact Hi. Qed.

  Lemma slice_loop_safe U et ed : inside E T0 U -> plain E U (KSlice et) ->
    (forall c v, typed E et v -> okp (ed c v) (typed E et)) ->
    forall n c l rv, Forall (typed E et) l -> okp (slice_loop X E et ed buf n c l rv) (typed E U).
  Proof.
    intros HU Hp He n. induction n as [|n IH]; intros c l rv Hl; cbn [slice_loop]; [exact I|]. cbv zeta.
    assert (forall l' c', Forall (typed E et) l' -> okp (if negb (has_byte buf c') then (VSlice (Some l'), RErr (ESyntax c' (WEnd "array"))) else match rd buf c' with ROk b => if b =b "}"%byte then (VSlice (Some l'), ROk (c' + 1)) else slice_loop X E et ed buf n c' l' (VSlice (Some l')) | r => (VSlice (Some l'), fail r) end) (typed E U)) as HC.
    { intros l' c' Hl'. destruct (negb _); [exact I|]. pose proof (rok_rd buf c') as HR. destruct (rd buf c'); try exact HR.
      destruct (_ =b _); [cbn; eapply ty_slice; [apply Hp|exact Hl']|apply IH; exact Hl']. }
    destruct (negb _); [exact I|]. pose proof (rok_read_int buf c) as HI. destruct (read_int buf c) as [[idx c1]|e|p|] eqn:Ei; try exact HI.
    apply read_int_written in Ei as [Hi0 Hw]. destruct (Halloc U et idx HU Hp Hw) as (Hmx & _ & Hsl).
    destruct (negb _); [exact I|]. destruct (idx <? blen l) eqn:El.
    - apply Z.ltb_lt in El. rewrite index_ok by lia. pose proof (He c1 (nth (Z.to_nat idx) l VOther) (nth_typed et l (Z.to_nat idx) Hl ltac:(unfold blen in El; lia))) as HE.
      destruct (ed c1 _) as [v [c2|e|p|]]; unfold okp in HE; cbn [fst snd] in HE; try exact HE. apply HC. apply Forall_update; auto.
    - rewrite wrap64_id by (unfold min_int64; lia). rewrite Hsl.
      replace (idx + 1 <? 0) with false by (symmetry; apply Z.ltb_ge; lia). cbn [orb negb]. rewrite index_ok by lia.
      pose proof (He c1 (zero E et) (zero_typed E et Henv)) as HE.
      destruct (ed c1 _) as [v [c2|e|p|]]; unfold okp in HE; cbn [fst snd] in HE; try exact HE. apply HC.
      apply Forall_app. split; [exact Hl|]. apply Forall_app. split; [|auto].
      apply Forall_forall. intros x Hx. apply repeat_spec in Hx as ->. apply zero_typed. exact Henv.
  Qed.
  Lemma dec_slice_safe U et ed c d rv : inside E T0 U -> plain E U (KSlice et) ->
    (forall c v, typed E et v -> okp (ed c v) (typed E et)) ->
    okp (dec_slice X E et ed buf c d rv) (typed E U).
  Proof.
    intros HU Hp He. unfold dec_slice. pose proof (rok_slice_header buf c d) as HR.
    destruct (slice_header buf c d) as [[c1|c1|len c1]|e|p|] eqn:Eh; try exact HR.
    - eapply ty_slice_nil. apply Hp.
    - eapply ty_slice_nil. apply Hp.
    - apply slice_header_written in Eh. destruct (Halloc U et len HU Hp Eh) as (_ & -> & _). cbn [negb].
      eapply slice_loop_safe; eauto.
  Qed.

  Lemma array_loop_safe et ed d : (forall c v, typed E et v -> okp (ed c v) (typed E et)) ->
    forall n c l, Forall (typed E et) l ->
    okp (array_loop ed buf d n c l) (fun l' => length l' = length l /\ Forall (typed E et) l').
  Proof.
    intros He n. induction n as [|n IH]; intros c l Hl; cbn [array_loop]; [exact I|]. cbv zeta.
    assert (forall l' c', length l' = length l -> Forall (typed E et) l' ->
      okp (if negb (has_byte buf c') then (l', RErr (ESyntax c' (WEnd "array"))) else match rd buf c' with ROk b => if b =b "}"%byte then (l', ROk (c' + 1)) else array_loop ed buf d n c' l' | r => (l', fail r) end) (fun l' => length l' = length l /\ Forall (typed E et) l')) as HC.
    { intros l' c' Hlen Hl'. destruct (negb _); [exact I|]. pose proof (rok_rd buf c') as HR. destruct (rd buf c'); try exact HR.
      destruct (_ =b _); [cbn; auto|]. eapply okp_imp; [apply IH; exact Hl'|]. intros l2 [H1 H2]. split; [congruence|exact H2]. }
    destruct (negb _); [exact I|]. pose proof (rok_read_int buf c) as HI. destruct (read_int buf c) as [[idx c1]|e|p|] eqn:Ei; try exact HI.
    apply read_int_written in Ei as [Hi0 _]. destruct (negb _); [exact I|]. destruct (idx <? blen l) eqn:El.
    - apply Z.ltb_lt in El. rewrite index_ok by lia. pose proof (He c1 (nth (Z.to_nat idx) l VOther) (nth_typed et l (Z.to_nat idx) Hl ltac:(unfold blen in El; lia))) as HE.
      destruct (ed c1 _) as [v [c2|e|p|]]; unfold okp in HE; cbn [fst snd] in HE; try exact HE.
      apply HC; [apply update_length|apply Forall_update; auto].
    - pose proof (rok_skip_value buf c1 d) as HS. destruct (skip_value buf c1 d); try exact HS. apply HC; auto.
  Qed.

  Lemma Forall2_update fs l i f v : Forall2 (fun f v => typed E (f_ty f) v) fs l -> nth_error fs i = Some f ->
    typed E (f_ty f) v -> Forall2 (fun f v => typed E (f_ty f) v) fs (update l i v).
  Proof.
    intros H. revert i. induction H as [|f0 v0 fs l H0 H IH]; intros [|i] Hi Hv; cbn in *; try discriminate; constructor; auto.
    injection Hi as <-. exact Hv.
  Qed.
  Lemma Forall2_nth fs l i f : Forall2 (fun f v => typed E (f_ty f) v) fs l -> nth_error fs i = Some f ->
    exists v, nth_error l i = Some v /\ typed E (f_ty f) v.
  Proof.
    intros H. revert i. induction H as [|f0 v0 fs l H0 H IH]; intros [|i] Hi; cbn in *; try discriminate; eauto.
    injection Hi as <-. eauto.
  Qed.
  Lemma lookup_from_spec fs : forall i k j f, lookup_from X i fs k = Some (j, f) ->
    exists j', j = (i + j')%nat /\ nth_error fs j' = Some f /\ is_ignored f = false /\ field_key X f = k.
  Proof.
    induction fs as [|f0 fs IH]; intros i k j f H; cbn in H; [discriminate|].
    destruct (negb (is_ignored f0) && bytes_eqb (field_key X f0) k) eqn:Eb.
    - injection H as <- <-. apply andb_true_iff in Eb as [E1 E2]. apply bytes_eqb_eq in E2. apply negb_true_iff in E1.
      exists 0%nat. repeat split; auto; lia.
    - apply IH in H as (j' & -> & Hn & Hi & Hk). exists (S j'). repeat split; auto; lia.
  Qed.

  Lemma struct_loop_safe fs fd d :
    (forall k i f str c v, In f fs -> is_ignored f = false -> typed E (f_ty f) v ->
       okp (fd (FDec k i (f_ty f) str) c v) (typed E (f_ty f))) ->
    forall n c l, Forall2 (fun f v => typed E (f_ty f) v) fs l ->
    okp (struct_loop (field_decs X E 0 fs) fd buf d n c l) (Forall2 (fun f v => typed E (f_ty f) v) fs).
  Proof.
    intros Hf n. induction n as [|n IH]; intros c l Hl; cbn [struct_loop]; [exact I|]. cbv zeta.
    assert (forall l' c', Forall2 (fun f v => typed E (f_ty f) v) fs l' ->
      okp (if negb (has_byte buf c') then (l', RErr (ESyntax c' (WEnd "object"))) else match rd buf c' with ROk b => if b =b "}"%byte then (l', ROk (c' + 1)) else struct_loop (field_decs X E 0 fs) fd buf d n c' l' | r => (l', fail r) end) (Forall2 (fun f v => typed E (f_ty f) v) fs)) as HC.
    { intros l' c' Hl'. destruct (negb _); [exact I|]. pose proof (rok_rd buf c') as HR. destruct (rd buf c'); try exact HR.
      destruct (_ =b _); [cbn; auto|]. apply IH. exact Hl'. }
    destruct (negb _); [exact I|]. pose proof (rok_string_bytes buf c) as HS.
    destruct (decode_string_bytes buf c) as [[key c1]|e|p|]; try exact HS. destruct (negb _); [exact I|].
    rewrite find_field_lookup.
    destruct (lookup_from X 0 fs _) as [[j f]|] eqn:El.
    - apply lookup_from_spec in El as (j' & -> & Hn & Hi & Hk). cbn [Nat.add fd_idx].
      destruct (Forall2_nth _ _ _ _ Hl Hn) as (v0 & -> & Hv0).
      pose proof (nth_error_In _ _ Hn) as HIn.
      match goal with |- context [fd ?d c1 v0] => pose proof (Hf (fd_key d) (fd_idx d) f (fd_str d) c1 v0 HIn Hi Hv0) as HF end.
      cbn [fd_key fd_idx fd_str] in HF. destruct (fd _ c1 v0) as [v [c2|e|p|]]; unfold okp in HF; cbn [fst snd] in HF; try exact HF.
      apply HC. eapply Forall2_update; eauto.
    - pose proof (rok_skip_value buf c1 d) as HV. destruct (skip_value buf c1 d); try exact HV. apply HC. exact Hl.
  Qed.

  Lemma wrapped_safe T c rv : typed E T rv -> okp (dec_wrapped X (node_of E T) buf c rv) (typed E T).
  Proof.
    intros Hv. unfold dec_wrapped. apply okp_text; [apply rok_string_bytes|exact Hv|]. intros b c1.
    assert (forall (r : dres) Q, okp r Q -> okp (match r with (v, ROk _) => (v, ROk c1) | r => r end) Q) as K.
    { intros [v [c0|e|p|]] Q H; exact H. }
    unfold node_of. destruct (has_unmarshal E T); [exact I|].
    destruct (kind_of E T) as [| | | | | |t'| | | | | | |] eqn:Ek; try exact I.
    - destruct (parse_bool b); [|exact I]. eapply ty_bool; auto.
    - apply K, process_int_safe; auto.
    - apply K, process_uint_safe; auto.
    - apply K, process_f32_safe; auto.
    - apply K, process_f64_safe; auto.
    - destruct (kind_of E t') as [| |[]| | | | | | | | | | |]; exact I.
  Qed.

  Lemma dec_ptr_safe T t ed c rv : kind_of E T = KPtr t -> typed E T rv ->
    (forall c v, typed E t v -> okp (ed c v) (typed E t)) ->
    okp (dec_ptr E t ed buf c rv) (typed E T).
  Proof.
    intros Hk Hv He. unfold dec_ptr. pose proof (rok_rd buf c) as HR. destruct (rd buf c); try exact HR.
    destruct (_ =b _).
    { pose proof (rok_null buf c) as HN. destruct (validate_null buf c); cbn in *; auto. eapply ty_ptr_nil; eauto. }
    assert (exists o, rv = VPtr o /\ typed E t (match o with Some v => v | None => zero E t end)) as (o & -> & Ho).
    { inversion Hv; subst; try congruence.
      - exists None. split; [reflexivity|]. apply zero_typed. exact Henv.
      - match goal with HH : typed E ?u ?v |- exists o, VPtr (Some ?v) = _ /\ _ => replace u with t in HH by congruence; exists (Some v); auto end. }
    pose proof (He c _ Ho) as HE. destruct (ed c _) as [v [c1|e|p|]]; unfold okp in *; cbn [fst snd] in *; auto. eapply ty_ptr; eauto.
  Qed.

  Lemma decode_f_safe : forall fuel T c d rv, inside E T0 T -> typed E T rv ->
    okp (decode_f X E fuel T buf c d rv) (typed E T).
  Proof.
    induction fuel as [|f IH]; intros T c d rv HT Hv; cbn [decode_f]; [exact I|]. cbv zeta.
    pose proof (node_plain E T) as NP.
    destruct (node_of E T) as [n|t|id fs|t|t|n t|kt vt| |  |uk|ik| | | | |] eqn:En.
    - apply dec_unm_safe. exact NP.
    - assert (okp (dec_ptr E t (fun c0 v => decode_f X E f t buf c0 d v) buf c rv) (typed E T)) as G.
      { apply dec_ptr_safe; [apply NP|exact Hv|]. intros. apply IH; auto. eapply in_step; [exact HT|]. apply co_ptr. exact NP. }
      destruct (kind_of E t); try exact G. exact I.
    - assert (exists l, rv = VStruct l /\ Forall2 (fun f v => typed E (f_ty f) v) fs l) as (l & -> & Hl).
      { destruct NP as [_ Hk]. inversion Hv; subst; try congruence. match goal with HA : Forall2 _ ?u ?l |- _ => replace u with fs in HA by congruence; eauto end. }
      unfold dec_struct. pose proof (rok_struct_header buf c d) as HR.
      destruct (struct_header buf c d) as [[c1|c1]|e|p|]; try exact HR; [exact Hv|].
      destruct (negb _); [exact I|]. pose proof (rok_rd buf c1) as HR1. destruct (rd buf c1); try exact HR1.
      destruct (_ =b _); [exact Hv|].
      set (fd := fun (d0 : fdec) (c0 : Z) (v : gval) => _).
      pose proof (struct_loop_safe fs fd (d + 1)) as SL.
      assert (okp (struct_loop (field_decs X E 0 fs) fd buf (d + 1) (length buf) c1 l) (Forall2 (fun f v => typed E (f_ty f) v) fs)) as G.
      { apply SL; [|exact Hl]. intros k i f0 str c0 v HIn Hi Hv0. subst fd. cbn [fd_str fd_ty].
        assert (inside E T0 (f_ty f0)) as HF by (eapply in_step; [exact HT|]; eapply co_field; eauto).
        destruct str; [|apply IH; auto].
        pose proof (wrapped_safe (f_ty f0) c0 v Hv0) as WS. pose proof (node_plain E (f_ty f0)) as NPf.
        destruct (node_of E (f_ty f0)) as [n0|t0|id0 fs0|t0|t0|n0 t0|kt0 vt0| |  |uk0|ik0| | | | |] eqn:Enf; try exact WS.
        apply dec_ptr_safe; [apply NPf|exact Hv0|]. intros. apply wrapped_safe. assumption. }
      destruct (struct_loop _ _ _ _ _ _ _) as [l' [c2|e|p|]]; unfold okp in *; cbn [fst snd] in *; auto.
      eapply ty_struct; [apply NP|exact G].
    - destruct NP as [NP _]. unfold dec_bytes. pose proof (rok_rd buf c) as HR. destruct (rd buf c); try exact HR. destruct (_ =b _).
      + eapply dec_slice_safe; eauto. intros. apply IH; auto. eapply in_step; [exact HT|]. apply co_slice. exact NP.
      + apply okp_text; [apply rok_string_bytes|exact Hv|]. intros b c1. cbn. unfold vbytes. eapply ty_slice; [apply NP|].
        assert (kind_of E t = KUint U8) as Kt.
        { unfold node_of in En. destruct NP as [Hu Hk]. rewrite Hu, Hk in En. destruct (kind_of E t) as [| |[]| | | | | | | | | | |]; congruence. }
        apply Forall_forall. intros x Hx. apply in_map_iff in Hx as (y & <- & _). unfold byte_val. eapply ty_uint; [exact Kt|].
        unfold uint_range. cbn. pose proof (byte_bound y). lia.
    - destruct NP as [NP _]. eapply dec_slice_safe; eauto. intros. apply IH; auto. eapply in_step; [exact HT|]. apply co_slice. exact NP.
    - unfold dec_array. cbv zeta. pose proof (rok_array_header buf c d) as HR.
      assert (Forall (typed E t) (repeat (zero E t) n)) as Hz.
      { apply Forall_forall. intros x Hx. apply repeat_spec in Hx as ->. apply zero_typed. exact Henv. }
      destruct (array_header buf c d) as [[c1|c1|len c1]|e|p|]; try exact HR.
      + exact Hv.
      + eapply ty_arr; [apply NP|apply repeat_length|exact Hz].
      + pose proof (array_loop_safe t (fun c0 v => decode_f X E f t buf c0 (d + 1) v) (d + 1)) as AL.
        assert (okp (array_loop (fun c0 v => decode_f X E f t buf c0 (d + 1) v) buf (d + 1) (length buf) c1 (repeat (zero E t) n))
                  (fun l' => length l' = length (repeat (zero E t) n) /\ Forall (typed E t) l')) as G.
        { apply AL; [|exact Hz]. intros. apply IH; auto. eapply in_step; [exact HT|]. eapply co_array. exact NP. }
        destruct (array_loop _ _ _ _ _ _) as [l' [c2|e|p|]]; unfold okp in *; cbn [fst snd] in *; auto.
        destruct G as [G1 G2]. rewrite repeat_length in G1. eapply ty_arr; [apply NP|exact G1|exact G2].
    - assert (exists o, rv = VMap o /\ match o with Some m => Forall (fun e => typed E kt (fst e) /\ typed E vt (snd e)) m | None => True end) as (o & -> & Ho).
      { destruct NP as [_ Hk]. inversion Hv; subst; try congruence; [exists None; auto|].
        match goal with HH : kind_of E T = KMap ?a ?b |- _ => replace a with kt in * by congruence; replace b with vt in * by congruence end. eauto. }
      eapply dec_map_safe with (K := typed E kt) (V := typed E vt); auto.
      + intros c0. apply dec_key_safe. eapply Hkeys; eauto.
      + intros c0. apply IH; [|apply zero_typed; exact Henv]. eapply in_step; [exact HT|]. eapply co_val. exact NP.
      + eapply ty_map_nil. apply NP.
      + intros m Hm. eapply ty_map; [apply NP|exact Hm].
    - apply dec_iface_any_safe. apply NP.
    - destruct NP as [m [_ NP]]. eapply dec_iface_safe; eauto.
    - apply dec_uint_safe; [apply NP|exact Hv].
    - apply dec_int_safe; [apply NP|exact Hv].
    - apply dec_string_safe; [apply NP|exact Hv].
    - apply dec_bool_safe; [apply NP|exact Hv].
    - apply dec_f32_safe; [apply NP|exact Hv].
    - apply dec_f64_safe; [apply NP|exact Hv].
    - exact I.
  Qed.
End Safe.

Lemma slice_free_alloc X E T data : slice_free E T -> allocatable X E T data.
Proof. intros H U t n HU Hp. exfalso. eapply H; eauto. Qed.
