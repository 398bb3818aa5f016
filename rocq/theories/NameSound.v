(** Every type error says where it is. *)
From Coq Require Import Strings.String Strings.Byte ZArith List Bool Lia Floats.SpecFloat.
From Verif Require Import Base GoTypes Strconv Tags Scan Decode Unmarshal Grammar Denote NumFacts ScanFacts CostBound Complete SliceHead Context Names NameDecode NameFacts NamePlace.
Import ListNotations.
Open Scope Z_scope.

(** Errors that are neither type errors nor a method's *)
Definition quiet (e : error) : Prop := match e with EType _ | EUser | ETypeAt _ _ | EUserAt _ => False | _ => True end.
Definition on {A} (P : error -> Prop) (r : R A) : Prop := match r with RErr e => P e | _ => True end.
Lemma on_bind {A B} P (r : R A) (k : A -> R B) : on P r -> (forall a, on P (k a)) -> on P (bind r k).
Proof. intros H Hk. destruct r; cbn [bind on] in *; auto. Qed.
Lemma on_fail {A B} P (r : R A) : on P r -> @on B P (fail r).
Proof. destruct r; cbn; auto. Qed.
Lemma on_weaken {A} (P P' : error -> Prop) (r : R A) : (forall e, P e -> P' e) -> on P r -> on P' r.
Proof. intros H. destruct r; cbn; auto. Qed.
Lemma quiet_rd buf c : on quiet (rd buf c).
Proof. unfold rd. destruct (_ <=? _); [destruct (nth_error _ _)|]; exact I. Qed.
Lemma quiet_sub buf c d : on quiet (sub buf c d).
Proof. unfold sub. destruct (_ && _); exact I. Qed.
Ltac q1 := match goal with
  | |- on _ (if ?b then _ else _) => destruct b
  | |- on quiet (bind (rd _ _) _) => apply on_bind; [apply quiet_rd|intro]
  | |- on quiet (bind (sub _ _ _) _) => apply on_bind; [apply quiet_sub|intro]
  | |- on quiet (RErr _) => exact I
  | |- on _ (RPanic _) => exact I
  | |- on _ RFuel => exact I
  | |- on _ (ROk _) => exact I
  | |- on quiet (match ?r with Some _ => _ | None => _ end) => destruct r
  | |- on quiet (let '(_, _) := ?p in _) => destruct p
  | |- on quiet (bind _ _) => apply on_bind; [|intro]
  end.
Ltac q := repeat (cbv zeta; q1).
Lemma quiet_scan p buf : forall n c, on quiet (scan_while p buf n c).
Proof. induction n as [|n IH]; intros c; cbn [scan_while]; q. apply IH. Qed.
Lemma quiet_skip_length buf c : on quiet (skip_length buf c).
Proof. unfold skip_length. q; apply quiet_scan. Qed.
Lemma quiet_read_length buf c : on quiet (read_length buf c).
Proof. unfold read_length. q; try apply quiet_skip_length. Qed.
Lemma quiet_class buf c : on quiet (skip_class_name buf c).
Proof. unfold skip_class_name. q; apply quiet_read_length. Qed.
Lemma quiet_null buf c : on quiet (validate_null buf c).
Proof. unfold validate_null. q. Qed.
Lemma quiet_empty buf c : on quiet (validate_empty_array buf c).
Proof. unfold validate_empty_array. q. Qed.
Lemma quiet_read_string buf c : on quiet (read_string buf c).
Proof. unfold read_string. q; apply quiet_read_length. Qed.
Lemma quiet_integer buf c : on quiet (read_integer_bytes buf c).
Proof. unfold read_integer_bytes. q; apply quiet_scan. Qed.
Lemma quiet_float buf c : on quiet (read_float_bytes buf c).
Proof. unfold read_float_bytes. q; apply quiet_scan. Qed.
Lemma quiet_bool buf c : on quiet (read_bool buf c).
Proof. unfold read_bool. q. Qed.
Lemma quiet_skip_int buf c : on quiet (skip_int buf c).
Proof. unfold skip_int. q; apply quiet_integer. Qed.
Lemma quiet_skip_string buf c : on quiet (skip_string buf c).
Proof. unfold skip_string. q; apply quiet_read_string. Qed.
Lemma quiet_entries skip : (forall c, on quiet (skip c)) -> forall n len c, on quiet (skip_entries skip n len c).
Proof. intros H. induction n as [|n IH]; intros len c; cbn [skip_entries]; q; auto. Qed.
Lemma quiet_skip_array skip buf c d : (forall c, on quiet (skip c)) -> on quiet (skip_array skip buf c d).
Proof. intros H. unfold skip_array. q; try apply quiet_read_length; try (apply quiet_entries; exact H). Qed.
Lemma quiet_skip_value buf : forall f c d, on quiet (skip_value_f f buf c d).
Proof.
  induction f as [|f IH]; intros c d; cbn [skip_value_f]; q; try apply quiet_class; try (apply quiet_skip_array; intros; apply IH);
    try apply quiet_skip_string; try apply quiet_float; try apply quiet_skip_int; try apply quiet_bool; try apply quiet_null.
Qed.
Lemma quiet_read_int buf c : on quiet (read_int buf c).
Proof. unfold read_int. q; try apply quiet_integer. Qed.
Lemma quiet_int_bytes buf c : on quiet (decode_int_bytes buf c).
Proof. unfold decode_int_bytes. q; try apply quiet_null; try apply quiet_integer. Qed.
Lemma quiet_float_bytes buf c : on quiet (decode_float_bytes buf c).
Proof. unfold decode_float_bytes. q; try apply quiet_null; try apply quiet_float. Qed.
Lemma quiet_map_header buf c d : on quiet (map_header buf c d).
Proof. unfold map_header. q; try apply quiet_null; try apply quiet_class; try apply quiet_read_length. Qed.
Lemma quiet_struct_header buf c d : on quiet (struct_header buf c d).
Proof. unfold struct_header. q; try apply quiet_null; try apply quiet_class; try apply quiet_skip_length. Qed.
Lemma quiet_seq_header what buf c d : on quiet (seq_header what buf c d).
Proof. unfold seq_header, read_length_int. q; try apply quiet_null; try apply quiet_empty; try apply quiet_read_length. Qed.
Lemma quiet_array_header buf c d : on quiet (array_header buf c d).
Proof. apply quiet_seq_header. Qed.
Lemma quiet_slice_header buf c d : has_byte buf c && negb (max_depth <? d + 1) && number_at buf c = false -> on quiet (slice_header buf c d).
Proof. intros H. unfold slice_header. rewrite H. apply quiet_seq_header. Qed.
Lemma quiet_fields X E comp fs : (forall t, on quiet (comp t)) -> on quiet (compile_fields X E comp fs).
Proof. intros H. induction fs as [|f fs IH]; cbn [compile_fields]; q; auto. Qed.
Lemma quiet_compile X E : forall f st t, on quiet (compile_f X E f st t).
Proof.
  induction f as [|f IH]; intros st t; cbn [compile_f]; [exact I|]. destruct (has_unmarshal E t); [exact I|].
  destruct (kind_of E t) as [| | | | | |t'|n t'|k v|t'| | | |id fs]; try exact I.
  - destruct (kind_of E t') as [| |[]| | | | | | | | | | |]; try exact I; apply IH.
  - apply IH.
  - apply on_bind; [|intros _; apply IH]. destruct (has_unmarshal E k) as [?|]; [exact I|]. destruct (kind_of E k); try exact I; apply IH.
  - apply on_bind; [apply IH|]. intros _. destruct (kind_of E t'); exact I.
  - destruct (mem id st); [exact I|]. apply on_bind; [apply quiet_fields; intros; apply IH|]. intros _. destruct (first_dup _ _); exact I.
Qed.

(** ** The decoder *)
Section Sound.
  Context (X : Ext) (Q : Rtti) (E : env) (T0 : gty) (buf : bytes).
  Let nd := named E (r_name Q) T0.
  Let ok := explained X E (r_name Q) (r_string Q) T0 (r_error Q).
  (** an outcome is explained *)
  Definition S2 {A B} (r : A * R B) : Prop := on ok (snd r).

  Lemma quiet_ok {A} (r : R A) : on quiet r -> on ok r.
  Proof. apply on_weaken. intros e. destruct e; cbn; try intros []; auto. Qed.
  Lemma S2_err {A B} (a : A) e : ok e -> @S2 A B (a, RErr e).
  Proof. intros H. exact H. Qed.
  Lemma S2_fail {A B C} (a : A) (r : R C) : on ok r -> @S2 A B (a, fail r).
  Proof. intros H. apply on_fail, H. Qed.

  (** the string decoder *)
  Definition stringy (nm : names) : Prop := forall b w, word b w -> tells X E (r_name Q) (r_string Q) T0 (Detail w TString (fst nm) (snd nm)).
  Lemma place_stringy nm t : nd nm t ->
    match kind_of E t with KString | KSlice _ | KStruct _ _ | KAny | KIface _ => True | _ => False end -> stringy nm.
  Proof. intros Hn Hk b w Hw. eapply te_string; eauto. Qed.
  Lemma ok_string_bytes nm c : stringy nm -> on ok (decode_string_bytes_n nm buf c).
  Proof.
    intros Hs. unfold decode_string_bytes_n. destruct (negb _); [exact I|].
    apply on_bind; [apply quiet_ok, quiet_rd|]. intros b.
    destruct (b =b "N"%byte); [apply on_bind; [apply quiet_ok, quiet_null|intro; exact I]|].
    destruct (b =b "b"%byte); [exact (Hs _ _ wd_bool)|].
    destruct (b =b "d"%byte); [exact (Hs _ _ wd_float)|].
    destruct (b =b "i"%byte); [exact (Hs _ _ wd_int)|].
    destruct (b =b "s"%byte); [|exact I]. apply on_bind; [apply quiet_ok, quiet_read_string|]. intros []. exact I.
  Qed.
  Lemma ok_text r p rv : on ok r -> (forall b c rv, S2 (p b c rv)) -> S2 (dec_text r p rv).
  Proof. intros H Hp. unfold dec_text. destruct r as [[[b|] c]| | |]; try exact I; [apply Hp|exact H]. Qed.
  Lemma ok_string nm c rv : stringy nm -> S2 (dec_string_n nm buf c rv).
  Proof. intros H. apply ok_text; [apply ok_string_bytes, H|]. intros. exact I. Qed.
  (** the integer decoders *)
  Definition inty (nm : names) (t : gty) : Prop := forall s, tells X E (r_name Q) (r_string Q) T0 (Detail (bs "number " ++ s) t (fst nm) (snd nm)).
  Definition uinty (t : gty) : Prop := inty ([], []) t.
  Lemma ok_process_int nm t k b c rv : inty nm t -> S2 (process_int_n nm t k b c rv).
  Proof. intros H. unfold process_int_n, process_int. destruct (parse_int64 b); [|apply H]. repeat match goal with |- S2 (if ?b then _ else _) => destruct b end; exact I. Qed.
  Lemma ok_process_uint t k b c rv : uinty t -> S2 (process_uint_n t k b c rv).
  Proof. intros H. unfold process_uint_n, process_uint. destruct (parse_uint64 b); [|apply (H b)]. repeat match goal with |- S2 (if ?b then _ else _) => destruct b end; exact I. Qed.
  Lemma ok_int nm t k c rv : inty nm t -> S2 (dec_int_n nm t k buf c rv).
  Proof. intros H. apply ok_text; [apply quiet_ok, quiet_int_bytes|]. intros. apply ok_process_int, H. Qed.
  Lemma ok_uint t k c rv : uinty t -> S2 (dec_uint_n t k buf c rv).
  Proof. intros H. apply ok_text; [apply quiet_ok, quiet_int_bytes|]. intros. apply ok_process_uint, H. Qed.
  Lemma ok_process_float is32 b c rv : S2 (process_float X is32 b c rv).
  Proof. unfold process_float. destruct (parse_float X b); [destruct is32; [destruct (overflow_f32 _)|]|]; exact I. Qed.
  Lemma ok_float is32 c rv : S2 (dec_float X is32 buf c rv).
  Proof. apply ok_text; [apply quiet_ok, quiet_float_bytes|]. intros. apply ok_process_float. Qed.
  Lemma ok_bool c rv : S2 (dec_bool buf c rv).
  Proof.
    unfold dec_bool. destruct (negb _); [exact I|]. pose proof (quiet_rd buf c) as H. destruct (rd buf c); try exact I; try (apply S2_fail, quiet_ok, H).
    destruct (_ =b _); [pose proof (quiet_bool buf c) as H1; destruct (read_bool buf c); try exact I; apply S2_fail, quiet_ok, H1|].
    destruct (_ =b _); [pose proof (quiet_null buf c) as H1; destruct (validate_null buf c); try exact I; apply S2_fail, quiet_ok, H1|exact I].
  Qed.

  (** ** Containers *)
  Lemma ok_map_loop kd vd : (forall c, S2 (kd c : dres)) -> (forall c, S2 (vd c : dres)) -> forall n c m, S2 (map_loop kd vd buf n c m).
  Proof.
    intros Hk Hv. induction n as [|n IH]; intros c m; cbn [map_loop]; [exact I|]. destruct (negb _); [exact I|].
    pose proof (Hk c) as H1. destruct (kd c) as [k [c1| | |]]; try exact H1. destruct (negb _); [exact I|].
    pose proof (Hv c1) as H2. destruct (vd c1) as [v [c2| | |]]; try exact H2. destruct (negb (hashable k)); [exact I|]. cbv zeta.
    destruct (negb _); [exact I|]. pose proof (quiet_rd buf c2) as H3. destruct (rd buf c2); try exact I; try (apply S2_fail, quiet_ok, H3).
    destruct (_ =b _); [exact I|apply IH].
  Qed.
  Lemma ok_map kd vd c d rv : (forall c, S2 (kd c : dres)) -> (forall c, S2 (vd c : dres)) -> S2 (dec_map kd vd buf c d rv).
  Proof.
    intros Hk Hv. unfold dec_map. pose proof (quiet_map_header buf c d) as H0. destruct (map_header buf c d) as [[c1|c1]| | |]; try exact I; try (apply S2_fail, quiet_ok, H0).
    destruct rv; try exact I. destruct (negb _); [exact I|].
    pose proof (quiet_rd buf c1) as H3. destruct (rd buf c1); try exact I; try (apply S2_fail, quiet_ok, H3).
    destruct (_ =b _); [exact I|]. pose proof (ok_map_loop kd vd Hk Hv (length buf) c1 (match o with Some m => m | None => [] end)) as H.
    destruct (map_loop _ _ _ _ _ _). exact H.
  Qed.
  Definition el (ed : Z -> gval -> dres) : Prop := forall c v, S2 (ed c v).
  Lemma ok_slice_loop et ed : el ed -> forall n c sl rv, S2 (slice_loop X E et ed buf n c sl rv).
  Proof.
    intros He. induction n as [|n IH]; intros c sl rv; cbn [slice_loop]; [exact I|]. cbv zeta. destruct (negb _); [exact I|].
    pose proof (quiet_read_int buf c) as H0. destruct (read_int buf c) as [[i c1]| | |]; try exact I; try (apply S2_fail, quiet_ok, H0).
    destruct (negb _); [exact I|]. 
    assert (forall sl' v (r : R Z), on ok r -> S2 (match r with ROk c' => 
        if negb (has_byte buf c') then (v, RErr (ESyntax c' (WEnd "array"))) else
        match rd buf c' with ROk b => if b =b "}"%byte then (v, ROk (c' + 1)) else slice_loop X E et ed buf n c' sl' v | r => (v, fail r) end
        | r => (v, fail r) end)) as G.
    { intros sl' v r Hr. destruct r as [c'| | |]; try exact Hr. destruct (negb _); [exact I|].
      pose proof (quiet_rd buf c') as H3. destruct (rd buf c'); try exact I; try (apply S2_fail, quiet_ok, H3). destruct (_ =b _); [exact I|apply IH]. }
    destruct (i <? blen sl).
    - destruct (bad_index _ _); [exact I|]. pose proof (He c1 (nth (Z.to_nat i) sl VOther)) as H1. destruct (ed c1 _) as [v r]. apply (G _ (VSlice (Some (update sl (Z.to_nat i) v))) r H1).
    - destruct (_ || _); [exact I|]. destruct (bad_index _ _); [exact I|].
      pose proof (He c1 (zero E et)) as H1. destruct (ed c1 _) as [v r].
      destruct r as [c'| | |]; try exact H1. apply (G _ (VSlice (Some _)) (ROk c') I).
  Qed.
  Lemma ok_slice nm et ed c d rv t : el ed -> nd nm t -> kind_of E t = KSlice et -> S2 (dec_slice_n X E nm et ed buf c d rv).
  Proof.
    intros He Hn Hk. unfold dec_slice_n. destruct (has_byte buf c && _ && number_at buf c) eqn:Hc.
    - apply S2_err. apply (te_slice _ _ _ _ T0 nm t); auto.
    - unfold dec_slice. pose proof (quiet_slice_header buf c d Hc) as H0. destruct (slice_header buf c d) as [[| |l c1]| | |]; try exact I; try (apply S2_fail, quiet_ok, H0).
      destruct (negb (x_slots X et l)); [exact I|]. apply ok_slice_loop, He.
  Qed.
  Lemma ok_array_loop ed d : el ed -> forall n c l, S2 (array_loop ed buf d n c l).
  Proof.
    intros He. induction n as [|n IH]; intros c l; cbn [array_loop]; [exact I|]. cbv zeta. destruct (negb _); [exact I|].
    pose proof (quiet_read_int buf c) as H0. destruct (read_int buf c) as [[i c1]| | |]; try exact I; try (apply S2_fail, quiet_ok, H0).
    destruct (negb _); [exact I|].
    assert (forall l' (r : R Z), on ok r -> S2 (match r with ROk c' => 
        if negb (has_byte buf c') then (l', RErr (ESyntax c' (WEnd "array"))) else
        match rd buf c' with ROk b => if b =b "}"%byte then (l', ROk (c' + 1)) else array_loop ed buf d n c' l' | r => (l', fail r) end
        | r => (l', fail r) end)) as G.
    { intros l' r Hr. destruct r as [c'| | |]; try exact Hr. destruct (negb _); [exact I|].
      pose proof (quiet_rd buf c') as H3. destruct (rd buf c'); try exact I; try (apply S2_fail, quiet_ok, H3). destruct (_ =b _); [exact I|apply IH]. }
    destruct (i <? blen l).
    - destruct (bad_index _ _); [exact I|]. pose proof (He c1 (nth (Z.to_nat i) l VOther)) as H1. destruct (ed c1 _) as [v r]. apply (G _ r H1).
    - assert (on ok (skip_value buf c1 d)) as H5 by apply quiet_ok, quiet_skip_value. destruct (skip_value buf c1 d) as [c'| | |]; try exact H5. apply (G l (ROk c') I).
  Qed.
  Lemma ok_array n et ed c d rv : el ed -> S2 (dec_array E n et ed buf c d rv).
  Proof.
    intros He. unfold dec_array. cbv zeta. pose proof (quiet_array_header buf c d) as H0. destruct (array_header buf c d) as [[| |l c1]| | |]; try exact I; try (apply S2_fail, quiet_ok, H0).
    pose proof (ok_array_loop ed (d + 1) He (length buf) c1 (repeat (zero E et) n)) as H. destruct (array_loop _ _ _ _ _ _). exact H.
  Qed.
  Lemma ok_struct_loop nm decs fd d : stringy nm -> (forall x, In x decs -> el (fd x)) -> forall n c l, S2 (struct_loop_n nm decs fd buf d n c l).
  Proof.
    intros Hs He. induction n as [|n IH]; intros c l; cbn [struct_loop_n]; [exact I|]. cbv zeta. destruct (negb _); [exact I|].
    pose proof (ok_string_bytes nm c Hs) as H0. destruct (decode_string_bytes_n nm buf c) as [[k c1]| | |]; try exact I; try (apply S2_fail; exact H0).
    destruct (negb _); [exact I|].
    assert (forall l' (r : R Z), on ok r -> S2 (match r with ROk c' => 
        if negb (has_byte buf c') then (l', RErr (ESyntax c' (WEnd "object"))) else
        match rd buf c' with ROk b => if b =b "}"%byte then (l', ROk (c' + 1)) else struct_loop_n nm decs fd buf d n c' l' | r => (l', fail r) end
        | r => (l', fail r) end)) as G.
    { intros l' r Hr. destruct r as [c'| | |]; try exact Hr. destruct (negb _); [exact I|].
      pose proof (quiet_rd buf c') as H3. destruct (rd buf c'); try exact I; try (apply S2_fail, quiet_ok, H3). destruct (_ =b _); [exact I|apply IH]. }
    destruct (find_field _ decs) as [x|] eqn:Hx.
    - destruct (nth_error l (fd_idx x)) as [v0|]; [|exact I].
      assert (In x decs) as Hin by (clear - Hx; induction decs as [|y decs IH]; cbn in Hx; [discriminate|]; destruct (bytes_eqb _ _); [injection Hx as ->; left; reflexivity|right; auto]).
      pose proof (He x Hin c1 v0) as H1. destruct (fd x c1 v0) as [v r]. apply (G _ r H1).
    - assert (on ok (skip_value buf c1 d)) as H5 by apply quiet_ok, quiet_skip_value. destruct (skip_value buf c1 d) as [c'| | |]; try exact H5. apply (G l (ROk c') I).
  Qed.
  Lemma ok_struct nm decs fd c d rv : stringy nm -> (forall x, In x decs -> el (fd x)) -> S2 (dec_struct_n nm decs fd buf c d rv).
  Proof.
    intros Hs He. unfold dec_struct_n. pose proof (quiet_struct_header buf c d) as H0. destruct (struct_header buf c d) as [[c1|c1]| | |]; try exact I; try (apply S2_fail, quiet_ok, H0).
    destruct rv; try exact I. destruct (negb _); [exact I|].
    pose proof (quiet_rd buf c1) as H3. destruct (rd buf c1); try exact I; try (apply S2_fail, quiet_ok, H3).
    destruct (_ =b _); [exact I|]. pose proof (ok_struct_loop nm decs fd (d + 1) Hs He (length buf) c1 l) as H.
    destruct (struct_loop_n _ _ _ _ _ _ _ _). exact H.
  Qed.
  Lemma ok_ptr t ed c rv : el ed -> S2 (dec_ptr E t ed buf c rv).
  Proof.
    intros He. unfold dec_ptr.
    pose proof (quiet_rd buf c) as H3. destruct (rd buf c); try exact I; try (apply S2_fail, quiet_ok, H3).
    destruct (_ =b _); [pose proof (quiet_null buf c) as H1; destruct (validate_null buf c); try exact I; apply S2_fail, quiet_ok, H1|].
    destruct rv; try exact I. pose proof (He c (match o with Some v => v | None => zero E t end)) as H. destruct (ed _ _). exact H.
  Qed.
  Lemma ok_wrapped nm t k c rv : stringy nm -> (forall j, k = NInt j -> inty nm t) -> (forall j, k = NUint j -> uinty t) -> S2 (dec_wrapped_n X nm t k buf c rv).
  Proof.
    intros Hs Hi Hu. unfold dec_wrapped_n. cbv zeta. apply ok_text; [apply ok_string_bytes, Hs|]. intros b c1 rv1.
    assert (forall r : dres, S2 r -> S2 (match r with (v, ROk _) => (v, ROk c1) | r => r end)) as K.
    { intros [v []] H; exact H || exact I. }
    destruct k; try exact I; try (apply K, ok_process_float).
    - eapply K, ok_process_uint, Hu; reflexivity.
    - eapply K, ok_process_int, Hi; reflexivity.
    - destruct (parse_bool b); exact I.
  Qed.
  Lemma ok_bytes nm sd c rv : stringy nm -> S2 (sd rv) -> S2 (dec_bytes_n nm sd buf c rv).
  Proof.
    intros Hs H. unfold dec_bytes_n. pose proof (quiet_rd buf c) as H3. destruct (rd buf c); try exact I; try (apply S2_fail, quiet_ok, H3).
    destruct (_ =b _); [exact H|]. apply ok_text; [apply ok_string_bytes, Hs|]. intros. exact I.
  Qed.

  (** ** Interfaces *)
  Lemma ok_any_key nm c : stringy nm -> inty nm (TInt I64) -> S2 (dec_any_key_n nm buf c).
  Proof.
    intros Hs Hi. unfold dec_any_key_n. pose proof (quiet_rd buf c) as H3. destruct (rd buf c); try exact I; try (apply S2_fail, quiet_ok, H3).
    destruct (_ =b _). { pose proof (ok_string nm c (VStr []) Hs) as H. destruct (dec_string_n _ _ _ _) as [v []]; exact H || exact I. }
    destruct (_ =b _); [|exact I]. pose proof (ok_int nm (TInt I64) I64 c (VInt 0) Hi) as H. destruct (dec_int_n _ _ _ _ _ _) as [v []]; exact H || exact I.
  Qed.
  Lemma ok_any nm : stringy nm -> inty nm (TInt I64) -> forall f c d, on ok (dec_any_n_f X nm f buf c d).
  Proof.
    intros Hs Hi. induction f as [|f IH]; intros c d; cbn [dec_any_n_f]; [exact I|]. cbv zeta.
    set (vd := fun c0 : Z => match dec_any_n_f X nm f buf c0 (d + 1) with ROk (o, c') => (VIface o, ROk c') | r => (VIface None, fail r) end : dres).
    assert (forall c, S2 (vd c)) as Hv.
    { intros c0. subst vd. cbn beta. pose proof (IH c0 (d + 1)) as H. destruct (dec_any_n_f X nm f buf c0 (d + 1)) as [[]| | |]; exact H || exact I. }
    assert (forall t (r : dres), S2 r -> @on (option (gty * gval) * Z) ok (match r with (v, ROk c) => ROk (Some (t, v), c) | (_, r) => fail r end)) as W.
    { intros t [v []] H; exact H || exact I. }
    apply on_bind; [apply quiet_ok, quiet_rd|]. intros b.
    destruct (_ =b _); [apply W, ok_map; [intros; apply ok_string, Hs|exact Hv]|].
    destruct (_ =b _); [apply W, ok_map; [intros; apply ok_any_key; assumption|exact Hv]|].
    destruct (_ =b _); [apply W, ok_float|].
    destruct (_ =b _); [apply on_bind; [apply quiet_ok, quiet_read_string|]; intros []; exact I|].
    destruct (_ =b _); [apply W, ok_int, Hi|].
    destruct (_ =b _); [apply on_bind; [apply quiet_ok, quiet_bool|]; intros; exact I|].
    destruct (_ =b _); [apply on_bind; [apply quiet_ok, quiet_null|]; intros; exact I|]. exact I.
  Qed.
  Lemma any_stringy nm t : nd nm t -> iface_kind (kind_of E t) = true -> stringy nm /\ inty nm (TInt I64).
  Proof.
    intros Hn Hk. split.
    - apply (place_stringy nm t Hn). destruct (kind_of E t); try discriminate; exact I.
    - intros s. eapply te_any; eauto.
  Qed.
  Lemma ok_iface_any nm t c d rv : nd nm t -> iface_kind (kind_of E t) = true -> S2 (dec_iface_any_n X nm buf c d rv).
  Proof.
    intros Hn Hk. destruct (any_stringy nm t Hn Hk) as [H1 H2]. unfold dec_iface_any_n, dec_any_n.
    pose proof (ok_any nm H1 H2 (S (length buf)) c d) as H. destruct (dec_any_n_f _ _ _ _ _ _) as [[]| | |]; exact H || exact I.
  Qed.
  Lemma skip_head f c d c' s : skip_value_f f buf c d = ROk c' -> sub buf c c' = ROk s ->
    match s with [] => True | b :: _ => In b (list_byte_of_string "OasdibN") end.
  Proof.
    intros H Hs. destruct f as [|f]; [discriminate|]. cbn [skip_value_f] in H. cbv zeta in H. destruct (negb _); [discriminate|].
    unfold rd in H. destruct (0 <=? c) eqn:H0; [|discriminate]. destruct (nth_error buf (Z.to_nat c)) as [b|] eqn:Hb; [|discriminate]. cbn [bind] in H.
    unfold sub in Hs. destruct (_ && _); [|discriminate]. injection Hs as <-.
    destruct (firstn _ _) as [|b' s'] eqn:Hf; [exact I|].
    assert (b' = b) as ->.
    { assert (nth_error (firstn (Z.to_nat (c' - c)) (skipn (Z.to_nat c) buf)) 0 = Some b') as H1 by (rewrite Hf; reflexivity).
      destruct (Z.to_nat (c' - c)); [discriminate|]. apply nth_error_split in Hb as (l1 & l2 & -> & L). rewrite <- L, skipn_app, skipn_all, Nat.sub_diag in H1.
      cbn in H1. congruence. }
    repeat match type of H with (if ?x =b ?y then _ else _) = _ => let Ex := fresh in destruct (x =b y) eqn:Ex; [apply Byte.byte_dec_bl in Ex; subst; cbn; tauto|] end.
    discriminate.
  Qed.
  Lemma ok_unm nm n c d rv t : nd nm t -> has_unmarshal E t = Some n -> S2 (dec_unm_n X Q E nm n buf c d rv).
  Proof.
    intros Hn Hu. unfold dec_unm_n. 
    assert (t = TName n) as ->.
    { unfold has_unmarshal in Hu. destruct t; try discriminate. destruct (nth_error E n0); [|discriminate]. destruct (d_unmarshal d0); congruence. }
    pose proof (quiet_skip_value buf (S (length buf)) c d) as H0.
    destruct (skip_value buf c d) as [e| | |] eqn:Hsk; cbn [bind]; try exact I; [|unfold skip_value in Hsk; rewrite Hsk in H0; apply S2_fail, quiet_ok, H0].
    pose proof (quiet_sub buf c e) as H1. destruct (sub buf c e) as [src| | |] eqn:Hsub; cbn [bind]; try exact I; try (apply S2_fail, quiet_ok, H1).
    pose proof (skip_head _ _ _ _ _ Hsk Hsub) as Hh.
    assert (S2 (match x_unmarshal X n (unquoted X src) (zero E (TName n)) with (v, true) => (v, ROk e)
     | (_, false) => (rv, RErr (EUserAt (annotate nm c (r_error Q n (unquoted X src) (zero E (TName n)))))) end)) as G.
    { destruct (x_unmarshal X n _ _) as [v []]; [exact I|]. apply S2_err. apply (po_value _ _ T0 (r_error Q) nm (TName n) n (unquoted X src)); [exact Hn|exact Hu|].
      unfold annotate. destruct (r_error Q n (unquoted X src) (zero E (TName n))); cbn; eauto. }
    destruct src as [|b src]; [exact G|]. cbn in Hh.
    repeat (destruct Hh as [<-|Hh]; [cbn -[dec_unm_n S2 bytes_eqb unquoted]; try exact G; try (destruct (bytes_eqb _ _); [exact I|exact G])|]). destruct Hh.
  Qed.
  Lemma ok_iface nm t m c d rv : nd nm t -> kind_of E t = KIface m -> S2 (dec_iface_n X Q E nm t buf c d rv).
  Proof.
    intros Hn Hk. unfold dec_iface_n. cbv zeta.
    set (plain := match rd buf c with ROk b => _ | r => _ end).
    assert (S2 plain) as P.
    { subst plain. pose proof (quiet_rd buf c) as H3. destruct (rd buf c); try exact I; try (apply S2_fail, quiet_ok, H3).
      destruct (_ =b _); [pose proof (quiet_null buf c) as H1; destruct (validate_null buf c); try exact I; apply S2_fail, quiet_ok, H1|].
      apply S2_err. exact (te_iface _ _ _ _ T0 nm t m Hn Hk). }
    destruct rv as [| | | | | | | | | |[[t' v]|]| |]; try exact P. destruct t' as [| | | | | | | | |t1| | | |]; try exact P.
    destruct v as [| | | | | | | | |p| | |]; try exact P.
    destruct (has_unmarshal E t1) as [n|] eqn:Hu; [|exact P].
    assert (t1 = TName n) as ->.
    { unfold has_unmarshal in Hu. destruct t1; try discriminate. destruct (nth_error E n0); [|discriminate]. destruct (d_unmarshal d0); congruence. }
    pose proof (quiet_skip_value buf (S (length buf)) c d) as H0.
    destruct (skip_value buf c d) as [e| | |] eqn:Hsk; cbn [bind]; try exact I; [|unfold skip_value in Hsk; rewrite Hsk in H0; apply S2_fail, quiet_ok, H0].
    pose proof (quiet_sub buf c e) as H1. destruct (sub buf c e) as [src| | |] eqn:Hsub; cbn [bind]; try exact I; try (apply S2_fail, quiet_ok, H1).
    destruct (bytes_eqb _ _); [exact I|]. destruct p as [old|]; [|exact I]. destruct (x_unmarshal X n _ old) as [new []]; [exact I|].
    apply S2_err. apply (po_iface _ _ T0 (r_error Q) nm t m); assumption.
  Qed.
  Lemma place_inty nm t k : nd nm t -> kind_of E t = KInt k -> inty nm t.
  Proof. intros Hn Hk s. eapply te_int; eauto. Qed.
  Lemma place_uinty nm t k : nd nm t -> kind_of E t = KUint k -> uinty t.
  Proof. intros Hn Hk s. eapply te_uint; eauto. Qed.
  Lemma ok_key nm kt c d : nd nm kt -> S2 (dec_key_n X Q E nm kt buf c d).
  Proof.
    intros Hn. unfold dec_key_n, key_node. cbv zeta. destruct (has_unmarshal E kt) as [n|] eqn:Hu; [eapply ok_unm; eauto|].
    assert (plain E kt (kind_of E kt)) as Hp by (split; auto). rewrite (node_of_plain _ _ _ Hp).
    destruct (kind_of E kt) as [| | | | | |t'|n t'|k v|t'| | | |id fs] eqn:Hk.
    - apply ok_bool.
    - apply ok_int. eapply place_inty; eauto.
    - apply ok_uint. eapply place_uinty; eauto.
    - apply S2_err, (te_other _ _ _ _ T0 nm kt Hn).
    - apply S2_err, (te_other _ _ _ _ T0 nm kt Hn).
    - apply ok_string. apply (place_stringy nm kt Hn). rewrite Hk. exact I.
    - destruct (is_byte E t'); apply S2_err, (te_other _ _ _ _ T0 nm kt Hn).
    - apply S2_err, (te_other _ _ _ _ T0 nm kt Hn).
    - apply S2_err, (te_other _ _ _ _ T0 nm kt Hn).
    - assert (nd nm t') as Hn' by (eapply na_ptr; [exact Hn|split; [exact Hu|exact Hk]]).
      assert (iface_kind (kind_of E t') = true -> S2 (match dec_any_n X nm buf c d with
             | ROk (None, c) => (zero E kt, ROk c) | ROk (Some _, _) => (zero E kt, RPanic PReflect) | r => (zero E kt, fail r) end)) as G.
      { intros Hi. destruct (any_stringy nm t' Hn' Hi) as [H1 H2]. unfold dec_any_n.
        pose proof (ok_any nm H1 H2 (S (length buf)) c d) as H. destruct (dec_any_n_f _ _ _ _ _ _) as [[[]]| | |]; exact H || exact I. }
      unfold node_of. destruct (has_unmarshal E t') as [n'|] eqn:Hu'; [apply S2_err, (te_other _ _ _ _ T0 nm kt Hn)|]. clear Hp.
      destruct (kind_of E t') as [| | | | | |t2|n t2|k v|t2| | | |id fs] eqn:Hk'; try (apply S2_err, (te_other _ _ _ _ T0 nm kt Hn)); try (apply G; reflexivity).
      + pose proof (ok_bool c VOther) as H. destruct (dec_bool buf c VOther) as [[] []]; exact H || exact I.
      + apply ok_text; [apply quiet_ok, quiet_int_bytes|]. intros b c1 rv1. destruct (parse_int64 b); [exact I|]. apply S2_err. eapply place_inty; eauto.
      + apply ok_text; [apply quiet_ok, quiet_int_bytes|]. intros b c1 rv1. destruct (parse_uint64 b); [exact I|]. apply S2_err. eapply place_uinty; eauto.
      + apply ok_text; [apply ok_string_bytes|intros; exact I]. apply (place_stringy nm t' Hn'). rewrite Hk'. exact I.
      + destruct (kind_of E t2) as [| |[]| | | | | | | | | | |]; apply S2_err, (te_other _ _ _ _ T0 nm kt Hn).
    - eapply ok_iface_any; [exact Hn|rewrite Hk; reflexivity].
    - eapply ok_iface; eauto.
    - apply S2_err, (te_other _ _ _ _ T0 nm kt Hn).
    - apply S2_err, (te_other _ _ _ _ T0 nm kt Hn).
  Qed.

  Lemma field_decs_at fs : forall i x, In x (field_decs X E i fs) -> exists f, (i <= fd_idx x)%nat /\ nth_error fs (fd_idx x - i) = Some f /\
    is_ignored f = false /\ fd_ty x = f_ty f /\ fd_str x = string_tagged X E f.
  Proof.
    induction fs as [|f fs IH]; intros i x; cbn [field_decs]; [intros []|]. cbv zeta.
    assert (In x (field_decs X E (S i) fs) -> exists f0, (i <= fd_idx x)%nat /\ nth_error (f :: fs) (fd_idx x - i) = Some f0 /\
      is_ignored f0 = false /\ fd_ty x = f_ty f0 /\ fd_str x = string_tagged X E f0) as G.
    { intros H. destruct (IH _ _ H) as (f0 & L & Hn & R). exists f0. split; [lia|]. split; [|exact R]. replace (fd_idx x - i)%nat with (S (fd_idx x - S i)) by lia. exact Hn. }
    destruct (is_ignored f) eqn:Ei; [exact G|]. intros [<-|H]; [|exact (G H)].
    exists f. cbn [fd_idx fd_ty fd_str]. rewrite Nat.sub_diag. repeat split; auto.
  Qed.

  Definition stack_ok (st : list (nat * names)) : Prop :=
    forall id nm, In (id, nm) st -> exists u fs, nd nm u /\ kind_of E u = KStruct id fs.
  Theorem decode_explained : forall f nm st t c d rv, nd nm t -> stack_ok st -> S2 (decode_n_f X Q E f nm st t buf c d rv).
  Proof.
    induction f as [|f IH]; intros nm st t c d rv Hn Hst; cbn [decode_n_f]; [exact I|]. cbv zeta.
    destruct (has_unmarshal E t) as [n|] eqn:Hu.
    { unfold node_of. rewrite Hu. eapply ok_unm; eauto. }
    assert (plain E t (kind_of E t)) as Hp by (split; auto). rewrite (node_of_plain _ _ _ Hp).
    destruct (kind_of E t) as [| | | | | |t'|n t'|k v|t'| | | |id fs] eqn:Hk.
    - apply ok_bool.
    - apply ok_int. eapply place_inty; eauto.
    - apply ok_uint. eapply place_uinty; eauto.
    - apply ok_float.
    - apply ok_float.
    - apply ok_string. apply (place_stringy nm t Hn). rewrite Hk. exact I.
    - assert (forall rv, S2 (dec_slice_n X E nm t' (fun c v => decode_n_f X Q E f nm st t' buf c (d + 1) v) buf c d rv)) as G.
      { intros rv0. eapply ok_slice; eauto. intros c1 v1. apply IH; [|exact Hst]. eapply na_slice; eauto. }
      destruct (is_byte E t'); [|apply G]. apply ok_bytes; [|apply G]. apply (place_stringy nm t Hn). rewrite Hk. exact I.
    - apply ok_array. intros c1 v1. apply IH; [|exact Hst]. eapply na_array; eauto.
    - apply ok_map; intros c1; [apply ok_key; eapply na_key; eauto|apply IH; [|exact Hst]; eapply na_value; eauto].
    - assert (S2 (dec_ptr E t' (fun c v => decode_n_f X Q E f nm st t' buf c d v) buf c rv)) as G.
      { apply ok_ptr. intros c1 v1. apply IH; [|exact Hst]. eapply na_ptr; eauto. }
      destruct (kind_of E t'); try exact G. exact I.
    - eapply ok_iface_any; [exact Hn|rewrite Hk; reflexivity].
    - eapply ok_iface; eauto.
    - apply S2_err, (te_other _ _ _ _ T0 nm t Hn).
    - pose proof (enter_cases id nm st st) as C. destruct (enter id nm st st) as [nm' st'].
      assert (stringy nm' /\ stack_ok st') as [Hs' Hst'].
      { destruct C as [[C1 C2]|(-> & -> & _)].
        - split; [|intros i0 nm0 H0; apply Hst, C2, H0]. destruct (Hst _ _ C1) as (u & fs' & Hu' & Hk'). apply (place_stringy nm' u Hu'). rewrite Hk'. exact I.
        - split; [apply (place_stringy nm t Hn); rewrite Hk; exact I|]. intros i0 nm0 [H0|H0]; [injection H0 as <- <-; eauto|apply Hst, H0]. }
      apply ok_struct; [exact Hs'|]. intros x Hx c1 v1.
      destruct (field_decs_at fs 0 x Hx) as (fl & _ & Hnth & Hig & Hty & Hstr). rewrite Nat.sub_0_r in Hnth.
      assert (nd (r_name Q id, f_name fl) (f_ty fl)) as Hnf by (eapply na_field; eauto; eapply nth_error_In; exact Hnth).
      unfold field_name. rewrite Hnth, Hty, Hstr. destruct (string_tagged X E fl) eqn:Htag; [|apply IH; assumption].
      assert (stringy (r_name Q id, f_name fl)) as Hsf.
      { intros b w Hw. eapply (te_tagged _ _ _ _ T0 nm t id fs fl); eauto. eapply nth_error_In; exact Hnth. }
      assert (forall u nm c v, nd nm u -> stringy nm -> S2 (dec_wrapped_n X nm u (node_of E u) buf c v)) as W.
      { intros u nm0 c0 v0 Hn0 Hs0. assert (forall k, node_of E u = NInt k -> kind_of E u = KInt k) as A1.
        { intros k. unfold node_of. destruct (has_unmarshal E u); [discriminate|]. destruct (kind_of E u); try discriminate; [congruence|]. destruct (kind_of E t0) as [| |[]| | | | | | | | | | |]; discriminate. }
        assert (forall k, node_of E u = NUint k -> kind_of E u = KUint k) as A2.
        { intros k. unfold node_of. destruct (has_unmarshal E u); [discriminate|]. destruct (kind_of E u); try discriminate; [congruence|]. destruct (kind_of E t0) as [| |[]| | | | | | | | | | |]; discriminate. }
        apply ok_wrapped; auto; intros j Hj; [eapply place_inty|eapply place_uinty]; eauto. }
      destruct (node_of E (f_ty fl)) as [| t2 | | | | | | | | | | | | | | ] eqn:En; try (rewrite <- En; apply W; assumption).
      apply ok_ptr. intros c2 v2. apply W; [|exact Hsf]. eapply na_ptr; [exact Hnf|].
      unfold node_of in En. destruct (has_unmarshal E (f_ty fl)) eqn:Huf; [discriminate|]. destruct (kind_of E (f_ty fl)) eqn:Hkf; try discriminate.
      + destruct (kind_of E t0) as [| |[]| | | | | | | | | | |]; discriminate.
      + injection En as <-. split; assumption.
  Qed.
End Sound.
