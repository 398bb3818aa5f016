(** The number of bytes the decoder of Steps.v reads. *)
From Coq Require Import Strings.String Strings.Byte ZArith List Bool Lia Floats.SpecFloat.
From Verif Require Import Base GoTypes Strconv Tags Scan Decode Unmarshal Steps NumFacts ScanFacts.
Import ListNotations.
Open Scope Z_scope.

Lemma wrap64_up z : 0 <= z < 2 ^ 63 + 2 ^ 62 -> 0 <= wrap64 z -> wrap64 z = z.
Proof.
  intros H W. destruct (Z_lt_le_dec z (2 ^ 63)) as [L|L].
  - apply wrap64_id. unfold min_int64, max_int64. lia.
  - pose proof (wrap64_big z). lia.
Qed.

(** A scanner reads [n] bytes with [ok], or at most [bad]. *)
Definition bnd {A} (m : T A) (ok : A -> Z -> Prop) (bad : Z) : Prop :=
  match m with (ROk a, n) => 0 <= n /\ ok a n | (_, n) => 0 <= n <= bad end.

Lemma bnd_bind {A B} (m : T A) (k : A -> T B) ok1 bad1 ok bad :
  bnd m ok1 bad1 -> bad1 <= bad ->
  (forall a n, 0 <= n -> ok1 a n -> bnd (k a) (fun b n' => ok b (n + n')) (bad - n)) ->
  bnd (t_bind m k) ok bad.
Proof.
  intros H L K. destruct m as [[a|e|p|] n]; cbn [t_bind bnd] in *; try lia.
  destruct H as [H0 H1]. specialize (K a n H0 H1). destruct (k a) as [[b|e|p|] n']; cbn [bnd] in *; try lia.
  destruct K as [K0 K1]. split; [lia|exact K1].
Qed.
Lemma bnd_weak {A} (m : T A) ok1 bad1 (ok : A -> Z -> Prop) bad :
  bnd m ok1 bad1 -> bad1 <= bad -> (forall a n, 0 <= n -> ok1 a n -> ok a n) -> bnd m ok bad.
Proof.
  intros H L K. destruct m as [[a|e|p|] n]; cbn [bnd] in *; try lia. destruct H. split; [lia|auto].
Qed.
Lemma bnd_err {A} e (ok : A -> Z -> Prop) bad : 0 <= bad -> bnd (t_err e) ok bad.
Proof. cbn. lia. Qed.
Lemma bnd_ok {A} (a : A) (ok : A -> Z -> Prop) bad : ok a 0 -> bnd (t_ok a) ok bad.
Proof. cbn. split; [lia|assumption]. Qed.

(** what a conditional says *)
Lemma has_t len c : has len c = true -> 0 <= c < len.
Proof. unfold has. intros H. apply andb_true_iff in H as [H1 H2]. apply Z.leb_le in H1. apply Z.ltb_lt in H2. lia. Qed.
Lemma hass_t len c n : hass len c n = true -> 0 <= c /\ 0 <= n /\ c + n <= len.
Proof.
  unfold hass. intros H. apply andb_true_iff in H as [H H3]. apply andb_true_iff in H as [H1 H2].
  apply Z.leb_le in H1, H2, H3. lia.
Qed.
Ltac known E :=
  match type of E with
  | negb _ = false => apply negb_false_iff in E; first [apply has_t in E | apply hass_t in E | clear E]
  | has _ _ = true => apply has_t in E
  | (_ =? _) = true => apply Z.eqb_eq in E
  | (_ =? _) = false => apply Z.eqb_neq in E
  | (_ <=? _) = true => apply Z.leb_le in E
  | (_ <=? _) = false => apply Z.leb_gt in E
  | (_ <? _) = true => apply Z.ltb_lt in E
  | (_ <? _) = false => apply Z.ltb_ge in E
  | _ => clear E
  end.
Ltac cases :=
  match goal with
  | |- context [if ?b then _ else _] => let E := fresh "E" in destruct b eqn:E; known E
  end.

Section Bounds.
  Context (len : Z) (get : Z -> R byte) (cut : Z -> Z -> R bytes).
  Context (small_len : 0 <= len < 2 ^ 62).

  Lemma b_look i : bnd (look get i) (fun _ n => n = 1) 1.
  Proof. unfold look, bnd. destruct (get i); lia. Qed.
  Lemma b_take i j : bnd (take cut i j) (fun _ n => n = Z.max 0 (j - i)) (Z.max 0 (j - i)).
  Proof. unfold take, bnd. destruct (cut i j); lia. Qed.

  Ltac go1 :=
    match goal with
    | |- bnd (t_err _) _ _ => apply bnd_err; lia
    | |- bnd (t_ok _) _ _ => apply bnd_ok; cbv beta; cbn [fst snd]; try lia
    | |- bnd (t_bind (look get _) _) _ _ =>
        eapply bnd_bind; [apply b_look|lia|intros ?b ?n _ ?L; cbv beta in *; subst; cbv beta zeta]
    | |- bnd (t_bind (take cut _ _) _) _ _ =>
        eapply bnd_bind; [apply b_take|lia|intros ?b ?n ?P ?L; cbv beta zeta in *]
    | |- bnd (if _ then _ else _) _ _ => cases; try lia
    end.
  Ltac go := repeat go1.

  Lemma b_scan p n : forall c, 0 <= c <= len ->
    bnd (t_scan len get p n c) (fun c' n => c <= c' <= len /\ n <= c' - c + 1 /\ n <= len - c) (len - c).
  Proof.
    induction n as [|n IH]; intros c H; cbn [t_scan]; [go|].
    go. eapply bnd_weak; [apply IH; lia|lia|]. cbv beta. intros. lia.
  Qed.
  Lemma b_skip_length c : 0 <= c <= len + 1 ->
    bnd (t_skip_length len get c) (fun c' n => c + 3 <= c' <= len /\ n <= c' - c + 1) (len - c + 2).
  Proof.
    intros H. unfold t_skip_length. go. eapply bnd_bind; [apply b_scan; lia|lia|]. intros cur n P L. cbv beta in *. go.
  Qed.
  Lemma b_read_length c : 0 <= c <= len + 1 ->
    bnd (t_read_length len get cut c) (fun '(l, c') n => 0 <= l <= max_int64 /\ c + 3 <= c' <= len /\ n <= 2 * (c' - c) - 1) (2 * (len - c) + 3).
  Proof.
    intros H. unfold t_read_length. eapply bnd_bind; [apply b_skip_length; lia|lia|]. intros cend n P L. cbv beta in *. go.
    destruct (parse_int64 b) as [l|] eqn:Q; go. apply parse_int64_some in Q as [_ Q]. lia.
  Qed.
  Lemma b_class_name c : 0 <= c <= len ->
    bnd (t_class_name len get cut c) (fun c' n => c + 5 <= c' <= len - 2 /\ n <= 2 * (c' - c)) (2 * (len - c) + 5).
  Proof.
    intros H. unfold t_class_name. go. eapply bnd_bind; [apply b_read_length; lia|lia|]. intros [l s] n P L. cbv beta in *.
    cbv zeta. pose proof (wrap64_up (s + l + 1)) as W. unfold max_int64 in *. go.
  Qed.
  Lemma b_null c : 0 <= c -> bnd (t_null len get c) (fun _ n => c + 2 <= len /\ n = 1) 1.
  Proof. intros H. unfold t_null. go. Qed.
  Lemma b_empty_array c : 0 <= c -> bnd (t_empty_array len get c) (fun _ n => c + 4 <= len /\ n = 3) 3.
  Proof. intros H. unfold t_empty_array. go. Qed.
  Lemma b_read_string c : 0 <= c <= len + 1 ->
    bnd (t_read_string len get cut c) (fun '(_, c') n => c + 6 <= c' <= len /\ n <= 2 * (c' - c) - 4) (2 * (len - c) + 5).
  Proof.
    intros H. unfold t_read_string. eapply bnd_bind; [apply b_read_length; lia|lia|]. intros [l s] n P L. cbv beta in *. cbv zeta.
    pose proof (wrap64_up (l + 2)) as W. unfold max_int64 in *. go.
  Qed.
  Lemma b_integer c : 0 <= c <= len ->
    bnd (t_integer len get cut c) (fun '(_, c') n => c + 4 <= c' <= len /\ n <= 2 * (c' - c) - 1) (2 * (len - c) + 5).
  Proof.
    intros H. unfold t_integer. go.
    eapply bnd_bind; [apply (b_scan _ _ (if b1 =b "-"%byte then c + 2 + 1 else c + 2)); destruct (b1 =b "-"%byte); lia|destruct (b1 =b "-"%byte); lia|].
    intros cur n P L. cbv beta in *. destruct (b1 =b "-"%byte); go.
  Qed.
  Lemma b_float_bytes c : 0 <= c <= len ->
    bnd (t_float_bytes len get cut c) (fun '(_, c') n => c + 4 <= c' <= len /\ n <= 2 * (c' - c) - 3) (2 * (len - c) + 5).
  Proof.
    intros H. unfold t_float_bytes. go. eapply bnd_bind; [apply b_scan; lia|lia|]. intros cur n P L. cbv beta in *. go.
  Qed.
  Lemma b_read_bool c : bnd (t_read_bool len get c) (fun _ n => 0 <= c /\ c + 4 <= len /\ n = 4) 4.
  Proof.
    unfold t_read_bool. go. eapply (bnd_bind _ _ (fun _ n => n = 0) 0); [|lia|]. { go. }
    intros v n P L. cbv beta in *. go.
  Qed.
  Lemma b_skip_string c : 0 <= c <= len ->
    bnd (t_skip_string len get cut c) (fun c' n => c + 7 <= c' <= len /\ n <= 2 * (c' - c) - 5) (2 * (len - c) + 5).
  Proof.
    intros H. unfold t_skip_string. go. eapply bnd_bind; [apply b_read_string; lia|lia|]. intros [s c'] n P L. cbv beta in *. go.
  Qed.
  Lemma b_skip_entries skip :
    (forall c, 0 <= c <= len -> bnd (skip c) (fun c' n => c + 2 <= c' <= len /\ n <= 2 * (c' - c)) (2 * (len - c) + 6)) ->
    forall n k c, 0 <= c <= len ->
    bnd (t_skip_entries skip n k c) (fun c' n => c <= c' <= len /\ n <= 2 * (c' - c)) (2 * (len - c) + 6).
  Proof.
    intros Hs n. induction n as [|n IH]; intros k c H; cbn [t_skip_entries]; cases; try (apply bnd_ok; cbv beta; lia); [unfold bnd; lia|].
    eapply bnd_bind; [apply Hs; lia|lia|]. intros c1 n1 P1 L1. cbv beta in *.
    eapply bnd_bind; [apply Hs; lia|lia|]. intros c2 n2 P2 L2. cbv beta in *.
    eapply bnd_weak; [apply IH; lia|lia|]. cbv beta. intros. lia.
  Qed.
  Lemma b_skip_array skip c d :
    (forall c, 0 <= c <= len -> bnd (skip c) (fun c' n => c + 2 <= c' <= len /\ n <= 2 * (c' - c)) (2 * (len - c) + 6)) ->
    0 <= c <= len ->
    bnd (t_skip_array len get cut skip c d) (fun c' n => c + 5 <= c' <= len /\ n <= 2 * (c' - c) - 3) (2 * (len - c) + 6).
  Proof.
    intros Hs H. unfold t_skip_array. go. eapply bnd_bind; [apply b_read_length; lia|lia|]. intros [l s] n P L. cbv beta in *. go.
    eapply bnd_bind; [apply b_skip_entries; [exact Hs|lia]|lia|]. intros c1 n1 P1 L1. cbv beta in *. go.
  Qed.
  Lemma b_skip_f : forall fuel c d, 0 <= c <= len ->
    bnd (t_skip_f len get cut fuel c d) (fun c' n => c + 2 <= c' <= len /\ n <= 2 * (c' - c)) (2 * (len - c) + 6).
  Proof.
    induction fuel as [|f IH]; intros c d H; cbn [t_skip_f]; [unfold bnd; lia|]. cbv zeta. go.
    - eapply bnd_bind; [apply b_class_name; lia|lia|]. intros c1 n P L. cbv beta in *.
      eapply bnd_weak; [apply b_skip_array; [intros; apply IH; lia|lia]|lia|]. cbv beta. intros. lia.
    - eapply bnd_weak; [apply b_skip_array; [intros; apply IH; lia|lia]|lia|]. cbv beta. intros. lia.
    - eapply bnd_weak; [apply b_skip_string; lia|lia|]. cbv beta. intros. lia.
    - eapply bnd_bind; [apply b_float_bytes; lia|lia|]. intros [s c1] n P L. cbv beta in *. go.
    - eapply bnd_bind; [apply b_integer; lia|lia|]. intros [s c1] n P L. cbv beta in *. go.
    - eapply bnd_bind; [apply b_read_bool|lia|]. intros v n P L. cbv beta in *. go.
    - eapply bnd_bind; [apply b_null; lia|lia|]. intros v n P L. cbv beta in *. go.
  Qed.
  Lemma b_skip c d : 0 <= c <= len ->
    bnd (t_skip len get cut c d) (fun c' n => c + 2 <= c' <= len /\ n <= 2 * (c' - c)) (2 * (len - c) + 6).
  Proof. apply b_skip_f. Qed.
  Lemma b_read_int c : 0 <= c <= len ->
    bnd (t_read_int len get cut c) (fun '(_, c') n => c + 4 <= c' <= len /\ n <= 2 * (c' - c) - 1) (2 * (len - c) + 5).
  Proof.
    intros H. unfold t_read_int. eapply bnd_bind; [apply b_integer; lia|lia|]. intros [s c1] n P L. cbv beta in *.
    destruct (parse_int64 s) as [v|]; go.
  Qed.
  (** the texts of numbers and strings *)
  Definition text_ok (c : Z) (m : T (option bytes * Z)) : Prop :=
    bnd m (fun '(_, c') n => c + 2 <= c' <= len /\ n + 2 <= 3 * (c' - c)) (2 * (len - c) + 6).
  Lemma b_string_bytes c : 0 <= c <= len -> text_ok c (t_string_bytes len get cut c).
  Proof.
    intros H. unfold text_ok, t_string_bytes. go.
    - eapply bnd_bind; [apply b_null; lia|lia|]. intros v n P L. cbv beta in *. go.
    - eapply bnd_bind; [apply b_read_string; lia|lia|]. intros [s c1] n P L. cbv beta in *. go.
  Qed.
  Lemma b_int_bytes c : 0 <= c <= len -> text_ok c (t_int_bytes len get cut c).
  Proof.
    intros H. unfold text_ok, t_int_bytes. go.
    - eapply bnd_bind; [apply b_null; lia|lia|]. intros v n P L. cbv beta in *. go.
    - eapply bnd_bind; [apply b_integer; lia|lia|]. intros [s c1] n P L. cbv beta in *. go.
  Qed.
  Lemma b_dec_float_bytes c : 0 <= c <= len -> text_ok c (t_dec_float_bytes len get cut c).
  Proof.
    intros H. unfold text_ok, t_dec_float_bytes. go.
    - eapply bnd_bind; [apply b_null; lia|lia|]. intros v n P L. cbv beta in *. go.
    - eapply bnd_bind; [apply b_float_bytes; lia|lia|]. intros [s c1] n P L. cbv beta in *. go.
  Qed.

  (** ** Decoders *)

  (** Together with [q] bytes, four for each byte of the input passed over. *)
  Definition wn {V} (m : tres V) (c q : Z) : Prop :=
    match m with
    | (_, ROk c', n) => 0 <= n /\ c + 2 <= c' <= len /\ n + q <= 4 * (c' - c)
    | (_, _, n) => 0 <= n /\ n + q <= 4 * (len - c) + 12
    end.
  Lemma wn_on {A V} (m : T A) (v : V) k c q ok bad :
    bnd m ok bad -> bad + q <= 4 * (len - c) + 12 ->
    (forall a n, 0 <= n -> ok a n -> wn (k a) c (q + n)) -> wn (t_on m v k) c q.
  Proof.
    intros H L K. destruct m as [[a|e|p|] n]; cbn [t_on bnd wn fail] in *; try lia.
    destruct H as [H0 H1]. specialize (K a n H0 H1). destruct (k a) as [[v' [c'|e|p|]] n']; cbn [wn] in *; lia.
  Qed.
  Lemma wn_then {U V} (m : tres U) (bad : U -> V) k c q c1 q1 :
    wn m c1 q1 -> q - q1 <= 4 * (c1 - c) ->
    (forall u c' n, 0 <= n -> c1 + 2 <= c' <= len -> n + q1 <= 4 * (c' - c1) -> wn (k u c') c (q + n)) ->
    wn (t_then m bad k) c q.
  Proof.
    intros H L K. destruct m as [[u [c'|e|p|]] n]; cbn [t_then wn fail] in *; try lia.
    destruct H as (H0 & H1 & H2). specialize (K u c' n H0 H1 H2). destruct (k u c') as [[v' [c2|e|p|]] n']; cbn [wn] in *; lia.
  Qed.
  Lemma wn_map {U V} (g : U -> V) (m : tres U) c q : wn m c q -> wn (t_map g m) c q.
  Proof. destruct m as [[u [c'|e|p|]] n]; exact (fun H => H). Qed.
  Lemma wn_shift {V} (m : tres V) c q c1 q1 : wn m c1 q1 -> c <= c1 -> q - q1 <= 4 * (c1 - c) -> wn m c q.
  Proof. destruct m as [[u [c'|e|p|]] n]; cbn [wn]; lia. Qed.
  Lemma wn_ok {V} (v : V) c' c q : c + 2 <= c' <= len -> q <= 4 * (c' - c) -> wn (t_free v (ROk c')) c q.
  Proof. cbn. lia. Qed.
  Lemma wn_err {V} (v : V) e c q : q <= 4 * (len - c) + 12 -> wn (t_free v (RErr e)) c q.
  Proof. cbn. lia. Qed.
  Lemma wn_panic {V} (v : V) e c q : q <= 4 * (len - c) + 12 -> wn (t_free v (RPanic e)) c q.
  Proof. cbn. lia. Qed.

  Ltac st :=
    match goal with
    | |- wn (t_free _ (ROk _)) _ _ => apply wn_ok; lia
    | |- wn (t_free _ (RErr _)) _ _ => apply wn_err; lia
    | |- wn (t_free _ (RPanic _)) _ _ => apply wn_panic; lia
    | |- wn (t_on (look get _) _ _) _ _ =>
        eapply wn_on; [apply b_look|lia|intros ?b ?n _ ?L; cbv beta in *; subst; cbv beta zeta]
    | |- wn (t_on (t_null len get _) _ _) _ _ =>
        eapply wn_on; [apply b_null; lia|lia|intros ?b ?n ?P ?L; cbv beta in *; cbv beta zeta]
    | |- wn (t_on (t_read_bool len get _) _ _) _ _ =>
        eapply wn_on; [apply b_read_bool|lia|intros ?b ?n ?P ?L; cbv beta in *; cbv beta zeta]
    | |- wn (if _ then _ else _) _ _ => cases; try lia
    end.
  Ltac sts := repeat st.

  (** processing the text does not move the cursor *)
  Definition tame (process : bytes -> Z -> gval -> dres) : Prop :=
    forall b c rv, match snd (process b c rv) with ROk c' => c' = c | _ => True end.
  Lemma w_text m p rv c : 0 <= c <= len -> text_ok c m -> tame p -> wn (t_text m p rv) c 4.
  Proof.
    intros H Hm Hp. unfold t_text. destruct m as [[[[b|] c']|e|q|] n]; cbn [dec_text fail]; unfold text_ok, bnd in Hm; cbn [wn]; try lia.
    specialize (Hp b c' rv). destruct (p b c' rv) as [v [c2|e|q|]]; cbn [snd wn] in *; subst; lia.
  Qed.
  Lemma tame_int k : tame (process_int k).
  Proof. intros b c rv. unfold process_int. destruct (parse_int64 b); [destruct (_ || _)|]; exact I || reflexivity. Qed.
  Lemma tame_uint k : tame (process_uint k).
  Proof. intros b c rv. unfold process_uint. destruct (parse_uint64 b); [destruct (_ <? _)|]; exact I || reflexivity. Qed.
  Lemma tame_float X b : tame (process_float X b).
  Proof. intros t c rv. unfold process_float. destruct (parse_float X t); [destruct b; [destruct (overflow_f32 _)|]|]; exact I || reflexivity. Qed.
  Lemma w_int k c rv : 0 <= c <= len -> wn (t_int len get cut k c rv) c 4.
  Proof. intros H. apply w_text; [exact H|apply b_int_bytes, H|apply tame_int]. Qed.
  Lemma w_uint k c rv : 0 <= c <= len -> wn (t_uint len get cut k c rv) c 4.
  Proof. intros H. apply w_text; [exact H|apply b_int_bytes, H|apply tame_uint]. Qed.
  Lemma w_float X b c rv : 0 <= c <= len -> wn (t_float len get cut X b c rv) c 4.
  Proof. intros H. apply w_text; [exact H|apply b_dec_float_bytes, H|apply tame_float]. Qed.
  Lemma w_string c rv : 0 <= c <= len -> wn (t_string len get cut c rv) c 4.
  Proof. intros H. apply w_text; [exact H|apply b_string_bytes, H|intros ? ? ?; reflexivity]. Qed.
  Lemma w_bool c rv : 0 <= c <= len -> wn (t_bool len get c rv) c 4.
  Proof. intros H. unfold t_bool. sts. Qed.

  (** where a header leaves off *)
  Definition hdr_end (h : hdr) : Z := match h with HNull c => c | HBody c => c end.
  Definition ahdr_end (h : ahdr) : Z := match h with AhNull c | AhEmpty c | AhBody _ c => c end.
  Definition head_ok {H} (f : H -> Z) (c : Z) (m : T H) : Prop :=
    bnd m (fun h n => c + 2 <= f h <= len /\ n + 1 <= 2 * (f h - c)) (2 * (len - c) + 7).
  Lemma b_map_header c d : 0 <= c <= len -> head_ok hdr_end c (t_map_header len get cut c d).
  Proof.
    intros H. unfold head_ok, t_map_header. go.
    - eapply bnd_bind; [apply b_null; lia|lia|]. intros v n P L. cbv beta in *. apply bnd_ok. cbn [hdr_end]. lia.
    - eapply (bnd_bind _ _ (fun c' n => c + 1 <= c' <= len /\ n <= 2 * (c' - c) - 2) (2 * (len - c) + 5)); [|lia|].
      { go. eapply bnd_bind; [apply b_class_name; lia|lia|]. intros c1 n P L. cbv beta in *. go. }
      intros c1 n P L. cbv beta in *. eapply bnd_bind; [apply b_read_length; lia|lia|]. intros [l s] n1 P1 L1. cbv beta in *. go.
      cbn [hdr_end]. lia.
  Qed.
  Lemma b_struct_header c d : 0 <= c <= len -> head_ok hdr_end c (t_struct_header len get cut c d).
  Proof.
    intros H. unfold head_ok, t_struct_header. go.
    - eapply bnd_bind; [apply b_null; lia|lia|]. intros v n P L. cbv beta in *. apply bnd_ok. cbn [hdr_end]. lia.
    - eapply (bnd_bind _ _ (fun c' n => c + 1 <= c' <= len /\ n <= 2 * (c' - c) - 2) (2 * (len - c) + 5)); [|lia|].
      { go. eapply bnd_bind; [apply b_class_name; lia|lia|]. intros c1 n P L. cbv beta in *. go. }
      intros c1 n P L. cbv beta in *. go. eapply bnd_bind; [apply b_skip_length; lia|lia|]. intros s n1 P1 L1. cbv beta in *. go.
      cbn [hdr_end]. lia.
  Qed.
  Lemma b_seq_header w c d : 0 <= c <= len -> head_ok ahdr_end c (t_seq_header len get cut w c d).
  Proof.
    intros H. unfold head_ok, t_seq_header. go.
    - eapply bnd_bind; [apply b_null; lia|lia|]. intros v n P L. cbv beta in *. apply bnd_ok. cbn [ahdr_end]. lia.
    - eapply bnd_bind; [apply b_empty_array; lia|lia|]. intros v n P L. cbv beta in *. apply bnd_ok. cbn [ahdr_end]. lia.
    - eapply bnd_bind; [apply b_read_length; lia|lia|]. intros [l s] n1 P1 L1. cbv beta in *. go. cbn [ahdr_end]. lia.
  Qed.
  Lemma b_slice_header c d : 0 <= c <= len ->
    bnd (t_slice_header len get cut c d) (fun h n => c + 2 <= ahdr_end h <= len /\ n <= 2 * (ahdr_end h - c)) (2 * (len - c) + 8).
  Proof.
    intros H. unfold t_slice_header. destruct (_ && _).
    - go. eapply bnd_weak; [apply b_seq_header; lia|lia|]. cbv beta. intros. lia.
    - eapply bnd_weak; [apply b_seq_header; lia|lia|]. cbv beta. intros. lia.
  Qed.

  Lemma w_map_loop kd vd :
    (forall c, 0 <= c <= len -> wn (kd c) c 1) -> (forall c, 0 <= c <= len -> wn (vd c) c 1) ->
    forall n c m, 0 <= c <= len -> wn (t_map_loop len get kd vd n c m) c 0.
  Proof.
    intros Hk Hv n. induction n as [|n IH]; intros c m H; cbn [t_map_loop]; [unfold wn, t_free; lia|]. sts.
    eapply wn_then; [apply Hk; lia|lia|]. intros k c1 n1 P1 L1 G1. sts.
    eapply wn_then; [apply Hv; lia|lia|]. intros v c2 n2 P2 L2 G2. cbv zeta. sts.
    eapply wn_shift; [apply IH; lia|lia|lia].
  Qed.
  Lemma w_dec_map kd vd c d rv :
    (forall c, 0 <= c <= len -> wn (kd c) c 1) -> (forall c, 0 <= c <= len -> wn (vd c) c 1) ->
    0 <= c <= len -> wn (t_dec_map len get cut kd vd c d rv) c 4.
  Proof.
    intros Hk Hv H. unfold t_dec_map. eapply wn_on; [apply b_map_header; lia|lia|]. intros h n P L. cbv beta in *.
    destruct h as [c1|c1]; cbn [hdr_end] in L; [sts|]. destruct rv; try (sts; fail). cbv zeta. sts.
    apply wn_map. eapply wn_shift; [apply w_map_loop; [exact Hk|exact Hv|lia]|lia|lia].
  Qed.
  Lemma w_any_key c : 0 <= c <= len -> wn (t_any_key len get cut c) c 3.
  Proof.
    intros H. unfold t_any_key. sts.
    - eapply wn_then; [apply w_string; lia|lia|]. intros. sts.
    - eapply wn_then; [apply w_int; lia|lia|]. intros. sts.
  Qed.
  Lemma w_any_f X : forall fuel c d rv, 0 <= c <= len -> wn (t_any_f len get cut X fuel c d rv) c 3.
  Proof.
    induction fuel as [|f IH]; intros c d rv H; cbn [t_any_f]; [unfold wn, t_free; lia|]. cbv zeta. sts.
    - eapply wn_then; [apply w_dec_map; [intros c0 H0; eapply wn_shift; [apply w_string; lia|lia|lia]|intros c0 H0; eapply wn_shift; [apply IH; lia|lia|lia]|lia]|lia|]. intros. sts.
    - eapply wn_then; [apply w_dec_map; [intros c0 H0; eapply wn_shift; [apply w_any_key; lia|lia|lia]|intros c0 H0; eapply wn_shift; [apply IH; lia|lia|lia]|lia]|lia|]. intros. sts.
    - eapply wn_then; [apply w_float; lia|lia|]. intros. sts.
    - eapply wn_on; [apply b_read_string; lia|lia|]. intros [s c1] n P L. cbv beta in *. sts.
    - eapply wn_then; [apply w_int; lia|lia|]. intros. sts.
  Qed.
  Lemma w_any X c d rv : 0 <= c <= len -> wn (t_any len get cut X c d rv) c 3.
  Proof. apply w_any_f. Qed.

  Lemma b_raw c d : 0 <= c <= len ->
    bnd (t_raw len get cut c d) (fun '(_, c') n => c + 2 <= c' <= len /\ n <= 3 * (c' - c)) (3 * (len - c) + 6).
  Proof.
    intros H. unfold t_raw. eapply bnd_bind; [apply b_skip; lia|lia|]. intros c1 n P L. cbv beta in *. go.
  Qed.
  Lemma w_unm X E n c d rv : 0 <= c <= len -> wn (t_unm len get cut X E n c d rv) c 2.
  Proof.
    intros H. unfold t_unm. eapply wn_on; [apply b_raw; lia|lia|]. intros [src c1] n1 P L. cbv beta in *. cbv zeta.
    destruct src as [|b src]; [destruct (x_unmarshal _ _ _ _) as [v []]; sts|]. sts. destruct (x_unmarshal _ _ _ _) as [v []]; sts.
  Qed.
  Lemma w_iface X E c d rv : 0 <= c <= len -> wn (t_iface len get cut X E c d rv) c 2.
  Proof.
    intros H. unfold t_iface. cbv zeta.
    assert (forall rv', wn (t_on (look get c) rv' (fun b => if b =b "N"%byte
        then t_on (t_null len get c) rv' (fun _ => t_free (VIface None) (ROk (c + 2))) else t_free rv' (RErr (EType c)))) c 2) as P.
    { intros rv'. sts. }
    destruct rv as [| | | | | | | | | |[[t v]|]| |]; try (apply P).
    destruct t; try (apply P). destruct v as [| | | | | | | | |p| | |]; try (apply P).
    destruct (has_unmarshal E t) as [n|]; [|apply P]. eapply wn_on; [apply b_raw; lia|lia|]. intros [src c1] n1 P1 L. cbv beta in *.
    sts. destruct p as [old|]; [|sts]. destruct (x_unmarshal _ _ _ _) as [v []]; sts.
  Qed.
  Lemma w_key X E kt c d : 0 <= c <= len -> wn (t_key len get cut X E kt c d) c 2.
  Proof.
    intros H. unfold t_key. cbv zeta. destruct (key_node E kt) as [n| | |k|k| | |nd|].
    - apply w_unm, H.
    - eapply wn_shift; [apply w_string, H|lia|lia].
    - eapply wn_shift; [apply w_bool, H|lia|lia].
    - eapply wn_shift; [apply w_int, H|lia|lia].
    - eapply wn_shift; [apply w_uint, H|lia|lia].
    - eapply wn_shift; [apply w_any, H|lia|lia].
    - apply w_iface, H.
    - assert (wn (t_then (t_any len get cut X c d VOther) (fun _ => zero E kt) (fun v c0 =>
                 match v with VIface (Some _) => t_free (zero E kt) (RPanic PReflect) | _ => t_free (zero E kt) (ROk c0) end)) c 2) as P.
      { eapply wn_then; [apply w_any, H|lia|]. intros v c1 n P L G. destruct v as [| | | | | | | | | |[o|]| |]; sts. }
      destruct nd; try (apply P).
      + eapply wn_shift; [apply w_text; [exact H|apply b_int_bytes, H|]|lia|lia]. intros b c1 rv. destruct (parse_uint64 b); exact I.
      + eapply wn_shift; [apply w_text; [exact H|apply b_int_bytes, H|]|lia|lia]. intros b c1 rv. destruct (parse_int64 b); exact I.
      + eapply wn_shift; [apply w_text; [exact H|apply b_string_bytes, H|]|lia|lia]. intros b c1 rv. exact I.
      + eapply wn_then; [apply w_bool, H|lia|]. intros v c1 n P1 L G. destruct v; sts.
    - sts.
  Qed.

  (** what an element decoder must do *)
  Definition elem_ok (ed : Z -> gval -> tres gval) : Prop := forall c v, 0 <= c <= len -> wn (ed c v) c 1.
  Lemma w_slice_loop X E et ed : elem_ok ed ->
    forall n c l rv, 0 <= c <= len -> wn (t_slice_loop len get cut X E et ed n c l rv) c 0.
  Proof.
    intros He n. induction n as [|n IH]; intros c l rv H; cbn [t_slice_loop]; [unfold wn, t_free; lia|]. cbv zeta. sts.
    eapply wn_on; [apply b_read_int; lia|lia|]. intros [idx c1] n1 P1 L1. cbv beta in *. sts.
    - eapply wn_then; [apply He; lia|lia|]. intros v c2 n2 P2 L2 G2. sts. eapply wn_shift; [apply IH; lia|lia|lia].
    - eapply wn_then; [apply He; lia|lia|]. intros v c2 n2 P2 L2 G2. sts. eapply wn_shift; [apply IH; lia|lia|lia].
  Qed.
  Lemma w_slice X E et ed c d rv : elem_ok ed -> 0 <= c <= len -> wn (t_slice len get cut X E et ed c d rv) c 4.
  Proof.
    intros He H. unfold t_slice. eapply wn_on; [apply b_slice_header; lia|lia|]. intros h n P L. cbv beta in *.
    destruct h as [c1|c1|k c1]; cbn [ahdr_end] in L; sts. eapply wn_shift; [apply w_slice_loop; [exact He|lia]|lia|lia].
  Qed.
  Lemma w_array_loop ed d : elem_ok ed ->
    forall n c l, 0 <= c <= len -> wn (t_array_loop len get cut ed d n c l) c 0.
  Proof.
    intros He n. induction n as [|n IH]; intros c l H; cbn [t_array_loop]; [unfold wn, t_free; lia|]. cbv zeta. sts.
    eapply wn_on; [apply b_read_int; lia|lia|]. intros [idx c1] n1 P1 L1. cbv beta in *. sts.
    - eapply wn_then; [apply He; lia|lia|]. intros v c2 n2 P2 L2 G2. sts. eapply wn_shift; [apply IH; lia|lia|lia].
    - eapply wn_on; [apply b_skip; lia|lia|]. intros c2 n2 P2 L2. cbv beta in *. sts. eapply wn_shift; [apply IH; lia|lia|lia].
  Qed.
  Lemma b_zeroed c d : bnd (t_zeroed len get c d) (fun _ n => n <= 2) 0.
  Proof. unfold t_zeroed, look. destruct (_ && _); unfold bnd, t_ok; lia. Qed.
  Lemma w_array E n et ed c d rv : elem_ok ed -> 0 <= c <= len -> wn (t_array len get cut E n et ed c d rv) c 3.
  Proof.
    intros He H. unfold t_array. cbv zeta. eapply wn_on; [apply b_zeroed|lia|]. intros z n0 P0 L0. cbv beta in *.
    eapply wn_on; [apply b_seq_header; lia|lia|]. intros h n1 P1 L1. cbv beta in *.
    destruct h as [c1|c1|k c1]; cbn [ahdr_end] in L1; sts. apply wn_map. eapply wn_shift; [apply w_array_loop; [exact He|lia]|lia|lia].
  Qed.
  Lemma w_struct_loop decs fd d : (forall x, elem_ok (fd x)) ->
    forall n c l, 0 <= c <= len -> wn (t_struct_loop len get cut decs fd d n c l) c 0.
  Proof.
    intros He n. induction n as [|n IH]; intros c l H; cbn [t_struct_loop]; [unfold wn, t_free; lia|]. cbv zeta. sts.
    eapply wn_on; [apply b_string_bytes; lia|lia|]. intros [key c1] n1 P1 L1. cbv beta in *. sts.
    destruct (find_field _ decs) as [x|].
    - destruct (nth_error l (fd_idx x)) as [v0|]; [|sts].
      eapply wn_then; [apply He; lia|lia|]. intros v c2 n2 P2 L2 G2. sts. eapply wn_shift; [apply IH; lia|lia|lia].
    - eapply wn_on; [apply b_skip; lia|lia|]. intros c2 n2 P2 L2. cbv beta in *. sts. eapply wn_shift; [apply IH; lia|lia|lia].
  Qed.
  Lemma w_struct decs fd c d rv : (forall x, elem_ok (fd x)) -> 0 <= c <= len -> wn (t_struct len get cut decs fd c d rv) c 4.
  Proof.
    intros He H. unfold t_struct. eapply wn_on; [apply b_struct_header; lia|lia|]. intros h n P L. cbv beta in *.
    destruct h as [c1|c1]; cbn [hdr_end] in L; [sts|]. destruct rv; try (sts; fail). sts.
    apply wn_map. eapply wn_shift; [apply w_struct_loop; [exact He|lia]|lia|lia].
  Qed.
  Lemma w_ptr E t ed c rv : (forall v, wn (ed c v) c 2) -> 0 <= c <= len -> wn (t_ptr len get E t ed c rv) c 1.
  Proof. intros He H. unfold t_ptr. sts. destruct rv; try (sts; fail). apply wn_map, He. Qed.
  Lemma w_wrapped X nd c rv : 0 <= c <= len -> wn (t_wrapped len get cut X nd c rv) c 4.
  Proof.
    intros H. unfold t_wrapped. apply w_text; [exact H|apply b_string_bytes, H|]. intros b c1 v.
    destruct nd; try exact I.
    - destruct (process_uint k b c v) as [v' []]; exact I || reflexivity.
    - destruct (process_int k b c v) as [v' []]; exact I || reflexivity.
    - destruct (parse_bool b); exact I || reflexivity.
    - destruct (process_float X true b c v) as [v' []]; exact I || reflexivity.
    - destruct (process_float X false b c v) as [v' []]; exact I || reflexivity.
  Qed.
  Lemma w_bytes sd c rv : (forall v, wn (sd v) c 4) -> 0 <= c <= len -> wn (t_bytes len get cut sd c rv) c 3.
  Proof.
    intros Hs H. unfold t_bytes. sts. { apply Hs. }
    apply w_text; [exact H|apply b_string_bytes, H|]. intros b0 c1 v. reflexivity.
  Qed.

  (** A pointer's decoder looks at one byte before the pointee's does; there are no
      pointers to pointers. *)
  Definition slack (E : env) (t : gty) : Z := match node_of E t with NPtr _ => 1 | _ => 2 end.
  Lemma slack_ge E t : 1 <= slack E t.
  Proof. unfold slack. destruct (node_of E t); lia. Qed.
  Lemma node_ptr E t t' : node_of E t = NPtr t' -> kind_of E t = KPtr t'.
  Proof.
    unfold node_of. destruct (has_unmarshal E t); [discriminate|]. destruct (kind_of E t); try discriminate; try congruence.
    destruct (kind_of E t0) as [| |[]| | | | | | | | | | |]; discriminate.
  Qed.
  Theorem w_decode_f X E : forall fuel t c d rv, 0 <= c <= len -> wn (t_decode_f len get cut X E fuel t c d rv) c (slack E t).
  Proof.
    induction fuel as [|f IH]; intros t c d rv H; cbn [t_decode_f].
    { unfold wn, t_free, slack. destruct (node_of E t); lia. }
    cbv zeta. assert (forall et d', elem_ok (fun c v => t_decode_f len get cut X E f et c d' v)) as He.
    { intros et d' c0 v0 H0. pose proof (slack_ge E et). eapply wn_shift; [apply IH, H0|lia|lia]. }
    unfold slack. destruct (node_of E t) as [n|t0|id fs|t0|t0|n t0|kt vt| | |uk|ik| | | | |] eqn:N.
    - apply w_unm, H.
    - destruct (kind_of E t0) as [| | | | | | | | |t1| | | |] eqn:K;
        try (apply w_ptr; [intros v00; pose proof (IH t0 c d v00 H) as W; unfold slack in W;
          destruct (node_of E t0) eqn:N0; try exact W; apply node_ptr in N0; congruence|exact H]). sts.
    - eapply wn_shift; [apply w_struct; [|exact H]|lia|lia]. intros x c0 v0 H0. destruct (fd_str x); [|apply He, H0].
      assert (forall nd v, wn (t_wrapped len get cut X nd c0 v) c0 2) as W.
      { intros nd v. eapply wn_shift; [apply w_wrapped, H0|lia|lia]. }
      destruct (node_of E (fd_ty x)); try (eapply wn_shift; [apply W|lia|lia]). apply w_ptr; [apply W|exact H0].
    - eapply wn_shift; [apply w_bytes; [intros v; apply w_slice; [apply He|exact H]|exact H]|lia|lia].
    - eapply wn_shift; [apply w_slice; [apply He|exact H]|lia|lia].
    - eapply wn_shift; [apply w_array; [apply He|exact H]|lia|lia].
    - eapply wn_shift; [apply w_dec_map; [intros c0 H0|intros c0 H0|exact H]|lia|lia].
      + eapply wn_shift; [apply w_key, H0|lia|lia].
      + apply He, H0.
    - eapply wn_shift; [apply w_any, H|lia|lia].
    - apply w_iface, H.
    - eapply wn_shift; [apply w_uint, H|lia|lia].
    - eapply wn_shift; [apply w_int, H|lia|lia].
    - eapply wn_shift; [apply w_string, H|lia|lia].
    - eapply wn_shift; [apply w_bool, H|lia|lia].
    - eapply wn_shift; [apply w_float, H|lia|lia].
    - eapply wn_shift; [apply w_float, H|lia|lia].
    - sts.
  Qed.
End Bounds.

(** The copy of the input, and four times the input. *)
Theorem t_unmarshal_linear X E cf data t v : blen data < 2 ^ 62 ->
  snd (t_unmarshal X E cf data t v) <= 5 * blen data + 12.
Proof.
  intros S. unfold t_unmarshal. assert (0 <= blen data) as B by apply Nat2Z.is_nonneg.
  destruct data as [|b0 data0]; [cbn [snd]; lia|]. remember (b0 :: data0) as data eqn:Hd. clear Hd.
  destruct (compile_f X E cf [] t) as [u|e|p|]; cbn [snd]; try lia.
  pose proof (w_decode_f (blen data) (rd data) (sub data) (conj B S) X E (decode_fuel data) t 0 0 v (conj (Z.le_refl 0) B)) as W.
  pose proof (slack_ge E t) as G.
  destruct (t_decode_f _ _ _ _ _ _ _ _ _ _) as [[v' [c|e|p|]] n]; cbn [wn] in W; cbn [fail]; try (cbn [snd]; lia).
  unfold t_end, t_bind, look, t_err, t_ok. destruct (_ =? _); [cbn [snd]; lia|]. destruct (rd data c); cbn [snd]; lia.
Qed.
