(** What the messages of the decoder's syntax errors say. *)
From Coq Require Import Strings.String Strings.Byte ZArith List Bool Lia Floats.SpecFloat.
From Verif Require Import Base GoTypes Strconv Tags Scan Decode Grammar Denote NumFacts ScanFacts Offsets OffsetFacts Says.
Import ListNotations.
Open Scope Z_scope.

Section Says.
  Context (buf : bytes) (Hsm : small buf).
  Let within (o : Z) : Prop := 0 <= o <= blen buf.
  Definition told (e : error) : Prop := match e with ESyntax o w => claims buf o w | _ => True end.
  Definition T {A} (P : A -> Prop) (r : R A) : Prop := match r with ROk a => P a | RErr e => told e | _ => True end.
  Definition snd_in {A} (p : A * Z) : Prop := within (snd p).
  Lemma T_bind {A B} (P : A -> Prop) (Q : B -> Prop) (r : R A) (k : A -> R B) :
    T P r -> (forall a, P a -> T Q (k a)) -> T Q (bind r k).
  Proof. intros g h. destruct r; cbn [bind T] in *; auto. Qed.
  Lemma T_fail {A B} (P : A -> Prop) (Q : B -> Prop) (r : R A) : T P r -> T Q (fail r).
  Proof. destruct r; cbn; auto. Qed.
  Lemma T_weaken {A} (P Q : A -> Prop) (r : R A) : (forall a, P a -> Q a) -> T P r -> T Q r.
  Proof. intros h. destruct r; cbn; auto. Qed.
  Lemma T_end {A} (P : A -> Prop) o w : within o -> blen buf < o + 4 -> T P (RErr (ESyntax o (WEnd w))).
  Proof. intros h k. left. split; assumption. Qed.
  Lemma T_rd i : T (fun x => byte_at buf i x) (rd buf i).
  Proof.
    unfold rd. destruct (0 <=? i) eqn:E0; [|exact I]. apply Z.leb_le in E0.
    destruct (nth_error buf (Z.to_nat i)) eqn:E1; [|exact I]. split; assumption.
  Qed.
  Lemma at_in i x : byte_at buf i x -> 0 <= i < blen buf.
  Proof. intros [h k]. assert (Z.to_nat i < length buf)%nat as L by (apply nth_error_Some; congruence). unfold blen. lia. Qed.
  Lemma pos_at i x s : pos buf i (x :: s) -> byte_at buf i x.
  Proof.
    intros (pre & E & L). split; [unfold blen in L; lia|]. rewrite E, nth_error_app2 by (unfold blen in L; lia).
    replace (Z.to_nat i - length pre)%nat with 0%nat by (unfold blen in L; lia). reflexivity.
  Qed.
  Lemma at_det i x y : byte_at buf i x -> byte_at buf i y -> x = y.
  Proof. intros [_ h] [_ k]. congruence. Qed.
  Lemma at_pos i x : byte_at buf i x -> exists s, pos buf i (x :: s).
  Proof.
    intros h. pose proof (at_in i x h) as L. destruct (pos_ex buf i ltac:(lia)) as (s & Hs). destruct s as [|y s].
    - apply pos_len in Hs. rewrite blen_nil in Hs. lia.
    - pose proof (at_det i x y h (pos_at i y s Hs)). subst y. exists s. exact Hs.
  Qed.
  Lemma pos_text i s r : pos buf i (s ++ r) -> text_at buf i s.
  Proof. intros (pre & E & L). exists pre, r. auto. Qed.
  (** [s] after [x] *)
  Lemma pos_back i x s : byte_at buf i x -> pos buf (i + 1) s -> pos buf i (x :: s).
  Proof. intros h k. destruct (at_pos i x h) as (s' & Hs). pose proof (pos_cons _ _ _ _ Hs) as H1. now rewrite (pos_det _ _ _ _ k H1). Qed.
  Lemma pos_in i s : pos buf i s -> within i.
  Proof. intros h. pose proof (pos_nonneg _ _ _ h). pose proof (pos_len _ _ _ h). pose proof (blen_nonneg s). unfold within. lia. Qed.
  Lemma has_out c : has_byte buf c = false -> within c -> blen buf < c + 4.
  Proof. unfold has_byte, within. rewrite andb_false_iff, Z.leb_gt, Z.ltb_ge. lia. Qed.
  Lemma has_in c : has_byte buf c = true -> 0 <= c < blen buf.
  Proof. unfold has_byte. rewrite andb_true_iff, Z.leb_le, Z.ltb_lt. tauto. Qed.
  Lemma hass_in c n : has_bytes buf c n = true -> 0 <= c /\ 0 <= n /\ c + n <= blen buf.
  Proof. unfold has_bytes. rewrite !andb_true_iff, !Z.leb_le. lia. Qed.
  Lemma hass_out c n : has_bytes buf c n = false -> 0 <= c -> 0 <= n -> blen buf < c + n.
  Proof. unfold has_bytes. rewrite !andb_false_iff, !Z.leb_gt. lia. Qed.

  Lemma T_sub {A} (P : A -> Prop) a b k : (forall s, T P (k s)) -> T P (bind (sub buf a b) k).
  Proof. intros h. unfold sub. destruct (_ && _); cbn [bind]; [apply h|exact I]. Qed.
  Ltac inr := unfold snd_in, within in *; cbn [fst snd] in *;
    repeat match goal with H : byte_at buf ?i ?x |- _ => let L := fresh "L" in pose proof (at_in i x H) as L; revert H end; intros; lia.
  Ltac find_in := first [left; reflexivity | right; find_in].
  Ltac not_in := let Q := fresh "Q" in intros Q;
    repeat match goal with H : (_ =b _)%byte = false |- _ => apply eqb_neq in H end;
    cbn [In] in Q; intuition congruence.
  Ltac say := cbn [T told claims]; first
    [ eexists; split; [find_in|split; [eassumption|not_in]]
    | split; [reflexivity|split; [eassumption|not_in]]
    | split; [eassumption|not_in]
    | left; eassumption
    | eassumption ].
  (** one step: a test, a read, or an end *)
  Ltac go1 := match goal with
    | |- T _ (if negb (has_byte buf ?c) then _ else _) =>
        let H := fresh "Hb" in destruct (has_byte buf c) eqn:H; cbn [negb]; [apply has_in in H|apply has_out in H; [apply T_end; inr|inr]]
    | |- T _ (if negb (has_bytes buf ?c ?n) then _ else _) =>
        let H := fresh "Hb" in destruct (has_bytes buf c n) eqn:H; cbn [negb]; [apply hass_in in H|apply hass_out in H; [apply T_end; inr|inr|inr]]
    | |- T _ (if negb ?b then _ else _) => let H := fresh "Hi" in destruct b eqn:H; cbn [negb]
    | |- T _ (bind (rd buf ?c) _) => eapply T_bind; [apply T_rd|]; let x := fresh "x" in let H := fresh "Hr" in intros x H; cbn beta in *
    | |- T _ (if ?b then _ else _) => let H := fresh "Hi" in destruct b eqn:H
    | |- T _ (RErr (ESyntax _ (WEnd _))) => apply T_end; inr
    | |- T _ (RErr (ESyntax _ _)) => say
    | |- T _ (RErr _) => exact I
    | |- T _ (RPanic _) => exact I
    | |- T _ RFuel => exact I
    | |- T _ (ROk _) => cbn [T]; try exact I; try inr
    end.
  Ltac go := repeat go1.

  (** ** Reading *)
  Lemma T_skip_length c : within c -> T (fun c' => exists ds s', numeral ds /\
    pos buf c (":"%byte :: ds ++ ":"%byte :: s') /\ c' = c + blen ds + 2 /\ pos buf c' s') (skip_length buf c).
  Proof.
    intros Hc. unfold skip_length. go1. go1. go1; [|go]. apply eqb_eq in Hi. subst x.
    destruct (at_pos _ _ Hr) as (s & H). pose proof (pos_cons _ _ _ _ H) as H1.
    destruct (scan_while_ex is_digit _ _ _ H1) as (a & r & -> & Ha & Hr' & ->). cbn [bind].
    pose proof (pos_app _ _ a r _ H1 eq_refl) as H2.
    destruct (c + 1 + blen a =? c + 1) eqn:E0.
    { apply Z.eqb_eq in E0. assert (a = []) as -> by (apply blen_zero; lia). rewrite blen_nil, Z.add_0_r in *.
      cbn [T told claims]. left. split; [reflexivity|]. split; [replace (c + 1 - 1) with c by lia; exact Hr|].
      intros (x & Hx & Hd). destruct r as [|y r]; [apply pos_len in H2; rewrite blen_nil in H2; apply at_in in Hx; lia|].
      rewrite (at_det _ _ _ Hx (pos_at _ _ _ H2)) in Hd. congruence. }
    apply Z.eqb_neq in E0. pose proof (pos_in _ _ H2) as Hw. go1. go1. go1; [|go]. apply eqb_eq in Hi. subst x.
    destruct r as [|y r]; [apply pos_len in H2; rewrite blen_nil in H2; lia|].
    rewrite <- (at_det _ _ _ Hr0 (pos_at _ _ _ H2)) in *. cbn [T]. exists a, r. split; [split; [intros ->; apply E0; rewrite blen_nil; lia|exact Ha]|].
    split; [exact H|]. split; [lia|]. eapply pos_cons. exact H2.
  Qed.
  Lemma T_read_length c : within c -> T (fun p => exists ds s', numeral ds /\
    pos buf c (":"%byte :: ds ++ ":"%byte :: s') /\ fst p = num ds /\ 0 <= num ds <= max_int64 /\ snd p = c + blen ds + 2 /\ pos buf (snd p) s') (read_length buf c).
  Proof.
    intros Hc. unfold read_length. eapply T_bind; [apply T_skip_length, Hc|]. intros c' (ds & s' & Hn & H & -> & H').
    rewrite (pos_sub _ _ ds (":"%byte :: s')); [|eapply pos_cons; exact H|lia]. cbn [bind].
    pose proof (num_nonneg ds (proj2 Hn)) as Hnn.
    assert (max_int64 < num ds -> claims buf (c + 1) (WText "php-serialize: invalid length")) as K.
    { intros h. cbn [claims]. right; right; right; left. split; [reflexivity|]. exists ds. replace (c + 1 - 1) with c by lia.
      split; [|split; assumption]. apply (pos_text _ _ s'). change (bs ":" ++ ds ++ bs ":") with (":"%byte :: ds ++ [":"%byte]). cbn [app]. rewrite <- app_assoc. exact H. }
    rewrite parse_int64_num by exact Hn. destruct (num ds <=? max_int64) eqn:E; [|apply Z.leb_gt in E; apply K; lia].
    apply Z.leb_le in E. destruct (num ds <? 0) eqn:E0; [apply Z.ltb_lt in E0; lia|].
    cbn [T fst snd]. exists ds, s'. repeat split; auto; try apply Hn; lia.
  Qed.
  Lemma T_null c : byte_at buf c "N" -> T (fun _ => within (c + 2)) (validate_null buf c).
  Proof.
    intros Hc. unfold validate_null. pose proof (at_in _ _ Hc). destruct (blen buf <=? c + 1) eqn:Hl; [apply Z.leb_le in Hl; go|]. apply Z.leb_gt in Hl.
    go1. go1; [go|]. cbn [T told claims]. left. split; [reflexivity|]. split; [exact Hc|]. split; [exact Hr|]. apply eqb_neq, Hi.
  Qed.
  Lemma T_empty_array c : 0 <= c < blen buf -> T (fun _ => within (c + 4)) (validate_empty_array buf c).
  Proof.
    intros Hc. unfold validate_empty_array. destruct (blen buf <? c + 4) eqn:Hl; [apply Z.ltb_lt in Hl; go|]. apply Z.ltb_ge in Hl. go.
  Qed.
  Lemma T_read_string c : within c -> T (fun p => exists ds s',
    pos buf c (":"%byte :: ds ++ ":"%byte :: qt :: fst p ++ qt :: ";"%byte :: s') /\ pos buf (snd p) s') (read_string buf c).
  Proof.
    intros Hc. unfold read_string. eapply T_bind; [apply T_read_length, Hc|]. intros [n c1] (ds & s1 & Hn & H & En & Hm & Ec & H1). cbn [fst snd] in *. subst n c1.
    pose proof (pos_in _ _ H1) as Hw. go1. go1. go1; [|go]. apply eqb_eq in Hi. subst x.
    destruct s1 as [|q s1]; [apply pos_len in H1; rewrite blen_nil in H1; lia|].
    assert (q = qt) as -> by (symmetry; apply (at_det _ _ _ Hr (pos_at _ _ _ H1))). cbv zeta.
    pose proof (pos_cons _ _ _ _ H1) as H2. rewrite (pos_has_bytes _ _ _ _ H2).
    destruct ((0 <=? _) && _) eqn:E; cbn [negb].
    2:{ cbn [T told claims]. right. left. split; [reflexivity|]. exists ds, s1. split; [exact Hn|].
        replace (c + blen ds + 2 + 1 - 2 - blen ds) with (c + 1) by lia. split; [|split].
        - apply (pos_text _ _ []). rewrite app_nil_r. apply pos_cons in H. exact H.
        - pose proof (pos_len _ _ _ H2). lia.
        - destruct (Z_lt_ge_dec (blen s1) (num ds + 2)) as [h|h]; [exact h|exfalso]. pose proof (pos_len _ _ _ H2).
          unfold small in Hsm. pose proof (blen_nonneg ds). rewrite wrap64_id in E by (unfold min_int64, max_int64 in *; inr).
          rewrite andb_false_iff, !Z.leb_gt in E. lia. }
    apply andb_true_iff in E as [E1 E2]. apply Z.leb_le in E1, E2.
    assert (num ds + 2 <= max_int64) as Hn2.
    { destruct (Z_le_gt_dec (num ds + 2) max_int64) as [L|G]; [exact L|].
      unfold max_int64 in *. pose proof (wrap64_big (num ds + 2)). lia. }
    rewrite wrap64_id in E2 by (unfold min_int64, max_int64 in *; lia).
    destruct (split_at s1 (num ds)) as (str & r & -> & Hstr); [lia|].
    rewrite blen_app in E2. pose proof (pos_app _ _ str _ _ H2 eq_refl) as H3. rewrite Hstr in H3.
    destruct r as [|q r]; [rewrite blen_nil in E2; lia|]. destruct r as [|sc r]; [rewrite blen_cons, blen_nil in E2; lia|].
    go1. go1; [|go]. apply eqb_eq in Hi. subst x. assert (q = qt) as -> by (symmetry; apply (at_det _ _ _ Hr0 (pos_at _ _ _ H3))).
    pose proof (pos_cons _ _ _ _ H3) as H4. go1. go1; [|go]. apply eqb_eq in Hi. subst x.
    assert (sc = ";"%byte) as -> by (symmetry; apply (at_det _ _ _ Hr1 (pos_at _ _ _ H4))).
    rewrite (pos_sub _ _ str (qt :: ";"%byte :: r)); [|exact H2|lia]. cbn [bind T fst snd]. exists ds, r. split; [exact H|].
    eapply pos_cons. exact H4.
  Qed.
  Lemma T_read_integer c : within c -> T (fun p => exists z s', int_text (fst p) z /\
    pos buf c ("i"%byte :: ":"%byte :: fst p ++ ";"%byte :: s') /\ pos buf (snd p) s') (read_integer_bytes buf c).
  Proof.
    intros Hc. unfold read_integer_bytes. go1. go1. go1; [|go]. apply eqb_eq in Hi. subst x. go1. go1. go1; [|go]. apply eqb_eq in Hi. subst x.
    cbv zeta. go1. destruct (at_pos _ _ Hr1) as (s & H2).
    assert (pos buf c ("i"%byte :: ":"%byte :: x :: s)) as H.
    { apply pos_back; [exact Hr|]. apply pos_back; [exact Hr0|]. replace (c + 1 + 1) with (c + 2) by lia. exact H2. }
    assert (exists sg s2, x :: s = sg ++ s2 /\ (sg = [] /\ (x =b "-"%byte) = false \/ sg = ["-"%byte] /\ (x =b "-"%byte) = true)) as (sg & s2 & Es & Hsg).
    { destruct (x =b "-"%byte) eqn:E.
      - apply eqb_eq in E as ->. exists ["-"%byte], s. auto.
      - exists [], (x :: s). auto. }
    replace (if x =b "-"%byte then c + 2 + 1 else c + 2) with (c + 2 + blen sg) by (destruct Hsg as [[-> ->]|[-> ->]]; cbn; lia).
    rewrite Es in *. pose proof (pos_app _ _ sg s2 _ H2 eq_refl) as H3.
    destruct (scan_while_ex is_digit _ _ _ H3) as (a & r & -> & Ha & Hr' & ->). cbn [bind].
    pose proof (pos_app _ _ a r _ H3 eq_refl) as H4.
    destruct (_ =? _) eqn:E0.
    { apply Z.eqb_eq in E0. assert (a = []) as -> by (apply blen_zero; lia). rewrite blen_nil, Z.add_0_r in *.
      cbn [T told claims]. right; left. split; [reflexivity|]. split.
      - destruct Hsg as [[-> _]|[-> _]].
        + left. rewrite blen_nil, Z.add_0_r. replace (c + 2 - 2) with c by lia. apply (pos_text _ _ r). exact H.
        + right. cbn [blen length Z.of_nat Pos.of_succ_nat]. replace (c + 2 + 1 - 3) with c by lia. apply (pos_text _ _ r). exact H.
      - intros (y & Hy & Hd). destruct r as [|w r]; [apply pos_len in H4; rewrite blen_nil in H4; apply at_in in Hy; lia|].
        rewrite (at_det _ _ _ Hy (pos_at _ _ _ H4)) in Hd. congruence. }
    apply Z.eqb_neq in E0. pose proof (pos_in _ _ H4) as Hw. go1. go1. go1; [|go]. apply eqb_eq in Hi. subst x0.
    destruct r as [|w r]; [apply pos_len in H4; rewrite blen_nil in H4; lia|].
    assert (w = ";"%byte) as -> by (symmetry; apply (at_det _ _ _ Hr2 (pos_at _ _ _ H4))).
    rewrite (pos_sub _ _ (sg ++ a) (";"%byte :: r)).
    2:{ rewrite <- app_assoc. exact H2. }
    2:{ rewrite blen_app. lia. }
    cbn [bind T fst snd].
    assert (numeral a) as Hna by (split; [intros ->; apply E0; rewrite blen_nil; lia|exact Ha]).
    exists (match sg with [] => num a | _ => - num a end), r. split; [|split].
    - destruct Hsg as [[-> _]|[-> _]]; cbn; constructor; exact Hna.
    - rewrite <- app_assoc. exact H.
    - eapply pos_cons; exact H4.
  Qed.
  Lemma T_read_float c : within c -> T (fun p => exists s',
    pos buf c ("d"%byte :: ":"%byte :: fst p ++ ";"%byte :: s') /\ snd p = c + blen (fst p) + 3 /\ pos buf (snd p) s') (read_float_bytes buf c).
  Proof.
    intros Hc. unfold read_float_bytes. go1. go1. go1; [|go]. apply eqb_eq in Hi. subst x. go1. go1. go1; [|go]. apply eqb_eq in Hi. subst x. cbv zeta.
    destruct (pos_ex buf (c + 2) ltac:(inr)) as (s & H2).
    assert (pos buf c ("d"%byte :: ":"%byte :: s)) as H.
    { apply pos_back; [exact Hr|]. apply pos_back; [exact Hr0|]. replace (c + 1 + 1) with (c + 2) by lia. exact H2. }
    destruct (scan_while_ex (fun c => negb (c =b ";"%byte)) _ _ _ H2) as (a & r & -> & Ha & Hr' & ->). cbn [bind].
    pose proof (pos_app _ _ a r _ H2 eq_refl) as H4.
    destruct (_ =? _) eqn:E0.
    { apply Z.eqb_eq in E0. assert (a = []) as -> by (apply blen_zero; lia). rewrite blen_nil, Z.add_0_r in *.
      destruct r as [|w r]; [apply pos_len in H4; rewrite blen_nil in H4; lia|].
      apply negb_false_iff, eqb_eq in Hr' as ->. cbn [T told claims]. right; right; left. split; [reflexivity|].
      replace (c + 2 - 2) with c by lia. apply (pos_text _ _ r). exact H. }
    pose proof (pos_in _ _ H4) as Hw. go1. destruct r as [|w r]; [apply pos_len in H4; rewrite blen_nil in H4; lia|].
    apply negb_false_iff, eqb_eq in Hr' as ->.
    rewrite (pos_sub _ _ a (";"%byte :: r) _ H2 eq_refl). cbn [bind T fst snd]. exists r. split; [exact H|]. split; [lia|]. eapply pos_cons. exact H4.
  Qed.
  Lemma T_read_bool c : byte_at buf c "b" -> T (fun _ => within (c + 4)) (read_bool buf c).
  Proof.
    intros Hc. unfold read_bool. pose proof (at_in _ _ Hc). go1. go1. rewrite (at_det _ _ _ Hr Hc). change ("b"%byte =b "b"%byte) with true. cbn [negb].
    go1. go1; [|cbn [T told claims]; right; left; split; [reflexivity|]; split; [exact Hc|]; split; [exact Hr0|apply eqb_neq, Hi]]. apply eqb_eq in Hi. subst x0.
    assert (text_at buf c (bs "b:")) as Ht.
    { destruct (pos_ex buf (c + 2) ltac:(inr)) as (s & Hs). apply (pos_text _ _ s). apply pos_back; [exact Hc|]. apply pos_back; [exact Hr0|].
      replace (c + 1 + 1) with (c + 2) by lia. exact Hs. }
    go1. eapply (T_bind (fun _ => True)).
    { go1; [exact I|]. go1; [exact I|]. cbn [T told claims]. right; right; left. split; [reflexivity|]. split; [exact Ht|]. split; [exact Hr1|not_in]. }
    intros v _. go1. go1; [go|]. cbn [T told claims]. right; right; right. split; [reflexivity|]. replace (c + 3 - 3) with c by lia. split; [exact Ht|]. split; [exact Hr2|apply eqb_neq, Hi].
  Qed.
  Lemma T_class c : byte_at buf c "O" -> T (fun c' => byte_at buf c' """") (skip_class_name buf c).
  Proof.
    intros Ho. pose proof (at_in _ _ Ho) as Hin. unfold skip_class_name. go1. go1. rewrite (at_det _ _ _ Hr Ho). change ("O"%byte =b "O"%byte) with true. cbn [negb].
    eapply T_bind; [apply T_read_length; inr|]. intros [n st] (ds & s' & Hn & H1 & En & Hm & Es & Hp). cbn [fst snd] in *. subst n.
    pose proof (pos_in _ _ Hp) as Hw. go1. go1. go1.
    2:{ cbn [T told claims]. right; right; right. exists x0. split; [exact Hr0|]. right; right. split; [reflexivity|]. apply eqb_neq, Hi. }
    apply eqb_eq in Hi. subst x0. cbv zeta.
    destruct s' as [|q s']; [apply pos_len in Hp; rewrite blen_nil in Hp; lia|].
    assert (q = qt) as -> by (symmetry; apply (at_det _ _ _ Hr0 (pos_at _ _ _ Hp))).
    match goal with |- T _ (if negb (has_bytes buf ?x 2) then _ else _) => set (o := x) end.
    destruct (has_bytes buf o 2) eqn:Hb1; cbn [negb].
    { go1. go1; [|go]. apply eqb_eq in Hi. subst x0. go1. go1; [|go]. cbn [T]. exact Hr1. }
    cbn [T told claims]. right; right; left. split; [reflexivity|].
    pose proof (pos_back _ _ _ Ho H1) as Hs. destruct Hs as (before & Eb & Lb). exists before, ds, s'.
    split; [rewrite Eb; cbn [app bs]; reflexivity|]; split; [exact Hn|]; split; [lia|].
    assert (o = wrap64 (blen before + 2 + blen ds + 1 + num ds + 1)) as Ho' by (subst o; rewrite Lb, Es; f_equal; lia).
    split; [|exact Ho'].
    pose proof (pos_len _ _ _ Hp) as L3; rewrite blen_cons in L3; pose proof (blen_nonneg s') as L4; pose proof (blen_nonneg ds) as L5.
    destruct (Z_le_gt_dec (num ds + 2) (blen s')) as [h|h]; [exfalso|lia].
    unfold small in *. assert (o = c + blen ds + 3 + num ds + 1) as Ho2 by (rewrite Ho'; unfold wrap64; rewrite Z.mod_small; lia).
    unfold has_bytes in Hb1. rewrite !andb_false_iff, !Z.leb_gt in Hb1. lia.
  Qed.
  Lemma T_skip_int c : within c -> T within (skip_int buf c).
  Proof. intros Hc. unfold skip_int. eapply T_bind; [apply T_read_integer, Hc|]. intros [s c'] (z & s' & _ & _ & h). cbn [snd] in *. apply (pos_in _ _ h). Qed.
  Lemma T_skip_string c : byte_at buf c "s" -> T within (skip_string buf c).
  Proof.
    intros Hc. pose proof (at_in _ _ Hc). unfold skip_string. go1. go1. rewrite (at_det _ _ _ Hr Hc). change ("s"%byte =b "s"%byte) with true. cbn [negb].
    eapply T_bind; [apply T_read_string; inr|]. intros [s c'] (ds & s' & _ & h). cbn [snd] in *. apply (pos_in _ _ h).
  Qed.
  Lemma T_skip_entries skip : (forall c, within c -> T within (skip c)) ->
    forall n len c, within c -> T within (skip_entries skip n len c).
  Proof.
    intros Hk. induction n as [|n IH]; intros len c Hc; cbn [skip_entries]; destruct (len <=? 0); go.
    eapply T_bind; [apply Hk, Hc|]. intros c1 H1. eapply T_bind; [apply Hk, H1|]. intros c2 H2. apply IH, H2.
  Qed.
  Lemma T_skip_array skip c d : (forall c, within c -> T within (skip c)) ->
    byte_at buf (c - 1) "a" \/ byte_at buf (c - 1) """" -> T within (skip_array skip buf c d).
  Proof.
    intros Hk Hc. assert (within c) as Hw by (destruct Hc as [Hc|Hc]; inr). unfold skip_array. go1.
    { cbn [T told claims]. right. split; [reflexivity|exact Hc]. }
    eapply T_bind; [apply T_read_length, Hw|]. intros [l c'] (ds & s' & _ & _ & _ & _ & _ & h). cbn [snd] in h. pose proof (pos_in _ _ h) as Hc'.
    go1. go1. go1; [|go]. eapply T_bind; [apply T_skip_entries; [exact Hk|inr]|]. intros c2 H2. cbn beta in H2. go.
  Qed.
  Lemma T_skip_value : forall f c d, within c -> T within (skip_value_f f buf c d).
  Proof.
    induction f as [|f IH]; intros c d Hc; cbn [skip_value_f]; [go|]. cbv zeta. go1. go1.
    destruct (x =b "O"%byte) eqn:E1.
    { apply eqb_eq in E1 as ->. eapply T_bind; [apply T_class, Hr|]. intros c' H'. cbn beta in H'. apply T_skip_array; [intros; apply IH; assumption|]. replace (c' + 1 - 1) with c' by lia. auto. }
    destruct (x =b "a"%byte) eqn:E2; [apply eqb_eq in E2 as ->; apply T_skip_array; [intros; apply IH; assumption|]; replace (c + 1 - 1) with c by lia; auto|].
    destruct (x =b "s"%byte) eqn:E3; [apply eqb_eq in E3 as ->; apply T_skip_string, Hr|].
    destruct (x =b "d"%byte); [eapply T_bind; [apply T_read_float, Hc|]; intros [s c'] (s' & _ & _ & h); exact (pos_in _ _ h)|].
    destruct (x =b "i"%byte); [apply T_skip_int, Hc|].
    destruct (x =b "b"%byte) eqn:E4; [apply eqb_eq in E4 as ->; eapply T_bind; [apply T_read_bool, Hr|]; intros v h; exact h|].
    destruct (x =b "N"%byte) eqn:E5; [apply eqb_eq in E5 as ->; eapply T_bind; [apply T_null, Hr|]; intros v h; exact h|]. go.
  Qed.
  Lemma T_read_int c : within c -> T snd_in (read_int buf c).
  Proof.
    intros Hc. unfold read_int. eapply T_bind; [apply T_read_integer, Hc|]. intros [b c'] (z & s' & Hz & Hp & h). cbn [fst snd] in *.
    assert (z < 0 \/ max_int64 < z -> claims buf (c + 2) (WText "php-serialize: invalid array index")) as K.
    { intros hz. cbn [claims]. right; right; right; right. split; [reflexivity|]. exists b, z. replace (c + 2 - 2) with c by lia.
      split; [|split; assumption]. apply (pos_text _ _ s'). change (bs "i:" ++ b ++ bs ";") with ("i"%byte :: ":"%byte :: b ++ [";"%byte]).
      cbn [app]. rewrite <- app_assoc. exact Hp. }
    rewrite (parse_int64_text _ _ Hz). unfold in_int64. destruct (_ && _) eqn:E.
    - apply andb_true_iff in E as [E1 E2]. apply Z.leb_le in E1, E2. destruct (z <? 0) eqn:E0; [apply Z.ltb_lt in E0; apply K; lia|]. exact (pos_in _ _ h).
    - apply K. apply andb_false_iff in E as [E|E]; apply Z.leb_gt in E; unfold min_int64 in *; lia.
  Qed.

  (** ** Decoders *)
  Definition TD (r : dres) : Prop := T within (snd r).
  Definition decodes_in (d : Z -> dres) : Prop := forall c, within c -> TD (d c).
  (** a text that was read, and where it is *)
  Definition texted (Q : bytes -> Z -> Prop) (p : option bytes * Z) : Prop := within (snd p) /\ forall b, fst p = Some b -> Q b (snd p).
  Definition str_text (c : Z) (b : bytes) : Prop := exists ds, text_at buf c (bs "s:" ++ ds ++ bs ":""" ++ b ++ bs """;").
  Lemma T_null_text Q c : byte_at buf c "N" -> T (texted Q) (_ <- validate_null buf c ;; ROk (None, c + 2)).
  Proof. intros h. eapply T_bind; [apply T_null, h|]. intros u w. split; [exact w|]. cbn. discriminate. Qed.
  Lemma T_string_bytes c : within c -> T (texted (fun b _ => str_text c b)) (decode_string_bytes buf c).
  Proof.
    intros Hc. unfold decode_string_bytes. go1. go1. go1; [apply eqb_eq in Hi as ->; apply T_null_text, Hr|].
    go1; [go|]. go1; [|go]. apply eqb_eq in Hi1. subst x. eapply T_bind; [apply T_read_string; inr|]. intros [s c'] (ds & s' & H & h). cbn [T fst snd] in *.
    split; [exact (pos_in _ _ h)|]. intros b [= ->]. exists ds. apply (pos_text _ _ s'). pose proof (pos_back _ _ _ Hr H) as H1.
    change (bs "s:" ++ ds ++ bs ":""" ++ b ++ bs """;") with ("s"%byte :: ":"%byte :: ds ++ ":"%byte :: qt :: b ++ qt :: [";"%byte]).
    cbn [app]. rewrite <- app_assoc. cbn [app]. rewrite <- app_assoc. exact H1.
  Qed.
  Lemma T_int_bytes c : within c -> T (texted (fun _ _ => True)) (decode_int_bytes buf c).
  Proof.
    intros Hc. unfold decode_int_bytes. go1. go1. go1; [apply eqb_eq in Hi as ->; apply T_null_text, Hr|].
    eapply T_bind; [apply T_read_integer; inr|]. intros [s c'] (z & s' & _ & _ & h). split; [exact (pos_in _ _ h)|auto].
  Qed.
  Lemma T_float_bytes c : within c -> T (texted (fun b c' => text_at buf (c' - 3 - blen b) (bs "d:" ++ b ++ bs ";"))) (decode_float_bytes buf c).
  Proof.
    intros Hc. unfold decode_float_bytes. go1. go1. go1; [apply eqb_eq in Hi as ->; apply T_null_text, Hr|].
    go1; [|go]. eapply T_bind; [apply T_read_float; inr|]. intros [s c'] (s' & H & E & h). cbn [fst snd] in *. split; [exact (pos_in _ _ h)|].
    intros b [= <-]. subst c'. cbn [snd]. replace (c + blen s + 3 - 3 - blen s) with c by lia. apply (pos_text _ _ s').
    change (bs "d:" ++ s ++ bs ";") with ("d"%byte :: ":"%byte :: s ++ [";"%byte]). cbn [app]. rewrite <- app_assoc. exact H.
  Qed.
  Lemma TD_text Q r process rv : T (texted Q) r -> (forall b c rv, within c -> Q b c -> TD (process b c rv)) -> TD (dec_text r process rv).
  Proof.
    intros g h. unfold dec_text. destruct r as [[[b|] c]|e|p|]; cbn [T] in g; [|exact (proj1 g)|exact g|exact I|exact I].
    apply h; [exact (proj1 g)|apply (proj2 g); reflexivity].
  Qed.
  Lemma TD_int k c rv : within c -> TD (dec_int k buf c rv).
  Proof.
    intros Hc. eapply TD_text; [apply T_int_bytes, Hc|]. clear - Hsm. intros b c rv Hc _. unfold process_int, TD.
    destruct (parse_int64 b); [|cbn [snd]; go]. destruct (_ || _); cbn [snd]; go.
  Qed.
  Lemma TD_uint k c rv : within c -> TD (dec_uint k buf c rv).
  Proof.
    intros Hc. eapply TD_text; [apply T_int_bytes, Hc|]. clear - Hsm. intros b c rv Hc _. unfold process_uint, TD.
    destruct (parse_uint64 b); [|cbn [snd]; go]. destruct (_ <? _); cbn [snd]; go.
  Qed.
  Lemma TD_float X s c rv : within c -> TD (dec_float X s buf c rv).
  Proof.
    intros Hc. eapply TD_text; [apply T_float_bytes, Hc|]. clear - Hsm. intros b c rv Hc Hb. unfold process_float, TD.
    destruct (parse_float X b); [|cbn [snd T told claims]; left; exact Hb]. destruct s; [|cbn [snd]; go]. destruct (overflow_f32 _); cbn [snd]; go.
  Qed.
  Lemma TD_string c rv : within c -> TD (dec_string buf c rv).
  Proof. intros Hc. eapply TD_text; [apply T_string_bytes, Hc|]. intros b c' rv' h _. exact h. Qed.
  Lemma TD_bool c rv : within c -> TD (dec_bool buf c rv).
  Proof.
    intros Hc. unfold dec_bool, TD. destruct (has_byte buf c) eqn:Hb; cbn [negb]; [apply has_in in Hb|cbn [snd]; apply has_out in Hb; [apply T_end; inr|inr]].
    pose proof (T_rd c) as Hr. destruct (rd buf c) as [x|e|p|]; cbn [snd fail]; try exact I; [|exact Hr].
    destruct (x =b "b"%byte) eqn:E1.
    { apply eqb_eq in E1 as ->. pose proof (T_read_bool c Hr) as h. destruct (read_bool buf c); cbn [snd fail]; exact h. }
    destruct (x =b "N"%byte) eqn:E2.
    { apply eqb_eq in E2 as ->. pose proof (T_null c Hr) as h. destruct (validate_null buf c); cbn [snd fail]; exact h. }
    cbn [snd T told claims]. right; right; right. exists x. split; [exact Hr|]. left. split; [reflexivity|not_in].
  Qed.

  Definition hdr_in (h : hdr) : Prop := match h with HNull c | HBody c => within c end.
  Lemma T_object_start w c x (Hr : byte_at buf c x) : ((x =b "N"%byte) = false -> x <> "O"%byte -> x <> "a"%byte -> claims buf c w) -> (x =b "N"%byte) = false -> T within
      (if x =b "O"%byte then cend <- skip_class_name buf c ;; ROk (cend + 1)
       else if x =b "a"%byte then ROk (c + 1) else RErr (ESyntax c w)).
  Proof.
    intros hw hn. go1; [apply eqb_eq in Hi as ->; eapply T_bind; [apply T_class; exact Hr|]; intros c' h; cbn beta in h; go|]. go1; [go|].
    cbn [T told]. apply hw; [exact hn|apply eqb_neq, Hi|apply eqb_neq, Hi0].
  Qed.
  Lemma T_map_header c d : within c -> T hdr_in (map_header buf c d).
  Proof.
    intros Hc. unfold map_header. go1. go1. go1; [go|].
    go1; [apply eqb_eq in Hi0 as ->; eapply T_bind; [apply T_null; exact Hr|]; intros u h; exact h|].
    eapply T_bind; [apply T_object_start; [exact Hr| |exact Hi0]; intros h0 h1 h2; split; [reflexivity|]; split; [exact Hr|]; not_in|].
    intros c1 H1. cbn beta in H1. eapply T_bind; [apply T_read_length, H1|]. intros [l c2] (ds & s' & _ & _ & _ & _ & _ & h). cbn [snd] in h. pose proof (pos_in _ _ h).
    go. unfold hdr_in. inr.
  Qed.
  Lemma T_struct_header c d : within c -> T hdr_in (struct_header buf c d).
  Proof.
    intros Hc. unfold struct_header. go1. go1. go1; [go|].
    go1; [apply eqb_eq in Hi0 as ->; eapply T_bind; [apply T_null; exact Hr|]; intros u h; exact h|].
    eapply T_bind; [apply T_object_start; [exact Hr| |exact Hi0]; intros h0 h1 h2; exact Hr|]. intros c1 H1. cbn beta in H1. go1. go1. go1; [|go].
    eapply T_bind; [apply T_skip_length, H1|]. intros c2 (ds & s' & _ & _ & _ & h). pose proof (pos_in _ _ h). go. unfold hdr_in. inr.
  Qed.
  Lemma T_map_loop kd vd : decodes_in kd -> decodes_in vd -> forall n c m, within c -> T within (snd (map_loop kd vd buf n c m)).
  Proof.
    intros Hk Hv. induction n as [|n IH]; intros c m Hc; cbn [map_loop]; [exact I|].
    destruct (has_byte buf c) eqn:Hb; cbn [negb snd]; [|apply has_out in Hb; [apply T_end; inr|inr]].
    pose proof (Hk c Hc) as gk. destruct (kd c) as [k [c1|e|p|]]; unfold TD in gk; cbn [snd T fail] in *; auto.
    destruct (has_byte buf c1) eqn:Hb1; cbn [negb snd]; [|apply has_out in Hb1; [apply T_end; inr|inr]].
    pose proof (Hv c1 gk) as gv. destruct (vd c1) as [v [c2|e|p|]]; unfold TD in gv; cbn [snd T fail] in *; auto.
    destruct (hashable k); cbn [negb snd]; [|exact I].
    destruct (has_byte buf c2) eqn:Hb2; cbn [negb snd]; [|apply has_out in Hb2; [apply T_end; inr|inr]].
    pose proof (T_rd c2) as Hr. destruct (rd buf c2) as [b|e|p|]; cbn [snd fail T] in *; auto.
    destruct (b =b "}"%byte); cbn [snd]; [go|]. apply IH, gv.
  Qed.
  Lemma TD_map kd vd c d rv : decodes_in kd -> decodes_in vd -> within c -> TD (dec_map kd vd buf c d rv).
  Proof.
    intros Hk Hv Hc. unfold dec_map, TD. pose proof (T_map_header c d Hc) as gh.
    destruct (map_header buf c d) as [[c1|c1]|e|p|]; cbn [T hdr_in snd fail] in *; auto.
    destruct rv; cbn [snd]; try exact I.
    destruct (has_byte buf c1) eqn:Hb1; cbn [negb snd]; [|apply has_out in Hb1; [apply T_end; inr|inr]].
    pose proof (T_rd c1) as Hr. destruct (rd buf c1) as [b|e|p|]; cbn [snd fail T] in *; auto.
    destruct (b =b "}"%byte); cbn [snd]; [go|].
    match goal with |- context [map_loop kd vd buf ?n c1 ?m] => pose proof (T_map_loop kd vd Hk Hv n c1 m gh) as gl; destruct (map_loop kd vd buf n c1 m) end.
    exact gl.
  Qed.
  Lemma TD_any_key c : within c -> TD (dec_any_key buf c).
  Proof.
    intros Hc. unfold dec_any_key, TD. pose proof (T_rd c) as Hr. destruct (rd buf c) as [b|e|p|]; cbn [snd fail T] in *; auto.
    destruct (b =b "s"%byte) eqn:E1.
    { pose proof (TD_string c (VStr []) Hc) as g. destruct (dec_string buf c (VStr [])) as [v [c1|e|p|]]; exact g. }
    destruct (b =b "i"%byte) eqn:E2; [|cbn [snd]; go].
    pose proof (TD_int I64 c (VInt 0) Hc) as g. destruct (dec_int I64 buf c (VInt 0)) as [v [c1|e|p|]]; exact g.
  Qed.
  Lemma T_wrap t (r : dres) : TD r -> T snd_in (match r with (v, ROk c) => ROk (Some (t : gty, v), c) | (_, r) => fail r end).
  Proof. intros g. destruct r as [v [c|e|p|]]; exact g. Qed.
  Lemma T_any X : forall f c d, within c -> T snd_in (dec_any_f X f buf c d).
  Proof.
    induction f as [|f IH]; intros c d Hc; cbn [dec_any_f]; [go|]. cbv zeta.
    assert (decodes_in (fun c => match dec_any_f X f buf c (d + 1) with ROk (o, c') => (VIface o, ROk c') | r => (VIface None, fail r) end)) as Hv.
    { intros c1 H1. unfold TD. pose proof (IH c1 (d + 1) H1) as g. destruct (dec_any_f X f buf c1 (d + 1)) as [[o c2]|e|p|]; exact g. }
    go1. go1; [apply T_wrap, TD_map; auto; intros c1 H1; apply TD_string, H1|].
    go1; [apply T_wrap, TD_map; auto; intros c1 H1; apply TD_any_key, H1|].
    go1; [apply T_wrap, TD_float, Hc|].
    go1; [eapply T_bind; [apply T_read_string; inr|]; intros [s c1] (ds & s' & _ & h); exact (pos_in _ _ h)|].
    go1; [apply T_wrap, TD_int, Hc|].
    go1; [apply eqb_eq in Hi4 as ->; eapply T_bind; [apply T_read_bool, Hr|]; intros v h; exact h|].
    go1; [apply eqb_eq in Hi5 as ->; eapply T_bind; [apply T_null, Hr|]; intros v h; exact h|]. go.
  Qed.
  Lemma TD_iface_any X c d rv : within c -> TD (dec_iface_any X buf c d rv).
  Proof.
    intros Hc. unfold dec_iface_any, TD. pose proof (T_any X (S (length buf)) c d Hc) as g. unfold dec_any.
    destruct (dec_any_f X (S (length buf)) buf c d) as [[o c1]|e|p|]; exact g.
  Qed.
  Lemma T_piece c d : within c -> T snd_in (cend <- skip_value buf c d ;; src <- sub buf c cend ;; ROk (src, cend)).
  Proof. intros Hc. eapply T_bind; [apply T_skip_value, Hc|]. intros c1 H1. apply T_sub. intros s. exact H1. Qed.
  Lemma TD_unm X E n c d rv : within c -> TD (dec_unm X E n buf c d rv).
  Proof.
    intros Hc. unfold dec_unm, TD. pose proof (T_piece c d Hc) as g.
    destruct (bind (skip_value buf c d) _) as [[src c1]|e|p|]; cbn [snd fail]; try exact g.
    assert (T within (snd (match x_unmarshal X n (unquoted X src) (zero E (TName n)) with
        | (v, true) => (v, ROk c1) | (_, false) => (rv, RErr EUser) end))) as go'.
    { destruct (x_unmarshal X n (unquoted X src) (zero E (TName n))) as [v []]; [exact g|exact I]. }
    destruct src as [|b src]; [exact go'|]. destruct (_ || _); cbn [snd]; [go|]. destruct (_ && _); [exact g|exact go'].
  Qed.
  Lemma TD_iface X E c d rv : within c -> TD (dec_iface X E buf c d rv).
  Proof.
    intros Hc.
    assert (TD match rd buf c with
      | ROk b =>
          if b =b "N"%byte then
            match validate_null buf c with ROk _ => (VIface None, ROk (c + 2)) | r => (rv, fail r) end
          else (rv, RErr (EType c))
      | r => (rv, fail r)
      end) as Hp.
    { unfold TD. pose proof (T_rd c) as Hr. destruct (rd buf c) as [b|e|p|]; cbn [snd fail T] in *; auto.
      destruct (b =b "N"%byte) eqn:EN; [|cbn [snd]; go].
      apply eqb_eq in EN as ->. pose proof (T_null c Hr) as g. destruct (validate_null buf c); exact g. }
    unfold dec_iface. cbv zeta. destruct rv as [| | | | | | | | | |[[t v]|]| |]; try exact Hp.
    destruct t; try exact Hp. destruct v; try exact Hp. destruct (has_unmarshal E t); [|exact Hp].
    unfold TD. pose proof (T_piece c d Hc) as g.
    destruct (bind (skip_value buf c d) _) as [[src c1]|e|p'|]; cbn [snd fail]; try exact g.
    destruct (bytes_eqb src (bs "N;")); [exact g|]. destruct o as [old|]; [|exact I].
    destruct (x_unmarshal X n (unquoted X src) old) as [v []]; [exact g|exact I].
  Qed.
  Lemma TD_key X E kt c d : within c -> TD (dec_key X E kt buf c d).
  Proof.
    intros Hc. unfold dec_key. cbv zeta. destruct (key_node E kt) as [n| | |k|k| | |nd|].
    - apply TD_unm, Hc. - apply TD_string, Hc. - apply TD_bool, Hc. - apply TD_int, Hc. - apply TD_uint, Hc.
    - apply TD_iface_any, Hc. - apply TD_iface, Hc.
    - assert (TD match dec_any X buf c d with
                 | ROk (None, c0) => (zero E kt, ROk c0)
                 | ROk (Some _, _) => (zero E kt, RPanic PReflect)
                 | r => (zero E kt, fail r) end) as Ha.
      { unfold TD, dec_any. pose proof (T_any X (S (length buf)) c d Hc) as g.
        destruct (dec_any_f X (S (length buf)) buf c d) as [[[o|] c1]|e|p|]; try exact g. exact I. }
      destruct nd; try exact Ha.
      + eapply TD_text; [apply T_int_bytes, Hc|]. intros b c1 rv H1 Hq. unfold TD. destruct (parse_uint64 b); cbn [snd]; go.
      + eapply TD_text; [apply T_int_bytes, Hc|]. intros b c1 rv H1 Hq. unfold TD. destruct (parse_int64 b); cbn [snd]; go.
      + eapply TD_text; [apply T_string_bytes, Hc|]. intros b c1 rv H1 Hq. exact I.
      + pose proof (TD_bool c VOther Hc) as g. unfold TD in *. destruct (dec_bool buf c VOther) as [v [c1|e|p|]]; destruct v; try exact g; exact I.
    - unfold TD. cbn [snd]. go.
  Qed.

  Definition ahdr_in (h : ahdr) : Prop := match h with AhNull c | AhEmpty c | AhBody _ c => within c end.
  Lemma T_seq_header what c d : what = "slice"%string \/ what = "array"%string -> within c -> T ahdr_in (seq_header what buf c d).
  Proof.
    intros Hwh Hc. unfold seq_header. go1. go1. go1; [go|].
    go1; [apply eqb_eq in Hi0 as ->; eapply T_bind; [apply T_null; exact Hr|]; intros u h; exact h|].
    go1; [|cbn [T told claims]; right; right; right; exists x; split; [exact Hr|]; right; left; split; [exact Hwh|not_in]].
    cbv zeta. go1. go1. go1; [|go]. go1. go1.
    go1; [eapply T_bind; [apply T_empty_array; inr|]; intros u h; exact h|].
    unfold read_length_int. eapply T_bind; [apply T_read_length; inr|]. intros [l c1] (ds & s' & _ & _ & _ & _ & _ & h). cbn [snd] in h. pose proof (pos_in _ _ h).
    go. unfold ahdr_in. inr.
  Qed.
  Lemma T_array_header c d : within c -> T ahdr_in (array_header buf c d).
  Proof. apply T_seq_header. auto. Qed.
  Lemma T_slice_header c d : within c -> T ahdr_in (slice_header buf c d).
  Proof. intros Hc. unfold slice_header. destruct (_ && _); [go|]. apply T_seq_header; auto. Qed.
  Definition decodes_el (d : Z -> gval -> dres) : Prop := forall c v, within c -> TD (d c v).
  Lemma T_slice_loop X E et ed : decodes_el ed -> forall n c sl rv, within c -> TD (slice_loop X E et ed buf n c sl rv).
  Proof.
    intros He. unfold TD. induction n as [|n IH]; intros c sl rv Hc; cbn [slice_loop]; [exact I|]. cbv zeta.
    destruct (has_byte buf c) eqn:Hb; cbn [negb snd]; [|apply has_out in Hb; [apply T_end; inr|inr]].
    pose proof (T_read_int c Hc) as gi. destruct (read_int buf c) as [[i c1]|e|p|]; cbn [snd T fail] in *; auto. unfold snd_in in gi. cbn [snd] in gi.
    destruct (has_byte buf c1) eqn:Hb1; cbn [negb snd]; [|apply has_out in Hb1; [apply T_end; inr|inr]].
    destruct (i <? blen sl).
    - destruct (bad_index i (blen sl)); cbn [snd]; [exact I|].
      pose proof (He c1 (nth (Z.to_nat i) sl VOther) gi) as gv. destruct (ed c1 _) as [v [c2|e|p|]]; unfold TD in gv; cbn [snd T fail] in *; auto.
      destruct (has_byte buf c2) eqn:Hb2; cbn [negb snd]; [|apply has_out in Hb2; [apply T_end; inr|inr]].
      pose proof (T_rd c2) as Hr. destruct (rd buf c2) as [b|e|p|]; cbn [snd fail T] in *; auto.
      destruct (b =b "}"%byte); cbn [snd]; [go|]. apply IH, gv.
    - destruct (_ || _); cbn [snd]; [exact I|]. destruct (bad_index _ _); cbn [snd]; [exact I|].
      pose proof (He c1 (zero E et) gi) as gv. destruct (ed c1 _) as [v [c2|e|p|]]; unfold TD in gv; cbn [snd T fail] in *; auto.
      destruct (has_byte buf c2) eqn:Hb2; cbn [negb snd]; [|apply has_out in Hb2; [apply T_end; inr|inr]].
      pose proof (T_rd c2) as Hr. destruct (rd buf c2) as [b|e|p|]; cbn [snd fail T] in *; auto.
      destruct (b =b "}"%byte); cbn [snd]; [go|]. apply IH, gv.
  Qed.
  Lemma TD_slice X E et ed c d rv : decodes_el ed -> within c -> TD (dec_slice X E et ed buf c d rv).
  Proof.
    intros He Hc. unfold dec_slice. pose proof (T_slice_header c d Hc) as gh.
    destruct (slice_header buf c d) as [[c1|c1|l c1]|e|p|]; unfold TD; cbn [T ahdr_in snd fail] in *; auto.
    destruct (x_slots X et l); cbn [negb snd]; [|exact I]. apply T_slice_loop; assumption.
  Qed.
  Lemma T_array_loop ed d : decodes_el ed -> forall n c l, within c -> T within (snd (array_loop ed buf d n c l)).
  Proof.
    intros He. induction n as [|n IH]; intros c l Hc; cbn [array_loop]; [exact I|]. cbv zeta.
    destruct (has_byte buf c) eqn:Hb; cbn [negb snd]; [|apply has_out in Hb; [apply T_end; inr|inr]].
    pose proof (T_read_int c Hc) as gi. destruct (read_int buf c) as [[i c1]|e|p|]; cbn [snd T fail] in *; auto. unfold snd_in in gi. cbn [snd] in gi.
    destruct (has_byte buf c1) eqn:Hb1; cbn [negb snd]; [|apply has_out in Hb1; [apply T_end; inr|inr]].
    destruct (i <? blen l).
    - destruct (bad_index i (blen l)); cbn [snd]; [exact I|].
      pose proof (He c1 (nth (Z.to_nat i) l VOther) gi) as gv. destruct (ed c1 _) as [v [c2|e|p|]]; unfold TD in gv; cbn [snd T fail] in *; auto.
      destruct (has_byte buf c2) eqn:Hb2; cbn [negb snd]; [|apply has_out in Hb2; [apply T_end; inr|inr]].
      pose proof (T_rd c2) as Hr. destruct (rd buf c2) as [b|e|p|]; cbn [snd fail T] in *; auto.
      destruct (b =b "}"%byte); cbn [snd]; [go|]. apply IH, gv.
    - pose proof (T_skip_value (S (length buf)) c1 d gi) as gv. unfold skip_value.
      destruct (skip_value_f (S (length buf)) buf c1 d) as [c2|e|p|]; cbn [snd T fail] in *; auto.
      destruct (has_byte buf c2) eqn:Hb2; cbn [negb snd]; [|apply has_out in Hb2; [apply T_end; inr|inr]].
      pose proof (T_rd c2) as Hr. destruct (rd buf c2) as [b|e|p|]; cbn [snd fail T] in *; auto.
      destruct (b =b "}"%byte); cbn [snd]; [go|]. apply IH, gv.
  Qed.
  Lemma TD_array E n et ed c d rv : decodes_el ed -> within c -> TD (dec_array E n et ed buf c d rv).
  Proof.
    intros He Hc. unfold dec_array. cbv zeta. pose proof (T_array_header c d Hc) as gh.
    destruct (array_header buf c d) as [[c1|c1|l c1]|e|p|]; unfold TD; cbn [T ahdr_in snd fail] in *; auto.
    pose proof (T_array_loop ed (d + 1) He (length buf) c1 (repeat (zero E et) n) gh) as g.
    destruct (array_loop ed buf (d + 1) (length buf) c1 (repeat (zero E et) n)). exact g.
  Qed.
  Lemma T_struct_loop decs fd d : (forall x, decodes_el (fd x)) -> forall n c l, within c -> T within (snd (struct_loop decs fd buf d n c l)).
  Proof.
    intros He. induction n as [|n IH]; intros c l Hc; cbn [struct_loop]; [exact I|]. cbv zeta.
    destruct (has_byte buf c) eqn:Hb; cbn [negb snd]; [|apply has_out in Hb; [apply T_end; inr|inr]].
    pose proof (T_string_bytes c Hc) as gi. destruct (decode_string_bytes buf c) as [[i c1]|e|p|]; cbn [snd T fail] in *; auto. apply proj1 in gi. cbn [snd] in gi.
    destruct (has_byte buf c1) eqn:Hb1; cbn [negb snd]; [|apply has_out in Hb1; [apply T_end; inr|inr]].
    destruct (find_field _ decs) as [x|].
    - destruct (nth_error l (fd_idx x)) as [v0|]; [|exact I].
      pose proof (He x c1 v0 gi) as gv. destruct (fd x c1 v0) as [v [c2|e|p|]]; unfold TD in gv; cbn [snd T fail] in *; auto.
      destruct (has_byte buf c2) eqn:Hb2; cbn [negb snd]; [|apply has_out in Hb2; [apply T_end; inr|inr]].
      pose proof (T_rd c2) as Hr. destruct (rd buf c2) as [b|e|p|]; cbn [snd fail T] in *; auto.
      destruct (b =b "}"%byte); cbn [snd]; [go|]. apply IH, gv.
    - pose proof (T_skip_value (S (length buf)) c1 d gi) as gv. unfold skip_value.
      destruct (skip_value_f (S (length buf)) buf c1 d) as [c2|e|p|]; cbn [snd T fail] in *; auto.
      destruct (has_byte buf c2) eqn:Hb2; cbn [negb snd]; [|apply has_out in Hb2; [apply T_end; inr|inr]].
      pose proof (T_rd c2) as Hr. destruct (rd buf c2) as [b|e|p|]; cbn [snd fail T] in *; auto.
      destruct (b =b "}"%byte); cbn [snd]; [go|]. apply IH, gv.
  Qed.
  Lemma TD_struct decs fd c d rv : (forall x, decodes_el (fd x)) -> within c -> TD (dec_struct decs fd buf c d rv).
  Proof.
    intros He Hc. unfold dec_struct, TD. pose proof (T_struct_header c d Hc) as gh.
    destruct (struct_header buf c d) as [[c1|c1]|e|p|]; cbn [T hdr_in snd fail] in *; auto.
    destruct rv; cbn [snd]; try exact I.
    destruct (has_byte buf c1) eqn:Hb1; cbn [negb snd]; [|apply has_out in Hb1; [apply T_end; inr|inr]].
    pose proof (T_rd c1) as Hr. destruct (rd buf c1) as [b|e|p|]; cbn [snd fail T] in *; auto.
    destruct (b =b "}"%byte); cbn [snd]; [go|].
    match goal with |- context [struct_loop ?a ?b buf ?d ?n c1 ?m] => pose proof (T_struct_loop a b d He n c1 m gh) as gl; destruct (struct_loop a b buf d n c1 m) end.
    exact gl.
  Qed.
  Lemma TD_ptr E t ed c rv : decodes_el ed -> within c -> TD (dec_ptr E t ed buf c rv).
  Proof.
    intros He Hc. unfold dec_ptr, TD. pose proof (T_rd c) as Hr. destruct (rd buf c) as [b|e|p|]; cbn [snd fail T] in *; auto.
    destruct (b =b "N"%byte) eqn:EN.
    { apply eqb_eq in EN as ->. pose proof (T_null c Hr) as g. destruct (validate_null buf c); exact g. }
    destruct rv; try exact I. match goal with |- context [ed c ?v] => pose proof (He c v Hc) as g; destruct (ed c v) end. exact g.
  Qed.
  Lemma TD_wrapped X nd c rv : within c -> TD (dec_wrapped X nd buf c rv).
  Proof.
    intros Hc. unfold dec_wrapped. cbv zeta. eapply TD_text; [apply T_string_bytes, Hc|]. intros b c1 rv1 H1 Hq. unfold TD.
    destruct nd; try exact I.
    - unfold process_uint. destruct (parse_uint64 b); [|cbn [snd]; go]. destruct (_ <? _); cbn [snd]; go.
    - unfold process_int. destruct (parse_int64 b); [|cbn [snd]; go]. destruct (_ || _); cbn [snd]; go.
    - destruct (parse_bool b); cbn [snd]; [go|exact Hq].
    - unfold process_float. destruct (parse_float X b); [|right; exact Hq]. destruct (overflow_f32 _); cbn [snd]; go.
    - unfold process_float. destruct (parse_float X b); [cbn [snd]; go|right; exact Hq].
  Qed.
  Lemma TD_bytes sd c rv : TD (sd rv) -> within c -> TD (dec_bytes sd buf c rv).
  Proof.
    intros He Hc. unfold dec_bytes. pose proof (T_rd c) as Hr. destruct (rd buf c) as [b|e|p|]; unfold TD; cbn [snd fail T] in *; auto.
    destruct (b =b "a"%byte); [exact He|]. eapply TD_text; [apply T_string_bytes, Hc|]. intros b1 c1 rv1 H1 Hq. exact H1.
  Qed.

  Theorem decode_says X E : forall f t c d rv, within c -> TD (decode_f X E f t buf c d rv).
  Proof.
    induction f as [|f IH]; intros t c d rv Hc; cbn [decode_f]; [exact I|]. cbv zeta.
    assert (forall et, decodes_el (fun c v => decode_f X E f et buf c (d + 1) v)) as He by (intros et c1 v H1; apply IH, H1).
    destruct (node_of E t) as [n|t'|id fs|et|et|n et|kt vt| | |k|k| | | | |].
    - apply TD_unm, Hc.
    - destruct (kind_of E t'); try exact I; apply TD_ptr; auto; intros c1 v1 H1; apply IH, H1.
    - apply TD_struct; [|exact Hc]. intros x c1 v H1. destruct (fd_str x); [|apply IH, H1].
      destruct (node_of E (fd_ty x)); try apply TD_wrapped, H1. apply TD_ptr; [|exact H1]. intros c2 v2 H2. apply TD_wrapped, H2.
    - apply TD_bytes; [|exact Hc]. apply TD_slice; auto.
    - apply TD_slice; auto.
    - apply TD_array; auto.
    - apply TD_map; auto; [intros c1 H1; apply TD_key, H1|intros c1 H1; apply IH, H1].
    - apply TD_iface_any, Hc.
    - apply TD_iface, Hc.
    - apply TD_uint, Hc.
    - apply TD_int, Hc.
    - apply TD_string, Hc.
    - apply TD_bool, Hc.
    - apply TD_float, Hc.
    - apply TD_float, Hc.
    - unfold TD. cbn [snd]. go.
  Qed.
End Says.
