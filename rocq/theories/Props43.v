(** Properties of Unmarshal, part 28: it reads what PHP writes (C89). *)
From Coq Require Import Strings.String Strings.Byte ZArith List Bool Lia Floats.SpecFloat.
From Verif Require Import Base GoTypes Tags Unmarshal Grammar Denote NumFacts ScanFacts TextFacts Typing Api CompileFacts UnmFacts NumEnc Php PhpFacts StoreFacts AnyTripFacts PhpData IdemFacts Demo.
From Verif Require RoundTripFacts.
Import ListNotations.
Open Scope Z_scope.

(** Different entries are all kept, in order. *)
Lemma build (K V : lval -> gval -> Prop) es ms :
  Forall2 (fun e x => K (fst e) (fst x) /\ V (snd e) (snd x)) es ms ->
  Forall (fun x : gval * gval => hashable (fst x) = true /\ forall k, key_eqb k (fst x) = true -> k = fst x) ms ->
  forall acc, NoDup (map fst (acc ++ ms)) -> map_entries K V acc es (acc ++ ms).
Proof.
  assert (forall k v acc, (forall k', key_eqb k' k = true -> k' = k) -> ~ In k (map fst acc) -> map_set k v acc = acc ++ [(k, v)]) as N.
  { intros k v acc Hk. induction acc as [|[k' v'] acc IH]; intros Hi; [reflexivity|]. cbn [map_set]. destruct (key_eqb k' k) eqn:Q.
    - exfalso. apply Hi. left. exact (Hk _ Q).
    - cbn [app]. f_equal. apply IH. intros Q'. apply Hi. right. exact Q'. }
  intros F. induction F as [|[kp p] [k v] es ms [Hk Hv] F IH]; intros G acc Hn.
  - rewrite app_nil_r. apply me_nil.
  - pose proof (Forall_inv G) as [Hh Hq]. pose proof (Forall_inv_tail G) as G'. cbn [fst snd] in *. eapply me_cons; [exact Hk|exact Hv|exact Hh|].
    rewrite N; [|exact Hq|].
    + replace (acc ++ (k, v) :: ms) with ((acc ++ [(k, v)]) ++ ms) in * by (rewrite <- app_assoc; reflexivity). apply IH; assumption.
    + rewrite map_app in Hn. cbn [map fst] in Hn. apply NoDup_remove_2 in Hn. intros Q. apply Hn. apply in_or_app. left. exact Q.
Qed.
Lemma nodup_through {A B C D} (P : A -> C -> Prop) : (forall a a' c, P a c -> P a' c -> a = a') -> forall (es : list (A * B)) (ms : list (C * D)),
  Forall2 (fun e x => P (fst e) (fst x)) es ms -> NoDup (map fst es) -> NoDup (map fst ms).
Proof.
  intros I es ms F. induction F as [|e x es ms Hp F IH]; cbn [map]; intros Hn; [constructor|]. inversion Hn as [|? ? H1 H2]; subst. constructor; [|apply IH; exact H2].
  intros Q. apply H1. clear - I Hp F Q. induction F as [|e' x' es ms Hp' F IH]; [destruct Q|]. cbn [map] in *. destruct Q as [Q|Q].
  - left. rewrite Q in Hp'. exact (I _ _ _ Hp' Hp).
  - right. exact (IH Q).
Qed.
Lemma str_eqb s k : key_eqb k (VStr s) = true -> k = VStr s.
Proof. apply (IdemFacts.key_eqb_good (VStr s) I k). Qed.
Lemma int_eqb z k : key_eqb k (VInt z) = true -> k = VInt z.
Proof. apply (IdemFacts.key_eqb_good (VInt z) I k). Qed.
Lemma iface_eqb t x k : key_eqb k (VIface (Some (t, x))) = true -> exists t' x', k = VIface (Some (t', x')) /\ gty_eqb t' t = true /\ key_eqb x' x = true.
Proof.
  destruct k as [| | | | | | | | |q|[[t' x']|]| |]; try (intros Q; discriminate Q).
  - intros Q. destruct q; discriminate Q.
  - intros Q. cbn [key_eqb] in Q. apply andb_true_iff in Q as [Q1 Q2]. exists t', x'. auto.
Qed.
Lemma iface_str_eqb s k : key_eqb k (VIface (Some (TString, VStr s))) = true -> k = VIface (Some (TString, VStr s)).
Proof. intros Q. apply iface_eqb in Q as (t & x & -> & Q1 & Q2). apply str_eqb in Q2. destruct t; try discriminate Q1. congruence. Qed.
Lemma iface_int_eqb z k : key_eqb k (VIface (Some (TInt I64, VInt z))) = true -> k = VIface (Some (TInt I64, VInt z)).
Proof.
  intros Q. apply iface_eqb in Q as (t & x & -> & Q1 & Q2). apply int_eqb in Q2. destruct t as [|b| | | | | | | | | | | |]; try discriminate Q1.
  destruct b; try discriminate Q1. congruence.
Qed.
Definition arr_key (k : lval) (x : gval) : Prop :=
  (exists z, k = php_int z /\ x = VIface (Some (TInt I64, VInt z))) \/ (exists s, k = php_string s /\ x = VIface (Some (TString, VStr s))).
Definition obj_name (k : lval) (x : gval) : Prop := exists s, k = php_string s /\ x = VStr s.
Lemma str_ok_php s : str_ok (decimal (blen s)) s.
Proof. destruct (decimal_numeral (blen s)) as [A B]; [unfold blen; lia|]. split; assumption. Qed.

Lemma data_any_f X : forall n d p, (length (text p) <= n)%nat -> php_data X p -> small (text p) -> d + nesting p <= limit ->
  exists w, has_data X p w /\ any_val X d p w.
Proof.
  induction n as [|n IH]; intros d p HL Hp Hsm Hd; [pose proof (text_pos p); lia|].
  assert (forall (D : lval -> Prop) (K : lval -> gval -> Prop), (forall k, D k -> exists x, K k x) -> forall es, (length (body es) <= n)%nat ->
    Forall (fun e => D (fst e) /\ php_data X (snd e)) es -> small (body es) ->
    fold_right (fun e m => Z.max (Z.max (nesting (fst e)) (nesting (snd e))) m) 0 es <= limit - (d + 1) ->
    exists ms, Forall2 (fun e x => K (fst e) (fst x) /\ has_data X (snd e) (snd x) /\ any_val X (d + 1) (snd e) (snd x)) es ms) as L.
  { intros D K HK. induction es as [|[k v] es IHes]; intros HB F Hs Hn; [exists []; constructor|].
    destruct (Forall_inv F) as [Hk Hv]. pose proof (Forall_inv_tail F) as F'. cbn [fst snd fold_right] in *. rewrite body_len in HB.
    assert (small (text v) /\ small (body es)) as [S1 S2].
    { unfold small, blen in *. rewrite body_len in Hs. lia. }
    destruct (HK k Hk) as [x Hx]. destruct (IH (d + 1) v) as (w & A & B); [lia|exact Hv|exact S1|unfold limit in *; lia|].
    destruct (IHes ltac:(lia) F' S2 ltac:(lia)) as (ms & G). exists ((x, w) :: ms). constructor; [cbn; auto|exact G]. }
  destruct Hp as [|b|z Hz|t f Ht Hs Hf|s|es Hn F|cls es Hn F].
  - eexists. split; constructor.
  - eexists. split; constructor.
  - eexists. split; [constructor|]. apply av_int; [apply decimal_int_text|exact Hz].
  - eexists. split; [constructor; exact Hf|]. apply av_float; assumption.
  - eexists. split; [constructor|]. apply av_str. apply str_ok_php.
  - pose proof (arr_len (decimal (blen es)) es) as LA. destruct (decimal_numeral (blen es)) as [N1 N2]; [unfold blen; lia|].
    assert (small (body es)) as Hb by (unfold small, blen in *; lia). change (nesting (LArr (decimal (blen es)) es)) with (1 + fold_right (fun e m => Z.max (Z.max (nesting (fst e)) (nesting (snd e))) m) 0 es) in Hd.
    assert (0 <= fold_right (fun e m => Z.max (Z.max (nesting (fst e)) (nesting (snd e))) m) 0 es) as Hpos by (clear; induction es; cbn [fold_right]; lia).
    destruct (L data_key arr_key) with (es := es) as (ms & G); [|lia|exact F|exact Hb|lia|].
    { intros k [z Hz|s]; eexists; [left|right]; eexists; split; reflexivity. }
    exists (VIface (Some (TMap TAny TAny, VMap (Some ms)))). split.
    { apply hd_arr. clear - G. induction G as [|e x es ms (A & B & _) G IHG]; constructor; [split; assumption|exact IHG]. }
    apply av_arr; [unfold limit in *; lia|exact N1| |].
    { rewrite N2. unfold small, max_int64, blen in *. assert (length es <= length (body es))%nat as Q.
      { clear. induction es as [|[k v] es IHe]; [cbn; lia|]. rewrite body_len. cbn [length]. pose proof (text_pos k). lia. }
      lia. }
    change ms with ([] ++ ms). apply build.
    + clear - G F. induction G as [|e x es ms (A & B & C) G IHG]; constructor.
      * split; [|exact C]. destruct (Forall_inv F) as [Hk _]. destruct A as [(z & Q1 & Q2)|(s & Q1 & Q2)]; rewrite Q1, Q2.
        -- apply ak_int; [apply decimal_int_text|]. rewrite Q1 in Hk. inversion Hk as [z' Hz' Q|]. apply decimal_inj in Q. subst z'. exact Hz'.
        -- apply ak_str. apply str_ok_php.
      * apply IHG. exact (Forall_inv_tail F).
    + clear - G. induction G as [|e x es ms (A & _) G IHG]; constructor; [|exact IHG].
      destruct A as [(z & _ & Q)|(s & _ & Q)]; rewrite Q; (split; [reflexivity|]); [apply iface_int_eqb|apply iface_str_eqb].
    + cbn [app]. eapply (nodup_through arr_key) with (es := es); [|clear - G; induction G as [|e x es ms (A & _) G IHG]; constructor; assumption|exact Hn].
      intros a a' c [(z & A1 & A2)|(s & A1 & A2)] [(z' & B1 & B2)|(s' & B1 & B2)]; congruence.
  - pose proof (obj_len (decimal (blen cls)) cls (decimal (blen es)) es) as LA. destruct (decimal_numeral (blen es)) as [N1 N2]; [unfold blen; lia|].
    destruct (str_ok_php cls) as [C1 C2].
    assert (small (body es)) as Hb by (unfold small, blen in *; lia).
    change (nesting (LObj (decimal (blen cls)) cls (decimal (blen es)) es)) with (1 + fold_right (fun e m => Z.max (Z.max (nesting (fst e)) (nesting (snd e))) m) 0 es) in Hd.
    assert (0 <= fold_right (fun e m => Z.max (Z.max (nesting (fst e)) (nesting (snd e))) m) 0 es) as Hpos by (clear; induction es; cbn [fold_right]; lia).
    destruct (L property_name obj_name) with (es := es) as (ms & G); [|lia|exact F|exact Hb|lia|].
    { intros k [s]; eexists; eexists; split; reflexivity. }
    exists (VIface (Some (TMap TString TAny, VMap (Some ms)))). split.
    { apply hd_obj. clear - G. induction G as [|e x es ms (A & B & _) G IHG]; constructor; [split; assumption|exact IHG]. }
    apply av_obj; [unfold limit in *; lia|apply body_obj; assumption|exact N1| |].
    { rewrite N2. unfold small, max_int64, blen in *. assert (length es <= length (body es))%nat as Q.
      { clear. induction es as [|[k v] es IHe]; [cbn; lia|]. rewrite body_len. cbn [length]. pose proof (text_pos k). lia. }
      lia. }
    change ms with ([] ++ ms). apply build.
    + clear - G. induction G as [|e x es ms (A & B & C) G IHG]; constructor; [|exact IHG].
      split; [|exact C]. destruct A as (s & Q1 & Q2); rewrite Q1, Q2. apply ok_str. apply str_ok_php.
    + clear - G. induction G as [|e x es ms (A & _) G IHG]; constructor; [|exact IHG].
      destruct A as (s & _ & Q); rewrite Q; (split; [reflexivity|]); apply str_eqb.
    + cbn [app]. eapply (nodup_through obj_name) with (es := es); [|clear - G; induction G as [|e x es ms (A & _) G IHG]; constructor; assumption|exact Hn].
      intros a a' c (s & A1 & A2) (s' & B1 & B2); congruence.
Qed.

(** ** C89 Unmarshal reads what PHP writes.

    Everything PHP's serialize() writes for a value without references, enum cases
    and classes that serialize themselves (PhpData.v), nested at most 10000 deep,
    is accepted by an empty interface, whatever that held, which then holds exactly
    that data. *)
Theorem C89_reads_php : forall X E p v, php_data X p -> nesting p <= 10000 -> small (text p) ->
  exists w, Decodes X E (text p) TAny v w /\ has_data X p w.
Proof.
  intros X E p v Hp Hd Hsm. destruct (data_any_f X _ 0 p (le_n _) Hp Hsm) as (w & A & B); [unfold limit; lia|].
  exists w. split; [|exact A]. apply decodes_text; [exact Hsm|eapply any_val_wf; exact B|apply any_supported|].
  apply sto_any; [split; reflexivity|exact B].
Qed.
Print Assumptions C89_reads_php.
(** It never holds anything else after a call that succeeds. *)
Theorem C89_nothing_else : forall X E p v w, php_data X p -> nesting p <= 10000 -> small (text p) ->
  Decodes X E (text p) TAny v w -> has_data X p w.
Proof.
  intros X E p v w Hp Hd Hsm H. destruct (C89_reads_php X E p v Hp Hd Hsm) as (w' & H' & D).
  rewrite (decodes_det _ _ _ _ _ _ _ H H'). exact D.
Qed.
Print Assumptions C89_nothing_else.

Lemma one_text X : forall n p p' w, (length (text p) <= n)%nat -> plain_data p -> plain_data p' -> has_data X p w -> has_data X p' w -> p = p'.
Proof.
  induction n as [|n IH]; intros p p' w HL Hp Hp' H H'; [pose proof (text_pos p); lia|].
  destruct Hp as [|b|z|s|es F].
  - inversion H; subst. inversion H'; subst; reflexivity.
  - inversion H; subst. inversion H'; subst; reflexivity.
  - inversion H as [| |z' Q| | | |]; subst. inversion H' as [| |z2 Q2| | | |]; subst. unfold php_int. congruence.
  - inversion H as [| | | |s' Q| |]; subst. inversion H'; subst; reflexivity.
  - inversion H as [| | | | |n1 es1 m G|]; subst. inversion H' as [| | | | |n2 es2 m2 G2|]; subst. pose proof (arr_len (decimal (blen es)) es) as LA.
    inversion Hp' as [| | | |es3 F2 Q3]; subst. assert (es = es2) as ->; [|reflexivity].
    assert (length (body es) <= n)%nat as HB by lia. clear - IH F F2 G G2 HB.
    revert es2 F2 G2 HB. induction G as [|[k v] [kx vx] es m [A B] G IHG]; intros es2 F2 G2 HB.
    + inversion G2. reflexivity.
    + inversion G2 as [|[k2 v2] x es2' m' [A2 B2] G2']; subst. cbn [fst snd] in *. rewrite body_len in HB. f_equal.
      * f_equal.
        -- destruct A as [(z & A1 & A3)|(s & A1 & A3)], A2 as [(z' & C1 & C3)|(s' & C1 & C3)]; congruence.
        -- eapply IH; [|exact (Forall_inv F)|exact (Forall_inv F2)|exact B|exact B2]. cbn [snd]. lia.
      * apply IHG; [exact (Forall_inv_tail F)|exact (Forall_inv_tail F2)|exact G2'|lia].
Qed.
(** Nothing is lost either: different data is told apart by what the interface holds,
    up to the names of classes and the digits of floats. *)
Theorem C89_lossless : forall X E p p' v v' w, php_data X p -> php_data X p' -> plain_data p -> plain_data p' ->
  nesting p <= 10000 -> nesting p' <= 10000 -> small (text p) -> small (text p') ->
  Decodes X E (text p) TAny v w -> Decodes X E (text p') TAny v' w -> text p = text p'.
Proof.
  intros X E p p' v v' w H H' Pl Pl' N N' S S' D D'.
  rewrite (one_text X _ p p' w (le_n _) Pl Pl' (C89_nothing_else _ _ _ _ _ H N S D) (C89_nothing_else _ _ _ _ _ H' N' S' D')). reflexivity.
Qed.
Print Assumptions C89_lossless.

(** Lists can be read into []any, and arrays with strings as keys and objects into
    map[string]any, with the same elements.  The slice must fit in memory. *)
Lemma list_build slots zv (V : lval -> gval -> gval -> Prop) N (Hs : forall n, 0 <= n <= N -> slots n = true) (HN : N < max_int64) ps ws :
  Forall2 (fun p w => V p zv w) ps ws -> forall acc, Z.of_nat (length acc + length ws) <= N ->
  slice_entries slots zv V acc (listed (length acc) ps) (acc ++ ws).
Proof.
  induction 1 as [|p w ps ws Hv F IH]; intros acc Hl; cbn [listed].
  - rewrite app_nil_r. apply se_nil.
  - cbn [length] in Hl. eapply (se_grow _ _ _ acc _ (length acc)).
    + split; [apply decimal_int_text|lia].
    + apply le_n.
    + lia.
    + apply Hs. lia.
    + exact Hv.
    + rewrite Nat.sub_diag. cbn [repeat app]. replace (acc ++ w :: ws) with ((acc ++ [w]) ++ ws) by (rewrite <- app_assoc; reflexivity).
      replace (S (length acc)) with (length (acc ++ [w])) by (rewrite app_length; cbn [length]; lia). apply IH. rewrite app_length. cbn [length]. lia.
Qed.
Lemma listed_len ps : forall i, length (listed i ps) = length ps.
Proof. induction ps as [|p ps IH]; intros i; cbn [listed length]; [reflexivity|]. rewrite IH. reflexivity. Qed.
Lemma entries_le es : (length es <= length (body es))%nat.
Proof. induction es as [|[k v] es IH]; [cbn; lia|]. rewrite body_len. cbn [length]. pose proof (text_pos k). lia. Qed.
Lemma nesting_pos p : 0 <= nesting p.
Proof. assert (forall es, 0 <= fold_right (fun e m => Z.max (Z.max (nesting (fst e)) (nesting (snd e))) m) 0 es) as G by (induction es; cbn [fold_right]; lia). destruct p as [| | | | |n es|cn cls n es]; cbn [nesting]; try lia; specialize (G es); lia. Qed.

Theorem C89_lists : forall X E ps v, ps <> [] -> Forall (fun p => php_data X p /\ nesting p < 10000) ps ->
  let p := LArr (decimal (blen ps)) (listed 0 ps) in small (text p) -> (forall n, 0 <= n <= blen ps -> x_slots X TAny n = true) ->
  exists ws, Decodes X E (text p) (TSlice TAny) v (VSlice (Some ws)) /\ Forall2 (has_data X) ps ws.
Proof.
  intros X E ps v Hne F p Hsm Hs. pose proof (arr_len (decimal (blen ps)) (listed 0 ps)) as LA. pose proof (entries_le (listed 0 ps)) as LE. rewrite listed_len in LE.
  destruct (decimal_numeral (blen ps)) as [N1 N2]; [unfold blen; lia|].
  assert (forall qs i, Forall (fun p => php_data X p /\ nesting p < 10000) qs -> (length (body (listed i qs)) <= length (text p))%nat ->
    exists ws, Forall2 (fun q w => has_data X q w /\ any_val X 1 q w) qs ws) as L.
  { induction qs as [|q qs IH]; intros i G HB; [exists []; constructor|]. cbn [listed] in HB. rewrite body_len in HB. destruct (Forall_inv G) as [Hq Hd].
    destruct (data_any_f X _ 1 q (le_n _) Hq) as (w & A & B); [unfold small, blen in *; lia|unfold limit; lia|].
    destruct (IH (S i) (Forall_inv_tail G)) as (ws & W); [lia|]. exists (w :: ws). constructor; [split; assumption|exact W]. }
  destruct (L ps 0%nat F) as (ws & W); [unfold p; lia|]. exists ws. split.
  - assert (length ps = length ws) as Lw by (clear - W; induction W; cbn [length]; congruence). apply decodes_store; [exact Hsm|apply (compile_supported X E 2); reflexivity|].
    apply sto_slice with (t := TAny); [split; reflexivity|unfold limit; lia|exact N1| | |apply Hs; rewrite N2; unfold blen; lia| |].
    + apply RoundTripFacts.decimal_head. destruct ps; [contradiction|unfold blen; cbn [length]; lia].
    + rewrite N2. unfold p, small, max_int64, blen in *. lia.
    + destruct ps; [contradiction|discriminate].
    + apply (list_build _ _ _ (blen ps) Hs ltac:(unfold p, small, max_int64, blen in *; lia) ps ws) with (acc := []).
      * clear - W. induction W as [|q w qs ws [_ A] W IH]; constructor; [|exact IH]. apply sto_any; [split; reflexivity|exact A].
      * cbn [length]. unfold blen. lia.
  - clear - W. induction W as [|q w qs ws [A _] W IH]; constructor; assumption.
Qed.
Print Assumptions C89_lists.
Theorem C89_records : forall X E p n es, body_of p n es -> n = decimal (blen es) -> NoDup (map fst es) ->
  Forall (fun e => property_name (fst e) /\ php_data X (snd e) /\ nesting (snd e) < 10000) es -> small (text p) ->
  exists m, Decodes X E (text p) (TMap TString TAny) (VMap None) (VMap (Some m)) /\
    Forall2 (fun e x => (exists s, fst e = php_string s /\ fst x = VStr s) /\ has_data X (snd e) (snd x)) es m.
Proof.
  intros X E p n es Hb -> Hn F Hsm. pose proof (entries_le es) as LE. destruct (decimal_numeral (blen es)) as [N1 N2]; [unfold blen; lia|].
  assert (length (body es) < length (text p))%nat as LA.
  { inversion Hb; subst; [pose proof (arr_len (decimal (blen es)) es)|pose proof (obj_len cn cls (decimal (blen es)) es)]; lia. }
  assert (exists m, Forall2 (fun e x => obj_name (fst e) (fst x) /\ has_data X (snd e) (snd x) /\ any_val X 1 (snd e) (snd x)) es m) as (m & G).
  { assert (small (body es)) as Sb by (unfold small, blen in *; lia). clear - F Sb. induction es as [|[k v] es IH]; [exists []; constructor|].
    destruct (Forall_inv F) as (Hk & Hv & Hd). cbn [fst snd] in *. assert (small (text v) /\ small (body es)) as [S1 S2] by (unfold small, blen in *; rewrite body_len in Sb; lia).
    destruct (data_any_f X _ 1 v (le_n _) Hv S1) as (w & A & B); [unfold limit; lia|]. destruct (IH (Forall_inv_tail F) S2) as (m & G).
    destruct Hk as [s]. exists ((VStr s, w) :: m). constructor; [|exact G]. cbn [fst snd]. split; [exists s; split; reflexivity|split; assumption]. }
  exists m. split.
  - apply decodes_store; [exact Hsm|apply (compile_supported X E 2); reflexivity|].
    eapply sto_map with (o := None); [split; reflexivity|unfold limit; lia|exact Hb|exact N1|rewrite N2; unfold small, max_int64, blen in *; lia|].
    change m with ([] ++ m). apply build.
    + clear - G. induction G as [|e x es ms (A & B & C) G IHG]; constructor; [|exact IHG].
      split; [|apply sto_any; [split; reflexivity|exact C]]. destruct A as (s & Q1 & Q2); rewrite Q1, Q2. apply sk_plain; [right; exact I|]. apply sto_string; [split; reflexivity|apply str_ok_php].
    + clear - G. induction G as [|e x es ms (A & _) G IHG]; constructor; [|exact IHG].
      destruct A as (s & _ & Q); rewrite Q; (split; [reflexivity|]); apply str_eqb.
    + cbn [app]. eapply (nodup_through obj_name) with (es := es); [|clear - G; induction G as [|e x es ms (A & _) G IHG]; constructor; assumption|exact Hn].
      intros a a' c (s & A1 & A2) (s' & B1 & B2); congruence.
  - clear - G. induction G as [|e x es ms (A & B & _) G IHG]; constructor; [split; assumption|exact IHG].
Qed.
Print Assumptions C89_records.

(** array('k' => new Foo(x: INF), -7 => null, '' => array(0 => true)) *)
Definition data89 : lval :=
  LArr (bs "3") [(LStr (bs "1") (bs "k"), LObj (bs "3") (bs "Foo") (bs "1") [(LStr (bs "1") (bs "x"), LFloat (bs "INF"))]);
                 (LInt (bs "-7"), LNull); (LStr (bs "0") [], LArr (bs "1") [(LInt (bs "0"), LBool true)])].
Definition data89' : lval := LArr (bs "2") [(LInt (bs "-7"), LNull); (LStr (bs "0") [], LArr (bs "1") [(LInt (bs "0"), LBool true)])].
Example C89_example : php_data Xd data89 /\ nesting data89 = 2 /\ small (text data89) /\
  text data89 = bs "a:3:{s:1:""k"";O:3:""Foo"":1:{s:1:""x"";d:INF;}i:-7;N;s:0:"""";a:1:{i:0;b:1;}}" /\
  php_data Xd data89' /\ plain_data data89' /\ nesting data89' = 2 /\ small (text data89').
Proof.
  assert (php_data Xd (LArr (bs "1") [(LInt (bs "0"), LBool true)])) as A.
  { apply (pd_arr Xd [(LInt (bs "0"), LBool true)]); [repeat constructor; intros []|]. constructor; [|constructor]. split; [apply (dk_int 0); unfold int_range; cbn [ibits]; lia|constructor]. }
  split.
  { apply (pd_arr Xd [_; _; _]).
    - repeat constructor; cbn; intuition discriminate.
    - repeat apply Forall_cons; [| | |apply Forall_nil]; cbn [fst snd].
      + split; [apply (dk_str (bs "k"))|]. apply (pd_obj Xd (bs "Foo") [(LStr (bs "1") (bs "x"), LFloat (bs "INF"))]); [repeat constructor; intros []|].
        constructor; [|constructor]. split; [apply (pn_str (bs "x"))|]. apply (pd_float Xd _ (S754_infinity false)); [discriminate| |left; split; reflexivity].
        cbn. intuition discriminate.
      + split; [apply (dk_int (-7)); unfold int_range; cbn [ibits]; lia|constructor].
      + split; [apply (dk_str [])|exact A]. }
  split; [reflexivity|]. split; [reflexivity|]. split; [reflexivity|]. split.
  { apply (pd_arr Xd [_; _]).
    - repeat constructor; cbn; intuition discriminate.
    - repeat apply Forall_cons; [| |apply Forall_nil]; cbn [fst snd].
      + split; [apply (dk_int (-7)); unfold int_range; cbn [ibits]; lia|constructor].
      + split; [apply (dk_str [])|exact A]. }
  split; [|split; reflexivity].
  apply (pl_arr [_; _]). repeat apply Forall_cons; [| |apply Forall_nil]; cbn [fst snd]; [constructor|].
  apply (pl_arr [_]). repeat constructor.
Qed.
Example C89_list_example :
  (let ps := [LStr (bs "1") (bs "x"); data89; LNull] in
   Forall (fun p => php_data Xd p /\ nesting p < 10000) ps /\ small (text (LArr (decimal (blen ps)) (listed 0 ps))) /\
   (forall n, 0 <= n <= blen ps -> x_slots Xd TAny n = true)) /\
  (let es := [(LStr (bs "1") (bs "k"), data89); (LStr (bs "1") (bs "l"), LNull)] in
   body_of (LObj (bs "3") (bs "Foo") (bs "2") es) (bs "2") es /\ bs "2" = decimal (blen es) /\ NoDup (map fst es) /\
   Forall (fun e => property_name (fst e) /\ php_data Xd (snd e) /\ nesting (snd e) < 10000) es /\ small (text (LObj (bs "3") (bs "Foo") (bs "2") es))).
Proof.
  destruct C89_example as (A & B & _). assert (nesting data89 < 10000) as Q by (rewrite B; lia). split.
  - split; [|split; [reflexivity|]].
    + repeat apply Forall_cons; try apply Forall_nil; split; try (exact A); try exact Q; try (cbn [nesting]; lia); [apply (pd_str Xd (bs "x"))|constructor].
    + intros n [Hn Hm]. cbn in Hm. cbn [x_slots Xd]. lia.
  - split; [|split; [reflexivity|split; [|split; [|reflexivity]]]].
    + apply body_obj. apply (str_ok_php (bs "Foo")). apply (str_ok_php (bs "Foo")).
    + repeat constructor; cbn; intuition discriminate.
    + repeat apply Forall_cons; try apply Forall_nil; cbn [fst snd]; (split; [|split]); try exact A; try exact Q; try (cbn [nesting]; lia); [apply (pn_str (bs "k"))|apply (pn_str (bs "l"))|constructor].
Qed.
