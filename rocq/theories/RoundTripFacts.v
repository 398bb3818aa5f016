(** Marshal followed by Unmarshal. *)
From Coq Require Import Strings.String Strings.Byte ZArith NArith List Bool Lia Floats.SpecFloat Permutation.
From Verif Require Import GvalInd Base GoTypes Tags Grammar Denote Typing Api NumFacts CompileFacts UnmFacts StructFacts Memory
  EncCompile Php Repr EncApi NumEnc ReprFacts PhpFacts MarshalFacts RoundTrip.
Import ListNotations.
Open Scope Z_scope.

(** ** Zero values *)

Lemma zero_f_stable E rank :
  (forall n d, nth_error E n = Some d ->
     (rank n <= length E)%nat /\
     forall m, In m (decl_names d) -> nth_error E m <> None -> (rank m < rank n)%nat) ->
  forall f f' t, (forall m, In m (by_value t) -> nth_error E m <> None -> (rank m < f)%nat /\ (rank m < f')%nat) ->
  zero_f f E t = zero_f f' E t.
Proof.
  intros Hr f. induction f as [f IHf] using lt_wf_ind. intros f'.
  induction t as [| | | | | |t _|n t IHt|k _ v _|t _| |m| |n]; intros Hb; destruct f as [|f]; destruct f' as [|f']; cbn [zero_f]; try reflexivity.
  all: try (f_equal; f_equal; apply IHt; exact Hb).
  - destruct (nth_error E n) as [d|] eqn:En; [|reflexivity]. exfalso. destruct (Hb n); [left; reflexivity|congruence|lia].
  - destruct (nth_error E n) as [d|] eqn:En; [|reflexivity]. exfalso. destruct (Hb n); [left; reflexivity|congruence|lia].
  - destruct (nth_error E n) as [d|] eqn:En; [|reflexivity]. destruct (Hr n d En) as [_ Hlt].
    destruct (Hb n) as [Hn1 Hn2]; [left; reflexivity|congruence|].
    destruct (d_under d) as [fs|t'] eqn:Ed.
    + f_equal. apply map_ext_in. intros g Hg. apply IHf; [lia|]. intros m Hm Hd.
      assert (rank m < rank n)%nat; [|lia]. apply Hlt; [|exact Hd]. unfold decl_names. rewrite Ed. apply in_flat_map. eauto.
    + apply IHf; [lia|]. intros m Hm Hd. assert (rank m < rank n)%nat; [|lia]. apply Hlt; [|exact Hd].
      unfold decl_names. rewrite Ed. exact Hm.
Qed.
Lemma zero_struct E T id fs : go_env E -> kind_of E T = KStruct id fs ->
  zero E T = VStruct (map (fun f => zero E (f_ty f)) fs).
Proof.
  intros [(rank & Hr) _] Hk. destruct T; try discriminate. cbn [kind_of] in Hk.
  destruct (nth_error E n) as [d|] eqn:En; [|discriminate].
  unfold zero. cbn [zero_f]. rewrite En. destruct (d_under d) as [gs|t] eqn:Ed; [|destruct t; discriminate].
  injection Hk as -> ->. f_equal. apply map_ext_in. intros g Hg. apply (zero_f_stable E rank Hr (length E) (S (length E))).
  intros m Hm Hd. destruct (Hr id d En) as [Hle Hlt].
  assert (rank m < rank id)%nat; [|lia]. apply Hlt; [|exact Hd]. unfold decl_names. rewrite Ed. apply in_flat_map. eauto.
Qed.
Lemma zero_named E n d t : nth_error E n = Some d -> d_under d = UTy t -> zero E (TName n) = zero_f (length E) E t.
Proof. intros En Ed. unfold zero. cbn [zero_f]. rewrite En, Ed. reflexivity. Qed.
Lemma kind_named E n k : kind_of E (TName n) = k -> k <> KOther ->
  exists d, nth_error E n = Some d /\ match d_under d with UStruct fs => k = KStruct n fs | UTy t => kind0 t = k end.
Proof.
  intros Hk Ho. cbn [kind_of] in Hk. destruct (nth_error E n) as [d|]; [|congruence]. exists d. split; [reflexivity|].
  destruct (d_under d); congruence.
Qed.
Ltac zero_kind E T Hk :=
  destruct T as [| | | | | | | | | | | | |n]; try discriminate; try reflexivity;
  destruct (kind_named _ _ _ Hk) as (d & En & Q); [discriminate|]; destruct (d_under d) as [gs|t'] eqn:Ed; [discriminate|];
  rewrite (zero_named E n d t' En Ed); destruct t'; try discriminate; destruct (length E); reflexivity.
Lemma zero_ptr E T t : kind_of E T = KPtr t -> zero E T = VPtr None.
Proof. intros Hk. zero_kind E T Hk. Qed.
Lemma zero_map E T k t : kind_of E T = KMap k t -> zero E T = VMap None.
Proof. intros Hk. zero_kind E T Hk. Qed.
Lemma zero_slice E T t : kind_of E T = KSlice t -> zero E T = VSlice None.
Proof. intros Hk. zero_kind E T Hk. Qed.

(** ** Trees *)

Lemma holds_blank H : forall v w, holds H v w -> (zero_value v <-> blank w).
Proof.
  fix IH 1. intros v w Hh.
  assert (forall l ws, Forall2 (holds H) l ws -> (Forall zero_value l <-> Forall blank ws)) as Hl.
  { intros l ws Hf. revert ws Hf. induction l as [|x l IHl]; intros ws Hf; inversion Hf; subst; [split; constructor|].
    rewrite !Forall_cons_iff, (IH x y), (IHl l'); try assumption. reflexivity. }
  destruct v; inversion Hh; subst; try (split; intros Q; inversion Q; constructor; fail).
  all: split; intros Q; inversion Q; subst; constructor; eapply Hl; eassumption.
Qed.

Definition simple_key (v : gval) : bool := match v with VStr _ | VInt _ | VUint _ => true | _ => false end.
Lemma simple_eqb a b : simple_key a = true -> simple_key b = true -> key_eqb a b = true <-> a = b.
Proof.
  intros Ha Hb. destruct a, b; try discriminate; cbn [key_eqb]; try (split; discriminate).
  - rewrite Z.eqb_eq. split; [intros ->; reflexivity|congruence].
  - rewrite Z.eqb_eq. split; [intros ->; reflexivity|congruence].
  - rewrite bytes_eqb_eq. split; [intros ->; reflexivity|congruence].
Qed.
Lemma simple_hash a : simple_key a = true -> hashable a = true.
Proof. destruct a; try discriminate; reflexivity. Qed.
Lemma distinct_nodup m : Forall (fun e : gval * gval => simple_key (fst e) = true) m -> distinct m -> NoDup (map fst m).
Proof.
  intros Hs Hd. induction Hd as [|a m Ha Hd IH]; cbn [map]; [constructor|]. inversion Hs as [|? ? Hsa Hsm]; subst. constructor; [|apply IH; assumption].
  intros Hi. apply in_map_iff in Hi. destruct Hi as (b & Hb & Hi). rewrite Forall_forall in Ha, Hsm. specialize (Ha b Hi). specialize (Hsm b Hi).
  assert (key_eqb (fst a) (fst b) = true) as Q by (apply simple_eqb; [assumption|assumption|congruence]). congruence.
Qed.
Lemma map_set_new k v m : simple_key k = true -> Forall (fun e : gval * gval => simple_key (fst e) = true) m ->
  ~ In k (map fst m) -> map_set k v m = m ++ [(k, v)].
Proof.
  intros Hk Hm Hi. induction m as [|[k' v'] m IH]; [reflexivity|]. inversion Hm as [|? ? Hk' Hm']; subst. cbn [map_set].
  destruct (key_eqb k' k) eqn:Q.
  - apply simple_eqb in Q; [|assumption|assumption]. subst. exfalso. apply Hi. left. reflexivity.
  - cbn [app]. f_equal. apply IH; [assumption|]. intros Q'. apply Hi. right. exact Q'.
Qed.

Definition syn (e : php * php) : lval * lval := (syntax (fst e), syntax (snd e)).
Definition body (ps : list (php * php)) : bytes := flat_map (fun e => serialize (fst e) ++ serialize (snd e)) ps.
Lemma body_cons e ps : blen (body (e :: ps)) = blen (serialize (fst e)) + blen (serialize (snd e)) + blen (body ps).
Proof. unfold body. cbn [flat_map]. rewrite !blen_app. lia. Qed.
Lemma body_le ps : blen (body ps) <= blen (serialize (PArr ps)).
Proof. cbn [serialize]. rewrite !blen_app. fold (body ps). pose proof (blen_nonneg (bs "a:")). pose proof (blen_nonneg (decimal (blen ps))). pose proof (blen_nonneg (bs ":{")). pose proof (blen_nonneg (bs "}")). lia. Qed.
Lemma int_pos z : 1 <= blen (serialize (PInt z)).
Proof. cbn [serialize]. rewrite !blen_app. pose proof (blen_nonneg (decimal z)). change (blen (bs "i:")) with 2. pose proof (blen_nonneg (bs ";")). lia. Qed.

Lemma str_ok_dec s : str_ok (decimal (blen s)) s.
Proof. apply decimal_numeral. unfold blen. lia. Qed.
Lemma decimal_head z : 0 < z -> hd_error (decimal z) <> Some "0"%byte.
Proof.
  intros Hz. rewrite <- append_uint_decimal by lia. destruct (append_uint_facts z) as (Hn & Hnum & [Hc|(c & ds & Q & Hc)]); [lia| |].
  - intros _. rewrite Hc in Hnum. cbn in Hnum. lia.
  - rewrite Q. cbn. congruence.
Qed.
Lemma index_dec i : Z.of_nat i <= max_int64 -> index_text (decimal (Z.of_nat i)) i.
Proof. intros Hi. split; [apply decimal_int_text|exact Hi]. Qed.

(** ** Entries *)

Inductive numbered (V : lval -> gval -> Prop) : Z -> list (php * php) -> list gval -> Prop :=
| nu_nil i : numbered V i [] []
| nu_cons i p ps v vs : V (syntax p) v -> numbered V (i + 1) ps vs -> numbered V i ((PInt i, p) :: ps) (v :: vs).

Lemma numbered_len V i ps vs : numbered V i ps vs -> length ps = length vs /\ Z.of_nat (length vs) <= blen (body ps).
Proof.
  induction 1 as [i|i p ps v vs Hv Hn [IH1 IH2]]; [cbn; split; [reflexivity|lia]|]. rewrite body_cons. cbn [fst snd].
  pose proof (int_pos i). pose proof (blen_nonneg (serialize p)). cbn [length]. split; [congruence|lia].
Qed.
Lemma slice_build (V : lval -> gval -> gval -> Prop) slots zv N (Hs : forall n, 0 <= n <= N -> slots n = true) (HN : N < max_int64) ps vs i :
  numbered (fun p v => V p zv v) i ps vs -> forall l, i = Z.of_nat (length l) -> Z.of_nat (length l + length vs) <= N ->
  slice_entries slots zv V l (map syn ps) (l ++ vs).
Proof.
  induction 1 as [i|i p ps v vs Hv Hn IH]; intros l -> Hl; cbn [map].
  - rewrite app_nil_r. apply se_nil.
  - unfold syn at 1. cbn [fst snd syntax]. cbn [length] in Hl. eapply (se_grow _ _ _ l _ (length l)).
    + apply index_dec. lia.
    + apply le_n.
    + lia.
    + apply Hs. lia.
    + exact Hv.
    + rewrite Nat.sub_diag. cbn [repeat app]. replace (l ++ v :: vs) with ((l ++ [v]) ++ vs) by (rewrite <- app_assoc; reflexivity).
      apply IH; [|]; rewrite app_length; cbn [length]; lia.
Qed.
Lemma update_mid {A} (l : list A) x r v : update (l ++ x :: r) (length l) v = l ++ v :: r.
Proof. induction l as [|y l IH]; [reflexivity|]. cbn. f_equal. exact IH. Qed.
Lemma nth_mid {A} (l : list A) x r : nth_error (l ++ x :: r) (length l) = Some x.
Proof. rewrite nth_error_app2 by lia. rewrite Nat.sub_diag. reflexivity. Qed.
Lemma array_build d (V : lval -> gval -> gval -> Prop) zv N (HN : N < max_int64) ps vs i :
  numbered (fun p v => V p zv v) i ps vs -> forall l, i = Z.of_nat (length l) -> Z.of_nat (length l + length vs) <= N ->
  array_entries d V (l ++ repeat zv (length vs)) (map syn ps) (l ++ vs).
Proof.
  induction 1 as [i|i p ps v vs Hv Hn IH]; intros l -> Hl; cbn [map length repeat].
  - apply ae_nil.
  - unfold syn at 1. cbn [fst snd syntax]. cbn [length] in Hl. eapply (ae_in _ _ _ _ (length l)).
    + apply index_dec. lia.
    + apply nth_mid.
    + exact Hv.
    + rewrite update_mid. replace (l ++ v :: vs) with ((l ++ [v]) ++ vs) by (rewrite <- app_assoc; reflexivity).
      replace (l ++ v :: repeat zv (length vs)) with ((l ++ [v]) ++ repeat zv (length vs)) by (rewrite <- app_assoc; reflexivity).
      apply IH; [|]; rewrite app_length; cbn [length]; lia.
Qed.
Lemma map_build (K V : lval -> gval -> Prop) ps ms :
  Forall2 (fun e x => K (syntax (fst e)) (fst x) /\ V (syntax (snd e)) (snd x) /\ simple_key (fst x) = true) ps ms ->
  forall acc, Forall (fun e : gval * gval => simple_key (fst e) = true) acc -> NoDup (map fst (acc ++ ms)) ->
  map_entries K V acc (map syn ps) (acc ++ ms).
Proof.
  induction 1 as [|[pk pv] [k v] ps ms (Hk & Hv & Hs) Hf IH]; intros acc Ha Hn; cbn [map].
  - rewrite app_nil_r. apply me_nil.
  - cbn [fst snd] in *. unfold syn at 1. cbn [fst snd]. eapply me_cons; [exact Hk|exact Hv|apply simple_hash; exact Hs|].
    rewrite map_set_new; [|exact Hs|exact Ha|].
    + replace (acc ++ (k, v) :: ms) with ((acc ++ [(k, v)]) ++ ms) by (rewrite <- app_assoc; reflexivity). apply IH.
      * apply Forall_app. split; [exact Ha|]. constructor; [exact Hs|constructor].
      * rewrite <- app_assoc. exact Hn.
    + rewrite map_app in Hn. cbn [map fst] in Hn. apply NoDup_remove_2 in Hn. intros Q. apply Hn. apply in_or_app. left. exact Q.
Qed.

(** ** Scalars and byte slices *)

Section Back.
  Context (X : Ext) (E : env) (H : heap).
  Hypothesis Hfmt : fmt_ok X.

  Lemma fmt_char single f : (if exponent_form single f then "e"%byte else "f"%byte) = "e"%byte \/ (if exponent_form single f then "e"%byte else "f"%byte) = "f"%byte.
  Proof. destruct (exponent_form single f); auto. Qed.
  Lemma quoted64 f : strconv_exact X (VF64 f) -> float_text X (float_text_of X false f) f.
  Proof. intros Q. exact (Q _ (fmt_char false f)). Qed.
  Lemma quoted32 f : strconv_exact X (VF32 f) -> exists g, float_text X (float_text_of X true f) g /\ overflow_f32 g = false /\ f32_of_f64 g = f.
  Proof. intros Q. exact (Q _ (fmt_char true f)). Qed.
  Lemma back64 f : strconv_exact X (VF64 f) -> float_text X (float_repr X false f) f.
  Proof.
    intros Q. apply quoted64 in Q. unfold float_repr. destruct f as [s|[|]| |s m e]; try exact Q; unfold float_text; tauto.
  Qed.
  Lemma back32 f : strconv_exact X (VF32 f) -> exists g, float_text X (float_repr X true f) g /\ overflow_f32 g = false /\ f32_of_f64 g = f.
  Proof.
    intros Q. apply quoted32 in Q. unfold float_repr. destruct f as [s|[|]| |s m e]; try exact Q.
    - exists (S754_infinity true). split; [unfold float_text; tauto|split; reflexivity].
    - exists (S754_infinity false). split; [unfold float_text; tauto|split; reflexivity].
    - exists S754_nan. split; [unfold float_text; tauto|split; reflexivity].
  Qed.
  Lemma float_repr_chars single f : float_repr X single f <> [] /\ ~ In ";"%byte (float_repr X single f).
  Proof.
    unfold float_repr, float_text_of. destruct f as [s|[|]| |s m e]; try apply Hfmt;
      (split; [discriminate|]; cbn; intros Q; repeat (destruct Q as [Q|Q]; [discriminate|]); exact Q).
  Qed.

  Lemma scalar_back d T v p w : has_unmarshal E T = None -> scalar_repr X (kind_of E T) v p -> holds H v w ->
    Forall (strconv_exact X) (leaves w) ->
    scalar w = true /\ raw_free p = true /\ p <> PNull /\ forall old, store X E d T (syntax p) old w.
  Proof.
    intros Hu Hr Hh Hl. remember (kind_of E T) as k eqn:Hk. symmetry in Hk.
    destruct Hr as [b|k z Hz|k z Hne Hz|f|f|s]; inversion Hh; subst; cbn [scalar raw_free syntax];
      (split; [reflexivity|split; [reflexivity|split; [discriminate|intros old]]]).
    - apply sto_bool. split; assumption.
    - eapply sto_int; [split; eassumption|apply decimal_int_text|exact Hz].
    - destruct (decimal_numeral z) as [Hn Hnum]; [unfold uint_range in Hz; lia|]. rewrite <- Hnum at 2.
      eapply sto_uint; [split; eassumption|exact Hn|rewrite Hnum; exact Hz].
    - apply Forall_inv in Hl. destruct (back32 f Hl) as (g & Hg & Ho & <-). destruct (float_repr_chars true (f32_of_f64 g)) as [C1 C2].
      eapply sto_f32; [split; assumption|exact C1|exact C2|exact Hg|exact Ho].
    - apply Forall_inv in Hl. destruct (float_repr_chars false f) as [C1 C2].
      eapply sto_f64; [split; assumption|exact C1|exact C2|apply back64; exact Hl].
    - eapply sto_string; [split; assumption|apply str_ok_dec].
  Qed.

  Lemma quoted_back t v p w : has_unmarshal E t = None -> number_kind (kind_of E t) = true -> quoted_repr X E H t v p -> holds H v w ->
    Forall (strconv_exact X) (leaves w) ->
    scalar w = true /\ exists s, p = PStr s /\ quoted_scalar X E t s w.
  Proof.
    intros Hu Hn Hr Hh Hl.
    destruct Hr as [b Hk|k z Hk Hz|k z Hk Hz|f Hk|f Hk|s Hk|v p Hk Hq]; [inversion Hh; subst..|]; (try (split; [reflexivity|eexists; split; [reflexivity|]])).
    - apply qs_bool; [split; assumption|]. destruct b; [apply bt_true|apply bt_false]; cbn; tauto.
    - eapply qs_int; [split; eassumption|apply decimal_int_text|exact Hz].
    - destruct (decimal_numeral z) as [Hd Hnum]; [unfold uint_range in Hz; lia|]. rewrite <- Hnum at 2.
      eapply qs_uint; [split; eassumption|exact Hd|rewrite Hnum; exact Hz].
    - apply Forall_inv in Hl. destruct (quoted32 f Hl) as (g & Hg & Ho & Q). rewrite <- Q at 2. eapply qs_f32; [split; assumption|exact Hg|exact Ho].
    - apply Forall_inv in Hl. eapply qs_f64; [split; assumption|apply quoted64; exact Hl].
    - rewrite Hk in Hn. discriminate.
    - destruct (kind_of E t); discriminate.
  Qed.

  Lemma cells_bytes l : forall b ws, bytes_of_cells l = Some b -> Forall2 (holds H) l ws -> ws = map byte_val b.
  Proof.
    induction l as [|v l IH]; intros b ws Hb Hh; inversion Hh as [|? w ? ws' Hv Hl]; subst; cbn [bytes_of_cells] in Hb.
    - injection Hb as <-. reflexivity.
    - destruct v; try discriminate. inversion Hv; subst. destruct (0 <=? z) eqn:Hz; [|discriminate].
      destruct (Byte.of_N (Z.to_N z)) as [c|] eqn:Hc; [|discriminate]. destruct (bytes_of_cells l) as [b'|] eqn:Hb'; [|discriminate].
      injection Hb as <-. cbn [map]. rewrite (IH b' ws' eq_refl Hl). f_equal. unfold byte_val. f_equal.
      apply Byte.to_of_N in Hc. apply Z.leb_le in Hz. rewrite Hc. lia.
  Qed.
  Lemma bytes_back d T v b w : bytes_type T = true -> byte_slice H v = Some b -> holds H v w ->
    survives X E T w (vbytes b) /\ (forall old, store X E d T (syntax (PStr b)) old (vbytes b)).
  Proof.
    intros Ht Hb Hh. assert (T = TSlice (TUint U8)) as -> by (destruct T as [| | | | | |t| | | | | | |]; try discriminate; destruct t; try discriminate; destruct k; try discriminate; reflexivity).
    split.
    - inversion Hh; subst; try discriminate; cbn [byte_slice] in Hb.
      + injection Hb as <-. apply sv_bytes_nil. reflexivity.
      + rewrite H0 in Hb. rewrite (cells_bytes _ _ _ Hb H1). apply sv_bytes. reflexivity.
    - intros old. cbn [syntax]. eapply sto_bytes; [split; reflexivity|reflexivity|apply str_ok_dec].
  Qed.
End Back.

(** ** The induction *)

Lemma written_not_ignored X f : written_field X f = true -> is_ignored f = false.
Proof.
  unfold written_field, is_ignored. intros Q. apply andb_true_iff in Q. destruct Q as [-> Q]. cbn [negb orb].
  destruct (bytes_eqb (f_tag f) (bs "-")) eqn:Et; [|reflexivity]. apply bytes_eqb_eq in Et. exfalso.
  unfold tag_of in Q. rewrite Et in Q. vm_compute in Q. discriminate.
Qed.
Lemma levels_in x l : In x l -> levels x <= fold_right (fun x m => Z.max (levels x) m) 0 l.
Proof. induction l as [|y l IH]; intros Hi; [destruct Hi|]. cbn [fold_right]. destruct Hi as [->|Hi]; [lia|]. specialize (IH Hi). lia. Qed.
Lemma levels_in_map x (l : list (gval * gval)) : In x l -> levels (snd x) <= fold_right (fun e m => Z.max (levels (snd e)) m) 0 l.
Proof. induction l as [|y l IH]; intros Hi; [destruct Hi|]. cbn [fold_right]. destruct Hi as [->|Hi]; [lia|]. specialize (IH Hi). lia. Qed.
Lemma levels_nonneg w : 0 <= levels w.
Proof.
  revert w. fix IH 1. intros w. destruct w as [b|z|z|f|f|s|[l|]|l|[m|]|[w|]|[[t w]|]|l|]; cbn [levels]; try lia; try apply IH.
  all: match goal with |- 0 <= 1 + ?m => assert (0 <= m); [|lia] end.
  all: match goal with l : list _ |- _ => clear - l; induction l as [|x l IHl]; cbn [fold_right]; lia end.
Qed.
Lemma forall_leaves P l : Forall P (flat_map leaves l) -> Forall (fun w => Forall P (leaves w)) l.
Proof. intros Q. apply Forall_forall. intros w Hw. apply Forall_forall. intros x Hx. rewrite Forall_forall in Q. apply Q. apply in_flat_map. eauto. Qed.
Lemma raw_free_body ps : raw_free (PArr ps) = true <-> forallb (fun e => raw_free (fst e) && raw_free (snd e)) ps = true.
Proof. reflexivity. Qed.

Lemma f2_len {A B} (R : A -> B -> Prop) l l' : Forall2 R l l' -> length l = length l'.
Proof. induction 1; cbn; congruence. Qed.

Section Trip.
  Context (X : Ext) (E : env) (H : heap) (T0 : gty) (N : Z).
  Hypothesis Hgo : go_env E.
  Hypothesis Hfmt : fmt_ok X.
  Hypothesis HN : N < max_int64.
  Hypothesis Hsup : supported X E T0.
  Hypothesis Hdata : data_type E T0.
  Hypothesis Hslots : forall U t n, inside E T0 U -> kind_of E U = KSlice t -> 0 <= n <= N -> x_slots X t n = true.

  Definition good (T : gty) : Prop := inside E T0 T.
  Lemma good_component T U : good T -> component E T U -> good U.
  Proof. intros Hs Hc. eapply in_step; eassumption. Qed.
  Lemma good_plain T k : good T -> kind_of E T = k -> plain E T k.
  Proof. intros Hd Hk. split; [apply (Hdata T Hd)|exact Hk]. Qed.
  Lemma good_kind T : good T -> data_kind E (kind_of E T) = true.
  Proof. intros Hd. apply (Hdata T Hd). Qed.
  Lemma good_silent T : good T -> marshaler E T = false.
  Proof. intros Hd. apply (Hdata T Hd). Qed.

  Definition fits (d : Z) (w : gval) : Prop := Forall (strconv_exact X) (leaves w) /\ 0 <= d /\ d + levels w < limit.
  Definition Qv (T : gty) (v : hval) (p : php) : Prop :=
    forall w d, good T -> holds H v w -> fits d w -> blen (serialize p) <= N ->
    raw_free p = true /\ (p = PNull -> is_ptr E T = false -> written_null E T w) /\ (written_null E T w -> p = PNull) /\
    exists w', survives X E T w w' /\ store X E d T (syntax p) (zero E T) w'.
  Definition Qelems (t : gty) (i : Z) (l : list hval) (ps : list (php * php)) : Prop :=
    forall ws d, good t -> Forall2 (holds H) l ws -> Forall (fits d) ws -> blen (body ps) <= N ->
    raw_free (PArr ps) = true /\
    exists ws', Forall2 (survives X E t) ws ws' /\ numbered (fun q x => store X E d t q (zero E t) x) i ps ws'.
  Definition Qpairs (k : kind) (t : gty) (l : list (hval * hval)) (ps : list (php * php)) : Prop :=
    forall kt ws d, kind_of E kt = k -> key_kind k = true -> has_unmarshal E kt = None -> good t ->
    Forall2 (fun e x => holds H (fst e) (fst x) /\ holds H (snd e) (snd x)) l ws ->
    Forall (fun e => fits d (snd e)) ws -> blen (body ps) <= N ->
    raw_free (PArr ps) = true /\
    exists ws', Forall2 (fun e x => fst x = fst e /\ survives X E t (snd e) (snd x)) ws ws' /\
      Forall2 (fun e x => store_key X E d kt (syntax (fst e)) (fst x) /\ store X E d t (syntax (snd e)) (zero E t) (snd x) /\
                          simple_key (fst x) = true /\ 1 <= blen (serialize (fst e))) ps ws'.
  Definition Qfield (f : field) (v : hval) (p : php) : Prop :=
    forall w d, good (f_ty f) -> (string_tagged X E f = true -> ~ ~ Typing.quotable E (f_ty f)) ->
    holds H v w -> fits d w -> blen (serialize p) <= N ->
    raw_free p = true /\ exists w', survives X E (f_ty f) w w' /\ FV X E (store X E d) f (syntax p) (zero E (f_ty f)) w'.
  Definition Qfields (fs : list field) (l : list hval) (ps : list (php * php)) : Prop :=
    forall T id pre ws d done, kind_of E T = KStruct id (pre ++ fs) -> good T -> length done = length pre ->
    Forall2 (holds H) l ws -> Forall (fits d) ws -> blen (body ps) <= N ->
    raw_free (PArr ps) = true /\ length ws = length fs /\
    exists ws',
      Forall2 (fun x w => (left_out X (fst x) (snd x) /\ w = zero E (f_ty (fst x))) \/
                          (~ left_out X (fst x) (snd x) /\ survives X E (f_ty (fst x)) (snd x) w)) (combine fs ws) ws' /\
      struct_entries X E d (pre ++ fs) (store X E d) (done ++ map (fun f => zero E (f_ty f)) fs) (map syn ps) (done ++ ws').

  Ltac noptr := let Q := fresh in intros Q; discriminate Q.
  Lemma ptr_back t t' o i c p : kind_of E t = KPtr t' -> cell H o i = Some c -> Qv t' c p -> Qv t (HPtr (Some (o, i))) p.
  Proof.
    intros Hk Hc IH w d Hg Hh (Hl & Hd & Hlev) Hb. inversion Hh as [| | | | | | | | | | | |? ? c' w0 Hc' Hw| | | |]; subst.
    replace c' with c in * by congruence. pose proof (good_plain _ _ Hg Hk) as Hp.
    destruct (IH w0 d) as (Hraw & Hn1 & Hn2 & w' & Hsv & Hst); try assumption.
    { eapply good_component; [exact Hg|eapply co_ptr; exact Hp]. }
    { split; [exact Hl|split; assumption]. }
    assert (is_ptr E t' = false) as Hnp.
    { destruct (is_ptr E t') eqn:Q; [|reflexivity]. exfalso. apply (proj1 Hsup t Hg). eapply us_ptr; eassumption. }
    split; [exact Hraw|]. split; [intros _; unfold is_ptr; rewrite Hk; discriminate|]. split; [intros Q; inversion Q|].
    rewrite (zero_ptr E t t' Hk). destruct p as [| | | | | |].
    { exists (VPtr None). split; [eapply sv_ptr_null; [exact Hk|apply Hn1; [reflexivity|exact Hnp]]|]. cbn [syntax]. eapply sto_ptr_null; eassumption. }
    all: exists (VPtr (Some w')); split; [eapply sv_ptr; [exact Hk|intros Q; apply Hn2 in Q; discriminate|exact Hsv]|].
    all: try discriminate.
    all: eapply sto_ptr; [exact Hp|exact Hnp|discriminate|exact Hst].
  Qed.

  Theorem trip :
    (forall s t v p, repr X E H anything s t v p -> Qv t v p) /\
    (forall s t v p, shape X E H anything s t v p -> bytes_type t = false -> Qv t v p) /\
    (forall s t v p, inner X E H anything s t v p -> True) /\
    (forall s b t i l ps, elems X E H anything s b t i l ps -> b = false -> Qelems t i l ps) /\
    (forall s b k t l ps, pairs X E H anything s b k t l ps -> b = false -> Qpairs k t l ps) /\
    (forall s fs l ps, fields X E H anything s fs l ps -> Qfields fs l ps) /\
    (forall s f v p, field_val X E H anything s f v p -> Qfield f v p).
  Proof.
    apply repr_ind7; try (intros; exact I).
    - (* marshaler *) intros s t v b Hi Hsay w d Hg Hh Hf Hb. rewrite (good_silent _ Hg) in Hi. discriminate.
    - (* bytes *) intros s t v b Hi Ht Hb w d Hg Hh Hf Hl. destruct (bytes_back X E H d t v b w Ht Hb Hh) as [Hs Hst].
      split; [reflexivity|]. split; [noptr|]. split; [|eauto]. intros Q. exfalso. destruct t as [| | | | | |t| | | | | | |]; try discriminate. inversion Q; subst; [congruence|discriminate].
    - (* shape *) intros s t v p Hi Ht Hs IH. exact (IH Ht).
    - (* scalar *) intros s t v p Hr Ht w d Hg Hh (Hl & Hf) Hb.
      destruct (scalar_back X E H Hfmt d t v p w (proj1 (Hdata t Hg)) Hr Hh Hl) as (Hw & Hraw & Hne & Hst).
      split; [exact Hraw|]. split; [congruence|]. split; [intros Q; inversion Q; subst; discriminate|].
      exists w. split; [apply sv_scalar; exact Hw|apply Hst].
    - (* struct *) intros s t id fs l ps Hk _ IH Ht w d Hg Hh (Hl & Hd & Hlev) Hb. inversion Hh as [| | | | | | | | | | | | | | |? ws Hws|]; subst.
      destruct (IH t id [] ws (d + 1) []) as (Hraw & Hlen & ws' & Hsv & Hst); try assumption; try reflexivity.
      { cbn [levels] in Hlev. cbn [leaves] in Hl. apply forall_leaves in Hl. rewrite Forall_forall in *. intros x Hx. split; [apply Hl; exact Hx|].
        pose proof (levels_in _ _ Hx). lia. }
      { pose proof (body_le ps). lia. }
      split; [exact Hraw|]. split; [noptr|]. split; [intros Q; inversion Q|].
      exists (VStruct ws'). split; [eapply sv_struct; eassumption|]. rewrite (zero_struct E t id fs Hgo Hk). cbn [syntax].
      eapply (sto_struct X E d t id fs); [apply good_plain; [exact Hg|exact Hk]|pose proof (levels_nonneg (VStruct ws)); lia|apply body_arr| |exact Hst].
      apply decimal_numeral. apply blen_nonneg.
    - (* array *) intros s t n t' l ps Hk Hn _ IH Ht w d Hg Hh (Hl & Hd & Hlev) Hb. inversion Hh as [| | | | | | | |? ws Hws| | | | | | | |]; subst.
      pose proof (good_plain _ _ Hg Hk) as Hp.
      destruct (IH eq_refl ws (d + 1)) as (Hraw & ws' & Hsv & Hnum); try assumption.
      { eapply good_component; [exact Hg|eapply co_array; exact Hp]. }
      { cbn [levels] in Hlev. cbn [leaves] in Hl. apply forall_leaves in Hl. rewrite Forall_forall in *. intros x Hx. split; [apply Hl; exact Hx|].
        pose proof (levels_in _ _ Hx). lia. }
      { pose proof (body_le ps). lia. }
      split; [exact Hraw|]. split; [noptr|]. split; [intros Q; inversion Q|].
      exists (VArr ws'). split; [eapply sv_arr; eassumption|]. cbn [syntax]. fold syn.
      destruct (numbered_len _ _ _ _ Hnum) as [Hlen Hle]. pose proof (body_le ps). pose proof (levels_nonneg (VArr ws)).
      assert (length l = length ws') as Hlw by (rewrite (f2_len _ _ _ Hws); exact (f2_len _ _ _ Hsv)).
      destruct ps as [|e ps].
      + destruct ws'; [|discriminate]. destruct l; [|discriminate]. cbn [map]. change (decimal (blen (@nil (php * php)))) with (bs "0").
        change (VArr []) with (VArr (repeat (zero E t') 0)). eapply sto_array_empty; [exact Hp|lia].
      + eapply sto_array; [exact Hp|lia| | | | |].
        * apply decimal_numeral. apply blen_nonneg.
        * apply decimal_head. unfold blen. cbn [length]. lia.
        * destruct (decimal_numeral (blen (e :: ps))) as [_ ->]; [apply blen_nonneg|]. unfold blen at 1. lia.
        * discriminate.
        * rewrite Hlw. apply (array_build (d + 1) (store X E (d + 1) t') (zero E t') N HN _ _ 0 Hnum []); [reflexivity|cbn [length]; lia].
    - (* nil slice *) intros s t t' Hk Ht w d Hg Hh (Hl & Hd & Hlev) Hb. inversion Hh; subst.
      split; [reflexivity|]. split; [intros _ _; eapply wn_slice; eassumption|]. split; [reflexivity|].
      exists (VSlice None). split; [eapply sv_slice_nil; eassumption|]. rewrite (zero_slice E t t' Hk). cbn [syntax].
      pose proof (good_plain _ _ Hg Hk) as Hp. cbn [levels] in Hlev.
      destruct (is_byte E t') eqn:Hby; [eapply sto_bytes_null; eassumption|eapply sto_slice_null; [exact Hp|exact Hby|lia]].
    - (* slice *) intros s s' t t' o i n l ps Hk Hc _ _ IH Ht w d Hg Hh (Hl & Hd & Hlev) Hb. inversion Hh as [| | | | | | |? ? ? l' ws Hc' Hws| | | | | | | | |]; subst.
      replace l' with l in * by congruence.
      pose proof (good_plain _ _ Hg Hk) as Hp.
      destruct (IH eq_refl ws (d + 1)) as (Hraw & ws' & Hsv & Hnum); try assumption.
      { eapply good_component; [exact Hg|eapply co_slice; exact Hp]. }
      { cbn [levels] in Hlev. cbn [leaves] in Hl. apply forall_leaves in Hl. rewrite Forall_forall in *. intros x Hx. split; [apply Hl; exact Hx|].
        pose proof (levels_in _ _ Hx). lia. }
      { pose proof (body_le ps). lia. }
      split; [exact Hraw|]. split; [noptr|]. split; [intros Q; inversion Q|].
      destruct (numbered_len _ _ _ _ Hnum) as [Hlen Hle]. pose proof (body_le ps). pose proof (levels_nonneg (VSlice (Some ws))).
      destruct ps as [|e ps].
      + destruct ws'; [|discriminate]. inversion Hsv; subst. exists (VSlice None). split; [eapply sv_slice_empty; eassumption|].
        cbn [syntax map]. change (decimal (blen (@nil (php * php)))) with (bs "0"). eapply sto_slice_empty; [exact Hp|lia].
      + exists (VSlice (Some ws')). split; [eapply sv_slice; try eassumption; intros ->; inversion Hsv; subst; discriminate|].
        cbn [syntax]. fold syn. destruct (decimal_numeral (blen (e :: ps))) as [Hdn Hdv]; [apply blen_nonneg|].
        eapply sto_slice; [exact Hp|lia|exact Hdn| | | | |].
        * apply decimal_head. unfold blen. cbn [length]. lia.
        * rewrite Hdv. unfold blen at 1. lia.
        * rewrite Hdv. apply (Hslots t t'); [exact Hg|exact Hk|]. split; [apply blen_nonneg|unfold blen at 1; lia].
        * discriminate.
        * apply (slice_build (store X E (d + 1) t') _ (zero E t') N (fun n => Hslots t t' n Hg Hk) HN _ _ 0 Hnum []); [reflexivity|cbn [length]; lia].
    - (* nil map *) intros s t k t' Hk Ht w d Hg Hh (Hl & Hd & Hlev) Hb. inversion Hh; subst.
      split; [reflexivity|]. split; [intros _ _; eapply wn_map; eassumption|]. split; [reflexivity|].
      exists (VMap None). split; [eapply sv_map_nil; eassumption|]. cbn [syntax levels] in *.
      eapply sto_map_null; [apply good_plain; [exact Hg|exact Hk]|lia].
    - (* map *) intros s s' t k t' o m l ps Hk He Hperm _ _ IH Ht w d Hg Hh (Hl & Hd & Hlev) Hb.
      inversion Hh as [| | | | | | | | | |? m' ws He' Hdist Hws| | | | | |]; subst. replace m' with m in * by congruence.
      pose proof (good_plain _ _ Hg Hk) as Hp.
      pose proof (good_kind _ Hg) as Hkey. rewrite Hk in Hkey. cbn [data_kind] in Hkey.
      assert (exists wl, Permutation ws wl /\ Forall2 (fun e x => holds H (fst e) (fst x) /\ holds H (snd e) (snd x)) l wl) as (wl & Hpw & Hwl).
      { destruct (Permutation_Forall2 (P := fun e x => holds H (fst e) (fst x) /\ holds H (snd e) (snd x)) Hperm Hws) as (wl & Q1 & Q2). eauto. }
      destruct (IH eq_refl k wl (d + 1)) as (Hraw & ws' & Hsv & Hst); try assumption; try reflexivity.
      { apply (Hdata k). eapply good_component; [exact Hg|eapply co_key; exact Hp]. }
      { eapply good_component; [exact Hg|eapply co_val; exact Hp]. }
      { apply (Permutation_Forall Hpw). cbn [levels leaves] in *. rewrite Forall_forall in *. intros x Hx. split.
        - apply Forall_forall. intros y Hy. apply Hl. apply in_flat_map. exists x. split; [exact Hx|apply in_or_app; right; exact Hy].
        - pose proof (levels_in_map _ _ Hx). lia. }
      { pose proof (body_le ps). lia. }
      split; [exact Hraw|]. split; [noptr|]. split; [intros Q; inversion Q|].
      exists (VMap (Some ws')). split; [eapply sv_map; eassumption|]. rewrite (zero_map E t k t' Hk). cbn [syntax]. fold syn.
      pose proof (levels_nonneg (VMap (Some ws))). destruct (decimal_numeral (blen ps)) as [Hdn Hdv]; [apply blen_nonneg|].
      assert (Forall (fun e : gval * gval => simple_key (fst e) = true) ws') as Hsk.
      { clear - Hst. induction Hst as [|e x ps ws' (_ & _ & Q & _) Hst IH]; constructor; assumption. }
      assert (map fst ws' = map fst wl) as Hfst.
      { clear - Hsv. induction Hsv as [|e x wl ws' (Q & _) Hsv IH]; [reflexivity|]. cbn [map]. rewrite Q, IH. reflexivity. }
      eapply (sto_map X E d t k t'); [exact Hp|lia|apply body_arr|exact Hdn| |].
      + rewrite Hdv. pose proof (body_le ps). assert (Z.of_nat (length ps) <= blen (body ps)) as Q; [|unfold blen at 1; lia].
        clear - Hst. induction Hst as [|e x ps ws' (_ & _ & _ & Q) Hst IH]; [cbn; lia|]. rewrite body_cons. cbn [length].
        pose proof (blen_nonneg (serialize (snd e))). lia.
      + cbn iota. apply (map_build (store_key X E (d + 1) k) (fun q x => store X E (d + 1) t' q (zero E t') x) ps ws') with (acc := []); [|constructor|].
        { clear - Hst. induction Hst as [|e x ps ws' (Q1 & Q2 & Q3 & _) Hst IH]; constructor; auto. }
        cbn [app]. rewrite Hfst. eapply Permutation_NoDup; [apply Permutation_map; exact Hpw|]. apply distinct_nodup; [|exact Hdist].
        apply (Permutation_Forall (Permutation_sym Hpw)). clear - Hfst Hsk. revert wl Hfst. induction Hsk as [|x ws' Hx Hsk IH]; intros [|y wl] Q; try discriminate; constructor; injection Q as Q1 Q2; [congruence|apply IH; exact Q2].
    - (* iface *) intros s t v p Hk _ _ Ht w d Hg. exfalso. pose proof (good_kind _ Hg) as Hkey. destruct (kind_of E t); discriminate.
    - (* ptr iface *) intros s t t' v p Hk Hk' _ _ Ht w d Hg. exfalso. pose proof (good_plain _ _ Hg Hk) as Hp.
      pose proof (good_kind _ (good_component _ _ Hg (co_ptr _ _ _ Hp))) as Hkey. destruct (kind_of E t'); discriminate.
    - (* nil ptr *) intros s t t' Hk _ Ht w d Hg Hh Hf Hb. inversion Hh; subst.
      split; [reflexivity|]. split; [intros _; unfold is_ptr; rewrite Hk; discriminate|]. split; [intros Q; inversion Q|].
      exists (VPtr None). split; [eapply sv_ptr_nil; eassumption|]. cbn [syntax]. eapply sto_ptr_null; [apply good_plain; [exact Hg|exact Hk]|]. destruct (is_ptr E t') eqn:Q; [|reflexivity]. exfalso. apply (proj1 Hsup t Hg). eapply us_ptr; [apply good_plain; [exact Hg|exact Hk]|exact Q].
    - (* ptr struct *) intros s s' t t' o i c p Hk Hk' Hc _ _ IH Ht. eapply ptr_back; [exact Hk|exact Hc|]. apply IH. destruct t' as [| | | | | |u| | | | | | |]; try reflexivity. discriminate.
    - (* ptr direct *) intros s t t' o i c p Hk Hk' Hb Hc _ IH Ht. eapply ptr_back; [exact Hk|exact Hc|]. apply IH. destruct t' as [| | | | | |u| | | | | | |]; try reflexivity. discriminate.
    - (* ptr *) intros s t t' o i c p Hk Hk' Hb Hc _ IH Ht. eapply ptr_back; [exact Hk|exact Hc|exact IH].
    - (* elems *) intros s b t i _ ws d Hg Hh Hf Hb. inversion Hh; subst. split; [reflexivity|]. exists []. split; constructor.
    - intros s t i v l p ps _ IHv _ IHl _ ws d Hg Hh Hf Hb. inversion Hh as [|? w ? ws0 Hw Hws]; subst. rewrite body_cons in Hb. cbn [fst snd] in Hb.
      pose proof (blen_nonneg (body ps)). pose proof (blen_nonneg (serialize p)). pose proof (int_pos i).
      inversion Hf as [|? ? Hfw Hfs]; subst.
      destruct (IHv w d Hg Hw Hfw) as (Hraw & _ & _ & w' & Hsv & Hst); [lia|].
      destruct (IHl eq_refl ws0 d Hg Hws Hfs) as (Hraws & ws' & Hsvs & Hnum); [lia|].
      split; [cbn [raw_free forallb fst snd andb] in *; rewrite Hraw, Hraws; reflexivity|].
      exists (w' :: ws'). split; [apply Forall2_cons; assumption|apply nu_cons; assumption].
    - intros; discriminate.
    - (* pairs *) intros s b k t _ kt ws d Hk Hkk Hu Hg Hh Hf Hb. inversion Hh; subst. split; [reflexivity|]. exists []. split; constructor.
    - intros s k t kv v l kp p ps [_ Hkr] _ IHv _ IHl _ kt ws d Hk Hkk Hu Hg Hh Hf Hb. inversion Hh as [|? [wk w] ? ws0 [Hwk Hw] Hws]; subst. rewrite body_cons in Hb. cbn [fst snd] in *.
      assert (simple_key wk = true /\ 1 <= blen (serialize kp) /\ raw_free kp = true /\ store X E d kt (syntax kp) (zero E kt) wk) as (Hsk & Hpos & Hrk & Hstk).
      { destruct (scalar_back X E H Hfmt d kt kv kp wk Hu Hkr Hwk) as (Q1 & Q2 & Q3 & Q4).
        - destruct Hkr; inversion Hwk; subst; try discriminate; cbn [leaves]; repeat constructor.
        - split; [destruct Hkr; inversion Hwk; subst; try discriminate; reflexivity|]. split; [|split; [exact Q2|apply Q4]].
          destruct Hkr; try discriminate; try apply int_pos. cbn [serialize]. rewrite !blen_app. change (blen (bs "s:")) with 2.
          repeat match goal with |- context [blen ?l] => lazymatch goal with _ : 0 <= blen l |- _ => fail | _ => pose proof (blen_nonneg l) end end. lia. }
      pose proof (blen_nonneg (body ps)). pose proof (blen_nonneg (serialize p)).
      inversion Hf as [|? ? Hfw Hfs]; subst.
      destruct (IHv w d Hg Hw Hfw) as (Hraw & _ & _ & w' & Hsv & Hst); [lia|].
      destruct (IHl eq_refl kt ws0 d eq_refl Hkk Hu Hg Hws Hfs) as (Hraws & ws' & Hsvs & Hsts); [lia|].
      split; [cbn [raw_free forallb fst snd] in *; rewrite Hrk, Hraw, Hraws; reflexivity|].
      exists ((wk, w') :: ws'). split; apply Forall2_cons; try assumption; [split; [reflexivity|exact Hsv]|]. cbn [fst snd].
      split; [apply sk_plain; [right; destruct (kind_of E kt) as [| |[]| | | | | | | | | | |]; try discriminate; exact I|exact Hstk]|]. split; [exact Hst|]. split; [exact Hsk|exact Hpos].
    - intros; discriminate.
    - (* fields *) intros s T id pre ws d done Hk Hg Hlen Hh Hf Hb. inversion Hh; subst. split; [reflexivity|]. split; [reflexivity|]. exists []. split; [constructor|]. apply ste_nil.
    - intros s f fs v l ps Hwf _ IH T id pre ws d done Hk Hg Hlen Hh Hf Hb. inversion Hh as [|? w ? ws0 Hw Hws]; subst.
      inversion Hf as [|? ? Hfw Hfs]; subst.
      replace (pre ++ f :: fs) with ((pre ++ [f]) ++ fs) in Hk |- * by (rewrite <- app_assoc; reflexivity).
      destruct (IH T id (pre ++ [f]) ws0 d (done ++ [zero E (f_ty f)]) Hk Hg) as (Hraw & Hl & ws' & Hsv & Hst); try assumption.
      { rewrite !app_length, Hlen. reflexivity. }
      split; [exact Hraw|]. split; [cbn; congruence|]. exists (zero E (f_ty f) :: ws'). split.
      + cbn [combine]. apply Forall2_cons; [|exact Hsv]. left. split; [left; exact Hwf|reflexivity].
      + rewrite <- !app_assoc in Hst. cbn [app] in Hst. rewrite <- app_assoc. exact Hst.
    - intros s f fs v l ps Hwf Hom Hz _ IH T id pre ws d done Hk Hg Hlen Hh Hf Hb. inversion Hh as [|? w ? ws0 Hw Hws]; subst.
      inversion Hf as [|? ? Hfw Hfs]; subst.
      replace (pre ++ f :: fs) with ((pre ++ [f]) ++ fs) in Hk |- * by (rewrite <- app_assoc; reflexivity).
      destruct (IH T id (pre ++ [f]) ws0 d (done ++ [zero E (f_ty f)]) Hk Hg) as (Hraw & Hl & ws' & Hsv & Hst); try assumption.
      { rewrite !app_length, Hlen. reflexivity. }
      split; [exact Hraw|]. split; [cbn; congruence|]. exists (zero E (f_ty f) :: ws'). split.
      + cbn [combine]. apply Forall2_cons; [|exact Hsv]. left. split; [right; split; [exact Hom|apply (holds_blank H v w Hw); exact Hz]|reflexivity].
      + rewrite <- !app_assoc in Hst. cbn [app] in Hst. rewrite <- app_assoc. exact Hst.
    - intros s f fs v l p ps Hwf Hnz _ IHv _ IH T id pre ws d done Hk Hg Hlen Hh Hf Hb. inversion Hh as [|? w ? ws0 Hw Hws]; subst.
      inversion Hf as [|? ? Hfw Hfs]; subst. rewrite body_cons in Hb. cbn [fst snd] in Hb.
      pose proof (blen_nonneg (body ps)). pose proof (blen_nonneg (serialize p)). pose proof (blen_nonneg (serialize (PStr (field_key X f)))).
      pose proof (good_plain _ _ Hg Hk) as Hp. pose proof (written_not_ignored _ _ Hwf) as Hig.
      assert (In f (pre ++ f :: fs)) as Hin by (apply in_or_app; right; left; reflexivity).
      destruct (IHv w d) as (Hraw & w' & Hsv & Hst); try assumption; [eapply good_component; [exact Hg|eapply co_field; eassumption]| |lia|].
      { intros Hst Hq. apply (proj1 Hsup T Hg). eapply us_string; eassumption. }
      assert (lookup X (pre ++ f :: fs) (field_key X f) = Some (length pre, f)) as Hlook.
      { eapply lookup_unique; [exact Hp| |apply nth_mid|exact Hig]. eapply supported_inside; [exact Hsup|exact Hg]. }
      replace (pre ++ f :: fs) with ((pre ++ [f]) ++ fs) in Hk by (rewrite <- app_assoc; reflexivity).
      destruct (IH T id (pre ++ [f]) ws0 d (done ++ [w']) Hk Hg) as (Hraws & Hl & ws' & Hsvs & Hsts); try assumption.
      { rewrite !app_length, Hlen. reflexivity. }
      { lia. }
      split; [cbn [raw_free forallb fst snd andb] in *; rewrite Hraw, Hraws; reflexivity|]. split; [cbn; congruence|]. exists (w' :: ws'). split.
      + cbn [combine]. apply Forall2_cons; [|exact Hsvs]. right. split; [|exact Hsv]. cbn [fst snd]. intros [Q|[Q1 Q2]]; [congruence|].
        apply (Hnz Q1). apply (holds_blank H v w Hw). exact Q2.
      + rewrite <- !app_assoc in Hsts. cbn [app] in Hsts. cbn [map]. unfold syn at 1. cbn [fst snd syntax].
        rewrite <- Hlen in Hlook. unfold FV in Hst. destruct (string_tagged X E f) eqn:Htag.
        * eapply ste_quoted; [apply kt_str; apply str_ok_dec|exact Hlook|apply nth_mid|exact Htag|exact Hst|]. rewrite update_mid. exact Hsts.
        * eapply ste_known; [apply kt_str; apply str_ok_dec|exact Hlook|apply nth_mid|exact Htag|exact Hst|]. rewrite update_mid. exact Hsts.
    - (* nil pointer field *) intros s f t' Hk w d Hg Hq Hh Hf Hb. inversion Hh; subst. split; [reflexivity|].
      pose proof (good_plain _ _ Hg Hk) as Hp. exists (VPtr None). split; [eapply sv_ptr_nil; exact Hk|]. cbn [syntax].
      unfold FV. destruct (string_tagged X E f); [eapply sq_ptr_null; exact Hp|]. eapply sto_ptr_null; [exact Hp|].
      destruct (is_ptr E t') eqn:Q; [|reflexivity]. exfalso. apply (proj1 Hsup (f_ty f) Hg). eapply us_ptr; [exact Hp|exact Q].
    - intros s s' f t' o i c p Hk Ht Hk' Hc _ _ IH w d Hg Hq Hh Hf Hb.
      destruct (ptr_back (f_ty f) t' o i c p Hk Hc IH w d Hg Hh Hf Hb) as (Q1 & _ & _ & w' & Q2 & Q3). split; [exact Q1|]. exists w'. split; [exact Q2|].
      unfold FV, string_tagged. rewrite Ht. exact Q3.
    - intros s f t' o i c p Hk Ht Hk' Hc _ IH w d Hg Hq Hh Hf Hb.
      destruct (ptr_back (f_ty f) t' o i c p Hk Hc IH w d Hg Hh Hf Hb) as (Q1 & _ & _ & w' & Q2 & Q3). split; [exact Q1|]. exists w'. split; [exact Q2|].
      unfold FV, string_tagged. rewrite Ht. exact Q3.
    - intros s f v p Hk Ht _ IH w d Hg Hq Hh Hf Hb. destruct (IH w d Hg Hh Hf Hb) as (Q1 & _ & _ & w' & Q2 & Q3). split; [exact Q1|]. exists w'. split; [exact Q2|].
      unfold FV, string_tagged. rewrite Ht. exact Q3.
    - intros s f t' o i c p Hk Ht Hc Hr w d Hg Hq Hh (Hl & Hd & Hlev) Hb. inversion Hh as [| | | | | | | | | | | |? ? c' w0 Hc' Hw| | | |]; subst.
      replace c' with c in * by congruence. pose proof (good_plain _ _ Hg Hk) as Hp. pose proof (good_component _ _ Hg (co_ptr _ _ _ Hp)) as Hg'.
      assert (string_tagged X E f = true) as Htag by (unfold string_tagged; rewrite Ht, (proj1 Hp), Hk; reflexivity).
      assert (number_kind (kind_of E t') = true) as Hnk.
      { destruct (number_kind (kind_of E t')) eqn:Q; [reflexivity|]. exfalso. apply (Hq Htag). intros [(k & [_ Hk1] & Hk2)|(u & k & [_ Hk1] & [_ Hk2] & Hk3)].
        - rewrite Hk in Hk1. subst k. discriminate.
        - rewrite Hk in Hk1. injection Hk1 as <-. congruence. }
      destruct (quoted_back X E H t' c p w0 (proj1 (Hdata t' Hg')) Hnk Hr Hw Hl) as (Hsc & q & -> & Hqs).
      split; [reflexivity|]. exists (VPtr (Some w0)). split.
      + eapply sv_ptr; [exact Hk| |apply sv_scalar; exact Hsc]. intros Q. inversion Q; subst; discriminate.
      + unfold FV. rewrite Htag, (zero_ptr E _ _ Hk). cbn [syntax]. eapply sq_ptr; [exact Hp|apply str_ok_dec|exact Hqs].
    - intros s f v p Hnp Ht Hr w d Hg Hq Hh (Hl & Hd & Hlev) Hb.
      assert (forall k, kind_of E (f_ty f) = k -> plain E (f_ty f) k) as Hp by (intros k Q; apply good_plain; assumption).
      assert (plain_kind (kind_of E (f_ty f)) = true \/ iface_kind (kind_of E (f_ty f)) = true \/ kind_of E (f_ty f) = KUint UPtr) as Hpk.
      { destruct Hr as [? Q|? ? Q ?|k ? Q ?|? Q|? Q|? Q|? ? Q ?]; try (rewrite Q); try (left; reflexivity); [destruct k; auto|auto]. }
      assert (iface_kind (kind_of E (f_ty f)) = false) as Hni by (pose proof (good_kind _ Hg); destruct (kind_of E (f_ty f)); try discriminate; reflexivity).
      assert (string_tagged X E f = true) as Htag.
      { unfold string_tagged. rewrite Ht, (proj1 (Hp _ eq_refl)). destruct (kind_of E (f_ty f)); try reflexivity; destruct Hpk as [Q|[Q|Q]]; discriminate. }
      assert (number_kind (kind_of E (f_ty f)) = true) as Hnk.
      { destruct (number_kind (kind_of E (f_ty f))) eqn:Q; [reflexivity|]. exfalso. apply (Hq Htag). intros [(k & [_ Hk1] & Hk2)|(u & k & [_ Hk1] & _)].
        - congruence.
        - rewrite Hk1 in Hnp. discriminate. }
      destruct (quoted_back X E H (f_ty f) v p w (proj1 (Hdata _ Hg)) Hnk Hr Hh Hl) as (Hsc & q & -> & Hqs).
      split; [reflexivity|]. exists w. split; [apply sv_scalar; exact Hsc|]. unfold FV. rewrite Htag. cbn [syntax].
      eapply sq_str; [|apply str_ok_dec|exact Hqs]. unfold is_ptr. destruct (kind_of E (f_ty f)); try reflexivity. discriminate.
  Qed.
End Trip.

(** Round trip, from what Marshal returns. *)
Theorem round_trip X E H ord c T v w b : fmt_ok X -> fair_order ord -> go_env E ->
  supported X E T -> data_type E T -> small b ->
  (forall U t n, inside E T U -> kind_of E U = KSlice t -> 0 <= n <= blen b -> x_slots X t n = true) ->
  holds H v w -> Forall (strconv_exact X) (leaves w) -> levels w < 10000 ->
  MarshalsIn X E H ord c T v b ->
  exists w', survives X E T w w' /\ Decodes X E b T (zero E T) w'.
Proof.
  intros Hfmt Hord Hgo Hsup Hdt Hsm Hsl Hh Hl Hlev Hm.
  destruct (marshal_represents X E H ord Hord c T v b Hm) as (p & Hr & ->).
  assert (blen (serialize p) < max_int64) as HN by (unfold small in Hsm; unfold max_int64; lia).
  destruct (proj1 (trip X E H T (blen (serialize p)) Hgo Hfmt HN Hsup Hdt Hsl) _ _ _ _ Hr w 0) as (Hraw & _ & _ & w' & Hsv & Hst).
  - apply Typing.in_refl.
  - exact Hh.
  - split; [exact Hl|]. unfold limit. lia.
  - lia.
  - exists w'. split; [exact Hsv|]. rewrite serialize_text in * by exact Hraw. apply decodes_store; assumption.
Qed.

(** ** What survives is unique up to map order *)


Lemma forall2_join {A B C} (R1 : A -> B -> Prop) (R2 : A -> C -> Prop) (S : B -> C -> Prop) l l1 l2 :
  Forall (fun a => forall b c, R1 a b -> R2 a c -> S b c) l -> Forall2 R1 l l1 -> Forall2 R2 l l2 -> Forall2 S l1 l2.
Proof.
  intros Hf H1. revert l2. induction H1 as [|a b l l1 Hab H1 IH]; intros l2 H2; inversion H2; subst; [constructor|].
  inversion Hf; subst. constructor; [eauto|apply IH; assumption].
Qed.

Theorem survives_same X E w : forall T w1 w2, survives X E T w w1 -> survives X E T w w2 -> same w1 w2.
Proof.
  induction w as [b|z|z|f|f|s| |l IH|l IH| |m IH| |v IH| |t v IH|l IH| ] using gval_ind'; intros T w1 w2 H1 H2;
    inversion H1; subst; try discriminate; inversion H2; subst; try discriminate; try apply sa_eq; try congruence; try contradiction.
  - replace t0 with t in * by congruence. apply sa_slice. eapply forall2_join; [|eassumption|eassumption].
    rewrite Forall_forall in *. intros a Ha b c Hb Hc. eapply IH; eauto.
  - replace t0 with t in * by congruence. apply sa_arr. eapply forall2_join; [|eassumption|eassumption].
    rewrite Forall_forall in *. intros a Ha b c Hb Hc. eapply IH; eauto.
  - replace t0 with t in * by congruence. replace k0 with k in * by congruence.
    match goal with F1 : Forall2 _ ?a ?x, F2 : Forall2 _ ?b ?y, P1 : Permutation m ?a, P2 : Permutation m ?b |- same (VMap (Some ?x)) (VMap (Some ?y)) =>
      destruct (Permutation_Forall2 (Permutation_trans (Permutation_sym P1) P2) F1) as (m3 & Q1 & Q2) end.
    eapply sa_map; [exact Q1|]. eapply forall2_join; [|exact Q2|eassumption].
    apply Forall_forall. intros a Ha b c [Hb1 Hb2] [Hc1 Hc2]. split; [congruence|].
    rewrite Forall_forall in IH. eapply IH; [|exact Hb2|exact Hc2].
    eapply Permutation_in; [apply Permutation_sym|]; eassumption.
  - replace t0 with t in * by congruence. apply sa_ptr. eapply IH; eassumption.
  - replace fs0 with fs in * by congruence. apply sa_struct. eapply forall2_join; [|eassumption|eassumption].
    apply Forall_forall. intros [f v] Hin w1 w2 [[Q1 ->]|[Q1 Q2]] [[Q3 ->]|[Q3 Q4]]; try contradiction; [apply sa_eq|].
    rewrite Forall_forall in IH. eapply IH; [|exact Q2|exact Q4]. eapply in_combine_r. exact Hin.
Qed.
