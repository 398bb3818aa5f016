(** Proofs for Mirror.v. *)
From Coq Require Import Strings.String Strings.Byte ZArith List Bool Lia Floats.SpecFloat Permutation.
From Verif Require Import Base GoTypes Tags Grammar Denote Typing Api NumFacts CompileFacts UnmFacts StructFacts Memory
  EncCompile Php Repr EncApi NumEnc ReprFacts PhpFacts MarshalFacts RoundTrip RoundTripFacts SettleFacts Mirror.
Import ListNotations.
Open Scope Z_scope.

Definition dep (ps : list (php * php)) : Z := fold_right (fun e m => Z.max (Z.max (array_depth (fst e)) (array_depth (snd e))) m) 0 ps.
Lemma depth_nonneg p : 0 <= array_depth p.
Proof. destruct p; cbn [array_depth]; try lia. fold (dep es). assert (0 <= dep es); [|lia]. unfold dep. induction es as [|e es IH]; cbn [fold_right]; lia. Qed.
Lemma dep_nonneg ps : 0 <= dep ps.
Proof. unfold dep. induction ps as [|e es IH]; cbn [fold_right]; lia. Qed.
Lemma dep_cons k p ps : dep ((k, p) :: ps) = Z.max (Z.max (array_depth k) (array_depth p)) (dep ps).
Proof. reflexivity. Qed.
Lemma depth_arr ps : array_depth (PArr ps) = 1 + dep ps.
Proof. reflexivity. Qed.
Lemma raw_arr k p ps : raw_free k = true -> raw_free p = true -> raw_free (PArr ps) = true -> raw_free (PArr ((k, p) :: ps)) = true.
Proof. intros A B C. cbn [raw_free forallb fst snd] in *. rewrite A, B, C. reflexivity. Qed.
Lemma syntax_null p : raw_free p = true -> p <> PNull -> syntax p <> LNull.
Proof. intros R N. destruct p; cbn; try discriminate; congruence. Qed.

Lemma f2_mono {A B} (R R' : A -> B -> Prop) l l' : (forall a b, R a b -> R' a b) -> Forall2 R l l' -> Forall2 R' l l'.
Proof. intros I F. induction F; constructor; auto. Qed.

Lemma zero_iface E T k : kind_of E T = k -> iface_kind k = true -> zero E T = VIface None.
Proof.
  intros Hk Hi. destruct T as [| | | | | | | | | | | | |n]; cbn in Hk; subst k; try discriminate Hi; try reflexivity.
  unfold kind_of in Hi. destruct (nth_error E n) as [d|] eqn:Hn; [|discriminate]. destruct (d_under d) as [fs|t] eqn:Hd; [discriminate|].
  rewrite (zero_named E n d t Hn Hd). destruct t; try discriminate Hi; destruct (length E); reflexivity.
Qed.

Section Read.
  Context (X : Ext) (E : env) (T0 : gty) (N : Z).
  Hypothesis Hgo : go_env E.
  Hypothesis Hfmt : fmt_ok X.
  Hypothesis HN : N < max_int64.
  Hypothesis Hsup : supported X E T0.
  Hypothesis Hslots : forall U t n, inside E T0 U -> kind_of E U = KSlice t -> 0 <= n <= N -> x_slots X t n = true.

  Lemma simple_plain T k : simple E T k -> plain E T k.
  Proof. intros (A & _ & B). split; assumption. Qed.
  Lemma inside_step T U : inside E T0 T -> component E T U -> inside E T0 U.
  Proof. intros A B. eapply in_step; eassumption. Qed.

  (* scalars *)
  Lemma f64_read d T t f old : simple E T KF64 -> float_text X t f -> float_repr X false f = t -> store X E d T (LFloat t) old (VF64 f).
  Proof. intros S Ht Q. destruct (float_repr_chars X Hfmt false f) as [C1 C2]. rewrite Q in C1, C2. apply sto_f64; [apply simple_plain; exact S| | |]; assumption. Qed.
  Lemma f32_read d T t f old : simple E T KF32 -> float_text X t f -> overflow_f32 f = false -> float_repr X true (f32_of_f64 f) = t ->
    store X E d T (LFloat t) old (VF32 (f32_of_f64 f)).
  Proof. intros S Ht Ho Q. destruct (float_repr_chars X Hfmt true (f32_of_f64 f)) as [C1 C2]. rewrite Q in C1, C2. apply sto_f32; [apply simple_plain; exact S| | | |]; assumption. Qed.
  Lemma int_read d T k z old : simple E T (KInt k) -> int_range k z -> store X E d T (LInt (decimal z)) old (VInt z).
  Proof. intros S Hz. eapply sto_int; [apply simple_plain; exact S|apply decimal_int_text|exact Hz]. Qed.
  Lemma uint_read d T k z old : simple E T (KUint k) -> uint_range k z -> store X E d T (LInt (decimal z)) old (VUint z).
  Proof.
    intros S Hz. destruct (decimal_numeral z) as [Hn Hnum]; [unfold uint_range in Hz; lia|]. rewrite <- Hnum at 2.
    eapply sto_uint; [apply simple_plain; exact S|exact Hn|rewrite Hnum; exact Hz].
  Qed.
  Lemma bytes_is T : bytes_type T = true -> T = TSlice (TUint U8).
  Proof. intros Ht. destruct T as [| | | | | |t| | | | | | |]; try discriminate; destruct t; try discriminate; destruct k; try discriminate; reflexivity. Qed.


  Definition scalar_k (k : kind) : bool := match k with KBool | KInt _ | KUint _ | KF32 | KF64 => true | _ => false end.
  Lemma text_read T p w : mirrors_text X E T p w -> exists s, p = PStr s /\ quoted_scalar X E T s w /\ scalar_k (kind_of E T) = true /\ has_unmarshal E T = None.
  Proof.
    intros M. destruct M as [T b S|T k z S Hz|T k z S Hz|T t f S Ht Q|T t f S Ht Ho Q];
      (eexists; split; [reflexivity|]; split; [|destruct S as (A & _ & B); rewrite B; split; [reflexivity|exact A]]); apply simple_plain in S.
    - apply qs_bool; [exact S|]. destruct b; [apply bt_true|apply bt_false]; cbn; tauto.
    - eapply qs_int; [exact S|apply decimal_int_text|exact Hz].
    - destruct (decimal_numeral z) as [Hd Hnum]; [unfold uint_range in Hz; lia|]. rewrite <- Hnum at 2.
      eapply qs_uint; [exact S|exact Hd|rewrite Hnum; exact Hz].
    - eapply qs_f64; [exact S|exact Ht].
    - eapply qs_f32; [exact S|exact Ht|exact Ho].
  Qed.

  Lemma key_read d k kp kw : key_kind (kind_of E k) = true -> mirrors X E k kp kw ->
    store_key X E d k (syntax kp) kw /\ simple_key kw = true /\ 1 <= blen (serialize kp) /\ raw_free kp = true.
  Proof.
    intros Hk M.
    assert (Denote.key_kind E k) as Hkk by (right; destruct (kind_of E k) as [| |[]| | | | | | | | | | |]; try discriminate; exact I).
    destruct M as [T b S|T k' z S Hz|T k' z S Hne Hz|T t f S Ht Q|T t f S Ht Ho Q|T s S|T s B|T t S|T t ps ws S|T n t ps ws S|T k' t S|T k' t ps ws S|T id fs ps ws S|T t S|T t p w S|T k' S Hi|T t p w S];
      try (destruct S as (S1 & S2 & S3); rewrite S3 in Hk; discriminate).
    - split; [apply sk_plain; [exact Hkk|cbn [syntax]; eapply int_read; eassumption]|]. split; [reflexivity|]. split; [apply int_pos|reflexivity].
    - split; [apply sk_plain; [exact Hkk|cbn [syntax]; eapply uint_read; eassumption]|]. split; [reflexivity|]. split; [apply int_pos|reflexivity].
    - split; [apply sk_plain; [exact Hkk|cbn [syntax]; apply sto_string; [apply simple_plain; exact S|apply str_ok_dec]]|]. split; [reflexivity|]. split; [|reflexivity].
      cbn [serialize]. rewrite !blen_app. change (blen (bs "s:")) with 2.
      repeat match goal with |- context [blen ?l] => lazymatch goal with _ : 0 <= blen l |- _ => fail | _ => pose proof (blen_nonneg l) end end. lia.
    - apply bytes_is in B. subst. discriminate.
    - exfalso. destruct S as (S1 & S2 & S3). rewrite S3 in Hk. destruct k'; discriminate.
  Qed.

  Definition RV (T : gty) (p : php) (w : gval) : Prop :=
    forall d, inside E T0 T -> 0 <= d -> d + array_depth p < limit -> blen (serialize p) <= N ->
    raw_free p = true /\ store X E d T (syntax p) (zero E T) w.
  Definition RL (t : gty) (i : Z) (ps : list (php * php)) (ws : list gval) : Prop :=
    forall d, inside E T0 t -> 0 <= d -> d + dep ps < limit -> blen (body ps) <= N ->
    raw_free (PArr ps) = true /\ numbered (fun q x => store X E d t q (zero E t) x) i ps ws.
  Definition RM (k t : gty) (ps : list (php * php)) (ws : list (gval * gval)) : Prop :=
    forall d, inside E T0 t -> 0 <= d -> d + dep ps < limit -> blen (body ps) <= N ->
    raw_free (PArr ps) = true /\
    Forall2 (fun e x => store_key X E d k (syntax (fst e)) (fst x) /\ store X E d t (syntax (snd e)) (zero E t) (snd x) /\
                        simple_key (fst x) = true /\ 1 <= blen (serialize (fst e))) ps ws.
  Definition RF (fs : list field) (ps : list (php * php)) (ws : list gval) : Prop :=
    forall T id pre d done, simple E T (KStruct id (pre ++ fs)) -> inside E T0 T -> length done = length pre ->
    0 <= d -> d + dep ps < limit -> blen (body ps) <= N ->
    raw_free (PArr ps) = true /\
    struct_entries X E d (pre ++ fs) (store X E d) (done ++ map (fun f => zero E (f_ty f)) fs) (map syn ps) (done ++ ws).
  Definition RFv (f : field) (p : php) (w : gval) : Prop :=
    forall d, inside E T0 (f_ty f) -> 0 <= d -> d + array_depth p < limit -> blen (serialize p) <= N ->
    raw_free p = true /\ FV X E (store X E d) f (syntax p) (zero E (f_ty f)) w.

  Lemma string_tag f k : tag_string (tag_of X f) = true -> simple E (f_ty f) k ->
    (scalar_k k || match k with KPtr _ => true | _ => false end) = true -> string_tagged X E f = true.
  Proof. intros Ht (A & _ & B) K. unfold string_tagged. rewrite Ht, A, B. destruct k; try discriminate; reflexivity. Qed.

  Lemma one_star T t : simple E T (KPtr t) -> inside E T0 T -> is_ptr E t = false.
  Proof. intros S HI. destruct (is_ptr E t) eqn:Q; [|reflexivity]. exfalso. apply (proj1 Hsup T HI). eapply us_ptr; [apply simple_plain; exact S|exact Q]. Qed.
  Theorem read :
    (forall T p w, mirrors X E T p w -> RV T p w) /\
    (forall t i ps ws, mirrors_list X E t i ps ws -> RL t i ps ws) /\
    (forall k t ps ws, mirrors_map X E k t ps ws -> RM k t ps ws) /\
    (forall fs ps ws, mirrors_fields X E fs ps ws -> RF fs ps ws) /\
    (forall f p w, mirrors_field X E f p w -> RFv f p w).
  Proof.
    apply mirrors_ind5.
    - intros T b S d HI Hd Hdep Hb. split; [reflexivity|]. cbn [syntax]. apply sto_bool. apply simple_plain. exact S.
    - intros T k z S Hz d HI Hd Hdep Hb. split; [reflexivity|]. cbn [syntax]. eapply int_read; eassumption.
    - intros T k z S Hne Hz d HI Hd Hdep Hb. split; [reflexivity|]. cbn [syntax]. eapply uint_read; eassumption.
    - intros T t f S Ht Q d HI Hd Hdep Hb. split; [reflexivity|]. cbn [syntax]. apply f64_read; assumption.
    - intros T t f S Ht Ho Q d HI Hd Hdep Hb. split; [reflexivity|]. cbn [syntax]. apply f32_read; assumption.
    - intros T s S d HI Hd Hdep Hb. split; [reflexivity|]. cbn [syntax]. apply sto_string; [apply simple_plain; exact S|apply str_ok_dec].
    - intros T s B d HI Hd Hdep Hb. split; [reflexivity|]. apply bytes_is in B. subst T. cbn [syntax].
      eapply sto_bytes; [split; reflexivity|reflexivity|apply str_ok_dec].
    - intros T t S B d HI Hd Hdep Hb. split; [reflexivity|]. rewrite (zero_slice E T t (proj2 (proj2 S))). cbn [syntax array_depth] in *.
      apply simple_plain in S. destruct (is_byte E t) eqn:Hby; [eapply sto_bytes_null; eassumption|eapply sto_slice_null; [exact S|exact Hby|lia]].
    - intros T t ps ws S B Hne _ IH d HI Hd Hdep Hb. rewrite depth_arr in Hdep. pose proof (body_le ps) as Hble. pose proof (dep_nonneg ps) as Hdn0.
      pose proof (simple_plain _ _ S) as Hp. destruct S as (_ & _ & Hk).
      destruct (IH (d + 1)) as (Hraw & Hnum); [eapply inside_step; [exact HI|eapply co_slice; exact Hp]|lia|lia|lia|].
      split; [exact Hraw|]. destruct (numbered_len _ _ _ _ Hnum) as [Hlen Hle]. cbn [syntax]. fold syn.
      destruct (decimal_numeral (blen ps)) as [Hdn Hdv]; [apply blen_nonneg|].
      assert (1 <= Z.of_nat (length ps)) as H1 by (destruct ps; [congruence|cbn [length]; lia]).
      eapply sto_slice; [exact Hp|lia|exact Hdn| | | | |].
      + apply decimal_head. unfold blen. lia.
      + rewrite Hdv. unfold blen at 1. lia.
      + rewrite Hdv. apply (Hslots T t); [exact HI|exact Hk|]. split; [apply blen_nonneg|unfold blen at 1; lia].
      + destruct ps; [congruence|discriminate].
      + apply (slice_build (store X E (d + 1) t) _ (zero E t) N (fun n => Hslots T t n HI Hk) HN _ _ 0 Hnum []); [reflexivity|cbn [length]; lia].
    - intros T n t ps ws S Hn _ IH d HI Hd Hdep Hb. rewrite depth_arr in Hdep. pose proof (body_le ps) as Hble. pose proof (dep_nonneg ps) as Hdn0.
      pose proof (simple_plain _ _ S) as Hp.
      destruct (IH (d + 1)) as (Hraw & Hnum); [eapply inside_step; [exact HI|eapply co_array; exact Hp]|lia|lia|lia|].
      split; [exact Hraw|]. destruct (numbered_len _ _ _ _ Hnum) as [Hlen Hle]. cbn [syntax]. fold syn.
      destruct ps as [|e ps].
      + destruct ws; [|discriminate]. cbn [length] in Hn. subst n. cbn [map]. change (decimal (blen (@nil (php * php)))) with (bs "0").
        change (VArr []) with (VArr (repeat (zero E t) 0)). eapply sto_array_empty; [exact Hp|lia].
      + eapply sto_array; [exact Hp|lia| | | | |].
        * apply decimal_numeral. apply blen_nonneg.
        * apply decimal_head. unfold blen. cbn [length]. lia.
        * destruct (decimal_numeral (blen (e :: ps))) as [_ ->]; [apply blen_nonneg|]. unfold blen at 1. lia.
        * discriminate.
        * rewrite <- Hn, Hlen. apply (array_build (d + 1) (store X E (d + 1) t) (zero E t) N HN _ _ 0 Hnum []); [reflexivity|cbn [length]; lia].
    - intros T k t S d HI Hd Hdep Hb. split; [reflexivity|]. cbn [syntax array_depth] in *. eapply sto_map_null; [apply simple_plain; exact S|lia].
    - intros T k t ps ws S Hdist _ IH d HI Hd Hdep Hb. rewrite depth_arr in Hdep. pose proof (body_le ps) as Hble. pose proof (dep_nonneg ps) as Hdn0.
      pose proof (simple_plain _ _ S) as Hp. destruct S as (_ & _ & Hk).
      destruct (IH (d + 1)) as (Hraw & Hst); [eapply inside_step; [exact HI|eapply co_val; exact Hp]|lia|lia|lia|].
      split; [exact Hraw|]. rewrite (zero_map E T k t Hk). cbn [syntax]. fold syn.
      destruct (decimal_numeral (blen ps)) as [Hdn Hdv]; [apply blen_nonneg|].
      assert (Forall (fun e : gval * gval => simple_key (fst e) = true) ws) as Hsk.
      { clear - Hst. induction Hst as [|e x ps ws (_ & _ & Q & _) Hst IH]; constructor; assumption. }
      eapply (sto_map X E d T k t); [exact Hp|lia|apply body_arr|exact Hdn| |].
      + rewrite Hdv. assert (Z.of_nat (length ps) <= blen (body ps)) as Q; [|unfold blen at 1; lia].
        clear - Hst. induction Hst as [|e x ps ws (_ & _ & _ & Q) Hst IH]; [cbn; lia|]. rewrite body_cons. cbn [length].
        pose proof (blen_nonneg (serialize (snd e))). lia.
      + cbn iota. apply (map_build (store_key X E (d + 1) k) (fun q x => store X E (d + 1) t q (zero E t) x) ps ws) with (acc := []); [|constructor|].
        { clear - Hst. induction Hst as [|e x ps ws (Q1 & Q2 & Q3 & _) Hst IH]; constructor; auto. }
        cbn [app]. apply distinct_nodup; [exact Hsk|exact Hdist].
    - intros T id fs ps ws S _ IH d HI Hd Hdep Hb. rewrite depth_arr in Hdep. pose proof (body_le ps) as Hble. pose proof (dep_nonneg ps) as Hdn0.
      destruct (IH T id [] (d + 1) []) as (Hraw & Hst); try assumption; try reflexivity; try lia.
      split; [exact Hraw|]. rewrite (zero_struct E T id fs Hgo (proj2 (proj2 S))). cbn [syntax].
      eapply (sto_struct X E d T id fs); [apply simple_plain; exact S|lia|apply body_arr| |exact Hst].
      apply decimal_numeral. apply blen_nonneg.
    - intros T t S d HI Hd Hdep Hb. split; [reflexivity|]. cbn [syntax]. eapply sto_ptr_null; [apply simple_plain; exact S|exact (one_star T t S HI)].
    - intros T t p w S Hne _ IH d HI Hd Hdep Hb. pose proof (simple_plain _ _ S) as Hp. pose proof (one_star T t S HI) as Hip.
      destruct (IH d) as (Hraw & Hst); [eapply inside_step; [exact HI|eapply co_ptr; exact Hp]|lia|lia|lia|].
      split; [exact Hraw|]. rewrite (zero_ptr E T t (proj2 (proj2 S))). eapply sto_ptr; [exact Hp|exact Hip|apply syntax_null; assumption|exact Hst].
    - intros T k S Hi d HI Hd Hdep Hb. split; [reflexivity|]. cbn [syntax]. apply simple_plain in S. destruct k; try discriminate Hi.
      + apply sto_any; [exact S|constructor].
      + eapply sto_iface_null; [exact S|]. intros t n p Q. rewrite (zero_iface E T _ (proj2 S) eq_refl) in Q. discriminate Q.
    - intros T t p w S Hin M _ d HI Hd Hdep Hb.
      destruct Hin as [<-|[<-|[<-|[<-|[]]]]]; inversion M as [? b S'|? k z S' Hz|? k z S' Hne Hz|? tx f S' Ht Q|? tx f S' Ht Ho Q|? s S'|? s B|? ? S'|? ? ? ? S'|? ? ? ? ? S'|? ? ? S'|? ? ? ? ? S'|? ? ? ? ? S'|? ? S'|? ? ? ? S'|? k S' Hi|? ? ? ? S']; subst;
        try (destruct S' as (_ & _ & S'); subst k; discriminate Hi);
        try (destruct S' as (_ & _ & S'); discriminate); try discriminate; (split; [reflexivity|]); cbn [syntax]; (apply sto_any; [apply simple_plain; exact S|]).
      + constructor.
      + destruct S' as (_ & _ & S'). injection S' as <-. constructor; [apply decimal_int_text|exact Hz].
      + destruct (float_repr_chars X Hfmt false f) as [C1 C2]. constructor; assumption.
      + constructor. apply str_ok_dec.
    - intros t i d HI Hd Hdep Hb. split; [reflexivity|]. constructor.
    - intros t i p ps w ws _ IHv _ IHl d HI Hd Hdep Hb. rewrite dep_cons in Hdep. rewrite body_cons in Hb. cbn [fst snd] in Hb.
      pose proof (blen_nonneg (body ps)). pose proof (blen_nonneg (serialize p)). pose proof (int_pos i).
      destruct (IHv d HI Hd) as (R1 & S1); [lia|lia|]. destruct (IHl d HI Hd) as (R2 & S2); [lia|lia|].
      split; [apply raw_arr; [reflexivity|exact R1|exact R2]|]. apply nu_cons; assumption.
    - intros k t d HI Hd Hdep Hb. split; [reflexivity|]. constructor.
    - intros k t kp p ps kw w ws Hk M _ _ IHv _ IHl d HI Hd Hdep Hb. rewrite dep_cons in Hdep. rewrite body_cons in Hb. cbn [fst snd] in Hb.
      pose proof (blen_nonneg (body ps)). pose proof (blen_nonneg (serialize p)). destruct (key_read d k kp kw Hk M) as (K1 & K2 & K3 & K4).
      destruct (IHv d HI Hd) as (R1 & S1); [lia|lia|]. destruct (IHl d HI Hd) as (R2 & S2); [lia|lia|].
      split; [apply raw_arr; assumption|]. constructor; [|exact S2]. cbn [fst snd]. auto.
    - intros T id pre d done S HI Hlen Hd Hdep Hb. split; [reflexivity|]. constructor.
    - intros f fs ps ws Hwf _ IH T id pre d done S HI Hlen Hd Hdep Hb.
      replace (pre ++ f :: fs) with ((pre ++ [f]) ++ fs) in S |- * by (rewrite <- app_assoc; reflexivity).
      destruct (IH T id (pre ++ [f]) d (done ++ [zero E (f_ty f)]) S HI) as (Hraw & Hst); try assumption.
      { rewrite !app_length, Hlen. reflexivity. }
      split; [exact Hraw|]. rewrite <- !app_assoc in Hst. cbn [app] in Hst. rewrite <- app_assoc. exact Hst.
    - intros f fs ps ws Hwf Hom _ IH T id pre d done S HI Hlen Hd Hdep Hb.
      replace (pre ++ f :: fs) with ((pre ++ [f]) ++ fs) in S |- * by (rewrite <- app_assoc; reflexivity).
      destruct (IH T id (pre ++ [f]) d (done ++ [zero E (f_ty f)]) S HI) as (Hraw & Hst); try assumption.
      { rewrite !app_length, Hlen. reflexivity. }
      split; [exact Hraw|]. rewrite <- !app_assoc in Hst. cbn [app] in Hst. rewrite <- app_assoc. exact Hst.
    - intros f fs p ps w ws Hwf Hom _ IHv _ IH T id pre d done S HI Hlen Hd Hdep Hb. rewrite dep_cons in Hdep. rewrite body_cons in Hb. cbn [fst snd] in Hb.
      pose proof (blen_nonneg (body ps)). pose proof (blen_nonneg (serialize p)). pose proof (blen_nonneg (serialize (PStr (field_key X f)))).
      pose proof (simple_plain _ _ S) as Hp. pose proof (written_not_ignored _ _ Hwf) as Hig.
      assert (In f (pre ++ f :: fs)) as Hin by (apply in_or_app; right; left; reflexivity).
      destruct (IHv d) as (Hraw & Hst); [eapply inside_step; [exact HI|eapply co_field; eassumption]|lia|lia|lia|].
      assert (lookup X (pre ++ f :: fs) (field_key X f) = Some (length pre, f)) as Hlook.
      { eapply lookup_unique; [exact Hp| |apply nth_mid|exact Hig]. eapply supported_inside; [exact Hsup|exact HI]. }
      replace (pre ++ f :: fs) with ((pre ++ [f]) ++ fs) in S by (rewrite <- app_assoc; reflexivity).
      destruct (IH T id (pre ++ [f]) d (done ++ [w]) S HI) as (Hraws & Hsts); try assumption; try lia.
      { rewrite !app_length, Hlen. reflexivity. }
      split; [apply raw_arr; [reflexivity|exact Hraw|exact Hraws]|].
      rewrite <- !app_assoc in Hsts. cbn [app] in Hsts. cbn [map]. unfold syn at 1. cbn [fst snd syntax].
      rewrite <- Hlen in Hlook. unfold FV in Hst. destruct (string_tagged X E f) eqn:Htag.
      + eapply ste_quoted; [apply kt_str; apply str_ok_dec|exact Hlook|apply nth_mid|exact Htag|exact Hst|]. rewrite update_mid. exact Hsts.
      + eapply ste_known; [apply kt_str; apply str_ok_dec|exact Hlook|apply nth_mid|exact Htag|exact Hst|]. rewrite update_mid. exact Hsts.
    - intros f p w Ht _ IH d HI Hd Hdep Hb. destruct (IH d HI Hd Hdep Hb) as (R & S). split; [exact R|]. unfold FV, string_tagged. rewrite Ht. exact S.
    - intros f p w Ht M d HI Hd Hdep Hb. destruct (text_read _ _ _ M) as (s & -> & Hq & Hk & Hu). split; [reflexivity|].
      unfold FV, string_tagged. rewrite Ht, Hu. cbn [andb syntax]. assert (is_ptr E (f_ty f) = false) as Hnp by (unfold is_ptr; destruct (kind_of E (f_ty f)); try reflexivity; discriminate).
      destruct (kind_of E (f_ty f)); try discriminate; (eapply sq_str; [exact Hnp|apply str_ok_dec|exact Hq]).
    - intros f k Ht S Hi d HI Hd Hdep Hb. split; [reflexivity|]. unfold FV, string_tagged. rewrite Ht, (proj1 S), (proj2 (proj2 S)). cbn [andb syntax].
      apply simple_plain in S. destruct k; try discriminate Hi.
      + apply sto_any; [exact S|constructor].
      + eapply sto_iface_null; [exact S|]. intros t n p Q. rewrite (zero_iface E _ _ (proj2 S) eq_refl) in Q. discriminate Q.
    - intros f t Ht S d HI Hd Hdep Hb. split; [reflexivity|]. unfold FV. rewrite (string_tag f _ Ht S eq_refl). cbn [syntax]. eapply sq_ptr_null. apply simple_plain. exact S.
    - intros f t p w Ht S M d HI Hd Hdep Hb. destruct (text_read _ _ _ M) as (s & -> & Hq & Hk & Hu). split; [reflexivity|].
      unfold FV. rewrite (string_tag f _ Ht S eq_refl), (zero_ptr E _ t (proj2 (proj2 S))). cbn [syntax].
      eapply sq_ptr; [apply simple_plain; exact S|apply str_ok_dec|exact Hq].
  Qed.
End Read.

(** ** What is written *)

Section Write.
  Context (X : Ext) (E : env) (H : heap) {S : Type} (enter : S -> bool -> addr -> S -> Prop) (room : S -> Z).
  Hypothesis Hroom : forall s a, 0 < room s -> exists s', enter s false a s' /\ room s - 1 <= room s'.

  Notation repr := (repr X E H enter).
  Notation shape := (shape X E H enter).

  Lemma not_bytes T k : kind_of E T = k -> (forall t, k <> KSlice t) -> bytes_type T = false.
  Proof. intros K N. destruct (bytes_type T) eqn:B; [|reflexivity]. apply bytes_is in B. subst T. exfalso. apply (N (TUint U8)). symmetry. exact K. Qed.
  Lemma shaped s T k v p : simple E T k -> (forall t, k <> KSlice t) -> shape s T v p -> repr s T v p.
  Proof. intros (_ & A & B) N Hs. apply rp_shape; [exact A|eapply not_bytes; eassumption|exact Hs]. Qed.
  Lemma scalar_in T p w v : mirrors X E T p w -> holds H v w -> scalar_k (kind_of E T) = true \/ kind_of E T = KString -> scalar_repr X (kind_of E T) v p.
  Proof.
    intros M Hh Hk.
    destruct M as [T b S0|T k' z S0 Hz|T k' z S0 Hne Hz|T t f S0 Ht Q|T t f S0 Ht Ho Q|T s S0|T s B|T t S0|T t ps ws S0|T n t ps ws S0|T k' t S0|T k' t ps ws S0|T id fs ps ws S0|T t S0|T t p w S0|T k0 S0 Hi|T t p w S0].
    7: (apply bytes_is in B; subst T; destruct Hk as [Hk|Hk]; discriminate Hk).
    15: (exfalso; destruct S0 as (_ & _ & K); rewrite K in Hk; destruct Hk as [Hk|Hk]; [destruct k0; try discriminate Hi; discriminate Hk|rewrite Hk in Hi; discriminate Hi]).
    all: destruct S0 as (_ & _ & K); rewrite K in Hk |- *; try (destruct Hk as [Hk|Hk]; discriminate Hk); inversion Hh; subst; try constructor; assumption.
  Qed.
  Lemma byte_cells s l : Forall2 (holds H) l (map byte_val s) -> bytes_of_cells l = Some s.
  Proof.
    revert l. induction s as [|b s IH]; intros l F; cbn [map] in F; inversion F as [|v ? l' ? Hv Hl]; subst; [reflexivity|].
    unfold byte_val in Hv. inversion Hv; subst. cbn [bytes_of_cells]. rewrite (IH _ Hl).
    replace (0 <=? Z.of_N (Byte.to_N b)) with true by (symmetry; apply Z.leb_le; lia). rewrite N2Z.id, Byte.of_to_N. reflexivity.
  Qed.
  Lemma quiet T p w : mirrors X E T p w -> marshaler E T = false.
  Proof. intros M. destruct M as [T b S0|T k' z S0 Hz|T k' z S0 Hne Hz|T t f S0 Ht Q|T t f S0 Ht Ho Q|T s S0|T s B|T t S0|T t ps ws S0|T n t ps ws S0|T k' t S0|T k' t ps ws S0|T id fs ps ws S0|T t S0|T t p w S0|T k0 S0 Hi|T t p w S0]; try apply S0. apply bytes_is in B. subst. reflexivity. Qed.

  Lemma text_in T p w v : mirrors_text X E T p w -> holds H v w -> quoted_repr X E H T v p.
  Proof.
    intros M Hh. destruct M as [T b S0|T k z S0 Hz|T k z S0 Hz|T t f S0 Ht Q|T t f S0 Ht Ho Q]; destruct S0 as (_ & _ & K); inversion Hh; subst.
    - apply qr_bool. exact K.
    - eapply qr_int; eassumption.
    - eapply qr_uint; eassumption.
    - apply qr_f64. exact K.
    - apply qr_f32. exact K.
  Qed.

  Definition need (T : gty) (p : php) : Z := if struct_kind (kind_of E T) then array_depth p - 1 else array_depth p.
  Lemma need_le T p : need T p <= array_depth p.
  Proof. unfold need. destruct (struct_kind (kind_of E T)); lia. Qed.
  Definition WV (T : gty) (p : php) (w : gval) : Prop := forall s v, holds H v w -> need T p <= room s -> repr s T v p.
  Definition WL (t : gty) (i : Z) (ps : list (php * php)) (ws : list gval) : Prop :=
    forall s l, Forall2 (holds H) l ws -> dep ps <= room s -> elems X E H enter s false t i l ps.
  Definition WM (k t : gty) (ps : list (php * php)) (ws : list (gval * gval)) : Prop :=
    forall s l, Forall2 (fun e x => holds H (fst e) (fst x) /\ holds H (snd e) (snd x)) l ws -> dep ps <= room s ->
    pairs X E H enter s false (kind_of E k) t l ps.
  Definition WF (fs : list field) (ps : list (php * php)) (ws : list gval) : Prop :=
    forall s l, Forall2 (holds H) l ws -> dep ps <= room s -> fields X E H enter s fs l ps.
  Definition WFv (f : field) (p : php) (w : gval) : Prop :=
    forall s v, holds H v w -> array_depth p <= room s -> field_val X E H enter s f v p.

  Lemma field_of s f v p w : tag_string (tag_of X f) = false -> mirrors X E (f_ty f) p w -> holds H v w -> repr s (f_ty f) v p -> field_val X E H enter s f v p.
  Proof.
    intros Ht M Hh R. pose proof (quiet _ _ _ M) as Hq. destruct (ptr_kind (kind_of E (f_ty f))) eqn:Hp; [|apply fv_plain; assumption].
    destruct (kind_of E (f_ty f)) as [| | | | | | | | |t| | | |] eqn:Hk; try discriminate. clear Hp.
    assert (bytes_type (f_ty f) = false) as Hb by (eapply not_bytes; [exact Hk|discriminate]).
    inversion R as [s0 T v0 b Q|s0 T v0 b Q1 Q2|s0 T v0 p0 _ _ Sh]; subst; [congruence|congruence|].
    inversion M as [? ? S0|? ? ? S0|? ? ? S0|? ? ? S0|? ? ? S0|? ? S0|? ? B|? ? S0|? ? ? ? S0|? ? ? ? ? S0|? ? ? S0|? ? ? ? ? S0|? ? ? ? ? S0|? t' S0|? t' p1 w1 S0 Hne M'|? k0 S0 Hi|? ? ? ? S0]; subst;
      try congruence; destruct S0 as (_ & _ & K); rewrite Hk in K; try discriminate K; try (subst k0; discriminate Hi); injection K as <-.
    - inversion Hh; subst. eapply fv_nil. exact Hk.
    - inversion Hh as [| | | | | | | | | | | |o i c w0 Hc Hw| | | |]; subst. pose proof (quiet _ _ _ M') as Hq'.
      inversion Sh; subst; kinds E; try discriminate; try (match goal with Q : scalar_repr _ _ _ _ |- _ => inversion Q; fail end);
        match goal with Q : KPtr _ = KPtr _ |- _ => injection Q as <- end; try congruence.
      + match goal with Q : inner _ _ _ _ _ _ _ _ |- _ => inversion Q; subst; kinds E; try discriminate; try (match goal with Q : scalar_repr _ _ _ _ |- _ => inversion Q; fail end) end.
        match goal with Q : KPtr _ = KPtr _ |- _ => injection Q as <- end.
        eapply fv_ptr; try eassumption; [destruct (kind_of E t) eqn:Kt; try discriminate; reflexivity|]. apply rp_shape; [exact Hq'| |apply sh_iface; assumption].
        destruct (kind_of E t) eqn:Kt; try discriminate; (eapply not_bytes; [exact Kt|discriminate]).
      + eapply fv_ptr_struct; try eassumption. apply rp_shape; [exact Hq'| |assumption]. destruct (kind_of E t) eqn:Kt; try discriminate. eapply not_bytes; [exact Kt|discriminate].
      + eapply fv_ptr; try eassumption. apply rp_shape; [exact Hq'| |assumption]. destruct (kind_of E t) eqn:Kt; try discriminate; (eapply not_bytes; [exact Kt|discriminate]).
      + eapply fv_ptr; try eassumption. destruct (kind_of E t) eqn:Kt; try discriminate; reflexivity.
  Qed.

  Lemma unshape s T k v p : simple E T k -> (forall t, k <> KSlice t) -> repr s T v p -> shape s T v p.
  Proof. intros (_ & A & B) N R. inversion R; subst; [congruence|rewrite (not_bytes _ _ eq_refl) in *; [discriminate|exact N]|assumption]. Qed.

  Theorem written :
    (forall T p w, mirrors X E T p w -> WV T p w) /\
    (forall t i ps ws, mirrors_list X E t i ps ws -> WL t i ps ws) /\
    (forall k t ps ws, mirrors_map X E k t ps ws -> WM k t ps ws) /\
    (forall fs ps ws, mirrors_fields X E fs ps ws -> WF fs ps ws) /\
    (forall f p w, mirrors_field X E f p w -> WFv f p w).
  Proof.
    assert (forall T k p w, simple E T k -> mirrors X E T p w -> scalar_k k = true \/ k = KString -> WV T p w) as Hsc.
    { intros T k p w S0 M Hk s v Hh Hr. eapply shaped; [exact S0|destruct Hk as [Hk|Hk]; [destruct k; try discriminate Hk; discriminate|subst; discriminate]|].
      apply sh_scalar. eapply scalar_in; [exact M|exact Hh|]. destruct S0 as (_ & _ & ->). exact Hk. }
    apply mirrors_ind5.
    - intros T b S0. eapply Hsc; [exact S0|apply mi_bool; exact S0|left; reflexivity].
    - intros T k z S0 Hz. eapply Hsc; [exact S0|eapply mi_int; eassumption|left; reflexivity].
    - intros T k z S0 Hne Hz. eapply Hsc; [exact S0|eapply mi_uint; eassumption|left; reflexivity].
    - intros T t f S0 Ht Q. eapply Hsc; [exact S0|eapply mi_f64; eassumption|left; reflexivity].
    - intros T t f S0 Ht Ho Q. eapply Hsc; [exact S0|eapply mi_f32; eassumption|left; reflexivity].
    - intros T s S0. eapply Hsc; [exact S0|eapply mi_str; eassumption|right; reflexivity].
    - intros T s B st v Hh Hr. apply rp_bytes; [apply bytes_is in B; subst; reflexivity|exact B|]. unfold vbytes in Hh.
      inversion Hh as [| | | | | | |o i n l ws Hc Hl| | | | | | | | |]; subst. cbn [byte_slice]. rewrite Hc. apply byte_cells. exact Hl.
    - intros T t (_ & A & K) B s v Hh Hr. inversion Hh; subst. apply rp_shape; [exact A|exact B|]. eapply sh_slice_nil. exact K.
    - intros T t ps ws (_ & A & K) B Hne _ IH s v Hh Hr. unfold need in Hr. rewrite K in Hr. cbn [struct_kind] in Hr. rewrite depth_arr in Hr. pose proof (dep_nonneg ps).
      inversion Hh as [| | | | | | |o i n l ws' Hc Hl| | | | | | | | |]; subst. destruct (Hroom s (cell_at X o i)) as (s' & En & Hs'); [lia|].
      apply rp_shape; [exact A|exact B|]. eapply sh_slice; [exact K|exact Hc|exact En|]. apply IH; [exact Hl|lia].
    - intros T n t ps ws S0 Hn M IH s v Hh Hr. unfold need in Hr. rewrite (proj2 (proj2 S0)) in Hr. cbn [struct_kind] in Hr. rewrite depth_arr in Hr. pose proof (dep_nonneg ps).
      inversion Hh as [| | | | | | | |l ws' Hl| | | | | | | |]; subst. eapply shaped; [exact S0|discriminate|]. eapply sh_array; [apply S0| |].
      + rewrite (f2_len _ _ _ Hl). clear - M. induction M; cbn [length]; congruence.
      + apply IH; [exact Hl|lia].
    - intros T k t S0 s v Hh Hr. inversion Hh; subst. eapply shaped; [exact S0|discriminate|]. eapply sh_map_nil. apply S0.
    - intros T k t ps ws S0 Hd _ IH s v Hh Hr. unfold need in Hr. rewrite (proj2 (proj2 S0)) in Hr. cbn [struct_kind] in Hr. rewrite depth_arr in Hr. pose proof (dep_nonneg ps).
      inversion Hh as [| | | | | | | | | |o m ws' Hm _ Hl| | | | | |]; subst. destruct (Hroom s (map_at X o)) as (s' & En & Hs'); [lia|].
      eapply shaped; [exact S0|discriminate|]. eapply sh_map; [apply S0|exact Hm|apply Permutation_refl|exact En|]. apply IH; [exact Hl|lia].
    - intros T id fs ps ws S0 _ IH s v Hh Hr. unfold need in Hr. rewrite (proj2 (proj2 S0)) in Hr. cbn [struct_kind] in Hr. rewrite depth_arr in Hr. pose proof (dep_nonneg ps).
      inversion Hh as [| | | | | | | | | | | | | | |l ws' Hl|]; subst. eapply shaped; [exact S0|discriminate|]. eapply sh_struct; [apply S0|]. apply IH; [exact Hl|lia].
    - intros T t S0 s v Hh Hr. inversion Hh; subst. eapply shaped; [exact S0|discriminate|].
      destruct (iface_kind (kind_of E t)) eqn:Hif; [|eapply sh_ptr_nil; [apply S0|exact Hif]]. eapply sh_ptr_iface; [apply S0|exact Hif|]. eapply in_ptr_nil. apply S0.
    - intros T t p w S0 Hne M IH s v Hh Hr. unfold need in Hr. rewrite (proj2 (proj2 S0)) in Hr. cbn [struct_kind] in Hr.
      inversion Hh as [| | | | | | | | | | | |o i c w0 Hc Hw| | | |]; subst. pose proof (quiet _ _ _ M) as Hq'.
      eapply shaped; [exact S0|discriminate|]. destruct (struct_kind (kind_of E t)) eqn:Hsk.
      + assert (bytes_type t = false) as Hbt by (destruct (kind_of E t) eqn:Kt; try discriminate; eapply not_bytes; [exact Kt|discriminate]).
        assert (0 < array_depth p) as Hpos.
        { destruct M as [T' b S1|T' k' z S1 Hz|T' k' z S1 Hne' Hz|T' t f S1 Ht Q|T' t f S1 Ht Ho Q|T' s0 S1|T' s0 B|T' t S1|T' t ps ws S1|T' n t ps ws S1|T' k' t S1|T' k' t ps ws S1|T' id fs ps ws S1|T' t S1|T' t p w S1|T' k1 S1 Hi1|T' t p w S1];
            try (destruct S1 as (_ & _ & K1); rewrite K1 in Hsk; discriminate Hsk); try (destruct S1 as (_ & _ & K1); rewrite K1 in Hsk; destruct k1; discriminate); [congruence|]. rewrite depth_arr. pose proof (dep_nonneg ps). lia. }
        destruct (Hroom s (cell_at X o i)) as (s' & En & Hs'); [lia|]. eapply sh_ptr_struct; [apply S0|exact Hsk|exact Hc|exact En|].
        assert (repr s' t c p) as R; [|inversion R; subst; [congruence|congruence|assumption]].
        apply IH; [exact Hw|]. unfold need. rewrite Hsk. lia.
      + destruct (by_structure (kind_of E t)) eqn:Hbs.
        * eapply sh_ptr_direct; [apply S0|exact Hsk|exact Hbs|exact Hc|]. specialize (IH s c Hw). pose proof (need_le t p).
          assert (repr s t c p) as R by (apply IH; lia). inversion R; subst; [congruence| |assumption].
          exfalso. match goal with Q : bytes_type t = true |- _ => apply bytes_is in Q; subst t; discriminate end.
        * pose proof (need_le t p). assert (repr s t c p) as R by (apply IH; [exact Hw|lia]).
          destruct (iface_kind (kind_of E t)) eqn:Hif; [|eapply sh_ptr; [apply S0|exact Hbs|exact Hif|exact Hc|exact R]].
          eapply sh_ptr_iface; [apply S0|exact Hif|]. eapply in_ptr; [apply S0|exact Hc|].
          inversion R as [| |? ? ? ? _ Hbt Sh]; subst; [congruence|exfalso; match goal with Q : bytes_type t = true |- _ => apply bytes_is in Q; subst t; discriminate end|].
          inversion Sh; subst; kinds E; try discriminate; [|assumption]. exfalso. match goal with Q : scalar_repr _ _ _ _ |- _ => apply scalar_shape in Q; apply plain_not_iface in Q; congruence end.
    - intros T k S0 Hi s v Hh Hr. inversion Hh; subst. eapply shaped; [exact S0|destruct k; discriminate|]. apply sh_iface; [rewrite (proj2 (proj2 S0)); exact Hi|].
      apply in_nil. rewrite (proj2 (proj2 S0)). exact Hi.
    - intros T t p w S0 Hin M _ s v Hh Hr. inversion Hh as [| | | | | | | | | | | | | |t' v' w' Hw| |]; subst. eapply shaped; [exact S0|discriminate|].
      assert (iface_kind (kind_of E T) = true) as Hi by (rewrite (proj2 (proj2 S0)); reflexivity).
      apply sh_iface; [exact Hi|]. apply in_iface; [exact Hi|]. apply in_scalar. eapply scalar_in; [exact M|exact Hw|].
      destruct Hin as [<-|[<-|[<-|[<-|[]]]]]; cbn; auto.
    - intros t i s l F Hr. inversion F; subst. constructor.
    - intros t i p ps w ws _ IHv _ IHl s l F Hr. rewrite dep_cons in Hr. inversion F; subst. pose proof (need_le t p). apply el_cons; [apply IHv; [assumption|lia]|apply IHl; [assumption|lia]].
    - intros k t s l F Hr. inversion F; subst. constructor.
    - intros k t kp p ps kw w ws Hk M _ _ IHv _ IHl s l F Hr. rewrite dep_cons in Hr. inversion F as [|[kv v] ? l' ? [Hkv Hv] F']; subst. cbn [fst snd] in *. pose proof (need_le t p).
      apply pa_cons; [|apply IHv; [assumption|lia]|apply IHl; [assumption|lia]]. split; [exact Hk|]. eapply scalar_in; [exact M|exact Hkv|].
      destruct (kind_of E k); try discriminate; auto.
    - intros s l F Hr. inversion F; subst. constructor.
    - intros f fs ps ws Hwf _ IH s l F Hr. inversion F; subst. apply fl_skip; [exact Hwf|]. apply IH; assumption.
    - intros f fs ps ws Hwf Hom _ IH s l F Hr. inversion F; subst. apply fl_omit; [exact Hwf|exact Hom| |apply IH; assumption].
      eapply holds_blank; [eassumption|]. apply zero_blank.
    - intros f fs p ps w ws Hwf Hom _ IHv _ IH s l F Hr. rewrite dep_cons in Hr. inversion F; subst. apply fl_write; [exact Hwf| |apply IHv; [assumption|lia]|apply IH; [assumption|lia]].
      intros Q Z0. apply (Hom Q). eapply holds_blank; [eassumption|exact Z0].
    - intros f p w Ht M IH s v Hh Hr. eapply field_of; [exact Ht|exact M|exact Hh|]. apply IH; [exact Hh|]. pose proof (need_le (f_ty f) p). lia.
    - intros f p w Ht M s v Hh Hr. destruct (text_read _ _ _ _ _ M) as (_ & _ & _ & Hk & _). apply fv_quoted; [destruct (kind_of E (f_ty f)); try reflexivity; discriminate|exact Ht|]. eapply text_in; eassumption.
    - intros f k Ht S0 Hi s v Hh Hr. inversion Hh; subst. apply fv_quoted; [rewrite (proj2 (proj2 S0)); destruct k; try discriminate; reflexivity|exact Ht|].
      apply qr_iface; [rewrite (proj2 (proj2 S0)); exact Hi|]. apply qa_nil. rewrite (proj2 (proj2 S0)); exact Hi.
    - intros f t Ht S0 s v Hh Hr. inversion Hh; subst. eapply fv_nil. apply S0.
    - intros f t p w Ht S0 M s v Hh Hr. inversion Hh; subst. eapply fv_ptr_quoted; [apply S0|exact Ht|eassumption|]. eapply text_in; eassumption.
  Qed.
End Write.

(** ** Nothing else is written *)

Section Only.
  Context (X : Ext) (E : env) (H : heap).

  Notation repr := (repr X E H anything).
  Notation shape := (shape X E H anything).
  Notation alike t := (fun a b : php * php => fst a = fst b /\ reordered X E t (snd a) (snd b)).

  Definition OV (T : gty) (p : php) (w : gval) : Prop := forall s v q, holds H v w -> repr s T v q -> reordered X E T p q.
  Definition OL (t : gty) (i : Z) (ps : list (php * php)) (ws : list gval) : Prop :=
    forall s l qs, Forall2 (holds H) l ws -> elems X E H anything s false t i l qs -> Forall2 (alike t) ps qs.
  Definition OM (k t : gty) (ps : list (php * php)) (ws : list (gval * gval)) : Prop :=
    forall s l qs, Forall2 (fun e x => holds H (fst e) (fst x) /\ holds H (snd e) (snd x)) l ws ->
    Forall2 (fun e x => key_repr X (kind_of E k) (fst e) (fst x) /\ repr s t (snd e) (snd x)) l qs -> Forall2 (alike t) ps qs.
  Definition OF (fs : list field) (ps : list (php * php)) (ws : list gval) : Prop :=
    forall s l qs, Forall2 (holds H) l ws -> fields X E H anything s fs l qs ->
    Forall2 (fun a b => fst a = fst b /\ exists f, In f fs /\ written_field X f = true /\ fst a = PStr (field_key X f) /\
                        reordered X E (f_ty f) (snd a) (snd b)) ps qs.
  Definition OFv (f : field) (p : php) (w : gval) : Prop :=
    forall s v q, holds H v w -> field_val X E H anything s f v q -> reordered X E (f_ty f) p q.

  Lemma shape_scalar s T v q : scalar_k (kind_of E T) = true \/ kind_of E T = KString -> shape s T v q -> scalar_repr X (kind_of E T) v q.
  Proof.
    intros Hk Sh. inversion Sh; subst; try assumption; kinds E; try (destruct Hk as [Hk|Hk]; discriminate Hk).
    exfalso. destruct (kind_of E T); try discriminate; destruct Hk; discriminate.
  Qed.
  Ltac bad := exfalso; match goal with Q : scalar_repr _ _ _ _ |- _ => inversion Q; fail | Q : iface_kind _ = true |- _ => cbn in Q; discriminate Q end.
  Ltac same K := match goal with Q : kind_of E _ = _ |- _ => rewrite K in Q; injection Q; intros; subst; clear Q end.
  Lemma inner_scalar s t v q : In t [TBool; TInt I64; TF64; TString] -> inner X E H anything s t v q -> scalar_repr X (kind_of E t) v q.
  Proof. intros Hin I. destruct Hin as [<-|[<-|[<-|[<-|[]]]]]; inversion I; subst; try assumption; try discriminate. Qed.

  Theorem only :
    (forall T p w, mirrors X E T p w -> OV T p w) /\
    (forall t i ps ws, mirrors_list X E t i ps ws -> OL t i ps ws) /\
    (forall k t ps ws, mirrors_map X E k t ps ws -> OM k t ps ws) /\
    (forall fs ps ws, mirrors_fields X E fs ps ws -> OF fs ps ws) /\
    (forall f p w, mirrors_field X E f p w -> OFv f p w).
  Proof.
    assert (forall T k p w, simple E T k -> mirrors X E T p w -> scalar_k k = true \/ k = KString -> OV T p w) as Hsc.
    { intros T k p w S0 M Hk s v q Hh Hr. eapply unshape in Hr; [|exact S0|destruct Hk as [Hk|Hk]; [destruct k; try discriminate Hk; discriminate|subst; discriminate]].
      destruct S0 as (A & B & <-). apply shape_scalar in Hr; [|exact Hk]. pose proof (scalar_in X E H T p w v M Hh Hk) as Hp.
      rewrite (scalar_det X _ _ _ _ Hp Hr). apply re_same. }
    apply mirrors_ind5.
    - intros T b S0. eapply Hsc; [exact S0|apply mi_bool; exact S0|left; reflexivity].
    - intros T k z S0 Hz. eapply Hsc; [exact S0|eapply mi_int; eassumption|left; reflexivity].
    - intros T k z S0 Hne Hz. eapply Hsc; [exact S0|eapply mi_uint; eassumption|left; reflexivity].
    - intros T t f S0 Ht Q. eapply Hsc; [exact S0|eapply mi_f64; eassumption|left; reflexivity].
    - intros T t f S0 Ht Ho Q. eapply Hsc; [exact S0|eapply mi_f32; eassumption|left; reflexivity].
    - intros T s S0. eapply Hsc; [exact S0|eapply mi_str; eassumption|right; reflexivity].
    - intros T s B st v q Hh Hr. inversion Hr as [? ? ? ? Q|? ? ? b _ _ Hb|]; subst; [apply bytes_is in B; subst; discriminate| |congruence].
      unfold vbytes in Hh. inversion Hh as [| | | | | | |o i n l ws Hc Hl| | | | | | | | |]; subst. cbn [byte_slice] in Hb. rewrite Hc, (byte_cells H s l Hl) in Hb. injection Hb as <-. apply re_same.
    - intros T t (_ & A & K) B s v q Hh Hr. inversion Hh; subst. inversion Hr as [| |? ? ? ? _ _ Sh]; subst; try congruence.
      inversion Sh; subst; kinds E; try discriminate; try bad. apply re_same.
    - intros T t ps ws (_ & A & K) B Hne _ IH s v q Hh Hr. inversion Hh as [| | | | | | |o i n l ws' Hc Hl| | | | | | | | |]; subst. inversion Hr as [| |? ? ? ? _ _ Sh]; subst; try congruence.
      inversion Sh as [| | | |? ? ? ? ? ? ? l' qs K' Hc' En Hel| | | | | | | |]; subst; kinds E; try discriminate; try bad. injection K' as <-.
      replace l' with l in * by congruence. eapply re_slice; [exact K|]. eapply IH; eassumption.
    - intros T n t ps ws S0 Hn _ IH s v q Hh Hr. eapply unshape in Hr; [|exact S0|discriminate]. destruct S0 as (_ & A & K).
      inversion Hh as [| | | | | | | |l ws' Hl| | | | | | | |]; subst.
      inversion Hr as [| |? ? ? ? ? qs K' Hlen Hel| | | | | | | | | |]; subst; kinds E; try discriminate; try bad. injection K' as Kn Kt. subst.
      eapply re_array; [exact K|]. eapply IH; eassumption.
    - intros T k t S0 s v q Hh Hr. eapply unshape in Hr; [|exact S0|discriminate]. destruct S0 as (_ & A & K). inversion Hh; subst.
      inversion Hr; subst; kinds E; try discriminate; try bad. apply re_same.
    - intros T k t ps ws S0 Hd _ IH s v q Hh Hr. eapply unshape in Hr; [|exact S0|discriminate]. destruct S0 as (_ & A & K).
      inversion Hh as [| | | | | | | | | |o m ws' Hm _ Hl| | | | | |]; subst.
      inversion Hr as [| | | | | |? s' ? ? ? ? m' l qs K' Hm' Hperm En Hpa| | | | | |]; subst; kinds E; try discriminate; try bad. injection K' as <- <-.
      replace m' with m in * by congruence. apply pairs_forall2 in Hpa. cbn [sub] in Hpa.
      destruct (Permutation_Forall2 (Permutation_sym Hperm) Hpa) as (qs0 & Hq & F). pose proof (IH _ _ _ Hl F) as G.
      destruct (Permutation_Forall2 (Permutation_sym Hq) (Forall2_flip _ _ _ G)) as (ps' & Hp & G').
      eapply re_map; [exact K|exact Hp|]. apply Forall2_flip in G'. exact G'.
    - intros T id fs ps ws S0 _ IH s v q Hh Hr. eapply unshape in Hr; [|exact S0|discriminate]. destruct S0 as (_ & A & K).
      inversion Hh as [| | | | | | | | | | | | | | |l ws' Hl|]; subst.
      inversion Hr as [|? ? ? ? ? qs K' Hf| | | | | | | | | | |]; subst; kinds E; try discriminate; try bad. injection K' as <- <-.
      eapply re_struct; [exact K|]. eapply IH; eassumption.
    - intros T t S0 s v q Hh Hr. eapply unshape in Hr; [|exact S0|discriminate]. destruct S0 as (_ & A & K). inversion Hh; subst.
      inversion Hr; subst; kinds E; try discriminate; try bad; try apply re_same.
      match goal with Q : inner _ _ _ _ _ _ _ _ |- _ => inversion Q; subst; kinds E; try discriminate; try bad end. apply re_same.
    - intros T t p w S0 Hne M IH s v q Hh Hr. eapply unshape in Hr; [|exact S0|discriminate]. destruct S0 as (_ & A & K).
      inversion Hh as [| | | | | | | | | | | |o i c w0 Hc Hw| | | |]; subst. pose proof (quiet _ _ _ _ _ M) as Hq'.
      assert (exists s', repr s' t c q) as (s' & R).
      { inversion Hr; subst; kinds E; try discriminate; try bad; match goal with Q : KPtr _ = KPtr _ |- _ => injection Q as <- end; try congruence;
          try (match goal with Q : cell H o i = Some ?c' |- _ => replace c' with c in * by congruence end); try (eexists; eassumption);
          try (eexists; apply rp_shape; [exact Hq'| |eassumption]; destruct (kind_of E t) eqn:Kt; try discriminate; (eapply not_bytes; [exact Kt|discriminate])).
        match goal with Q : inner _ _ _ _ _ _ _ _ |- _ => inversion Q; subst; kinds E; try discriminate; try bad end.
        match goal with Q : KPtr _ = KPtr _ |- _ => injection Q as <- end. match goal with Q : cell H o i = Some ?c' |- _ => replace c' with c in * by congruence end.
        eexists. apply rp_shape; [exact Hq'| |apply sh_iface; eassumption]. destruct (kind_of E t) eqn:Kt; try discriminate; (eapply not_bytes; [exact Kt|discriminate]). }
      eapply re_ptr; [exact K|]. eapply IH; eassumption.
    - intros T k S0 Hi s v q Hh Hr. eapply unshape in Hr; [|exact S0|destruct k; discriminate]. destruct S0 as (_ & A & K). inversion Hh; subst.
      inversion Hr as [| | | | | | |? ? ? ? Hi' Hin| | | | |]; subst; kinds E; try discriminate; try bad.
      inversion Hin; subst; kinds E; try discriminate; try bad; apply re_same.
    - intros T t p w S0 Hin M _ s v q Hh Hr. eapply unshape in Hr; [|exact S0|discriminate]. destruct S0 as (_ & A & K).
      inversion Hh as [| | | | | | | | | | | | | |t' v' w' Hw| |]; subst.
      inversion Hr as [| | | | | | |? ? ? ? Hi Hinn| | | | |]; subst; kinds E; try discriminate; try bad.
      inversion Hinn; subst; kinds E; try discriminate; try bad.
      match goal with Q : inner _ _ _ _ _ t v' q |- _ => apply inner_scalar in Q; [|exact Hin]; rename Q into Hs end.
      assert (scalar_k (kind_of E t) = true \/ kind_of E t = KString) as Hk by (destruct Hin as [<-|[<-|[<-|[<-|[]]]]]; cbn; auto).
      rewrite (scalar_det X _ _ _ _ (scalar_in X E H t p w v' M Hw Hk) Hs). apply re_same.
    - intros t i s l qs F El. inversion F; subst. inversion El; subst. constructor.
    - intros t i p ps w ws _ IHv _ IHl s l qs F El. inversion F; subst. inversion El; subst. constructor; [split; [reflexivity|eapply IHv; eassumption]|eapply IHl; eassumption].
    - intros k t s l qs F El. inversion F; subst. inversion El; subst. constructor.
    - intros k t kp p ps kw w ws Hk M _ _ IHv _ IHl s l qs F El. inversion F as [|[kv v] ? l' ? [Hkv Hv] F']; subst. inversion El as [|? [kq q] ? qs' [[_ Hkr] Hr] El']; subst. cbn [fst snd] in *.
      constructor; [|eapply IHl; eassumption]. cbn [fst snd]. split; [|eapply IHv; eassumption].
      assert (scalar_k (kind_of E k) = true \/ kind_of E k = KString) as Hk' by (destruct (kind_of E k); try discriminate; auto).
      exact (scalar_det X _ _ _ _ (scalar_in X E H k kp kw kv M Hkv Hk') Hkr).
    - intros s l qs F Fl. inversion F; subst. inversion Fl; subst. constructor.
    - intros f fs ps ws Hwf _ IH s l qs F Fl. inversion F; subst. inversion Fl; subst; try congruence.
      eapply f2_mono; [|eapply IH; eassumption]. cbn beta. intros a b (Q1 & g & Hg & Q2). split; [exact Q1|]. exists g. split; [right; exact Hg|exact Q2].
    - intros f fs ps ws Hwf Hom _ IH s l qs F Fl. inversion F; subst. inversion Fl; subst; try congruence.
      + eapply f2_mono; [|eapply IH; eassumption]. cbn beta. intros a b (Q1 & g & Hg & Q2). split; [exact Q1|]. exists g. split; [right; exact Hg|exact Q2].
      + exfalso. match goal with Q : tag_omitempty _ = true -> ~ zero_value _ |- _ => apply (Q Hom) end. eapply holds_blank; [eassumption|]. apply zero_blank.
    - intros f fs p ps w ws Hwf Hom _ IHv _ IH s l qs F Fl. inversion F; subst. inversion Fl; subst; try congruence.
      + exfalso. match goal with Q : zero_value _, O : tag_omitempty _ = true |- _ => apply (Hom O); eapply holds_blank; [eassumption|exact Q] end.
      + constructor; [|eapply f2_mono; [|eapply IH; eassumption]; cbn beta; intros a b (Q1 & g & Hg & Q2); split; [exact Q1|]; exists g; split; [right; exact Hg|exact Q2]].
        cbn [fst snd]. split; [reflexivity|]. exists f. split; [left; reflexivity|]. split; [exact Hwf|]. split; [reflexivity|]. eapply IHv; eassumption.
    - intros f p w Ht M IH s v q Hh Hfv. pose proof (quiet _ _ _ _ _ M) as Hq. destruct (kind_of E (f_ty f)) as [| | | | | | | | |t| | | |] eqn:Hk;
        try (inversion Hfv; subst; kinds E; try discriminate; try congruence; eapply IH; eassumption).
      assert (bytes_type (f_ty f) = false) as Hb by (eapply not_bytes; [exact Hk|discriminate]).
      inversion M as [? ? S0|? ? ? S0|? ? ? S0|? ? ? S0|? ? ? S0|? ? S0|? ? B|? ? S0|? ? ? ? S0|? ? ? ? ? S0|? ? ? S0|? ? ? ? ? S0|? ? ? ? ? S0|? t' S0|? t' p1 w1 S0 Hne M'|? k0 S0 Hi|? ? ? ? S0]; subst;
        try congruence; destruct S0 as (_ & _ & K); rewrite Hk in K; try discriminate K; try (subst k0; discriminate Hi); injection K as <-.
      + inversion Hh; subst. inversion Hfv; subst; kinds E; try discriminate. apply re_same.
      + inversion Hh as [| | | | | | | | | | | |o i c w0 Hc Hw| | | |]; subst. apply (IH s (HPtr (Some (o, i))) q Hh). apply rp_shape; [exact Hq|exact Hb|].
        inversion Hfv; subst; kinds E; try discriminate; try congruence; match goal with Q : KPtr _ = KPtr _ |- _ => injection Q as <- end;
          match goal with Q : cell H o i = Some ?c' |- _ => replace c' with c in * by congruence end.
        * match goal with Q : repr _ t c q |- _ => inversion Q; subst; try (pose proof (quiet _ _ _ _ _ M'); congruence) end.
          { match goal with B : bytes_type t = true |- _ => apply bytes_is in B; subst t; discriminate end. }
          eapply sh_ptr_struct; try eassumption.
        * destruct (iface_kind (kind_of E t)) eqn:Hif.
          { eapply sh_ptr_iface; [exact Hk|exact Hif|]. eapply in_ptr; [exact Hk|exact Hc|]. match goal with Q : repr _ t c q |- _ => rename Q into R end.
            inversion R as [| |? ? ? ? _ Hbt Sh]; subst; [pose proof (quiet _ _ _ _ _ M'); congruence|exfalso; match goal with Q : bytes_type t = true |- _ => apply bytes_is in Q; subst t; discriminate end|].
            inversion Sh; subst; kinds E; try discriminate; [|assumption]. exfalso. match goal with Q : scalar_repr _ _ _ _ |- _ => apply scalar_shape in Q; apply plain_not_iface in Q; congruence end. }
          destruct (by_structure (kind_of E t)) eqn:Hbs; [|eapply sh_ptr; eassumption]. eapply sh_ptr_direct; try eassumption.
          match goal with Q : repr _ t c q |- _ => inversion Q; subst; try (pose proof (quiet _ _ _ _ _ M'); congruence) end; try assumption.
          match goal with B : bytes_type t = true |- _ => apply bytes_is in B; subst t; discriminate end.
    - intros f p w Ht M s v q Hh Hfv. destruct (text_read _ _ _ _ _ M) as (_ & _ & _ & Hk & _).
      inversion Hfv; subst; try congruence; try (match goal with Q : kind_of E _ = KPtr _ |- _ => rewrite Q in Hk; discriminate end).
      match goal with Q : quoted_repr _ _ _ _ _ q |- _ => rewrite (quoted_det X E H _ _ _ _ (text_in X E H _ _ _ _ M Hh) Q) end. apply re_same.
    - intros f k Ht S0 Hi s v q Hh Hfv. inversion Hh; subst. destruct S0 as (_ & _ & K). inversion Hfv; subst; try congruence.
      match goal with Q : quoted_repr _ _ _ _ _ _ |- _ => inversion Q; subst; kinds E; try discriminate end.
      match goal with Q : quoted_any _ _ _ _ _ _ |- _ => inversion Q; subst; kinds E; try discriminate end. apply re_same.
    - intros f t Ht S0 s v q Hh Hfv. inversion Hh; subst. destruct S0 as (_ & _ & K). inversion Hfv; subst; kinds E; try discriminate. apply re_same.
    - intros f t p w Ht S0 M s v q Hh Hfv. destruct S0 as (_ & _ & K). inversion Hh as [| | | | | | | | | | | |o i c w0 Hc Hw| | | |]; subst.
      inversion Hfv; subst; kinds E; try discriminate; try congruence. match goal with Q : KPtr _ = KPtr _ |- _ => injection Q as <- end.
      match goal with Q : cell H o i = Some ?c' |- _ => replace c' with c in * by congruence end.
      match goal with Q : quoted_repr _ _ _ _ _ q |- _ => rewrite (quoted_det X E H _ _ _ _ (text_in X E H _ _ _ _ M Hw) Q) end. apply re_same.
  Qed.
End Only.
