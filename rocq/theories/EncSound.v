(** Whatever the encoder writes is the serialization of a PHP value the input
    represents. *)
From Coq Require Import Strings.String Strings.Byte ZArith List Bool Lia Floats.SpecFloat Permutation.
From Verif Require Import Base GoTypes Strconv Tags Grammar Denote Memory EncCompile Encode Php Repr EncCompileFacts EncTerm NumEnc EncFacts.
Import ListNotations.
Open Scope Z_scope.

(** ** Scalars *)

Lemma out_bool_eq b : out_bool b = serialize (PBool b).
Proof. destruct b; reflexivity. Qed.
Lemma out_int_eq z : out_int z = serialize (PInt z).
Proof. unfold out_int. rewrite append_int_decimal. reflexivity. Qed.
Lemma out_uint_eq z : 0 <= z -> out_uint z = serialize (PInt z).
Proof. intros Hz. unfold out_uint. rewrite append_uint_decimal by exact Hz. reflexivity. Qed.
Lemma bs_quote : bs """" = quote.
Proof. reflexivity. Qed.
Lemma out_string_eq s : out_string s = serialize (PStr s).
Proof.
  unfold out_string. rewrite append_int_decimal. cbn [serialize].
  change (bs ":""") with (bs ":" ++ quote). change (bs """;") with (quote ++ bs ";"). rewrite <- !app_assoc. reflexivity.
Qed.
Lemma out_head_eq n s : n = blen s -> out_string_head n ++ bs """" ++ s ++ bs """;" = serialize (PStr s).
Proof.
  intros ->. unfold out_string_head. rewrite append_int_decimal. cbn [serialize].
  change (bs """;") with (quote ++ bs ";"). rewrite bs_quote. rewrite <- !app_assoc. reflexivity.
Qed.
Lemma out_bool_str_eq b : out_bool_str b = serialize (PStr (bool_word b)).
Proof. destruct b; reflexivity. Qed.

Lemma compare_swap m1 e1 m2 e2 :
  SFleb (S754_finite false m1 e1) (S754_finite false m2 e2) = negb (SFltb (S754_finite false m2 e2) (S754_finite false m1 e1)).
Proof.
  unfold SFleb, SFltb. cbn [SFcompare]. rewrite (Z.compare_antisym e1 e2). destruct (e1 ?= e2); cbn [CompOpp]; try reflexivity.
  change (Pos.compare_cont Eq m1 m2) with (Pos.compare m1 m2). change (Pos.compare_cont Eq m2 m1) with (Pos.compare m2 m1).
  rewrite (Pos.compare_antisym m1 m2). destruct (Pos.compare m1 m2); reflexivity.
Qed.
Lemma consts :
  millionth false = f64_1e6m /\ float_of_Z false (10 ^ 21) = f64_1e21 /\
  millionth true = f32_1e6m /\ float_of_Z true (10 ^ 21) = f32_1e21.
Proof. repeat split; vm_compute; reflexivity. Qed.
Lemma float_format_eq single f : float_format single f = if exponent_form single f then "e"%byte else "f"%byte.
Proof.
  destruct consts as (C1 & C2 & C3 & C4). unfold float_format.
  destruct f as [s|s| |s m e].
  - destruct single; reflexivity.
  - destruct single; reflexivity.
  - destruct single; reflexivity.
  - cbn [SFabs exponent_form]. destruct single.
    + rewrite C3, C4. unfold f32_1e21. rewrite compare_swap. reflexivity.
    + rewrite C1, C2. unfold f64_1e21. rewrite compare_swap. reflexivity.
Qed.
Lemma out_float_eq X single f : out_float X single f = serialize (PFloat (float_repr X single f)).
Proof.
  unfold out_float, float_repr, float_text_of. rewrite float_format_eq. destruct f as [s|[|]| |s m e]; reflexivity.
Qed.
Lemma out_float_str_eq X single f : out_float_str X single f = serialize (PStr (float_text_of X single f)).
Proof. unfold out_float_str, float_text_of. rewrite <- float_format_eq. apply out_head_eq. reflexivity. Qed.

Lemma int_ok_range k z : int_ok k z = true <-> int_range k z.
Proof. unfold int_ok, int_range. rewrite andb_true_iff, Z.leb_le, Z.ltb_lt. destruct k; cbn [ibits]; lia. Qed.
Lemma uint_ok_range k z : uint_ok k z = true <-> uint_range k z.
Proof. unfold uint_ok, uint_range. rewrite andb_true_iff, Z.leb_le, Z.ltb_lt. destruct k; cbn [ubits]; lia. Qed.
Lemma int_range_small k z : int_range k z -> - 10 ^ 20 < z < 10 ^ 20.
Proof. unfold int_range. destruct k; cbn [ibits]; lia. Qed.
Lemma uint_range_small k z : uint_range k z -> 0 <= z < 10 ^ 20.
Proof. unfold uint_range. destruct k; cbn [ubits]; lia. Qed.
Lemma out_int_str_eq k z : int_range k z -> out_int_str z = serialize (PStr (decimal z)).
Proof.
  intros Hr. unfold out_int_str. rewrite append_int_decimal. apply out_head_eq.
  rewrite <- append_int_decimal. eapply int_digits_len, int_range_small, Hr.
Qed.
Lemma out_uint_str_eq k z : uint_range k z -> out_uint_str z = serialize (PStr (decimal z)).
Proof.
  intros Hr. pose proof (uint_range_small _ _ Hr) as Hs. unfold out_uint_str. rewrite append_uint_decimal by lia. apply out_head_eq.
  rewrite <- append_uint_decimal by lia. apply uint_digits_len. exact Hs.
Qed.

(** ** Zero values *)

Lemma hzero_iff : forall v, hzero v = true <-> zero_value v.
Proof.
  fix IH 1. intros v.
  assert (forall l, forallb hzero l = true <-> Forall zero_value l) as Hl.
  { induction l as [|x l IHl]; cbn [forallb]; [split; auto; constructor|].
    rewrite andb_true_iff, IH, IHl. split; [intros [H1 H2]; constructor; assumption|intros Q; inversion Q; auto]. }
  assert (forall f, SFeqb f (S754_zero false) = true <-> exists s, f = S754_zero s) as Hf.
  { intros f. destruct f as [[]|[]| |[]]; cbn; split; try discriminate; try (intros; eexists; reflexivity); intros [s Q]; discriminate. }
  destruct v as [[]|z|z|f|f|[|]|[|]|l|[|]|[|]|[|]|l|[|]]; cbn [hzero negb].
  all: try (split; [discriminate|intros Q; inversion Q]); try (split; [intros _; constructor|reflexivity]).
  - rewrite Z.eqb_eq. split; [intros ->; constructor|intros Q; inversion Q; reflexivity].
  - rewrite Z.eqb_eq. split; [intros ->; constructor|intros Q; inversion Q; reflexivity].
  - rewrite Hf. split; [intros [s ->]; constructor|intros Q; inversion Q; eauto].
  - rewrite Hf. split; [intros [s ->]; constructor|intros Q; inversion Q; eauto].
  - rewrite Hl. split; [intros Q; constructor; exact Q|intros Q; inversion Q; assumption].
  - rewrite Hl. split; [intros Q; constructor; exact Q|intros Q; inversion Q; assumption].
Qed.
Lemma hzero_false v : hzero v = false <-> ~ zero_value v.
Proof. rewrite <- hzero_iff. destruct (hzero v); split; congruence. Qed.

(** ** The order in which the encoder may enter containers *)

Definition tracked : Type := list addr * Z.
Definition code_enter (s : tracked) (inside : bool) (a : addr) (s' : tracked) : Prop :=
  if inside then ~ In a (fst s) /\ s' = (a :: fst s, snd s)
  else if 1000 <? snd s + 1 then ~ In a (fst s) /\ s' = (a :: fst s, snd s + 1)
  else s' = (fst s, snd s + 1).
Definition tr (s : st) : tracked := (seen s, depth s).

Lemma bind_ok {A B} (a : M A) (k : A -> M B) s s' b : bindM a k s = (s', ROk b) ->
  exists s1 x, a s = (s1, ROk x) /\ k x s1 = (s', ROk b).
Proof. unfold bindM. destruct (a s) as [s1 [x| | |]]; intros Q; try discriminate. eauto. Qed.
Lemma ret_ok {A} (a : A) s s' b : ret a s = (s', ROk b) -> b = a.
Proof. unfold ret. congruence. Qed.
Lemma ret_ok2 {A B} (a : A) (a' : B) s s' b b' : ret (a, a') s = (s', ROk (b, b')) -> b = a /\ b' = a'.
Proof. unfold ret. intros Q. injection Q as _ -> ->. auto. Qed.
Lemma rec_ok t x body s s' b : check_rec t x body s = (s', ROk b) ->
  exists s1 s2, code_enter (tr s) false x (tr s1) /\ body s1 = (s2, ROk b).
Proof.
  unfold check_rec. destruct (1000 <? depth s + 1) eqn:Hd.
  - destruct (has x (seen s)) eqn:Hh; [discriminate|]. destruct (body _) as [s2 r] eqn:Hb. intros Q. injection Q as _ ->.
    eexists. exists s2. split; [|exact Hb]. unfold code_enter, tr. cbn [fst snd seen depth]. rewrite Hd. apply has_out in Hh. auto.
  - destruct (body _) as [s2 r] eqn:Hb. intros Q. injection Q as _ ->.
    eexists. exists s2. split; [|exact Hb]. unfold code_enter, tr. cbn [fst snd seen depth]. rewrite Hd. reflexivity.
Qed.
Lemma seen_ok t x body s s' b : check_seen t x body s = (s', ROk b) ->
  exists s1 s2, code_enter (tr s) true x (tr s1) /\ body s1 = (s2, ROk b).
Proof.
  unfold check_seen. destruct (has x (seen s)) eqn:Hh; [discriminate|]. destruct (body _) as [s2 r] eqn:Hb. intros Q. injection Q as _ ->.
  eexists. exists s2. split; [|exact Hb]. unfold code_enter, tr. cbn [fst snd seen depth]. apply has_out in Hh. auto.
Qed.
Lemma framed_tr {A} (m : M A) s s' r : framed m -> m s = (s', r) -> tr s' = tr s.
Proof. intros Hf Hm. destruct (Hf s) as [H1 H2]. rewrite Hm in H1, H2. unfold tr. cbn [fst] in *. congruence. Qed.

Section Sound.
  Context (X : Ext) (E : env) (H : heap) (ord : nat -> list (hval * hval) -> list (hval * hval)).
  Hypothesis Hord : forall n m, Permutation m (ord n m).
  Notation enc := (enc_f X E H ord).

  Lemma scalar_sound k v s s' b : enc_scalar X k v s = (s', ROk b) ->
    exists p, scalar_repr X k v p /\ b = serialize p.
  Proof.
    unfold enc_scalar, ret, bad, stop. intros Q.
    destruct k as [|k|k| | | | | | | | | | |]; try (destruct v; discriminate).
    - destruct v; try discriminate. injection Q as _ <-. eexists; split; [constructor|apply out_bool_eq].
    - destruct v as [|z| | | | | | | | | | |]; try discriminate. destruct (int_ok k z) eqn:Hr; [|discriminate]. injection Q as _ <-.
      apply int_ok_range in Hr. eexists; split; [constructor; exact Hr|apply out_int_eq].
    - assert (k <> UPtr) as Hk by (intros ->; discriminate).
      assert (exists z, v = HUint z /\ uint_ok k z = true /\ b = out_uint z) as (z & -> & Hr & ->).
      { destruct k, v as [| |z| | | | | | | | | |]; try discriminate; try congruence;
          destruct (uint_ok _ z) eqn:Hr; try discriminate; injection Q as _ <-; eauto. }
      apply uint_ok_range in Hr. eexists; split; [constructor; assumption|apply out_uint_eq]. destruct Hr; assumption.
    - destruct v; try discriminate. injection Q as _ <-. eexists; split; [constructor|apply out_float_eq].
    - destruct v; try discriminate. injection Q as _ <-. eexists; split; [constructor|apply out_float_eq].
    - destruct v; try discriminate. injection Q as _ <-. eexists; split; [constructor|apply out_string_eq].
  Qed.

  Lemma iface_str_sound : forall f t v s s' b, enc_iface_str X E H f t v s = (s', ROk b) ->
    exists p, quoted_any X E H t v p /\ b = serialize p.
  Proof.
    induction f as [|f IH]; intros t v s s' b Q; [discriminate|]. cbn [enc_iface_str] in Q.
    destruct (kind_of E t) as [|k|k| | | |t'|n t'|k v'|t'| |m| |id fs] eqn:Hk.
    all: try (destruct t as [|k0|k0| | | | | | | | | | |], v as [b0|z|z|x|x|s0|p|l|p|p|o|l|]; try destruct k0; try discriminate;
      unfold ret, bad, stop in Q; try (destruct (int_ok _ z) eqn:Hr; [|discriminate]; apply int_ok_range in Hr); try (destruct (uint_ok _ z) eqn:Hr; [|discriminate]; apply uint_ok_range in Hr); injection Q as _ <-;
      eexists; (split; [constructor; (assumption || discriminate)|]);
      first [apply out_bool_str_eq|eapply out_int_str_eq; eassumption|eapply out_uint_str_eq; eassumption|apply out_float_str_eq]).
    - destruct v as [| | | | | | | | |[[o i]|]| | |]; try discriminate.
      + destruct (cell H o i) as [c|] eqn:Hc; [|discriminate]. apply IH in Q as (p & Hp & ->). exists p. split; [|reflexivity]. eapply qa_ptr; eauto.
      + injection Q as _ <-. exists PNull. split; [|reflexivity]. eapply qa_ptr_nil; eauto.
    - destruct v as [| | | | | | | | | |[[t' v']|]| |]; try discriminate.
      + apply IH in Q as (p & Hp & ->). exists p. split; [|reflexivity]. apply qa_iface; [rewrite Hk; reflexivity|exact Hp].
      + injection Q as _ <-. exists PNull. split; [|reflexivity]. apply qa_nil. rewrite Hk. reflexivity.
    - destruct v as [| | | | | | | | | |[[t' v']|]| |]; try discriminate.
      + apply IH in Q as (p & Hp & ->). exists p. split; [|reflexivity]. apply qa_iface; [rewrite Hk; reflexivity|exact Hp].
      + injection Q as _ <-. exists PNull. split; [|reflexivity]. apply qa_nil. rewrite Hk. reflexivity.
  Qed.
  Lemma as_string_sound f t v s s' b : enc_as_string X E H f t v s = (s', ROk b) ->
    exists p, quoted_repr X E H t v p /\ b = serialize p.
  Proof.
    unfold enc_as_string. intros Q.
    destruct (kind_of E t) as [|k|k| | | |t'|n t'|k v'|t'| |m| |id fs] eqn:Hk.
    all: try (apply iface_str_sound in Q as (p & Hp & ->); exists p; split; [apply qr_iface; [rewrite Hk; reflexivity|exact Hp]|reflexivity]).
    all: try (destruct v; discriminate).
    - destruct v; try discriminate. injection Q as _ <-. eexists; split; [apply qr_bool; exact Hk|apply out_bool_str_eq].
    - destruct v as [|z| | | | | | | | | | |]; try discriminate. destruct (int_ok k z) eqn:Hr; [|discriminate]. injection Q as _ <-.
      apply int_ok_range in Hr. eexists; split; [eapply qr_int; eassumption|eapply out_int_str_eq; eassumption].
    - destruct v as [| |z| | | | | | | | | |]; try discriminate. destruct (uint_ok k z) eqn:Hr; [|discriminate]. injection Q as _ <-.
      apply uint_ok_range in Hr. eexists; split; [eapply qr_uint; eassumption|eapply out_uint_str_eq; eassumption].
    - destruct v; try discriminate. injection Q as _ <-. eexists; split; [apply qr_f32; exact Hk|apply out_float_str_eq].
    - destruct v; try discriminate. injection Q as _ <-. eexists; split; [apply qr_f64; exact Hk|apply out_float_str_eq].
    - destruct v; try discriminate. injection Q as _ <-. eexists; split; [apply qr_str; exact Hk|apply out_string_eq].
  Qed.

  Lemma method_sound t v b : iface_kind (kind_of E t) = false -> call_method X E H t v = ROk b -> says X E H t v b.
  Proof.
    intros Hi Q. unfold call_method in Q.
    destruct t as [| | | | | | | | |t'| | | |n]; try discriminate.
    - destruct t' as [| | | | | | | | | | | | |n]; try discriminate. destruct (nth_error E n) as [d|] eqn:Hd; [|discriminate].
      destruct (d_marshal d) eqn:Hm; try (destruct v; discriminate).
      + destruct v as [| | | | | | | | |[[o i]|]| | |]; try discriminate. destruct (cell H o i) as [c|] eqn:Hc; [|discriminate].
        eapply sy_pointee; eauto.
      + destruct v as [| | | | | | | | |p| | |]; try discriminate. eapply sy_pointer; eauto.
    - apply sy_value; assumption.
  Qed.
  Lemma marshal_sound t v b : call_marshal X E H t v = ROk b -> says X E H t v b.
  Proof.
    unfold call_marshal. intros Q. destruct (iface_kind (kind_of E t)) eqn:Hi; [|apply method_sound; assumption].
    destruct v as [| | | | | | | | | |[[t' v']|]| |]; try discriminate. destruct (iface_kind (kind_of E t')) eqn:Hi'; [discriminate|].
    apply sy_iface; auto. apply method_sound; assumption.
  Qed.

  Definition rel (m : mode) : tracked -> gty -> hval -> php -> Prop :=
    match m with
    | MType => repr X E H code_enter
    | MShape => shape X E H code_enter
    | MIface => inner X E H code_enter
    end.
  Definition is_sound (m : mode) (t : gty) (e : hval -> M bytes) : Prop :=
    forall v s s' b, e v s = (s', ROk b) -> exists p, rel m (tr s) t v p /\ b = serialize p.

  Lemma array_text {A} (l : list A) ps : length ps = length l ->
    out_array_begin (blen l) ++ flat_map (fun e => serialize (fst e) ++ serialize (snd e)) ps ++ bs "}" = serialize (PArr ps).
  Proof. intros Hl. unfold out_array_begin. rewrite append_int_decimal. cbn [serialize]. unfold blen. rewrite Hl. rewrite <- !app_assoc. reflexivity. Qed.

  Definition emode (m : mode) : bool := match m with MIface => true | _ => false end.
  Lemma elems_sound m t e : m <> MShape -> is_sound m t e -> (forall v, framed (e v)) ->
    forall l i s s' b, enc_elems e i l s = (s', ROk b) ->
    exists ps, elems X E H code_enter (tr s) (emode m) t i l ps /\ length ps = length l /\
      b = flat_map (fun e => serialize (fst e) ++ serialize (snd e)) ps.
  Proof.
    intros Hm He Hf. induction l as [|v l IH]; intros i s s' b Q; cbn [enc_elems] in Q.
    { apply ret_ok in Q as ->. exists []. split; [apply el_nil|auto]. }
    apply bind_ok in Q as (s1 & b1 & Q1 & Q). apply bind_ok in Q as (s2 & b2 & Q2 & Q). apply ret_ok in Q as ->.
    pose proof (framed_tr _ _ _ _ (Hf v) Q1) as Ht. apply He in Q1 as (p & Hp & ->). apply IH in Q2 as (ps & Hps & Hl & ->). rewrite Ht in Hps.
    exists ((PInt i, p) :: ps). split; [|split; [cbn; lia|]].
    - destruct m; [apply el_cons; assumption|congruence|apply el_cons_in; assumption].
    - cbn [flat_map fst snd]. rewrite out_int_eq, <- !app_assoc. reflexivity.
  Qed.
  Lemma seq_sound m t e l s s' b : m <> MShape -> is_sound m t e -> (forall v, framed (e v)) ->
    enc_seq e l s = (s', ROk b) ->
    exists ps, elems X E H code_enter (tr s) (emode m) t 0 l ps /\ b = serialize (PArr ps).
  Proof.
    intros Hm He Hf Q. apply bind_ok in Q as (s1 & b1 & Q1 & Q). apply ret_ok in Q as ->.
    apply (elems_sound m t e Hm He Hf) in Q1 as (ps & Hps & Hl & ->). exists ps. split; [exact Hps|]. apply array_text. exact Hl.
  Qed.
  Lemma key_sound k v s s' b : enc_key X k v s = (s', ROk b) -> exists p, key_repr X k v p /\ b = serialize p.
  Proof.
    unfold enc_key. destruct (enc_key_kind k) eqn:Hk; [|discriminate]. intros Q. apply scalar_sound in Q as (p & Hp & ->).
    exists p. rewrite key_kind_eq in Hk. split; [split; assumption|reflexivity].
  Qed.
  Lemma pairs_sound m t k e : m <> MShape -> is_sound m t e -> (forall v, framed (e v)) ->
    forall l s s' b, enc_pairs X k e l s = (s', ROk b) ->
    exists ps, pairs X E H code_enter (tr s) (emode m) k t l ps /\ length ps = length l /\
      b = flat_map (fun e => serialize (fst e) ++ serialize (snd e)) ps.
  Proof.
    intros Hm He Hf. induction l as [|[kv v] l IH]; intros s s' b Q; cbn [enc_pairs] in Q.
    { apply ret_ok in Q as ->. exists []. split; [apply pa_nil|auto]. }
    apply bind_ok in Q as (s0 & b0 & Q0 & Q). apply bind_ok in Q as (s1 & b1 & Q1 & Q). apply bind_ok in Q as (s2 & b2 & Q2 & Q). apply ret_ok in Q as ->.
    pose proof (framed_tr _ _ _ _ (framed_key X k kv) Q0) as Ht0. apply key_sound in Q0 as (kp & Hkp & ->).
    pose proof (framed_tr _ _ _ _ (Hf v) Q1) as Ht. apply He in Q1 as (p & Hp & ->). apply IH in Q2 as (ps & Hps & Hl & ->). rewrite Ht, Ht0 in Hps. rewrite Ht0 in Hp.
    exists ((kp, p) :: ps). split; [|split; [cbn; lia|]].
    - destruct m; [apply pa_cons; assumption|congruence|apply pa_cons_in; assumption].
    - cbn [flat_map fst snd]. rewrite <- !app_assoc. reflexivity.
  Qed.
  Lemma map_sound m t k e ms s s' b : m <> MShape -> is_sound m t e -> (forall v, framed (e v)) ->
    enc_map X ord k e ms s = (s', ROk b) ->
    exists l ps, Permutation ms l /\ pairs X E H code_enter (tr s) (emode m) k t l ps /\ b = serialize (PArr ps).
  Proof.
    intros Hm He Hf Q. apply bind_ok in Q as (s0 & l & Q0 & Q). apply bind_ok in Q as (s1 & b1 & Q1 & Q). apply ret_ok in Q as ->.
    unfold range in Q0. injection Q0 as <- <-.
    apply (pairs_sound m t k e Hm He Hf) in Q1 as (ps & Hps & Hl & ->).
    exists (ord (iters s) ms), ps. split; [apply Hord|]. split; [exact Hps|]. apply array_text.
    rewrite Hl. symmetry. apply Permutation_length, Hord.
  Qed.

  Lemma field_sound f e g v s s' b : (forall t, is_sound MType t (e t)) ->
    enc_field X E H f e g v s = (s', ROk b) ->
    exists p, field_val X E H code_enter (tr s) g v p /\ b = serialize p.
  Proof.
    intros He Q. unfold enc_field in Q. destruct (ptr_kind (kind_of E (f_ty g))) eqn:Hpk.
    - destruct (kind_of E (f_ty g)) as [|k|k| | | |t'|n t'|k v'|t'| |m| |id fs] eqn:Hk; try discriminate.
      destruct v as [| | | | | | | | |[[o i]|]| | |]; try discriminate.
      + destruct (cell H o i) as [c|] eqn:Hc; [|discriminate]. destruct (tag_string (tag_of X g)) eqn:Hst.
        * apply as_string_sound in Q as (p & Hp & ->). exists p. split; [|reflexivity]. eapply fv_ptr_quoted; eauto.
        * destruct (struct_kind (kind_of E t')) eqn:Hsk.
          -- apply rec_ok in Q as (s1 & s2 & Hen & Q). apply He in Q as (p & Hp & ->). exists p. split; [|reflexivity].
             eapply fv_ptr_struct; eauto.
          -- apply He in Q as (p & Hp & ->). exists p. split; [|reflexivity]. eapply fv_ptr; eauto.
      + apply ret_ok in Q as ->. exists PNull. split; [|reflexivity]. eapply fv_nil; eauto.
    - assert ((if tag_string (tag_of X g) then enc_as_string X E H f (f_ty g) v else e (f_ty g) v) s = (s', ROk b)) as Q'
        by (destruct (kind_of E (f_ty g)); try discriminate; exact Q).
      destruct (tag_string (tag_of X g)) eqn:Hst.
      + apply as_string_sound in Q' as (p & Hp & ->). exists p. split; [|reflexivity]. apply fv_quoted; auto.
      + apply He in Q' as (p & Hp & ->). exists p. split; [|reflexivity]. apply fv_plain; auto.
  Qed.
  Lemma enc_name_eq g : enc_name X g = field_key X g.
  Proof. reflexivity. Qed.
  Lemma fields_sound f e : (forall t, is_sound MType t (e t)) -> (forall t v, framed (e t v)) ->
    forall fs l s s' n b, enc_fields X E H f e fs l s = (s', ROk (n, b)) ->
    exists ps, fields X E H code_enter (tr s) fs l ps /\ n = blen ps /\
      b = flat_map (fun e => serialize (fst e) ++ serialize (snd e)) ps.
  Proof.
    intros He Hf. induction fs as [|g fs IH]; intros [|v l] s s' n b Q; cbn [enc_fields] in Q; try discriminate.
    { apply ret_ok2 in Q as [-> ->]. exists []. split; [apply fl_nil|auto]. }
    destruct (enc_skipped X g) eqn:Hsk.
    { apply IH in Q as (ps & Hps & Hn & Hb). exists ps. split; [|auto]. apply fl_skip; [rewrite written_eq, Hsk; reflexivity|exact Hps]. }
    assert (written_field X g = true) as Hw by (rewrite written_eq, Hsk; reflexivity).
    destruct (tag_omitempty (tag_of X g) && hzero v) eqn:Hom.
    { apply andb_true_iff in Hom as [Ho Hz]. apply hzero_iff in Hz.
      apply IH in Q as (ps & Hps & Hn & Hb). exists ps. split; [|auto]. apply fl_omit; assumption. }
    apply bind_ok in Q as (s1 & b1 & Q1 & Q). apply bind_ok in Q as (s2 & [n2 b2] & Q2 & Q). apply ret_ok2 in Q as [-> ->].
    pose proof (framed_tr _ _ _ _ (framed_field X E H f e g v Hf) Q1) as Ht.
    apply (field_sound f e g v _ _ _ He) in Q1 as (p & Hp & ->). apply IH in Q2 as (ps & Hps & -> & ->). rewrite Ht in Hps.
    exists ((PStr (field_key X g), p) :: ps). split; [|split].
    - apply fl_write; auto. intros Ho. rewrite Ho in Hom. apply hzero_false. exact Hom.
    - cbn [fst]. unfold blen. cbn [length]. lia.
    - cbn [flat_map fst snd]. rewrite enc_name_eq, out_string_eq, <- !app_assoc. reflexivity.
  Qed.
  Lemma struct_sound f e fs l s s' b : (forall t, is_sound MType t (e t)) -> (forall t v, framed (e t v)) ->
    enc_struct X E H f e fs l s = (s', ROk b) ->
    exists ps, fields X E H code_enter (tr s) fs l ps /\ b = serialize (PArr ps).
  Proof.
    intros He Hf Q. apply bind_ok in Q as (s1 & [n b1] & Q1 & Q). apply ret_ok in Q as ->.
    apply (fields_sound f e He Hf) in Q1 as (ps & Hps & -> & ->). exists ps. split; [exact Hps|]. apply array_text. reflexivity.
  Qed.

  Lemma compile_now_ok f t s s' u : compile_now X E f t s = (s', ROk u) -> s' = s /\ encodable X E t.
  Proof.
    unfold compile_now. intros Q. apply bind_ok in Q as (s1 & S & Q1 & Q). unfold lift in Q1. injection Q1 as <- Hc. injection Q as <- _.
    split; [reflexivity|]. eapply compile_encodable. exact Hc.
  Qed.

  Theorem enc_sound : forall f m t, is_sound m t (enc f m t).
  Proof.
    induction f as [|f IH]; intros m t v s s' b Q; [discriminate|]. cbn [enc_f] in Q.
    assert (forall m t v, framed (enc f m t v)) as Hf by (intros; apply enc_framed).
    destruct m; cbn [rel].
    - rewrite implements_eq, is_bytes_eq in Q. destruct (marshaler E t) eqn:Him.
      { unfold lift in Q. injection Q as _ Q. apply marshal_sound in Q. exists (PRaw b). split; [apply rp_marshaler; assumption|reflexivity]. }
      destruct (bytes_type t) eqn:Hby.
      { destruct (byte_slice H v) as [c|] eqn:Hc; [|discriminate]. injection Q as _ <-. exists (PStr c). split; [apply rp_bytes; assumption|apply out_string_eq]. }
      apply IH in Q as (p & Hp & ->). exists p. split; [apply rp_shape; assumption|reflexivity].
    - destruct (kind_of E t) as [|k|k| | | |t'|n t'|k v'|t'| |bb| |id fs] eqn:Hk.
      all: try (cbn [enc_scalar_kind] in Q; apply scalar_sound in Q as (p & Hp & ->); exists p; split; [apply sh_scalar; rewrite Hk; exact Hp|reflexivity]).
      + destruct (enc_scalar_kind (KUint k)) eqn:Hek; [|discriminate].
        apply scalar_sound in Q as (p & Hp & ->); exists p; split; [apply sh_scalar; rewrite Hk; exact Hp|reflexivity].
      + destruct v as [| | | | | |[[[o i] n]|]| | | | | |]; try discriminate.
        * destruct (cells H o i n) as [l|] eqn:Hc; [|discriminate]. apply rec_ok in Q as (s1 & s2 & Hen & Q).
          apply (seq_sound MType t') in Q as (ps & Hps & ->); [|discriminate|apply IH|intros; apply Hf].
          exists (PArr ps). split; [|reflexivity]. eapply sh_slice; eauto.
        * injection Q as _ <-. exists PNull. split; [eapply sh_slice_nil; eauto|reflexivity].
      + destruct v as [| | | | | | |l| | | | |]; try discriminate. destruct (Nat.eqb (length l) n) eqn:Hn; [|discriminate]. apply Nat.eqb_eq in Hn.
        apply (seq_sound MType t') in Q as (ps & Hps & ->); [|discriminate|apply IH|intros; apply Hf].
        exists (PArr ps). split; [|reflexivity]. eapply sh_array; eauto.
      + destruct v as [| | | | | | | |[o|]| | | |]; try discriminate.
        * destruct (entries H o) as [ms|] eqn:Hc; [|discriminate]. apply rec_ok in Q as (s1 & s2 & Hen & Q).
          apply (map_sound MType v') in Q as (l & ps & Hperm & Hps & ->); [|discriminate|apply IH|intros; apply Hf].
          exists (PArr ps). split; [|reflexivity]. eapply sh_map; eauto.
        * injection Q as _ <-. exists PNull. split; [eapply sh_map_nil; eauto|reflexivity].
      + destruct (iface_kind (kind_of E t')) eqn:Hif.
        { apply IH in Q as (p & Hp & ->). exists p. split; [eapply sh_ptr_iface; eauto|reflexivity]. }
        destruct v as [| | | | | | | | |[[o i]|]| | |]; try discriminate.
        * destruct (cell H o i) as [c|] eqn:Hc; [|discriminate]. destruct (struct_kind (kind_of E t')) eqn:Hsk.
          { apply rec_ok in Q as (s1 & s2 & Hen & Q). apply IH in Q as (p & Hp & ->). exists p. split; [eapply sh_ptr_struct; eauto|reflexivity]. }
          destruct (ptr_direct (kind_of E t')) eqn:Hpd; rewrite by_structure_eq in Hpd.
          { apply IH in Q as (p & Hp & ->). exists p. split; [eapply sh_ptr_direct; eauto|reflexivity]. }
          { apply IH in Q as (p & Hp & ->). exists p. split; [eapply sh_ptr; eauto|reflexivity]. }
        * injection Q as _ <-. exists PNull. split; [eapply sh_ptr_nil; eauto|reflexivity].
      + apply IH in Q as (p & Hp & ->). exists p. split; [apply sh_iface; [rewrite Hk; reflexivity|exact Hp]|reflexivity].
      + apply IH in Q as (p & Hp & ->). exists p. split; [apply sh_iface; [rewrite Hk; reflexivity|exact Hp]|reflexivity].
      + discriminate.
      + destruct v as [| | | | | | | | | | |l|]; try discriminate.
        apply struct_sound in Q as (ps & Hps & ->); [|intros; apply IH|intros; apply Hf].
        exists (PArr ps). split; [eapply sh_struct; eauto|reflexivity].
    - destruct (kind_of E t) as [|k|k| | | |t'|n t'|k v'|t'| |bb| |id fs] eqn:Hk.
      all: try (cbn [enc_scalar_kind] in Q; apply scalar_sound in Q as (p & Hp & ->); exists p; split; [apply in_scalar; rewrite Hk; exact Hp|reflexivity]).
      + destruct (enc_scalar_kind (KUint k)) eqn:Hek; [|discriminate].
        apply scalar_sound in Q as (p & Hp & ->); exists p; split; [apply in_scalar; rewrite Hk; exact Hp|reflexivity].
      + destruct v as [| | | | | |[[[o i] n]|]| | | | | |]; try discriminate.
        * apply seen_ok in Q as (s1 & s2 & Hen & Q). destruct (iface_kind (kind_of E t')) eqn:Hif.
          -- destruct (cells H o i n) as [l|] eqn:Hc; [|discriminate].
             apply (seq_sound MIface t') in Q as (ps & Hps & ->); [|discriminate|apply IH|intros; apply Hf].
             exists (PArr ps). split; [|reflexivity]. eapply in_slice; eauto.
          -- apply bind_ok in Q as (s3 & u & Q1 & Q). apply compile_now_ok in Q1 as [-> He]. apply IH in Q as (p & Hp & ->).
             exists p. split; [|reflexivity]. eapply in_slice_typed; eauto.
        * destruct (iface_kind (kind_of E t')) eqn:Hif.
          -- injection Q as _ <-. exists PNull. split; [eapply in_slice_nil; eauto|reflexivity].
          -- apply bind_ok in Q as (s3 & u & Q1 & Q). apply compile_now_ok in Q1 as [-> He]. apply IH in Q as (p & Hp & ->).
             exists p. split; [|reflexivity]. eapply in_slice_typed_nil; eauto.
      + discriminate.
      + destruct v as [| | | | | | | |[o|]| | | |]; try discriminate.
        * apply seen_ok in Q as (s1 & s2 & Hen & Q). destruct (enc_key_kind (kind_of E k)) eqn:Hkk; [|discriminate]. rewrite key_kind_eq in Hkk.
          destruct (entries H o) as [[|e l]|] eqn:Hc; [| |discriminate].
          -- injection Q as _ <-. exists (PArr []). split; [eapply in_map_empty; eauto|reflexivity].
          -- destruct (iface_kind (kind_of E v')) eqn:Hif.
             ++ apply (map_sound MIface v') in Q as (l' & ps & Hperm & Hps & ->); [|discriminate|apply IH|intros; apply Hf].
                exists (PArr ps). split; [|reflexivity]. eapply in_map; eauto; [discriminate|]. rewrite Hif. exact Hps.
             ++ apply bind_ok in Q as (s3 & u & Q1 & Q). apply compile_now_ok in Q1 as [-> He].
                apply (map_sound MType v') in Q as (l' & ps & Hperm & Hps & ->); [|discriminate|apply IH|intros; apply Hf].
                exists (PArr ps). split; [|reflexivity]. eapply in_map; eauto; [discriminate|]. rewrite Hif. exact Hps.
        * destruct (enc_key_kind (kind_of E k)) eqn:Hkk; [|discriminate]. rewrite key_kind_eq in Hkk. injection Q as _ <-.
          exists PNull. split; [eapply in_map_nil; eauto|reflexivity].
      + destruct v as [| | | | | | | | |[[o i]|]| | |]; try discriminate.
        * destruct (cell H o i) as [c|] eqn:Hc; [|discriminate]. apply IH in Q as (p & Hp & ->). exists p. split; [eapply in_ptr; eauto|reflexivity].
        * injection Q as _ <-. exists PNull. split; [eapply in_ptr_nil; eauto|reflexivity].
      + destruct v as [| | | | | | | | | |[[t' v']|]| |]; try discriminate.
        * apply IH in Q as (p & Hp & ->). exists p. split; [apply in_iface; [rewrite Hk; reflexivity|exact Hp]|reflexivity].
        * injection Q as _ <-. exists PNull. split; [apply in_nil; rewrite Hk; reflexivity|reflexivity].
      + destruct v as [| | | | | | | | | |[[t' v']|]| |]; try discriminate.
        * apply IH in Q as (p & Hp & ->). exists p. split; [apply in_iface; [rewrite Hk; reflexivity|exact Hp]|reflexivity].
        * injection Q as _ <-. exists PNull. split; [apply in_nil; rewrite Hk; reflexivity|reflexivity].
      + discriminate.
      + apply bind_ok in Q as (s3 & u & Q1 & Q). apply compile_now_ok in Q1 as [-> He]. apply IH in Q as (p & Hp & ->).
        exists p. split; [|reflexivity]. eapply in_struct; eauto.
  Qed.
End Sound.
