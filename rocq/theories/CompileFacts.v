(** Compiling the destination type. *)
From Coq Require Import Strings.String Strings.Byte ZArith List Bool Lia.
From Verif Require Import Base GoTypes Strconv Tags Scan Decode Unmarshal Grammar Denote Typing NumFacts ScanFacts Sound Api.
Import ListNotations.
Open Scope Z_scope.

(** ** More fuel changes nothing *)
Lemma compile_fields_mono X E (c1 c2 : gty -> R unit) fs :
  (forall t, c1 t <> RFuel -> c2 t = c1 t) ->
  compile_fields X E c1 fs <> RFuel -> compile_fields X E c2 fs = compile_fields X E c1 fs.
Proof.
  intros H. induction fs as [|f fs IH]; cbn [compile_fields]; [reflexivity|].
  destruct (is_ignored f); [exact IH|]. destruct (_ && _); [reflexivity|].
  intros Hn. assert (c1 (f_ty f) <> RFuel) as H1 by (intros Q; rewrite Q in Hn; apply Hn; reflexivity).
  rewrite (H _ H1). destruct (c1 (f_ty f)); cbn [bind] in *; try reflexivity.
  destruct (_ && _); [reflexivity|]. apply IH. exact Hn.
Qed.

Lemma compile_mono X E : forall f st t, compile_f X E f st t <> RFuel ->
  forall f', (f <= f')%nat -> compile_f X E f' st t = compile_f X E f st t.
Proof.
  induction f as [|f IH]; intros st t Hn f' Hle; [cbn in Hn; congruence|].
  destruct f' as [|f']; [lia|]. apply le_S_n in Hle.
  assert (forall st' t', compile_f X E f st' t' <> RFuel -> compile_f X E f' st' t' = compile_f X E f st' t') as IH' by (intros; apply IH; auto).
  cbn [compile_f] in *. destruct (has_unmarshal E t); [reflexivity|].
  destruct (kind_of E t) as [| | | | | |t'|n t'|k v|t'| | | |id fs]; try reflexivity; auto.
  - destruct (kind_of E t') as [| |[]| | | | | | | | | | |]; try reflexivity; auto.
  - destruct (has_unmarshal E k).
    { cbn [bind] in *. auto. }
    assert (compile_f X E f st k <> RFuel \/ kind_of E k = KString) as [Hk|Hk].
    { destruct (kind_of E k); auto; left; intros Q; rewrite Q in Hn; apply Hn; reflexivity. }
    + rewrite (IH' _ _ Hk). destruct (match kind_of E k with KString => _ | _ => _ end); cbn [bind] in *; try reflexivity. auto.
    + rewrite Hk in *. cbn [bind] in *. auto.
  - assert (compile_f X E f st t' <> RFuel) as H1 by (intros Q; rewrite Q in Hn; apply Hn; reflexivity).
    rewrite (IH' _ _ H1). reflexivity.
  - destruct (mem id st); [reflexivity|].
    rewrite (compile_fields_mono X E _ _ fs (fun t => IH' (id :: st) t)); [reflexivity|].
    intros Q. rewrite Q in Hn. apply Hn. reflexivity.
Qed.

Lemma unmarshal_mono X E cf cf' data tg : snd (unmarshal X E cf data tg) <> RFuel -> (cf <= cf')%nat ->
  unmarshal X E cf' data tg = unmarshal X E cf data tg.
Proof.
  intros H Hle. unfold unmarshal in *. destruct data as [|b data]; [reflexivity|]. destruct tg as [|t v|t|T v]; try reflexivity.
  assert (compile_f X E cf [] T <> RFuel) as H1 by (intros Q; rewrite Q in H; cbn in H; congruence).
  rewrite (compile_mono X E cf [] T H1 cf' Hle). reflexivity.
Qed.

(** Compilation only accepts, rejects, or recurses for ever *)
Lemma compile_fields_nopanic X E comp fs p :
  (forall t, comp t <> RPanic p) -> compile_fields X E comp fs <> RPanic p.
Proof.
  intros H. induction fs as [|f fs IH]; cbn [compile_fields]; [discriminate|].
  destruct (is_ignored f); [exact IH|]. destruct (_ && _); [discriminate|].
  pose proof (H (f_ty f)) as Hf. destruct (comp (f_ty f)); cbn [bind]; try discriminate; [|congruence].
  destruct (_ && _); [discriminate|exact IH].
Qed.
Lemma compile_nopanic X E p : forall cf st t, compile_f X E cf st t <> RPanic p.
Proof.
  induction cf as [|f IH]; intros st t; cbn [compile_f]; [discriminate|].
  destruct (has_unmarshal E t); [discriminate|].
  destruct (kind_of E t) as [| | | | | |t'|n t'|k v|t'| | | |id fs]; try discriminate; auto.
  - destruct (kind_of E t') as [| |[]| | | | | | | | | | |]; try discriminate; auto.
  - assert ((match has_unmarshal E k with Some _ => ROk tt | None =>
              match kind_of E k with KString => ROk tt | _ => compile_f X E f st k end end) <> RPanic p) as Hk.
    { destruct (has_unmarshal E k); [discriminate|]. destruct (kind_of E k); try discriminate; auto. }
    destruct (match has_unmarshal E k with Some _ => _ | None => _ end); cbn [bind]; try discriminate; [auto|congruence].
  - pose proof (IH st t') as H. destruct (compile_f X E f st t'); cbn [bind]; try discriminate; [|congruence].
    destruct (kind_of E t'); discriminate.
  - destruct (mem id st); [discriminate|].
    pose proof (compile_fields_nopanic X E (compile_f X E f (id :: st)) fs p (IH _)) as H.
    destruct (compile_fields _ _ _ _); cbn [bind]; try discriminate; [|congruence]. destruct (first_dup _ _); discriminate.
Qed.

(** ** What is rejected *)
Section Rejects.
  Context (X : Ext) (E : env).

  Lemma existsb_bytes k l : existsb (bytes_eqb k) l = true <-> In k l.
  Proof.
    rewrite existsb_exists. split.
    - intros (x & Hx & He). apply bytes_eqb_eq in He as ->. exact Hx.
    - intros H. exists k. split; [exact H|]. apply bytes_eqb_eq. reflexivity.
  Qed.
  Lemma in_field_keys fs : forall i k, In k (map fd_key (field_decs X E i fs)) <->
    exists j f, nth_error fs j = Some f /\ is_ignored f = false /\ field_key X f = k.
  Proof.
    induction fs as [|f0 fs IH]; intros i k; cbn [field_decs].
    - cbn. split; [tauto|]. intros ([|j] & f & Hf & _); discriminate.
    - destruct (is_ignored f0) eqn:Hi.
      + rewrite IH. split; intros (j & f & Hf & Hg & Hk).
        * exists (S j), f. auto.
        * destruct j as [|j]; cbn in Hf; [congruence|]. exists j, f. auto.
      + cbn [map fd_key In]. rewrite IH. split.
        * intros [Hk|(j & f & Hf & Hg & Hk)]; [exists 0%nat, f0; auto|exists (S j), f; auto].
        * intros (j & f & Hf & Hg & Hk). destruct j as [|j]; cbn in Hf; [left; injection Hf as ->; exact Hk|right; exists j, f; auto].
  Qed.
  Fixpoint has_dup (l : list bytes) : bool :=
    match l with [] => false | k :: l' => existsb (bytes_eqb k) l' || has_dup l' end.
  Lemma first_dup_none l : forall s, first_dup s l = None <-> has_dup l = false /\ forall k, In k l -> existsb (bytes_eqb k) s = false.
  Proof.
    induction l as [|k l IH]; intros s; cbn [first_dup has_dup]; [split; [intros _; split; [reflexivity|intros k []]|reflexivity]|].
    destruct (existsb (bytes_eqb k) s) eqn:Q.
    - split; [discriminate|]. intros [_ A]. rewrite (A k (or_introl eq_refl)) in Q. discriminate.
    - rewrite IH, orb_false_iff. split.
      + intros [A B]. split.
        * split; [|exact A]. destruct (existsb (bytes_eqb k) l) eqn:Q1; [|reflexivity]. apply existsb_bytes in Q1. specialize (B k Q1).
          cbn [existsb] in B. rewrite bytes_eqb_refl in B. discriminate.
        * intros x [<-|Hx]; [exact Q|]. specialize (B x Hx). cbn [existsb] in B. apply orb_false_iff in B. tauto.
      + intros [[A1 A2] B]. split; [exact A2|]. intros x Hx. cbn [existsb]. apply orb_false_iff. split; [|apply B; right; exact Hx].
        destruct (bytes_eqb x k) eqn:Q1; [|reflexivity]. apply bytes_eqb_eq in Q1. subst x. apply existsb_bytes in Hx. congruence.
  Qed.
  Lemma first_dup_has l : has_dup l = match first_dup [] l with Some _ => true | None => false end.
  Proof.
    destruct (first_dup [] l) eqn:Q.
    - destruct (has_dup l) eqn:D; [reflexivity|]. assert (first_dup [] l = None) by (apply first_dup_none; split; [exact D|reflexivity]). congruence.
    - apply first_dup_none in Q. tauto.
  Qed.
  Lemma has_dup_spec fs : forall i, has_dup (map fd_key (field_decs X E i fs)) = true <->
    exists a b f g, nth_error fs a = Some f /\ nth_error fs b = Some g /\ a <> b /\
      is_ignored f = false /\ is_ignored g = false /\ field_key X f = field_key X g.
  Proof.
    induction fs as [|f0 fs IH]; intros i; cbn [field_decs].
    - cbn. split; [discriminate|]. intros ([|a] & b & f & g & Hf & _); discriminate.
    - destruct (is_ignored f0) eqn:Hi.
      + rewrite IH. split; intros (a & b & f & g & Hf & Hg & Hab & If & Ig & Hk).
        * exists (S a), (S b), f, g. repeat split; auto.
        * destruct a as [|a]; cbn in Hf; [congruence|]. destruct b as [|b]; cbn in Hg; [congruence|].
          exists a, b, f, g. repeat split; auto.
      + cbn [map fd_key has_dup]. fold (field_key X f0). rewrite orb_true_iff, existsb_bytes, in_field_keys, IH. split.
        * intros [(j & f & Hf & If & Hk)|(a & b & f & g & Hf & Hg & Hab & If & Ig & Hk)].
          -- exists 0%nat, (S j), f0, f. repeat split; auto.
          -- exists (S a), (S b), f, g. repeat split; auto.
        * intros (a & b & f & g & Hf & Hg & Hab & If & Ig & Hk).
          destruct a as [|a], b as [|b]; cbn in Hf, Hg; [congruence| | |].
          -- injection Hf as <-. left. exists b, g. auto.
          -- injection Hg as <-. left. exists a, f. auto.
          -- right. exists a, b, f, g. repeat split; auto.
  Qed.

  Lemma string_tagged_eq f : string_tagged X E f = tag_string (tag_of X f) && string_tag_supported E (f_ty f).
  Proof. unfold string_tagged, string_tag_supported. destruct (has_unmarshal E (f_ty f)); [reflexivity|]. destruct (kind_of E (f_ty f)); reflexivity. Qed.

  Lemma wrap_ok_spec T : wrap_ok E T = true <-> quotable E T.
  Proof.
    unfold wrap_ok, quotable, plain, node_of. destruct (has_unmarshal E T) as [n|] eqn:Hu.
    - split; [discriminate|]. intros [(k & [Q _] & _)|(t & k & [Q _] & _)]; discriminate.
    - destruct (kind_of E T) as [| | | | | |t'|n t'|k v|t'| |m| |id fs] eqn:Hk;
        try (split; [intros _; left; eexists; repeat split; reflexivity|reflexivity]);
        try (split; [discriminate|]; intros [(k0 & [_ Q] & Q2)|(t & k0 & [_ Q] & _)]; [subst k0; discriminate Q2|discriminate Q]).
      + split; [destruct (kind_of E t') as [| |[]| | | | | | | | | | |]; discriminate|].
        intros [(k0 & [_ Q] & Q2)|(t & k0 & [_ Q] & _)]; [subst k0; discriminate Q2|discriminate Q].
      + destruct (has_unmarshal E t') as [n|] eqn:Hu'.
        { split; [discriminate|]. intros [(k0 & [_ Q] & Q2)|(t & k0 & [_ Q] & [Q1 _] & _)]; [subst k0; discriminate Q2|]. injection Q as ->. congruence. }
        assert (forall k, (exists k0, (@None nat = None /\ KPtr t' = k0) /\ number_kind k0 = true) \/
           (exists t k0, (@None nat = None /\ KPtr t' = KPtr t) /\ (has_unmarshal E t = None /\ kind_of E t = k0) /\ number_kind k0 = true) ->
           kind_of E t' = k -> number_kind k = true) as K.
        { intros k [(k0 & [_ Q] & Q2)|(t & k0 & [_ Q] & [_ Q1] & Q2)] Hk'; [subst k0; discriminate Q2|]. injection Q as ->. congruence. }
        destruct (kind_of E t') as [| | | | | |t''|n t''|k v|t''| |m| |id fs] eqn:Hk';
          try (split; [intros _; right; exists t', (kind_of E t'); rewrite Hk'; repeat split; auto|reflexivity]);
          try (split; [discriminate|]; intros Q; specialize (K _ Q eq_refl); discriminate K).
        split; [destruct (kind_of E t'') as [| |[]| | | | | | | | | | |]; discriminate|intros Q; specialize (K _ Q eq_refl); discriminate K].
  Qed.

  Lemma is_ptr_spec t : is_ptr E t = true <-> exists u, kind_of E t = KPtr u.
  Proof. unfold is_ptr. destruct (kind_of E t); split; try discriminate; try (intros [u Q]; discriminate Q); eauto. Qed.

  (** *** A field list *)
  Lemma compile_fields_ok comp fs : compile_fields X E comp fs = ROk tt ->
    forall f, In f fs -> is_ignored f = false ->
      comp (f_ty f) = ROk tt /\ ~ (f_anon f = true /\ struct_or_ptr E (f_ty f) = true) /\
      (string_tagged X E f = true -> quotable E (f_ty f)).
  Proof.
    induction fs as [|f0 fs IH]; cbn [compile_fields]; intros H f HIn Hi; [destruct HIn|].
    destruct (is_ignored f0) eqn:Hi0.
    { destruct HIn as [->|HIn]; [congruence|]. apply IH; auto. }
    fold (struct_or_ptr E (f_ty f0)) in H. destruct (f_anon f0 && struct_or_ptr E (f_ty f0)) eqn:Ha; [discriminate|].
    destruct (comp (f_ty f0)) as [[]|e|p|] eqn:Hc; cbn [bind] in H; try discriminate.
    rewrite <- string_tagged_eq in H. destruct (string_tagged X E f0 && negb (wrap_ok E (f_ty f0))) eqn:Hs; [discriminate|].
    destruct HIn as [->|HIn]; [|apply IH; auto]. split; [exact Hc|]. split.
    - intros [A B]. rewrite A, B in Ha. discriminate.
    - intros A. rewrite A in Hs. apply wrap_ok_spec. destruct (wrap_ok E (f_ty f)); [reflexivity|discriminate].
  Qed.
  Lemma compile_fields_err comp fs e : compile_fields X E comp fs = RErr e ->
    exists f, In f fs /\ is_ignored f = false /\
      (comp (f_ty f) = RErr e \/ (f_anon f = true /\ struct_or_ptr E (f_ty f) = true) \/
       (string_tagged X E f = true /\ ~ quotable E (f_ty f))).
  Proof.
    induction fs as [|f0 fs IH]; cbn [compile_fields]; intros H; [discriminate|].
    destruct (is_ignored f0) eqn:Hi0.
    { destruct (IH H) as (f & HIn & Q). exists f. split; [right; exact HIn|exact Q]. }
    fold (struct_or_ptr E (f_ty f0)) in H. destruct (f_anon f0 && struct_or_ptr E (f_ty f0)) eqn:Ha.
    { apply andb_true_iff in Ha. exists f0. cbn. auto. }
    destruct (comp (f_ty f0)) as [[]|e'|p|] eqn:Hc; cbn [bind] in H; try discriminate.
    - rewrite <- string_tagged_eq in H. destruct (string_tagged X E f0 && negb (wrap_ok E (f_ty f0))) eqn:Hs.
      + apply andb_true_iff in Hs as [Hs Hw]. exists f0. cbn. split; [auto|]. split; [exact Hi0|]. right. right. split; [exact Hs|].
        intros Q. apply wrap_ok_spec in Q. rewrite Q in Hw. discriminate.
      + destruct (IH H) as (f & HIn & Q). exists f. split; [right; exact HIn|exact Q].
    - exists f0. cbn. injection H as ->. auto.
  Qed.

  Lemma inside_trans T U V : inside E T U -> inside E U V -> inside E T V.
  Proof. intros H1 H2. induction H2 as [|U' V' H2 IH Hc]; [exact H1|]. eapply in_step; eauto. Qed.
  Lemma inside_head T U V : component E T U -> inside E U V -> inside E T V.
  Proof. intros H. apply inside_trans. eapply in_step; [apply in_refl|exact H]. Qed.

  (** An error means that some type inside is not supported *)
  Lemma compile_err : forall f st T e, compile_f X E f st T = RErr e ->
    exists U, inside E T U /\ unsupported X E U.
  Proof.
    induction f as [|f IH]; intros st T e H; cbn [compile_f] in H; [discriminate|].
    destruct (has_unmarshal E T) eqn:Hu; [discriminate|].
    assert (forall U st' e', component E T U -> compile_f X E f st' U = RErr e' -> exists U', inside E T U' /\ unsupported X E U') as K.
    { intros U st' e' Hc He. destruct (IH _ _ _ He) as (U' & Hi & Hb). exists U'. split; [eapply inside_head; eauto|exact Hb]. }
    destruct (kind_of E T) as [| | | | | |t'|n t'|k v|t'| |m| |id fs] eqn:Hk; try discriminate.
    - assert (compile_f X E f st t' = RErr e) as H' by (destruct (kind_of E t') as [| |[]| | | | | | | | | | |]; congruence).
      eapply K; [eapply co_slice; split; eauto|exact H'].
    - eapply K; [eapply co_array; split; eauto|exact H].
    - destruct (match has_unmarshal E k with Some _ => _ | None => _ end) as [[]|e'|p|] eqn:Hm; cbn [bind] in H; try discriminate.
      + eapply K; [eapply co_val; split; eauto|exact H].
      + assert (compile_f X E f st k = RErr e') as H' by (destruct (has_unmarshal E k); [discriminate|]; destruct (kind_of E k); congruence).
        eapply K; [eapply co_key; split; eauto|exact H'].
    - destruct (compile_f X E f st t') as [[]|e'|p|] eqn:Hc; cbn [bind] in H; try discriminate.
      + exists T. split; [apply in_refl|]. eapply us_ptr; [split; eauto|]. apply is_ptr_spec. destruct (kind_of E t'); try discriminate; eauto.
      + eapply K; [eapply co_ptr; split; eauto|exact Hc].
    - destruct (mem id st); [discriminate|].
      destruct (compile_fields X E (compile_f X E f (id :: st)) fs) as [[]|e'|p|] eqn:Hc; cbn [bind] in H; try discriminate.
      + pose proof (first_dup_has (map fd_key (field_decs X E 0 fs))) as Hd. destruct (first_dup [] (map fd_key (field_decs X E 0 fs))); [|discriminate]. apply has_dup_spec in Hd as (a & b & g & h & Hg & Hh & Hab & Ig & Ih & Hkey).
        exists T. split; [apply in_refl|]. eapply us_dup with (i := a) (j := b); eauto. split; eauto.
      + apply compile_fields_err in Hc as (g & HIn & Ig & [Hg|[[Ha Hs]|[Hs Hq]]]).
        * eapply K; [eapply co_field; eauto; split; eauto|exact Hg].
        * exists T. split; [apply in_refl|]. eapply us_embedded; eauto. split; eauto.
        * exists T. split; [apply in_refl|]. eapply us_string; eauto. split; eauto.
  Qed.

  (** Paths avoiding the structs in [st] *)
  Definition clear (st : list nat) (T : gty) : Prop := forall n, T = TName n -> ~ In n st.
  Inductive path (st : list nat) : gty -> gty -> Prop :=
  | pa_refl T : clear st T -> path st T T
  | pa_step T V U : clear st T -> component E T V -> path st V U -> path st T U.

  Lemma struct_name T id fs : kind_of E T = KStruct id fs -> T = TName id.
  Proof.
    destruct T as [| | | | | | | | | | | | |n]; cbn; try discriminate. destruct (nth_error E n) as [d|]; [|discriminate].
    destruct (d_under d) as [fs'|t]; [intros Q; injection Q as -> _; reflexivity|destruct t; discriminate].
  Qed.
  Lemma path_nil T U : inside E T U -> path [] T U.
  Proof.
    assert (forall T, clear [] T) as C by (intros T' n _ []).
    assert (forall A B C', path [] A B -> component E B C' -> path [] A C') as S.
    { intros A B C' H. induction H as [T'|T' V' U' HC Hc Hp IH]; intros Hs; [eapply pa_step; eauto; apply pa_refl; auto|eapply pa_step; eauto]. }
    induction 1 as [|U V H IH Hc]; [apply pa_refl; auto|]. eapply S; eauto.
  Qed.
  Lemma path_last st n V U : path st V U ->
    path (n :: st) V U \/ U = TName n \/ exists V', component E (TName n) V' /\ path (n :: st) V' U.
  Proof.
    assert (forall T, clear st T -> T <> TName n -> clear (n :: st) T) as C.
    { intros T HC HT m Hm [->|HIn]; [contradiction|]. eapply HC; eauto. }
    induction 1 as [T HC|T V U HC Hc Hp IH].
    - destruct T as [| | | | | | | | | | | | |m]; try (left; apply pa_refl; apply C; [exact HC|discriminate]).
      destruct (Nat.eq_dec m n) as [->|Hne]; [auto|]. left. apply pa_refl, C; [exact HC|congruence].
    - destruct IH as [IH|[->|IH]]; auto.
      assert ({T = TName n} + {T <> TName n}) as [->|Hne].
      { destruct T as [| | | | | | | | | | | | |m]; try (right; discriminate). destruct (Nat.eq_dec m n) as [->|Hne]; [left; reflexivity|right; congruence]. }
      + right. right. exists V. auto.
      + left. eapply pa_step; eauto.
  Qed.

  Lemma mem_in n l : mem n l = true <-> In n l.
  Proof. unfold mem. rewrite existsb_exists. split; [intros (x & Hx & He); apply Nat.eqb_eq in He as ->; exact Hx|intros H; exists n; split; [exact H|apply Nat.eqb_refl]]. Qed.

  Lemma unsupported_kind T : unsupported X E T -> has_unmarshal E T = None /\
    match kind_of E T with KPtr _ | KStruct _ _ => True | _ => False end.
  Proof. intros [t [Hu Hk]|id fs f [Hu Hk]|id fs f [Hu Hk]|id fs f g i j [Hu Hk]]; rewrite Hk; auto. Qed.
  Lemma component_kind T V : component E T V -> has_unmarshal E T = None /\
    match kind_of E T with KPtr _ | KStruct _ _ | KSlice _ | KArray _ _ | KMap _ _ => True | _ => False end.
  Proof. intros [t [Hu Hk]|t [Hu Hk]|n t [Hu Hk]|k t [Hu Hk]|k t [Hu Hk]|id fs f [Hu Hk]]; rewrite Hk; auto. Qed.

  (** Success means that every type inside is supported *)
  Lemma compile_ok_path : forall f st T, compile_f X E f st T = ROk tt ->
    forall U, path st T U -> ~ unsupported X E U.
  Proof.
    induction f as [|f IH]; intros st T H U HP HB; cbn [compile_f] in H; [discriminate|].
    assert (clear st T) as HC by (inversion HP; assumption).
    assert (has_unmarshal E T = None) as Hu.
    { inversion HP as [T' C|T' V U' C Hc Hp]; subst; [apply unsupported_kind; exact HB|eapply component_kind; eauto]. }
    rewrite Hu in H.
    assert (forall V, component E T V -> path st V U -> compile_f X E f st V = ROk tt -> False) as K.
    { intros V _ Hp Hv. exact (IH _ _ Hv _ Hp HB). }
    destruct (kind_of E T) as [| | | | | |t'|n t'|k v|t'| |m| |id fs] eqn:Hk;
      try (inversion HP as [T' C|T' V U' C Hc Hp]; subst;
           [apply unsupported_kind in HB as [_ HB]; rewrite Hk in HB; exact HB|apply component_kind in Hc as [_ Hc]; rewrite Hk in Hc; exact Hc]).
    - inversion HP as [T' C|T' V U' C Hc Hp]; subst; [apply unsupported_kind in HB as [_ HB]; rewrite Hk in HB; exact HB|].
      assert (V = t') as -> by (inversion Hc; match goal with HH : plain _ _ _ |- _ => destruct HH end; congruence).
      assert (compile_f X E f st t' = ROk tt \/ kind_of E t' = KUint U8) as [Hv|Hv] by (destruct (kind_of E t') as [| |[]| | | | | | | | | | |]; auto).
      + eapply K; eauto.
      + inversion Hp as [T' C1|T' V U' C1 Hc1 Hp1]; subst; [apply unsupported_kind in HB as [_ HB]; rewrite Hv in HB; exact HB|apply component_kind in Hc1 as [_ Hc1]; rewrite Hv in Hc1; exact Hc1].
    - inversion HP as [T' C|T' V U' C Hc Hp]; subst; [apply unsupported_kind in HB as [_ HB]; rewrite Hk in HB; exact HB|].
      assert (V = t') as -> by (inversion Hc; match goal with HH : plain _ _ _ |- _ => destruct HH end; congruence).
      eapply K; eauto.
    - inversion HP as [T' C|T' V U' C Hc Hp]; subst; [apply unsupported_kind in HB as [_ HB]; rewrite Hk in HB; exact HB|].
      destruct (match has_unmarshal E k with Some _ => _ | None => _ end) as [[]|e'|p|] eqn:Hm; cbn [bind] in H; try discriminate.
      assert (V = k \/ V = v) as [->| ->] by (inversion Hc; match goal with HH : plain _ _ _ |- _ => destruct HH end; intuition congruence); [|eapply K; eauto].
      assert (compile_f X E f st k = ROk tt \/ has_unmarshal E k <> None \/ kind_of E k = KString) as Hv.
      { destruct (has_unmarshal E k); [right; left; discriminate|]. destruct (kind_of E k); auto. }
      destruct Hv as [Hv|Hv]; [eapply K; eauto|].
      inversion Hp as [T' C1|T' V U' C1 Hc1 Hp1]; subst.
      + apply unsupported_kind in HB as [Q HB]. destruct Hv as [Hv|Hv]; [contradiction|rewrite Hv in HB; exact HB].
      + apply component_kind in Hc1 as [Q Hc1]. destruct Hv as [Hv|Hv]; [contradiction|rewrite Hv in Hc1; exact Hc1].
    - destruct (compile_f X E f st t') as [[]|e'|p|] eqn:Hc0; cbn [bind] in H; try discriminate.
      inversion HP as [T' C|T' V U' C Hc Hp]; subst.
      + destruct HB as [t [_ Hk'] Hp|id fs g [_ Hk']|id fs g [_ Hk']|id fs g h i j [_ Hk']]; try congruence.
        replace t with t' in Hp by congruence. apply is_ptr_spec in Hp as [u Hu']. rewrite Hu' in H. discriminate.
      + assert (V = t') as -> by (inversion Hc; match goal with HH : plain _ _ _ |- _ => destruct HH end; congruence). eapply K; eauto.
    - pose proof (struct_name T id fs Hk) as ->.
      destruct (mem id st) eqn:Hm; [exfalso; apply mem_in in Hm; exact (HC id eq_refl Hm)|].
      destruct (compile_fields X E (compile_f X E f (id :: st)) fs) as [[]|e'|p|] eqn:Hc; cbn [bind] in H; try discriminate.
      pose proof (first_dup_has (map fd_key (field_decs X E 0 fs))) as Hd. destruct (first_dup [] (map fd_key (field_decs X E 0 fs))); [discriminate|].
      pose proof (compile_fields_ok _ _ Hc) as HF.
      assert (U = TName id \/ exists V, component E (TName id) V /\ path (id :: st) V U) as [->|(V & Hc1 & Hp)].
      { destruct (path_last st id (TName id) U HP) as [Q|Q]; [|exact Q].
        exfalso. inversion Q as [T' C|T' V U' C]; subst; apply (C id eq_refl); left; reflexivity. }
      + destruct HB as [t [_ Hk']|id' fs' g [_ Hk'] HIn Ig Ha Hs|id' fs' g [_ Hk'] HIn Ig Hs Hq|id' fs' g h i j [_ Hk'] Hg Hh Hij Ig Ih Hkey]; try congruence;
          replace fs' with fs in * by congruence.
        * destruct (HF g HIn Ig) as (_ & N & _). auto.
        * destruct (HF g HIn Ig) as (_ & _ & N). auto.
        * assert (has_dup (map fd_key (field_decs X E 0 fs)) = true) as Q by (apply has_dup_spec; exists i, j, g, h; repeat split; auto). congruence.
      + assert (exists g, In g fs /\ is_ignored g = false /\ V = f_ty g) as (g & HIn & Ig & ->).
        { inversion Hc1 as [t [_ Hk']|t [_ Hk']|n t [_ Hk']|k t [_ Hk']|k t [_ Hk']|id' fs' g [_ Hk'] HIn Ig]; try congruence.
          replace fs' with fs in * by congruence. eauto. }
        destruct (HF g HIn Ig) as (Hv & _). exact (IH _ _ Hv _ Hp HB).
  Qed.

  (** ... and has been compiled *)
  Definition leafy (T : gty) : Prop := has_unmarshal E T <> None \/ kind_of E T = KUint U8 \/ kind_of E T = KString.
  Lemma leafy_end T V : leafy T -> component E T V -> False.
  Proof.
    intros H Hc. apply component_kind in Hc as [Hu Hk]. destruct H as [H|[H|H]]; [contradiction|rewrite H in Hk; exact Hk|rewrite H in Hk; exact Hk].
  Qed.
  Lemma leafy_compiles T st : leafy T -> compile_f X E 1 st T = ROk tt.
  Proof.
    intros H. cbn [compile_f]. destruct (has_unmarshal E T) eqn:Hu; [reflexivity|]. destruct H as [H|[H|H]]; [congruence|rewrite H; reflexivity|rewrite H; reflexivity].
  Qed.
  (** a type whose parts have been compiled, or need not be *)
  Lemma compile_parts f st T V : compile_f X E (S f) st T = ROk tt -> component E T V -> struct_kind (kind_of E T) = false ->
    compile_f X E f st V = ROk tt \/ leafy V.
  Proof.
    intros H Hc Hs. cbn [compile_f] in H. destruct Hc as [t [Hu Hk]|t [Hu Hk]|n t [Hu Hk]|k t [Hu Hk]|k t [Hu Hk]|id fs g [Hu Hk] HIn Ig];
      [..|rewrite Hk in Hs; discriminate]; rewrite Hu, Hk in H.
    - destruct (compile_f X E f st t) as [[]|e|p|] eqn:Q; try discriminate. left. reflexivity.
    - destruct (kind_of E t) as [| |[]| | | | | | | | | | |] eqn:Q; auto. right. right. left. exact Q.
    - left. exact H.
    - destruct (has_unmarshal E k) as [n|] eqn:Q; [right; left; congruence|].
      destruct (kind_of E k) eqn:Q1; cbn [bind] in H; try (right; right; right; exact Q1);
        (destruct (compile_f X E f st k) as [[]|e|p|] eqn:Q2; [left; reflexivity|..]; discriminate H).
    - destruct (match has_unmarshal E k with Some _ => _ | None => _ end) as [[]|e|p|]; cbn [bind] in H; try discriminate. left. exact H.
  Qed.
  Lemma compile_visits : forall f st T, compile_f X E f st T = ROk tt ->
    forall U, path st T U -> exists f' st', compile_f X E f' st' U = ROk tt.
  Proof.
    induction f as [|f IH]; intros st T H U HP; [discriminate|].
    assert (forall V, path st V U -> compile_f X E f st V = ROk tt \/ leafy V -> exists f' st', compile_f X E f' st' U = ROk tt) as K.
    { intros V Hp [Hv|Hv]; [exact (IH _ _ Hv _ Hp)|]. destruct Hp as [V C|V W U C Hc _]; [|destruct (leafy_end _ _ Hv Hc)].
      exists 1%nat, st. apply leafy_compiles. exact Hv. }
    destruct HP as [T C|T V U C Hc Hp]; [exists (S f), st; exact H|].
    destruct (struct_kind (kind_of E T)) eqn:Hs.
    - destruct (kind_of E T) as [| | | | | | | | | | | | |id fs] eqn:Hk; try discriminate. pose proof (struct_name T id fs Hk) as ->.
      assert (forall W, component E (TName id) W -> path (id :: st) W U -> exists f' st', compile_f X E f' st' U = ROk tt) as K2.
      { intros W HcW HpW. assert (H' := H). cbn [compile_f] in H'. rewrite (proj1 (component_kind _ _ HcW)), Hk in H'.
        destruct (mem id st) eqn:Hm; [exfalso; apply mem_in in Hm; exact (C id eq_refl Hm)|].
        destruct (compile_fields X E (compile_f X E f (id :: st)) fs) as [[]|e'|p|] eqn:Hf; cbn [bind] in H'; try discriminate.
        inversion HcW as [t [_ Hk']|t [_ Hk']|n t [_ Hk']|k t [_ Hk']|k t [_ Hk']|id' fs' g [_ Hk'] HIn Ig]; try congruence.
        replace fs' with fs in * by congruence. subst W. eapply IH; [|exact HpW]. apply (compile_fields_ok _ _ Hf g HIn Ig). }
      destruct (path_last st id V U Hp) as [Q|[->|(W & HcW & Q)]]; [eapply K2; eauto| |eapply K2; eauto].
      exists (S f), st. exact H.
    - apply (K V Hp). exact (compile_parts f st T V H Hc Hs).
  Qed.

  (** Parts of types that are not structs *)
  Definition piece (V U : gty) : Prop := component E U V /\ struct_kind (kind_of E U) = false.
  Lemma compile_acc : forall f st T, compile_f X E f st T = ROk tt -> Acc piece T.
  Proof.
    induction f as [|f IH]; intros st T H; [discriminate|]. constructor. intros V [Hc Hs].
    destruct (compile_parts f st T V H Hc Hs) as [Hv|Hv]; [eapply IH; exact Hv|].
    constructor. intros W [Hw _]. destruct (leafy_end _ _ Hv Hw).
  Qed.
  Lemma within_first U W : within_ty E U W -> exists V, piece V U /\ (V = W \/ within_ty E V W).
  Proof.
    induction 1 as [V Hc Hs|V W H (V0 & H0 & IH) Hc Hs]; [exists V; split; [split; assumption|auto]|].
    exists V0. split; [exact H0|]. right. destruct IH as [->|IH]; [apply wi_step; assumption|eapply wi_more; eassumption].
  Qed.
  Lemma acc_within U : Acc piece U -> ~ within_ty E U U.
  Proof.
    induction 1 as [U _ IH]. intros H. destruct (within_first U U H) as (V & HV & Q). apply (IH V HV).
    destruct Q as [->|Q]; [exact H|]. destruct HV as [Hc Hs]. eapply wi_more; eassumption.
  Qed.

  Lemma compile_supported f T : compile_f X E f [] T = ROk tt -> supported X E T.
  Proof.
    intros H. split; intros U HU.
    - eapply compile_ok_path; [exact H|]. apply path_nil. exact HU.
    - destruct (compile_visits f [] T H U (path_nil T U HU)) as (f' & st' & HU'). apply acc_within. eapply compile_acc. exact HU'.
  Qed.
End Rejects.

(** ** Termination *)
Section Terminates.
  Context (X : Ext) (E : env).

  Definition unvisited (st : list nat) : nat := length (filter (fun n => negb (mem n st)) (seq 0 (length E))).
  Lemma filter_le {A} (p q : A -> bool) l : (forall x, p x = true -> q x = true) ->
    (length (filter p l) <= length (filter q l))%nat.
  Proof.
    intros H. induction l as [|x l IH]; cbn; [lia|]. destruct (p x) eqn:Ep; [rewrite (H _ Ep); cbn; lia|].
    destruct (q x); cbn; lia.
  Qed.
  Lemma filter_lt {A} (p q : A -> bool) l y : (forall x, p x = true -> q x = true) -> In y l -> q y = true -> p y = false ->
    (length (filter p l) < length (filter q l))%nat.
  Proof.
    intros H. induction l as [|x l IH]; intros HIn Hq Hp; [destruct HIn|]. cbn.
    destruct HIn as [->|HIn].
    - rewrite Hq, Hp. cbn. pose proof (filter_le p q l H). lia.
    - specialize (IH HIn Hq Hp). destruct (p x) eqn:Ep; [rewrite (H _ Ep); cbn; lia|]. destruct (q x); cbn; lia.
  Qed.
  Lemma unvisited_lt id st d : nth_error E id = Some d -> mem id st = false -> (unvisited (id :: st) < unvisited st)%nat.
  Proof.
    intros Hn Hm. apply filter_lt with (y := id).
    - intros x. cbn. destruct (Nat.eqb x id); [discriminate|auto].
    - apply in_seq. assert (id < length E)%nat by (apply nth_error_Some; congruence). lia.
    - rewrite Hm. reflexivity.
    - cbn. rewrite Nat.eqb_refl. reflexivity.
  Qed.

  Lemma fields_terminate st fs :
    (forall f, In f fs -> is_ignored f = false -> exists n, compile_f X E n st (f_ty f) <> RFuel) ->
    exists n, compile_fields X E (compile_f X E n st) fs <> RFuel.
  Proof.
    induction fs as [|f fs IH]; intros H; [exists 0%nat; discriminate|].
    destruct IH as [n2 H2]; [intros g Hg; apply H; right; exact Hg|].
    destruct (is_ignored f) eqn:Hi; [exists n2; cbn [compile_fields]; rewrite Hi; exact H2|].
    destruct (H f (or_introl eq_refl) Hi) as [n1 H1].
    exists (Nat.max n1 n2). cbn [compile_fields].
    pose proof (compile_mono X E n1 st (f_ty f) H1 (Nat.max n1 n2) ltac:(lia)) as E1.
    pose proof (compile_fields_mono X E (compile_f X E n2 st) (compile_f X E (Nat.max n1 n2) st) fs) as E2.
    rewrite E2; [|intros t Ht; apply compile_mono; [exact Ht|lia]|exact H2]. rewrite E1, Hi. destruct (_ && _); [discriminate|].
    destruct (compile_f X E n1 st (f_ty f)); cbn [bind]; try discriminate; [|congruence].
    destruct (_ && _); [discriminate|exact H2].
  Qed.

  Definition sub_tys (k : kind) : list gty :=
    match k with KSlice t | KArray _ t | KPtr t => [t] | KMap k v => [k; v] | _ => [] end.

  (** one level *)
  Lemma compile_level st T : has_unmarshal E T = None ->
    (forall id fs, kind_of E T = KStruct id fs -> mem id st = true \/ forall f, In f fs -> is_ignored f = false -> exists n, compile_f X E n (id :: st) (f_ty f) <> RFuel) ->
    (forall t, In t (sub_tys (kind_of E T)) -> exists n, compile_f X E n st t <> RFuel) ->
    exists n, compile_f X E n st T <> RFuel.
  Proof.
    intros Hu HS HK. destruct (kind_of E T) as [| | | | | |t'|n t'|k v|t'| |m| |id fs] eqn:Hk; cbn [sub_tys In] in HK;
      try (exists 1%nat; cbn [compile_f]; rewrite Hu, Hk; discriminate).
    - destruct (HK t' ltac:(auto)) as [n H]. exists (S n). cbn [compile_f]. rewrite Hu, Hk.
      destruct (kind_of E t') as [| |[]| | | | | | | | | | |]; try discriminate; exact H.
    - destruct (HK t' ltac:(auto)) as [n0 H]. exists (S n0). cbn [compile_f]. rewrite Hu, Hk. exact H.
    - destruct (HK k ltac:(auto)) as [n1 H1]. destruct (HK v ltac:(auto)) as [n2 H2]. exists (S (Nat.max n1 n2)).
      cbn [compile_f]. rewrite Hu, Hk. rewrite (compile_mono X E n1 st k H1) by lia. rewrite (compile_mono X E n2 st v H2) by lia.
      assert ((match has_unmarshal E k with Some _ => ROk tt | None => match kind_of E k with KString => ROk tt | _ => compile_f X E n1 st k end end) <> RFuel) as Q.
      { destruct (has_unmarshal E k); [discriminate|]. destruct (kind_of E k); try discriminate; exact H1. }
      destruct (match has_unmarshal E k with Some _ => _ | None => _ end); cbn [bind]; try discriminate; [exact H2|congruence].
    - destruct (HK t' ltac:(auto)) as [n0 H]. exists (S n0). cbn [compile_f]. rewrite Hu, Hk.
      destruct (compile_f X E n0 st t'); cbn [bind]; try discriminate; [|congruence]. destruct (kind_of E t'); discriminate.
    - destruct (HS id fs eq_refl) as [Hm|HF].
      + exists 1%nat. cbn [compile_f]. rewrite Hu, Hk, Hm. discriminate.
      + destruct (fields_terminate (id :: st) fs HF) as [n0 H]. exists (S n0). cbn [compile_f]. rewrite Hu, Hk.
        destruct (mem id st); [discriminate|]. destruct (compile_fields _ _ _ _); cbn [bind]; try discriminate; [|congruence].
        destruct (first_dup _ _); discriminate.
  Qed.

  (** *** No cycles means no endless descent: there are only finitely many types
      inside a type *)
  Fixpoint sub_of (t : gty) : list gty :=
    t :: match t with
         | TSlice t' | TArray _ t' | TPtr t' => sub_of t'
         | TMap k v => sub_of k ++ sub_of v
         | _ => []
         end.
  Lemma sub_self t : In t (sub_of t).
  Proof. destruct t; left; reflexivity. Qed.
  Lemma sub_trans t : forall u, In u (sub_of t) -> incl (sub_of u) (sub_of t).
  Proof.
    induction t as [|ik|uk| | | |t IHt|n t IHt|kt IHkt vt IHvt|t IHt| |m| |n]; intros u [<-|Hu]; try (intros x Hx; exact Hx); try destruct Hu;
      try (intros x Hx; right; exact (IHt _ Hu _ Hx)).
    intros x Hx. right. apply in_app_iff in Hu as [Hu|Hu]; apply in_app_iff; [left; exact (IHkt _ Hu _ Hx)|right; exact (IHvt _ Hu _ Hx)].
  Qed.
  Lemma kind0_sub t U : In U (sub_tys (kind0 t)) -> In U (sub_of t).
  Proof.
    destruct t; cbn; try tauto; intros H; right; repeat destruct H as [<-|H]; try apply sub_self; try destruct H; apply in_app_iff; [left|right]; apply sub_self.
  Qed.
  Definition all_types (T : gty) : list gty :=
    sub_of T ++ flat_map (fun d => match d_under d with UStruct fs => flat_map (fun f => sub_of (f_ty f)) fs | UTy t => sub_of t end) E.
  Lemma all_types_closed T U V : In U (all_types T) -> component E U V -> In V (all_types T).
  Proof.
    intros HU Hc.
    assert (In V (sub_tys (kind_of E U)) \/ exists id fs f, kind_of E U = KStruct id fs /\ In f fs /\ V = f_ty f) as Q.
    { destruct Hc as [t [Hu Hk]|t [Hu Hk]|n t [Hu Hk]|k t [Hu Hk]|k t [Hu Hk]|id fs g [Hu Hk] HIn Ig]; rewrite Hk; cbn; eauto 8. }
    assert (forall W, In W (sub_of U) -> In W (all_types T)) as K.
    { intros W HW. unfold all_types in *. apply in_app_iff in HU as [HU|HU]; apply in_app_iff.
      - left. exact (sub_trans _ _ HU _ HW).
      - right. apply in_flat_map in HU as (d & Hd & HU). apply in_flat_map. exists d. split; [exact Hd|].
        destruct (d_under d) as [fs|t]; [|exact (sub_trans _ _ HU _ HW)]. apply in_flat_map in HU as (f & Hf & HU). apply in_flat_map. exists f.
        split; [exact Hf|exact (sub_trans _ _ HU _ HW)]. }
    destruct U as [| | | | | | | | | | | | |n];
      try (destruct Q as [Q|(id & fs & f & Q & _)]; [|discriminate Q]; apply K, kind0_sub, Q).
    cbn [kind_of] in Q. destruct (nth_error E n) as [d|] eqn:En; [|destruct Q as [[]|(id & fs & f & Q & _)]; discriminate Q].
    apply in_app_iff. right. apply in_flat_map. exists d. split; [eapply nth_error_In; exact En|].
    destruct (d_under d) as [fs|t].
    - destruct Q as [[]|(id & fs' & f & Q & HIn & ->)]. injection Q as _ ->. apply in_flat_map. exists f. split; [exact HIn|apply sub_self].
    - destruct Q as [Q|(id & fs & f & Q & _)]; [apply kind0_sub, Q|destruct t; discriminate Q].
  Qed.

  Lemma grounded_acc T : grounded E T -> Acc (piece E) T.
  Proof.
    intros Hg.
    assert (forall k seen U, (length (all_types T) < k + length (U :: seen))%nat -> NoDup (U :: seen) -> incl (U :: seen) (all_types T) ->
      inside E T U -> (forall W, In W seen -> within_ty E W U) -> Acc (piece E) U) as G.
    { induction k as [|k IH]; intros seen U Hk Hnd Hi HT Hw.
      - exfalso. pose proof (NoDup_incl_length Hnd Hi). lia.
      - constructor. intros V [Hc Hs].
        assert (inside E T V) as HV by (eapply in_step; eassumption).
        assert (forall W, In W (U :: seen) -> within_ty E W V) as Hw'.
        { intros W [<-|HW]; [apply wi_step; assumption|]. eapply wi_more; [apply Hw; exact HW|exact Hc|exact Hs]. }
        apply (IH (U :: seen) V).
        + cbn [length] in *. lia.
        + constructor; [|exact Hnd]. intros HIn. exact (Hg V HV (Hw' V HIn)).
        + intros W [<-|HW]; [|apply Hi; exact HW]. eapply all_types_closed; [apply Hi; left; reflexivity|exact Hc].
        + exact HV.
        + exact Hw'. }
    apply (G (S (length (all_types T))) []); cbn [length]; [lia|constructor; [intros []|constructor]| |apply in_refl|intros W []].
    intros W [<-|[]]. apply in_app_iff. left. apply sub_self.
  Qed.
  Lemma supported_inside T U : supported X E T -> inside E T U -> supported X E U.
  Proof. intros [Hs Hg] HU. split; intros V HV; [apply Hs|apply Hg]; eapply inside_trans; eassumption. Qed.
  Lemma grounded_component T U : grounded E T -> component E T U -> grounded E U.
  Proof. intros Hg Hc V HV. apply Hg. eapply inside_head; eassumption. Qed.

  Lemma sub_component T U : has_unmarshal E T = None -> In U (sub_tys (kind_of E T)) -> component E T U /\ struct_kind (kind_of E T) = false.
  Proof.
    intros Hu H. destruct (kind_of E T) as [| | | | | |t'|n t'|k v|t'| |m| |id fs] eqn:Hk; try destruct H as [<-|H]; try destruct H; split; try reflexivity.
    - eapply co_slice; split; eassumption.
    - eapply co_array; split; eassumption.
    - eapply co_key; split; eassumption.
    - subst. eapply co_val; split; eassumption.
    - contradiction.
    - eapply co_ptr; split; eassumption.
  Qed.
  Lemma compile_terminates T : grounded E T -> exists n, compile_f X E n [] T <> RFuel.
  Proof.
    assert (forall k st, (unvisited st <= k)%nat -> forall t, Acc (piece E) t -> grounded E t -> exists n, compile_f X E n st t <> RFuel) as G.
    { induction k as [k IHk] using lt_wf_ind. intros st Hst t Ha. induction Ha as [t _ IHt]. intros Hg.
      destruct (has_unmarshal E t) eqn:Hu; [exists 1%nat; cbn [compile_f]; rewrite Hu; discriminate|].
      apply compile_level; [exact Hu| |].
      - intros id fs Hk. pose proof (struct_name E _ _ _ Hk) as ->. destruct (mem id st) eqn:Hm; [auto|right].
        intros f HIn Hi. assert (component E (TName id) (f_ty f)) as Hc by (eapply co_field; eauto; split; eauto).
        assert (exists d, nth_error E id = Some d) as [d En] by (cbn in Hk; destruct (nth_error E id) as [d|]; [eauto|discriminate]).
        pose proof (unvisited_lt id st d En Hm) as Hlt.
        assert (grounded E (f_ty f)) as Hg' by (eapply grounded_component; eassumption).
        apply (IHk (unvisited (id :: st))); [lia|lia|apply grounded_acc; exact Hg'|exact Hg'].
      - intros u Hu'. assert (component E t u /\ struct_kind (kind_of E t) = false) as [Hc Hs].
        { apply sub_component; assumption. }
        apply IHt; [split; assumption|]. eapply grounded_component; eassumption. }
    intros Hg. apply (G (unvisited []) [] (le_n _)); [apply grounded_acc; exact Hg|exact Hg].
  Qed.

  (** the condition on all declarations is sufficient *)
  Lemma ranked_grounded T : ranked E -> grounded E T.
  Proof.
    intros (r & Hr).
    set (top := fix top l := match l with [] => 0%nat | n :: l => Nat.max (S (r n)) (top l) end).
    assert (forall l m, In m l -> (r m < top l)%nat) as T1.
    { induction l as [|a l IH]; intros m []; cbn [top]; [subst; lia|]. specialize (IH m H). lia. }
    assert (forall l k, (forall m, In m l -> (r m < k)%nat) -> (top l <= k)%nat) as T2.
    { induction l as [|a l IH]; intros k H; cbn [top]; [lia|]. pose proof (H a (or_introl eq_refl)). specialize (IH k (fun m Hm => H m (or_intror Hm))). lia. }
    set (size := fix size t := match t with TSlice t' | TArray _ t' | TPtr t' => S (size t') | TMap k v => S (size k + size v) | _ => 0%nat end).
    set (less := fun V U => (top (names V) < top (names U))%nat \/ (top (names V) <= top (names U))%nat /\ (size V < size U)%nat).
    assert (forall U V, component E U V -> struct_kind (kind_of E U) = false -> less V U) as L.
    { intros U V Hc Hs.
      assert (has_unmarshal E U = None /\ In V (sub_tys (kind_of E U))) as [Hu Q].
      { destruct Hc as [t [Hu Hk]|t [Hu Hk]|n t [Hu Hk]|k t [Hu Hk]|k t [Hu Hk]|id fs g [Hu Hk] HIn Ig]; rewrite Hk in *; cbn; auto. discriminate Hs. }
      assert (forall t, In V (sub_tys (kind0 t)) -> incl (names V) (names t) /\ (size V < size t)%nat) as N.
      { intros t. destruct t; cbn; try tauto; intros H; repeat destruct H as [<-|H]; try destruct H; (split; [|lia]); intros x Hx; auto; apply in_app_iff; auto. }
      destruct U as [| | | | | | | | | | | | |n]; try (destruct (N _ Q) as [N1 N2]; right; split; [apply T2; intros m Hm; apply T1, N1, Hm|exact N2]).
      left. cbn in Hu, Q. destruct (nth_error E n) as [d|] eqn:En; [|destruct Q]. destruct (d_unmarshal d) eqn:Hd; [discriminate|].
      destruct (d_under d) as [fs|t] eqn:Ed; [destruct Q|]. destruct (N _ Q) as [N1 _]. cbn [names top].
      assert (top (names V) <= r n)%nat; [|lia]. apply T2. intros m Hm. eapply Hr; eauto. }
    assert (forall U V, within_ty E U V -> less V U) as W.
    { intros U V H. induction H as [V Hc Hs|V W H IH Hc Hs]; [apply L; assumption|]. specialize (L V W Hc Hs). unfold less in *. lia. }
    intros U _ H. specialize (W U U H). unfold less in W. lia.
  Qed.

  (** Exactly the supported types are compiled; of the others, those that do not
      contain themselves are rejected *)
  Lemma compile_iff T : (exists cf, compile_f X E cf [] T = ROk tt) <-> supported X E T.
  Proof.
    split; [intros [cf H]; eapply compile_supported; eauto|]. intros [Hs Hg]. destruct (compile_terminates T Hg) as [n Hn]. exists n.
    destruct (compile_f X E n [] T) as [[]|e|p|] eqn:Ec; [reflexivity|exfalso..].
    - destruct (compile_err X E _ _ _ _ Ec) as (U & HU & HB). exact (Hs U HU HB).
    - exact (compile_nopanic X E _ _ _ _ Ec).
    - congruence.
  Qed.
  Lemma compile_rejects T : grounded E T -> ~ supported X E T -> exists cf e, compile_f X E cf [] T = RErr e.
  Proof.
    intros Hg Hs. destruct (compile_terminates T Hg) as [n Hn]. exists n. destruct (compile_f X E n [] T) as [[]|e|p|] eqn:Ec; [|eauto|..]; exfalso.
    - apply Hs. eapply compile_supported; eauto.
    - exact (compile_nopanic X E _ _ _ _ Ec).
    - congruence.
  Qed.
  Lemma compile_endless T U : (forall V, inside E T V -> ~ unsupported X E V) -> inside E T U -> within_ty E U U -> forall cf, compile_f X E cf [] T = RFuel.
  Proof.
    intros Hs HU Hw cf. destruct (compile_f X E cf [] T) as [[]|e|p|] eqn:Ec; [exfalso..|reflexivity].
    - destruct (compile_supported X E _ _ Ec) as [_ Hg]. exact (Hg U HU Hw).
    - destruct (compile_err X E _ _ _ _ Ec) as (V & HV & HB). exact (Hs V HV HB).
    - exact (compile_nopanic X E _ _ _ _ Ec).
  Qed.
End Terminates.
