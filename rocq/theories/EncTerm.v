(** Compilation by the encoder ends exactly if no array type contains itself. *)
From Coq Require Import Strings.String Strings.Byte ZArith List Bool Lia.
From Verif Require Import Base GoTypes Tags EncCompile Encode Php Repr EncCompileFacts.
Import ListNotations.
Open Scope Z_scope.

Fixpoint subs (t : gty) : list gty :=
  t :: match t with
       | TSlice t' | TArray _ t' | TPtr t' => subs t'
       | TMap k v => subs k ++ subs v
       | _ => []
       end.

Lemma subs_self t : In t (subs t).
Proof. destruct t; left; reflexivity. Qed.
Lemma subs_trans a : forall b c, In b (subs a) -> In c (subs b) -> In c (subs a).
Proof.
  induction a; intros b c Hb Hc; cbn [subs] in Hb; destruct Hb as [<-|Hb]; try exact Hc; try destruct Hb.
  - right. eapply IHa; eauto.
  - right. eapply IHa; eauto.
  - right. apply in_app_iff in Hb. apply in_app_iff. destruct Hb; [left; eapply IHa1|right; eapply IHa2]; eauto.
  - right. eapply IHa; eauto.
Qed.
Lemma subs_kind0 t : match kind0 t with
  | KSlice u | KArray _ u | KPtr u => In u (subs t)
  | KMap k u => In k (subs t) /\ In u (subs t)
  | _ => True
  end.
Proof.
  destruct t; cbn [kind0]; auto; try (right; apply subs_self).
  split; right; apply in_app_iff; [left|right]; apply subs_self.
Qed.

Section Term.
  Context (X : Ext) (E : env).
  Notation comp := (ecompile_f X E).

  Definition ends (n : node) : Prop := forall S, exists f, comp f (fst n) S (snd n) <> RFuel.

  (** *** Only finitely many types are inside a type *)
  Section Universe.
    Context (t0 : gty).
    Definition univ : list gty :=
      subs t0 ++ flat_map (fun d => match d_under d with UStruct fs => flat_map (fun f => subs (f_ty f)) fs | UTy t => subs t end) E.

    Lemma univ_sub t u : In t univ -> In u (subs t) -> In u univ.
    Proof.
      intros H Hu. apply in_app_iff in H as [H|H]; apply in_app_iff.
      - left. eapply subs_trans; eauto.
      - right. apply in_flat_map in H as (d & Hd & H). apply in_flat_map. exists d. split; [exact Hd|].
        destruct (d_under d) as [fs|t']; [|eapply subs_trans; eauto]. apply in_flat_map in H as (f & Hf & H). apply in_flat_map. exists f.
        split; [exact Hf|]. eapply subs_trans; eauto.
    Qed.
    Lemma univ_kind t : In t univ ->
      match kind_of E t with
      | KSlice u | KArray _ u | KPtr u => In u univ
      | KMap k u => In k univ /\ In u univ
      | KStruct _ fs => forall f, In f fs -> In (f_ty f) univ
      | _ => True
      end.
    Proof.
      intros H.
      assert (forall t', In t' univ -> match kind0 t' with KSlice u | KArray _ u | KPtr u => In u univ | KMap k u => In k univ /\ In u univ | _ => True end) as K.
      { intros t' Ht'. pose proof (subs_kind0 t') as Q. destruct (kind0 t'); try exact I; try (eapply univ_sub; eassumption).
        destruct Q as [Q1 Q2]. split; eapply univ_sub; eassumption. }
      destruct t as [| | | | | | | | | | | | |n]; try exact (K _ H). cbn [kind_of]. destruct (nth_error E n) as [d|] eqn:Hd; [|exact I].
      apply nth_error_In in Hd.
      destruct (d_under d) as [fs|t'] eqn:Hu.
      - intros f Hf. apply in_app_iff. right. apply in_flat_map. exists d. split; [exact Hd|]. rewrite Hu. apply in_flat_map. exists f. split; [exact Hf|apply subs_self].
      - assert (In t' univ) as Ht'.
        { apply in_app_iff. right. apply in_flat_map. exists d. split; [exact Hd|]. rewrite Hu. apply subs_self. }
        pose proof (K _ Ht') as Q. destruct t'; exact Q.
    Qed.
    Lemma univ_part n c : In (snd n) univ -> epart X E n c -> In (snd c) univ.
    Proof.
      intros H Hp. pose proof (univ_kind _ H) as Q. destruct Hp as [u Hs Hk Hi|u Hs Hb Hk|k u Hs Hk|k u Hs Hk|id fs f Hs Hk Hf Hw Ht]; rewrite Hk in Q; cbn [snd]; try exact Q.
      - exact (proj2 Q).
      - specialize (Q f Hf). unfold elem_or_self. pose proof (univ_kind _ Q) as Q'. destruct (kind_of E (f_ty f)); auto.
    Qed.
    Lemma univ_inside n c : In (snd n) univ -> einside X E n c -> In (snd c) univ.
    Proof. intros H. induction 1 as [|u w Hu IH Hw]; [exact H|]. eapply univ_part; eassumption. Qed.

    Definition unseen (S : list gty) : nat := length (filter (fun t => negb (mem_ty t S)) univ).
    Lemma unseen_incl S S' : incl S S' -> (unseen S' <= unseen S)%nat.
    Proof.
      intros Hi. unfold unseen. induction univ as [|t l IH]; cbn [filter]; [lia|].
      destruct (mem_ty t S) eqn:Q; cbn [negb].
      - assert (mem_ty t S' = true) as -> by (apply mem_ty_in, Hi, mem_ty_in, Q). exact IH.
      - destruct (mem_ty t S'); cbn [negb length]; lia.
    Qed.
    Lemma unseen_add S t : In t univ -> ~ In t S -> (unseen (t :: S) < unseen S)%nat.
    Proof.
      intros Hu Hn. unfold unseen. revert Hu. induction univ as [|u l IH]; intros Hu; [destruct Hu|]. cbn [filter].
      assert (forall l0, (length (filter (fun t1 => negb (mem_ty t1 (t :: S))) l0) <= length (filter (fun t1 => negb (mem_ty t1 S)) l0))%nat) as Hle.
      { induction l0 as [|x l0 IHl]; cbn [filter]; [lia|]. unfold mem_ty at 1. cbn [existsb]. fold (mem_ty x S).
        destruct (gty_eqb x t); cbn [orb negb]; destruct (mem_ty x S); cbn [negb length]; lia. }
      destruct Hu as [->|Hu].
      - assert (mem_ty t (t :: S) = true) as -> by (apply mem_ty_in; left; reflexivity).
        assert (mem_ty t S = false) as -> by (apply mem_ty_out; exact Hn). cbn [negb length]. specialize (Hle l). lia.
      - specialize (IH Hu). unfold mem_ty at 1. cbn [existsb]. fold (mem_ty u S).
        destruct (gty_eqb u t); cbn [orb negb]; destruct (mem_ty u S); cbn [negb length]; try lia.
    Qed.

  End Universe.

  (** *** Descent ends if it ends in the elements of arrays *)
  Section Level.
    Context (n0 : node).
    Hypothesis arrays : forall a k u, einside X E n0 a -> speaks E a = false -> kind_of E (snd a) = KArray k u -> ends (false, u).
    Notation unseen := (unseen (snd n0)).

    Lemma fields_end N fs :
      (forall t S, einside X E n0 (false, t) -> (unseen S <= N)%nat -> exists f, comp f false S t <> RFuel) ->
      (forall f, In f fs -> written_field X f = true -> tag_string (tag_of X f) = false -> einside X E n0 (false, elem_or_self E (f_ty f))) ->
      forall S, (unseen S <= N)%nat -> exists f, ecompile_fields X E (comp f false) S fs <> RFuel.
    Proof.
      intros Hc. induction fs as [|f fs IH]; intros Hin S HS; cbn [ecompile_fields]; [exists 0%nat; discriminate|].
      specialize (IH (fun g Hg => Hin g (or_intror Hg))).
      destruct (enc_skipped X f) eqn:Hsk; [apply IH; exact HS|].
      destruct (match kind_of E (f_ty f) with KPtr _ => _ | _ => _ end); [exists 0%nat; discriminate|].
      destruct (_ && _); [exists 0%nat; discriminate|]. destruct (tag_string (tag_of X f)) eqn:Hst.
      { destruct (as_string_kind _); [apply IH; exact HS|exists 0%nat; discriminate]. }
      fold (elem_or_self E (f_ty f)).
      assert (einside X E n0 (false, elem_or_self E (f_ty f))) as Hu.
      { apply Hin; [left; reflexivity| |exact Hst]. rewrite written_eq, Hsk. reflexivity. }
      destruct (Hc _ S Hu HS) as (f1 & Hf1).
      destruct (comp f1 false S (elem_or_self E (f_ty f))) as [S1|e|p|] eqn:H1; [| | |congruence].
      - pose proof (comp_incl X E _ _ _ _ H1) as Hi.
        destruct (IH S1) as (f2 & Hf2). { pose proof (unseen_incl (snd n0) _ _ Hi). lia. }
        exists (Nat.max f1 f2). rewrite (ecompile_mono X E f1 false S (elem_or_self E (f_ty f))) by (congruence || lia). rewrite H1. cbn [bind].
        rewrite (ecompile_fields_mono X E (comp f2 false) (comp (Nat.max f1 f2) false)); [exact Hf2| |exact Hf2].
        intros s t Hn. apply ecompile_mono; [exact Hn|lia].
      - exists f1. rewrite H1. discriminate.
      - exists f1. rewrite H1. discriminate.
    Qed.

    Lemma level_ends : forall N n S, einside X E n0 n -> (unseen S <= N)%nat -> exists f, comp f (fst n) S (snd n) <> RFuel.
    Proof.
      assert (In (snd n0) (univ (snd n0))) as H0 by (apply in_app_iff; left; apply subs_self).
      induction N as [N IHN] using lt_wf_ind.
      assert (forall t S, In t (univ (snd n0)) -> ~ In t S -> (unseen S <= N)%nat ->
              forall t', einside X E n0 (false, t') -> exists f, comp f false (t :: S) t' <> RFuel) as Hdown.
      { intros t S Ht Hn HS t' Ht'. pose proof (unseen_add (snd n0) S t Ht Hn). exact (IHN (unseen (t :: S)) ltac:(lia) (false, t') (t :: S) Ht' (le_n _)). }
      assert (forall n S, einside X E n0 n -> (unseen S <= N)%nat -> ptr_kind (kind_of E (snd n)) = false -> exists f, comp f (fst n) S (snd n) <> RFuel) as Hnp.
      { intros [b t] S Hn HS Hp. cbn [fst snd] in *. pose proof (univ_inside (snd n0) _ _ H0 Hn) as Ht. cbn [snd] in Ht.
        enough (exists f, comp (Datatypes.S f) b S t <> RFuel) as (f & Hf) by (exists (Datatypes.S f); exact Hf).
        cbn [ecompile_f]. rewrite implements_eq, is_bytes_eq.
        destruct (negb b && marshaler E t) eqn:Him; [exists 0%nat; discriminate|].
        destruct (negb b && bytes_type t) eqn:Hby; [exists 0%nat; discriminate|].
        assert (speaks E (b, t) = false) as Hsp by (unfold speaks; cbn [fst snd]; destruct b; [reflexivity|exact Him]).
        assert (b || negb (bytes_type t) = true) as Hbf.
        { destruct b; [reflexivity|]. cbn in Hby |- *. rewrite Hby. reflexivity. }
        destruct (kind_of E t) as [|k|k| | | |t'|n t'|k v|t'| |m| |id fs] eqn:Hkt; try (exists 0%nat; discriminate).
        - exists 0%nat. destruct k; discriminate.
        - destruct (mem_ty t S) eqn:Hm; [exists 0%nat; discriminate|]. apply mem_ty_out in Hm. apply Hdown; auto.
          eapply ei_step; [exact Hn|]. apply ep_slice; assumption.
        - destruct (arrays (b, t) n t' Hn Hsp Hkt []) as (f & Hf). exists f. cbn [fst snd] in Hf.
          destruct (comp f false [] t'); cbn [bind]; try discriminate. congruence.
        - destruct (mem_ty t S) eqn:Hm; [exists 0%nat; discriminate|]. apply mem_ty_out in Hm.
          destruct (enc_key_kind _); [|exists 0%nat; discriminate]. apply Hdown; auto. eapply ei_step; [exact Hn|]. eapply ep_map; eassumption.
        - destruct (mem_ty t S) eqn:Hm; [exists 0%nat; discriminate|]. apply mem_ty_out in Hm.
          pose proof (unseen_add (snd n0) S t Ht Hm) as Hlt.
          apply (fields_end (unseen (t :: S))); [|intros f Hf Hw Hs; eapply ei_step; [exact Hn|eapply ep_field; eassumption]|lia].
          intros t1 S1 Ht1 HS1. exact (IHN (unseen (t :: S)) ltac:(lia) (false, t1) S1 Ht1 HS1). }
      intros [b t] S Hn HS. destruct (ptr_kind (kind_of E t)) eqn:Hpt; [|apply (Hnp (b, t)); assumption].
      destruct (kind_of E t) as [| | | | | | | | |t'| | | |] eqn:Hkt; try discriminate Hpt. cbn [fst snd].
      destruct (negb b && marshaler E t) eqn:Him.
      { exists 1%nat. cbn [ecompile_f]. rewrite implements_eq, Him. discriminate. }
      assert (speaks E (b, t) = false) as Hsp by (unfold speaks; cbn [fst snd]; destruct b; [reflexivity|exact Him]).
      enough (exists f, match kind_of E t' with KPtr _ => RErr (EMarshal (CPtr t')) | KAny | KIface _ => ROk S | k => comp f (ptr_direct k) S t' end <> RFuel) as (f & Hf).
      { exists (Datatypes.S f). cbn [ecompile_f]. rewrite implements_eq, Him, Hkt. destruct (negb b && is_bytes t); [discriminate|exact Hf]. }
      destruct (ptr_kind (kind_of E t')) eqn:Hpk; [exists 0%nat; destruct (kind_of E t'); discriminate|].
      destruct (iface_kind (kind_of E t')) eqn:Hif; [exists 0%nat; destruct (kind_of E t'); discriminate|].
      destruct (Hnp (by_structure (kind_of E t'), t') S) as (f & Hf); [|exact HS|exact Hpk|].
      { eapply ei_step; [exact Hn|]. apply ep_ptr; assumption. }
      exists f. cbn [fst snd] in Hf. rewrite <- by_structure_eq in Hf. destruct (kind_of E t'); try discriminate; exact Hf.
    Qed.
  End Level.

  (** *** Arrays that do not contain themselves *)
  Definition elem_below (c n : node) : Prop :=
    exists a k u, einside X E n a /\ speaks E a = false /\ kind_of E (snd a) = KArray k u /\ c = (false, u).
  Lemma ends_acc n : Acc elem_below n -> ends n.
  Proof.
    intros Ha. induction Ha as [n _ IH]. intros S. apply (level_ends n) with (N := unseen (snd n) S); [|apply ei_refl|apply Nat.le_refl].
    intros a k u Hi Hs Hk. apply IH. exists a, k, u. auto.
  Qed.
  Lemma finite_acc t : finite_arrays X E t -> Acc elem_below (false, t).
  Proof.
    intros Hg. set (L := list_prod [true; false] (univ t)).
    assert (forall n, einside X E (false, t) n -> In n L) as HL.
    { intros [b u] Hn. apply in_prod; [destruct b; cbn; auto|]. eapply (univ_inside t (false, t) (b, u)); [|exact Hn]. apply in_app_iff. left. apply subs_self. }
    assert (forall k l n, (length L < k + length l)%nat -> NoDup l -> incl l L -> einside X E (false, t) n ->
      (forall a, In a l -> exists m u, speaks E a = false /\ kind_of E (snd a) = KArray m u /\ einside X E (false, u) n) -> Acc elem_below n) as G.
    { induction k as [|k IH]; intros l n Hk Hnd Hi Hn Hl.
      - exfalso. pose proof (NoDup_incl_length Hnd Hi). lia.
      - constructor. intros c (a & m & u & Ha & Hs & Hka & ->).
        assert (einside X E (false, t) a) as Hta by (eapply einside_trans; eassumption).
        assert (epart X E a (false, u)) as Hpa by (eapply ep_array; eassumption).
        assert (~ In a l) as Hnew.
        { intros HIn. destruct (Hl a HIn) as (m' & u' & _ & Hk' & Hu'). apply (Hg a m' u' Hta Hs Hk'). eapply einside_trans; eassumption. }
        apply (IH (a :: l)).
        + cbn [length]. lia.
        + constructor; assumption.
        + intros x [<-|Hx]; [apply HL; exact Hta|apply Hi; exact Hx].
        + eapply ei_step; eassumption.
        + intros x [<-|Hx]; [exists m, u; split; [exact Hs|split; [exact Hka|apply ei_refl]]|].
          destruct (Hl x Hx) as (m' & u' & H1 & H2 & H3). exists m', u'. split; [exact H1|split; [exact H2|]].
          eapply ei_step; [|exact Hpa]. eapply einside_trans; eassumption. }
    apply (G (S (length L)) []); [cbn [length]; lia|constructor|intros x []|apply ei_refl|intros a []].
  Qed.
End Term.

Theorem compile_ends X E t : finite_arrays X E t -> exists f, ecompile_f X E f false [] t <> RFuel.
Proof. intros Hg. exact (ends_acc X E (false, t) (finite_acc X E t Hg) []). Qed.
Theorem encodable_compiles X E t : encodable X E t ->
  exists f S', ecompile_f X E f false [] t = ROk S'.
Proof.
  intros He. destruct (compile_ends X E t (proj2 He)) as (f & Hf). exists f. apply encodable_accepts; assumption.
Qed.
