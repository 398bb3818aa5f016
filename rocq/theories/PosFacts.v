(** Values inside and outside interfaces, from Repr.v and MarshalFacts.v. *)
From Coq Require Import Strings.String Strings.Byte ZArith List Bool Lia Permutation.
From Verif Require Import Base GoTypes Tags Grammar Denote Memory EncCompile Php Repr EncApi ReprFacts PhpFacts MarshalFacts Positions EncCompileFacts.
Import ListNotations.
Open Scope Z_scope.

Section Pos.
  Context (X : Ext) (E : env) (H : heap).

  Section Policy.
    Context {S : Type} (en : S -> bool -> addr -> S -> Prop).
    Lemma iface_not_bytes t : iface_kind (kind_of E t) = true -> bytes_type t = false.
    Proof. destruct t; try reflexivity. intros; discriminate. Qed.
    Lemma struct_not_bytes t : struct_kind (kind_of E t) = true -> bytes_type t = false.
    Proof. destruct t; try reflexivity. intros; discriminate. Qed.
    Lemma iface_repr s t v p : iface_kind (kind_of E t) = true -> marshaler E t = false ->
      (repr X E H en s t v p <-> inner X E H en s t v p).
    Proof.
      intros Hk Hi. split.
      - intros Q. inversion Q as [|? ? ? ? _ Hb|? ? ? ? _ _ Hs]; subst; [congruence|rewrite (iface_not_bytes t Hk) in Hb; discriminate|].
        inversion Hs; subst; try assumption; try (kinds E; discriminate).
        match goal with A : scalar_repr _ (kind_of E t) _ _ |- _ => apply scalar_shape, plain_not_iface in A; congruence end.
      - intros Q. apply rp_shape; [exact Hi|exact (iface_not_bytes t Hk)|]. apply sh_iface; assumption.
    Qed.
    Lemma iface_elems s t : iface_kind (kind_of E t) = true -> marshaler E t = false ->
      forall l i ps, elems X E H en s false t i l ps <-> elems X E H en s true t i l ps.
    Proof.
      intros Hk Hi l. induction l as [|v l IH]; intros i ps; split; intros Q; inversion Q; subst; try apply el_nil.
      - apply el_cons_in; [apply iface_repr; assumption|apply IH; assumption].
      - apply el_cons; [apply iface_repr; assumption|apply IH; assumption].
    Qed.
    Lemma iface_pairs s k t : iface_kind (kind_of E t) = true -> marshaler E t = false ->
      forall l ps, pairs X E H en s false k t l ps <-> pairs X E H en s true k t l ps.
    Proof.
      intros Hk Hi l. induction l as [|[kv v] l IH]; intros ps; split; intros Q; inversion Q; subst; try apply pa_nil.
      - apply pa_cons_in; [assumption|apply iface_repr; assumption|apply IH; assumption].
      - apply pa_cons; [assumption|apply iface_repr; assumption|apply IH; assumption].
    Qed.
  End Policy.

  (** From inside an interface to outside. *)
  Lemma inner_outside T v p : alike E T -> inner X E H anything tt T v p -> Represents X E H T v p.
  Proof.
    intros Ha. revert v p. induction Ha as [T Hk Hi|T t Hk Hi Ht|T k t Hk Hi Ht|T id fs Hk|T Hk Hi|T t Hk Hi Hti Ha IH]; intros v p Q.
    - apply rp_shape; [exact Hi|destruct T; try reflexivity; discriminate|]. apply sh_scalar.
      inversion Q; subst; try assumption; kinds E; try discriminate; apply plain_not_iface in Hk; congruence.
    - inversion Q; subst; kinds E; try discriminate.
      + match goal with A : scalar_repr _ _ _ _ |- _ => inversion A end.
      + replace t' with t in * by congruence. apply rp_shape; [exact Hi| |]; [destruct T; try reflexivity; destruct T; try reflexivity; destruct k; try reflexivity; injection Hk as <-; discriminate|].
        eapply sh_slice_nil; eassumption.
      + replace t' with t in * by congruence. apply rp_shape; [exact Hi| |]; [destruct T; try reflexivity; destruct T; try reflexivity; destruct k; try reflexivity; injection Hk as <-; discriminate|].
        eapply sh_slice with (s' := tt); [eassumption|eassumption|exact I|]. destruct s'. apply iface_elems; auto.
      + assumption.
      + destruct s'. assumption.
    - assert (bytes_type T = false) as Hb by (destruct T; try reflexivity; discriminate).
      inversion Q; subst; kinds E; try discriminate.
      + match goal with A : scalar_repr _ _ _ _ |- _ => inversion A end.
      + apply rp_shape; [exact Hi|exact Hb|]. eapply sh_map_nil; eassumption.
      + apply rp_shape; [exact Hi|exact Hb|]. eapply sh_map with (s' := tt); [eassumption|eassumption|apply Permutation_refl|exact I|apply pa_nil].
      + apply rp_shape; [exact Hi|exact Hb|]. replace k0 with k in * by congruence. replace t' with t in * by congruence.
        eapply sh_map with (s' := tt); [eassumption|eassumption|eassumption|exact I|]. destruct s'.
        destruct (iface_kind (kind_of E t)) eqn:Qk; [apply iface_pairs; auto|assumption].
    - inversion Q; subst; kinds E; try discriminate; [match goal with A : scalar_repr _ _ _ _ |- _ => inversion A end|assumption].
    - apply iface_repr; assumption.
    - assert (bytes_type T = false) as Hb by (destruct T; try reflexivity; discriminate).
      apply rp_shape; [exact Hi|exact Hb|].
      destruct (iface_kind (kind_of E t)) eqn:Qk; [eapply sh_ptr_iface; eassumption|].
      inversion Q; subst; kinds E; try discriminate.
      + eapply sh_ptr_nil; eassumption.
      + replace t' with t in * by congruence.
        assert (Represents X E H t c p) as Hr by (apply IH; assumption).
        destruct (by_structure (kind_of E t)) eqn:Qb; [|eapply sh_ptr; eassumption].
        assert (shape X E H anything tt t c p) as Hs.
        { inversion Hr as [|? ? ? ? _ Hbb|? ? ? ? _ _ Hs]; subst; [congruence| |exact Hs]. destruct t; try discriminate. }
        destruct (struct_kind (kind_of E t)) eqn:Qs.
        * eapply sh_ptr_struct with (s' := tt); try eassumption. exact I.
        * eapply sh_ptr_direct; eassumption.
      + match goal with A : scalar_repr _ _ _ _ |- _ => inversion A end.
  Qed.

  (** From outside to inside. *)
  Lemma encodable_inside T t : encodable X E T -> einside X E (false, T) (false, t) -> encodable X E t.
  Proof.
    intros [H1 H2] Hi. split.
    - intros u Hu. apply H1. eapply einside_trans; eassumption.
    - intros a k u Ha. apply H2. eapply einside_trans; eassumption.
  Qed.
  Lemma encodable_val T k t : encodable X E T -> marshaler E T = false -> kind_of E T = KMap k t -> encodable X E t.
  Proof. intros He Hi Hk. eapply encodable_inside; [exact He|]. eapply ei_step; [apply ei_refl|]. eapply ep_map; [cbn; assumption|exact Hk]. Qed.
  Lemma encodable_key T k t : encodable X E T -> marshaler E T = false -> kind_of E T = KMap k t -> key_kind (kind_of E k) = true.
  Proof.
    intros He Hi Hk. destruct (key_kind (kind_of E k)) eqn:Q; [reflexivity|]. destruct (proj1 He (false, T)); [apply ei_refl|].
    eapply ue_key; [exact Hi|exact Hk|exact Q].
  Qed.
  Lemma unencodable_mode t : marshaler E t = false -> unencodable X E (false, t) -> unencodable X E (true, t).
  Proof.
    intros Hi Q. destruct Q; cbn [snd] in *.
    - eapply ue_uintptr; [reflexivity|assumption].
    - eapply ue_other; [reflexivity|assumption].
    - eapply ue_ptr; [reflexivity|eassumption|eassumption].
    - eapply ue_key; [reflexivity|eassumption|eassumption].
    - eapply ue_embedded; try eassumption; reflexivity.
    - eapply ue_field_ptr; try eassumption; reflexivity.
    - eapply ue_string; try eassumption; reflexivity.
  Qed.
  Lemma epart_mode t u : marshaler E t = false -> epart X E (false, t) u -> epart X E (true, t) u.
  Proof.
    intros Hi Q. destruct Q; cbn [snd fst] in *.
    - apply ep_ptr; [reflexivity|assumption|assumption].
    - apply ep_slice; [reflexivity|reflexivity|assumption].
    - eapply ep_array; [reflexivity|eassumption].
    - eapply ep_map; [reflexivity|eassumption].
    - eapply ep_field; try eassumption; reflexivity.
  Qed.
  Lemma encodable_elem T t : encodable X E T -> marshaler E T = false -> marshaler E t = false -> kind_of E T = KPtr t ->
    iface_kind (kind_of E t) = false -> encodable X E t.
  Proof.
    intros [H1 H2] Hi Ht Hk Hif.
    assert (einside X E (false, T) (by_structure (kind_of E t), t)) as H0.
    { eapply ei_step; [apply ei_refl|]. apply ep_ptr; [exact Hi|exact Hk|exact Hif]. }
    assert (forall u, einside X E (false, t) u -> u = (false, t) \/ einside X E (false, T) u) as Hin.
    { intros u Hu. induction Hu as [|u w Hu [->|IH] Hp]; [left; reflexivity| |].
      - right. eapply ei_step; [exact H0|]. destruct (by_structure (kind_of E t)); [apply epart_mode; assumption|exact Hp].
      - right. eapply ei_step; eassumption. }
    split.
    - intros u Hu Q. destruct (Hin u Hu) as [->|Hu'].
      + apply (H1 (by_structure (kind_of E t), t) H0). destruct (by_structure (kind_of E t)); [apply unencodable_mode; assumption|exact Q].
      + exact (H1 u Hu' Q).
    - intros a k u Ha Hs Hka. destruct (Hin a Ha) as [->|Ha']; [|exact (H2 a k u Ha' Hs Hka)]. cbn [snd] in Hka.
      rewrite Hka in H0. exact (H2 _ k u H0 Hs Hka).
  Qed.

  Definition lag (s s2 : Z * list addr) : Prop := fst s2 <= fst s + 2 /\ incl (snd s2) (snd s).
  Lemma lag_step s1 s2 b a s1' : lag s1 s2 -> apart_below 998 s1 b a s1' -> exists s2', nested_1000 s2 b a s2' /\ lag s1' s2'.
  Proof.
    intros [Hd Hi] (Hn & Ha & ->). unfold nested_1000. destruct b.
    - eexists. split; [split; [intros Q; exact (Ha (Hi _ Q))|reflexivity]|]. split; [cbn [fst]; lia|].
      intros x [->|Hx]; [left; reflexivity|right; exact (Hi _ Hx)].
    - eexists. split; [split; [lia|reflexivity]|]. split; [cbn [fst]; lia|]. intros x Hx. right. exact (Hi _ Hx).
  Qed.
  Notation sim := (repr_sim X E H (apart_below 998) nested_1000 lag lag_step).
  Lemma sim_repr s s2 t v p : lag s s2 -> repr X E H (apart_below 998) s t v p -> repr X E H nested_1000 s2 t v p.
  Proof. intros Hl Q. exact (proj1 sim _ _ _ _ Q _ Hl). Qed.
  Lemma sim_inner s s2 t v p : lag s s2 -> inner X E H (apart_below 998) s t v p -> inner X E H nested_1000 s2 t v p.
  Proof. intros Hl Q. exact (proj1 (proj2 (proj2 sim)) _ _ _ _ Q _ Hl). Qed.
  Lemma sim_elems s s2 b t i l ps : lag s s2 -> elems X E H (apart_below 998) s b t i l ps -> elems X E H nested_1000 s2 b t i l ps.
  Proof. intros Hl Q. exact (proj1 (proj2 (proj2 (proj2 sim))) _ _ _ _ _ _ Q _ Hl). Qed.
  Lemma sim_pairs s s2 b k t l ps : lag s s2 -> pairs X E H (apart_below 998) s b k t l ps -> pairs X E H nested_1000 s2 b k t l ps.
  Proof. intros Hl Q. exact (proj1 (proj2 (proj2 (proj2 (proj2 sim)))) _ _ _ _ _ _ Q _ Hl). Qed.

  Lemma repr_inside T : alike E T -> forall s s2 v p, encodable X E T -> lag s s2 -> snd s2 = [] ->
    repr X E H (apart_below 998) s T v p -> inner X E H nested_1000 s2 T v p.
  Proof.
    intros Ha. induction Ha as [T Hk Hi|T t Hk Hi Ht|T k t Hk Hi Ht|T id fs Hk|T Hk Hi|T t Hk Hi Hti Ha IH]; intros s s2 v p He Hl Hs2 Q.
    - apply in_scalar. inversion Q as [|? ? ? ? _ Hb|? ? ? ? _ _ Hs]; subst; [congruence|destruct T; try discriminate|].
      inversion Hs; subst; try assumption; kinds E; try discriminate; apply plain_not_iface in Hk; congruence.
    - destruct (iface_kind (kind_of E t)) eqn:Qk.
      + assert (bytes_type T = false) as Hb by (destruct T; try reflexivity; destruct T; try reflexivity; destruct k; try reflexivity; injection Hk as <-; discriminate).
        inversion Q as [|? ? ? ? _ Hb'|? ? ? ? _ _ Hs]; subst; [congruence|congruence|].
        inversion Hs; subst; kinds E; try discriminate.
        * match goal with A : scalar_repr _ _ _ _ |- _ => inversion A end.
        * eapply in_slice_nil; eassumption.
        * replace t' with t in * by congruence. match goal with A : apart_below _ _ _ _ _ |- _ => destruct A as (Hn & Hna & ->) end.
          eapply (in_slice X E H nested_1000 s2 (fst s2, [cell_at X o i])); [eassumption|exact Qk|eassumption| |].
          -- split; [rewrite Hs2; intros []|rewrite Hs2; reflexivity].
          -- apply iface_elems; [exact Qk|auto|]. eapply sim_elems; [|eassumption]. destruct Hl as [Hl1 Hl2]. split; cbn [fst snd]; [lia|].
             intros x [->|[]]. left. reflexivity.
      + assert (v = HSlice None \/ exists o i n, v = HSlice (Some (o, i, n))) as [->|(o & i & n & ->)].
        { inversion Q as [| ? ? ? b _ Hb' Hbs|? ? ? ? _ _ Hs]; subst; [congruence| |].
          - unfold byte_slice in Hbs. destruct v as [| | | | | |[[[o i] n]|]| | | | | |]; try discriminate; eauto.
          - inversion Hs; subst; kinds E; try discriminate; eauto 6.
            match goal with A : scalar_repr _ _ _ _ |- _ => inversion A end. }
        * eapply in_slice_typed_nil; [exact Hk|exact Qk|exact He|]. eapply sim_repr; eassumption.
        * eapply (in_slice_typed X E H nested_1000 s2 (fst s2, [cell_at X o i])); [exact Hk|exact Qk|exact He| |].
          -- split; [rewrite Hs2; intros []|rewrite Hs2; reflexivity].
          -- inversion Q as [| ? ? ? b _ Hb' Hbs|? ? ? ? _ Hb Hs]; subst; [congruence|apply rp_bytes; assumption|].
             apply rp_shape; [assumption|assumption|]. inversion Hs; subst; kinds E; try discriminate.
             ++ match goal with A : scalar_repr _ _ _ _ |- _ => inversion A end.
             ++ replace t' with t in * by congruence. match goal with A : apart_below _ _ _ _ _ |- _ => destruct A as (Hn & Hna & ->) end.
                destruct Hl as [Hl1 Hl2].
                eapply (sh_slice X E H nested_1000 (fst s2, [cell_at X o i]) (fst s2 + 1, [cell_at X o i])); [eassumption|eassumption| |].
                ** split; [cbn [fst]; lia|reflexivity].
                ** eapply sim_elems; [|eassumption]. split; cbn [fst snd]; [lia|]. intros x [->|[]]. left. reflexivity.
    - assert (bytes_type T = false) as Hb by (destruct T; try reflexivity; discriminate).
      inversion Q as [|? ? ? ? _ Hb'|? ? ? ? _ _ Hs]; subst; [congruence|congruence|].
      pose proof (encodable_key T k t He Hi Hk) as Hkk. pose proof (encodable_val T k t He Hi Hk) as Hev.
      inversion Hs; subst; kinds E; try discriminate.
      + match goal with A : scalar_repr _ _ _ _ |- _ => inversion A end.
      + eapply in_map_nil; eassumption.
      + replace k0 with k in * by congruence. replace t' with t in * by congruence.
        match goal with A : apart_below _ _ _ _ _ |- _ => destruct A as (Hn & Hna & ->) end. destruct Hl as [Hl1 Hl2].
        assert (nested_1000 s2 true (map_at X o) (fst s2, [map_at X o])) as Hen by (split; [rewrite Hs2; intros []|rewrite Hs2; reflexivity]).
        destruct m as [|e m].
        * match goal with A : Permutation [] _ |- _ => apply Permutation_nil in A; subst end.
          match goal with A : pairs _ _ _ _ _ _ _ _ [] _ |- _ => inversion A; subst end. eapply in_map_empty; eassumption.
        * eapply in_map; [eassumption|exact Hkk|eassumption|discriminate|right; exact Hev|eassumption|exact Hen|].
          assert (pairs X E H nested_1000 (fst s2, [map_at X o]) false (kind_of E k) t l ps) as Hp.
          { eapply sim_pairs; [|eassumption]. split; cbn [fst snd]; [lia|]. intros x [->|[]]. left. reflexivity. }
          destruct (iface_kind (kind_of E t)) eqn:Qk; [apply iface_pairs; auto|exact Hp].
    - eapply in_struct; [exact Hk|exact He|]. eapply sim_repr; eassumption.
    - apply iface_repr in Q; [|assumption|assumption]. eapply sim_inner; eassumption.
    - assert (bytes_type T = false) as Hb by (destruct T; try reflexivity; discriminate).
      inversion Q as [|? ? ? ? _ Hb'|? ? ? ? _ _ Hs]; subst; [congruence|congruence|].
      destruct (iface_kind (kind_of E t)) eqn:Qk.
      { inversion Hs; subst; kinds E; try discriminate.
        - match goal with A : scalar_repr _ _ _ _ |- _ => inversion A end.
        - eapply sim_inner; eassumption.
        - replace t' with t in * by congruence. congruence.
        - replace t' with t in * by congruence. destruct (kind_of E t); discriminate.
        - replace t' with t in * by congruence. destruct (kind_of E t); discriminate.
        - replace t' with t in * by congruence. congruence. }
      pose proof (encodable_elem T t He Hi Hti Hk Qk) as Het.
      inversion Hs; subst; kinds E; try discriminate.
      + match goal with A : scalar_repr _ _ _ _ |- _ => inversion A end.
      + replace t' with t in * by congruence. congruence.
      + eapply in_ptr_nil; eassumption.
      + replace t' with t in * by congruence. match goal with A : apart_below _ _ _ _ _ |- _ => destruct A as (Hn & Hna & ->) end. destruct Hl as [Hl1 Hl2].
        eapply in_ptr; [eassumption|eassumption|]. eapply IH; [exact Het| |exact Hs2|].
        2: { apply rp_shape; [exact Hti|apply struct_not_bytes; assumption|eassumption]. }
        split; cbn [fst snd]; [lia|]. rewrite Hs2. intros x [].
      + replace t' with t in * by congruence. eapply in_ptr; [eassumption|eassumption|]. eapply IH; [exact Het|exact Hl|exact Hs2|].
        apply rp_shape; [exact Hti| |assumption]. destruct t; try reflexivity. discriminate.
      + replace t' with t in * by congruence. eapply in_ptr; [eassumption|eassumption|]. eapply IH; [exact Het|exact Hl|exact Hs2|assumption].
  Qed.
End Pos.
