(** Looking up what was stored in a map. *)
From Coq Require Import Strings.String Strings.Byte ZArith List Bool Lia Floats.SpecFloat.
From Verif Require Import Base GoTypes Tags Grammar Denote Elements Typing Api NumFacts CompileFacts UnmFacts StoreFacts StructFacts SeqFacts EncCompileFacts MapSpec.
Import ListNotations.
Open Scope Z_scope.

(** ** Key equality is symmetric and transitive (not reflexive: NaN) *)

Lemma gval_size_ind (P : gval -> Prop) : 
  (forall v, (forall l, v = VArr l \/ v = VStruct l -> Forall P l) -> (forall t x, v = VIface (Some (t, x)) -> P x) -> P v) -> forall v, P v.
Proof.
  intros H. fix IH 1. intros v. apply H.
  - intros l. destruct v as [b|z|z|f|f|s|o|l0|o|o|o|l0|]; intros [Q|Q]; try discriminate Q; injection Q as <-;
      induction l0 as [|x l0 IHl]; constructor; [apply IH|exact IHl|apply IH|exact IHl].
  - intros t x. destruct v as [b|z|z|f|f|s|o|l0|o|o|o|l0|]; intros Q; try discriminate Q. destruct o as [[t' x']|]; [|discriminate Q]. injection Q as <- <-. apply IH.
Qed.

Definition sf_same (a b : spec_float) : Prop :=
  match a, b with
  | S754_zero _, S754_zero _ => True
  | S754_nan, _ => False
  | _, _ => a = b
  end.
Lemma sfeqb_same a b : SFeqb a b = true <-> sf_same a b.
Proof.
  unfold SFeqb. destruct a as [s|s| |s m e], b as [s'|s'| |s' m' e']; cbn [SFcompare sf_same];
    try solve [split; [discriminate|intros []]]; try solve [split; [discriminate|discriminate]]; try solve [split; auto];
    try (destruct s; solve [split; discriminate]); try (destruct s'; solve [split; discriminate]); try (destruct s, s'; solve [split; discriminate || auto]).
  destruct s, s'; try solve [split; discriminate].
  - destruct (Z.compare_spec e e') as [->|l|l]; try solve [split; [discriminate|intros [= _ ->]; lia]].
    change (Pos.compare_cont Eq m m') with (Pos.compare m m'). destruct (Pos.compare_spec m m') as [->|l|l]; cbn; split; try discriminate; auto; intros [= ->]; lia.
  - destruct (Z.compare_spec e e') as [->|l|l]; try solve [split; [discriminate|intros [= _ ->]; lia]].
    change (Pos.compare_cont Eq m m') with (Pos.compare m m'). destruct (Pos.compare_spec m m') as [->|l|l]; cbn; split; try discriminate; auto; intros [= ->]; lia.
Qed.
Lemma sf_same_sym a b : sf_same a b -> sf_same b a.
Proof. destruct a, b; cbn; intros h; try contradiction; try congruence; auto. Qed.
Lemma sf_same_trans a b c : sf_same a b -> sf_same b c -> sf_same a c.
Proof. destruct a, b, c; cbn; intros h h'; try congruence; try contradiction; auto. Qed.

Definition klist := fix all (x y : list gval) : bool :=
  match x, y with [], [] => true | u :: x', v :: y' => key_eqb u v && all x' y' | _, _ => false end.
Lemma klist_sym l : Forall (fun x => forall y, key_eqb x y = true -> key_eqb y x = true) l -> forall l', klist l l' = true -> klist l' l = true.
Proof.
  induction 1 as [|x l Hx Hl IH]; intros [|y l'] h; try discriminate h; [reflexivity|].
  cbn in h |- *. apply andb_true_iff in h as [h1 h2]. apply andb_true_iff. split; [exact (Hx y h1)|exact (IH l' h2)].
Qed.
Lemma klist_trans l : Forall (fun x => forall y z, key_eqb x y = true -> key_eqb y z = true -> key_eqb x z = true) l ->
  forall l' l'', klist l l' = true -> klist l' l'' = true -> klist l l'' = true.
Proof.
  induction 1 as [|x l Hx Hl IH]; intros [|y l'] [|z l''] h h'; try discriminate h; try discriminate h'; [reflexivity|].
  cbn in h, h' |- *. apply andb_true_iff in h as [h1 h2]. apply andb_true_iff in h' as [h1' h2'].
  apply andb_true_iff. split; [exact (Hx y z h1 h1')|exact (IH l' l'' h2 h2')].
Qed.
Lemma bytes_eqb_sym a b : bytes_eqb a b = true -> bytes_eqb b a = true.
Proof. rewrite !bytes_eqb_eq. auto. Qed.
Lemma key_eqb_sym : forall a b, key_eqb a b = true -> key_eqb b a = true.
Proof.
  intros a. induction a as [a IHl IHi] using gval_size_ind. intros b.
  destruct a as [x|x|x|x|x|x|o|l|o|o|o|l|]; destruct b as [y|y|y|y|y|y|o'|l'|o'|o'|o'|l'|]; cbn; intros h;
    try discriminate h; try (repeat match goal with o : option _ |- _ => destruct o | p : (_ * _)%type |- _ => destruct p end; discriminate h).
  - destruct x, y; auto.
  - rewrite Z.eqb_sym. exact h.
  - rewrite Z.eqb_sym. exact h.
  - apply sfeqb_same, sf_same_sym, sfeqb_same, h.
  - apply sfeqb_same, sf_same_sym, sfeqb_same, h.
  - apply bytes_eqb_sym, h.
  - exact (klist_sym l (IHl l (or_introl eq_refl)) l' h).
  - destruct o, o'; try discriminate h. reflexivity.
  - destruct o as [[t x]|], o' as [[t' x']|]; try discriminate h; [|reflexivity]. apply andb_true_iff in h as [h1 h2].
    apply andb_true_iff. split; [apply gty_eqb_eq; symmetry; apply gty_eqb_eq, h1|exact (IHi t x eq_refl x' h2)].
  - exact (klist_sym l (IHl l (or_intror eq_refl)) l' h).
Qed.
Lemma key_eqb_trans : forall a b c, key_eqb a b = true -> key_eqb b c = true -> key_eqb a c = true.
Proof.
  intros a. induction a as [a IHl IHi] using gval_size_ind. intros b c.
  destruct a as [x|x|x|x|x|x|o|l|o|o|o|l|]; destruct b as [y|y|y|y|y|y|o'|l'|o'|o'|o'|l'|]; cbn; intros h;
    try discriminate h; try (repeat match goal with o : option _ |- _ => destruct o | p : (_ * _)%type |- _ => destruct p end; discriminate h);
    destruct c as [z|z|z|z|z|z|o''|l''|o''|o''|o''|l''|]; intros h';
    try discriminate h'; try (repeat match goal with o : option _ |- _ => destruct o | p : (_ * _)%type |- _ => destruct p end; discriminate h || discriminate h').
  - destruct x, y, z; auto.
  - apply Z.eqb_eq in h, h'. apply Z.eqb_eq. congruence.
  - apply Z.eqb_eq in h, h'. apply Z.eqb_eq. congruence.
  - apply sfeqb_same. eapply sf_same_trans; apply sfeqb_same; eassumption.
  - apply sfeqb_same. eapply sf_same_trans; apply sfeqb_same; eassumption.
  - apply bytes_eqb_eq in h, h'. apply bytes_eqb_eq. congruence.
  - exact (klist_trans l (IHl l (or_introl eq_refl)) l' l'' h h').
  - destruct o, o', o''; try discriminate h; try discriminate h'. reflexivity.
  - destruct o as [[t x]|], o' as [[t' x']|], o'' as [[t'' x'']|]; try discriminate h; try discriminate h'; [|reflexivity].
    apply andb_true_iff in h as [h1 h2]. apply andb_true_iff in h' as [h1' h2']. apply gty_eqb_eq in h1, h1'.
    apply andb_true_iff. split; [apply gty_eqb_eq; congruence|exact (IHi t x eq_refl x' x'' h2 h2')].
  - exact (klist_trans l (IHl l (or_intror eq_refl)) l' l'' h h').
Qed.

Lemma key_eqb_cong a b q : key_eqb a b = true -> key_eqb a q = key_eqb b q.
Proof.
  intros h. destruct (key_eqb a q) eqn:A, (key_eqb b q) eqn:B; try reflexivity.
  - rewrite (key_eqb_trans b a q (key_eqb_sym _ _ h) A) in B. discriminate B.
  - rewrite (key_eqb_trans a b q h B) in A. discriminate A.
Qed.
Lemma at_key_set q k v m : at_key q (map_set k v m) = if key_eqb k q then Some v else at_key q m.
Proof.
  unfold at_key. induction m as [|[k' v'] m IH]; cbn [map_set find fst].
  - destruct (key_eqb k q); reflexivity.
  - destruct (key_eqb k' k) eqn:Q; cbn [find fst].
    + rewrite (key_eqb_cong k' k q Q). destruct (key_eqb k q); reflexivity.
    + destruct (key_eqb k' q) eqn:Q'; [|exact IH]. destruct (key_eqb k q) eqn:Q''; [|reflexivity].
      rewrite (key_eqb_trans k' q k Q' (key_eqb_sym _ _ Q'')) in Q. discriminate Q.
Qed.
Lemma at_key_app q a b : at_key q (a ++ b) = match at_key q a with Some x => Some x | None => at_key q b end.
Proof. unfold at_key. induction a as [|[k v] a IH]; [reflexivity|]. cbn [app find fst]. destruct (key_eqb k q); [reflexivity|exact IH]. Qed.

Lemma map_entries_lookup K V m es m' : map_entries K V m es m' ->
  exists kvs, Forall2 (fun e d => K (fst e) (fst d) /\ V (snd e) (snd d)) es kvs /\
    forall q, at_key q m' = match at_key q (rev kvs) with Some x => Some x | None => at_key q m end.
Proof.
  induction 1 as [m|m k p es kv vv m' Hk Hv _ _ (kvs & F & L)]; [exists []; split; [constructor|reflexivity]|].
  exists ((kv, vv) :: kvs). split; [constructor; [split; assumption|exact F]|]. intros q. rewrite L, at_key_set. cbn [rev]. rewrite at_key_app.
  unfold at_key at 4. cbn [find fst]. destruct (at_key q (rev kvs)); [reflexivity|]. destruct (key_eqb kv q); reflexivity.
Qed.
Lemma map_entries_exists K V : forall es m, Forall (fun e => exists kv vv, K (fst e) kv /\ V (snd e) vv /\ hashable kv = true) es ->
  exists m', map_entries K V m es m'.
Proof.
  induction es as [|[k p] es IH]; intros m F; [exists m; constructor|]. inversion F as [|? ? (kv & vv & A & B & C) F']; subst.
  destruct (IH (map_set kv vv m) F') as (m' & M). exists m'. eapply me_cons; eauto.
Qed.
