(** Calls of Unmarshal that share the context pool do not affect each other. *)
From Coq Require Import Strings.Byte List Permutation PeanoNat Compare_dec Lia.
From Verif Require Import Base GoTypes DecPool.
Import ListNotations.

Lemma set_length {A} i (x : A) l : length (set i x l) = length l.
Proof. revert i. induction l as [|y l IH]; destruct i; cbn; auto. Qed.
Lemma set_same {A} i (x : A) l : i < length l -> nth_error (set i x l) i = Some x.
Proof. revert i. induction l as [|y l IH]; destruct i; cbn; intros H; try lia; auto. apply IH. lia. Qed.
Lemma set_other {A} i j (x : A) l : j <> i -> nth_error (set i x l) j = nth_error l j.
Proof. revert i j. induction l as [|y l IH]; destruct i, j; cbn; intros H; auto; try lia. Qed.
Lemma nth_some_lt {A} (l : list A) i x : nth_error l i = Some x -> i < length l.
Proof. intros H. apply nth_error_Some. congruence. Qed.

(** Context [c] has a buffer with contents [x]. *)
Definition has (w : world) (c : nat) (x : bytes) : Prop :=
  exists b, nth_error (ctxs w) c = Some (Some b) /\ nth_error (bufs w) b = Some x.
Lemma has_buffer w c x : has w c x -> buffer w c = x.
Proof. intros (b & H1 & H2). unfold buffer. rewrite H1, H2. reflexivity. Qed.
(** No context has buffer [b] any more. *)
Definition retired (w : world) (b : nat) : Prop := b < length (bufs w) /\ forall c, nth_error (ctxs w) c <> Some (Some b).

Definition spec (f : frame) : outcome := alone (f_body f) (f_data f).

Definition good_top (w : world) (f : frame) : Prop :=
  match f_pc f with
  | FTake | FSet _ => True
  | FRun c p => exists x, has w c x /\ alone p x = spec f
  | FSub _ _ => False
  | FClear c r => (exists x, has w c x) /\ r = spec f
  | FPut _ b r => r = spec f /\ retired w b
  end.
Fixpoint good_wait (w : world) (v : outcome) (fs : list frame) : Prop :=
  match fs with
  | [] => True
  | f :: fs' => (exists c k x, f_pc f = FSub c k /\ has w c x /\ alone (k v) x = spec f) /\ good_wait w (spec f) fs'
  end.
Definition good_item (w : world) (i : item) : Prop :=
  match i with
  | Thread [] _ => True
  | Thread (f :: fs) _ => good_top w f /\ good_wait w (spec f) fs
  | Pooled _ => True
  | Result d p r b => r = alone p d /\ retired w b
  end.

Record inv (s : state) : Prop := Inv {
  inv_nodup : NoDup (own (snd s));
  inv_lt : forall c, In c (own (snd s)) -> c < length (ctxs (fst s));
  inv_buf : forall c b, nth_error (ctxs (fst s)) c = Some (Some b) -> b < length (bufs (fst s));
  inv_inj : forall c c' b, nth_error (ctxs (fst s)) c = Some (Some b) -> nth_error (ctxs (fst s)) c' = Some (Some b) -> c = c';
  inv_good : Forall (good_item (fst s)) (snd s) }.

(** ** Steps touch only what the moving items hold *)

Definition touches (w : world) (l : list nat) (w' : world) : Prop :=
  length (ctxs w) <= length (ctxs w') /\ length (bufs w) <= length (bufs w') /\
  (forall c, c < length (ctxs w) -> ~ In c l -> nth_error (ctxs w') c = nth_error (ctxs w) c) /\
  (forall b, b < length (bufs w) -> (forall c, In c l -> nth_error (ctxs w) c <> Some (Some b)) -> nth_error (bufs w') b = nth_error (bufs w) b) /\
  (forall c b, nth_error (ctxs w') c = Some (Some b) -> b < length (bufs w) -> nth_error (ctxs w) c = Some (Some b)).

Lemma touches_refl w l : touches w l w.
Proof. split; [lia|]. split; [lia|]. auto. Qed.

Lemma retired_touch w l w' b : touches w l w' -> retired w b -> retired w' b.
Proof. intros (L1 & L2 & T1 & T2 & T3) [Hb H]. split; [lia|]. intros c Hc. apply (H c). apply T3; assumption. Qed.

Section Apart.
  Context (w : world) (l : list nat) (w' : world) (T : touches w l w')
    (inj : forall c c' b, nth_error (ctxs w) c = Some (Some b) -> nth_error (ctxs w) c' = Some (Some b) -> c = c').

  Lemma has_touch c x : ~ In c l -> has w c x -> has w' c x.
  Proof.
    intros Hc (b & H1 & H2). destruct T as (L1 & L2 & T1 & T2 & T3). exists b. split.
    - rewrite T1; auto. eapply nth_some_lt; exact H1.
    - rewrite T2; auto; [eapply nth_some_lt; exact H2|]. intros c' Hc' H'. rewrite (inj _ _ _ H1 H') in Hc. auto.
  Qed.
  Lemma top_touch f : (forall c, In c (ctx_of f) -> ~ In c l) -> good_top w f -> good_top w' f.
  Proof.
    unfold good_top, ctx_of. destruct (f_pc f) as [|c|c p|c k|c r|c b r]; intros Hd H; auto.
    - destruct H as (x & Hx & E). exists x. split; [|exact E]. apply has_touch; [apply Hd; left; reflexivity|exact Hx].
    - destruct H as ((x & Hx) & E). split; [|exact E]. exists x. apply has_touch; [apply Hd; left; reflexivity|exact Hx].
    - destruct H as (E & Hr). split; [exact E|]. eapply retired_touch; eassumption.
  Qed.
  Lemma wait_touch fs : forall v, (forall c, In c (flat_map ctx_of fs) -> ~ In c l) -> good_wait w v fs -> good_wait w' v fs.
  Proof.
    induction fs as [|f fs IH]; intros v Hd H; [exact I|]. destruct H as ((c & k & x & Q & Hx & E) & H). split.
    - exists c, k, x. split; [exact Q|]. split; [|exact E]. apply has_touch; [|exact Hx]. apply Hd. cbn. unfold ctx_of. rewrite Q. left. reflexivity.
    - apply IH; [|exact H]. intros c' Hc'. apply Hd. cbn. apply in_or_app. right. exact Hc'.
  Qed.
  Lemma item_touch i : (forall c, In c (owned i) -> ~ In c l) -> good_item w i -> good_item w' i.
  Proof.
    destruct i as [[|f fs] todo|c|d p r b]; cbn; intros Hd H; auto.
    - destruct H as [H1 H2]. split; [apply top_touch|apply wait_touch]; auto; intros c Hc; apply Hd; apply in_or_app; auto.
    - destruct H as [E Hr]. split; [exact E|]. eapply retired_touch; eassumption.
  Qed.
End Apart.

Lemma nodup_split {A} (l l' : list A) : NoDup (l ++ l') -> NoDup l /\ NoDup l' /\ forall a, In a l -> In a l' -> False.
Proof.
  induction l as [|x l IH]; cbn; intros H; [repeat split; auto; constructor|].
  apply NoDup_cons_iff in H as [H1 H2]. destruct (IH H2) as (H3 & H4 & H5). repeat split; auto.
  - constructor; auto. intros H. apply H1, in_or_app. auto.
  - intros a [->|Ha] Hb; [apply H1, in_or_app; auto|eauto].
Qed.
Lemma nodup_join {A} (l l' : list A) : NoDup l -> NoDup l' -> (forall a, In a l -> In a l' -> False) -> NoDup (l ++ l').
Proof.
  intros H H' D. induction l as [|x l IH]; cbn; [exact H'|]. apply NoDup_cons_iff in H as [H1 H2]. constructor.
  - intros Hi. apply in_app_or in Hi as [Hi|Hi]; [auto|]. eapply D; [left; reflexivity|exact Hi].
  - apply IH; auto. intros a Ha. apply D. right. exact Ha.
Qed.
Lemma own_app l l' : own (l ++ l') = own l ++ own l'.
Proof. apply flat_map_app. Qed.
Lemma own_perm l l' : Permutation l l' -> Permutation (own l) (own l').
Proof. apply Permutation_flat_map. Qed.

(** ** One step *)

Definition wf_world (w : world) : Prop :=
  (forall c b, nth_error (ctxs w) c = Some (Some b) -> b < length (bufs w)) /\
  (forall c c' b, nth_error (ctxs w) c = Some (Some b) -> nth_error (ctxs w) c' = Some (Some b) -> c = c').

Lemma local_ok w taken w' put : local w taken w' put -> wf_world w -> NoDup (own taken) ->
  (forall c, In c (own taken) -> c < length (ctxs w)) -> Forall (good_item w) taken ->
  wf_world w' /\ touches w (own taken) w' /\ NoDup (own put) /\ Forall (good_item w') put /\
  (forall c, In c (own put) -> In c (own taken) \/ (length (ctxs w) <= c /\ c < length (ctxs w'))).
Proof.
  intros H [Wb Wi] N Lt G.
  destruct H as [w d p todo|w d p fs todo|w d p fs todo c|w d p fs todo c|w d p fs todo c k|w d p fs todo c f q b Hc|w d p fs todo c d' p' k
    |w d p fs todo c r|w d p fs todo c r b Hc|w d p todo c b r|w d p d' p' c' k fs todo c b r|w c];
    cbn [own flat_map owned] in *; rewrite ?app_nil_r in *.
  - (* start *)
    split; [split; assumption|]. split; [apply touches_refl|]. split; [constructor|]. split; [repeat constructor|]. intros c [].
  - (* a new context *)
    pose proof (Forall_inv G) as [_ G2]. clear G.
    assert (touches w (flat_map ctx_of (Frame d p FTake :: fs)) (World (ctxs w ++ [None]) (bufs w))) as T.
    { split; [cbn; rewrite app_length; lia|]. split; [cbn; lia|]. split; [intros c Hc _; apply nth_error_app1; exact Hc|].
      split; [reflexivity|]. intros c b Hc _. cbn in Hc. destruct (Nat.lt_ge_cases c (length (ctxs w))) as [Hl|Hl].
      - rewrite nth_error_app1 in Hc by exact Hl. exact Hc.
      - rewrite nth_error_app2 in Hc by exact Hl. destruct (c - length (ctxs w)) as [|[|n]]; discriminate Hc. }
    assert (forall c b, nth_error (ctxs w ++ [None]) c = Some (Some b) -> nth_error (ctxs w) c = Some (Some b)) as Old.
    { intros c b Hc. destruct (Nat.lt_ge_cases c (length (ctxs w))) as [Hl|Hl].
      - rewrite nth_error_app1 in Hc by exact Hl. exact Hc.
      - rewrite nth_error_app2 in Hc by exact Hl. destruct (c - length (ctxs w)) as [|[|n]]; discriminate Hc. }
    split; [split; cbn; eauto|]. split; [exact T|]. cbn [flat_map ctx_of f_pc app] in *.
    split; [constructor; [intros Hi; apply Lt in Hi; lia|exact N]|]. split.
    + constructor; [|constructor]. split; [exact I|]. eapply wait_touch with (l := []); [|exact Wi|intros c _ []|exact G2].
      destruct T as (T1 & T2 & T3 & T4 & T5). split; [exact T1|]. split; [exact T2|]. split; [|split; [reflexivity|exact T5]].
      intros c Hc _. apply nth_error_app1. exact Hc.
    + intros c [<-|Hi]; [right; cbn; rewrite app_length; cbn; lia|left; exact Hi].
  - (* a pooled context *)
    pose proof (Forall_inv G) as [_ G2]. clear G. cbn [flat_map ctx_of f_pc app] in *.
    split; [split; assumption|]. split; [apply touches_refl|].
    apply nodup_split in N as (N1 & N2 & N3).
    split; [constructor; [intros Hi; apply (N3 _ Hi); left; reflexivity|exact N1]|]. split.
    + constructor; [|constructor]. split; [exact I|exact G2].
    + intros x [<-|Hi]; left; apply in_or_app; [right; left; reflexivity|left; exact Hi].
  - (* ctx.Buf = src *)
    pose proof (Forall_inv G) as [_ G2]. clear G. cbn [flat_map ctx_of f_pc app] in *.
    assert (c < length (ctxs w)) as Hc by (apply Lt; left; reflexivity).
    apply NoDup_cons_iff in N as [N1 N2].
    assert (forall x b, nth_error (set c (Some (length (bufs w))) (ctxs w)) x = Some (Some b) ->
      (x = c /\ b = length (bufs w)) \/ (x <> c /\ nth_error (ctxs w) x = Some (Some b))) as Inv'.
    { intros x b Hx. destruct (Nat.eq_dec x c) as [->|Hne].
      - rewrite set_same in Hx by exact Hc. injection Hx as <-. auto.
      - rewrite set_other in Hx by exact Hne. auto. }
    assert (touches w [c] (World (set c (Some (length (bufs w))) (ctxs w)) (bufs w ++ [d]))) as T.
    { split; [cbn; rewrite set_length; lia|]. split; [cbn; rewrite app_length; lia|].
      split; [intros x Hx Hn; cbn; apply set_other; intros ->; apply Hn; left; reflexivity|].
      split; [intros b Hb _; cbn; apply nth_error_app1; exact Hb|].
      intros x b Hx Hb. cbn in Hx. apply Inv' in Hx as [[_ ->]|[_ Hx]]; [lia|exact Hx]. }
    split.
    { split; cbn.
      - intros x b Hx. rewrite app_length. cbn. apply Inv' in Hx as [[_ ->]|[_ Hx]]; [lia|]. apply Wb in Hx. lia.
      - intros x y b Hx Hy. apply Inv' in Hx as [[-> ->]|[Nx Hx]]; apply Inv' in Hy as [[-> Eb]|[Ny Hy]]; auto.
        + apply Wb in Hy. lia.
        + subst b. apply Wb in Hx. lia.
        + eapply Wi; eassumption. }
    split. { destruct T as (T1 & T2 & T3 & T4 & T5). split; [exact T1|]. split; [exact T2|]. split; [|split; [|exact T5]].
      - intros x Hx Hn. apply T3; [exact Hx|]. intros [->|[]]. apply Hn. left. reflexivity.
      - intros b Hb Hn. cbn. apply nth_error_app1. exact Hb. }
    split; [constructor; assumption|]. split; [|intros x Hx; left; exact Hx].
    constructor; [|constructor]. split.
    + exists d. split; [|reflexivity]. exists (length (bufs w)). cbn. split; [apply set_same; exact Hc|].
      rewrite nth_error_app2, Nat.sub_diag by lia. reflexivity.
    + eapply wait_touch; [exact T|exact Wi| |exact G2]. intros x Hx [->|[]]. auto.
  - (* reading *)
    pose proof (Forall_inv G) as [(x & Hx & E) G2]. clear G. cbn [flat_map ctx_of f_pc app] in *.
    split; [split; assumption|]. split; [apply touches_refl|]. split; [exact N|]. split; [|intros y Hy; left; exact Hy].
    constructor; [|constructor]. split; [|exact G2]. exists x. split; [exact Hx|]. rewrite (has_buffer _ _ _ Hx). exact E.
  - (* writing *)
    pose proof (Forall_inv G) as [(x & Hx & E) G2]. clear G. cbn [flat_map ctx_of f_pc app] in *.
    pose proof (has_buffer _ _ _ Hx) as Bx. rewrite Bx. apply NoDup_cons_iff in N as [N1 N2].
    assert (touches w [c] (World (ctxs w) (set b (f x) (bufs w)))) as T.
    { split; [cbn; lia|]. split; [cbn; rewrite set_length; lia|]. split; [reflexivity|]. split; [|auto].
      intros y Hy Hn. cbn. apply set_other. intros ->. apply (Hn c); [left; reflexivity|exact Hc]. }
    split. { split; cbn; [intros y b' Hy; rewrite set_length; eauto|exact Wi]. }
    split. { destruct T as (T1 & T2 & T3 & T4 & T5). split; [exact T1|]. split; [exact T2|]. split; [|split; [|exact T5]].
      - intros y Hy Hn. reflexivity.
      - intros y Hy Hn. apply T4; [exact Hy|]. intros c' [->|[]]. apply Hn. left. reflexivity. }
    split; [constructor; assumption|]. split; [|intros y Hy; left; exact Hy].
    constructor; [|constructor]. split.
    + exists (f x). split; [|exact E]. exists b. cbn. split; [exact Hc|]. apply set_same. eapply Wb. exact Hc.
    + eapply wait_touch; [exact T|exact Wi| |exact G2]. intros y Hy [->|[]]. auto.
  - (* a nested call *)
    pose proof (Forall_inv G) as [(x & Hx & E) G2]. clear G. cbn [flat_map ctx_of f_pc app] in *.
    split; [split; assumption|]. split; [apply touches_refl|]. split; [exact N|]. split; [|intros y Hy; left; exact Hy].
    constructor; [|constructor]. split; [exact I|]. split; [|exact G2]. exists c, k, x. auto.
  - (* the end of decoding *)
    pose proof (Forall_inv G) as [(x & Hx & E) G2]. clear G. cbn [flat_map ctx_of f_pc app] in *.
    split; [split; assumption|]. split; [apply touches_refl|]. split; [exact N|]. split; [|intros y Hy; left; exact Hy].
    constructor; [|constructor]. split; [|exact G2]. split; [exists x; exact Hx|exact E].
  - (* ctx.Buf = nil *)
    pose proof (Forall_inv G) as [[(x & Hx) E] G2]. clear G. cbn [flat_map ctx_of f_pc app] in *.
    assert (c < length (ctxs w)) as Hl by (apply Lt; left; reflexivity).
    apply NoDup_cons_iff in N as [N1 N2].
    assert (forall y b', nth_error (set c None (ctxs w)) y = Some (Some b') -> y <> c /\ nth_error (ctxs w) y = Some (Some b')) as Inv'.
    { intros y b' Hy. destruct (Nat.eq_dec y c) as [->|Hne]; [rewrite set_same in Hy by exact Hl; discriminate|].
      rewrite set_other in Hy by exact Hne. auto. }
    assert (touches w [c] (World (set c None (ctxs w)) (bufs w))) as T.
    { split; [cbn; rewrite set_length; lia|]. split; [cbn; lia|].
      split; [intros y Hy Hn; cbn; apply set_other; intros ->; apply Hn; left; reflexivity|].
      split; [reflexivity|]. intros y b' Hy _. apply Inv' in Hy. apply Hy. }
    split. { split; cbn.
      - intros y b' Hy. apply Inv' in Hy as [_ Hy]. eapply Wb. exact Hy.
      - intros y z b' Hy Hz. apply Inv' in Hy as [_ Hy]. apply Inv' in Hz as [_ Hz]. eapply Wi; eassumption. }
    split. { destruct T as (T1 & T2 & T3 & T4 & T5). split; [exact T1|]. split; [exact T2|]. split; [|split; [|exact T5]].
      - intros y Hy Hn. apply T3; [exact Hy|]. intros [->|[]]. apply Hn. left. reflexivity.
      - reflexivity. }
    split; [constructor; assumption|]. split; [|intros y Hy; left; exact Hy].
    constructor; [|constructor]. split.
    + split; [exact E|]. split; [eapply Wb; exact Hc|]. cbn. intros y Hy. apply Inv' in Hy as [Hne Hy]. apply Hne. eapply Wi; eassumption.
    + eapply wait_touch; [exact T|exact Wi| |exact G2]. intros y Hy [->|[]]. auto.
  - (* the outermost call returns *)
    pose proof (Forall_inv G) as [[E Hr] _]. clear G. cbn [flat_map ctx_of f_pc app] in *.
    split; [split; assumption|]. split; [apply touches_refl|]. split; [exact N|]. split; [|intros y Hy; left; exact Hy].
    repeat constructor; assumption || exact (proj1 Hr) || exact (proj2 Hr).
  - (* a nested call returns *)
    pose proof (Forall_inv G) as [[E Hr] [(c1 & k1 & x & Q & Hx & E2) G2]]. clear G. cbn [f_pc] in Q. injection Q as <- <-.
    cbn [flat_map ctx_of f_pc app] in *. apply NoDup_cons_iff in N as [N1 N2].
    split; [split; assumption|]. split; [apply touches_refl|].
    split; [apply (Permutation_NoDup (l := c :: c' :: flat_map ctx_of fs))|].
    { apply Permutation_cons_append. }
    { constructor; assumption. }
    split.
    + constructor; [|constructor; [exact I|constructor; [|constructor]]].
      * split; [|exact G2]. exists x. split; [exact Hx|]. rewrite E. exact E2.
      * split; [exact E|exact Hr].
    + intros y Hy. left. cbn in Hy. destruct Hy as [<-|Hy]; [right; left; reflexivity|]. apply in_app_or in Hy as [Hy|[<-|[]]]; [right; right; exact Hy|left; reflexivity].
  - (* dropped *)
    split; [split; assumption|]. split; [apply touches_refl|]. split; [constructor|]. split; [constructor|]. intros y [].
Qed.

Lemma inv_step s s' : inv s -> step s s' -> inv s'.
Proof.
  intros [I1 I2 I3 I4 I5] H. destruct H as [w items taken rest w' put P L]. cbn [fst snd] in *.
  pose proof (own_perm _ _ P) as Po. rewrite own_app in Po.
  pose proof (Permutation_NoDup Po I1) as N. apply nodup_split in N as (N1 & N2 & N3).
  assert (forall c, In c (own taken) \/ In c (own rest) -> c < length (ctxs w)) as Lt.
  { intros c Hc. apply I2. eapply Permutation_in; [apply Permutation_sym; exact Po|]. apply in_or_app. exact Hc. }
  assert (Forall (good_item w) (taken ++ rest)) as G by (eapply Permutation_Forall; eassumption).
  apply Forall_app in G as [G1 G2].
  destruct (local_ok _ _ _ _ L (conj I3 I4) N1 (fun c H => Lt c (or_introl H)) G1) as ([J3 J4] & T & Np & Gp & Op).
  pose proof T as (T1 & T2 & _).
  constructor; cbn [fst snd]; auto.
  - rewrite own_app. apply nodup_join; auto. intros c H1 H2. apply Op in H1 as [H1|[H1 _]]; [eauto|].
    pose proof (Lt c (or_intror H2)). lia.
  - intros c Hc. rewrite own_app in Hc. apply in_app_or in Hc as [Hc|Hc].
    + apply Op in Hc as [Hc|[_ Hc]]; [|exact Hc]. pose proof (Lt c (or_introl Hc)). lia.
    + pose proof (Lt c (or_intror Hc)). lia.
  - apply Forall_app. split; [exact Gp|]. rewrite Forall_forall in *. intros i Hi.
    eapply item_touch; [exact T|exact I4| |apply G2; exact Hi].
    intros c Hc Hc'. apply (N3 c Hc'). unfold own. apply in_flat_map. eauto.
Qed.

Lemma inv_start jobs : inv (start jobs).
Proof.
  unfold start. constructor; cbn [fst snd ctxs bufs].
  - assert (own (map (Thread []) jobs) = []) as -> by (induction jobs; cbn; auto). constructor.
  - assert (own (map (Thread []) jobs) = []) as -> by (induction jobs; cbn; auto). intros c [].
  - intros [|c] b H; discriminate H.
  - intros [|c] c' b H; discriminate H.
  - apply Forall_map. apply Forall_forall. intros j _. exact I.
Qed.
Lemma inv_steps s s' : steps s s' -> inv s -> inv s'.
Proof. induction 1 as [s|s1 s2 s3 H IH St]; intros Is; [exact Is|]. eapply inv_step; [apply IH; exact Is|exact St]. Qed.

(** Results and buffers of completed calls stay. *)
Lemma local_bufs w taken w' put b : local w taken w' put -> retired w b -> nth_error (bufs w') b = nth_error (bufs w) b.
Proof.
  intros H [Hb Hr]. destruct H; cbn; auto.
  - apply nth_error_app1. exact Hb.
  - apply set_other. intros ->. eapply Hr. eassumption.
Qed.
Lemma local_result w taken w' put d p r b : local w taken w' put -> ~ In (Result d p r b) taken.
Proof. intros H Hi. destruct H; cbn in Hi; repeat (destruct Hi as [Hi|Hi]; [discriminate|]); exact Hi. Qed.
Lemma step_result s s' d p r b : inv s -> step s s' -> In (Result d p r b) (snd s) ->
  In (Result d p r b) (snd s') /\ nth_error (bufs (fst s')) b = nth_error (bufs (fst s)) b.
Proof.
  intros [_ _ _ _ G] H Hi. destruct H as [w items taken rest w' put P L]. cbn [fst snd] in *.
  rewrite Forall_forall in G. destruct (G _ Hi) as [_ Hr]. split; [|eapply local_bufs; eassumption].
  eapply Permutation_in in Hi; [|exact P]. apply in_app_or in Hi as [Hi|Hi]; [destruct (local_result _ _ _ _ _ _ _ _ L Hi)|].
  apply in_or_app. auto.
Qed.
Lemma steps_result s s' d p r b : inv s -> steps s s' -> In (Result d p r b) (snd s) ->
  In (Result d p r b) (snd s') /\ nth_error (bufs (fst s')) b = nth_error (bufs (fst s)) b.
Proof.
  intros I H. revert I. induction H as [s|s1 s2 s3 H IH St]; intros I Hi; [auto|].
  destruct (IH I Hi) as [H1 H2]. pose proof (inv_steps _ _ H I) as I2.
  destruct (step_result _ _ _ _ _ _ I2 St H1) as [H3 H4]. split; [exact H3|congruence].
Qed.

(** A goroutine with work left can move. *)
Lemma progress s fs todo : inv s -> In (Thread fs todo) (snd s) -> fs <> [] \/ todo <> [] ->
  exists taken w' put, In (Thread fs todo) taken /\ local (fst s) taken w' put /\ incl taken (snd s).
Proof.
  intros [_ I2 _ _ G] Hi Hw. destruct s as [w items]. cbn [fst snd] in *.
  assert (forall w' put, local w [Thread fs todo] w' put -> exists taken w' put, In (Thread fs todo) taken /\ local w taken w' put /\ incl taken items) as Go.
  { intros w' put L. exists [Thread fs todo], w', put. split; [left; reflexivity|]. split; [exact L|]. intros i [<-|[]]. exact Hi. }
  rewrite Forall_forall in G. specialize (G _ Hi).
  destruct fs as [|[d p q] fs].
  { destruct todo as [|[d p] todo]; [destruct Hw; congruence|]. eapply Go. constructor. }
  destruct G as [G1 G2]. destruct q as [|c|c q|c k|c r|c b r].
  - eapply Go. constructor.
  - eapply Go. constructor.
  - destruct G1 as (x & (b & H1 & H2) & _). destruct q as [r|k|f q|d' p' k].
    + eapply Go. constructor.
    + eapply Go. constructor.
    + eapply Go. econstructor. exact H1.
    + eapply Go. constructor.
  - destruct G1.
  - destruct G1 as ((x & b & H1 & H2) & _). eapply Go. econstructor. exact H1.
  - destruct fs as [|[d' p' q'] fs]; [eapply Go; constructor|].
    destruct G2 as ((c' & k & x & Q & _) & _). cbn in Q. subst q'. eapply Go. constructor.
Qed.

(** ** Contexts in the pool, or about to be filled or put back, hold nothing *)
Definition clean_frame (w : world) (f : frame) : Prop :=
  match f_pc f with FSet c | FPut c _ _ => nth_error (ctxs w) c = Some None | _ => True end.
Definition clean (w : world) (i : item) : Prop :=
  match i with
  | Thread fs _ => Forall (clean_frame w) fs
  | Pooled c => nth_error (ctxs w) c = Some None
  | Result _ _ _ _ => True
  end.
Lemma clean_frame_touch w l w' f : touches w l w' -> (forall c, In c (ctx_of f) -> ~ In c l) -> clean_frame w f -> clean_frame w' f.
Proof.
  intros (_ & _ & T & _) Hd H. unfold clean_frame, ctx_of in *. destruct (f_pc f); auto;
    (rewrite T; [exact H|eapply nth_some_lt; exact H|apply Hd; left; reflexivity]).
Qed.
Lemma clean_frames_touch w l w' fs : touches w l w' -> (forall c, In c (flat_map ctx_of fs) -> ~ In c l) ->
  Forall (clean_frame w) fs -> Forall (clean_frame w') fs.
Proof.
  intros T Hd H. rewrite Forall_forall in *. intros f Hf. eapply clean_frame_touch; [exact T| |auto].
  intros c Hc. apply Hd, in_flat_map. eauto.
Qed.
Lemma clean_touch w l w' i : touches w l w' -> (forall c, In c (owned i) -> ~ In c l) -> clean w i -> clean w' i.
Proof.
  intros T Hd H. destruct i as [fs todo|c|]; cbn in *; auto.
  - eapply clean_frames_touch; eassumption.
  - destruct T as (_ & _ & T & _). rewrite T; [exact H|eapply nth_some_lt; exact H|apply Hd; left; reflexivity].
Qed.
Lemma clean_local w taken w' put : local w taken w' put -> wf_world w -> NoDup (own taken) ->
  (forall c, In c (own taken) -> c < length (ctxs w)) -> Forall (clean w) taken -> Forall (clean w') put.
Proof.
  intros H W N Lt G.
  assert (forall f fs todo l w2, touches w l w2 -> (forall c, In c (flat_map ctx_of fs) -> ~ In c l) -> clean_frame w2 f ->
    clean w (Thread fs todo) -> clean w2 (Thread (f :: fs) todo)) as Th.
  { intros f fs todo' l w2 T Hd Hf Hc. constructor; [exact Hf|]. eapply clean_frames_touch; eassumption. }
  destruct H as [w d p todo|w d p fs todo|w d p fs todo c|w d p fs todo c|w d p fs todo c k|w d p fs todo c f q b Hc|w d p fs todo c d' p' k
    |w d p fs todo c r|w d p fs todo c r b Hc|w d p todo c b r|w d p d' p' c' k fs todo c b r|w c];
    pose proof (Forall_inv G) as G1; cbn [clean] in G1;
    try (apply Forall_cons_iff in G1 as [G1 G2]); cbn [own flat_map owned ctx_of f_pc app] in *; rewrite ?app_nil_r in *.
  - repeat constructor.
  - constructor; [|constructor]. constructor.
    + unfold clean_frame. cbn. rewrite nth_error_app2, Nat.sub_diag by lia. reflexivity.
    + eapply clean_frames_touch with (l := []); [|intros c _ []|exact G2].
      split; [cbn; rewrite app_length; lia|]. split; [cbn; lia|]. split; [intros c Hc _; apply nth_error_app1; exact Hc|].
      split; [reflexivity|]. intros c b Hc _. cbn in Hc. destruct (Nat.lt_ge_cases c (length (ctxs w))) as [Hl|Hl].
      * rewrite nth_error_app1 in Hc by exact Hl. exact Hc.
      * rewrite nth_error_app2 in Hc by exact Hl. destruct (c - length (ctxs w)) as [|[|n]]; discriminate Hc.
  - apply Forall_inv_tail, Forall_inv in G. constructor; [|constructor]. constructor; assumption.
  - apply NoDup_cons_iff in N as [N1 N2]. constructor; [|constructor]. constructor; [exact I|].
    rewrite Forall_forall in *. intros f Hf. specialize (G2 f Hf). unfold clean_frame in *.
    assert (forall c', In c' (ctx_of f) -> c' <> c) as Ne.
    { intros c' Hc' ->. apply N1, in_flat_map. eauto. }
    unfold ctx_of in Ne. destruct (f_pc f); auto; cbn; (rewrite set_other; [exact G2|apply Ne; left; reflexivity]).
  - constructor; [|constructor]. constructor; [exact I|exact G2].
  - constructor; [|constructor]. constructor; [exact I|exact G2].
  - constructor; [|constructor]. constructor; [exact I|constructor; [exact I|exact G2]].
  - constructor; [|constructor]. constructor; [exact I|exact G2].
  - apply NoDup_cons_iff in N as [N1 N2]. constructor; [|constructor]. constructor.
    { unfold clean_frame. cbn. apply set_same. eapply nth_some_lt. exact Hc. }
    rewrite Forall_forall in *. intros f Hf. specialize (G2 f Hf). unfold clean_frame in *.
    assert (forall c', In c' (ctx_of f) -> c' <> c) as Ne.
    { intros c' Hc' ->. apply N1, in_flat_map. eauto. }
    unfold ctx_of in Ne. destruct (f_pc f); auto; cbn; (rewrite set_other; [exact G2|apply Ne; left; reflexivity]).
  - constructor; [constructor|]. constructor; [exact G1|]. constructor; [exact I|constructor].
  - apply Forall_inv_tail in G2. constructor; [constructor; [exact I|exact G2]|]. constructor; [exact G1|]. constructor; [exact I|constructor].
  - constructor.
Qed.
Lemma clean_step s s' : inv s -> step s s' -> Forall (clean (fst s)) (snd s) -> Forall (clean (fst s')) (snd s').
Proof.
  intros [I1 I2 I3 I4 I5] H C. destruct H as [w items taken rest w' put P L]. cbn [fst snd] in *.
  pose proof (own_perm _ _ P) as Po. rewrite own_app in Po.
  pose proof (Permutation_NoDup Po I1) as N. apply nodup_split in N as (N1 & N2 & N3).
  assert (forall c, In c (own taken) \/ In c (own rest) -> c < length (ctxs w)) as Lt.
  { intros c Hc. apply I2. eapply Permutation_in; [apply Permutation_sym; exact Po|]. apply in_or_app. exact Hc. }
  assert (Forall (good_item w) (taken ++ rest)) as G by (eapply Permutation_Forall; eassumption).
  apply Forall_app in G as [G1 G2].
  assert (Forall (clean w) (taken ++ rest)) as D by (eapply Permutation_Forall; eassumption).
  apply Forall_app in D as [D1 D2].
  destruct (local_ok _ _ _ _ L (conj I3 I4) N1 (fun c H => Lt c (or_introl H)) G1) as (_ & T & _).
  apply Forall_app. split; [eapply clean_local; eauto; split; assumption|].
  rewrite Forall_forall in *. intros i Hi. eapply clean_touch; [exact T| |apply D2; exact Hi].
  intros c Hc Hc'. apply (N3 c Hc'). unfold own. apply in_flat_map. eauto.
Qed.
Lemma start_clean jobs : Forall (clean (fst (start jobs))) (snd (start jobs)).
Proof. cbn. apply Forall_map, Forall_forall. intros j _. constructor. Qed.
Lemma pool_clean s s' c : steps s s' -> Forall (clean (fst s)) (snd s) -> inv s -> In (Pooled c) (snd s') -> nth_error (ctxs (fst s')) c = Some None.
Proof.
  intros H C Is Hi. assert (Forall (clean (fst s')) (snd s') /\ inv s') as [D _].
  { clear Hi. induction H as [s|s1 s2 s3 H IH St]; [auto|]. destruct (IH C Is) as [C2 I2]. split; [eapply clean_step; eassumption|eapply inv_step; eassumption]. }
  rewrite Forall_forall in D. exact (D _ Hi).
Qed.
