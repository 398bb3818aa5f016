(** Unmarshal and Marshal together: PHP objects read into an empty interface (C91). *)
From Coq Require Import Strings.String Strings.Byte ZArith List Bool Lia Relations.Relation_Operators Wellfounded.Transitive_Closure Permutation.
From Verif Require Import Base GoTypes Strconv Tags Unmarshal Grammar Denote Typing Api UnmFacts Memory EncCompile Encode Php Repr EncApi RoundTrip Values Obstacle ObstacleFacts QuietFacts SoundValue AnyTrip EncCompileFacts Demo DemoEnc Props4 Props8 Props25.
Import ListNotations.
Open Scope Z_scope.

(** An interface with null, a bool, a number, a string or a map[string]any of such
    interfaces: no map[any]any, which is what PHP arrays become. *)
Inductive no_arrays : gval -> Prop :=
| na_null : no_arrays (VIface None)
| na_bool b : no_arrays (VIface (Some (TBool, VBool b)))
| na_int z : no_arrays (VIface (Some (TInt I64, VInt z)))
| na_float f : no_arrays (VIface (Some (TF64, VF64 f)))
| na_str s : no_arrays (VIface (Some (TString, VStr s)))
| na_map m : Forall (fun e => no_arrays (snd e)) m -> no_arrays (VIface (Some (TMap TString TAny, VMap (Some m)))).
(** Two maps in memory do not have the same address. *)
Definition maps_apart (X : Ext) : Prop := forall o o', map_at X o = map_at X o' -> o = o'.

Section Objects.
  Context (X : Ext) (E : env) (H : heap).
  Hypothesis Ha : maps_apart X.

  Notation under := (clos_trans hval (fun a b => child H b a)).
  Lemma acyclic v w : holds H v w -> Acc (fun a b => child H b a) v.
  Proof.
    revert v w. fix IH 3. intros v w Hh. constructor. intros x Cx.
    assert (forall l ws, Forall2 (holds H) l ws -> In x l -> Acc (fun a b => child H b a) x) as L.
    { fix IHl 3. intros l ws [|a b l' ws' Hab F] Hi; [destruct Hi|]. destruct Hi as [Q|Q]; [rewrite <- Q; exact (IH _ _ Hab)|exact (IHl _ _ F Q)]. }
    assert (forall m ws, Forall2 (fun e y => holds H (fst e) (fst y) /\ holds H (snd e) (snd y)) m ws -> forall y, In (y, x) m -> Acc (fun a b => child H b a) x) as LM.
    { fix IHl 3. intros l ws [|a b l' ws' [_ Hab] F] y Hi; [destruct Hi|]. destruct Hi as [Q|Q]; [rewrite Q in Hab; exact (IH _ _ Hab)|exact (IHl _ _ F y Q)]. }
    destruct Hh as [b|z|z|f|f|s0| |o i n l ws C F|l ws F| |o m ws C Hd F| |o i c w C Hc| |t0 v0 w Hv|l ws F| ];
      try (exfalso; inversion Cx; fail).
    - exact (L _ _ F (child_slice H _ _ _ _ _ Cx C)).
    - exact (L _ _ F (child_arr H _ _ Cx)).
    - destruct (child_map H _ _ _ Cx C) as [y Hi]. exact (LM _ _ F y Hi).
    - clear L LM. rewrite (child_ptr H _ _ _ _ Cx C). exact (IH _ _ Hc).
    - clear L LM. rewrite (child_iface H _ _ _ Cx). exact (IH _ _ Hv).
    - exact (L _ _ F (child_struct H _ _ Cx)).
  Qed.
  Lemma no_cycle v w : holds H v w -> ~ under v v.
  Proof. intros Hh C. apply acyclic in Hh. apply Acc_clos_trans in Hh. induction Hh as [v _ IH]. exact (IH v C C). Qed.

  Lemma forall2_in' {A B} (P : A -> B -> Prop) l l' y : Forall2 P l l' -> In y l' -> exists x, In x l /\ P x y.
  Proof. induction 1 as [|a b l l' Hp F IH]; intros I; [destruct I|]. destruct I as [<-|I]; [exists a; split; [left; reflexivity|exact Hp]|]. destruct (IH I) as (x & Hx & Px). exists x. split; [right; exact Hx|exact Px]. Qed.
  (** What Marshal comes to. *)
  Definition content (t : gty) (w : gval) : Prop := (t = TAny /\ no_arrays w) \/ no_arrays (VIface (Some (t, w))).
  Definition inv (q : place_in) : Prop :=
    (by_ q = ByType \/ by_ q = ByKind \/ by_ q = Inside) /\
    (exists w, holds H (value_ q) w /\ content (type_ q) w) /\
    (forall a, In a (fst (trail_ q)) -> exists o, a = map_at X o /\ under (value_ q) (HMap (Some o))).
  Lemma content_mute t w : content t w -> marshaler E t = false.
  Proof. intros [[-> _]|B]; [reflexivity|inversion B; reflexivity]. Qed.
  Lemma content_kind t w : content t w -> match kind_of E t with KBool | KInt _ | KF64 | KString | KAny => True | KMap k u => t = TMap TString TAny /\ k = TString /\ u = TAny | _ => False end.
  Proof. intros [[-> _]|B]; [exact I|inversion B; cbn; tauto]. Qed.
  Lemma trail_down (s : trail) b o s' x : enters s b (map_at X o) s' -> child H (HMap (Some o)) x ->
    (forall a, In a (fst s) -> exists o', a = map_at X o' /\ under (HMap (Some o)) (HMap (Some o'))) ->
    forall a, In a (fst s') -> exists o', a = map_at X o' /\ under x (HMap (Some o')).
  Proof.
    intros (R & N & _) C T a I.
    assert (a = map_at X o \/ In a (fst s)) as [-> | J].
    { destruct (Bool.bool_dec b true) as [Hb|Hb]; [destruct (R (or_introl Hb)) as [_ Q]; rewrite Q in I; destruct I as [<-|I]; [left; reflexivity|right; exact I]|].
      destruct (Z.le_gt_cases 1000 (snd s)) as [L|L]; [destruct (R (or_intror L)) as [_ Q]; rewrite Q in I; destruct I as [<-|I]; [left; reflexivity|right; exact I]|].
      rewrite N in I; [right; exact I|]. intros [Q|Q]; [exact (Hb Q)|lia]. }
    - exists o. split; [reflexivity|]. apply t_step. exact C.
    - destruct (T a J) as (o' & -> & U). exists o'. split; [reflexivity|]. eapply t_trans; [apply t_step; exact C|exact U].
  Qed.
  Lemma same_under (s : trail) v x : child H v x -> (forall a, In a (fst s) -> exists o, a = map_at X o /\ under v (HMap (Some o))) ->
    forall a, In a (fst s) -> exists o, a = map_at X o /\ under x (HMap (Some o)).
  Proof. intros C T a I. destruct (T a I) as (o & -> & U). exists o. split; [reflexivity|]. eapply t_trans; [apply t_step; exact C|exact U]. Qed.
  Lemma map_content t o m w y x : holds H (HMap (Some o)) w -> content t w -> entries H o = Some m -> In (y, x) m -> exists w', holds H x w' /\ content TAny w'.
  Proof.
    intros Hh C En Hi. inversion Hh as [| | | | | | | | | |o' m' ws C' _ F| | | | | |]; subst. replace m' with m in F by congruence.
    destruct (forall2_in _ _ _ _ F Hi) as ([a b] & Hy & _ & Hv). exists b. split; [exact Hv|]. left. split; [reflexivity|].
    destruct C as [[_ B]|B]; inversion B as [| | | | |m0 G]; subst. rewrite Forall_forall in G. exact (G _ Hy).
  Qed.
  Lemma inv_below p q : inv p -> below X E H p q -> inv q.
  Proof.
    intros (Hb & (w & Hh & C) & T) B. destruct B; cbn [type_ value_ by_ trail_] in *;
      try (exfalso; destruct Hb as [Hb|[Hb|Hb]]; discriminate Hb);
      try (exfalso; pose proof (content_kind _ _ C) as Q; match goal with K : kind_of E _ = _ |- _ => rewrite K in Q end; exact Q).
    - split; [tauto|]. split; [exists w; split; assumption|exact T].
    - pose proof (content_kind _ _ C) as Q. rewrite H0 in Q. destruct Q as (-> & -> & ->). split; [tauto|]. split; [eapply map_content; eassumption|].
      eapply trail_down; [eassumption|econstructor; eassumption|exact T].
    - split; [tauto|]. split; [exists w; split; assumption|exact T].
    - split; [tauto|]. cbn [type_ value_ trail_]. split; [|eapply same_under; [constructor|exact T]]. inversion Hh; subst. eexists. split; [eassumption|].
      destruct C as [[_ C]|C]; [right; exact C|]. inversion C.
    - pose proof (content_kind _ _ C) as Q. rewrite H0 in Q. destruct Q as (-> & -> & ->). split; [tauto|]. split; [eapply map_content; eassumption|].
      eapply trail_down; [eassumption|econstructor; eassumption|exact T].
    - pose proof (content_kind _ _ C) as Q. rewrite H0 in Q. destruct Q as (-> & -> & ->). discriminate.
  Qed.
  Lemma inv_obstacle q e : inv q -> ~ obstacle X E H q e.
  Proof.
    intros (Hb & (w & Hh & C) & T) B. destruct B; cbn [type_ value_ by_ trail_] in *;
      try (destruct Hb as [Hb|[Hb|Hb]]; discriminate Hb);
      try (pose proof (content_kind _ _ C) as Q; match goal with K : kind_of E _ = _ |- _ => rewrite K in Q end; exact Q).
    - rewrite (content_mute _ _ C) in H0. discriminate.
    - destruct H1 as [_ I]. destruct (T _ I) as (o' & Eo & U). apply Ha in Eo. subst o'. exact (no_cycle _ _ Hh U).
    - destruct H1 as [_ I]. destruct (T _ I) as (o' & Eo & U). apply Ha in Eo. subst o'. exact (no_cycle _ _ Hh U).
    - pose proof (content_kind _ _ C) as Q. destruct (kind_of E t); try contradiction.
    - pose proof (content_kind _ _ C) as Q. rewrite H0 in Q. destruct Q as (-> & -> & ->). discriminate.
    - pose proof (content_kind _ _ C) as Q. rewrite H0 in Q. destruct Q as (-> & -> & ->). discriminate.
    - pose proof (content_kind _ _ C) as Q. rewrite H0 in Q. destruct Q as (-> & -> & ->). discriminate.
  Qed.
  Lemma inv_reached t v w q : holds H v w -> content t w -> reached X E H t v q -> inv q.
  Proof.
    intros Hh C R. unfold reached in R. remember (At ByType ([], 0) t v) as p eqn:Ep.
    assert (inv p) as Lp by (subst p; split; [left; reflexivity|split; [exists w; split; assumption|intros a []]]). clear Ep.
    induction R as [p q B|p|p q r R1 IH1 R2 IH2]; [eapply inv_below; eassumption|exact Lp|]. apply IH2. apply IH1. exact Lp.
  Qed.

  (** The other way round. *)
  Definition calm (s : trail) (x : hval) : Prop := forall q e, clos_refl_trans _ (below X E H) (At Inside s TAny x) q -> ~ obstacle X E H q e.
  Definition good (w : gval) : Prop := forall s x, holds H x w -> calm s x -> no_arrays w.
  Lemma enters_in (s : trail) a : (exists s', enters s true a s') \/ In a (fst s).
  Proof.
    destruct (in_dec Z.eq_dec a (fst s)) as [I|N]; [right; exact I|left]. exists (a :: fst s, snd s). split; [intros _; split; [exact N|reflexivity]|].
    split; [intros R; destruct R; left; reflexivity|cbn [snd]; lia].
  Qed.
  Lemma good_set k v m : Forall (fun e => good (snd e)) m -> good v -> Forall (fun e => good (snd e)) (map_set k v m).
  Proof.
    intros F Hv. induction m as [|[k' v'] m IH]; cbn [map_set]; [constructor; [exact Hv|constructor]|].
    destruct (key_eqb k' k); constructor; [exact Hv|exact (Forall_inv_tail F)|exact (Forall_inv F)|exact (IH (Forall_inv_tail F))].
  Qed.
  Lemma good_any : forall d p w, any_val X d p w -> good w.
  Proof.
    fix IH 4. intros d p w A. destruct A as [d|d b|d t z Ht Hr|d t f H1 H2 H3|d n s0 Hs|d n es m Hd Hn Hm M|d cn cls n es m Hd Hb Hn Hm M]; intros s x Hh C;
      [constructor|constructor|constructor|constructor|constructor| |].
    - exfalso. clear IH M. inversion Hh as [| | | | | | | | | | | | | |t1 v1 w1 Hw| |]; subst. inversion Hw as [| | | | | | | | | |o m' ws C' _ F| | | | | |]; subst.
      assert (below X E H (At Inside s TAny (HIface (Some (TMap TAny TAny, HMap (Some o))))) (At Inside s (TMap TAny TAny) (HMap (Some o)))) as B by (apply bl_in_iface; reflexivity).
      destruct (enters_in s (map_at X o)) as [[s' En]|I].
      + eapply C; [apply rt_step; exact B|]. eapply ob_key; [reflexivity|reflexivity|exact En].
      + eapply C; [apply rt_step; exact B|]. eapply ob_in_map; [reflexivity|]. split; [left; reflexivity|exact I].
    - apply na_map.
      assert (Forall (fun e => good (snd e)) m) as G.
      { clear Hm Hb Hh C. assert (Forall (fun e : gval * gval => good (snd e)) []) as G by constructor. revert M G. generalize (@nil (gval * gval)) as acc. intros acc M. revert acc es m M.
        fix IHm 4. intros acc es m [m0|m0 k q es' kv vv m' Hk Hv Hx M'] G; [exact G|]. apply (IHm _ _ _ M'). apply good_set; [exact G|exact (IH _ _ _ Hv)]. }
      clear IH M. inversion Hh as [| | | | | | | | | | | | | |t1 v1 w1 Hw| |]; subst. inversion Hw as [| | | | | | | | | |o m' ws C' _ F| | | | | |]; subst.
      assert (below X E H (At Inside s TAny (HIface (Some (TMap TString TAny, HMap (Some o))))) (At Inside s (TMap TString TAny) (HMap (Some o)))) as B by (apply bl_in_iface; reflexivity).
      destruct (enters_in s (map_at X o)) as [[s' En]|I].
      + apply Forall_forall. intros [k v] Hi. rewrite Forall_forall in G. destruct (forall2_in' _ _ _ _ F Hi) as ([a b] & Hy & _ & Hv). apply (G _ Hi s' b Hv).
        intros q e R. apply C. eapply rt_trans; [apply rt_step; exact B|]. eapply rt_trans; [apply rt_step|exact R]. eapply bl_in_map; try reflexivity; eassumption.
      + exfalso. eapply C; [apply rt_step; exact B|]. eapply ob_in_map; [reflexivity|]. split; [left; reflexivity|exact I].
  Qed.
  Lemma good_top d p t w v : any_val X d p (VIface (Some (t, w))) -> holds H v w -> encodable X E t ->
    (forall q e, reached X E H t v q -> ~ obstacle X E H q e) -> no_arrays (VIface (Some (t, w))).
  Proof.
    intros A Hh He C. pose proof (good_any _ _ _ A) as G0. inversion A as [|? b|? ? z Ht Hr|? ? f H1 H2 H3|? n s0 Hs|? n es m Hd Hn Hm M|? cn cls n es m Hd Hb Hn Hm M]; subst; try constructor.
    - exfalso. apply (proj1 He (false, TMap TAny TAny)); [constructor|]. eapply ue_key; reflexivity.
    - clear G0. assert (Forall (fun e => good (snd e)) m) as G.
      { clear - M. assert (Forall (fun e : gval * gval => good (snd e)) []) as G by constructor. revert G. induction M as [m0|m0 k q es' kv vv m' Hk Hv Hx M' IH]; intros G; [exact G|]. apply IH. apply good_set; [exact G|exact (good_any _ _ _ Hv)]. }
      inversion Hh as [| | | | | | | | | |o m' ws C' _ F| | | | | |]; subst. apply Forall_forall. intros [k x] Hi. rewrite Forall_forall in G. destruct (forall2_in' _ _ _ _ F Hi) as ([a b] & Hy & _ & Hv).
      apply (G _ Hi ([], 1) b Hv). intros q e R. apply C. unfold reached.
      eapply rt_trans; [apply rt_step; apply bl_type; reflexivity|].
      eapply rt_trans; [apply rt_step; eapply (bl_map X E H ([], 0) ([], 1)); [reflexivity|exact C'| |exact Hy]|].
      { split; [intros [Q|Q]; [discriminate Q|cbn in Q; lia]|]. split; reflexivity. }
      eapply rt_trans; [apply rt_step; apply bl_type; reflexivity|]. eapply rt_trans; [apply rt_step; apply bl_iface; reflexivity|exact R].
  Qed.
  (** No arrays among the types. *)
  Definition small_type (u : gty) : Prop := u = TAny \/ basic u = true.
  Lemma small_part t v u x : okay E H t v -> small_type t -> part E H t v u x -> small_type u.
  Proof.
    intros O St P. destruct P as [u o i n l x K C Hi|n u l x K Hi|k u o m y x K C Hi|k u o m y x K C Hi|id fs l f x K Hi|u o i c K C|u x K];
      try (exfalso; destruct St as [-> |B]; [discriminate K|apply (basic_kind E) in B; rewrite K in B; exact B]).
    - destruct St as [-> |B]; [discriminate K|]. apply (basic_kind E) in B. rewrite K in B. destruct u; try contradiction. destruct B as [-> | ->]; cbn in K; injection K as <-; [left|right]; reflexivity.
    - destruct St as [-> |B]; [discriminate K|]. apply (basic_kind E) in B. rewrite K in B. destruct u; try contradiction. left. reflexivity.
    - right. eapply okay_basic. exact O.
  Qed.
  Lemma small_within t v u x : okay E H t v -> small_type t -> within E H t v u x -> small_type u.
  Proof.
    intros O St W. assert (okay E H u x /\ small_type u) as [_ Q]; [|exact Q]. induction W as [|u w u' w' W IH P]; [split; assumption|].
    destruct IH as [O' S']. split; [eapply okay_part; eassumption|eapply small_part; eassumption].
  Qed.
  Lemma small_finite u : small_type u -> finite_arrays X E u.
  Proof.
    intros St. assert (forall a, einside X E (false, u) a -> small_type (snd a)) as Q.
    { induction 1 as [|a b _ IH P]; [exact St|]. destruct P as [v _ K|v _ _ K|k v _ K|k v _ K|id fs f _ K];
        (destruct IH as [IH|IH]; [rewrite IH in K; discriminate K|]; apply (basic_kind E) in IH; rewrite K in IH; try contradiction).
      destruct v; try contradiction. left. reflexivity. }
    intros a k v I _ K. destruct (Q a I) as [B|B]; [rewrite B in K; discriminate K|apply (basic_kind E) in B; rewrite K in B; destruct B].
  Qed.

  (** With arrays the only error is about their keys. *)
  Definition inv' (q : place_in) : Prop :=
    (by_ q = ByType \/ by_ q = ByKind \/ by_ q = Inside) /\ okay E H (type_ q) (value_ q) /\ small_type (type_ q) /\
    (forall a, In a (fst (trail_ q)) -> exists o, a = map_at X o /\ under (value_ q) (HMap (Some o))).
  Lemma small_kind t : small_type t -> match kind_of E t with KBool | KInt _ | KF64 | KString | KAny => True | KMap k u => u = TAny /\ (k = TAny \/ k = TString) | _ => False end.
  Proof.
    intros [-> |B]; [exact I|]. apply (basic_kind E) in B. destruct (kind_of E t) as [| | | | | | | |k u| | | | |] eqn:K; try exact B; try exact I.
    destruct u; try contradiction. split; [reflexivity|]. destruct B as [-> | ->]; cbn in K; injection K as <-; [left|right]; reflexivity.
  Qed.
  Lemma inv_below' p q : inv' p -> below X E H p q -> inv' q.
  Proof.
    intros (Hb & O & St & T) B. destruct B; cbn [type_ value_ by_ trail_] in *;
      try (exfalso; destruct Hb as [Hb|[Hb|Hb]]; discriminate Hb);
      try (exfalso; pose proof (small_kind _ St) as Q; match goal with K : kind_of E _ = _ |- _ => rewrite K in Q end; exact Q).
    - split; [tauto|]. split; [exact O|]. split; [exact St|exact T].
    - split; [tauto|]. assert (part E H t (HMap (Some o)) u x) as P by (econstructor; eassumption). split; [eapply okay_part; eassumption|]. split; [eapply small_part; eassumption|].
      eapply trail_down; [eassumption|econstructor; eassumption|exact T].
    - split; [tauto|]. split; [exact O|]. split; [exact St|exact T].
    - split; [tauto|]. cbn [type_ value_ trail_]. assert (part E H t (HIface (Some (u, x))) u x) as P by (constructor; assumption). split; [eapply okay_part; eassumption|]. split; [eapply small_part; eassumption|].
      eapply same_under; [constructor|exact T].
    - split; [tauto|]. assert (part E H t (HMap (Some o)) u x) as P by (econstructor; eassumption). split; [eapply okay_part; eassumption|]. split; [eapply small_part; eassumption|].
      eapply trail_down; [eassumption|econstructor; eassumption|exact T].
    - exfalso. pose proof (small_kind _ St) as Q. rewrite H0 in Q. destruct Q as (-> & _). discriminate.
  Qed.
  Lemma small_mute t : small_type t -> marshaler E t = false.
  Proof. intros [-> |B]; [reflexivity|]. exact (proj2 (mute_here _ _ (mute_basic E t B))). Qed.
  Lemma inv_obstacle' q e : inv' q -> obstacle X E H q e -> e = EMarshal (CKey TAny).
  Proof.
    intros (Hb & O & St & T) B. destruct B; cbn [type_ value_ by_ trail_] in *;
      try (exfalso; destruct Hb as [Hb|[Hb|Hb]]; discriminate Hb);
      try (exfalso; pose proof (small_kind _ St) as Q; match goal with K : kind_of E _ = _ |- _ => rewrite K in Q end; exact Q).
    - exfalso. rewrite (small_mute _ St) in H0. discriminate.
    - exfalso. destruct O as (w & _ & Hh). destruct H1 as [_ I]. destruct (T _ I) as (o' & Eo & U). apply Ha in Eo. subst o'. exact (no_cycle _ _ Hh U).
    - exfalso. destruct O as (w & _ & Hh). destruct H1 as [_ I]. destruct (T _ I) as (o' & Eo & U). apply Ha in Eo. subst o'. exact (no_cycle _ _ Hh U).
    - exfalso. pose proof (small_kind _ St) as Q. destruct (kind_of E t); try contradiction.
    - pose proof (small_kind _ St) as Q. rewrite H0 in Q. destruct Q as (_ & [-> | ->]); [reflexivity|discriminate].
    - pose proof (small_kind _ St) as Q. rewrite H0 in Q. destruct Q as (_ & [-> | ->]); [reflexivity|discriminate].
    - exfalso. pose proof (small_kind _ St) as Q. rewrite H0 in Q. destruct Q as (-> & _). discriminate.
  Qed.
  Lemma inv_reached' t v q : okay E H t v -> small_type t -> reached X E H t v q -> inv' q.
  Proof.
    intros O St R. unfold reached in R. remember (At ByType ([], 0) t v) as p eqn:Ep.
    assert (inv' p) as Lp by (subst p; split; [left; reflexivity|split; [exact O|split; [exact St|intros a []]]]). clear Ep.
    induction R as [p q B|p|p q r R1 IH1 R2 IH2]; [eapply inv_below'; eassumption|exact Lp|]. apply IH2. apply IH1. exact Lp.
  Qed.
  Lemma small_inside t n : small_type t -> einside X E (false, t) n -> fst n = false /\ small_type (snd n).
  Proof.
    intros St I. induction I as [|a b _ IH P]; [split; [reflexivity|exact St]|]. destruct IH as [_ IH]. apply small_kind in IH.
    destruct P as [v _ K|v _ _ K|k v _ K|k v _ K|id fs f _ K]; rewrite K in IH; try contradiction. destruct IH as (-> & _). split; [reflexivity|left; reflexivity].
  Qed.
  Lemma small_faulty t c : small_type t -> faulty X E t c -> c = CKey TAny.
  Proof.
    intros St (n & I & B). destruct (small_inside _ _ St I) as [_ Sn]. apply small_kind in Sn.
    destruct B as [_ K|_ K|u w _ K|k u _ K N|id fs f _ K|id fs f u w _ K|id fs f _ K]; rewrite K in Sn; try contradiction.
    destruct Sn as (_ & [-> | ->]); [reflexivity|discriminate N].
  Qed.
End Objects.

(** ** C91 PHP data read into an empty interface can be marshalled if and only if
    there is no PHP array in it.

    Objects, which become map[string]any, and everything else are accepted at any
    depth and in any place of memory; with an array anywhere Marshal returns an error. *)
Lemma read_any X E data old w : small data -> Decodes X E data TAny old w -> exists d p, any_val X d p w.
Proof.
  intros Hsm HD. destruct (decodes_inv X E data TAny old w Hsm HD) as (_ & p & _ & S).
  inversion S as [? ? ? ? Hu|? ? ? ? ? ? Hu|? ? ? ? [_ K] Hk|? ? ? ? [_ K]|? ? ? ? ? ? [_ K]|? ? ? ? ? [_ K]|? ? ? ? ? [_ K]|? ? ? ? ? [_ K]|? ? ? ? ? [_ K]
    |? ? ? ? ? [_ K] A|? ? ? ? ? ? ? [_ K]|? ? ? ? ? ? ? ? ? [_ K]|? ? ? ? [_ K]|? ? ? ? [_ K]|? ? ? ? ? ? [_ K]|? ? ? ? [_ K]|? ? ? ? [_ K]|? ? ? ? ? ? ? [_ K]|? ? ? ? ? [_ K]|? ? ? ? ? [_ K]|? ? ? ? ? ? ? ? [_ K]
    |? ? ? ? ? [_ K]|? ? ? ? ? ? ? ? ? [_ K]|? ? ? ? ? [_ K]|? ? ? ? ? ? ? ? ? [_ K]|? ? ? ? [_ K]|? ? ? ? ? ? [_ K]]; subst; try discriminate; try (cbn in K; subst; discriminate).
  exists 0, p. exact A.
Qed.
Definition object_types : list gty := [TBool; TInt I64; TF64; TString; TMap TString TAny; TAny].
Lemma object_type_encodable X E t n : In t object_types -> einside X E (false, t) n -> ~ unencodable X E n.
Proof.
  intros It I. assert (In (snd n) object_types) as J.
  { induction I as [|a b _ IH P]; [exact It|]. destruct P as [v _ K|v _ _ K|k v _ K|k v _ K|id fs f _ K]; cbn [In object_types] in IH;
      repeat (destruct IH as [Q|IH]; [rewrite <- Q in K; cbn in K; try discriminate K; injection K as <- <-; cbn; tauto|]); destruct IH. }
  intros U. cbn [In object_types] in J. destruct U as [_ K|_ K|u w _ K _|k u _ K N|id fs f _ K|id fs f u w _ K|id fs f _ K];
    repeat (destruct J as [Q|J]; [rewrite <- Q in K; cbn in K; try discriminate K; injection K as <- <-; discriminate N|]); destruct J.
Qed.
Theorem C91_accepted_iff : forall X E H ord data old w a, fair_order ord -> methods_return X -> maps_apart X ->
  small data -> Decodes X E data TAny old w -> passed H w a ->
  ((exists b f, snd (marshal X E H ord f st0 a) = ROk b) <-> no_arrays w).
Proof.
  intros X E H ord data old w a Ho Hm Ha Hsm HD P. destruct (read_any X E data old w Hsm HD) as (d & p & A). destruct P as [|t x v Hh].
  { split; [intros _; constructor|intros _; exists out_null, 0%nat; reflexivity]. }
  unfold in_any in *. pose proof (sound_any X E _ _ _ A TAny eq_refl eq_refl) as So. inversion So as [| | | | | | | | | | | | | |T0 t0 v0 K0 HT B G| | |]; subst.
  assert (okay E H t v) as O by (exists x; split; assumption). pose proof (okay_typed E H t v O) as Ty.
  assert (forall u y, within E H t v u y -> finite_arrays X E u) as Hf by (intros u y W; apply small_finite; eapply small_within; [exact O|right; exact B|exact W]).
  split.
  - intros (b & f & Q). assert (exists b, Marshals X E H ord t v b) as Q' by (exists b, f; exact Q).
    apply (C70_accepts_iff X E H ord t v Ho Ty Hm Hf) in Q' as (He & _ & No & _). exact (good_top X E H d p t x v A Hh He No).
  - intros N. assert (content t x) as C by (right; exact N). assert (mute E t) as M by (apply mute_basic; exact B).
    enough (exists b, Marshals X E H ord t v b) as (b & f & Q) by (exists b, f; exact Q).
    apply (C70_accepts_iff X E H ord t v Ho Ty Hm Hf). split; [|split; [exact (ends X E H v x Hh _ _ _)|split]].
    + split; [|exact (Hf t v (wi_refl _ _ _ _))]. intros n I U. eapply object_type_encodable; [|exact I|exact U]. inversion N; cbn; tauto.
    + intros q e R. exact (inv_obstacle X E H Ha q e (inv_reached X E H t v x q Hh C R)).
    + intros q e R D. destruct (mutely_reached X E H t v q M O R) as [Mr _]. destruct D as [s u y p' Hma _]. cbn [type_] in Mr. destruct (mute_here _ _ Mr). congruence.
Qed.
Print Assumptions C91_accepted_iff.
(** Otherwise it is an error about a key of type any: not a panic, and no other error. *)
Theorem C91_refused : forall X E H ord data old w t v, fair_order ord -> methods_return X -> maps_apart X ->
  small data -> Decodes X E data TAny old w -> passed H w (Some (t, v)) -> ~ no_arrays w -> MarshalFails X E H ord t v (EMarshal (CKey TAny)).
Proof.
  intros X E H ord data old w t v Ho Hm Ha Hsm HD P N. pose proof (C91_accepted_iff X E H ord data old w _ Ho Hm Ha Hsm HD P) as Iff.
  destruct (read_any X E data old w Hsm HD) as (d & p & A). inversion P as [|t' x v' Hh]; subst.
  unfold in_any in *. pose proof (sound_any X E _ _ _ A TAny eq_refl eq_refl) as So. inversion So as [| | | | | | | | | | | | | |T0 t0 v0 K0 HT B G| | |]; subst.
  assert (okay E H t v) as O by (exists x; split; assumption). assert (mute E t) as M by (apply mute_basic; exact B).
  destruct (C70_returns X E H ord t v Ho Hm) with (2 := ends X E H v x Hh ByType ([], 0) t) as [[b [f Q]]|[Q|[q Q]]].
  - intros u y W. apply small_finite. eapply small_within; [exact O|right; exact B|exact W].
  - destruct N. apply Iff. exists b, f. exact Q.
  - destruct Q as [e Q]. assert (small_type t) as St by (right; exact B). replace (EMarshal (CKey TAny)) with e; [exact Q|].
    destruct (C70_error_cause X E H ord t v e Ho (okay_typed E H t v O) Q) as [(c & -> & D)|(_ & r & R & D)].
    + rewrite (small_faulty X E t c St D). reflexivity.
    + exact (inv_obstacle' X E H Ha r e (inv_reached' X E H t v r O St R) D).
  - exfalso. destruct (C70_panic_cause X E H ord t v q Ho (okay_typed E H t v O) Q) as (r & R & D).
    destruct (mutely_reached X E H t v r M O R) as [Mr _]. destruct D as [s u y p' Hma _]. cbn [type_] in Mr. destruct (mute_here _ _ Mr). congruence.
Qed.
Print Assumptions C91_refused.

(** O:1:"A":1:{s:1:"x";O:1:"B":1:{s:1:"y";i:5;}} is read and written again, as nested
    arrays; with an array inside it is not. *)
Definition H91 : heap := [ MapObj [(HStr (bs "x"), HIface (Some (TMap TString TAny, HMap (Some 1%nat))))]; MapObj [(HStr (bs "y"), HIface (Some (TInt I64, HInt 5)))];
  MapObj [(HStr (bs "x"), HIface (Some (TMap TAny TAny, HMap (Some 3%nat))))]; MapObj [] ].
Definition w91 : gval := VIface (Some (TMap TString TAny, VMap (Some [(VStr (bs "x"), VIface (Some (TMap TString TAny, VMap (Some [(VStr (bs "y"), VIface (Some (TInt I64, VInt 5)))]))))]))).
Definition w91' : gval := VIface (Some (TMap TString TAny, VMap (Some [(VStr (bs "x"), VIface (Some (TMap TAny TAny, VMap (Some []))))]))).
Example C91_example : fair_order in_order /\ methods_return Xd /\ maps_apart Xd /\
  Decodes Xd [] (bs "O:1:""A"":1:{s:1:""x"";O:1:""B"":1:{s:1:""y"";i:5;}}") TAny (VIface None) w91 /\ passed H91 w91 (Some (TMap TString TAny, HMap (Some 0%nat))) /\ no_arrays w91 /\
  Marshals Xd [] H91 in_order (TMap TString TAny) (HMap (Some 0%nat)) (bs "a:1:{s:1:""x"";a:1:{s:1:""y"";i:5;}}") /\
  Decodes Xd [] (bs "O:1:""A"":1:{s:1:""x"";a:0:{}}") TAny (VIface None) w91' /\ passed H91 w91' (Some (TMap TString TAny, HMap (Some 2%nat))) /\ ~ no_arrays w91' /\
  MarshalFails Xd [] H91 in_order (TMap TString TAny) (HMap (Some 2%nat)) (EMarshal (CKey TAny)).
Proof.
  split; [exact in_order_fair|]. split; [intros n b H v Q; discriminate|]. split; [intros o o' Q; unfold map_at in Q; cbn [x_addr Xd] in Q; lia|].
  split; [exists 12%nat; vm_compute; reflexivity|]. split.
  { apply pd_some. eapply ho_map; [reflexivity|repeat constructor|]. constructor; [|constructor]. split; [apply ho_str|]. apply ho_iface.
    eapply ho_map; [reflexivity|repeat constructor|]. constructor; [|constructor]. split; [apply ho_str|]. apply ho_iface. apply ho_int. }
  split; [repeat constructor|]. split; [exists 12%nat; vm_compute; reflexivity|]. split; [exists 12%nat; vm_compute; reflexivity|]. split.
  { apply pd_some. eapply ho_map; [reflexivity|repeat constructor|]. constructor; [|constructor]. split; [apply ho_str|]. apply ho_iface.
    eapply ho_map; [reflexivity|repeat constructor|constructor]. }
  split; [|exists 12%nat; vm_compute; reflexivity]. intros N. inversion N as [| | | | |m F]; subst. apply Forall_inv in F. inversion F.
Qed.
(** ** What is written: the same data, with arrays keyed by strings for the objects.

    Null, booleans, integers, floats and strings stand for themselves; the class name
    of an object is gone, its entries are kept, in some order. *)
Inductive written (X : Ext) : gval -> php -> Prop :=
| wr_null : written X (VIface None) PNull
| wr_bool b : written X (VIface (Some (TBool, VBool b))) (PBool b)
| wr_int z : written X (VIface (Some (TInt I64, VInt z))) (PInt z)
| wr_float f : written X (VIface (Some (TF64, VF64 f))) (PFloat (float_repr X false f))
| wr_str s : written X (VIface (Some (TString, VStr s))) (PStr s)
| wr_map m l es : Permutation m l ->
    Forall2 (fun e y => (exists s, fst e = VStr s /\ fst y = PStr s) /\ written X (snd e) (snd y)) l es ->
    written X (VIface (Some (TMap TString TAny, VMap (Some m)))) (PArr es).
Section Written.
  Context (X : Ext) (E : env) (H : heap).
  Notation re := (repr X E H anything tt).
  Notation sh := (shape X E H anything tt).
  Notation inn := (inner X E H anything tt).
  Definition stands (t : gty) (v : hval) (p : php) : Prop := re t v p \/ sh t v p \/ inn t v p.
  Lemma stands_shape t v p : marshaler E t = false -> bytes_type t = false -> stands t v p -> sh t v p \/ inn t v p.
  Proof. intros M B [R|R]; [|exact R]. inversion R; subst; try congruence. left. assumption. Qed.
  Lemma any_inner v p : stands TAny v p -> inn TAny v p.
  Proof.
    intros R. apply stands_shape in R; [|reflexivity|reflexivity]. destruct R as [R|R]; [|exact R].
    inversion R; subst; try discriminate; try assumption. apply in_scalar. assumption.
  Qed.
  Lemma any_some t v p : stands TAny (HIface (Some (t, v))) p -> stands t v p.
  Proof. intros R. apply any_inner in R. inversion R as [| | |? ? ? ? ? K Q|? ? ? ? Q| | | | | | | | ]; subst; try discriminate; [right; right; exact Q|inversion Q]. Qed.
  Lemma any_none p : stands TAny (HIface None) p -> p = PNull.
  Proof. intros R. apply any_inner in R. inversion R as [| | |? ? ? ? ? K Q|? ? ? ? Q| | | | | | | | ]; subst; try discriminate; [reflexivity|inversion Q]. Qed.
  Lemma scalar_stands t v p : match t with TBool | TInt _ | TF64 | TString => True | _ => False end -> stands t v p -> scalar_repr X (kind_of E t) v p.
  Proof.
    intros T R. apply stands_shape in R; [|destruct t; try destruct T; reflexivity|destruct t; try destruct T; reflexivity].
    destruct R as [R|R]; inversion R; subst; try assumption; destruct t; try destruct T; discriminate.
  Qed.
  Lemma each_pair s b k t l ps : s = tt -> pairs X E H anything s b k t l ps -> Forall2 (fun e y => key_repr X k (fst e) (fst y) /\ stands t (snd e) (snd y)) l ps.
  Proof.
    intros Es P. induction P; constructor; cbn [fst snd]; auto; subst; (split; [assumption|]); [left|right; right]; assumption.
  Qed.
  Lemma map_stands o p : stands (TMap TString TAny) (HMap (Some o)) p ->
    exists m l ps, p = PArr ps /\ entries H o = Some m /\ Permutation m l /\ Forall2 (fun e y => key_repr X KString (fst e) (fst y) /\ stands TAny (snd e) (snd y)) l ps.
  Proof.
    intros R. apply stands_shape in R; [|reflexivity|reflexivity].
    destruct R as [R|R]; inversion R; subst; try discriminate;
      try (match goal with Q : scalar_repr _ _ _ _ |- _ => inversion Q end);
      try (match goal with Q : kind_of _ _ = KMap _ _ |- _ => cbn in Q; injection Q as <- <- end).
    - do 3 eexists. split; [reflexivity|]. split; [eassumption|]. split; [eassumption|]. match goal with u : unit |- _ => destruct u end. eapply each_pair; [reflexivity|eassumption].
    - exists [], [], []. split; [reflexivity|]. split; [assumption|]. split; [constructor|constructor].
    - do 3 eexists. split; [reflexivity|]. split; [eassumption|]. split; [eassumption|]. match goal with u : unit |- _ => destruct u end. eapply each_pair; [reflexivity|eassumption].
  Qed.
  Definition says_so (w : gval) : Prop := forall v p, holds H v w -> stands TAny v p -> written X w p.
  Lemma map_written m o p : Forall (fun e => says_so (snd e)) m -> holds H (HMap (Some o)) (VMap (Some m)) -> stands (TMap TString TAny) (HMap (Some o)) p ->
    written X (VIface (Some (TMap TString TAny, VMap (Some m)))) p.
  Proof.
    intros G Hh R. destruct (map_stands _ _ R) as (m0 & l & ps & -> & En & Pm & F).
    inversion Hh as [| | | | | | | | | |o' m' ws C' _ F'| | | | | |]; subst. replace m' with m0 in F' by congruence.
    destruct (Permutation_Forall2 Pm F') as (l' & Pm' & F2). apply (wr_map X m l' ps Pm').
    assert (Forall (fun e => says_so (snd e)) l') as G' by (rewrite <- Pm'; exact G). clear - F F2 G'.
    revert ps F G'. induction F2 as [|a b l l' [Ka Kb] F2 IH]; intros ps F G'; inversion F as [|? y ? ps' [[_ K] S] F3]; subst; constructor; [|apply IH; [exact F3|exact (Forall_inv_tail G')]].
    split; [|exact (Forall_inv G' _ _ Kb S)]. destruct a as [a1 a2], b as [b1 b2], y as [y1 y2]. cbn [fst snd] in *. inversion K; subst. inversion Ka; subst. eexists. split; reflexivity.
  Qed.
  Lemma stands_written w : no_arrays w -> forall t x v p, w = VIface (Some (t, x)) -> holds H v x -> stands t v p -> written X w p.
  Proof.
    revert w. fix IH 2. intros w N. 
    assert (forall m, Forall (fun e : gval * gval => no_arrays (snd e)) m -> Forall (fun e => says_so (snd e)) m) as L.
    { fix IHl 2. intros m F. destruct F as [|[k y] m Ny F]; constructor; [|exact (IHl _ F)]. cbn [snd] in *. pose proof (IH y Ny) as IHy. clear IH IHl. intros v p Hh R.
      inversion Hh; subst; try (exfalso; inversion Ny; fail); [apply any_none in R; subst p; constructor|]. apply any_some in R. eapply IHy; [reflexivity|eassumption|exact R]. }
    destruct N as [|b|z|f|s0|m F]; intros t x v p Q Hh R; [discriminate| | | | |]; injection Q as <- <-.
    1-4: apply scalar_stands in R; [|exact I]; clear IH L; inversion Hh; subst; inversion R; subst; constructor.
    specialize (L m F). clear IH. inversion Hh; subst. eapply map_written; eassumption.
  Qed.
End Written.
Theorem C91_written : forall X E H ord w a b f, fair_order ord -> no_arrays w -> passed H w a ->
  snd (marshal X E H ord f st0 a) = ROk b -> exists p, written X w p /\ b = serialize p.
Proof.
  intros X E H ord w a b f Ho N P Q. destruct P as [|t x v Hh].
  { injection Q as <-. exists PNull. split; [constructor|reflexivity]. }
  destruct (C28_marshal_is_serialize X E H ord t v b Ho) as (p & R & ->); [exists f; exact Q|]. exists p. split; [|reflexivity].
  unfold in_any in *. eapply stands_written; [exact N|reflexivity|exact Hh|left; exact R].
Qed.
Print Assumptions C91_written.
Example C91_written_example : written Xd w91 (PArr [(PStr (bs "x"), PArr [(PStr (bs "y"), PInt 5)])]) /\
  serialize (PArr [(PStr (bs "x"), PArr [(PStr (bs "y"), PInt 5)])]) = bs "a:1:{s:1:""x"";a:1:{s:1:""y"";i:5;}}".
Proof.
  split; [|vm_compute; reflexivity]. eapply wr_map; [reflexivity|]. constructor; [|constructor]. split; [eexists; split; reflexivity|].
  eapply wr_map; [reflexivity|]. constructor; [|constructor]. split; [eexists; split; reflexivity|constructor].
Qed.
