(** Marshal returns when every cycle in memory passes through a slice or a map,
    and when the type mentions no interface. *)
From Coq Require Import Strings.String Strings.Byte ZArith List Bool Lia Permutation Arith Relations.Relation_Operators Relations.Operators_Properties Wellfounded.
From Verif Require Import Base GoTypes Strconv Tags Memory EncCompile Encode Php Repr EncApi EncCompileFacts EncTerm EncFacts Values Jobs JobFacts.
Import ListNotations.
Open Scope Z_scope.

(** ** Memory without cycles other than through slices and maps *)
Fixpoint hsize (v : hval) : nat :=
  match v with
  | HArr l | HStruct l => S (list_sum (map hsize l))
  | HIface (Some (_, x)) => S (hsize x)
  | _ => 1
  end%nat.
Lemma in_hsize x l : In x l -> (hsize x <= list_sum (map hsize l))%nat.
Proof. unfold list_sum. induction l as [|y l IH]; intros []; cbn [map fold_right]; [subst; lia|]. specialize (IH H). lia. Qed.

Section Acyclic.
  Context (H : heap).
  Hypothesis Hc : container_cycles H.
  Notation leads := (clos_refl_trans hval (direct H)).

  Lemma leads_trans v w : leads v w -> forall u, direct H w u -> clos_trans hval (direct H) v u.
  Proof.
    intros L u D. apply clos_rt_rtn1 in L. revert u D. induction L as [|y z Hyz _ IH]; intros u D; [apply t_step; exact D|].
    eapply t_trans; [apply IH; exact Hyz|apply t_step; exact D].
  Qed.
  (** the cells of the heap, and how many of them are not among [vis] *)
  Definition spots : list (nat * nat) :=
    flat_map (fun o => match nth_error H o with Some (Cells l) => map (pair o) (seq 0 (length l)) | _ => [] end) (seq 0 (length H)).
  Lemma spot_in o i c : cell H o i = Some c -> In (o, i) spots.
  Proof.
    unfold cell. destruct (nth_error H o) as [[l|m]|] eqn:Q; try discriminate. intros N. apply in_flat_map. exists o. split.
    - apply in_seq. split; [lia|]. cbn. apply nth_error_Some. congruence.
    - rewrite Q. apply List.in_map. apply in_seq. split; [lia|]. cbn. apply nth_error_Some. congruence.
  Qed.
  Definition spot_dec (a b : nat * nat) : {a = b} + {a <> b}.
  Proof. decide equality; apply Nat.eq_dec. Defined.
  Definition visited (vis : list (nat * nat)) (a : nat * nat) : bool := if in_dec spot_dec a vis then true else false.
  Definition fresh (vis : list (nat * nat)) : nat := length (filter (fun a => negb (visited vis a)) spots).
  Lemma visited_cons vis a b : visited (a :: vis) b = visited vis b || (if spot_dec a b then true else false).
  Proof.
    unfold visited. destruct (in_dec spot_dec b (a :: vis)) as [[Q|Q]|Q], (in_dec spot_dec b vis) as [P|P], (spot_dec a b) as [D|D];
      try reflexivity; exfalso; try tauto; apply Q; [right; exact P|right; exact P|left; exact D].
  Qed.
  Lemma fresh_less vis a : In a spots -> visited vis a = false -> (fresh (a :: vis) < fresh vis)%nat.
  Proof.
    unfold fresh. intros Ha Hn. induction spots as [|b r IH]; [destruct Ha|]. cbn [filter].
    assert (length (filter (fun b => negb (visited (a :: vis) b)) r) <= length (filter (fun b => negb (visited vis b)) r))%nat as Hle.
    { clear. induction r as [|b r IH]; cbn [filter]; [lia|]. rewrite visited_cons.
      destruct (visited vis b), (spot_dec a b); cbn [orb negb length]; lia. }
    rewrite visited_cons. destruct Ha as [->|Ha].
    - rewrite Hn. destruct (spot_dec a a) as [_|N]; [|congruence]. cbn [orb negb length]. lia.
    - specialize (IH Ha). destruct (visited vis b), (spot_dec a b); cbn [orb negb length]; lia.
  Qed.
  Lemma direct_acc_vis : forall n vis, (fresh vis <= n)%nat -> forall v,
    (forall o i c, In (o, i) vis -> cell H o i = Some c -> leads c v) -> Acc (fun w v => direct H v w) v.
  Proof.
    induction n as [n IHn] using lt_wf_ind. intros vis Hn v. remember (hsize v) as sz eqn:Hsz. revert v Hsz.
    induction sz as [sz IHs] using lt_wf_ind. intros v -> Hv. constructor. intros w D.
    assert (forall o i c, In (o, i) vis -> cell H o i = Some c -> leads c w) as Hw.
    { intros o i c Ho Hcell. eapply rt_trans; [eapply Hv; eassumption|apply rt_step; exact D]. }
    inversion D as [l x Hx|l x Hx|t x|o i c Hcell]; subst.
    - eapply IHs; [|reflexivity|exact Hw]. apply in_hsize in Hx. cbn [hsize]. lia.
    - eapply IHs; [|reflexivity|exact Hw]. apply in_hsize in Hx. cbn [hsize]. lia.
    - eapply IHs; [|reflexivity|exact Hw]. cbn [hsize]. lia.
    - destruct (visited vis (o, i)) eqn:Q.
      + exfalso. unfold visited in Q. destruct (in_dec spot_dec (o, i) vis) as [Q'|_]; [|discriminate]. apply (Hc w). eapply leads_trans; [eapply Hv; eassumption|exact D].
      + eapply (IHn (fresh ((o, i) :: vis))); [|apply Nat.le_refl|].
        * pose proof (fresh_less vis (o, i) (spot_in _ _ _ Hcell) Q) as L. lia.
        * intros o' i' c' [J|J] Hcell'; [|eapply Hw; eassumption]. injection J as -> ->.
          replace c' with w by congruence. apply rt_refl.
  Qed.
  Lemma direct_acc v : Acc (fun w v => direct H v w) v.
  Proof. eapply (direct_acc_vis _ []); [apply Nat.le_refl|]. intros o i c []. Qed.
End Acyclic.

Section Unchecked.
  Context (X : Ext) (E : env) (H : heap).
  Notation unchecked := (fun j' j => calls X E H false j j').
  Definition job_val (j : job) : hval := match j with Enc _ _ v | Str _ v | IStr _ v => v end.
  (** among jobs on the same value *)
  Definition job_rank (j : job) : nat :=
    match j with
    | Enc m t _ =>
        let looks := match kind_of E t with KPtr _ | KAny | KIface _ => true | _ => false end in
        match m with MIface => if looks then 0 else 4 | MShape => 2 | MType => 3 end
    | Str _ _ => 1
    | IStr _ _ => 0
    end%nat.
  Lemma call_down j j' : calls X E H false j j' ->
    clos_trans hval (direct H) (job_val j) (job_val j') \/ (job_val j' = job_val j /\ (job_rank j' < job_rank j)%nat).
  Proof.
    intros C. inversion C as [t v Hi Hb|t id fs l f v g j0 Hk Hin Hsk Hf|t n t' l x Hk Hx| | |t v Hif|t t' v Hk Hif| |t t' o i c Hk Hst Hpd Hcell|t t' o i c Hk Hif Hpd Hcell
      |t t' o i c Hk Hcell|t t' v Hif|t t' Hk Hif| | | |t id fs v Hk|t v Hif|t t' o i c Hk Hcell|t t' v Hif]; subst; cbn [job_val job_rank].
    - right. split; [reflexivity|]. lia.
    - left. assert (direct H (HStruct l) v) as D by (apply di_field; eapply in_combine_r; exact Hin).
      inversion Hf; subst; cbn [job_val]; try (apply t_step; exact D).
      + eapply t_trans; [apply t_step; exact D|apply t_step; apply di_ptr; assumption].
      + eapply t_trans; [apply t_step; exact D|apply t_step; apply di_ptr; assumption].
    - left. apply t_step. apply di_elem. exact Hx.
    - right. split; [reflexivity|]. destruct (kind_of E t); try discriminate; lia.
    - right. split; [reflexivity|]. rewrite Hk. lia.
    - left. apply t_step. apply di_ptr. exact Hcell.
    - left. apply t_step. apply di_ptr. exact Hcell.
    - left. apply t_step. apply di_ptr. exact Hcell.
    - left. apply t_step. apply di_iface.
    - right. split; [reflexivity|]. rewrite Hk. lia.
    - right. split; [reflexivity|]. rewrite Hk. lia.
    - right. split; [reflexivity|]. lia.
    - left. apply t_step. apply di_ptr. exact Hcell.
    - left. apply t_step. apply di_iface.
  Qed.
  Lemma flip_trans v w : clos_trans hval (direct H) v w -> clos_trans hval (fun w v => direct H v w) w v.
  Proof. induction 1 as [x y D|x y z _ I1 _ I2]; [apply t_step; exact D|eapply t_trans; eassumption]. Qed.
  Lemma unchecked_acc : container_cycles H -> forall j, Acc unchecked j.
  Proof.
    intros Hcy.
    enough (forall v, Acc (clos_trans hval (fun w v => direct H v w)) v -> forall k j, (job_rank j <= k)%nat -> job_val j = v -> Acc unchecked j) as Q.
    { intros j. apply (Q (job_val j)) with (k := job_rank j); [|apply Nat.le_refl|reflexivity]. apply Acc_clos_trans. apply direct_acc. exact Hcy. }
    intros v A. induction A as [v _ IHv]. induction k as [k IHk] using lt_wf_ind. intros j Hk Hv. constructor. intros j' C.
    destruct (call_down j j' C) as [D|[Q L]].
    - eapply (IHv (job_val j')); [rewrite <- Hv; apply flip_trans; exact D|apply Nat.le_refl|reflexivity].
    - eapply (IHk (job_rank j')); [lia|apply Nat.le_refl|congruence].
  Qed.
End Unchecked.

(** the jobs are about parts of the value *)
Section Parts.
  Context (X : Ext) (E : env) (H : heap) (t0 : gty) (v0 : hval).
  Definition about (j : job) : Prop :=
    match j with Enc _ t v | Str t v | IStr t v => within E H t0 v0 t v end.
  Lemma about_calls g j j' : about j -> calls X E H g j j' -> about j'.
  Proof.
    intros P C. inversion C as [t v Hi Hb|t id fs l f v g0 j0 Hk Hin Hsk Hf|t n t' l x Hk Hx|t t' o i n l x Hk Hcell Hx|t k t' o m y x Hk He Hx|t v Hif|t t' v Hk Hif
      |t t' o i c Hk Hst Hcell|t t' o i c Hk Hst Hpd Hcell|t t' o i c Hk Hif Hpd Hcell
      |t t' o i c Hk Hcell|t t' v Hif|t t' Hk Hif|t t' o i n l x Hk Hif Hcell Hx|t t' o i n Hk Hif|t k t' o m y x Hk He Hx|t id fs v Hk|t v Hif|t t' o i c Hk Hcell|t t' v Hif]; subst; cbn [about] in *;
      try exact P; try (eapply wi_step; [exact P|]; first [eapply pt_ptr; eassumption|eapply pt_array; eassumption|eapply pt_slice; eassumption|eapply pt_entry; eassumption|apply pt_iface; assumption]).
    assert (within E H t0 v0 (f_ty f) v) as Q by (eapply wi_step; [exact P|]; eapply pt_field; eassumption).
    inversion Hf; subst; cbn [about]; try exact Q; (eapply wi_step; [exact Q|]; eapply pt_ptr; eassumption).
  Qed.
End Parts.

Theorem halts_container_cycles X E H ord c t v : fair_order ord -> (forall u w, within E H t v u w -> finite_arrays X E u) ->
  methods_return X -> container_cycles H ->
  exists f, snd (marshal X E H ord f c (Some (t, v))) <> RFuel.
Proof.
  intros Ho Hg Hm Hc. apply (class_marshal X E H ord Ho Hm (about E H t v)).
  - intros g j j'. apply about_calls.
  - intros j _. apply unchecked_acc. exact Hc.
  - intros u w x P [->|(k & o & m & y & z & Hk & -> & He & Hin)]; [exact (Hg _ _ P)|]. apply (Hg x z). eapply wi_step; [exact P|]. eapply pt_entry; eassumption.
  - apply (Hg t v). apply wi_refl.
  - intros _. apply wi_refl.
Qed.

(** ** Types without interfaces *)
Section NoIface.
  Context (X : Ext) (E : env) (H : heap) (t0 : gty).
  Hypothesis Henc : encodable X E t0.
  Hypothesis Hni : no_interfaces X E t0.
  Notation inside := (einside X E (false, t0)).
  Notation unchecked := (fun j' j => calls X E H false j j').

  Definition at_node (n : node) (j : job) : Prop :=
    match j with
    | Enc MType t _ => n = (false, t)
    | Enc MShape t _ => snd n = t /\ speaks E n = false /\ (fst n || negb (bytes_type t)) = true
    | _ => False
    end.
  Definition plainly (j : job) : Prop :=
    match j with Str t _ => iface_kind (kind_of E t) = false | _ => exists n, inside n /\ at_node n j end.
  Lemma inside_not n : inside n -> speaks E n = false -> iface_kind (kind_of E (snd n)) = false.
  Proof. intros I Hs. destruct (iface_kind (kind_of E (snd n))) eqn:Q; [|reflexivity]. destruct (Hni _ I). apply hi_self; assumption. Qed.
  (** where a call goes *)
  Definition next (n : node) (j' : job) : Prop :=
    match j' with
    | Str t _ => iface_kind (kind_of E t) = false
    | _ => exists n', (n' = n \/ epart X E n n') /\ at_node n' j'
    end.
  Lemma node_calls n g j j' : inside n -> at_node n j -> calls X E H g j j' -> next n j'.
  Proof.
    intros I P C. inversion C as [t v Hi Hb|t id fs l f v g0 j0 Hk Hin Hsk Hf|t m t' l x Hk Hx|t t' o i m l x Hk Hcell Hx|t k t' o m y x Hk He Hx|t v Hif|t t' v Hk Hif
      |t t' o i c Hk Hst Hcell|t t' o i c Hk Hst Hpd Hcell|t t' o i c Hk Hif Hpd Hcell
      |t t' o i c Hk Hcell|t t' v Hif|t t' Hk Hif|t t' o i m l x Hk Hif Hcell Hx|t t' o i m Hk Hif|t k t' o m y x Hk He Hx|t id fs v Hk|t v Hif|t t' o i c Hk Hcell|t t' v Hif]; subst; cbn [at_node next] in *;
      try (exfalso; exact P).
    - subst n. exists (false, t). split; [left; reflexivity|]. rewrite implements_eq in Hi. rewrite is_bytes_eq in Hb. split; [reflexivity|]. split; [exact Hi|]. rewrite Hb. reflexivity.
    - destruct P as (<- & Hs & _). assert (In f fs) as Hfs by (eapply in_combine_l; exact Hin).
      assert (written_field X f = true) as Hw by (rewrite written_eq, Hsk; reflexivity).
      assert (tag_string (tag_of X f) = true -> iface_kind (kind_of E (elem_or_self E (f_ty f))) = false) as Hstr.
      { intros Ht. destruct (iface_kind (kind_of E (elem_or_self E (f_ty f)))) eqn:Q; [|reflexivity]. destruct (Hni _ I). eapply hi_string; eassumption. }
      assert (tag_string (tag_of X f) = false -> epart X E n (false, elem_or_self E (f_ty f))) as Hpl.
      { intros Ht. eapply ep_field; eassumption. }
      unfold elem_or_self in *.
      inversion Hf as [t' o i c Hkf Ht Hcell|t' o i c Hkf Ht Hst Hcell|t' o i c Hkf Ht Hst Hcell|v0 Hp Ht|v0 Hp Ht]; subst; cbn [next at_node].
      + rewrite Hkf in Hstr. apply Hstr. exact Ht.
      + rewrite Hkf in Hpl. eexists. split; [right; apply Hpl; exact Ht|reflexivity].
      + rewrite Hkf in Hpl. eexists. split; [right; apply Hpl; exact Ht|reflexivity].
      + destruct (kind_of E (f_ty f)) eqn:Q; try discriminate; try (rewrite Q in Hstr; exact (Hstr Ht)); exact (Hstr Ht).
      + exists (false, f_ty f). split; [right|reflexivity]. destruct (kind_of E (f_ty f)) eqn:Q; try discriminate; exact (Hpl Ht).
    - destruct P as (<- & Hs & _). eexists. split; [right; eapply ep_array; [exact Hs|exact Hk]|reflexivity].
    - destruct P as (<- & Hs & Hb). eexists. split; [right; eapply ep_slice; [exact Hs|exact Hb|exact Hk]|reflexivity].
    - destruct P as (<- & Hs & _). eexists. split; [right; eapply ep_map; [exact Hs|exact Hk]|reflexivity].
    - destruct P as (<- & Hs & _). rewrite (inside_not n I Hs) in Hif. discriminate.
    - destruct P as (<- & Hs & _). exfalso. apply (Hni _ I). eapply hi_ptr; eassumption.
    - destruct P as (<- & Hs & _). exists (true, t'). split; [right|split; [reflexivity|split; reflexivity]].
      replace true with (by_structure (kind_of E t')) by (rewrite <- by_structure_eq; unfold ptr_direct; rewrite Hst, orb_true_r; reflexivity).
      eapply ep_ptr; [exact Hs|exact Hk|]. destruct (kind_of E t'); try discriminate; reflexivity.
    - destruct P as (<- & Hs & _). exists (true, t'). split; [right|split; [reflexivity|split; reflexivity]].
      replace true with (by_structure (kind_of E t')) by (rewrite <- by_structure_eq; exact Hpd).
      eapply ep_ptr; [exact Hs|exact Hk|]. destruct (kind_of E t'); try discriminate; reflexivity.
    - destruct P as (<- & Hs & _). exists (false, t'). split; [right|reflexivity].
      rewrite by_structure_eq in Hpd. rewrite <- Hpd. eapply ep_ptr; [exact Hs|exact Hk|exact Hif].
  Qed.
  Lemma plainly_calls g j j' : plainly j -> calls X E H g j j' -> plainly j'.
  Proof.
    intros P C. assert (forall n, inside n -> at_node n j -> plainly j') as Q.
    { intros n I A. pose proof (node_calls n g j j' I A C) as N.
      destruct j' as [m t v|t v|t v]; [|exact N|]; destruct N as (n' & [->|Hp] & A'); (eexists; split; [|exact A']); [exact I|eapply ei_step; eassumption|exact I|eapply ei_step; eassumption]. }
    destruct j as [m t v|t v|t v]; [destruct P as (n & I & A); exact (Q n I A)| |destruct P as (n & I & A); exact (Q n I A)].
    cbn in P. inversion C; subst. congruence.
  Qed.

  Definition fine (n : node) : Prop := inside n -> forall m v, at_node n (Enc m (snd n) v) -> Acc unchecked (Enc m (snd n) v).
  Lemma str_acc t v : iface_kind (kind_of E t) = false -> Acc unchecked (Str t v).
  Proof. intros Hf. constructor. intros j' C. inversion C; subst. congruence. Qed.
  (** by shape is enough *)
  Lemma shape_fine n : (inside n -> forall v, at_node n (Enc MShape (snd n) v) -> Acc unchecked (Enc MShape (snd n) v)) -> fine n.
  Proof.
    intros Q I m v P. destruct m; [|apply Q; assumption|destruct P]. constructor. intros j' C. cbn [at_node] in P. destruct n as [b t]. cbn [snd] in *. injection P as ->.
    inversion C as [t1 v1 Hi Hb| | | | | | | | | | | | | | | | | | | ]; subst. apply Q; [exact I|]. rewrite implements_eq in Hi. rewrite is_bytes_eq in Hb.
    split; [reflexivity|]. split; [exact Hi|]. rewrite Hb. reflexivity.
  Qed.
  (** neither pointer, struct nor interface *)
  Lemma flat_acc n : ptr_kind (kind_of E (snd n)) = false -> struct_kind (kind_of E (snd n)) = false ->
    (forall k u, speaks E n = false -> kind_of E (snd n) = KArray k u -> fine (false, u)) -> fine n.
  Proof.
    intros Hp Hs Ha. apply shape_fine. intros I v P. constructor. intros j' C. pose proof (node_calls n _ _ _ I P C) as P'. destruct P as (_ & Hsp & _).
    inversion C as [t1 v1 Hi Hb|t1 id fs l f v1 g0 j0 Hk1 Hin Hsk Hf|t1 m t' l x Hk1 Hx| | |t1 v1 Hif|t1 t' v1 Hk1 Hif| |t1 t' o i c Hk1 Hst Hpd Hcell|t1 t' o i c Hk1 Hif Hpd Hcell
        | | | | | | | | | | ]; subst; try (rewrite Hk1 in *; discriminate).
    - apply (Ha m t' Hsp Hk1); [|reflexivity]. eapply ei_step; [exact I|]. eapply ep_array; eassumption.
    - destruct P' as (n' & _ & []).
  Qed.
  (** pointers lead to flat types *)
  Lemma ptr_acc n u : kind_of E (snd n) = KPtr u ->
    (forall n', epart X E n n' -> struct_kind (kind_of E (snd n')) = false -> ptr_kind (kind_of E (snd n')) = false -> fine n') -> fine n.
  Proof.
    intros Hk Hu. apply shape_fine. intros I v P. constructor. intros j' C. pose proof (node_calls n _ _ _ I P C) as P'. destruct P as (_ & Hs & _).
    assert (ptr_kind (kind_of E u) = false) as Hpp.
    { destruct (kind_of E u) eqn:Q; try reflexivity. destruct (proj1 Henc _ I). eapply ue_ptr; eassumption. }
    assert (iface_kind (kind_of E u) = false) as Hif.
    { destruct (iface_kind (kind_of E u)) eqn:Q; [|reflexivity]. destruct (Hni _ I). eapply hi_ptr; eassumption. }
    assert (epart X E n (by_structure (kind_of E u), u)) as Hep by (apply ep_ptr; assumption).
    assert (inside (by_structure (kind_of E u), u)) as Iu by (eapply ei_step; eassumption).
    inversion C as [t1 v1 Hi Hb|t1 id fs l f v1 g0 j0 Hk1 Hin Hsk Hf|t1 m t' l x Hk1 Hx| | |t1 v1 Hif1|t1 t' v1 Hk1 Hif1| |t1 t' o i c Hk1 Hst Hpd Hcell|t1 t' o i c Hk1 Hif1 Hpd Hcell
        | | | | | | | | | | ]; subst; try congruence.
    - rewrite Hk in Hif1. discriminate.
    - replace t' with u in * by congruence. apply (Hu _ Hep Hst Hpp Iu). cbn [at_node fst snd speaks]. rewrite <- by_structure_eq, Hpd. split; [reflexivity|split; reflexivity].
    - replace t' with u in * by congruence. rewrite <- by_structure_eq, Hpd in *. apply (Hu _ Hep); [|exact Hpp|exact Iu|reflexivity].
      cbn [snd]. unfold ptr_direct in Hpd. destruct (struct_kind (kind_of E u)); [rewrite orb_true_r in Hpd; discriminate|reflexivity].
  Qed.

  Section Level.
    Context (n0 : node).
    Hypothesis arrays : forall a k u, einside X E n0 a -> speaks E a = false -> kind_of E (snd a) = KArray k u -> fine (false, u).
    Lemma flat_level n : einside X E n0 n -> struct_kind (kind_of E (snd n)) = false -> ptr_kind (kind_of E (snd n)) = false -> fine n.
    Proof. intros Hn Hs Hp. apply flat_acc; [exact Hp|exact Hs|]. intros k u Hsp Hk. eapply arrays; eassumption. Qed.
    Lemma level_acc : forall k n m v, (hsize v <= k)%nat -> einside X E n0 n -> inside n -> at_node n (Enc m (snd n) v) -> Acc unchecked (Enc m (snd n) v).
    Proof.
      induction k as [k IHk] using lt_wf_ind. intros n m v Hv Hn I P.
      destruct (ptr_kind (kind_of E (snd n))) eqn:Hp.
      { destruct (kind_of E (snd n)) as [| | | | | | | | |u| | | |] eqn:Hk; try discriminate. eapply ptr_acc; [exact Hk| |exact I|exact P].
        intros n' Hn' Hs Hp'. apply flat_level; try assumption. eapply ei_step; eassumption. }
      destruct (struct_kind (kind_of E (snd n))) eqn:Hst; [|exact (flat_level n Hn Hst Hp I m v P)].
      assert (forall v, (hsize v <= k)%nat -> at_node n (Enc MShape (snd n) v) -> Acc unchecked (Enc MShape (snd n) v)) as Q.
      { clear v Hv P. intros v Hv P. constructor. intros j' C. pose proof (node_calls n _ _ _ I P C) as P'. destruct P as (_ & Hs & _).
        inversion C as [t2 v1 Hi Hb|t2 id fs l f v1 g0 j0 Hk1 Hin Hsk Hf|t2 m' t' l x Hk1 Hx| | |t2 v1 Hif|t2 t' v1 Hk1 Hif| |t2 t' o i c Hk1 Hst1 Hpd Hcell|t2 t' o i c Hk1 Hif Hpd Hcell
        | | | | | | | | | | ]; subst; try (rewrite ?Hk1 in *; discriminate); [|destruct (kind_of E (snd n)); discriminate].
        assert (In f fs) as Hfs by (eapply in_combine_l; exact Hin).
        assert (written_field X f = true) as Hw by (rewrite written_eq, Hsk; reflexivity).
        assert (hsize v1 < hsize (HStruct l))%nat as Hlt by (apply in_combine_r in Hin; apply in_hsize in Hin; cbn [hsize]; lia).
        assert (tag_string (tag_of X f) = false -> epart X E n (false, elem_or_self E (f_ty f))) as Hpl by (intros Ht; eapply ep_field; eassumption).
        unfold elem_or_self in Hpl.
        inversion Hf as [t' o i c Hkf Htg Hcell|t' o i c Hkf Htg Hst1 Hcell|t' o i c Hkf Htg Hst1 Hcell|v0 Hp1 Htg|v0 Hp1 Htg]; subst.
        - apply str_acc. exact P'.
        - rewrite Hkf in Hpl. specialize (Hpl Htg). apply (flat_level (false, t')); [eapply ei_step; eassumption|exact Hst1| |eapply ei_step; eassumption|reflexivity].
          cbn [snd]. destruct (kind_of E t') eqn:Q; try reflexivity. destruct (proj1 Henc _ I). eapply ue_field_ptr; eassumption.
        - apply str_acc. exact P'.
        - assert (epart X E n (false, f_ty f)) as Hep by (destruct (kind_of E (f_ty f)) eqn:Q; try discriminate; exact (Hpl Htg)).
          apply (IHk (hsize v1) ltac:(lia) (false, f_ty f) MType v1 (le_n _)); [eapply ei_step; eassumption|eapply ei_step; eassumption|reflexivity]. }
      destruct m; [|apply Q; assumption|destruct P]. constructor. intros j' C. cbn [at_node] in P. destruct n as [b t]. cbn [snd] in *. injection P as ->.
      inversion C as [t1 v1 Hi Hb| | | | | | | | | | | | | | | | | | | ]; subst. apply Q; [exact Hv|]. rewrite implements_eq in Hi. rewrite is_bytes_eq in Hb.
      split; [reflexivity|]. split; [exact Hi|]. rewrite Hb. reflexivity.
    Qed.
  End Level.
  Lemma acc_fine n0 : Acc (elem_below X E) n0 -> forall n, einside X E n0 n -> fine n.
  Proof.
    intros Ha. induction Ha as [n0 _ IH]. intros n Hn I m v P. apply (level_acc n0) with (k := hsize v); [|apply Nat.le_refl|exact Hn|exact I|exact P].
    intros a k u Hi Hs Hk. apply (IH (false, u)); [exists a, k, u; auto|apply ei_refl].
  Qed.
  Lemma plainly_acc j : plainly j -> Acc unchecked j.
  Proof.
    intros P. destruct j as [m t v|t v|t v]; [|apply str_acc; exact P|destruct P as (n & _ & [])]. destruct P as (n & I & A).
    assert (snd n = t) as <- by (destruct m; cbn in A; [subst n; reflexivity|exact (proj1 A)|destruct A]).
    exact (acc_fine (false, t0) (finite_acc X E t0 (proj2 Henc)) n I I m v A).
  Qed.
End NoIface.

Theorem halts_no_interfaces X E H ord c t v : fair_order ord -> finite_arrays X E t -> methods_return X -> no_interfaces X E t ->
  exists f, snd (marshal X E H ord f c (Some (t, v))) <> RFuel.
Proof.
  intros Ho Hg Hm Hn. destruct (compile_ends X E t Hg) as [f0 N].
  destruct (ecompile_f X E f0 false [] t) as [S0|e|p|] eqn:Q; [|exists f0; unfold marshal, compile_now, bindM, lift; rewrite Q; discriminate| |congruence].
  2:{ exists f0. unfold marshal, compile_now, bindM, lift. rewrite Q. discriminate. }
  apply compile_encodable in Q.
  apply (class_marshal X E H ord Ho Hm (plainly X E t)).
  - intros g j j'. apply plainly_calls. exact Hn.
  - intros j. apply (plainly_acc X E H t Q Hn).
  - intros u w x (n & _ & []).
  - exact Hg.
  - intros _. exists (false, t). split; [apply ei_refl|reflexivity].
Qed.
