(** Values that come from Unmarshal into a zero value hold nothing in their empty
    interfaces that could have methods, so that no custom Marshaler speaks when
    they are marshalled.  Used by C75. *)
From Coq Require Import Strings.String Strings.Byte ZArith List Bool Lia Permutation.
From Verif Require Import Base GoTypes Tags Grammar Denote Typing Memory EncCompile Php Repr EncApi ReprFacts PhpFacts MarshalFacts RoundTrip RoundTripFacts.
Import ListNotations.
Open Scope Z_scope.

Definition flat (v : gval) : bool :=
  match v with
  | VBool _ | VInt _ | VUint _ | VF32 _ | VF64 _ | VStr _ | VOther | VSlice None | VMap None | VPtr None | VIface None => true
  | _ => false
  end.
Definition basic (t : gty) : bool :=
  match t with TBool | TInt _ | TF64 | TString | TMap TAny TAny | TMap TString TAny => true | _ => false end.
Inductive quiet : gval -> Prop :=
| qu_flat v : flat v = true -> quiet v
| qu_slice l : Forall quiet l -> quiet (VSlice (Some l))
| qu_arr l : Forall quiet l -> quiet (VArr l)
| qu_struct l : Forall quiet l -> quiet (VStruct l)
| qu_map m : Forall (fun e => quiet (fst e) /\ quiet (snd e)) m -> quiet (VMap (Some m))
| qu_ptr v : quiet v -> quiet (VPtr (Some v))
| qu_iface t v : basic t = true -> quiet v -> quiet (VIface (Some (t, v))).

Lemma quiet_zero E T : quiet (zero E T).
Proof.
  unfold zero. generalize (S (length E)) as f. intros f. revert T. induction f as [|f IH]; induction T; try (apply qu_flat; reflexivity); cbn [zero_f].
  - apply qu_arr. apply Forall_forall. intros x Hx. apply repeat_spec in Hx as ->. exact IHT.
  - apply qu_arr. apply Forall_forall. intros x Hx. apply repeat_spec in Hx as ->. exact IHT.
  - destruct (nth_error E n) as [d|]; [|apply qu_flat; reflexivity]. destruct (d_under d) as [fs|t].
    + apply qu_struct. apply Forall_forall. intros x Hx. apply in_map_iff in Hx as (g & <- & _). apply IH.
    + apply IH.
Qed.
Lemma quiet_update l i v : Forall quiet l -> quiet v -> Forall quiet (update l i v).
Proof. revert i. induction l as [|x l IH]; intros [|i] F Hv; cbn [update]; try assumption; constructor; try exact Hv; try exact (Forall_inv F); [exact (Forall_inv_tail F)|apply IH; [exact (Forall_inv_tail F)|exact Hv]]. Qed.
Notation quiet_map := (Forall (fun e : gval * gval => quiet (fst e) /\ quiet (snd e))).
Lemma quiet_set k v m : quiet_map m -> quiet k -> quiet v -> quiet_map (map_set k v m).
Proof.
  intros F Hk Hv. induction m as [|[k' v'] m IH]; cbn [map_set]; [constructor; [split; assumption|constructor]|].
  destruct (key_eqb k' k); constructor; try exact (Forall_inv_tail F).
  - split; [exact (proj1 (Forall_inv F))|exact Hv].
  - exact (Forall_inv F).
  - apply IH. exact (Forall_inv_tail F).
Qed.
Lemma quiet_nth l i v : Forall quiet l -> nth_error l i = Some v -> quiet v.
Proof. intros F Q. rewrite Forall_forall in F. apply F. eapply nth_error_In. exact Q. Qed.
Lemma quiet_any_key k w : any_key k w -> quiet w.
Proof. intros []; (apply qu_iface; [reflexivity|apply qu_flat; reflexivity]). Qed.
Lemma quiet_obj_key k w : obj_key k w -> quiet w.
Proof. intros []; apply qu_flat; reflexivity. Qed.
Lemma quiet_any X : forall d p w, any_val X d p w -> quiet w.
Proof.
  fix IH 4. intros d p w A. destruct A as [d|d b|d t z Ht Hr|d t f H1 H2 H3|d n s Hs|d n es m Hd Hn Hm M|d cn cls n es m Hd Hb Hn Hm M];
    try (apply qu_flat; reflexivity); (apply qu_iface; [reflexivity|]); try (apply qu_flat; reflexivity); apply qu_map; clear Hm.
  - assert (quiet_map []) as G by constructor. revert M G. generalize (@nil (gval * gval)) as acc. intros acc M. revert acc es m M.
    fix IHm 4. intros acc es m [m0|m0 k q es' kv vv m' Hk Hv Hh M'] G; [exact G|].
    apply (IHm _ _ _ M'). apply quiet_set; [exact G|exact (quiet_any_key _ _ Hk)|exact (IH _ _ _ Hv)].
  - clear Hb. assert (quiet_map []) as G by constructor. revert M G. generalize (@nil (gval * gval)) as acc. intros acc M. revert acc es m M.
    fix IHm 4. intros acc es m [m0|m0 k q es' kv vv m' Hk Hv Hh M'] G; [exact G|].
    apply (IHm _ _ _ M'). apply quiet_set; [exact G|exact (quiet_obj_key _ _ Hk)|exact (IH _ _ _ Hv)].
Qed.
Lemma quiet_quoted X E T t w : quoted_scalar X E T t w -> quiet w.
Proof. intros []; apply qu_flat; reflexivity. Qed.
Lemma quiet_store_quoted X E T p v w : store_quoted X E T p v w -> quiet v -> quiet w.
Proof.
  intros [t v0 _|t n s o w0 _ _ Q|v0 _|n s v0 w0 _ _ Q] Hv; try exact Hv; try (apply qu_flat; reflexivity); apply quiet_quoted in Q; [apply qu_ptr|]; exact Q.
Qed.

(** No type inside [T] has methods. *)
Definition mute (E : env) (T : gty) : Prop := forall U, inside E T U -> has_unmarshal E U = None /\ marshaler E U = false.
Lemma inside_trans E T U V : inside E T U -> inside E U V -> inside E T V.
Proof. intros A B. induction B as [|U' V' B IH C]; [exact A|eapply in_step; eassumption]. Qed.
Lemma mute_part E T U : mute E T -> component E T U -> mute E U.
Proof. intros M C V HV. apply M. eapply inside_trans; [|exact HV]. eapply in_step; [apply Typing.in_refl|exact C]. Qed.
Lemma mute_here E T : mute E T -> has_unmarshal E T = None /\ marshaler E T = false.
Proof. intros M. apply M. apply Typing.in_refl. Qed.
Lemma lookup_in X fs k : forall i j f, lookup_from X i fs k = Some (j, f) -> In f fs /\ is_ignored f = false.
Proof.
  induction fs as [|g fs IH]; intros i j f Q; [discriminate|]. cbn [lookup_from] in Q. destruct (negb (is_ignored g) && bytes_eqb (Denote.field_key X g) k) eqn:B.
  - injection Q as _ ->. apply andb_true_iff in B as [B _]. split; [left; reflexivity|destruct (is_ignored f); [discriminate|reflexivity]].
  - destruct (IH _ _ _ Q). split; [right; assumption|assumption].
Qed.

Section Store.
  Context (X : Ext) (E : env).
  Lemma quiet_store : forall d T p v w, store X E d T p v w -> mute E T -> quiet v -> quiet w.
  Proof.
    fix IH 6. intros d T p v w S M Hv.
    assert (forall t d' slots zv l es l', mute E t -> quiet zv -> slice_entries slots zv (store X E d' t) l es l' -> Forall quiet l -> Forall quiet l') as SL.
    { intros t d' slots zv l es l' Mt Hz. revert l es l'. fix IHl 4. intros l es l' [l0|l0 t0 i q es' old x l1 Hi Ho Hx R|l0 t0 i q es' x l1 Hi Hle Hlt Hs Hx R] F.
      - exact F.
      - apply (IHl _ _ _ R). apply quiet_update; [exact F|]. exact (IH _ _ _ _ _ Hx Mt (quiet_nth _ _ _ F Ho)).
      - apply (IHl _ _ _ R). apply Forall_app. split; [exact F|]. apply Forall_app. split.
        + apply Forall_forall. intros y Hy. apply repeat_spec in Hy as ->. exact Hz.
        + constructor; [exact (IH _ _ _ _ _ Hx Mt Hz)|constructor]. }
    assert (forall t d' l es l', mute E t -> array_entries d' (store X E d' t) l es l' -> Forall quiet l -> Forall quiet l') as AL.
    { intros t d' l es l' Mt. revert l es l'. fix IHl 4. intros l es l' [l0|l0 t0 i q es' old x l1 Hi Ho Hx R|l0 t0 z q es' l1 Hi Hle Hs R] F.
      - exact F.
      - apply (IHl _ _ _ R). apply quiet_update; [exact F|]. exact (IH _ _ _ _ _ Hx Mt (quiet_nth _ _ _ F Ho)).
      - exact (IHl _ _ _ R F). }
    destruct S as [d T n v Hu|d T n p v w Hu Hp Hs Hx|d T k v P Hk|d T b v P|d T k t z v P Ht Hr|d T k t v P Ht Hr|d T t f v P H1 H2 H3|d T t f v P H1 H2 H3 H4|d T n s v P Hs
      |d T p v w P A|d T m t n p v P Ev Hu|d T m t n p v old new P Ev Hu Hp Hs Hx|d T m v P Hn|d T t v P Hb|d T t n s v P Hb Hs
      |d T t v P Hb Hd|d T t v P Hd|d T t n es v l P Hd Hn Hh Hm Hs He SE|d T n t v P Hd|d T n t v P Hd|d T k t n es v l P Hd Hn Hh Hm He AE
      |d T k t v P Hd|d T k t p n es o m P Hd Hb Hn Hm ME|d T id fs v P Hd|d T id fs p n es l l' P Hd Hb Hn SE|d T t v P Hi|d T t p o w P Hi Hp S'];
      try exact Hv; try (apply qu_flat; reflexivity).
    - exfalso. destruct (mute_here _ _ M). congruence.
    - exfalso. destruct (mute_here _ _ M). congruence.
    - exact (quiet_any _ _ _ _ A).
    - exfalso. subst v. inversion Hv; subst; discriminate.
    - unfold vbytes. apply qu_slice. apply Forall_forall. intros x Hx. apply in_map_iff in Hx as (y & <- & _). apply qu_flat. reflexivity.
    - apply qu_slice. eapply SL; [|apply quiet_zero|exact SE|constructor]. eapply mute_part; [exact M|eapply co_slice; exact P].
    - apply qu_arr. apply Forall_forall. intros x Hx. apply repeat_spec in Hx as ->. apply quiet_zero.
    - apply qu_arr. eapply AL; [|exact AE|]; [eapply mute_part; [exact M|eapply co_array; exact P]|]. apply Forall_forall. intros x Hx. apply repeat_spec in Hx as ->. apply quiet_zero.
    - apply qu_map. assert (mute E k) as Mk by (eapply mute_part; [exact M|eapply co_key; exact P]). assert (mute E t) as Mt by (eapply mute_part; [exact M|eapply co_val; exact P]).
      assert (quiet_map (match o with Some m0 => m0 | None => [] end)) as F.
      { destruct o as [m0|]; [|constructor]. inversion Hv; subst; [discriminate|assumption]. }
      clear Hv Hb. revert F. generalize dependent (match o with Some m0 => m0 | None => [] end). intros acc ME. revert acc es m ME.
      fix IHm 4. intros acc es m [m0|m0 kp q es' kv vv m' Hk Hx Hh R] F; [exact F|]. apply (IHm _ _ _ R). apply quiet_set; [exact F| |exact (IH _ _ _ _ _ Hx Mt (quiet_zero _ _))].
      clear F Mt. destruct Hk as [d' T' p' w' _ Hx'|d' T' t' _ _ _]; [exact (IH _ _ _ _ _ Hx' Mk (quiet_zero _ _))|apply quiet_zero].
    - apply qu_struct. assert (Forall quiet l) as F by (inversion Hv; subst; [discriminate|assumption]). clear Hv Hb. revert F. revert l es l' SE.
      fix IHl 4. intros l es l' [l0|l0 kp k i f q es' old x l1 Hk Hl Ho Hs Hx R|l0 kp k i f q es' old x l1 Hk Hl Ho Hs Hx R|l0 kp k q es' l1 Hk Hl Hs R] F.
      + exact F.
      + apply (IHl _ _ _ R). apply quiet_update; [exact F|]. refine (IH _ _ _ _ _ Hx _ (quiet_nth _ _ _ F Ho)).
        destruct (lookup_in _ _ _ _ _ _ Hl). eapply mute_part; [exact M|eapply co_field; [exact P|assumption|assumption]].
      + apply (IHl _ _ _ R). apply quiet_update; [exact F|]. exact (quiet_store_quoted _ _ _ _ _ _ Hx (quiet_nth _ _ _ F Ho)).
      + exact (IHl _ _ _ R F).
    - apply qu_ptr. refine (IH _ _ _ _ _ S' _ _); [eapply mute_part; [exact M|eapply co_ptr; exact P]|].
      destruct o as [v0|]; [inversion Hv; subst; [discriminate|assumption]|apply quiet_zero].
  Qed.
End Store.

Lemma mute_basic E t : basic t = true -> mute E t.
Proof.
  intros B U HU. assert (basic U = true \/ U = TAny) as Q.
  { induction HU as [|U V HU IH C]; [left; exact B|]. destruct IH as [IH| ->].
    - destruct C as [t' [_ K]|t' [_ K]|n t' [_ K]|k t' [_ K]|k t' [_ K]|id fs f [_ K] _ _]; destruct U as [| | | | | | | |kt vt| | | | |]; try discriminate IH; try discriminate K;
        cbn in K; injection K as <- <-; destruct kt; try discriminate IH; destruct vt; try discriminate IH; auto.
    - destruct C as [t' [_ K]|t' [_ K]|n t' [_ K]|k t' [_ K]|k t' [_ K]|id fs f [_ K] _ _]; discriminate K. }
  destruct Q as [Q| ->]; [|split; reflexivity]. destruct U; try discriminate Q; split; reflexivity.
Qed.

Section Repr.
  Context (X : Ext) (E : env) (H : heap) {S : Type} (en : S -> bool -> addr -> S -> Prop).
  Definition silent (t : gty) (v : hval) (p : php) : Prop := mute E t -> forall w, holds H v w -> quiet w -> raw_free p = true.
  Notation raws := (Forall (fun e : php * php => raw_free (fst e) = true /\ raw_free (snd e) = true)).
  Lemma scalar_raw k v p : scalar_repr X k v p -> raw_free p = true.
  Proof. intros []; reflexivity. Qed.
  Lemma key_raw k v p : key_repr X k v p -> raw_free p = true.
  Proof. intros [_ Hs]. eapply scalar_raw; exact Hs. Qed.
  Lemma quoted_any_raw t v p : quoted_any X E H t v p -> raw_free p = true.
  Proof. induction 1; try reflexivity; assumption. Qed.
  Lemma quoted_raw t v p : quoted_repr X E H t v p -> raw_free p = true.
  Proof. intros []; try reflexivity. eapply quoted_any_raw. eassumption. Qed.
  Lemma part_ptr T t : mute E T -> kind_of E T = KPtr t -> mute E t.
  Proof. intros M K. eapply mute_part; [exact M|]. eapply co_ptr. split; [apply mute_here; exact M|exact K]. Qed.
  Lemma part_slice T t : mute E T -> kind_of E T = KSlice t -> mute E t.
  Proof. intros M K. eapply mute_part; [exact M|]. eapply co_slice. split; [apply mute_here; exact M|exact K]. Qed.
  Lemma part_val T k t : mute E T -> kind_of E T = KMap k t -> mute E t.
  Proof. intros M K. eapply mute_part; [exact M|]. eapply co_val. split; [apply mute_here; exact M|exact K]. Qed.
  Lemma ptr_cell o i c w : holds H (HPtr (Some (o, i))) w -> quiet w -> cell H o i = Some c -> exists w', holds H c w' /\ quiet w'.
  Proof. intros Hh Hq Hc. inversion Hh as [| | | | | | | | | | | |o' i' c' w' Hc' Hw| | | |]; subst. exists w'. split; [congruence|]. inversion Hq; subst; [discriminate|assumption]. Qed.
  Lemma slice_cells o i n l w : holds H (HSlice (Some (o, i, n))) w -> quiet w -> cells H o i n = Some l -> exists ws, Forall2 (holds H) l ws /\ Forall quiet ws.
  Proof. intros Hh Hq Hc. inversion Hh as [| | | | | | |o' i' n' l' ws Hc' F| | | | | | | | |]; subst. exists ws. split; [congruence|]. inversion Hq; subst; [discriminate|assumption]. Qed.
  Lemma map_cells o m l w : holds H (HMap (Some o)) w -> quiet w -> entries H o = Some m -> Permutation m l ->
    exists ws, Forall2 (fun e x => holds H (fst e) (fst x) /\ holds H (snd e) (snd x)) l ws /\ quiet_map ws.
  Proof.
    intros Hh Hq Hc Hp. inversion Hh as [| | | | | | | | | |o' m' ws Hc' _ F| | | | | |]; subst. replace m' with m in F by congruence.
    destruct (Permutation_Forall2 Hp F) as (ws' & P & F'). exists ws'. split; [exact F'|]. eapply Permutation_Forall; [exact P|]. inversion Hq; subst; [discriminate|assumption].
  Qed.

  Theorem repr_quiet :
    (forall s t v p, repr X E H en s t v p -> silent t v p) /\
    (forall s t v p, shape X E H en s t v p -> silent t v p) /\
    (forall s t v p, inner X E H en s t v p -> silent t v p) /\
    (forall s b t i l ps, elems X E H en s b t i l ps -> mute E t -> forall ws, Forall2 (holds H) l ws -> Forall quiet ws -> raws ps) /\
    (forall s b k t l ps, pairs X E H en s b k t l ps -> mute E t -> forall ws,
      Forall2 (fun e x => holds H (fst e) (fst x) /\ holds H (snd e) (snd x)) l ws -> quiet_map ws -> raws ps) /\
    (forall s fs l ps, fields X E H en s fs l ps -> (forall f, In f fs -> is_ignored f = false -> mute E (f_ty f)) ->
      forall ws, Forall2 (holds H) l ws -> Forall quiet ws -> raws ps) /\
    (forall s g v p, field_val X E H en s g v p -> silent (f_ty g) v p).
  Proof.
    apply repr_ind7; unfold silent; intros; try reflexivity; try (eapply scalar_raw; eassumption); try (eapply quoted_raw; eassumption); try apply Forall_nil; eauto.
    all: try (match goal with C : cell H _ _ = Some _, Hh : holds H (HPtr _) _ |- _ => eapply ptr_cell in C; [|exact Hh|assumption]; destruct C as (w' & Hw & Hqw) end;
      match goal with K : kind_of E _ = KPtr _ |- _ => apply part_ptr in K; [|assumption] end; eauto; fail).
    all: try (match goal with C : cells H _ _ _ = Some _, Hh : holds H (HSlice _) _ |- _ => eapply slice_cells in C; [|exact Hh|assumption]; destruct C as (ws & Hws & Hqs) end;
      match goal with K : kind_of E _ = KSlice _ |- _ => apply part_slice in K; [|assumption] end; apply raw_free_arr; eauto; fail).
    all: try (match goal with C : entries H _ = Some _, Hp : Permutation _ _, Hh : holds H (HMap _) _ |- _ => eapply map_cells in C; [|exact Hh|assumption|exact Hp]; destruct C as (ws & Hws & Hqs) end;
      match goal with K : kind_of E _ = KMap _ _ |- _ => apply part_val in K; [|assumption] end; apply raw_free_arr; eauto; fail).
    - exfalso. destruct (mute_here _ _ H2). congruence.
    - match goal with Hh : holds H (HStruct _) _ |- _ => inversion Hh as [| | | | | | | | | | | | | | |l' ws F|]; subst end. apply raw_free_arr.
      match goal with IH : (forall g, In g fs -> _) -> _ |- _ => apply (IH) with (ws := ws); [|exact F|] end.
      + intros g Hg Hi. eapply mute_part; [eassumption|]. eapply co_field; [split; [apply mute_here; assumption|eassumption]|exact Hg|exact Hi].
      + match goal with Q : quiet (VStruct _) |- _ => inversion Q; subst; [discriminate|assumption] end.
    - match goal with Hh : holds H (HArr _) _ |- _ => inversion Hh as [| | | | | | | |l' ws F| | | | | | | |]; subst end. apply raw_free_arr.
      match goal with IH : mute E t' -> _ |- _ => apply (IH) with (ws := ws); [|exact F|] end.
      + eapply mute_part; [eassumption|]. eapply co_array. split; [apply mute_here; assumption|eassumption].
      + match goal with Q : quiet (VArr _) |- _ => inversion Q; subst; [discriminate|assumption] end.
    - match goal with Hh : holds H (HIface _) _ |- _ => inversion Hh as [| | | | | | | | | | | | | |t1 v1 w1 Hw| |]; subst end.
      match goal with Q : quiet (VIface _) |- _ => inversion Q as [| | | | | |t1 v1 B Qw]; subst; [discriminate|] end.
      match goal with IH : mute E t' -> _ |- _ => exact (IH (mute_basic E t' B) _ Hw Qw) end.
    - match goal with F : Forall2 _ (_ :: _) _ |- _ => inversion F; subst end. match goal with F : Forall quiet (_ :: _) |- _ => inversion F; subst end.
      constructor; [split; [reflexivity|cbn [snd]; eauto]|eauto].
    - match goal with F : Forall2 _ (_ :: _) _ |- _ => inversion F; subst end. match goal with F : Forall quiet (_ :: _) |- _ => inversion F; subst end.
      constructor; [split; [reflexivity|cbn [snd]; eauto]|eauto].
    - match goal with F : Forall2 _ (_ :: _) _ |- _ => inversion F as [|? x0 ? ws' [_ Hx] F']; subst end.
      match goal with F : Forall _ (x0 :: _) |- _ => pose proof (Forall_inv F) as [_ Qx]; pose proof (Forall_inv_tail F) as Q' end.
      constructor; [split; [eapply key_raw; eassumption|cbn [fst snd] in *; eauto]|eauto].
    - match goal with F : Forall2 _ (_ :: _) _ |- _ => inversion F as [|? x0 ? ws' [_ Hx] F']; subst end.
      match goal with F : Forall _ (x0 :: _) |- _ => pose proof (Forall_inv F) as [_ Qx]; pose proof (Forall_inv_tail F) as Q' end.
      constructor; [split; [eapply key_raw; eassumption|cbn [fst snd] in *; eauto]|eauto].
    - match goal with F : Forall2 _ (_ :: _) _ |- _ => inversion F; subst end. match goal with F : Forall quiet (_ :: _) |- _ => inversion F; subst end.
      eapply H2; [intros g Hg; apply H3; right; exact Hg|eassumption|assumption].
    - match goal with F : Forall2 _ (_ :: _) _ |- _ => inversion F; subst end. match goal with F : Forall quiet (_ :: _) |- _ => inversion F; subst end.
      eapply H4; [intros g Hg; apply H5; right; exact Hg|eassumption|assumption].
    - match goal with F : Forall2 _ (_ :: _) _ |- _ => inversion F; subst end. match goal with F : Forall quiet (_ :: _) |- _ => inversion F; subst end.
      constructor.
      + split; [reflexivity|]. cbn [snd]. match goal with IH : mute E (f_ty f) -> _ |- _ => eapply IH; [|eassumption|assumption] end.
        apply H6; [left; reflexivity|eapply written_not_ignored; eassumption].
      + eapply H5; [intros g Hg; apply H6; right; exact Hg|eassumption|assumption].
  Qed.
End Repr.

(** What was decoded into a zero value is encoded without any custom Marshaler. *)
Lemma decoded_unspoken X E H T p w v q : mute E T -> store X E 0 T p (zero E T) w -> holds H v w -> Represents X E H T v q -> raw_free q = true.
Proof. intros M S Hh Hq. exact (proj1 (repr_quiet X E H anything) _ _ _ _ Hq M w Hh (quiet_store X E _ _ _ _ _ S M (quiet_zero E T))). Qed.
