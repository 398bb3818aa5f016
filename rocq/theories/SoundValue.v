(** Values that come from Unmarshal into a zero value of a type without methods are
    well typed, finite, and hold nothing with methods; so Marshal of them returns and
    does not panic (C90). *)
From Coq Require Import Strings.String Strings.Byte ZArith List Bool Lia Permutation Relations.Relation_Operators.
From Verif Require Import Base GoTypes Tags Grammar Denote Typing Memory EncCompile Php Repr EncApi ReprFacts PhpFacts MarshalFacts RoundTrip RoundTripFacts Values Obstacle QuietFacts.
Import ListNotations.
Open Scope Z_scope.

(** Typing.typed, where empty interfaces hold basic types only and others nothing. *)
Inductive sound (E : env) : gty -> gval -> Prop :=
| so_bool T b : kind_of E T = KBool -> sound E T (VBool b)
| so_int T k z : kind_of E T = KInt k -> int_range k z -> sound E T (VInt z)
| so_uint T k z : kind_of E T = KUint k -> uint_range k z -> sound E T (VUint z)
| so_f32 T f : kind_of E T = KF32 -> sound E T (VF32 f)
| so_f64 T f : kind_of E T = KF64 -> sound E T (VF64 f)
| so_str T s : kind_of E T = KString -> sound E T (VStr s)
| so_slice_nil T t : kind_of E T = KSlice t -> sound E T (VSlice None)
| so_slice T t l : kind_of E T = KSlice t -> Forall (sound E t) l -> sound E T (VSlice (Some l))
| so_arr T n t l : kind_of E T = KArray n t -> length l = n -> Forall (sound E t) l -> sound E T (VArr l)
| so_map_nil T k t : kind_of E T = KMap k t -> sound E T (VMap None)
| so_map T k t m : kind_of E T = KMap k t ->
    Forall (fun e => sound E k (fst e) /\ sound E t (snd e)) m -> sound E T (VMap (Some m))
| so_ptr_nil T t : kind_of E T = KPtr t -> sound E T (VPtr None)
| so_ptr T t v : kind_of E T = KPtr t -> sound E t v -> sound E T (VPtr (Some v))
| so_any_nil T : kind_of E T = KAny -> sound E T (VIface None)
| so_any T t v : kind_of E T = KAny -> marshaler E T = false -> basic t = true -> sound E t v -> sound E T (VIface (Some (t, v)))
| so_iface_nil T m : kind_of E T = KIface m -> sound E T (VIface None)
| so_struct T id fs l : kind_of E T = KStruct id fs ->
    Forall2 (fun f v => sound E (f_ty f) v) fs l -> sound E T (VStruct l)
| so_other T : kind_of E T = KOther -> sound E T VOther.

Lemma sound_kind E T U v : kind_of E T = kind_of E U -> (forall x, v <> VIface (Some x)) -> sound E T v -> sound E U v.
Proof.
  intros Hk Hi H. inversion H; subst; rewrite Hk in *; try (exfalso; eapply Hi; reflexivity); solve [econstructor; eauto | eapply so_iface_nil; eauto].
Qed.
Lemma zero_f_iface E f : forall t x, zero_f f E t <> VIface (Some x).
Proof.
  induction f as [|f IH]; intros t x; destruct t as [| | | | | | | | | | | | |n]; try discriminate; cbn [zero_f].
  destruct (nth_error E n) as [d|]; [|discriminate]. destruct (d_under d); [discriminate|apply IH].
Qed.
Lemma zero_f_sound E rank :
  (forall n d, nth_error E n = Some d ->
     (rank n <= length E)%nat /\
     forall m, In m (decl_names d) -> nth_error E m <> None -> (rank m < rank n)%nat) ->
  (forall n d t m, nth_error E n = Some d -> d_under d = UTy t -> t <> TName m) ->
  forall fuel t, (forall m, In m (by_value t) -> nth_error E m <> None -> (rank m < fuel)%nat) ->
  sound E t (zero_f fuel E t).
Proof.
  intros Hr Hn fuel. induction fuel as [fuel IHf] using lt_wf_ind.
  induction t as [| | | | | |t _|n t IHt|k _ v _|t _| |m| |n]; intros Hb; destruct fuel as [|f]; cbn [zero_f];
    try (econstructor; try reflexivity; try (unfold int_range, uint_range; destruct k; cbn; lia); fail).
  all: try (eapply so_arr; [reflexivity|apply repeat_length|];
            apply Forall_forall; intros x Hx; apply repeat_spec in Hx as ->; apply IHt; exact Hb).
  - destruct (nth_error E n) eqn:En; [exfalso; assert (rank n < 0)%nat by (apply Hb; cbn; [auto|congruence]); lia|].
    apply so_other. cbn. rewrite En. reflexivity.
  - destruct (nth_error E n) as [d|] eqn:En; [|apply so_other; cbn; rewrite En; reflexivity].
    destruct (Hr n d En) as [_ Hlt].
    assert (rank n < S f)%nat as HnF by (apply Hb; cbn; [auto|congruence]).
    destruct (d_under d) as [fs|t'] eqn:Ed.
    + eapply so_struct; [cbn; rewrite En, Ed; reflexivity|].
      assert (forall f0, In f0 fs -> sound E (f_ty f0) (zero_f f E (f_ty f0))) as Hfs.
      { intros f0 Hf0. apply IHf; [lia|]. intros m Hm Hd.
        assert (rank m < rank n)%nat; [|lia]. apply Hlt; [|exact Hd]. unfold decl_names. rewrite Ed.
        apply in_flat_map. eauto. }
      clear - Hfs. induction fs as [|f0 fs IH]; cbn; constructor; [apply Hfs; cbn; auto|]. apply IH. intros. apply Hfs. cbn; auto.
    + assert (sound E t' (zero_f f E t')) as Ht.
      { apply IHf; [lia|]. intros m Hm Hd. assert (rank m < rank n)%nat; [|lia]. apply Hlt; [|exact Hd].
        unfold decl_names. rewrite Ed. exact Hm. }
      assert (kind_of E (TName n) = kind_of E t') as Hk.
      { cbn [kind_of]. rewrite En, Ed. pose proof (Hn n d t') as Hnn. destruct t'; try reflexivity.
        exfalso. eapply Hnn; eauto. }
      eapply sound_kind; [symmetry; exact Hk|apply zero_f_iface|exact Ht].
Qed.
Lemma zero_sound E t : go_env E -> sound E t (zero E t).
Proof.
  intros [(rank & Hr) Hn]. apply (zero_f_sound E rank Hr Hn). intros m _ Hd.
  destruct (nth_error E m) as [d|] eqn:Ed; [|contradiction]. destruct (Hr m d Ed). lia.
Qed.

Section Keep.
  Context (X : Ext) (E : env).
  Hypothesis Hgo : go_env E.
  Lemma sound_update t l i v : Forall (sound E t) l -> sound E t v -> Forall (sound E t) (update l i v).
  Proof. revert i. induction l as [|x l IH]; intros [|i] F Hv; cbn [update]; try assumption; constructor; try exact Hv; try exact (Forall_inv F); [exact (Forall_inv_tail F)|apply IH; [exact (Forall_inv_tail F)|exact Hv]]. Qed.
  Lemma update_len {A} (l : list A) i v : length (update l i v) = length l.
  Proof. revert i. induction l as [|x l IH]; intros [|i]; cbn [update length]; try reflexivity. rewrite IH. reflexivity. Qed.
  Lemma sound_nth t l i v : Forall (sound E t) l -> nth_error l i = Some v -> sound E t v.
  Proof. intros F Q. rewrite Forall_forall in F. apply F. eapply nth_error_In. exact Q. Qed.
  Notation smap k t := (Forall (fun e : gval * gval => sound E k (fst e) /\ sound E t (snd e))).
  Lemma sound_set k t kv v m : smap k t m -> sound E k kv -> sound E t v -> smap k t (map_set kv v m).
  Proof.
    intros F Hk Hv. induction m as [|[k' v'] m IH]; cbn [map_set]; [constructor; [split; assumption|constructor]|].
    destruct (key_eqb k' kv); constructor; try exact (Forall_inv_tail F).
    - split; [exact (proj1 (Forall_inv F))|exact Hv].
    - exact (Forall_inv F).
    - apply IH. exact (Forall_inv_tail F).
  Qed.
  Lemma sound_any_key T k w : kind_of E T = KAny -> marshaler E T = false -> any_key k w -> sound E T w.
  Proof. intros K Hm []; (apply so_any; [exact K|exact Hm|reflexivity|]); econstructor; try reflexivity; assumption. Qed.
  Lemma sound_any : forall d p w, any_val X d p w -> forall T, kind_of E T = KAny -> marshaler E T = false -> sound E T w.
  Proof.
    fix IH 4. intros d p w A T K HT. destruct A as [d|d b|d t z Ht Hr|d t f H1 H2 H3|d n s Hs|d n es m Hd Hn Hm M|d cn cls n es m Hd Hb Hn Hm M];
      [apply so_any_nil; exact K| | | | | |]; (apply so_any; [exact K|exact HT|reflexivity|]).
    - apply so_bool. reflexivity.
    - eapply so_int; [reflexivity|exact Hr].
    - apply so_f64. reflexivity.
    - apply so_str. reflexivity.
    - eapply so_map; [reflexivity|]. clear Hm. assert (smap TAny TAny []) as G by constructor. revert M G. generalize (@nil (gval * gval)) as acc. intros acc M. revert acc es m M.
      fix IHm 4. intros acc es m [m0|m0 k q es' kv vv m' Hk Hv Hh M'] G; [exact G|].
      apply (IHm _ _ _ M'). apply sound_set; [exact G|exact (sound_any_key TAny _ _ eq_refl eq_refl Hk)|exact (IH _ _ _ Hv TAny eq_refl eq_refl)].
    - eapply so_map; [reflexivity|]. clear Hm Hb. assert (smap TString TAny []) as G by constructor. revert M G. generalize (@nil (gval * gval)) as acc. intros acc M. revert acc es m M.
      fix IHm 4. intros acc es m [m0|m0 k q es' kv vv m' Hk Hv Hh M'] G; [exact G|].
      apply (IHm _ _ _ M'). apply sound_set; [exact G| |exact (IH _ _ _ Hv TAny eq_refl eq_refl)]. destruct Hk; apply so_str; reflexivity.
  Qed.
  Lemma sound_quoted T t w : quoted_scalar X E T t w -> sound E T w.
  Proof. intros [t0 b [_ K] _|k t0 z [_ K] _ R|k t0 [_ K] _ R|t0 f [_ K] _|t0 f [_ K] _ _]; econstructor; eassumption. Qed.
  Lemma sound_store_quoted T p v w : store_quoted X E T p v w -> sound E T v -> sound E T w.
  Proof.
    intros [t v0 [_ K]|t n s o w0 [_ K] _ Q|v0 _|n s v0 w0 _ _ Q] Hv; try exact Hv; [eapply so_ptr_nil; exact K|eapply so_ptr; [exact K|]|]; eapply sound_quoted; exact Q.
  Qed.
  Lemma fields_nth fs : forall l i f v, Forall2 (fun f v => sound E (f_ty f) v) fs l -> nth_error fs i = Some f -> nth_error l i = Some v -> sound E (f_ty f) v.
  Proof.
    induction fs as [|g fs IH]; intros l [|i] f v F Hf Hv; try discriminate Hf; inversion F; subst; cbn [nth_error] in *; [injection Hf as <-; injection Hv as <-; assumption|eapply IH; eassumption].
  Qed.
  Lemma fields_update fs : forall l i f v, Forall2 (fun f v => sound E (f_ty f) v) fs l -> nth_error fs i = Some f -> sound E (f_ty f) v ->
    Forall2 (fun f v => sound E (f_ty f) v) fs (update l i v).
  Proof.
    induction fs as [|g fs IH]; intros l [|i] f v F Hf Hv; try discriminate Hf; inversion F; subst; cbn [nth_error update] in *; constructor; try assumption; [injection Hf as <-; assumption|eapply IH; eassumption].
  Qed.
  Lemma lookup_nth fs k : forall i j f, lookup_from X i fs k = Some (j, f) -> exists n, j = (i + n)%nat /\ nth_error fs n = Some f.
  Proof.
    induction fs as [|g fs IH]; intros i j f Q; [discriminate|]. cbn [lookup_from] in Q. destruct (negb (is_ignored g) && bytes_eqb (Denote.field_key X g) k).
    - injection Q as <- <-. exists 0%nat. split; [lia|reflexivity].
    - destruct (IH _ _ _ Q) as (n & -> & Hn). exists (S n). split; [lia|exact Hn].
  Qed.

  Lemma sound_store : forall d T p v w, store X E d T p v w -> mute E T -> sound E T v -> sound E T w.
  Proof.
    fix IH 6. intros d T p v w S M Hv.
    assert (forall t d' slots zv l es l', mute E t -> sound E t zv -> slice_entries slots zv (store X E d' t) l es l' -> Forall (sound E t) l -> Forall (sound E t) l') as SL.
    { intros t d' slots zv l es l' Mt Hz. revert l es l'. fix IHl 4. intros l es l' [l0|l0 t0 i q es' old x l1 Hi Ho Hx R|l0 t0 i q es' x l1 Hi Hle Hlt Hs Hx R] F.
      - exact F.
      - apply (IHl _ _ _ R). apply sound_update; [exact F|]. exact (IH _ _ _ _ _ Hx Mt (sound_nth _ _ _ _ F Ho)).
      - apply (IHl _ _ _ R). apply Forall_app. split; [exact F|]. apply Forall_app. split.
        + apply Forall_forall. intros y Hy. apply repeat_spec in Hy as ->. exact Hz.
        + constructor; [exact (IH _ _ _ _ _ Hx Mt Hz)|constructor]. }
    assert (forall t d' l es l', mute E t -> array_entries d' (store X E d' t) l es l' -> Forall (sound E t) l -> length l' = length l /\ Forall (sound E t) l') as AL.
    { intros t d' l es l' Mt. revert l es l'. fix IHl 4. intros l es l' [l0|l0 t0 i q es' old x l1 Hi Ho Hx R|l0 t0 z q es' l1 Hi Hle Hs R] F.
      - split; [reflexivity|exact F].
      - rewrite <- (update_len l0 i x). apply (IHl _ _ _ R). apply sound_update; [exact F|]. exact (IH _ _ _ _ _ Hx Mt (sound_nth _ _ _ _ F Ho)).
      - exact (IHl _ _ _ R F). }
    destruct S as [d T n v Hu|d T n p v w Hu Hp Hs Hx|d T k v P Hk|d T b v P|d T k t z v P Ht Hr|d T k t v P Ht Hr|d T t f v P H1 H2 H3|d T t f v P H1 H2 H3 H4|d T n s v P Hs
      |d T p v w P A|d T m t n p v P Ev Hu|d T m t n p v old new P Ev Hu Hp Hs Hx|d T m v P Hn|d T t v P Hb|d T t n s v P Hb Hs
      |d T t v P Hb Hd|d T t v P Hd|d T t n es v l P Hd Hn Hh Hm Hs He SE|d T n t v P Hd|d T n t v P Hd|d T k t n es v l P Hd Hn Hh Hm He AE
      |d T k t v P Hd|d T k t p n es o m P Hd Hb Hn Hm ME|d T id fs v P Hd|d T id fs p n es l l' P Hd Hb Hn SE|d T t v P Hi|d T t p o w P Hi Hp S'];
      try exact Hv; try pose proof (proj2 P) as K.
    - apply zero_sound. exact Hgo.
    - exfalso. destruct (mute_here _ _ M). congruence.
    - apply so_bool. exact K.
    - eapply so_int; eassumption.
    - eapply so_uint; eassumption.
    - apply so_f64. exact K.
    - apply so_f32. exact K.
    - apply so_str. exact K.
    - exact (sound_any _ _ _ A T K (proj2 (mute_here _ _ M))).
    - eapply so_iface_nil; exact K.
    - exfalso. subst v. inversion Hv; subst; try congruence; discriminate.
    - eapply so_iface_nil; exact K.
    - unfold vbytes. eapply so_slice; [exact K|]. apply Forall_forall. intros x Hx. apply in_map_iff in Hx as (y & <- & _). unfold byte_val. unfold is_byte in Hb.
      destruct (kind_of E t) as [| |[]| | | | | | | | | | |] eqn:Kt; try discriminate Hb. eapply so_uint; [exact Kt|]. unfold uint_range. cbn [ubits]. destruct y; vm_compute; split; discriminate || reflexivity.
    - eapply so_slice_nil; exact K.
    - eapply so_slice_nil; exact K.
    - eapply so_slice; [exact K|]. eapply SL; [|apply zero_sound; exact Hgo|exact SE|constructor]. eapply mute_part; [exact M|eapply co_slice; exact P].
    - eapply so_arr; [exact K|apply repeat_length|]. apply Forall_forall. intros x Hx. apply repeat_spec in Hx as ->. apply zero_sound. exact Hgo.
    - destruct (AL t (d + 1) _ _ _ ltac:(eapply mute_part; [exact M|eapply co_array; exact P]) AE) as [Hl F].
      { apply Forall_forall. intros x Hx. apply repeat_spec in Hx as ->. apply zero_sound. exact Hgo. }
      rewrite repeat_length in Hl. eapply so_arr; eassumption.
    - eapply so_map_nil; exact K.
    - eapply so_map; [exact K|]. assert (mute E k) as Mk by (eapply mute_part; [exact M|eapply co_key; exact P]). assert (mute E t) as Mt by (eapply mute_part; [exact M|eapply co_val; exact P]).
      assert (smap k t (match o with Some m0 => m0 | None => [] end)) as F.
      { destruct o as [m0|]; [|constructor]. inversion Hv as [| | | | | | | | | |T0 k0 t0 m1 K0 F0| | | | | | |]; subst. rewrite K in K0. injection K0 as <- <-. exact F0. }
      clear Hv Hb. revert F. generalize dependent (match o with Some m0 => m0 | None => [] end). intros acc ME. revert acc es m ME.
      fix IHm 4. intros acc es m [m0|m0 kp q es' kv vv m' Hk Hx Hh R] F; [exact F|]. apply (IHm _ _ _ R). apply sound_set; [exact F| |exact (IH _ _ _ _ _ Hx Mt (zero_sound _ _ Hgo))].
      clear F Mt P K. destruct Hk as [d' T' p' w' _ Hx'|d' T' t' _ _ _]; [exact (IH _ _ _ _ _ Hx' Mk (zero_sound _ _ Hgo))|apply zero_sound; exact Hgo].
    - eapply so_struct; [exact K|]. assert (Forall2 (fun f v => sound E (f_ty f) v) fs l) as F.
      { inversion Hv as [| | | | | | | | | | | | | | | |T0 id0 fs0 l0 K0 F0|]; subst. rewrite K in K0. injection K0 as <- <-. exact F0. }
      clear Hv Hb. revert F. revert l es l' SE.
      fix IHl 4. intros l es l' [l0|l0 kp k i f q es' old x l1 Hk Hl Ho Hs Hx R|l0 kp k i f q es' old x l1 Hk Hl Ho Hs Hx R|l0 kp k q es' l1 Hk Hl Hs R] F.
      + exact F.
      + destruct (lookup_nth _ _ _ _ _ Hl) as (n' & Hin & Hnf). cbn [Nat.add] in Hin. subst n'. apply (IHl _ _ _ R). eapply fields_update; [exact F|exact Hnf|].
        refine (IH _ _ _ _ _ Hx _ (fields_nth _ _ _ _ _ F Hnf Ho)).
        destruct (lookup_in _ _ _ _ _ _ Hl). eapply mute_part; [exact M|eapply co_field; [exact P|assumption|assumption]].
      + destruct (lookup_nth _ _ _ _ _ Hl) as (n' & Hin & Hnf). cbn [Nat.add] in Hin. subst n'. apply (IHl _ _ _ R). eapply fields_update; [exact F|exact Hnf|].
        exact (sound_store_quoted _ _ _ _ Hx (fields_nth _ _ _ _ _ F Hnf Ho)).
      + exact (IHl _ _ _ R F).
    - eapply so_ptr_nil; exact K.
    - eapply so_ptr; [exact K|]. refine (IH _ _ _ _ _ S' _ _); [eapply mute_part; [exact M|eapply co_ptr; exact P]|].
      destruct o as [v0|]; [|apply zero_sound; exact Hgo]. inversion Hv as [| | | | | | | | | | | |T0 t0 v1 K0 F0| | | | |]; subst. rewrite K in K0. injection K0 as <-. exact F0.
  Qed.
End Keep.

(** ** What Marshal sees of them *)
Section Seen.
  Context (X : Ext) (E : env) (H : heap).
  Definition okay (t : gty) (v : hval) : Prop := exists w, sound E t w /\ holds H v w.

  Lemma forall2_in {A B} (P : A -> B -> Prop) l l' x : Forall2 P l l' -> In x l -> exists y, In y l' /\ P x y.
  Proof. induction 1 as [|a b l l' Hp F IH]; intros [].
    - subst. exists b. split; [left; reflexivity|exact Hp].
    - destruct (IH H0) as (y & Hy & Py). exists y. split; [right; exact Hy|exact Py].
  Qed.
  Lemma forall2_combine fs l ws f x : Forall2 (fun f v => sound E (f_ty f) v) fs ws -> Forall2 (holds H) l ws -> In (f, x) (combine fs l) -> okay (f_ty f) x.
  Proof.
    intros F. revert l. induction F as [|g w fs ws Hs F IH]; intros l G Hi; [destruct Hi|]. inversion G as [|y w' l' ws' Hh G']; subst. cbn [combine] in Hi. destruct Hi as [Q|Q].
    - injection Q as <- <-. exists w. split; assumption.
    - exact (IH _ G' Q).
  Qed.
  Lemma okay_list t l ws x : Forall (sound E t) ws -> Forall2 (holds H) l ws -> In x l -> okay t x.
  Proof. intros S F Hi. destruct (forall2_in _ _ _ _ F Hi) as (y & Hy & Hh). exists y. split; [|exact Hh]. rewrite Forall_forall in S. exact (S y Hy). Qed.
  Lemma okay_part t v u x : okay t v -> part E H t v u x -> okay u x.
  Proof.
    intros (w & S & Hh) P. destruct P as [u o i n l x K C Hi|n u l x K Hi|k u o m y x K C Hi|k u o m y x K C Hi|id fs l f x K Hi|u o i c K C|u x K].
    - inversion Hh as [| | | | | | |o' i' n' l' ws C' F| | | | | | | | |]; subst. inversion S; subst; try congruence. replace l' with l in F by congruence.
      eapply okay_list; [|exact F|exact Hi]. congruence.
    - inversion Hh as [| | | | | | | |l' ws F| | | | | | | |]; subst. inversion S; subst; try congruence. eapply okay_list; [|exact F|exact Hi]. congruence.
    - inversion Hh as [| | | | | | | | | |o' m' ws C' _ F| | | | | |]; subst. replace m' with m in F by congruence. inversion S as [| | | | | | | | | |T0 k0 t0 m1 K0 G| | | | | | |]; subst. rewrite K in K0. injection K0 as <- <-.
      destruct (forall2_in _ _ _ _ F Hi) as ([a b] & Hy & Hk & Hv). rewrite Forall_forall in G. destruct (G _ Hy). exists a. split; assumption.
    - inversion Hh as [| | | | | | | | | |o' m' ws C' _ F| | | | | |]; subst. replace m' with m in F by congruence. inversion S as [| | | | | | | | | |T0 k0 t0 m1 K0 G| | | | | | |]; subst. rewrite K in K0. injection K0 as <- <-.
      destruct (forall2_in _ _ _ _ F Hi) as ([a b] & Hy & Hk & Hv). rewrite Forall_forall in G. destruct (G _ Hy). exists b. split; assumption.
    - inversion Hh as [| | | | | | | | | | | | | | |l' ws F|]; subst. inversion S as [| | | | | | | | | | | | | | | |T0 id0 fs0 l0 K0 G|]; subst. rewrite K in K0. injection K0 as <- <-.
      eapply forall2_combine; eassumption.
    - inversion Hh as [| | | | | | | | | | | |o' i' c' w' C' Hw| | | |]; subst. inversion S as [| | | | | | | | | | | |T0 t0 v0 K0 G| | | | |]; subst. exists w'. split; congruence.
    - inversion Hh as [| | | | | | | | | | | | | |t1 v1 w1 Hw| |]; subst. inversion S as [| | | | | | | | | | | | | |T0 t0 v0 K0 HT B G| | |]; subst. exists w1. split; assumption.
  Qed.
  Lemma okay_here t v : okay t v -> here E H t v.
  Proof.
    intros (w & S & Hh). destruct S as [T b K|T k z K R|T k z K R|T f K|T f K|T s K|T t K|T t l K F|T n t l K L F|T k t K|T k t m K F|T t K|T t w K G|T K|T t w K HT B G|T m K|T id fs l K F|T K]; inversion Hh; subst.
    - apply hr_bool. exact K.
    - eapply hr_int; eassumption.
    - eapply hr_uint; eassumption.
    - apply hr_f32. exact K.
    - apply hr_f64. exact K.
    - apply hr_str. exact K.
    - eapply hr_slice_nil. exact K.
    - eapply hr_slice; eassumption.
    - eapply hr_array; [exact K|]. match goal with Q : Forall2 _ ?a ?b |- length ?a = length ?b => clear - Q; induction Q; cbn [length]; congruence end.
    - eapply hr_map_nil. exact K.
    - eapply hr_map; eassumption.
    - eapply hr_ptr_nil. exact K.
    - eapply hr_ptr; eassumption.
    - apply hr_iface_nil. rewrite K. reflexivity.
    - apply hr_iface; [rewrite K; reflexivity| |].
      + destruct t; try discriminate B; reflexivity.
      + congruence.
    - apply hr_iface_nil. rewrite K. reflexivity.
    - eapply hr_struct; [exact K|]. match goal with Q : Forall2 (holds H) _ _ |- _ => rename Q into G end.
      assert (length l0 = length l) as -> by (clear - G; induction G; cbn [length]; congruence). clear - F. induction F; cbn [length]; congruence.
    - apply hr_other. exact K.
  Qed.
  Lemma okay_within t v u x : okay t v -> within E H t v u x -> okay u x.
  Proof. intros O W. induction W as [|u w u' w' W IH P]; [exact O|]. eapply okay_part; eassumption. Qed.
  Lemma okay_typed t v : okay t v -> well_typed E H t v.
  Proof. intros O u x W. apply okay_here. eapply okay_within; eassumption. Qed.

  (** Every path ends. *)
  Notation done q := (Acc (fun a b => below X E H b a) q).
  Inductive child : hval -> hval -> Prop :=
  | ch_arr l x : In x l -> child (HArr l) x
  | ch_struct l x : In x l -> child (HStruct l) x
  | ch_slice o i n l x : cells H o i n = Some l -> In x l -> child (HSlice (Some (o, i, n))) x
  | ch_map o m y x : entries H o = Some m -> In (y, x) m -> child (HMap (Some o)) x
  | ch_ptr o i c : cell H o i = Some c -> child (HPtr (Some (o, i))) c
  | ch_iface t x : child (HIface (Some (t, x))) x.
  Lemma ends_value v : (forall x, child v x -> forall m s t, done (At m s t x)) -> forall m s t, done (At m s t v).
  Proof.
    intros C.
    assert (forall s t, (forall u, kind_of E t <> KSlice u) -> struct_kind (kind_of E t) = false -> done (At Inside s t v)) as I1.
    { intros s t Hs Hk. constructor. intros q B. inversion B; subst; try (exfalso; eapply Hs; eassumption); try (match goal with K : kind_of E t = KStruct _ _ |- _ => rewrite K in Hk; discriminate Hk end);
        apply C; econstructor; eassumption. }
    assert (forall s t, done (At ByKind s t v)) as I2.
    { intros s t. constructor. intros q B. inversion B; subst; try (apply C; econstructor; try eassumption; eapply in_combine_r; eassumption).
      - apply I1; [intros u Q|]; match goal with K : iface_kind (kind_of E t) = true |- _ => destruct (kind_of E t); try discriminate K; try discriminate Q; reflexivity end.
      - apply I1; [intros u' Q|]; match goal with K : kind_of E t = KPtr _ |- _ => rewrite K in *; try discriminate Q; reflexivity end. }
    assert (forall s t, done (At ByType s t v)) as I3.
    { intros s t. constructor. intros q B. inversion B; subst. apply I2. }
    assert (forall s t, done (At Inside s t v)) as I4.
    { intros s t. constructor. intros q B. inversion B; subst; try apply I3; apply C; econstructor; eassumption. }
    assert (forall s t, done (At AsTextInside s t v)) as I5.
    { intros s t. constructor. intros q B. inversion B; subst; apply C; econstructor; eassumption. }
    assert (forall s t, done (At AsText s t v)) as I6.
    { intros s t. constructor. intros q B. inversion B; subst; apply I5. }
    intros [| |g| | |] s t; try auto. constructor. intros q B. inversion B; subst; try apply I3; try apply I6; apply C; econstructor; eassumption.
  Qed.
  Lemma child_slice o i n l x : child (HSlice (Some (o, i, n))) x -> cells H o i n = Some l -> In x l.
  Proof. intros A C. inversion A; subst. congruence. Qed.
  Lemma child_arr l x : child (HArr l) x -> In x l.
  Proof. intros A. inversion A; subst. assumption. Qed.
  Lemma child_struct l x : child (HStruct l) x -> In x l.
  Proof. intros A. inversion A; subst. assumption. Qed.
  Lemma child_map o m x : child (HMap (Some o)) x -> entries H o = Some m -> exists y, In (y, x) m.
  Proof. intros A C. inversion A; subst. eexists. replace m with m0 by congruence. eassumption. Qed.
  Lemma child_ptr o i c x : child (HPtr (Some (o, i))) x -> cell H o i = Some c -> x = c.
  Proof. intros A C. inversion A; subst. congruence. Qed.
  Lemma child_iface t v x : child (HIface (Some (t, v))) x -> x = v.
  Proof. intros A. inversion A; subst. reflexivity. Qed.
  Lemma ends : forall v w, holds H v w -> forall m s t, done (At m s t v).
  Proof.
    fix IH 3. intros v w Hh. apply ends_value. intros x Cx.
    assert (forall l ws, Forall2 (holds H) l ws -> In x l -> forall m s t, done (At m s t x)) as L.
    { fix IHl 3. intros l ws [|a b l' ws' Ha F] Hi; [destruct Hi|]. destruct Hi as [Q|Q]; [rewrite <- Q; exact (IH _ _ Ha)|exact (IHl _ _ F Q)]. }
    assert (forall m ws, Forall2 (fun e y => holds H (fst e) (fst y) /\ holds H (snd e) (snd y)) m ws -> forall y, In (y, x) m -> forall m s t, done (At m s t x)) as LM.
    { fix IHl 3. intros l ws [|a b l' ws' [_ Ha] F] y Hi; [destruct Hi|]. destruct Hi as [Q|Q]; [rewrite Q in Ha; exact (IH _ _ Ha)|exact (IHl _ _ F y Q)]. }
    destruct Hh as [b|z|z|f|f|s0| |o i n l ws C F|l ws F| |o m ws C Hd F| |o i c w C Hc| |t0 v0 w Hv|l ws F| ];
      try (exfalso; inversion Cx; fail).
    - exact (L _ _ F (child_slice _ _ _ _ _ Cx C)).
    - exact (L _ _ F (child_arr _ _ Cx)).
    - destruct (child_map _ _ _ Cx C) as [y Hi]. exact (LM _ _ F y Hi).
    - clear L LM. rewrite (child_ptr _ _ _ _ Cx C). exact (IH _ _ Hc).
    - clear L LM. rewrite (child_iface _ _ _ Cx). exact (IH _ _ Hv).
    - exact (L _ _ F (child_struct _ _ Cx)).
  Qed.

  (** Marshal comes to types without methods only. *)
  Definition mutely (q : place_in) : Prop := mute E (type_ q) /\ okay (type_ q) (value_ q).
  Lemma part_array T n t : mute E T -> kind_of E T = KArray n t -> mute E t.
  Proof. intros M K. eapply mute_part; [exact M|]. eapply co_array. split; [apply mute_here; exact M|exact K]. Qed.
  Lemma okay_iface t u x : okay t (HIface (Some (u, x))) -> mute E u.
  Proof. intros (w & S & Hh). inversion Hh; subst. inversion S; subst. apply mute_basic. assumption. Qed.
  Lemma mutely_below p q : mutely p -> below X E H p q -> mutely q.
  Proof.
    intros [M O] B. destruct B; cbn [type_ value_] in *; split; cbn [type_ value_]; try exact M; try exact O;
      try (eapply okay_iface; exact O); try (eapply part_ptr; eassumption); try (eapply part_slice; eassumption); try (eapply part_val; eassumption); try (eapply part_array; eassumption);
      try (eapply okay_part; [exact O|]; solve [econstructor; eassumption]).
    - eapply mute_part; [exact M|]. eapply co_field; [split; [apply mute_here; exact M|eassumption]|eapply in_combine_l; eassumption|eapply written_not_ignored; eassumption].
  Qed.
  Lemma mutely_reached t v q : mute E t -> okay t v -> reached X E H t v q -> mutely q.
  Proof.
    intros M O R. unfold reached in R. remember (At ByType ([], 0) t v) as p eqn:Ep. assert (mutely p) as Mp by (subst p; split; assumption). clear Ep.
    induction R as [p q B|p|p q r R1 IH1 R2 IH2]; [eapply mutely_below; eassumption|exact Mp|]. apply IH2. apply IH1. exact Mp.
  Qed.

  (** Inside interfaces it comes to basic types only. *)
  Definition tame (q : place_in) : Prop :=
    match by_ q with
    | Inside => iface_kind (kind_of E (type_ q)) = true \/ basic (type_ q) = true \/ exists u, kind_of E (type_ q) = KPtr u /\ iface_kind (kind_of E u) = true
    | AsTextInside => iface_kind (kind_of E (type_ q)) = true \/ basic (type_ q) = true
    | _ => True
    end.
  Lemma basic_kind t : basic t = true ->
    match kind_of E t with KBool | KInt _ | KF64 | KString => True | KMap _ TAny => t = TMap TAny TAny \/ t = TMap TString TAny | _ => False end.
  Proof.
    intros B. destruct t; try discriminate B; try exact I. match type of B with basic (TMap ?k ?u) = true => destruct k; try discriminate B; destruct u; try discriminate B; cbn; tauto end.
  Qed.
  Lemma okay_basic t u x : okay t (HIface (Some (u, x))) -> basic u = true.
  Proof. intros (w & S & Hh). inversion Hh; subst. inversion S; subst. assumption. Qed.
  Lemma tame_below p q : mutely p -> tame p -> below X E H p q -> tame q.
  Proof.
    intros [M O] G B. destruct B; cbn [type_ value_] in *; unfold tame in *; cbn [type_ by_] in *; try exact I.
    all: try (left; assumption).
    all: try (right; left; eapply okay_basic; exact O).
    all: try (right; eapply okay_basic; exact O).
    all: try (right; right; eauto; fail).
    all: repeat match goal with
      | Q : _ \/ _ |- _ => destruct Q as [Q|Q]
      | Q : exists u, _ |- _ => destruct Q as (? & ? & ?)
      | Q : basic _ = true |- _ => apply basic_kind in Q
      | K : kind_of E _ = _ |- _ => rewrite K in *
      end; try discriminate; try contradiction; try (left; congruence).
  Qed.
  Lemma tame_reached t v q : mute E t -> okay t v -> reached X E H t v q -> mutely q /\ tame q.
  Proof.
    intros M O R. unfold reached in R. remember (At ByType ([], 0) t v) as p eqn:Ep. assert (mutely p /\ tame p) as Mp by (subst p; split; [split; assumption|exact I]). clear Ep.
    induction R as [p q B|p|p q r R1 IH1 R2 IH2]; [|exact Mp|apply IH2; apply IH1; exact Mp]. destruct Mp. split; [eapply mutely_below; eassumption|eapply tame_below; eassumption].
  Qed.
  Notation inside_type t := (iface_kind (kind_of E t) = true \/ basic t = true \/ exists u, kind_of E t = KPtr u /\ iface_kind (kind_of E u) = true).
  Lemma inside_map t k u : inside_type t -> kind_of E t = KMap k u -> key_kind (kind_of E k) = false -> k = TAny.
  Proof.
    intros [G|[G|(u' & G & _)]] K N; [rewrite K in G; discriminate G| |congruence]. apply basic_kind in G. rewrite K in G.
    destruct u; try contradiction. destruct G; subst t; cbn in K; injection K as <-; [reflexivity|discriminate N].
  Qed.
  Lemma inside_no_slice t u : inside_type t -> kind_of E t = KSlice u -> False.
  Proof. intros [G|[G|(u' & G & _)]] K; [rewrite K in G; discriminate G| |congruence]. apply basic_kind in G. rewrite K in G. exact G. Qed.
  Lemma tame_obstacle q e : mutely q -> tame q -> obstacle X E H q e ->
    (exists t, e = EMarshal (CRecursive t)) \/ e = EMarshal (CKey TAny) \/
    exists t, In t [TString; TMap TString TAny; TMap TAny TAny] /\ e = EMarshal (CAsString t).
  Proof.
    intros [M O] G B. destruct B; cbn [type_ value_] in *; unfold tame in *; cbn [type_ by_] in *; try (left; eexists; reflexivity).
    - exfalso. destruct (mute_here _ _ M). congruence.
    - exfalso. destruct G as [G|[G|(u & G & _)]]; [destruct (kind_of E t); try discriminate G; assumption|apply basic_kind in G; destruct (kind_of E t); contradiction|rewrite G in *; assumption].
    - right. left. rewrite (inside_map _ _ _ G H0 H1). reflexivity.
    - right. left. rewrite (inside_map _ _ _ G H0 H1). reflexivity.
    - exfalso. exact (inside_no_slice _ _ G H0).
    - exfalso. exact (inside_no_slice _ _ G H0).
    - exfalso. destruct G as [G|[G|(u' & G & _)]]; [rewrite H0 in G; discriminate G| |congruence]. apply basic_kind in G. rewrite H0 in G. destruct u; try contradiction. discriminate.
    - exfalso. destruct G as [G|[G|(u & G & _)]]; [rewrite H0 in G; discriminate G| |congruence]. apply basic_kind in G. rewrite H0 in G. exact G.
    - right. right. destruct G as [G|G]; [congruence|]. exists t. split; [|reflexivity]. clear - G H2. destruct t; try discriminate G; try (exfalso; apply H2; exact I); [left; reflexivity|].
      match type of G with basic (TMap ?k ?u) = true => destruct k; try discriminate G; destruct u; try discriminate G; cbn; tauto end.
  Qed.
End Seen.
