(** Properties of Marshal, part 12: what it returns for a container is put
    together from what it returns for the parts (C82). *)
From Coq Require Import Strings.String Strings.Byte ZArith List Bool Lia Permutation.
From Verif Require Import Base GoTypes Strconv Tags Grammar Denote Typing NumEnc Memory EncCompile Encode Php Repr Positions EncApi EncCompileFacts EncSound ReprFacts MarshalFacts Values MirrorFacts PosFacts CarryFacts Demo DemoEnc Props25 Props27 Props32.
Import ListNotations.
Open Scope Z_scope.

(** ** Specification *)

(** Marshal of a [t] may return [b]: for some order of the map iterations it
    does. *)
Definition may_return (X : Ext) (E : env) (H : heap) (t : gty) (v : hval) (b : bytes) : Prop :=
  exists ord, fair_order ord /\ Marshals X E H ord t v b.
Definition accepted (X : Ext) (E : env) (H : heap) (t : gty) (v : hval) : Prop := exists b, may_return X E H t v b.

(** The text of an array with these entries (key and value, as text). *)
Definition array_text (l : list (bytes * bytes)) : bytes :=
  bs "a:" ++ decimal (blen l) ++ bs ":{" ++ flat_map (fun e => fst e ++ snd e) l ++ bs "}".
(** Keys: an integer, a string. *)
Definition int_key (z : Z) : bytes := bs "i:" ++ decimal z ++ bs ";".
Definition str_key (s : bytes) : bytes := bs "s:" ++ decimal (blen s) ++ bs ":" ++ quote ++ s ++ quote ++ bs ";".
Definition key_text (v : hval) : bytes :=
  match v with HInt z | HUint z => int_key z | HStr s => str_key s | _ => [] end.
(** Values keyed i, i+1, i+2, ... *)
Fixpoint numbered (i : Z) (l : list bytes) : list (bytes * bytes) :=
  match l with [] => [] | b :: l => (int_key i, b) :: numbered (i + 1) l end.

(** What is written for the value of a struct field: null for a nil pointer;
    with the string option the quoted scalar; otherwise what Marshal returns for
    the value, or for what the pointer points to. *)
Inductive field_text (X : Ext) (E : env) (H : heap) (f : field) : hval -> bytes -> Prop :=
| ft_nil u : kind_of E (f_ty f) = KPtr u -> field_text X E H f (HPtr None) (bs "N;")
| ft_ptr u o i c b : kind_of E (f_ty f) = KPtr u -> tag_string (tag_of X f) = false -> cell H o i = Some c ->
    may_return X E H u c b -> field_text X E H f (HPtr (Some (o, i))) b
| ft_plain v b : ptr_kind (kind_of E (f_ty f)) = false -> tag_string (tag_of X f) = false ->
    may_return X E H (f_ty f) v b -> field_text X E H f v b
| ft_ptr_quoted u o i c p : kind_of E (f_ty f) = KPtr u -> tag_string (tag_of X f) = true -> cell H o i = Some c ->
    quoted_repr X E H u c p -> field_text X E H f (HPtr (Some (o, i))) (serialize p)
| ft_quoted v p : ptr_kind (kind_of E (f_ty f)) = false -> tag_string (tag_of X f) = true ->
    quoted_repr X E H (f_ty f) v p -> field_text X E H f v (serialize p).
(** The fields: those that take part and are not omitted for being zero. *)
Inductive fields_text (X : Ext) (E : env) (H : heap) : list field -> list hval -> list (bytes * bytes) -> Prop :=
| fts_nil : fields_text X E H [] [] []
| fts_skip f fs v l ps : written_field X f = false -> fields_text X E H fs l ps -> fields_text X E H (f :: fs) (v :: l) ps
| fts_omit f fs v l ps : written_field X f = true -> tag_omitempty (tag_of X f) = true -> zero_value v ->
    fields_text X E H fs l ps -> fields_text X E H (f :: fs) (v :: l) ps
| fts_write f fs v l b ps : written_field X f = true -> (tag_omitempty (tag_of X f) = true -> ~ zero_value v) ->
    field_text X E H f v b -> fields_text X E H fs l ps ->
    fields_text X E H (f :: fs) (v :: l) ((str_key (field_key X f), b) :: ps).

(** ** What can be written somewhere inside can be written on its own *)
Definition looser (s1 s2 : tracked) : Prop := incl (fst s2) (fst s1) /\ snd s2 <= snd s1.
Lemma enter_looser s1 s2 b a s1' : looser s1 s2 -> code_enter s1 b a s1' -> exists s2', code_enter s2 b a s2' /\ looser s1' s2'.
Proof.
  intros [Hi Hd] En. unfold code_enter in *. destruct b.
  - destruct En as [Hn ->]. eexists. split; [split; [|reflexivity]|].
    + intros I. apply Hn, Hi, I.
    + split; cbn [fst snd]; [|exact Hd]. intros x [<-|I]; [left; reflexivity|right; apply Hi, I].
  - destruct (1000 <? snd s1 + 1) eqn:Q1; destruct (1000 <? snd s2 + 1) eqn:Q2; try (apply Z.ltb_lt in Q2; apply Z.ltb_ge in Q1; lia).
    + destruct En as [Hn ->]. eexists. split; [split; [|reflexivity]|].
      * intros I. apply Hn, Hi, I.
      * split; cbn [fst snd]; [|lia]. intros x [<-|I]; [left; reflexivity|right; apply Hi, I].
    + destruct En as [Hn ->]. eexists. split; [reflexivity|]. split; cbn [fst snd]; [|lia]. intros x I. right. apply Hi, I.
    + subst s1'. eexists. split; [reflexivity|]. split; cbn [fst snd]; [exact Hi|lia].
Qed.
Lemma alone X E H s t v p : 0 <= snd s -> encodable X E t -> repr X E H code_enter s t v p -> may_return X E H t v (serialize p).
Proof.
  intros Hs He R. apply marshal_reaches; [exact He|].
  refine (proj1 (repr_sim X E H code_enter code_enter looser enter_looser) _ _ _ _ R _ _). split; [intros x []|exact Hs].
Qed.
Lemma means_alone X E H t v b : may_return X E H t v b -> exists p, Represents X E H t v p /\ b = serialize p.
Proof. intros (ord & Ho & Q). exact (marshal_represents X E H ord Ho _ _ _ _ Q). Qed.
Lemma entered s b a s' : code_enter s b a s' -> 0 <= snd s -> 0 <= snd s'.
Proof.
  unfold code_enter. intros En Hs. destruct b; [destruct En as [_ ->]; exact Hs|].
  destruct (1000 <? snd s + 1); [destruct En as [_ ->]|subst s']; cbn [snd]; lia.
Qed.
Lemma accepted_how X E H t v b : may_return X E H t v b ->
  encodable X E t /\ exists p, repr X E H code_enter ([], 0) t v p /\ b = serialize p.
Proof. intros (ord & Ho & Q). exact (marshal_sound_at X E H ord Ho st0 t v b Q). Qed.
Lemma also_returns X E H t v p : accepted X E H t v -> Represents X E H t v p -> may_return X E H t v (serialize p).
Proof.
  intros (b & ord & Ho & Q) R. apply (C78_possible_bytes X E H ord t v b Ho Q). exists p. split; [exact R|reflexivity].
Qed.

Lemma array_text_of ps : serialize (PArr ps) = array_text (map (fun e => (serialize (fst e), serialize (snd e))) ps).
Proof.
  cbn [serialize]. unfold array_text, blen. rewrite map_length. do 3 f_equal. f_equal.
  induction ps as [|e ps IH]; [reflexivity|]. cbn [flat_map map fst snd]. rewrite IH. reflexivity.
Qed.

(** Elements *)
Lemma elems_down X E H s t : 0 <= snd s -> encodable X E t -> forall l i ps, elems X E H code_enter s false t i l ps ->
  exists bl, Forall2 (may_return X E H t) l bl /\ map (fun e => (serialize (fst e), serialize (snd e))) ps = numbered i bl.
Proof.
  intros Hs He. induction l as [|v l IH]; intros i ps El.
  - inversion El; subst. exists []. split; [constructor|reflexivity].
  - inversion El as [|s1 t1 i1 v1 l1 p ps1 R El1|]; subst. destruct (IH _ _ El1) as (bl & F & Q).
    exists (serialize p :: bl). split; [constructor; [exact (alone _ _ _ _ _ _ _ Hs He R)|exact F]|].
    cbn [map fst snd numbered]. rewrite Q. reflexivity.
Qed.
Lemma elems_up X E H t : forall l bl i, Forall2 (may_return X E H t) l bl ->
  exists ps, elems X E H anything tt false t i l ps /\ map (fun e => (serialize (fst e), serialize (snd e))) ps = numbered i bl.
Proof.
  induction l as [|v l IH]; intros bl i F; inversion F as [|v1 b l1 bl1 R F1]; subst.
  - exists []. split; [apply el_nil|reflexivity].
  - destruct (IH bl1 (i + 1) F1) as (ps & El & Q). destruct (means_alone _ _ _ _ _ _ R) as (p & Rp & ->).
    exists ((PInt i, p) :: ps). split; [apply el_cons; assumption|]. cbn [map fst snd numbered]. rewrite Q. reflexivity.
Qed.
(** Entries *)
Lemma key_text_of X k v p : key_repr X k v p -> serialize p = key_text v.
Proof. intros [Hk A]. destruct A; try discriminate Hk; reflexivity. Qed.
Definition entry_text (X : Ext) (E : env) (H : heap) (t : gty) (e : hval * hval) (x : bytes * bytes) : Prop :=
  fst x = key_text (fst e) /\ may_return X E H t (snd e) (snd x).
Lemma pairs_down X E H s k t : 0 <= snd s -> encodable X E t -> forall l ps, pairs X E H code_enter s false k t l ps ->
  Forall2 (entry_text X E H t) l (map (fun e => (serialize (fst e), serialize (snd e))) ps).
Proof.
  intros Hs He. induction l as [|e l IH]; intros ps P; inversion P as [|s1 k1 t1 kv v l1 kp p ps1 K R P1|]; subst; cbn [map fst snd]; constructor.
  - split; cbn [fst snd]; [exact (key_text_of _ _ _ _ K)|exact (alone _ _ _ _ _ _ _ Hs He R)].
  - exact (IH _ P1).
Qed.
Lemma pairs_up X E H k t : forall l xs, (forall e, In e l -> exists p, key_repr X k (fst e) p) -> Forall2 (entry_text X E H t) l xs ->
  exists ps, pairs X E H anything tt false k t l ps /\ map (fun e => (serialize (fst e), serialize (snd e))) ps = xs.
Proof.
  induction l as [|[kv v] l IH]; intros xs Hk F; inversion F as [|e1 x l1 xs1 Ex F1]; subst.
  - exists []. split; [apply pa_nil|reflexivity].
  - destruct (IH xs1 (fun e I => Hk e (or_intror I)) F1) as (ps & P & <-). destruct Ex as [Ek R]. cbn [fst snd] in Ek, R.
    destruct (Hk (kv, v) (or_introl eq_refl)) as (kp & K). cbn [fst] in K. destruct (means_alone _ _ _ _ _ _ R) as (p & Rp & Eb).
    exists ((kp, p) :: ps). split; [apply pa_cons; assumption|]. cbn [map fst snd]. rewrite (key_text_of _ _ _ _ K), <- Ek, <- Eb.
    destruct x; reflexivity.
Qed.
(** Fields *)
Lemma fields_down X E H s : 0 <= snd s -> forall fs l ps,
  (forall f, In f fs -> written_field X f = true -> tag_string (tag_of X f) = false -> encodable X E (elem_or_self E (f_ty f))) ->
  fields X E H code_enter s fs l ps -> fields_text X E H fs l (map (fun e => (serialize (fst e), serialize (snd e))) ps).
Proof.
  intros Hs. induction fs as [|f fs IH]; intros l ps He Fl.
  - inversion Fl; subst. apply fts_nil.
  - assert (forall l ps, fields X E H code_enter s fs l ps -> fields_text X E H fs l (map (fun e => (serialize (fst e), serialize (snd e))) ps)) as IH'.
    { intros l1 ps1. apply IH. intros g I. apply He. right. exact I. }
    pose proof (He f (or_introl eq_refl)) as Hf.
    inversion Fl as [|s1 f1 fs1 v l1 ps1 W Fl1|s1 f1 fs1 v l1 ps1 W O Z Fl1|s1 f1 fs1 v l1 p ps1 W O V Fl1]; subst.
    + apply fts_skip; [exact W|]. exact (IH' _ _ Fl1).
    + apply fts_omit; [exact W|exact O|exact Z|]. exact (IH' _ _ Fl1).
    + cbn [map fst snd]. apply fts_write; [exact W|exact O| |exact (IH' _ _ Fl1)]. specialize (Hf W). unfold elem_or_self in Hf.
      destruct V as [s1 f1 t' Hk|s1 s2 f1 t' o i c p Hk Ht Sk Hc En R|s1 f1 t' o i c p Hk Ht Sk Hc R|s1 f1 v p Hk Ht R|s1 f1 t' o i c p Hk Ht Hc Qr|s1 f1 v p Hk Ht Qr].
      * eapply ft_nil. exact Hk.
      * rewrite Hk in Hf. eapply ft_ptr; [exact Hk|exact Ht|exact Hc|]. exact (alone _ _ _ _ _ _ _ (entered _ _ _ _ En Hs) (Hf Ht) R).
      * rewrite Hk in Hf. eapply ft_ptr; [exact Hk|exact Ht|exact Hc|]. exact (alone _ _ _ _ _ _ _ Hs (Hf Ht) R).
      * apply ft_plain; [exact Hk|exact Ht|]. apply (alone _ _ _ s1); [exact Hs| |exact R]. destruct (kind_of E (f_ty f1)); try discriminate Hk; exact (Hf Ht).
      * eapply ft_ptr_quoted; [exact Hk|exact Ht|exact Hc|exact Qr].
      * apply ft_quoted; assumption.
Qed.
Lemma fields_up X E H fs l xs : fields_text X E H fs l xs ->
  exists ps, fields X E H anything tt fs l ps /\ map (fun e => (serialize (fst e), serialize (snd e))) ps = xs.
Proof.
  induction 1 as [|f fs v l xs W F (ps & Fl & <-)|f fs v l xs W O Z F (ps & Fl & <-)|f fs v l b xs W O V F (ps & Fl & <-)].
  - exists []. split; [apply fl_nil|reflexivity].
  - exists ps. split; [apply fl_skip; assumption|reflexivity].
  - exists ps. split; [apply fl_omit; assumption|reflexivity].
  - assert (exists p, field_val X E H anything tt f v p /\ b = serialize p) as (p & Vp & ->).
    { destruct V as [u Hk|u o i c b Hk Ht Hc R|v b Hk Ht R|u o i c p Hk Ht Hc Qr|v p Hk Ht Qr].
      - exists PNull. split; [eapply fv_nil; exact Hk|reflexivity].
      - destruct (means_alone _ _ _ _ _ _ R) as (p & Rp & ->). exists p. split; [|reflexivity].
        destruct (struct_kind (kind_of E u)) eqn:Sk.
        + eapply fv_ptr_struct with (s' := tt); [exact Hk|exact Ht|exact Sk|exact Hc|exact I|exact Rp].
        + eapply fv_ptr; [exact Hk|exact Ht|exact Sk|exact Hc|exact Rp].
      - destruct (means_alone _ _ _ _ _ _ R) as (p & Rp & ->). exists p. split; [|reflexivity]. apply fv_plain; assumption.
      - exists p. split; [|reflexivity]. eapply fv_ptr_quoted; eassumption.
      - exists p. split; [|reflexivity]. apply fv_quoted; assumption. }
    exists ((PStr (field_key X f), p) :: ps). split; [apply fl_write; assumption|reflexivity].
Qed.

(** ** C82 A container's text is made of the texts of its parts.

    Slices.  If Marshal accepts a slice, it may return exactly the arrays whose
    i-th value is something Marshal may return for the i-th element. *)
Theorem C82_slice : forall X E H T t o i n l, kind_of E T = KSlice t -> marshaler E T = false -> bytes_type T = false ->
  cells H o i n = Some l -> accepted X E H T (HSlice (Some (o, i, n))) ->
  forall b, may_return X E H T (HSlice (Some (o, i, n))) b <->
    exists parts, Forall2 (may_return X E H t) l parts /\ b = array_text (numbered 0 parts).
Proof.
  intros X E H T t o i n l Hk Hm Hb Hc Ha b. assert ((fst (false, T) || negb (bytes_type (snd (false, T)))) = true) as Hb' by (cbn [fst snd]; rewrite Hb; reflexivity). split.
  - intros Q. destruct (accepted_how _ _ _ _ _ _ Q) as (He & p & R & ->).
    inversion R as [s1 t1 v1 b1 Mm|s1 t1 v1 b1 Mm Mb|s1 t1 v1 p1 Mm Mb Sh]; subst; [congruence|congruence|].
    inversion Sh as [s1 t1 v1 p1 Sc| | | |s1 s2 t1 t' o1 i1 n1 l1 ps Hk1 Hc1 En El| | |s1 t1 v1 p1 Ik|s1 t1 t1' v1 p1 Pk| | | | ]; subst;
      try (rewrite Hk in *; discriminate).
    + rewrite Hk in Sc. inversion Sc.
    + replace t' with t in * by congruence. replace l1 with l in * by congruence.
      destruct (elems_down X E H s2 t (entered _ _ _ _ En (Z.le_refl 0))
        (encodable_inside X E _ _ He (ei_step _ _ _ _ _ (ei_refl _ _ _) (ep_slice X E (false, T) t Hm Hb' Hk))) _ _ _ El) as (bl & F & Q1).
      exists bl. split; [exact F|]. rewrite array_text_of, Q1. reflexivity.
  - intros (bl & F & ->). destruct (elems_up _ _ _ _ _ _ 0 F) as (ps & El & Q1). rewrite <- Q1, <- array_text_of.
    apply also_returns; [exact Ha|]. apply rp_shape; [exact Hm|exact Hb|]. eapply sh_slice with (s' := tt); [exact Hk|exact Hc|exact I|exact El].
Qed.
Print Assumptions C82_slice.
(** Arrays. *)
Theorem C82_array : forall X E H T t n l, kind_of E T = KArray n t -> marshaler E T = false ->
  accepted X E H T (HArr l) ->
  forall b, may_return X E H T (HArr l) b <->
    length l = n /\ exists parts, Forall2 (may_return X E H t) l parts /\ b = array_text (numbered 0 parts).
Proof.
  intros X E H T t n l Hk Hm Ha b. assert (bytes_type T = false) as Hb by (eapply not_bytes; [exact Hk|congruence]). split.
  - intros Q. destruct (accepted_how _ _ _ _ _ _ Q) as (He & p & R & ->).
    inversion R as [s1 t1 v1 b1 Mm|s1 t1 v1 b1 Mm Mb|s1 t1 v1 p1 Mm Mb Sh]; subst; [congruence|congruence|].
    inversion Sh as [s1 t1 v1 p1 Sc| |s1 t1 n1 t' l1 ps Hk1 Hl El| | | | |s1 t1 v1 p1 Ik|s1 t1 t1' v1 p1 Pk| | | | ]; subst;
      try (rewrite Hk in *; discriminate).
    + rewrite Hk in Sc. inversion Sc.
    + assert (t' = t /\ n = length l) as [-> ->] by (split; congruence). split; [reflexivity|].
      destruct (elems_down X E H ([], 0) t (Z.le_refl 0)
        (encodable_inside X E _ _ He (ei_step _ _ _ _ _ (ei_refl _ _ _) (ep_array X E (false, T) _ t Hm Hk))) _ _ _ El) as (bl & F & Q1).
      exists bl. split; [exact F|]. rewrite array_text_of, Q1. reflexivity.
  - intros (Hl & bl & F & ->). destruct (elems_up _ _ _ _ _ _ 0 F) as (ps & El & Q1). rewrite <- Q1, <- array_text_of.
    apply also_returns; [exact Ha|]. apply rp_shape; [exact Hm|exact Hb|]. eapply sh_array; [exact Hk|exact Hl|exact El].
Qed.
Print Assumptions C82_array.
(** Maps: the entries in any order, the key written as an integer or a string,
    the value as Marshal may write it. *)
Theorem C82_map : forall X E H T k t o m, kind_of E T = KMap k t -> marshaler E T = false ->
  entries H o = Some m -> accepted X E H T (HMap (Some o)) ->
  forall b, may_return X E H T (HMap (Some o)) b <->
    exists l parts, Permutation m l /\ Forall2 (entry_text X E H t) l parts /\ b = array_text parts.
Proof.
  intros X E H T k t o m Hk Hm Hc Ha b. assert (bytes_type T = false) as Hb by (eapply not_bytes; [exact Hk|congruence]).
  assert (forall b, may_return X E H T (HMap (Some o)) b -> exists s2 l ps, 0 <= snd s2 /\ encodable X E t /\ Permutation m l /\
    pairs X E H code_enter s2 false (kind_of E k) t l ps /\ b = serialize (PArr ps)) as Dn.
  { intros b0 Q. destruct (accepted_how _ _ _ _ _ _ Q) as (He & p & R & ->).
    inversion R as [s1 t1 v1 b1 Mm|s1 t1 v1 b1 Mm Mb|s1 t1 v1 p1 Mm Mb Sh]; subst; [congruence|congruence|].
    inversion Sh as [s1 t1 v1 p1 Sc| | | | | |s1 s2 t1 k1 t1' o1 m1 l1 ps1 Hk1 Hm1 Hp En Pa|s1 t1 v1 p1 Ik|s1 t1 t1' v1 p1 Pk| | | | ]; subst;
      try (rewrite Hk in *; discriminate).
    + rewrite Hk in Sc. inversion Sc.
    + assert (k1 = k /\ t1' = t /\ m1 = m) as (-> & -> & ->) by (split; [congruence|split; congruence]).
      exists s2, l1, ps1. split; [exact (entered _ _ _ _ En (Z.le_refl 0))|]. split; [exact (encodable_val X E _ _ _ He Hm Hk)|]. auto. }
  split.
  - intros Q. destruct (Dn b Q) as (s2 & l & ps & Hs & He & Hp & Pa & ->). exists l, (map (fun e => (serialize (fst e), serialize (snd e))) ps).
    split; [exact Hp|]. split; [exact (pairs_down _ _ _ _ _ _ Hs He _ _ Pa)|apply array_text_of].
  - intros (l & xs & Hp & F & ->). destruct Ha as (b0 & Q0). destruct (Dn b0 Q0) as (s2 & l2 & ps2 & _ & _ & Hp2 & Pa2 & _).
    destruct (pairs_up X E H (kind_of E k) t l xs) as (ps & Pa & <-); [|exact F|].
    + intros e Ie. apply (Permutation_in _ (Permutation_sym Hp)) in Ie. apply (Permutation_in _ Hp2) in Ie.
      apply pairs_forall2 in Pa2. clear - Pa2 Ie. induction Pa2 as [|e1 x1 l1 p1 [K _] F1 IH]; [destruct Ie|].
      destruct Ie as [<-|Ie]; [eauto|exact (IH Ie)].
    + rewrite <- array_text_of. apply also_returns; [exists b0; exact Q0|]. apply rp_shape; [exact Hm|exact Hb|].
      eapply sh_map with (s' := tt); [exact Hk|exact Hc|exact Hp|exact I|exact Pa].
Qed.
Print Assumptions C82_map.
(** Structs: the fields that are written, in order, each under its key. *)
Theorem C82_struct : forall X E H T id fs l, kind_of E T = KStruct id fs -> marshaler E T = false ->
  accepted X E H T (HStruct l) ->
  forall b, may_return X E H T (HStruct l) b <-> exists parts, fields_text X E H fs l parts /\ b = array_text parts.
Proof.
  intros X E H T id fs l Hk Hm Ha b. assert (bytes_type T = false) as Hb by (eapply not_bytes; [exact Hk|congruence]). split.
  - intros Q. destruct (accepted_how _ _ _ _ _ _ Q) as (He & p & R & ->).
    inversion R as [s1 t1 v1 b1 Mm|s1 t1 v1 b1 Mm Mb|s1 t1 v1 p1 Mm Mb Sh]; subst; [congruence|congruence|].
    inversion Sh as [s1 t1 v1 p1 Sc|s1 t1 id1 fs1 l1 ps Hk1 Fl| | | | | |s1 t1 v1 p1 Ik|s1 t1 t1' v1 p1 Pk| | | | ]; subst;
      try (rewrite Hk in *; discriminate).
    + rewrite Hk in Sc. inversion Sc.
    + assert (fs1 = fs) as -> by congruence. exists (map (fun e => (serialize (fst e), serialize (snd e))) ps).
      split; [|apply array_text_of]. apply (fields_down X E H ([], 0) (Z.le_refl 0)); [|exact Fl]. intros f Hf W Ht.
      refine (encodable_inside X E _ _ He (ei_step _ _ _ _ _ (ei_refl _ _ _) _)). exact (ep_field X E (false, T) id fs f Hm Hk Hf W Ht).
  - intros (xs & F & ->). destruct (fields_up _ _ _ _ _ _ F) as (ps & Fl & <-). rewrite <- array_text_of.
    apply also_returns; [exact Ha|]. apply rp_shape; [exact Hm|exact Hb|]. eapply sh_struct; [exact Hk|exact Fl].
Qed.
Print Assumptions C82_struct.
(** Pointers: what Marshal may return for what they point to. *)
Theorem C82_pointer : forall X E H T t o i c, kind_of E T = KPtr t -> iface_kind (kind_of E t) = false ->
  marshaler E T = false -> marshaler E t = false ->
  cell H o i = Some c -> accepted X E H T (HPtr (Some (o, i))) ->
  forall b, may_return X E H T (HPtr (Some (o, i))) b <-> may_return X E H t c b.
Proof.
  intros X E H T t o i c Hk Hif Hm Hmt Hc Ha b. assert (bytes_type T = false) as Hb by (eapply not_bytes; [exact Hk|congruence]).
  assert (by_structure (kind_of E t) = true -> bytes_type t = false) as Hbt.
  { intros Bs. eapply not_bytes; [reflexivity|]. intros u Q. rewrite Q in Bs. discriminate Bs. }
  split.
  - intros Q. destruct (accepted_how _ _ _ _ _ _ Q) as (He & p & R & ->).
    pose proof (encodable_elem X E _ _ He Hm Hmt Hk Hif) as Het.
    inversion R as [s1 t1 v1 b1 Mm|s1 t1 v1 b1 Mm Mb|s1 t1 v1 p1 Mm Mb Sh]; subst; [congruence|congruence|].
    inversion Sh as [s1 t1 v1 p1 Sc| | | | | | |s1 t1 v1 p1 Ik|s1 t1 t1' v1 p1 Pk Ik| |s1 s2 t1 t1' o1 i1 c1 p1 Pk Sk Hc1 En S1|s1 t1 t1' o1 i1 c1 p1 Pk Sk Bs Hc1 S1|s1 t1 t1' o1 i1 c1 p1 Pk Bs Ik Hc1 R1]; subst;
      try (rewrite Hk in *; discriminate).
    + rewrite Hk in Sc. inversion Sc.
    + assert (t1' = t) as -> by congruence. congruence.
    + assert (t1' = t /\ c1 = c) as [-> ->] by (split; congruence). apply (alone _ _ _ s2); [exact (entered _ _ _ _ En (Z.le_refl 0))|exact Het|].
      apply rp_shape; [exact Hmt| |exact S1]. apply Hbt. destruct (kind_of E t); try discriminate Sk; reflexivity.
    + assert (t1' = t /\ c1 = c) as [-> ->] by (split; congruence). apply (alone _ _ _ ([], 0)); [cbn [snd]; lia|exact Het|].
      apply rp_shape; [exact Hmt|exact (Hbt Bs)|exact S1].
    + assert (t1' = t /\ c1 = c) as [-> ->] by (split; congruence). apply (alone _ _ _ ([], 0)); [cbn [snd]; lia|exact Het|exact R1].
  - intros Q. destruct (means_alone _ _ _ _ _ _ Q) as (p & R & ->). apply also_returns; [exact Ha|].
    apply rp_shape; [exact Hm|exact Hb|]. destruct (by_structure (kind_of E t)) eqn:Bs; [|eapply sh_ptr; [exact Hk|exact Bs|exact Hif|exact Hc|exact R]].
    unfold Represents in R. inversion R as [s1 t1 v1 b1 Mm|s1 t1 v1 b1 Mm Mb|s1 t1 v1 p1 Mm Mb Sh]; subst; [congruence|rewrite (Hbt eq_refl) in Mb; discriminate|].
    destruct (struct_kind (kind_of E t)) eqn:Sk.
    + eapply sh_ptr_struct with (s' := tt); [exact Hk|exact Sk|exact Hc|exact I|exact Sh].
    + eapply sh_ptr_direct; [exact Hk|exact Sk|exact Bs|exact Hc|exact Sh].
Qed.
Print Assumptions C82_pointer.
(** The guard on methods in C82_pointer is needed: a MarshalPHP method declared
    on the pointer speaks for the pointer, not for the value. *)
Definition E82 : env := [Decl (UTy (TInt IInt)) PointerRecv false].
Definition H82 : heap := [Cells [HInt 5]].
Example C82_pointer_method : marshaler E82 (TName 0) = false /\ marshaler E82 (TPtr (TName 0)) = true /\
  Marshals Xd E82 H82 in_order (TPtr (TName 0)) (HPtr (Some (0, 0)%nat)) (bs "N;") /\
  Marshals Xd E82 H82 in_order (TName 0) (HInt 5) (bs "i:5;").
Proof. do 2 (split; [reflexivity|]). split; exists 9%nat; vm_compute; reflexivity. Qed.

(** Conversely, texts of the parts put together are refused for one reason only:
    the check for recursion.  [built T v b]: [b] is put together like that. *)
Inductive built (X : Ext) (E : env) (H : heap) (T : gty) : hval -> bytes -> Prop :=
| bt_slice t o i n l parts : kind_of E T = KSlice t -> bytes_type T = false -> cells H o i n = Some l ->
    Forall2 (may_return X E H t) l parts -> built X E H T (HSlice (Some (o, i, n))) (array_text (numbered 0 parts))
| bt_array t n l parts : kind_of E T = KArray n t -> length l = n -> Forall2 (may_return X E H t) l parts ->
    built X E H T (HArr l) (array_text (numbered 0 parts))
| bt_map k t o m l parts : kind_of E T = KMap k t -> entries H o = Some m ->
    (forall e, In e m -> exists p, key_repr X (kind_of E k) (fst e) p) ->
    Permutation m l -> Forall2 (entry_text X E H t) l parts -> built X E H T (HMap (Some o)) (array_text parts)
| bt_struct id fs l parts : kind_of E T = KStruct id fs -> fields_text X E H fs l parts ->
    built X E H T (HStruct l) (array_text parts).
Theorem C82_parts_suffice : forall X E H ord T v b, fair_order ord -> well_typed E H T v -> methods_return X ->
  (forall u w, within E H T v u w -> finite_arrays X E u) -> encodable X E T -> marshaler E T = false -> built X E H T v b ->
  may_return X E H T v b \/ (exists u, MarshalFails X E H ord T v (EMarshal (CRecursive u))).
Proof.
  intros X E H ord T v b Ho Hty Hme Hfa He Hm B.
  assert (exists p, Represents X E H T v p /\ b = serialize p) as (p & R & ->).
  { destruct B as [t o i n l parts Hk Hb Hc F|t n l parts Hk Hl F|k t o m l parts Hk Hc Kk Hp F|id fs l parts Hk F].
    - destruct (elems_up _ _ _ _ _ _ 0 F) as (ps & El & Q1). exists (PArr ps). rewrite <- Q1, <- array_text_of. split; [|reflexivity].
      apply rp_shape; [exact Hm|exact Hb|]. eapply sh_slice with (s' := tt); [exact Hk|exact Hc|exact I|exact El].
    - destruct (elems_up _ _ _ _ _ _ 0 F) as (ps & El & Q1). exists (PArr ps). rewrite <- Q1, <- array_text_of. split; [|reflexivity].
      apply rp_shape; [exact Hm|eapply not_bytes; [exact Hk|congruence]|]. eapply sh_array; [exact Hk|exact Hl|exact El].
    - destruct (pairs_up X E H (kind_of E k) t l parts) as (ps & Pa & <-); [|exact F|].
      + intros e Ie. apply Kk. exact (Permutation_in _ (Permutation_sym Hp) Ie).
      + exists (PArr ps). rewrite <- array_text_of. split; [|reflexivity].
        apply rp_shape; [exact Hm|eapply not_bytes; [exact Hk|congruence]|].
        eapply sh_map with (s' := tt); [exact Hk|exact Hc|exact Hp|exact I|exact Pa].
    - destruct (fields_up _ _ _ _ _ _ F) as (ps & Fl & <-). exists (PArr ps). rewrite <- array_text_of. split; [|reflexivity].
      apply rp_shape; [exact Hm|eapply not_bytes; [exact Hk|congruence]|]. eapply sh_struct; [exact Hk|exact Fl]. }
  destruct (C33_nothing_else_refused X E H ord T v p Ho Hty Hme Hfa He R) as [(b & Q)|F]; [left|right; exact F].
  apply also_returns; [|exact R]. exists b, ord. split; assumption.
Qed.
Print Assumptions C82_parts_suffice.

Lemma returned X E H t v b f : snd (marshal X E H in_order f st0 (Some (t, v))) = ROk b -> may_return X E H t v b.
Proof. intros Q. exists in_order. split; [exact in_order_fair|]. exists f. exact Q. Qed.
(** Every theorem has its case in one value: a pointer to a struct with a
    pointer to a struct and a slice of strings; and a map. *)
Example C82_example :
  accepted Xd Ed Hd (TPtr (TName 0)) (HPtr (Some (2, 0)%nat)) /\
  accepted Xd Ed Hd (TName 0) (HStruct [HInt 7; HStr []; HPtr (Some (0, 0)%nat); HInt 0; HSlice (Some (1, 0, 2)%nat)]) /\
  accepted Xd Ed Hd (TSlice TString) (HSlice (Some (1, 0, 2)%nat)) /\
  accepted Xd Ed Hd (TMap TString TAny) (HMap (Some 3%nat)) /\
  accepted Xd Ed Hd (TArray 2 TString) (HArr [HStr (bs "x"); HStr []]) /\
  array_text (numbered 0 [bs "s:1:""x"";"; bs "s:0:"""";"]) = bs "a:2:{i:0;s:1:""x"";i:1;s:0:"""";}" /\
  may_return Xd Ed Hd (TSlice TString) (HSlice (Some (1, 0, 2)%nat)) (bs "a:2:{i:0;s:1:""x"";i:1;s:0:"""";}") /\
  may_return Xd Ed Hd TString (HStr (bs "x")) (bs "s:1:""x"";").
Proof.
  do 5 (split; [eexists; apply (returned _ _ _ _ _ _ 30%nat); vm_compute; reflexivity|]). split; [vm_compute; reflexivity|].
  split; apply (returned _ _ _ _ _ _ 30%nat); vm_compute; reflexivity.
Qed.
Example C82_example_suffice : let T := TArray 2 TString in let v := HArr [HStr (bs "x"); HStr []] in
  well_typed [] [] T v /\ methods_return Xd /\ (forall u w, within [] [] T v u w -> finite_arrays Xd [] u) /\ encodable Xd [] T /\
  marshaler [] T = false /\ built Xd [] [] T v (bs "a:2:{i:0;s:1:""x"";i:1;s:0:"""";}").
Proof.
  intros T v.
  assert (forall u w, within [] [] T v u w -> (u, w) = (T, v) \/ (u, w) = (TString, HStr (bs "x")) \/ (u, w) = (TString, HStr [])) as W.
  { induction 1 as [|u w u' w' _ IH P]; [left; reflexivity|]. right.
    destruct IH as [Q|[Q|Q]]; injection Q as -> ->; inversion P; subst; try discriminate.
    match goal with K : kind_of _ _ = KArray _ _ |- _ => cbn in K; injection K as <- <- end.
    match goal with J : In _ _ |- _ => cbn in J; destruct J as [<-|[<-|[]]] end; auto. }
  assert (encodable Xd [] T) as He by (refine (compile_encodable Xd [] 9 _ _ _); vm_compute; reflexivity).
  assert (encodable Xd [] TString) as Hs by (refine (compile_encodable Xd [] 9 _ _ _); vm_compute; reflexivity).
  split; [|split; [intros n b H w Q; discriminate|split; [|split; [exact He|split; [reflexivity|]]]]].
  - intros u w I. destruct (W u w I) as [Q|[Q|Q]]; injection Q as -> ->; [eapply hr_array; reflexivity|apply hr_str; reflexivity|apply hr_str; reflexivity].
  - intros u w I. destruct (W u w I) as [Q|[Q|Q]]; injection Q as -> ->; [exact (proj2 He)|exact (proj2 Hs)|exact (proj2 Hs)].
  - change (bs "a:2:{i:0;s:1:""x"";i:1;s:0:"""";}") with (array_text (numbered 0 [bs "s:1:""x"";"; bs "s:0:"""";"])).
    eapply bt_array; [reflexivity|reflexivity|]. repeat (constructor; [apply (returned _ _ _ _ _ _ 9%nat); vm_compute; reflexivity|]). constructor.
Qed.
