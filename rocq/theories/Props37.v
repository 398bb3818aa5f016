(** Properties of Unmarshal: a struct is decoded field by field (C83). *)
From Coq Require Import Strings.String Strings.Byte ZArith List Bool Lia.
From Verif Require Import Base GoTypes Tags Unmarshal Grammar Denote Elements TextFacts Typing Api CompileFacts UnmFacts StoreFacts StructFacts Demo.
Import ListNotations.
Open Scope Z_scope.

(** ** Specification *)

(** What a value in the input does to the field it is for: with the string
    option it is the text of a scalar, otherwise Unmarshal does it. *)
Definition gets (X : Ext) (E : env) (f : field) (p : lval) (old new : gval) : Prop :=
  if string_tagged X E f then store_quoted X E (f_ty f) p old new else Decodes X E (text p) (f_ty f) old new.

(** What the entries of an array or object do to one field: those under its key
    are stored, in order, each over the result of the one before; the others do
    nothing to it. *)
Inductive filled (X : Ext) (G : lval -> gval -> gval -> Prop) (f : field) : list (lval * lval) -> gval -> gval -> Prop :=
| fi_nil v : filled X G f [] v v
| fi_here kp p es v v1 v2 : key_text kp (field_key X f) -> G p v v1 -> filled X G f es v1 v2 -> filled X G f ((kp, p) :: es) v v2
| fi_other kp k p es v v2 : key_text kp k -> k <> field_key X f -> filled X G f es v v2 -> filled X G f ((kp, p) :: es) v v2.

(** An entry a struct accepts: the key is a string (or null); if it is not the
    key of a field, the value is well formed. *)
Definition welcome (X : Ext) (fs : list field) (e : lval * lval) : Prop :=
  exists k, key_text (fst e) k /\
    ((exists f, In f fs /\ is_ignored f = false /\ field_key X f = k) \/ strict 1 (snd e)).

(** ** Proof *)
Lemma filled_mono X (G G' : lval -> gval -> gval -> Prop) f es : (forall e a b, In e es -> key_text (fst e) (field_key X f) -> G (snd e) a b -> G' (snd e) a b) ->
  forall v w, filled X G f es v w -> filled X G' f es v w.
Proof.
  intros HG v w F. revert HG. induction F as [v|kp p es v v1 v2 K V F IH|kp k p es v v2 K N F IH]; intros HG.
  - constructor.
  - eapply fi_here; [exact K|exact (HG (kp, p) _ _ (or_introl eq_refl) K V)|]. apply IH. intros e a b I. apply HG. right. exact I.
  - eapply fi_other; [exact K|exact N|]. apply IH. intros e a b I. apply HG. right. exact I.
Qed.

Lemma nth_error_all {A} : forall l l' : list A, (forall i, nth_error l i = nth_error l' i) -> l = l'.
Proof.
  induction l as [|x l IH]; intros [|y l'] Q; [reflexivity|discriminate (Q 0%nat)|discriminate (Q 0%nat)|].
  f_equal; [injection (Q 0%nat) as ->; reflexivity|]. apply IH. intros i. exact (Q (S i)).
Qed.
Section Fill.
  Context (X : Ext) (E : env) (fs : list field) (V : gty -> lval -> gval -> gval -> Prop).
  Hypothesis Hu : forall i f, nth_error fs i = Some f -> is_ignored f = false -> lookup X fs (field_key X f) = Some (i, f).
  Notation FV := (FV X E V).

  Lemma entries_fill es : forall l l', struct_entries X E 1 fs V l es l' -> Forall (welcome X fs) es /\
    forall i f x x', nth_error fs i = Some f -> nth_error l i = Some x -> nth_error l' i = Some x' ->
      if is_ignored f then x' = x else filled X (FV f) f es x x'.
  Proof.
    induction es as [|e es IH]; intros l l' H.
    - apply struct_entries_nil in H as ->. split; [constructor|]. intros i f x x' Hf Hx Hx'.
      assert (x' = x) as -> by congruence. destruct (is_ignored f); [reflexivity|constructor].
    - apply struct_entries_cons in H as (l1 & St & H). destruct (IH _ _ H) as [W F]. split.
      + constructor; [|exact W]. destruct St as [l0 kp k i f p old v Hkt Hl Ho HV|l0 kp k p Hkt Hl Hs]; exists k; (split; [exact Hkt|]).
        * left. destruct (lookup_spec _ _ _ _ _ Hl) as (Hn & Hi & Hk). exists f. split; [eapply nth_error_In; exact Hn|]. split; assumption.
        * right. exact Hs.
      + intros i f x x' Hf Hx Hx'. destruct St as [l0 kp k j g p old v Hkt Hl Ho HV|l0 kp k p Hkt Hl Hs].
        * destruct (lookup_spec _ _ _ _ _ Hl) as (Hn & Hi & Hk). destruct (Nat.eq_dec j i) as [->|Hne].
          -- assert (g = f) as -> by congruence. assert (old = x) as -> by congruence. rewrite Hi. rewrite <- Hk in Hkt. eapply fi_here; [exact Hkt|exact HV|].
             specialize (F i f v x' Hf (nth_error_update_eq _ _ _ (nth_error_lt _ _ _ Hx)) Hx'). rewrite Hi in F. exact F.
          -- specialize (F i f x x' Hf ltac:(rewrite nth_error_update_ne by exact Hne; exact Hx) Hx'). destruct (is_ignored f) eqn:Ei; [exact F|].
             eapply fi_other; [exact Hkt| |exact F]. intros ->. rewrite (Hu i f Hf Ei) in Hl. congruence.
        * specialize (F i f x x' Hf Hx Hx'). destruct (is_ignored f) eqn:Ei; [exact F|]. eapply fi_other; [exact Hkt| |exact F].
          intros ->. rewrite (Hu i f Hf Ei) in Hl. discriminate.
  Qed.
  Lemma key_text_one kp k k' : key_text kp k -> key_text kp k' -> k = k'.
  Proof. intros A B. rewrite <- (key_text_entry _ _ LNull A). exact (key_text_entry _ _ LNull B). Qed.
  Lemma fill_entries es : forall l l', length l = length fs -> length l' = length l -> Forall (welcome X fs) es ->
    (forall i f x x', nth_error fs i = Some f -> nth_error l i = Some x -> nth_error l' i = Some x' ->
       if is_ignored f then x' = x else filled X (FV f) f es x x') -> struct_entries X E 1 fs V l es l'.
  Proof.
    induction es as [|[kp p] es IH]; intros l l' Hlf Hl W F.
    - assert (l' = l) as ->; [|constructor]. apply nth_error_all. intros i.
      destruct (nth_error l' i) as [x'|] eqn:Q'; destruct (nth_error l i) as [x|] eqn:Q; [| | |reflexivity].
      + destruct (nth_error fs i) as [f|] eqn:Qf; [|apply nth_error_None in Qf; apply nth_error_lt in Q; lia].
        specialize (F i f x x' Qf Q Q'). destruct (is_ignored f); [congruence|]. inversion F; subst; reflexivity.
      + apply nth_error_lt in Q'. apply nth_error_None in Q. lia.
      + apply nth_error_lt in Q. apply nth_error_None in Q'. lia.
    - inversion W as [|e1 es1 (k & Hkt & Hw) W1]; subst. cbn [fst snd] in Hkt, Hw.
      destruct (lookup X fs k) as [[i f]|] eqn:Lk.
      + destruct (lookup_spec _ _ _ _ _ Lk) as (Hn & Hi & Hk).
        assert (exists x x', nth_error l i = Some x /\ nth_error l' i = Some x') as (x & x' & Hx & Hx').
        { pose proof (nth_error_lt _ _ _ Hn) as Lt. destruct (nth_error l i) as [x|] eqn:Q; [|apply nth_error_None in Q; lia].
          destruct (nth_error l' i) as [x'|] eqn:Q'; [|apply nth_error_None in Q'; lia]. eauto. }
        pose proof (F i f x x' Hn Hx Hx') as Fi. rewrite Hi in Fi.
        inversion Fi as [|kp1 p1 es1 v v1 v2 K HV Fr|kp1 k1 p1 es1 v v2 K N Fr]; subst.
        * apply (struct_entries_cons X E 1 fs V). exists (update l i v1). split; [eapply step_known; [exact Hkt|exact Lk|exact Hx|exact HV]|].
          apply IH; [rewrite upd_length; exact Hlf|rewrite upd_length; exact Hl|exact W1|].
          intros j g y y' Hg Hy Hy'. destruct (Nat.eq_dec i j) as [<-|Hne].
          -- assert (g = f) as -> by congruence. rewrite Hi. rewrite nth_error_update_eq in Hy by exact (nth_error_lt _ _ _ Hx).
             assert (y = v1 /\ y' = x') as [-> ->] by (split; congruence). exact Fr.
          -- rewrite nth_error_update_ne in Hy by exact Hne. specialize (F j g y y' Hg Hy Hy'). destruct (is_ignored g) eqn:Ig; [exact F|].
             inversion F as [|kp2 p2 es2 w w1 w2 K2 HV2 F2|kp2 k2 p2 es2 w w2 K2 N2 F2]; subst; [|exact F2].
             exfalso. apply Hne. pose proof (key_text_one _ _ _ Hkt K2) as Ek. rewrite Ek in Lk. rewrite (Hu j g Hg Ig) in Lk. congruence.
        * exfalso. apply N. symmetry. exact (key_text_one _ _ _ Hkt K).
      + destruct Hw as [(f & Hf & Hi & Hk)|Hs]; [exfalso; exact (lookup_none_inv X fs k Lk f Hf Hi Hk)|].
        apply (struct_entries_cons X E 1 fs V). exists l. split; [eapply step_unknown; [exact Hkt|exact Lk|exact Hs]|].
        apply IH; [exact Hlf|exact Hl|exact W1|]. intros j g y y' Hg Hy Hy'. specialize (F j g y y' Hg Hy Hy'). destruct (is_ignored g) eqn:Ig; [exact F|].
        inversion F as [|kp2 p2 es2 w w1 w2 K2 HV2 F2|kp2 k2 p2 es2 w w2 K2 N2 F2]; subst; [|exact F2].
        exfalso. pose proof (key_text_one _ _ _ Hkt K2) as Ek. rewrite Ek in Lk. rewrite (Hu j g Hg Ig) in Lk. discriminate.
  Qed.
End Fill.

(** ** C83 A struct is decoded field by field.

    Unmarshal of an array or object into a struct succeeds if and only if every
    key is the key of a field or belongs to a well-formed value, and every field
    can take the values written under its key, one after the other; and that is
    what the field then holds.  Fields that are ignored keep what they held. *)
Theorem C83_struct_exact : forall X E T id fs p n es l w, small (text p) -> wf p -> supported X E T ->
  plain E T (KStruct id fs) -> body_of p n es -> nesting p < 10000 -> length l = length fs ->
  Decodes X E (text p) T (VStruct l) w <->
  Forall (welcome X fs) es /\ exists l', w = VStruct l' /\ length l' = length l /\
    forall i f x x', nth_error fs i = Some f -> nth_error l i = Some x -> nth_error l' i = Some x' ->
      if is_ignored f then x' = x else filled X (gets X E f) f es x x'.
Proof.
  intros X E T id fs p n es l w Hsm Hw Hs Hk Hb Hn Hl.
  assert (forall i f, nth_error fs i = Some f -> is_ignored f = false -> lookup X fs (field_key X f) = Some (i, f)) as Hu.
  { intros i f Hf Hi. exact (lookup_unique X E T id fs i f Hk Hs Hf Hi). }
  assert (forall f, In f fs -> is_ignored f = false -> supported X E (f_ty f)) as Hsf.
  { intros f Hf Hi. eapply supported_component; [exact Hs|]. eapply co_field; eassumption. }
  rewrite (nesting_body _ _ _ Hb) in Hn.
  rewrite (decodes_struct X E T id fs p n es _ w Hsm Hw Hs Hk Hb). split.
  - intros (l0 & l' & Ql & -> & H). injection Ql as <-. destruct (entries_fill X E fs _ Hu es l l' H) as [W F]. split; [exact W|].
    exists l'. split; [reflexivity|]. split; [exact (struct_length X E 1 fs _ _ _ _ H)|].
    intros i f x x' Hf Hx Hx'. specialize (F i f x x' Hf Hx Hx'). destruct (is_ignored f) eqn:Ei; [exact F|].
    revert F. apply filled_mono. intros e a b I _. unfold FV, gets. destruct (string_tagged X E f); [auto|]. intros HV.
    destruct (in_wf _ _ _ e Hb I Hw). eapply decodes_inner; [eapply in_small; eassumption|assumption| |exact HV].
    apply Hsf; [eapply nth_error_In; exact Hf|exact Ei].
  - intros (W & l' & -> & Hl' & F). exists l, l'. do 2 (split; [reflexivity|]). apply (fill_entries X E fs _ Hu); [exact Hl|exact Hl'|exact W|].
    intros i f x x' Hf Hx Hx'. specialize (F i f x x' Hf Hx Hx'). destruct (is_ignored f) eqn:Ei; [exact F|].
    revert F. apply filled_mono. intros e a b I _. unfold FV, gets. destruct (string_tagged X E f); [auto|]. intros HV.
    destruct (in_wf _ _ _ e Hb I Hw). destruct (nest_body_in e es I). eapply inner_decodes; [eapply in_small; eassumption|assumption| | |exact HV].
    + apply Hsf; [eapply nth_error_In; exact Hf|exact Ei].
    + unfold limit. lia.
Qed.
Print Assumptions C83_struct_exact.
(** The key "Next" twice: the second value is decoded over the first, so the
    Node it points to has fields from both. *)
Definition twice : list (lval * lval) :=
  [(LStr (bs "4") (bs "Next"), LArr (bs "1") [(LStr (bs "1") (bs "a"), LInt (bs "5"))]);
   (LStr (bs "2") (bs "zz"), LNull);
   (LStr (bs "4") (bs "Next"), LArr (bs "1") [(LStr (bs "1") (bs "b"), LStr (bs "1") (bs "x"))])].
Example C83_example : let p := LArr (bs "3") twice in
  small (text p) /\ wf p /\ supported Xd Ed (TName 0) /\ nesting p < 10000 /\
  Decodes Xd Ed (text p) (TName 0) (zero Ed (TName 0))
    (VStruct [VInt 0; VStr []; VPtr (Some (VStruct [VInt 5; VStr (bs "x"); VPtr None; VInt 0; VSlice None])); VInt 0; VSlice None]) /\
  filled Xd (gets Xd Ed (Field (bs "Next") true false [] (TPtr (TName 0)))) (Field (bs "Next") true false [] (TPtr (TName 0))) twice
    (VPtr None) (VPtr (Some (VStruct [VInt 5; VStr (bs "x"); VPtr None; VInt 0; VSlice None]))).
Proof.
  assert (forall n m, key_text (LStr n m) m <-> str_ok n m) as K by (intros n m; split; [intros Q; inversion Q; subst; assumption|intros Q; constructor; exact Q]).
  assert (wf (LArr (bs "3") twice)) as W.
  { repeat first [apply wf_arr; [split; [discriminate|reflexivity]|] | apply Forall_cons; [split; cbn [fst snd]|] | apply Forall_nil | apply wf_null
      | eapply wf_int; apply it_pos; split; [discriminate|reflexivity] | eapply wf_str; [split; [discriminate|reflexivity]|reflexivity]]. }
  split; [reflexivity|]. split; [exact W|]. split; [apply (compile_supported Xd Ed 9); vm_compute; reflexivity|]. split; [reflexivity|].
  split; [exists 9%nat; vm_compute; reflexivity|]. unfold twice.
  eapply fi_here with (v1 := VPtr (Some (VStruct [VInt 5; VStr []; VPtr None; VInt 0; VSlice None]))).
  - apply K. split; [split; [discriminate|reflexivity]|reflexivity].
  - exists 9%nat. vm_compute. reflexivity.
  - eapply fi_other with (k := bs "zz"); [apply K; split; [split; [discriminate|reflexivity]|reflexivity]|discriminate|].
    eapply fi_here; [apply K; split; [split; [discriminate|reflexivity]|reflexivity]| |apply fi_nil].
    exists 9%nat. vm_compute. reflexivity.
Qed.
