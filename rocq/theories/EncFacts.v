(** Basic facts about the encoder: more fuel never changes a result, and the
    context is given back as it was. *)
From Coq Require Import Strings.String Strings.Byte ZArith List Bool Lia.
From Verif Require Import Base GoTypes Strconv Tags Memory EncCompile Encode Php Repr EncCompileFacts.
Import ListNotations.
Open Scope Z_scope.

(** ** Fuel *)

Definition mle {A} (a b : M A) : Prop := forall s, snd (a s) <> RFuel -> b s = a s.

Lemma mle_refl {A} (a : M A) : mle a a.
Proof. intros s _. reflexivity. Qed.
Lemma mle_fuel {A} (b : M A) : mle (stop RFuel) b.
Proof. intros s H. cbn in H. congruence. Qed.
Lemma mle_bind {A B} (a a' : M A) (k k' : A -> M B) : mle a a' -> (forall x, mle (k x) (k' x)) -> mle (bindM a k) (bindM a' k').
Proof.
  intros Ha Hk s Hn. unfold bindM in *. specialize (Ha s). destruct (a s) as [s1 [x|e|p|]]; cbn [snd] in *; rewrite Ha by congruence; try reflexivity.
  apply Hk. exact Hn.
Qed.
Lemma mle_rec t x (a b : M bytes) : mle a b -> mle (check_rec t x a) (check_rec t x b).
Proof.
  intros H s Hn. unfold check_rec in *. destruct (1000 <? depth s + 1).
  - destruct (has x (seen s)); [reflexivity|]. specialize (H (St (x :: seen s) (depth s + 1) (iters s))).
    destruct (a (St (x :: seen s) (depth s + 1) (iters s))) as [s' r]. cbn [snd] in *. rewrite (H Hn). reflexivity.
  - specialize (H (St (seen s) (depth s + 1) (iters s))).
    destruct (a (St (seen s) (depth s + 1) (iters s))) as [s' r]. cbn [snd] in *. rewrite (H Hn). reflexivity.
Qed.
Lemma mle_seen t x (a b : M bytes) : mle a b -> mle (check_seen t x a) (check_seen t x b).
Proof.
  intros H s Hn. unfold check_seen in *. destruct (has x (seen s)); [reflexivity|].
  specialize (H (St (x :: seen s) (depth s) (iters s))).
  destruct (a (St (x :: seen s) (depth s) (iters s))) as [s' r]. cbn [snd] in *. rewrite (H Hn). reflexivity.
Qed.

Section Fuel.
  Context (X : Ext) (E : env) (H : heap) (ord : nat -> list (hval * hval) -> list (hval * hval)).
  Notation enc := (enc_f X E H ord).

  Lemma mle_elems (e e' : hval -> M bytes) : (forall v, mle (e v) (e' v)) -> forall l i, mle (enc_elems e i l) (enc_elems e' i l).
  Proof.
    intros He. induction l as [|v l IH]; intros i; cbn [enc_elems]; [apply mle_refl|].
    apply mle_bind; [apply He|]. intros b. apply mle_bind; [apply IH|]. intros b'. apply mle_refl.
  Qed.
  Lemma mle_seq e e' l : (forall v, mle (e v) (e' v)) -> mle (enc_seq e l) (enc_seq e' l).
  Proof. intros He. apply mle_bind; [apply mle_elems, He|]. intros b. apply mle_refl. Qed.
  Lemma mle_pairs k e e' : (forall v, mle (e v) (e' v)) -> forall l, mle (enc_pairs X k e l) (enc_pairs X k e' l).
  Proof.
    intros He. induction l as [|[kv v] l IH]; cbn [enc_pairs]; [apply mle_refl|].
    apply mle_bind; [apply mle_refl|]. intros kb. apply mle_bind; [apply He|]. intros b. apply mle_bind; [apply IH|]. intros b'. apply mle_refl.
  Qed.
  Lemma mle_map k e e' m : (forall v, mle (e v) (e' v)) -> mle (enc_map X ord k e m) (enc_map X ord k e' m).
  Proof.
    intros He. apply mle_bind; [apply mle_refl|]. intros l. apply mle_bind; [apply mle_pairs, He|]. intros b. apply mle_refl.
  Qed.
  Lemma mle_iface_str : forall f f' t v, (f <= f')%nat -> mle (enc_iface_str X E H f t v) (enc_iface_str X E H f' t v).
  Proof.
    induction f as [|f IH]; intros f' t v Hf; [apply mle_fuel|]. destruct f' as [|f']; [lia|]. apply le_S_n in Hf. cbn [enc_iface_str].
    destruct (kind_of E t) as [|k|k| | | |t'|n t'|k v'|t'| |m| |id fs], v as [b|z|z|x|x|s|p|l|p|p|o|l|]; try apply mle_refl.
    - destruct p as [[o i]|]; [|apply mle_refl]. destruct (cell H o i); [apply IH, Hf|apply mle_refl].
    - destruct o as [[t' v']|]; [|apply mle_refl]. apply IH, Hf.
    - destruct o as [[t' v']|]; [|apply mle_refl]. apply IH, Hf.
  Qed.
  Lemma mle_as_string f f' t v : (f <= f')%nat -> mle (enc_as_string X E H f t v) (enc_as_string X E H f' t v).
  Proof.
    intros Hf. unfold enc_as_string. destruct (kind_of E t), v; try apply mle_refl; apply mle_iface_str, Hf.
  Qed.
  Lemma mle_field f f' e e' g v : (f <= f')%nat -> (forall t v, mle (e t v) (e' t v)) -> mle (enc_field X E H f e g v) (enc_field X E H f' e' g v).
  Proof.
    intros Hf He. unfold enc_field.
    destruct (kind_of E (f_ty g)) as [|k|k| | | |t'|n t'|k v'|t'| |m| |id fs];
      try (destruct (tag_string _); [apply mle_as_string, Hf|apply He]).
    destruct v as [| | | | | | | | |[[o i]|]| | |]; try apply mle_refl. destruct (cell H o i); [|apply mle_refl].
    destruct (tag_string _); [apply mle_as_string, Hf|]. destruct (struct_kind _); [apply mle_rec|]; apply He.
  Qed.
  Lemma mle_fields f f' e e' : (f <= f')%nat -> (forall t v, mle (e t v) (e' t v)) ->
    forall fs l, mle (enc_fields X E H f e fs l) (enc_fields X E H f' e' fs l).
  Proof.
    intros Hf He. induction fs as [|g fs IH]; intros [|v l]; cbn [enc_fields]; try apply mle_refl.
    destruct (enc_skipped X g); [apply IH|]. destruct (_ && _); [apply IH|].
    apply mle_bind; [apply mle_field; assumption|]. intros b. apply mle_bind; [apply IH|]. intros r. apply mle_refl.
  Qed.
  Lemma mle_struct f f' e e' fs l : (f <= f')%nat -> (forall t v, mle (e t v) (e' t v)) -> mle (enc_struct X E H f e fs l) (enc_struct X E H f' e' fs l).
  Proof. intros Hf He. apply mle_bind; [apply mle_fields; assumption|]. intros r. apply mle_refl. Qed.
  Lemma mle_compile f f' t : (f <= f')%nat -> mle (compile_now X E f t) (compile_now X E f' t).
  Proof.
    intros Hf. apply mle_bind; [|intros x; apply mle_refl]. intros s Hn. unfold lift in *. cbn [snd] in Hn.
    rewrite (ecompile_mono X E f false [] t Hn f' Hf). reflexivity.
  Qed.

  Lemma enc_mono : forall f f' m t v, (f <= f')%nat -> mle (enc f m t v) (enc f' m t v).
  Proof.
    induction f as [|f IH]; intros f' m t v Hf; [apply mle_fuel|]. destruct f' as [|f']; [lia|]. apply le_S_n in Hf. cbn [enc_f].
    assert (forall m t v, mle (enc f m t v) (enc f' m t v)) as He by (intros; apply IH, Hf).
    assert (forall t v, mle (_ <== compile_now X E f t ;; enc f MType t v) (_ <== compile_now X E f' t ;; enc f' MType t v)) as Hc.
    { intros t0 v0. apply mle_bind; [apply mle_compile, Hf|]. intros u. apply He. }
    destruct m.
    - destruct (implements E t); [apply mle_refl|]. destruct (is_bytes t); [apply mle_refl|apply He].
    - destruct (kind_of E t) as [|k|k| | | |t'|n t'|k v'|t'| |b| |id fs]; try apply mle_refl; try apply He.
      + destruct v as [| | | | | |[[[o i] n]|]| | | | | |]; try apply mle_refl. destruct (cells H o i n); [|apply mle_refl].
        apply mle_rec, mle_seq. intros v; apply He.
      + destruct v; try apply mle_refl. destruct (Nat.eqb _ _); [|apply mle_refl]. apply mle_seq. intros v; apply He.
      + destruct v as [| | | | | | | |[o|]| | | |]; try apply mle_refl. destruct (entries H o); [|apply mle_refl].
        apply mle_rec, mle_map. intros v; apply He.
      + destruct (iface_kind _); [apply He|]. destruct v as [| | | | | | | | |[[o i]|]| | |]; try apply mle_refl.
        destruct (cell H o i); [|apply mle_refl]. destruct (struct_kind _); [apply mle_rec, He|]. destruct (ptr_direct _); apply He.
      + destruct v; try apply mle_refl. apply mle_struct; [exact Hf|]. intros; apply He.
    - destruct (kind_of E t) as [|k|k| | | |t'|n t'|k v'|t'| |b| |id fs]; try apply mle_refl.
      + destruct v as [| | | | | |[[[o i] n]|]| | | | | |]; try apply mle_refl.
        * apply mle_seen. destruct (iface_kind _); [|apply Hc]. destruct (cells H o i n); [|apply mle_refl]. apply mle_seq. intros v; apply He.
        * destruct (iface_kind _); [apply mle_refl|apply Hc].
      + destruct v as [| | | | | | | |[o|]| | | |]; try apply mle_refl.
        apply mle_seen. destruct (enc_key_kind _); [|apply mle_refl]. destruct (entries H o) as [[|e l]|]; try apply mle_refl.
        destruct (iface_kind _); [apply mle_map; intros v; apply He|]. apply mle_bind; [apply mle_compile, Hf|]. intros u.
        apply mle_map; intros v; apply He.
      + destruct v as [| | | | | | | | |[[o i]|]| | |]; try apply mle_refl. destruct (cell H o i); [apply He|apply mle_refl].
      + destruct v as [| | | | | | | | | |[[t' v']|]| |]; try apply mle_refl. apply He.
      + destruct v as [| | | | | | | | | |[[t' v']|]| |]; try apply mle_refl. apply He.
      + apply Hc.
  Qed.

  Lemma marshal_mono f f' s a : (f <= f')%nat -> snd (marshal X E H ord f s a) <> RFuel ->
    marshal X E H ord f' s a = marshal X E H ord f s a.
  Proof.
    intros Hf Hn. unfold marshal in *. destruct a as [[t v]|]; [|reflexivity].
    revert Hn. apply (mle_bind _ _ _ _ (mle_compile f f' t Hf) (fun _ => enc_mono f f' MType t v Hf) s).
  Qed.
End Fuel.

(** ** The context is given back as it was *)

Definition framed {A} (m : M A) : Prop := forall s, seen (fst (m s)) = seen s /\ depth (fst (m s)) = depth s.

Lemma framed_pure {A} (r : R A) : framed (fun s => (s, r)).
Proof. intros s. split; reflexivity. Qed.
Lemma framed_bind {A B} (a : M A) (k : A -> M B) : framed a -> (forall x, framed (k x)) -> framed (bindM a k).
Proof.
  intros Ha Hk s. unfold bindM. specialize (Ha s). destruct (a s) as [s1 [x|e|p|]]; cbn [fst] in *; auto.
  destruct (Hk x s1) as [H1 H2]. rewrite H1, H2. exact Ha.
Qed.
Lemma has_in a l : has a l = true <-> In a l.
Proof.
  unfold has. rewrite existsb_exists. split.
  - intros (x & Hx & Q). apply Z.eqb_eq in Q as ->. exact Hx.
  - intros Hx. exists a. split; [exact Hx|]. apply Z.eqb_eq. reflexivity.
Qed.
Lemma has_out a l : has a l = false <-> ~ In a l.
Proof. rewrite <- has_in. destruct (has a l); split; congruence. Qed.
Lemma drop_add a l : has a l = false -> drop a (a :: l) = l.
Proof.
  intros Hn. unfold drop. cbn [filter].
  assert (a =? a = true) as -> by (apply Z.eqb_eq; reflexivity). cbn [negb].
  apply has_out in Hn. induction l as [|b l IH]; [reflexivity|]. cbn [filter].
  destruct (a =? b) eqn:Q; cbn [negb].
  - apply Z.eqb_eq in Q as ->. destruct Hn. left. reflexivity.
  - f_equal. apply IH. intros Q'. apply Hn. right. exact Q'.
Qed.
Lemma framed_rec t x a : framed a -> framed (check_rec t x a).
Proof.
  intros H s. unfold check_rec. destruct (1000 <? depth s + 1).
  - destruct (has x (seen s)) eqn:Hh; [split; reflexivity|]. specialize (H (St (x :: seen s) (depth s + 1) (iters s))).
    destruct (a _) as [s' r]. cbn [fst seen depth] in *. destruct H as [-> ->]. rewrite drop_add by exact Hh. split; [reflexivity|lia].
  - specialize (H (St (seen s) (depth s + 1) (iters s))).
    destruct (a _) as [s' r]. cbn [fst seen depth] in *. destruct H as [-> ->]. split; [reflexivity|lia].
Qed.
Lemma framed_seen t x a : framed a -> framed (check_seen t x a).
Proof.
  intros H s. unfold check_seen. destruct (has x (seen s)) eqn:Hh; [split; reflexivity|].
  specialize (H (St (x :: seen s) (depth s) (iters s))).
  destruct (a _) as [s' r]. cbn [fst seen depth] in *. destruct H as [-> ->]. rewrite drop_add by exact Hh. split; reflexivity.
Qed.

Section Frame.
  Context (X : Ext) (E : env) (H : heap) (ord : nat -> list (hval * hval) -> list (hval * hval)).
  Notation enc := (enc_f X E H ord).

  Lemma framed_scalar k v : framed (enc_scalar X k v).
  Proof.
    unfold enc_scalar. destruct k as [|k|k| | | | | | | | | | |], v; try destruct k; try apply framed_pure;
      try (destruct (int_ok _ _); apply framed_pure); destruct (uint_ok _ _); apply framed_pure.
  Qed.
  Lemma framed_elems e : (forall v, framed (e v)) -> forall l i, framed (enc_elems e i l).
  Proof.
    intros He. induction l as [|v l IH]; intros i; cbn [enc_elems]; [apply framed_pure|].
    apply framed_bind; [apply He|]. intros b. apply framed_bind; [apply IH|]. intros b'. apply framed_pure.
  Qed.
  Lemma framed_seq e l : (forall v, framed (e v)) -> framed (enc_seq e l).
  Proof. intros He. apply framed_bind; [apply framed_elems, He|]. intros b. apply framed_pure. Qed.
  Lemma framed_key k v : framed (enc_key X k v).
  Proof. unfold enc_key. destruct (enc_key_kind k); [apply framed_scalar|apply framed_pure]. Qed.
  Lemma framed_pairs k e : (forall v, framed (e v)) -> forall l, framed (enc_pairs X k e l).
  Proof.
    intros He. induction l as [|[kv v] l IH]; cbn [enc_pairs]; [apply framed_pure|].
    apply framed_bind; [apply framed_key|]. intros kb. apply framed_bind; [apply He|]. intros b. apply framed_bind; [apply IH|]. intros b'. apply framed_pure.
  Qed.
  Lemma framed_map k e m : (forall v, framed (e v)) -> framed (enc_map X ord k e m).
  Proof.
    intros He. apply framed_bind; [intros s; split; reflexivity|]. intros l. apply framed_bind; [apply framed_pairs, He|]. intros b. apply framed_pure.
  Qed.
  Lemma framed_iface_str : forall f t v, framed (enc_iface_str X E H f t v).
  Proof.
    induction f as [|f IH]; intros t v; [apply framed_pure|]. cbn [enc_iface_str].
    assert (framed (match t, v with
            | TBool, HBool b => ret (out_bool_str b)
            | TUint UPtr, _ => stop (RErr (EMarshal (CAsString t)))
            | TUint k, HUint z => if uint_ok k z then ret (out_uint_str z) else bad
            | TInt k, HInt z => if int_ok k z then ret (out_int_str z) else bad
            | TF32, HF32 x => ret (out_float_str X true x)
            | TF64, HF64 x => ret (out_float_str X false x)
            | (TBool | TUint _ | TInt _ | TF32 | TF64), _ => bad
            | _, _ => stop (RErr (EMarshal (CAsString t)))
            end)) as Hs.
    { destruct t as [|k|k| | | | | | | | | | |], v; try destruct k; try apply framed_pure; try (destruct (int_ok _ _); apply framed_pure); destruct (uint_ok _ _); apply framed_pure. }
    destruct (kind_of E t) as [|k|k| | | |t'|n t'|k v'|t'| |m| |id fs]; try exact Hs.
    - destruct v as [| | | | | | | | |[[o i]|]| | |]; try apply framed_pure. destruct (cell H o i); [apply IH|apply framed_pure].
    - destruct v as [| | | | | | | | | |[[t' v']|]| |]; try apply framed_pure. apply IH.
    - destruct v as [| | | | | | | | | |[[t' v']|]| |]; try apply framed_pure. apply IH.
  Qed.
  Lemma framed_as_string f t v : framed (enc_as_string X E H f t v).
  Proof.
    unfold enc_as_string. destruct (kind_of E t), v; try apply framed_pure; try apply framed_iface_str.
    - destruct (int_ok _ _); apply framed_pure.
    - destruct (uint_ok _ _); apply framed_pure.
  Qed.
  Lemma framed_field f e g v : (forall t v, framed (e t v)) -> framed (enc_field X E H f e g v).
  Proof.
    intros He. unfold enc_field.
    destruct (kind_of E (f_ty g)) as [|k|k| | | |t'|n t'|k v'|t'| |m| |id fs];
      try (destruct (tag_string _); [apply framed_as_string|apply He]).
    destruct v as [| | | | | | | | |[[o i]|]| | |]; try apply framed_pure. destruct (cell H o i); [|apply framed_pure].
    destruct (tag_string _); [apply framed_as_string|]. destruct (struct_kind _); [apply framed_rec|]; apply He.
  Qed.
  Lemma framed_fields f e : (forall t v, framed (e t v)) -> forall fs l, framed (enc_fields X E H f e fs l).
  Proof.
    intros He. induction fs as [|g fs IH]; intros [|v l]; cbn [enc_fields]; try apply framed_pure.
    destruct (enc_skipped X g); [apply IH|]. destruct (_ && _); [apply IH|].
    apply framed_bind; [apply framed_field, He|]. intros b. apply framed_bind; [apply IH|]. intros r. apply framed_pure.
  Qed.
  Lemma framed_struct f e fs l : (forall t v, framed (e t v)) -> framed (enc_struct X E H f e fs l).
  Proof. intros He. apply framed_bind; [apply framed_fields, He|]. intros r. apply framed_pure. Qed.
  Lemma framed_compile f t : framed (compile_now X E f t).
  Proof. apply framed_bind; [apply framed_pure|]. intros u. apply framed_pure. Qed.

  Lemma enc_framed : forall f m t v, framed (enc f m t v).
  Proof.
    induction f as [|f He]; intros m t v; [apply framed_pure|]. cbn [enc_f].
    assert (forall t v, framed (_ <== compile_now X E f t ;; enc f MType t v)) as Hc.
    { intros t0 v0. apply framed_bind; [apply framed_compile|]. intros u. apply He. }
    destruct m.
    - destruct (implements E t); [apply framed_pure|]. destruct (is_bytes t); [destruct (byte_slice H v); apply framed_pure|apply He].
    - destruct (kind_of E t) as [|k|k| | | |t'|n t'|k v'|t'| |b| |id fs]; try apply framed_pure; try apply He;
        try (cbn [enc_scalar_kind]; apply framed_scalar).
      + destruct (enc_scalar_kind _); [apply framed_scalar|apply framed_pure].
      + destruct v as [| | | | | |[[[o i] n]|]| | | | | |]; try apply framed_pure. destruct (cells H o i n); [|apply framed_pure].
        apply framed_rec, framed_seq. intros v; apply He.
      + destruct v; try apply framed_pure. destruct (Nat.eqb _ _); [|apply framed_pure]. apply framed_seq. intros v; apply He.
      + destruct v as [| | | | | | | |[o|]| | | |]; try apply framed_pure. destruct (entries H o); [|apply framed_pure].
        apply framed_rec, framed_map. intros v; apply He.
      + destruct (iface_kind _); [apply He|]. destruct v as [| | | | | | | | |[[o i]|]| | |]; try apply framed_pure.
        destruct (cell H o i); [|apply framed_pure]. destruct (struct_kind _); [apply framed_rec, He|]. destruct (ptr_direct _); apply He.
      + destruct v; try apply framed_pure. apply framed_struct. intros; apply He.
    - destruct (kind_of E t) as [|k|k| | | |t'|n t'|k v'|t'| |b| |id fs]; try apply framed_pure;
        try (cbn [enc_scalar_kind]; apply framed_scalar).
      + destruct (enc_scalar_kind _); [apply framed_scalar|apply framed_pure].
      + destruct v as [| | | | | |[[[o i] n]|]| | | | | |]; try apply framed_pure.
        * apply framed_seen. destruct (iface_kind _); [|apply Hc]. destruct (cells H o i n); [|apply framed_pure]. apply framed_seq. intros v; apply He.
        * destruct (iface_kind _); [apply framed_pure|apply Hc].
      + destruct v as [| | | | | | | |[o|]| | | |]; try apply framed_pure.
        * apply framed_seen. destruct (enc_key_kind _); [|apply framed_pure]. destruct (entries H o) as [[|e l]|]; try apply framed_pure.
          destruct (iface_kind _); [apply framed_map; intros v; apply He|]. apply framed_bind; [apply framed_compile|]. intros u.
          apply framed_map; intros v; apply He.
        * destruct (enc_key_kind _); apply framed_pure.
      + destruct v as [| | | | | | | | |[[o i]|]| | |]; try apply framed_pure. destruct (cell H o i); [apply He|apply framed_pure].
      + destruct v as [| | | | | | | | | |[[t' v']|]| |]; try apply framed_pure. apply He.
      + destruct v as [| | | | | | | | | |[[t' v']|]| |]; try apply framed_pure. apply He.
      + apply Hc.
  Qed.
  Lemma marshal_framed f a : framed (fun s => marshal X E H ord f s a).
  Proof.
    intros s. unfold marshal. destruct a as [[t v]|]; [|split; reflexivity].
    apply (framed_bind _ _ (framed_compile f t) (fun _ => enc_framed f MType t v)).
  Qed.
End Frame.
