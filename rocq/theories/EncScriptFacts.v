(** The scripts of EncScript.v produce what the encoders of Encode.v append. *)
From Coq Require Import Strings.String Strings.Byte ZArith List Bool Floats.SpecFloat Lia.
From Verif Require Import Base GoTypes Strconv Tags Memory EncCompile Encode EncApi Pool EncScript.
Import ListNotations.
Open Scope Z_scope.

Lemma results_app : forall a b, results (a ++ b) = and_then (results a) (fun x => and_then (results b) (fun y => Good (x ++ y))).
Proof.
  induction a as [|c a IH]; intros b; cbn [results app].
  - cbn [and_then]. destruct (results b); reflexivity.
  - rewrite IH. destruct (result c); cbn [and_then]; try reflexivity.
    destruct (results a); cbn [and_then]; try reflexivity. destruct (results b); cbn [and_then]; try reflexivity.
    now rewrite app_assoc.
Qed.

(** [w] does what [m] does, and its script produces an output related to [m]'s result. *)
Definition same {A B} (Q : B -> A -> bytes -> Prop) (w : W A) (m : M B) : Prop := forall s,
  match m s with
  | (s', ROk b) => exists a tr x, w s = (s', ROk a, tr) /\ results tr = Good x /\ Q b a x
  | (s', RErr e) => exists tr, w s = (s', RErr e, tr) /\ results tr = Bad e
  | (s', RPanic p) => exists tr, w s = (s', RPanic p, tr) /\ results tr = Panics p
  | (s', RFuel) => exists tr, w s = (s', RFuel, tr)
  end.
(** the usual case: [m] returns the bytes *)
Definition just (b : bytes) (_ : unit) (x : bytes) : Prop := x = b.
Notation "w ~~ m" := (same just w m) (at level 70).

Lemma same_ret {A B} (Q : B -> A -> bytes -> Prop) a b : Q b a [] -> same Q (wret a) (ret b).
Proof. intros q s. cbn [ret]. exists a, [], []. auto. Qed.
Lemma same_emit {B} (Q : B -> unit -> bytes -> Prop) x b : Q b tt x -> same Q (emit x) (ret b).
Proof. intros q s. cbn [ret]. exists tt, [Emit x], x. split; [reflexivity|]. split; [|exact q]. cbn. now rewrite app_nil_r. Qed.
Lemma same_lift {A B} (Q : B -> A -> bytes -> Prop) (r : R B) (r' : R A) :
  match r with
  | ROk b => exists a, r' = ROk a /\ Q b a []
  | RErr e => r' = RErr e
  | RPanic p => r' = RPanic p
  | RFuel => r' = RFuel
  end -> same Q (wlift r') (lift r).
Proof.
  intros q s. unfold lift, wlift. destruct r as [b|e|p|]; [destruct q as (a & -> & q)|subst r'..].
  - exists a, [], []. auto.
  - eexists. split; reflexivity.
  - eexists. split; reflexivity.
  - eexists. reflexivity.
Qed.
Lemma same_stop {A B} (Q : B -> A -> bytes -> Prop) (r : R B) (r' : R A) :
  match r with
  | ROk b => exists a, r' = ROk a /\ Q b a []
  | RErr e => r' = RErr e
  | RPanic p => r' = RPanic p
  | RFuel => r' = RFuel
  end -> same Q (wlift r') (stop r).
Proof. exact (same_lift Q r r'). Qed.
Lemma same_bad {A B} (Q : B -> A -> bytes -> Prop) : same Q wbad bad.
Proof. apply same_stop. reflexivity. Qed.

Lemma same_bind {A B A' B'} (P : B -> A -> bytes -> Prop) (Q : B' -> A' -> bytes -> Prop) w m k n :
  same P w m -> (forall b a x, P b a x -> same (fun b' a' y => Q b' a' (x ++ y)) (k a) (n b)) ->
  same Q (wbind w k) (bindM m n).
Proof.
  intros S1 S2 s. specialize (S1 s). unfold wbind, bindM. destruct (m s) as [s' [b|e|p|]].
  - destruct S1 as (a & tr & x & -> & T & q). specialize (S2 b a x q s').
    destruct (n b s') as [s'' [b'|e|p|]].
    + destruct S2 as (a' & tr' & y & -> & T' & q'). exists a', (tr ++ tr'), (x ++ y). split; [reflexivity|]. split; [|exact q'].
      rewrite results_app, T. cbn [and_then]. rewrite T'. reflexivity.
    + destruct S2 as (tr' & -> & T'). exists (tr ++ tr'). split; [reflexivity|]. rewrite results_app, T. cbn [and_then]. rewrite T'. reflexivity.
    + destruct S2 as (tr' & -> & T'). exists (tr ++ tr'). split; [reflexivity|]. rewrite results_app, T. cbn [and_then]. rewrite T'. reflexivity.
    + destruct S2 as (tr' & ->). exists (tr ++ tr'). reflexivity.
  - destruct S1 as (tr & -> & T). exists tr. auto.
  - destruct S1 as (tr & -> & T). exists tr. auto.
  - destruct S1 as (tr & ->). exists tr. auto.
Qed.
(** output that the encoder computes last but the code writes first *)
Lemma same_first {A B} (Q : B -> A -> bytes -> Prop) x w m :
  same (fun b a y => Q b a (x ++ y)) w m -> same Q (emit x ;;; w) m.
Proof.
  intros S s. specialize (S s). unfold wbind, emit. destruct (m s) as [s' [b|e|p|]].
  - destruct S as (a & tr & y & -> & T & q). exists a, ([Emit x] ++ tr), (x ++ y). split; [reflexivity|]. split; [|exact q].
    cbn [app results result and_then]. rewrite T. reflexivity.
  - destruct S as (tr & -> & T). exists ([Emit x] ++ tr). split; [reflexivity|]. cbn [app results result and_then]. rewrite T. reflexivity.
  - destruct S as (tr & -> & T). exists ([Emit x] ++ tr). split; [reflexivity|]. cbn [app results result and_then]. rewrite T. reflexivity.
  - destruct S as (tr & ->). exists ([Emit x] ++ tr). reflexivity.
Qed.
Lemma same_weaken {A B} (P Q : B -> A -> bytes -> Prop) w m : (forall b a x, P b a x -> Q b a x) -> same P w m -> same Q w m.
Proof.
  intros PQ S s. specialize (S s). destruct (m s) as [s' [b|e|p|]]; try exact S.
  destruct S as (a & tr & x & T & U & q). exists a, tr, x. auto.
Qed.

Section Facts.
  Context (X : Ext) (E : env) (H : heap) (ord : nat -> list (hval * hval) -> list (hval * hval)).
  Context (method : gty -> hval -> cmd) (Mok : method_scripts X E H method).

  Lemma float_same single f : w_float_str X single f ~~ ret (out_float_str X single f).
  Proof.
    intros s. cbn [ret]. unfold w_float_str. do 3 eexists. split; [reflexivity|]. split; [reflexivity|].
    unfold just, out_float_str. rewrite app_nil_r, <- !app_assoc. reflexivity.
  Qed.
  Lemma method_same t v : w_method X E H method t v ~~ lift (call_marshal X E H t v).
  Proof.
    intros s. unfold lift, w_method. specialize (Mok t v). destruct (call_marshal X E H t v) as [b|e|p|].
    - exists tt, [method t v], b. split; [reflexivity|]. split; [|reflexivity]. cbn [results]. rewrite Mok. cbn [and_then]. now rewrite app_nil_r.
    - exists [method t v]. split; [reflexivity|]. cbn [results]. rewrite Mok. reflexivity.
    - exists [method t v]. split; [reflexivity|]. cbn [results]. rewrite Mok. reflexivity.
    - exists []. reflexivity.
  Qed.
  Ltac leaf := first
    [ apply same_emit; reflexivity | apply same_bad | apply float_same
    | apply same_stop; reflexivity | apply same_lift; reflexivity ].
  Lemma scalar_same k v : w_scalar X k v ~~ enc_scalar X k v.
  Proof.
    unfold w_scalar, enc_scalar.
    destruct k as [|k|u| | | |t1|n t1|kt vt|t1| |hm| |id fs]; destruct v; try leaf.
    1: destruct (int_ok k z); leaf. all: destruct u; try leaf.
    all: match goal with |- context [uint_ok ?a ?z] => destruct (uint_ok a z) end; leaf.
  Qed.
  Lemma rec_same t a w m : w ~~ m -> w_rec t a w ~~ check_rec t a m.
  Proof.
    intros S s. unfold w_rec, check_rec. cbv zeta. destruct (1000 <? depth s + 1).
    - destruct (has a (seen s)); [exists [Fail (EMarshal (CRecursive t))]; split; reflexivity|].
      specialize (S (St (a :: seen s) (depth s + 1) (iters s))).
      destruct (m (St (a :: seen s) (depth s + 1) (iters s))) as [s' [b|e|p|]].
      + destruct S as (u & tr & x & -> & T & q). exists u, tr, x. auto.
      + destruct S as (tr & -> & T). exists tr. auto.
      + destruct S as (tr & -> & T). exists tr. auto.
      + destruct S as (tr & ->). exists tr. auto.
    - specialize (S (St (seen s) (depth s + 1) (iters s))).
      destruct (m (St (seen s) (depth s + 1) (iters s))) as [s' [b|e|p|]].
      + destruct S as (u & tr & x & -> & T & q). exists u, tr, x. auto.
      + destruct S as (tr & -> & T). exists tr. auto.
      + destruct S as (tr & -> & T). exists tr. auto.
      + destruct S as (tr & ->). exists tr. auto.
  Qed.
  Lemma seen_same t a w m : w ~~ m -> w_seen t a w ~~ check_seen t a m.
  Proof.
    intros S s. unfold w_seen, check_seen. destruct (has a (seen s)); [exists [Fail (EMarshal (CRecursive t))]; split; reflexivity|].
    specialize (S (St (a :: seen s) (depth s) (iters s))).
    destruct (m (St (a :: seen s) (depth s) (iters s))) as [s' [b|e|p|]].
    + destruct S as (u & tr & x & -> & T & q). exists u, tr, x. auto.
    + destruct S as (tr & -> & T). exists tr. auto.
    + destruct S as (tr & -> & T). exists tr. auto.
    + destruct S as (tr & ->). exists tr. auto.
  Qed.
  Lemma elems_same w m : (forall v, w v ~~ m v) -> forall l i, w_elems w i l ~~ enc_elems m i l.
  Proof.
    intros S. induction l as [|v l IH]; intros i; cbn [w_elems enc_elems]; [apply same_ret; reflexivity|].
    apply same_first. apply (same_bind just); [apply S|]. intros b [] x ->.
    (* the rest, then return *)
    intros s. specialize (IH (i + 1) s). unfold bindM. destruct (enc_elems m (i + 1) l s) as [s' [b'|e|p|]]; try exact IH.
    destruct IH as (a & tr & y & T & U & q). cbn [ret]. exists a, tr, y. split; [exact T|]. split; [exact U|]. red in q. subst. reflexivity.
  Qed.
  Lemma seq_same w m l : (forall v, w v ~~ m v) -> w_seq w l ~~ enc_seq m l.
  Proof.
    intros S. unfold w_seq, enc_seq. apply same_first. apply (same_bind just); [apply elems_same, S|].
    intros b [] x ->. apply same_emit. reflexivity.
  Qed.
  Lemma key_same kk k : w_key X kk k ~~ enc_key X kk k.
  Proof. unfold w_key, enc_key. destruct (enc_key_kind kk); [apply scalar_same|leaf]. Qed.
  Lemma pairs_same kk w m : (forall v, w v ~~ m v) -> forall l, w_pairs X kk w l ~~ enc_pairs X kk m l.
  Proof.
    intros S. induction l as [|[k v] l IH]; cbn [w_pairs enc_pairs]; [apply same_ret; reflexivity|].
    apply (same_bind just); [apply key_same|]. intros kb [] x ->. apply (same_bind just); [apply S|]. intros b [] x ->.
    intros s. specialize (IH s). unfold bindM. destruct (enc_pairs X kk m l s) as [s' [b'|e|p|]]; try exact IH.
    destruct IH as (a & tr & y & T & U & q). cbn [ret]. exists a, tr, y. split; [exact T|]. split; [exact U|]. red in q. subst. reflexivity.
  Qed.
  Lemma map_same kk w m l : (forall v, w v ~~ m v) -> w_map X ord kk w l ~~ enc_map X ord kk m l.
  Proof.
    intros S. unfold w_map, enc_map. apply same_first.
    apply (same_bind (fun b a x => a = b /\ x = [])).
    { intros s. cbn [range]. unfold range, w_range. do 3 eexists. split; [reflexivity|]. split; [reflexivity|]. auto. }
    intros b a x [-> ->]. cbn [app]. apply (same_bind just); [apply pairs_same, S|]. intros b' [] x ->. apply same_emit. reflexivity.
  Qed.
  Lemma iface_str_same : forall f t v, w_iface_str X E H f t v ~~ enc_iface_str X E H f t v.
  Proof.
    induction f as [|f IH]; intros t v; cbn [w_iface_str enc_iface_str]; [leaf|].
    destruct (kind_of E t) as [|k|u| | | |t1|n t1|kt vt|t1| |hm| |id fs]; destruct v as [b|z|z|x|x|s|a|l|a|a|a|l|];
      repeat match goal with |- context [match ?a with Some _ => _ | None => _ end] => destruct a end;
      repeat match goal with p : (_ * _)%type |- _ => destruct p end;
      repeat match goal with |- context [match ?a with Some _ => _ | None => _ end] => destruct a end;
      try leaf; try apply IH.
    all: destruct t as [|k'|u'| | | |t'|n' t'|kt' vt'|t'| |hm'| |n']; try leaf.
    all: try match goal with |- context [match ?u with UPtr => _ | _ => _ end] => destruct u; try leaf end.
    all: try match goal with |- context [uint_ok ?a ?z] => destruct (uint_ok a z); leaf end.
    all: try match goal with |- context [int_ok ?a ?z] => destruct (int_ok a z); leaf end.
  Qed.
  Lemma as_string_same f t v : w_as_string X E H f t v ~~ enc_as_string X E H f t v.
  Proof.
    unfold w_as_string, enc_as_string.
    destruct (kind_of E t) as [|k|u| | | |t1|n t1|kt vt|t1| |hm| |id fs]; destruct v as [b|z|z|x|x|s|a|l|a|a|a|l|]; try leaf; try apply iface_str_same.
    all: try match goal with |- context [uint_ok ?a ?z] => destruct (uint_ok a z); leaf end.
    all: try match goal with |- context [int_ok ?a ?z] => destruct (int_ok a z); leaf end.
  Qed.
  Lemma field_same f w m fd v : (forall t v, w t v ~~ m t v) -> w_field X E H f w fd v ~~ enc_field X E H f m fd v.
  Proof.
    intros S. unfold w_field, enc_field.
    destruct (kind_of E (f_ty fd)); try (destruct (tag_string (tag_of X fd)); [apply as_string_same|apply S]).
    destruct v as [b|z|z|x|x|s|a|l|a|[[o i]|]|a|l|]; try leaf.
    destruct (cell H o i); [|leaf]. destruct (tag_string (tag_of X fd)); [apply as_string_same|].
    destruct (struct_kind _); [apply rec_same, S|apply S].
  Qed.
  Lemma fields_same f w m : (forall t v, w t v ~~ m t v) -> forall fs l,
    same (fun b n x => n = fst b /\ x = snd b) (w_fields X E H f w fs l) (enc_fields X E H f m fs l).
  Proof.
    intros S. induction fs as [|fd fs IH]; intros [|v l]; cbn [w_fields enc_fields]; try apply same_bad.
    { apply same_ret. auto. }
    destruct (enc_skipped X fd); [apply IH|]. destruct (_ && _); [apply IH|].
    apply same_first. apply (same_bind just); [apply field_same, S|]. intros b [] x ->.
    apply (same_bind (fun b n x => n = fst b /\ x = snd b)); [apply IH|]. intros [n bb] a x [-> ->].
    apply same_ret. cbn [fst snd]. rewrite app_nil_r. auto.
  Qed.
  Lemma struct_same f w m fs l : (forall t v, w t v ~~ m t v) -> w_struct X E H f w fs l ~~ enc_struct X E H f m fs l.
  Proof.
    intros S s. pose proof (fields_same f w m S fs l s) as F. unfold w_struct, enc_struct, bindM.
    destruct (enc_fields X E H f m fs l s) as [s' [[n b]|e|p|]].
    - destruct F as (a & tr & x & -> & T & -> & ->). cbn [ret fst snd]. do 3 eexists. split; [reflexivity|].
      cbn [results]. change (result (Struct (out_array_begin n) tr)) with (and_then (results tr) (fun x => Good (out_array_begin n ++ x ++ bs "}"))).
      rewrite T. cbn [and_then fst snd]. split; [reflexivity|]. red. now rewrite app_nil_r.
    - destruct F as (tr & -> & T). eexists. split; [reflexivity|]. cbn [results].
      change (result (Struct [] tr)) with (and_then (results tr) (fun x => Good ([] ++ x ++ bs "}"))). rewrite T. reflexivity.
    - destruct F as (tr & -> & T). eexists. split; [reflexivity|]. cbn [results].
      change (result (Struct [] tr)) with (and_then (results tr) (fun x => Good ([] ++ x ++ bs "}"))). rewrite T. reflexivity.
    - destruct F as (tr & ->). eexists. reflexivity.
  Qed.
  Lemma compile_same f t : same (fun _ _ x => x = []) (w_compile X E f t) (compile_now X E f t).
  Proof.
    unfold w_compile, compile_now. apply (same_bind (fun b a x => x = [])).
    - apply same_lift. destruct (ecompile_f X E f false [] t); auto. eexists. split; reflexivity.
    - intros b a x ->. apply same_ret. reflexivity.
  Qed.
  Lemma compiled_same f t w m : w ~~ m -> (w_compile X E f t ;;; w) ~~ (_ <== compile_now X E f t ;; m).
  Proof. intros S. apply (same_bind (fun _ _ x => x = [])); [apply compile_same|]. intros b a x ->. exact S. Qed.

  Theorem f_same : forall f m t v, w_f X E H ord method f m t v ~~ enc_f X E H ord f m t v.
  Proof.
    induction f as [|f IH]; intros m t v; cbn [w_f enc_f]; [leaf|].
    destruct m.
    - destruct (implements E t); [apply method_same|]. destruct (is_bytes t); [destruct (byte_slice H v); leaf|apply IH].
    - destruct (kind_of E t) as [|k|u| | | |t1|n t1|kt vt|t1| |hm| |id fs];
        try (destruct (enc_scalar_kind _); [apply scalar_same|leaf]); try apply IH.
      all: try match goal with |- context [iface_kind ?k] => destruct (iface_kind k); [apply IH|] end.
      all: destruct v as [b|z|z|x|x|s|[[[o i] n']|]|l|[o|]|[[o i]|]|a|l|]; try leaf.
      all: try match goal with
        | |- context [Nat.eqb ?a ?b] => destruct (Nat.eqb a b); [apply seq_same; intros; apply IH|leaf]
        | |- context [cells ?a ?b ?c ?d] => destruct (cells a b c d); [apply rec_same, seq_same; intros; apply IH|leaf]
        | |- context [entries ?a ?b] => destruct (entries a b); [apply rec_same, map_same; intros; apply IH|leaf]
        | |- context [cell ?a ?b ?c] => destruct (cell a b c); [|leaf]
        | |- context [w_struct] => apply struct_same; intros; apply IH
        end.
      destruct (struct_kind _); [apply rec_same, IH|]. destruct (ptr_direct _); apply IH.
    - destruct (kind_of E t) as [|k|u| | | |t1|n t1|kt vt|t1| |hm| |id fs];
        try (destruct (enc_scalar_kind _); [apply scalar_same|leaf]); try (apply compiled_same, IH).
      all: destruct v as [b|z|z|x|x|s|[[[o i] n']|]|l|[o|]|[[o i]|]|[[t' v']|]|l|]; try leaf; try apply IH.
      all: try apply seen_same.
      all: try match goal with
        | |- context [cell ?a ?b ?c] => destruct (cell a b c); [apply IH|leaf]
        | |- context [cells ?a ?b ?c ?d] => destruct (iface_kind _); [destruct (cells a b c d); [apply seq_same; intros; apply IH|leaf]|apply compiled_same, IH]
        | |- context [entries ?a ?b] => destruct (enc_key_kind _); [destruct (entries a b) as [[|e m]|]|leaf]; try leaf
        | |- context [enc_key_kind ?k] => destruct (enc_key_kind k); leaf
        end.
      all: destruct (iface_kind _); try leaf; try apply map_same; try (apply compiled_same; try apply map_same); intros; try apply IH.
  Qed.

  (** The script of a call of Marshal produces what the call returns. *)
  Theorem script_results f s t v : match snd (marshal X E H ord f s (Some (t, v))) with
    | ROk b => exists sc, script X E H ord method f s t v = Some sc /\ results sc = Good b
    | RErr e => exists sc, script X E H ord method f s t v = Some sc /\ results sc = Bad e
    | RPanic p => exists sc, script X E H ord method f s t v = Some sc /\ results sc = Panics p
    | RFuel => script X E H ord method f s t v = None
    end.
  Proof.
    pose proof (compiled_same f t _ _ (f_same f MType t v) s) as S. unfold marshal, script.
    destruct ((_ <== compile_now X E f t ;; enc_f X E H ord f MType t v) s) as [s' [b|e|p|]]; cbn [snd].
    - destruct S as (a & tr & x & -> & T & q). red in q. subst x. exists tr. auto.
    - destruct S as (tr & -> & T). exists tr. auto.
    - destruct S as (tr & -> & T). exists tr. auto.
    - destruct S as (tr & ->). reflexivity.
  Qed.
End Facts.
