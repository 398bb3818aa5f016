(** The invariant of Pool.v: every array has one owner. *)
From Coq Require Import Strings.String Strings.Byte ZArith List Bool Permutation Arith Lia.
From Verif Require Import Base Pool.
Import ListNotations.
Local Open Scope nat_scope.

Definition put_before (p : bytes) (r : outcome) : outcome := and_then r (fun x => Good (p ++ x)).
Lemma put_before_app p q r : put_before p (put_before q r) = put_before (p ++ q) r.
Proof. destruct r; cbn; [rewrite app_assoc|..]; reflexivity. Qed.
Lemma results_cons c l : results (c :: l) = and_then (result c) (fun x => put_before x (results l)).
Proof. reflexivity. Qed.
Lemma result_struct head body : result (Struct head body) = and_then (results body) (fun x => Good (head ++ x ++ bs "}")).
Proof. reflexivity. Qed.
Lemma result_call body next : result (Call body next) = result (next (results body)).
Proof. reflexivity. Qed.

(** ** Memory *)
Definition ok (h : memory) (s : slice) : Prop := exists a, nth_error h (arr s) = Some a /\ len s <= length a.
Lemma ok_lt h s : ok h s -> arr s < length h.
Proof. intros (a & Q & _). apply nth_error_Some. congruence. Qed.
Lemma ok_empty h s : ok h s -> ok h (empty s).
Proof. intros (a & Q & _). exists a. split; [exact Q|cbn; lia]. Qed.
Lemma content_empty h s : content h (empty s) = [].
Proof. unfold content. cbn. destruct nth_error; reflexivity. Qed.
Lemma ok_ext h h' s : nth_error h' (arr s) = nth_error h (arr s) -> ok h s -> ok h' s.
Proof. intros E (a & Q & L). exists a. split; congruence. Qed.
Lemma content_ext h h' s : nth_error h' (arr s) = nth_error h (arr s) -> content h' s = content h s.
Proof. intros E. unfold content. rewrite E. reflexivity. Qed.
Lemma content_length h s : ok h s -> length (content h s) = len s.
Proof. intros (a & Q & L). unfold content. rewrite Q, firstn_length. lia. Qed.

Lemma store_length {A} i (x : A) l : length (store i x l) = length l.
Proof. revert i. induction l as [|y l IH]; intros [|i]; cbn; auto. Qed.
Lemma store_same {A} i (x : A) l : i < length l -> nth_error (store i x l) i = Some x.
Proof. revert i. induction l as [|y l IH]; intros [|i] L; cbn in *; try lia; [reflexivity|]. apply IH. lia. Qed.
Lemma store_other {A} i j (x : A) l : j <> i -> nth_error (store i x l) j = nth_error l j.
Proof. revert i j. induction l as [|y l IH]; intros [|i] [|j] L; cbn in *; try lia; try reflexivity. apply IH. lia. Qed.

Lemma appended_effect h s x h' s' : ok h s -> appended h s x h' s' ->
  ok h' s' /\ content h' s' = content h s ++ x /\ length h <= length h' /\
  (forall a, a < length h -> a <> arr s -> nth_error h' a = nth_error h a) /\
  (arr s' = arr s \/ arr s' = length h) /\ (arr s' = length h -> arr s < length h' /\ length h' = S (length h)).
Proof.
  intros Hok Q. pose proof (ok_lt h s Hok) as Hlt. destruct Hok as (a & Ha & La). destruct Q as [a' Ha' L|a' pad Ha' L]; replace a' with a in * by congruence; clear a' Ha'.
  - assert (length (firstn (len s) a) = len s) as Lf by (rewrite firstn_length; lia).
    assert (nth_error (store (arr s) (firstn (len s) a ++ x ++ skipn (len s + length x) a) h) (arr s) = Some (firstn (len s) a ++ x ++ skipn (len s + length x) a)) as N
      by (apply store_same; exact Hlt).
    split; [|split; [|split; [|split; [|split]]]].
    + eexists. split; [exact N|]. cbn [len]. rewrite !app_length, Lf. lia.
    + unfold content. cbn [arr len]. rewrite N, Ha. rewrite app_assoc, firstn_app, app_length, Lf, Nat.sub_diag. cbn [firstn]. rewrite app_nil_r.
      apply firstn_all2. rewrite app_length, Lf. lia.
    + rewrite store_length. lia.
    + intros b _ D. apply store_other. exact D.
    + left. reflexivity.
    + cbn [arr]. intros E. lia.
  - assert (length (firstn (len s) a) = len s) as Lf by (rewrite firstn_length; lia).
    assert (nth_error (h ++ [firstn (len s) a ++ x ++ pad]) (length h) = Some (firstn (len s) a ++ x ++ pad)) as N
      by (rewrite nth_error_app2, Nat.sub_diag by lia; reflexivity).
    split; [|split; [|split; [|split; [|split]]]].
    + eexists. split; [exact N|]. cbn [len]. rewrite !app_length, Lf. lia.
    + unfold content. cbn [arr len]. rewrite N, Ha. rewrite app_assoc, firstn_app, app_length, Lf.
      replace (len s + length x - (len s + length x)) with 0 by lia. cbn [firstn]. rewrite app_nil_r. apply firstn_all2. rewrite app_length, Lf. lia.
    + rewrite app_length. lia.
    + intros b L' _. apply nth_error_app1. exact L'.
    + right. reflexivity.
    + rewrite app_length. cbn. lia.
Qed.

(** ** Owners *)
Definition own_ctx (c : ctx) : list nat := [arr (c_buf c); arr (c_small c)].
Definition extra (a b : nat) : list nat := if b =? a then [] else [b].
Definition own_owner (o : owner) : list nat := match o with OCtx c => own_ctx c | OBuf b => [arr b] end.
Definition base (o : owner) : nat := match o with OCtx c => arr (c_buf c) | OBuf b => arr b end.
Definition own_frame (f : frame) : list nat :=
  match f with
  | FRun o b _ _ => extra (base o) (arr b) ++ own_owner o
  | FFree b => [arr b]
  | FRet c _ dst => arr dst :: own_ctx c
  end.
Definition own_stack (fs : list frame) : list nat := flat_map own_frame fs.
Definition own_item (i : item) : list nat :=
  match i with
  | PoolCtx c => own_ctx c
  | PoolBuf b => [arr b]
  | Thread fs _ => own_stack fs
  | Returned _ _ (Some (s, _)) => [arr s]
  | Returned _ _ None => []
  end.
Definition own (l : list item) : list nat := flat_map own_item l.
Lemma own_app l l' : own (l ++ l') = own l ++ own l'.
Proof. apply flat_map_app. Qed.
Lemma own_perm l l' : Permutation l l' -> Permutation (own l) (own l').
Proof. apply Permutation_flat_map. Qed.

Lemma extra_in a b x : In x (extra a b) <-> x = b /\ b <> a.
Proof. unfold extra. destruct (Nat.eqb_spec b a); cbn; intuition congruence. Qed.

(** ** The invariant *)
Definition ok_owner (h : memory) (o : owner) : Prop :=
  match o with OCtx c => ok h (c_buf c) /\ ok h (c_small c) | OBuf b => ok h b end.
Definition linked (o : owner) (all : list cmd) (fs : list frame) : Prop :=
  match o with
  | OCtx _ => fs = [] \/ exists o' b' all' use rest fs', fs = FRun o' b' all' (Call all use :: rest) :: fs'
  | OBuf _ => exists o' b' all' head rest fs', fs = FRun o' b' all' (Struct head all :: rest) :: fs'
  end.
Inductive good_stack (h : memory) : list frame -> Prop :=
| gs_nil : good_stack h []
| gs_run o b all rest fs : ok_owner h o -> ok h b -> results all = put_before (content h b) (results rest) ->
    linked o all fs -> good_stack h fs -> good_stack h (FRun o b all rest :: fs)
| gs_free b fs : ok h b -> good_stack h fs -> good_stack h (FFree b :: fs)
| gs_ret c all dst fs : ok_owner h (OCtx c) -> ok h dst -> results all = Good (content h dst) ->
    linked (OCtx c) all fs -> good_stack h fs -> good_stack h (FRet c all dst :: fs).
Definition good_item (W : Prop) (h : memory) (i : item) : Prop :=
  match i with
  | PoolCtx c => ok_owner h (OCtx c)
  | PoolBuf b => ok h b
  | Thread fs _ => good_stack h fs
  | Returned all r held =>
      results all = r /\
      match held with
      | Some (s, now) => ok h s /\ content h s = now /\ (r = Good now \/ W /\ exists x, r = Good x /\ length x = len s)
      | None => match r with Good _ => False | _ => True end
      end
  end.
Record inv (W : Prop) (s : state) : Prop := Inv {
  inv_once : NoDup (own (items s));
  inv_good : Forall (good_item W (mem s)) (items s) }.

Lemma owner_in o : In (base o) (own_owner o).
Proof. destruct o; cbn; auto. Qed.
Lemma run_own o b all rest x : In x (own_frame (FRun o b all rest)) <-> x = arr b \/ In x (own_owner o).
Proof.
  cbn [own_frame]. rewrite in_app_iff, extra_in. pose proof (owner_in o) as B. destruct (Nat.eq_dec (arr b) (base o)) as [E|E].
  - split; [intuition|]. intros [->|J]; [right; rewrite E; exact B|auto].
  - intuition congruence.
Qed.

Lemma owner_lt h o : ok_owner h o -> forall a, In a (own_owner o) -> a < length h.
Proof. destruct o; cbn [ok_owner own_owner own_ctx]; [intros [A B]|intros A]; intros a; cbn; intros J; intuition (subst; eauto using ok_lt). Qed.
Lemma stack_lt h fs : good_stack h fs -> forall a, In a (own_stack fs) -> a < length h.
Proof.
  unfold own_stack. induction 1 as [|o b all rest fs A B _ _ _ IH|b fs A _ IH|c all dst fs A B _ _ _ IH]; cbn [flat_map]; intros a J.
  - contradiction.
  - apply in_app_or in J. destruct J as [J|J]; [|auto]. apply run_own in J. destruct J as [->|J]; [eauto using ok_lt|eapply owner_lt; eauto].
  - destruct J as [<-|J]; [eauto using ok_lt|auto].
  - destruct J as [<-|[<-|[<-|J]]]; [eauto using ok_lt|..]; [destruct A; eauto using ok_lt..|auto].
Qed.
Lemma item_lt W h i : good_item W h i -> forall a, In a (own_item i) -> a < length h.
Proof.
  destruct i as [c|b|fs todo|all r [[s now]|]]; cbn [good_item own_item]; intros G a J.
  - exact (owner_lt h (OCtx c) G a J).
  - destruct J as [<-|[]]. eauto using ok_lt.
  - eapply stack_lt; eauto.
  - destruct J as [<-|[]]. destruct G as (_ & G & _). eauto using ok_lt.
  - contradiction.
Qed.
Lemma items_lt W h l : Forall (good_item W h) l -> forall a, In a (own l) -> a < length h.
Proof. intros G a J. apply in_flat_map in J. destruct J as (i & Hi & Ha). eapply item_lt; [|exact Ha]. eapply Forall_forall; eauto. Qed.

(** An item depends on its own arrays only. *)
Definition same_on (h h' : memory) (l : list nat) : Prop := forall a, In a l -> nth_error h' a = nth_error h a.
Lemma owner_ext h h' o : same_on h h' (own_owner o) -> ok_owner h o -> ok_owner h' o.
Proof. destruct o; cbn [ok_owner own_owner own_ctx]; intros S; [intros [A B]; split|intros A]; apply (ok_ext h); auto; apply S; cbn; auto. Qed.
Lemma stack_ext h h' fs : same_on h h' (own_stack fs) -> good_stack h fs -> good_stack h' fs.
Proof.
  intros S G. unfold own_stack in S. induction G as [|o b all rest fs A B C D _ IH|b fs A _ IH|c all dst fs A B C D _ IH]; cbn [flat_map] in S.
  - constructor.
  - assert (nth_error h' (arr b) = nth_error h (arr b)) as Sb by (apply S; apply in_or_app; left; apply run_own; auto).
    apply gs_run; auto.
    + eapply owner_ext; [|exact A]. intros a J. apply S. apply in_or_app; left; apply run_own; auto.
    + apply (ok_ext h); auto.
    + rewrite (content_ext _ _ _ Sb). exact C.
    + apply IH. intros a J. apply S, in_or_app. auto.
  - apply gs_free; [apply (ok_ext h); auto; apply S; cbn; auto|]. apply IH. intros a J. apply S. cbn. auto.
  - assert (nth_error h' (arr dst) = nth_error h (arr dst)) as Sb by (apply S; cbn; auto).
    apply gs_ret; auto.
    + eapply owner_ext; [|exact A]. intros a J. apply S. cbn in J |- *. intuition.
    + apply (ok_ext h); auto.
    + rewrite (content_ext _ _ _ Sb). exact C.
    + apply IH. intros a J. apply S. cbn. auto.
Qed.
Lemma item_ext W h h' i : same_on h h' (own_item i) -> good_item W h i -> good_item W h' i.
Proof.
  destruct i as [c|b|fs todo|all r [[s now]|]]; cbn [good_item own_item]; intros S G.
  - eapply (owner_ext h h' (OCtx c)); eauto.
  - apply (ok_ext h); auto. apply S. cbn. auto.
  - eapply stack_ext; eauto.
  - destruct G as (A & B & C & D). assert (nth_error h' (arr s) = nth_error h (arr s)) as Sb by (apply S; cbn; auto).
    repeat split; auto; [apply (ok_ext h); auto|rewrite (content_ext _ _ _ Sb); exact C].
  - exact G.
Qed.

(** ** Steps *)
Definition wider (h h' : memory) : Prop := forall a x, nth_error h a = Some x -> exists y, nth_error h' a = Some y /\ length x <= length y.
Lemma ok_wider h h' s : wider h h' -> ok h s -> ok h' s.
Proof. intros Wd (a & A & B). destruct (Wd _ _ A) as (y & C & D). exists y. split; [exact C|lia]. Qed.
Lemma owner_wider h h' o : wider h h' -> ok_owner h o -> ok_owner h' o.
Proof. intros Wd. destruct o; cbn; intuition eauto using ok_wider. Qed.
Lemma wider_refl h : wider h h.
Proof. intros a x Q. exists x. auto. Qed.
Lemma wider_trans h1 h2 h3 : wider h1 h2 -> wider h2 h3 -> wider h1 h3.
Proof. intros A B a x Q. destruct (A _ _ Q) as (y & C & D). destruct (B _ _ C) as (z & F & G). exists z. split; [exact F|lia]. Qed.
Lemma wider_app h l : wider h (h ++ l).
Proof. intros a x Q. exists x. split; [rewrite nth_error_app1; [exact Q|]; apply nth_error_Some; congruence|lia]. Qed.
Lemma appended_wider h s x h' s' : ok h s -> appended h s x h' s' -> wider h h'.
Proof.
  intros Hok Q. pose proof (ok_lt _ _ Hok) as Hlt. destruct Q as [a Ha L|a pad Ha L]; [|apply wider_app].
  intros i y Q. destruct (Nat.eq_dec i (arr s)) as [->|D].
  - rewrite store_same by exact Hlt. eexists. split; [reflexivity|]. replace y with a by congruence. rewrite !app_length, firstn_length, skipn_length. lia.
  - rewrite store_other by exact D. exists y. auto.
Qed.

(** What happens to memory when arrays [o1] are turned into arrays [o2]. *)
Record eff (h : memory) (o1 : list nat) (h' : memory) (o2 : list nat) : Prop := Eff {
  ef_len : length h <= length h';
  ef_same : forall a, a < length h -> ~ In a o1 -> nth_error h' a = nth_error h a;
  ef_from : forall a, In a o2 -> In a o1 \/ length h <= a;
  ef_once : NoDup o1 -> NoDup o2 }.
Lemma nodup_parts {A} (l l' : list A) : NoDup (l ++ l') -> NoDup l /\ NoDup l' /\ forall a, In a l -> In a l' -> False.
Proof.
  induction l as [|x l IH]; cbn; intros N; [repeat split; [constructor|exact N|contradiction]|].
  inversion N; subst. destruct (IH H2) as (P & Q & R). repeat split; [constructor; [intros J; apply H1, in_or_app; auto|exact P]|exact Q|].
  intros a [<-|J] K; [apply H1, in_or_app; auto|eauto].
Qed.
Lemma parts_nodup {A} (l l' : list A) : NoDup l -> NoDup l' -> (forall a, In a l -> In a l' -> False) -> NoDup (l ++ l').
Proof.
  induction l as [|x l IH]; cbn; intros P Q R; [exact Q|]. inversion P; subst. constructor.
  - intros J. apply in_app_or in J. destruct J as [J|J]; [contradiction|]. exact (R x (or_introl eq_refl) J).
  - apply IH; auto. intros a J K. exact (R a (or_intror J) K).
Qed.
Lemma eff_frame h o1 h' o2 r : eff h o1 h' o2 -> (forall a, In a r -> a < length h) -> eff h (o1 ++ r) h' (o2 ++ r).
Proof.
  intros [A B C D] Hr. constructor.
  - exact A.
  - intros a L N. apply B; [exact L|]. intros J. apply N, in_or_app. auto.
  - intros a J. apply in_app_or in J. destruct J as [J|J]; [|left; apply in_or_app; auto]. destruct (C a J) as [K|K]; [left; apply in_or_app; auto|auto].
  - intros N. apply nodup_parts in N. destruct N as (P & Q & R). apply parts_nodup; auto.
    intros a J K. destruct (C a J) as [J'|J']; [exact (R a J' K)|]. pose proof (Hr a K). lia.
Qed.
Lemma eff_perm h o1 o1' h' o2 o2' : Permutation o1 o1' -> Permutation o2 o2' -> eff h o1' h' o2' -> eff h o1 h' o2.
Proof.
  intros P1 P2 [A B C D]. constructor; auto.
  - intros a L N. apply B; auto. intros J. apply N. eapply Permutation_in; [symmetry; exact P1|exact J].
  - intros a J. destruct (C a) as [K|K]; [eapply Permutation_in; eauto| |auto]. left. eapply Permutation_in; [symmetry; exact P1|exact K].
  - intros N. eapply Permutation_NoDup; [symmetry; exact P2|]. apply D. eapply Permutation_NoDup; eauto.
Qed.
(** memory only grows, arrays are only forgotten *)
Lemma eff_drop h o1 o2 : (forall a, In a o2 -> In a o1) -> (NoDup o1 -> NoDup o2) -> eff h o1 h o2.
Proof. intros A B. constructor; auto. Qed.
Lemma same_app (h l : memory) a : a < length h -> nth_error (h ++ l) a = nth_error h a.
Proof. apply nth_error_app1. Qed.

Lemma append_eff h s x h' s' o all rest all' rest' : ok h s -> ok_owner h o -> appended h s x h' s' ->
  eff h (own_frame (FRun o s all rest)) h' (own_frame (FRun o s' all' rest')).
Proof.
  intros Hs Ho Q. destruct (appended_effect _ _ _ _ _ Hs Q) as (A & B & C & D & F & G). constructor.
  - exact C.
  - intros a L N. apply D; [exact L|]. intros ->. apply N, run_own. auto.
  - intros a J. apply run_own in J. destruct J as [->|J]; [destruct F as [->| ->]; [left; apply run_own; auto|right; lia]|left; apply run_own; auto].
  - destruct F as [F|F]; cbn [own_frame]; rewrite F; [auto|]. intros N. apply nodup_parts in N. destruct N as (_ & N & _).
    pose proof (owner_lt h o Ho) as L. unfold extra. destruct (Nat.eqb_spec (length h) (base o)); cbn; [exact N|]. constructor; [|exact N].
    intros J. apply L in J. lia.
Qed.
Lemma get_ctx_eff W h taken h' c : Forall (good_item W h) taken -> get_ctx h taken h' c ->
  wider h h' /\ ok_owner h' (OCtx c) /\ eff h (own taken) h' (own_ctx c) /\ (forall a, a < length h -> nth_error h' a = nth_error h a).
Proof.
  intros G Q. destruct Q as [c|a b].
  - inversion G; subst. split; [apply wider_refl|]. split; [exact H1|]. split; [|auto]. apply eff_drop; cbn; auto.
  - split; [apply wider_app|]. split; [split|split].
    + exists a. cbn [c_buf arr len]. rewrite nth_error_app2, Nat.sub_diag by lia. split; [reflexivity|lia].
    + exists b. cbn [c_small arr len]. rewrite nth_error_app2 by lia. replace (S (length h) - length h) with 1 by lia. split; [reflexivity|lia].
    + constructor; [rewrite app_length; lia|intros i L _; apply same_app; exact L| |].
      * intros i [<-|[<-|[]]]; cbn; right; lia.
      * intros _. cbn. repeat constructor; cbn; intuition lia.
    + intros i L. apply same_app. exact L.
Qed.
Lemma get_buf_eff W h taken h' b : Forall (good_item W h) taken -> get_buf h taken h' b ->
  wider h h' /\ ok h' b /\ eff h (own taken) h' [arr b] /\ (forall a, a < length h -> nth_error h' a = nth_error h a).
Proof.
  intros G Q. destruct Q as [b|a].
  - inversion G; subst. split; [apply wider_refl|]. split; [exact H1|]. split; [|auto]. apply eff_drop; cbn; auto.
  - split; [apply wider_app|]. split; [|split].
    + exists a. cbn [arr len]. rewrite nth_error_app2, Nat.sub_diag by lia. split; [reflexivity|lia].
    + constructor; [rewrite app_length; lia|intros i L _; apply same_app; exact L| |].
      * intros i [<-|[]]; cbn; right; lia.
      * intros _. repeat constructor. intros [].
    + intros i L. apply same_app. exact L.
Qed.
Lemma same_lt h h' l : (forall a, In a l -> a < length h) -> (forall a, a < length h -> nth_error h' a = nth_error h a) -> same_on h h' l.
Proof. intros A B a J. auto. Qed.
Lemma small_own fs s : small_of fs = Some s -> In (arr s) (own_stack fs).
Proof.
  induction fs as [|[o b all rest|b|c all dst] fs IH]; cbn [small_of]; try discriminate. destruct o as [c|buf]; intros Q.
  - injection Q as <-. apply in_or_app. left. apply run_own. right. cbn. auto.
  - apply in_or_app. auto.
Qed.
Lemma small_ok h fs s : good_stack h fs -> small_of fs = Some s -> ok h s.
Proof.
  induction 1 as [|o b all rest fs A B C D _ IH|b fs A _ IH|c all dst fs A B C D _ IH]; cbn [small_of]; try discriminate.
  destruct o as [c|buf]; [intros [= <-]; exact (proj2 A)|exact IH].
Qed.
(** The arrays whose contents matter to a stack. *)
Definition live (f : frame) : list nat := match f with FRun _ b _ _ => [arr b] | FFree _ => [] | FRet _ _ dst => [arr dst] end.
Lemma live_own f a : In a (live f) -> In a (own_frame f).
Proof. destruct f as [o b all rest|b|c all dst]; cbn [live]; [intros [<-|[]]; apply run_own; auto|contradiction|cbn; intuition]. Qed.
Lemma lives_own fs a : In a (flat_map live fs) -> In a (own_stack fs).
Proof. intros J. apply in_flat_map in J. destruct J as (f & A & B). apply in_flat_map. exists f. split; [exact A|apply live_own; exact B]. Qed.
Lemma small_not_live fs s : NoDup (own_stack fs) -> small_of fs = Some s -> ~ In (arr s) (flat_map live fs).
Proof.
  induction fs as [|[o b all rest|b|c all dst] fs IH]; cbn [small_of]; try discriminate. intros N Q J. cbn [flat_map live] in J.
  unfold own_stack in N. cbn [flat_map] in N. fold (own_stack fs) in N. apply nodup_parts in N. destruct N as (N1 & N2 & N3).
  destruct o as [c|buf].
  - injection Q as <-. destruct J as [E|J].
    + cbn [own_frame own_owner own_ctx base] in N1. apply nodup_parts in N1. destruct N1 as (_ & N & R).
      destruct (Nat.eq_dec (arr b) (arr (c_buf c))) as [E1|E1].
      * inversion N as [|? ? P1 P2]; subst. apply P1. left. congruence.
      * apply (R (arr b)); [apply extra_in; auto|cbn; auto].
    + apply (N3 (arr (c_small c))); [apply run_own; cbn; auto|apply lives_own; exact J].
  - destruct J as [E|J]; [|exact (IH N2 Q J)]. apply (N3 (arr b)); [apply run_own; auto|]. rewrite E. apply small_own. exact Q.
Qed.
Lemma stack_live h h' fs : wider h h' -> same_on h h' (flat_map live fs) -> good_stack h fs -> good_stack h' fs.
Proof.
  intros Wd S G. induction G as [|o b all rest fs A B C D _ IH|b fs A _ IH|c all dst fs A B C D _ IH]; cbn [flat_map live] in S.
  - constructor.
  - apply gs_run; auto; [eapply owner_wider; eauto|eapply ok_wider; eauto| |].
    + rewrite (content_ext h h'); [exact C|]. apply S. cbn. auto.
    + apply IH. intros a J. apply S. cbn. auto.
  - apply gs_free; [eapply ok_wider; eauto|]. apply IH. exact S.
  - apply gs_ret; auto; [exact (owner_wider _ _ (OCtx c) Wd A)|eapply ok_wider; eauto| |].
    + rewrite (content_ext h h'); [exact C|]. apply S. cbn. auto.
    + apply IH. intros a J. apply S. cbn. auto.
Qed.
Lemma eff_trans h o1 h' o2 h'' o3 : eff h o1 h' o2 -> eff h' o2 h'' o3 -> eff h o1 h'' o3.
Proof.
  intros [A B C D] [A' B' C' D']. constructor; auto; [lia|..].
  - intros a L N. rewrite B'; [apply B; auto|lia|]. intros J. destruct (C a J) as [K|K]; [auto|lia].
  - intros a J. destruct (C' a J) as [K|K]; [auto|right; lia].
Qed.

Lemma put_nil r : put_before [] r = r.
Proof. destruct r; reflexivity. Qed.
Lemma extra_same a : extra a a = [].
Proof. unfold extra. rewrite Nat.eqb_refl. reflexivity. Qed.
Lemma own_stack_cons f fs : own_stack (f :: fs) = own_frame f ++ own_stack fs.
Proof. reflexivity. Qed.
Lemma own_thread fs todo l : own (Thread fs todo :: l) = own_stack fs ++ own l.
Proof. reflexivity. Qed.
(** replacing the top of a stack *)
Lemma eff_top h f h' f' fs todo : eff h (own_frame f) h' (own_frame f') -> (forall a, In a (own_stack fs) -> a < length h) ->
  eff h (own [Thread (f :: fs) todo]) h' (own [Thread (f' :: fs) todo]).
Proof.
  intros Q L. rewrite !own_thread, !own_stack_cons. cbn [own flat_map]. rewrite !app_nil_r. apply eff_frame; assumption.
Qed.
Lemma one W h i : good_item W h i -> Forall (good_item W h) [i].
Proof. intros G. constructor; [exact G|constructor]. Qed.
Lemma top_apart f fs : NoDup (own_stack (f :: fs)) -> forall a, In a (own_frame f) -> In a (own_stack fs) -> False.
Proof. rewrite own_stack_cons. intros N. exact (proj2 (proj2 (nodup_parts _ _ N))). Qed.
Lemma thread_nodup fs todo l : NoDup (own (Thread fs todo :: l)) -> NoDup (own_stack fs).
Proof. rewrite own_thread. intros N. exact (proj1 (nodup_parts _ _ N)). Qed.

(** one append by the top frame *)
Lemma append_stack h x h' b' o b all c rest fs todo : NoDup (own_stack (FRun o b all (c :: rest) :: fs)) ->
  good_stack h (FRun o b all (c :: rest) :: fs) -> appended h b x h' b' -> result c = Good x ->
  eff h (own [Thread (FRun o b all (c :: rest) :: fs) todo]) h' (own [Thread (FRun o b' all rest :: fs) todo]) /\
  good_stack h' (FRun o b' all rest :: fs) /\ same_on h h' (own_stack fs) /\ wider h h'.
Proof.
  intros N G Q Hx. inversion G as [|o0 b0 all0 rest0 fs0 A B C D F| |]; subst.
  destruct (appended_effect _ _ _ _ _ B Q) as (A1 & A2 & A3 & A4 & A5 & A6). pose proof (stack_lt _ _ F) as L.
  assert (same_on h h' (own_stack fs)) as S.
  { intros a J. apply A4; [auto|]. intros ->. eapply top_apart; [exact N| |exact J]. apply run_own. auto. }
  split; [|split; [|split; [exact S|eapply appended_wider; eauto]]].
  - apply eff_top; [|exact L]. eapply append_eff; eauto.
  - apply gs_run; auto.
    + exact (owner_wider _ _ _ (appended_wider _ _ _ _ _ B Q) A).
    + rewrite A2, C, results_cons, Hx. cbn [and_then]. apply put_before_app.
    + eapply stack_ext; eauto.
Qed.

Lemma local_effect (W : Prop) h taken h' put : Forall (good_item W h) taken -> NoDup (own taken) -> local W h taken h' put ->
  eff h (own taken) h' (own put) /\ Forall (good_item W h') put.
Proof.
  intros G N Q. destruct Q.
  - (* Marshal *)
    inversion G as [|? ? G1 G2]; subst. destruct (get_ctx_eff _ _ _ _ _ G2 H) as (A & B & C & D). split.
    + rewrite !own_thread. cbn [own_stack flat_map own own_frame]. rewrite extra_same, !app_nil_r. exact C.
    + apply one. cbn. apply gs_run; [exact B|apply ok_empty, B|rewrite content_empty, put_nil; reflexivity|left; reflexivity|constructor].
  - (* nested Marshal *)
    inversion G as [|? ? G1 G2]; subst. destruct (get_ctx_eff _ _ _ _ _ G2 H) as (A & B & C & D). pose proof (stack_lt _ _ G1) as L. split.
    + rewrite !own_thread. rewrite (own_stack_cons (FRun (OCtx c) _ _ _)). cbn [own flat_map own_frame]. cbn [base empty arr]. rewrite extra_same, !app_nil_r.
      eapply eff_perm; [apply Permutation_app_comm|apply Permutation_refl|]. apply eff_frame; [exact C|exact L].
    + apply one. cbn. apply gs_run; [exact B|apply ok_empty, B|rewrite content_empty, put_nil; reflexivity|right; repeat eexists|].
      eapply stack_ext; [|exact G1]. apply same_lt; auto.
  - (* append *)
    inversion G as [|? ? G1 G2]; subst. apply thread_nodup in N. destruct (append_stack _ _ _ _ _ _ _ _ _ _ todo N G1 H eq_refl) as (A & B & _).
    split; [exact A|apply one; exact B].
  - (* small buffer *)
    inversion G as [|? ? G1 G2]; subst. cbn [good_item] in G1. apply thread_nodup in N.
    pose proof (small_ok _ _ _ G1 H) as Ks. pose proof (small_own _ _ H) as J. pose proof (small_not_live _ _ N H) as Nl.
    destruct (appended_effect _ _ _ _ _ (ok_empty _ _ Ks) H0) as (A1 & A2 & A3 & A4 & A5 & A6). rewrite content_empty in A2. cbn [app empty arr] in A2, A4, A5, A6.
    pose proof (appended_wider _ _ _ _ _ (ok_empty _ _ Ks) H0) as Wd. pose proof (stack_lt _ _ G1) as L.
    assert (good_stack h' (FRun o b all (Small pre t post :: rest) :: fs)) as G'.
    { eapply stack_live; [exact Wd| |exact G1]. intros a Ja. apply A4; [apply L, lives_own; exact Ja|]. intros ->. exact (Nl Ja). }
    rewrite A2 in H1. destruct (append_stack _ _ _ _ _ _ _ _ _ _ todo N G' H1 eq_refl) as (B1 & B2 & _).
    split; [|apply one; exact B2]. eapply eff_trans; [|exact B1]. constructor; auto.
    intros a La Na. apply A4; [exact La|]. intros ->. apply Na. rewrite own_thread. apply in_or_app. auto.
  - (* struct: take a buffer *)
    inversion G as [|? ? G1 G2]; subst. destruct (get_buf_eff _ _ _ _ _ G2 H) as (A & B & C & D). pose proof (stack_lt _ _ G1) as L. split.
    + rewrite !own_thread. rewrite (own_stack_cons (FRun (OBuf _) _ _ _)). cbn [own flat_map own_frame]. cbn [base empty arr]. rewrite extra_same, !app_nil_r.
      eapply eff_perm; [apply Permutation_app_comm|apply Permutation_refl|]. apply eff_frame; [exact C|exact L].
    + apply one. cbn. apply gs_run; [apply ok_empty; exact B|apply ok_empty, B|rewrite content_empty, put_nil; reflexivity|repeat eexists|].
      eapply stack_ext; [|exact G1]. apply same_lt; auto.
  - (* struct: copy out *)
    inversion G as [|? ? G1 G2]; subst. cbn [good_item] in G1. apply thread_nodup in N.
    inversion G1 as [|? ? ? ? ? A B C D F| |]; subst. cbn [linked] in D. destruct D as (o' & b1 & all' & head' & rest' & fs' & D). injection D as <- <- <- <- -> <- <-.
    cbn [results] in C. unfold put_before in C. cbn [and_then] in C. rewrite app_nil_r in C.
    pose proof N as N0. rewrite own_stack_cons in N0. apply nodup_parts in N0. destruct N0 as (N1 & N2 & N3).
    assert (result (Struct head body) = Good (head ++ content h sb ++ bs "}")) as Rs by (rewrite result_struct, C; reflexivity).
    destruct (append_stack _ _ _ _ _ _ _ _ _ _ todo N2 F H Rs) as (B1 & B2 & B3 & B4).
    pose proof (stack_lt _ _ F) as L. split.
    + rewrite !own_thread, !(own_stack_cons (FFree _)), !(own_stack_cons (FRun (OBuf _) _ _ _)) in *. cbn [own flat_map] in *. rewrite !app_nil_r in *.
      eapply eff_perm; [apply Permutation_app_comm|apply Permutation_app_comm|].
      eapply eff_trans; [apply eff_frame; [exact B1|]|].
      * intros a J. eapply stack_lt; [exact G1|]. rewrite own_stack_cons. apply in_or_app. left. exact J.
      * apply eff_drop.
        -- intros a J. apply in_app_or in J. apply in_or_app. destruct J as [J|J]; [auto|]. right. apply run_own. cbn in J. intuition.
        -- intros M. apply nodup_parts in M. destruct M as (M1 & M2 & M3). apply parts_nodup; [exact M1|cbn; repeat constructor; auto|].
           intros a J [<-|[]]. apply (M3 (arr sb)); [exact J|]. apply run_own. auto.
    + apply one. cbn [good_item]. apply gs_free; [eapply ok_wider; eauto|exact B2].
  - (* freeBuffer *)
    inversion G as [|? ? G1 G2]; subst. cbn [good_item] in G1. inversion G1; subst. split.
    + apply eff_drop; cbn; auto.
    + constructor; [assumption|]. apply one. assumption.
  - (* a struct that fails *)
    inversion G as [|? ? G1 G2]; subst. cbn [good_item] in G1. apply thread_nodup in N.
    inversion G1 as [|? ? ? ? ? A B C D F| |]; subst. cbn [linked] in D. destruct D as (o' & b1 & all' & head' & rest' & fs' & D). injection D as <- <- <- <- -> <- <-.
    cbn in C. split.
    + apply eff_drop; [|].
      * intros a J. cbn [own flat_map own_item] in J |- *. rewrite app_nil_r in *. rewrite (own_stack_cons (FRun (OBuf _) _ _ _)). apply in_or_app.
        destruct J as [<-|J]; [left; apply run_own; right; cbn; auto|right; exact J].
      * intros _. cbn [own flat_map own_item]. rewrite app_nil_r. rewrite own_stack_cons in N. apply nodup_parts in N. destruct N as (N1 & N2 & N3).
        cbn [app]. constructor; [|exact N2]. intros J. apply (N3 (arr buf)); [apply run_own; right; cbn; auto|exact J].
    + constructor; [exact A|]. apply one. cbn [good_item]. inversion F as [|? ? ? ? ? A' B' C' D' F'| |]; subst. apply gs_run; auto.
      rewrite C', results_cons, result_struct, C. reflexivity.
  - (* a struct that panics *)
    inversion G as [|? ? G1 G2]; subst. cbn [good_item] in G1. apply thread_nodup in N.
    inversion G1 as [|? ? ? ? ? A B C D F| |]; subst. cbn [linked] in D. destruct D as (o' & b1 & all' & head' & rest' & fs' & D). injection D as <- <- <- <- -> <- <-.
    cbn in C. split.
    + apply eff_drop; [|].
      * intros a J. cbn [own flat_map own_item] in J |- *. rewrite app_nil_r in *. rewrite (own_stack_cons (FRun (OBuf _) _ _ _)). apply in_or_app.
        destruct J as [<-|J]; [left; apply run_own; right; cbn; auto|right; exact J].
      * intros _. cbn [own flat_map own_item]. rewrite app_nil_r. rewrite own_stack_cons in N. apply nodup_parts in N. destruct N as (N1 & N2 & N3).
        cbn [app]. constructor; [|exact N2]. intros J. apply (N3 (arr buf)); [apply run_own; right; cbn; auto|exact J].
    + constructor; [exact A|]. apply one. cbn [good_item]. inversion F as [|? ? ? ? ? A' B' C' D' F'| |]; subst. apply gs_run; auto.
      rewrite C', results_cons, result_struct, C. reflexivity.
  - (* Marshal copies its output *)
    inversion G as [|? ? G1 G2]; subst. cbn [good_item] in G1. pose proof (stack_lt _ _ G1) as L. apply thread_nodup in N.
    inversion G1 as [|? ? ? ? ? A B C D F| |]; subst. destruct A as [Ab As]. split.
    + apply eff_top; [|exact (stack_lt _ _ F)]. constructor.
      * rewrite app_length. lia.
      * intros a La _. apply same_app. exact La.
      * cbn [own_frame own_ctx c_buf c_small arr]. intros a [<-|[<-|[<-|[]]]]; [right; lia|left; apply run_own; auto|left; apply run_own; cbn; auto].
      * intros M. cbn [own_frame own_ctx c_buf c_small arr base own_owner] in *. pose proof (ok_lt _ _ B). pose proof (ok_lt _ _ As).
        constructor; [cbn; lia|]. constructor; [|constructor; [intros []|constructor]]. intros [E|[]]. cbn [c_small c_buf] in E.
        apply nodup_parts in M. destruct M as (_ & M2 & M3). destruct (Nat.eq_dec (arr b) (arr (c_buf c))) as [E1|E1].
        -- apply (proj1 (proj1 (NoDup_cons_iff _ _) M2)). left. congruence.
        -- apply (M3 (arr b)); [apply extra_in; auto|cbn; auto].
    + apply one. cbn [good_item]. assert (ok (h ++ [content h b]) (Slice (length h) (len b))) as K.
      { exists (content h b). cbn [arr len]. rewrite nth_error_app2, Nat.sub_diag by lia. split; [reflexivity|]. rewrite content_length by exact B. lia. }
      apply gs_ret; auto.
      * split; cbn [c_buf c_small]; eapply ok_wider; eauto using wider_app.
      * unfold content at 1. cbn [arr len]. rewrite nth_error_app2, Nat.sub_diag by lia. cbn [nth_error].
        rewrite firstn_all2; [|rewrite content_length by exact B; lia]. rewrite C. cbn. rewrite app_nil_r. reflexivity.
      * eapply stack_ext; [|exact F]. apply same_lt; [exact (stack_lt _ _ F)|intros a La; apply same_app; exact La].
  - (* Marshal returns *)
    inversion G as [|? ? G1 G2]; subst. cbn [good_item] in G1. apply thread_nodup in N. inversion G1 as [| | |? ? ? ? A B C D F]; subst. split.
    + cbn in *. eapply eff_perm; [apply perm_swap|apply Permutation_refl|]. eapply eff_perm; [apply perm_skip, perm_swap|apply Permutation_refl|]. apply eff_drop; auto.
    + constructor; [exact A|]. constructor; [|apply one; constructor]. split; [exact C|]. split; [exact B|]. auto.
  - (* a nested Marshal returns *)
    inversion G as [|? ? G1 G2]; subst. cbn [good_item] in G1. apply thread_nodup in N. inversion G1 as [| | |? ? ? ? A B C D F]; subst.
    cbn [linked] in D. destruct D as [D|(o' & b1 & all' & use' & rest' & fs' & D)]; [discriminate D|]. injection D as <- <- <- -> <- <- <-. split.
    + cbn in *. rewrite !app_nil_r. eapply eff_perm; [apply perm_swap|apply Permutation_refl|]. eapply eff_perm; [apply perm_skip, perm_swap|apply Permutation_refl|]. apply eff_drop; auto.
    + constructor; [exact A|]. constructor; [|apply one].
      * split; [exact C|]. split; [exact B|]. auto.
      * cbn [good_item]. inversion F as [|? ? ? ? ? A' B' C' D' F'| |]; subst. apply gs_run; auto.
        rewrite C', !results_cons, result_call, C. reflexivity.
  - (* Marshal fails *)
    inversion G as [|? ? G1 G2]; subst. cbn [good_item] in G1. apply thread_nodup in N. inversion G1 as [|? ? ? ? ? A B C D F| |]; subst. split.
    + rewrite own_thread, own_stack_cons. apply eff_drop.
      * cbn [own flat_map own_item own_stack app]. rewrite !app_nil_r. intros a J. apply run_own. right. exact J.
      * cbn [own flat_map own_item own_stack app]. rewrite !app_nil_r. cbn [own_frame own_owner]. intros M. exact (proj1 (proj2 (nodup_parts _ _ M))).
    + constructor; [exact A|]. constructor; [|apply one; constructor]. cbn. split; [|exact I]. rewrite C. reflexivity.
  - (* a nested Marshal fails *)
    inversion G as [|? ? G1 G2]; subst. cbn [good_item] in G1. apply thread_nodup in N. inversion G1 as [|? ? ? ? ? A B C D F| |]; subst.
    cbn [linked] in D. destruct D as [D|(o' & b2 & all' & use' & rest' & fs' & D)]; [discriminate D|]. injection D as <- <- <- -> <- <- <-. split.
    + rewrite own_thread, own_stack_cons. cbn [own flat_map own_item]. rewrite !app_nil_r. cbn [app]. apply (eff_frame h _ h (own_ctx c)); [|exact (stack_lt _ _ F)].
      apply eff_drop; [intros a J; apply run_own; right; exact J|]. cbn [own_frame own_owner]. intros M. exact (proj1 (proj2 (nodup_parts _ _ M))).
    + constructor; [exact A|]. cbn in C. constructor; [|apply one].
      * cbn. split; [|exact I]. exact C.
      * cbn [good_item]. inversion F as [|? ? ? ? ? A' B' C' D' F'| |]; subst. apply gs_run; auto.
        rewrite C', !results_cons, result_call, C. reflexivity.
  - (* Marshal panics *)
    inversion G as [|? ? G1 G2]; subst. cbn [good_item] in G1. inversion G1 as [|? ? ? ? ? A B C D F| |]; subst. split.
    + apply eff_drop; [intros a []|intros _; constructor].
    + constructor; [|apply one; constructor]. cbn. split; [|exact I]. rewrite C. reflexivity.
  - (* a nested Marshal panics *)
    inversion G as [|? ? G1 G2]; subst. cbn [good_item] in G1. apply thread_nodup in N. inversion G1 as [|? ? ? ? ? A B C D F| |]; subst.
    cbn [linked] in D. destruct D as [D|(o' & b2 & all' & use' & rest' & fs' & D)]; [discriminate D|]. injection D as <- <- <- -> <- <- <-. cbn in C. split.
    + rewrite own_thread, own_stack_cons. cbn [own flat_map own_item]. rewrite !app_nil_r. cbn [app]. apply (eff_frame h _ h []); [|exact (stack_lt _ _ F)].
      apply eff_drop; [intros a []|intros _; constructor].
    + constructor; [cbn; auto|]. apply one. cbn [good_item]. inversion F as [|? ? ? ? ? A' B' C' D' F'| |]; subst. apply gs_run; auto.
      rewrite C', !results_cons, result_call, C. reflexivity.
  - split; [apply eff_drop; [intros a []|intros _; constructor]|constructor].
  - split; [apply eff_drop; [intros a []|intros _; constructor]|constructor].
  - (* a caller writes *)
    inversion G as [|? ? G1 G2]; subst. cbn [good_item] in G1. destruct G1 as (A & B & C & D). pose proof (ok_lt _ _ B) as L. split.
    + constructor; [rewrite store_length; lia| |auto|auto]. intros i _ Ni. apply store_other. intros ->. apply Ni. cbn. auto.
    + apply one. destruct B as (a' & B1 & B2). replace a' with a in * by congruence. cbn [good_item]. split; [exact A|]. split; [|split].
      * eexists. split; [apply store_same; exact L|]. rewrite app_length, skipn_length. lia.
      * unfold content. rewrite store_same by exact L. rewrite firstn_app, H1, Nat.sub_diag. cbn [firstn]. rewrite app_nil_r. apply firstn_all2. lia.
      * right. split; [exact H|]. destruct D as [->|[_ D]]; [|exact D]. eexists. split; [reflexivity|]. rewrite <- C. apply content_length. exists a. auto.
Qed.

Lemma step_inv W s s' : inv W s -> step W s s' -> inv W s'.
Proof.
  intros [N G] [taken rest h' put P Q]. apply (Permutation_Forall P) in G. apply Forall_app in G. destruct G as [G1 G2].
  pose proof (Permutation_NoDup (own_perm _ _ P) N) as N'. rewrite own_app in N'. destruct (nodup_parts _ _ N') as (N1 & N2 & N3).
  destruct (local_effect W _ _ _ _ G1 N1 Q) as [Ef Gp]. pose proof (items_lt _ _ _ G2) as L. constructor; cbn [items mem].
  - rewrite own_app. apply (ef_once _ _ _ _ (eff_frame _ _ _ _ (own rest) Ef L)). exact N'.
  - apply Forall_app. split; [exact Gp|]. apply Forall_forall. intros i Hi. eapply item_ext; [|exact (proj1 (Forall_forall _ _) G2 i Hi)].
    intros a J. assert (In a (own rest)) as K by (apply in_flat_map; exists i; auto). apply (ef_same _ _ _ _ Ef); [auto|]. intros M. exact (N3 a M K).
Qed.
Lemma reachable_inv W calls s : reachable W calls s -> inv W s.
Proof.
  induction 1 as [|s s' _ IH Q]; [|eapply step_inv; eauto]. constructor; cbn [items mem].
  - induction calls as [|c calls IH]; cbn; [constructor|exact IH].
  - apply Forall_forall. intros i Hi. apply in_map_iff in Hi. destruct Hi as (c & <- & _). constructor.
Qed.

(** Every call that has returned has the result of its script, and what it
    returned still holds what the caller has left in it. *)
Theorem pools_isolate W calls s all r held : reachable W calls s -> In (Returned all r held) (items s) ->
  r = results all /\ match held with Some (sl, now) => content (mem s) sl = now | None => forall x, r <> Good x end.
Proof.
  intros Q J. apply reachable_inv in Q. pose proof (proj1 (Forall_forall _ _) (inv_good _ _ Q) _ J) as [A B]. split; [auto|].
  destruct held as [[sl now]|]; [exact (proj1 (proj2 B))|]. intros x ->. exact B.
Qed.
(** If no caller writes to what they were given, it never changes. *)
Theorem pools_stable calls s all r sl now : reachable False calls s -> In (Returned all r (Some (sl, now))) (items s) ->
  results all = Good (content (mem s) sl).
Proof.
  intros Q J. apply reachable_inv in Q. pose proof (proj1 (Forall_forall _ _) (inv_good _ _ Q) _ J) as (A & B & C & [D|[[] _]]).
  rewrite A, D, C. reflexivity.
Qed.
(** No two slices held by callers share an array, nor does any pooled or running one with them. *)
Theorem pools_disjoint W calls s : reachable W calls s -> NoDup (own (items s)).
Proof. intros Q. exact (inv_once _ _ (reachable_inv _ _ _ Q)). Qed.

(** Distinct items own distinct arrays. *)
Lemma own_apart l1 i l2 j l3 a : NoDup (own (l1 ++ i :: l2 ++ j :: l3)) -> In a (own_item i) -> In a (own_item j) -> False.
Proof.
  rewrite own_app. intros N. apply nodup_parts in N. destruct N as (_ & N & _). unfold own in N. cbn [flat_map] in N. apply nodup_parts in N. destruct N as (_ & _ & N).
  intros A B. apply (N a A). rewrite flat_map_app. apply in_or_app. right. cbn [flat_map]. apply in_or_app. auto.
Qed.
Lemma two_in {A} (x y : A) l : In x l -> In y l -> x = y \/ exists l1 l2 l3, l = l1 ++ x :: l2 ++ y :: l3 \/ l = l1 ++ y :: l2 ++ x :: l3.
Proof.
  intros Hx Hy. apply in_split in Hx. destruct Hx as (l1 & l2 & ->). apply in_app_or in Hy. destruct Hy as [Hy|[->|Hy]]; [|auto|]; right.
  - apply in_split in Hy. destruct Hy as (l3 & l4 & ->). exists l3, l4, l2. right. rewrite <- app_assoc. reflexivity.
  - apply in_split in Hy. destruct Hy as (l3 & l4 & ->). exists l1, l3, l4. left. reflexivity.
Qed.
Theorem pools_apart W calls s all1 r1 s1 n1 all2 r2 s2 n2 : reachable W calls s ->
  In (Returned all1 r1 (Some (s1, n1))) (items s) -> In (Returned all2 r2 (Some (s2, n2))) (items s) ->
  arr s1 = arr s2 -> (all1, r1, s1, n1) = (all2, r2, s2, n2).
Proof.
  intros Q A B E. pose proof (pools_disjoint _ _ _ Q) as N. destruct (two_in _ _ _ A B) as [J|(l1 & l2 & l3 & [J|J])]; [congruence|rewrite J in N..].
  - exfalso. eapply (own_apart _ _ _ _ _ (arr s1)); [exact N|cbn; auto|cbn; auto].
  - exfalso. eapply (own_apart _ _ _ _ _ (arr s1)); [exact N|cbn; auto|cbn; auto].
Qed.

(** A goroutine with something to do can go on. *)
Lemma can_append h s x : ok h s -> exists h' s', appended h s x h' s'.
Proof.
  intros (a & Q & L). destruct (le_lt_dec (len s + length x) (length a)) as [F|F].
  - do 2 eexists. eapply ap_fits; eauto.
  - do 2 eexists. eapply (ap_grows _ _ _ a []); eauto.
Qed.
Lemma small_exists h fs : good_stack h fs -> match fs with FRun _ _ _ _ :: _ => exists s, small_of fs = Some s | _ => True end.
Proof.
  induction 1 as [|o b all rest fs A B C D G IH|b fs A _ IH|c all dst fs A B C D _ IH]; auto. cbn [small_of]. destruct o as [c|buf]; [eauto|].
  cbn in D. destruct D as (o' & b' & all' & head & rest' & fs' & ->). exact IH.
Qed.
Lemma local_progress W h fs todo : good_stack h fs -> fs <> [] \/ todo <> [] -> exists h' put, local W h [Thread fs todo] h' put.
Proof.
  intros G Hd. pose proof (small_exists _ _ G) as Sm. inversion G as [|o b all rest fs' A B C D F|b fs' A F|c all dst fs' A B C D F]; subst fs.
  - destruct Hd as [Hd|Hd]; [congruence|]. destruct todo as [|all todo]; [congruence|]. do 2 eexists. apply (l_marshal W h []). apply (gc_new h [] []).
  - destruct rest as [|[x|pre t post|head body|body use|e|p] rest].
    + destruct o as [c|buf].
      * do 2 eexists. apply l_copy.
      * cbn in D. destruct D as (o' & b' & all' & head & rest' & fs2 & ->). inversion F; subst. destruct (can_append h b' (head ++ content h b ++ bs "}")) as (h' & s' & Q); [assumption|].
        do 2 eexists. eapply l_close. exact Q.
    + destruct (can_append h b x B) as (h' & s' & Q). do 2 eexists. eapply l_emit. exact Q.
    + destruct Sm as [s Hs]. pose proof (small_ok _ _ _ G Hs) as Ks. destruct (can_append h (empty s) t (ok_empty _ _ Ks)) as (h' & s' & Q).
      destruct (can_append h' b (pre ++ content h' s' ++ post)) as (h'' & b'' & Q'); [eapply ok_wider; [eapply appended_wider; [apply ok_empty; exact Ks|exact Q]|exact B]|].
      do 2 eexists. eapply l_small; eauto.
    + do 2 eexists. apply (l_struct W h []). apply (gb_new h []).
    + do 2 eexists. apply (l_nested W h []). apply (gc_new h [] []).
    + destruct o as [c|buf]; cbn in D.
      * destruct D as [->|(o' & b' & all' & use & rest' & fs2 & ->)]; do 2 eexists; [apply l_fails|apply l_fails_nested].
      * destruct D as (o' & b' & all' & head & rest' & fs2 & ->). do 2 eexists. apply l_struct_fails.
    + destruct o as [c|buf]; cbn in D.
      * destruct D as [->|(o' & b' & all' & use & rest' & fs2 & ->)]; do 2 eexists; [apply l_panics|apply l_panics_nested].
      * destruct D as (o' & b' & all' & head & rest' & fs2 & ->). do 2 eexists. apply l_struct_panics.
  - do 2 eexists. apply l_free.
  - cbn in D. destruct D as [->|(o' & b' & all' & use & rest' & fs2 & ->)]; do 2 eexists; [apply l_return|apply l_return_nested].
Qed.
Theorem pools_progress W calls s fs todo : reachable W calls s -> In (Thread fs todo) (items s) -> fs <> [] \/ todo <> [] ->
  exists h' put rest, Permutation (items s) (Thread fs todo :: rest) /\ local W (mem s) [Thread fs todo] h' put /\ step W s (State h' (put ++ rest)).
Proof.
  intros Q J Hd. apply reachable_inv in Q. pose proof (proj1 (Forall_forall _ _) (inv_good _ _ Q) _ J) as G. cbn in G.
  destruct (local_progress W _ _ todo G Hd) as (h' & put & P). apply in_split in J. destruct J as (l1 & l2 & J). exists h', put, (l1 ++ l2).
  assert (Permutation (items s) (Thread fs todo :: l1 ++ l2)) as Pm by (rewrite J; symmetry; apply Permutation_middle).
  split; [exact Pm|]. split; [exact P|]. eapply st_local; [|exact P]. exact Pm.
Qed.
