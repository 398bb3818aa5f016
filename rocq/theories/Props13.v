(** What struct tags mean (C55), against a specification (TagSpec.v) that does not
    mention how they are parsed. *)
From Coq Require Import Strings.String Strings.Byte ZArith NArith List Bool Lia.
From Verif Require Import Base GoTypes NumFacts Tags TagSpec TagFacts Grammar Denote Typing Api Elements StructFacts
  Memory EncCompile Encode Php Repr EncApi MarshalFacts PhpFacts Demo DemoEnc Props2 Props4 Props5.
Import ListNotations.
Open Scope Z_scope.

Lemma field_key_named X f k : named X f k <-> k = field_key X f.
Proof.
  rewrite tag_key_iff. unfold field_key. destruct (tag_key (tag_of X f)) as [|b s] eqn:Q; [|reflexivity].
  symmetry in Q. apply tag_key_iff in Q. inversion Q as [w ws W V|w ws W V Q']; [apply valid_nonempty in V; congruence|]. rewrite Q'. reflexivity.
Qed.
Lemma ignored_iff f : is_ignored f = true <-> f_exported f = false \/ f_tag f = bs "-".
Proof. unfold is_ignored. rewrite orb_true_iff, negb_true_iff, bytes_eqb_eq. reflexivity. Qed.
Lemma written_iff X f : written_field X f = true <-> f_exported f = true /\ ~ named X f (bs "-").
Proof.
  unfold written_field. rewrite andb_true_iff, negb_true_iff, tag_key_iff. destruct (bytes_eqb (tag_key (tag_of X f)) (bs "-")) eqn:Q.
  - apply bytes_eqb_eq in Q. split; intros [H1 H2]; [discriminate|exfalso; apply H2; congruence].
  - split; intros [H1 H2]; split; try assumption; try reflexivity. intros P. rewrite <- P, (proj2 (bytes_eqb_eq _ _) eq_refl) in Q. discriminate.
Qed.

(** C55 A tag consists of words separated by commas.  Every field has exactly one
    key: the first word if it is a valid name, otherwise the field's own name. *)
Theorem C55_one_key : forall X f, exists! k, named X f k.
Proof. intros X f. exists (field_key X f). split; [apply field_key_named; reflexivity|]. intros k Hk. apply field_key_named in Hk. congruence. Qed.
Print Assumptions C55_one_key.

(** Unmarshal leaves a field alone if it is unexported, its tag is "-" or its key
    is not in the input; otherwise, and without the option string, it gets what
    its entry decodes to. *)
Theorem C55_unmarshal : forall X E T id fs p n es l w, small (text p) -> wf p -> plain E T (KStruct id fs) ->
  body_of p n es -> Decodes X E (text p) T (VStruct l) w ->
  exists l', w = VStruct l' /\ length l' = length l /\
  forall i f k, nth_error fs i = Some f -> named X f k ->
    (f_exported f = false \/ f_tag f = bs "-" \/ ~ In k (map entry_key es) -> nth_error l' i = nth_error l i) /\
    (NoDup (map entry_key es) -> f_exported f = true -> f_tag f <> bs "-" -> ~ with_option f (bs "string") ->
     forall kp u, In (kp, u) es -> key_text kp k ->
     exists old new, nth_error l i = Some old /\ nth_error l' i = Some new /\ Decodes X E (text u) (f_ty f) old new).
Proof.
  intros X E T id fs p n es l w Hsm W Hk Hb Hd. destruct (C16_fields_after X E T id fs p n es l w Hsm W Hk Hb Hd) as (l' & -> & Hl & H1 & H2).
  exists l'. split; [reflexivity|]. split; [exact Hl|]. intros i f k Hi Hn. apply field_key_named in Hn. subst k. split.
  - intros [H|[H|H]]; apply (H1 i f Hi); [left; apply ignored_iff; auto..|right; exact H].
  - intros Nd He Ht Ho kp u Hin Hkt. apply (H2 Nd i f kp u Hi); [|unfold string_tagged|exact Hin|exact Hkt].
    + destruct (is_ignored f) eqn:Q; [|reflexivity]. apply ignored_iff in Q. destruct Q; congruence.
    + destruct (tag_string (tag_of X f)) eqn:Q; [|reflexivity]. apply string_iff in Q. contradiction.
Qed.
Print Assumptions C55_unmarshal.

(** Marshal writes, in order, the fields that are exported and whose key is not
    "-", leaving out those with the option omitempty that hold a zero value, each
    under its key. *)
Theorem C55_marshal : forall X E H ord t id fs v b, fair_order ord ->
  marshaler E t = false -> kind_of E t = KStruct id fs -> Marshals X E H ord t v b ->
  exists l sel ps, v = HStruct l /\ length l = length fs /\
    selected (fun e => f_exported (fst e) = true /\ ~ named X (fst e) (bs "-") /\
                       ~ (with_option (fst e) (bs "omitempty") /\ zero_value (snd e))) (combine fs l) sel /\
    Forall2 (fun e x => (exists k, named X (fst e) k /\ fst x = PStr k) /\ FieldRepresents X E H (fst e) (snd e) (snd x)) sel ps /\
    b = serialize (PArr ps).
Proof.
  intros X E H ord t id fs v b Ho Hi Hk Hm. destruct (C31_struct_fields X E H ord t id fs v b Ho Hi Hk Hm) as (l & sel & ps & Hv & Hl & Hs & Hf & Hb).
  exists l, sel, ps. split; [exact Hv|]. split; [exact Hl|]. split; [|split; [|exact Hb]].
  - assert (forall e, shown X e <-> f_exported (fst e) = true /\ ~ named X (fst e) (bs "-") /\ ~ (with_option (fst e) (bs "omitempty") /\ zero_value (snd e))) as Q.
    { intros e. unfold shown. rewrite written_iff, omitempty_iff. tauto. }
    clear - Hs Q. induction Hs; constructor; try assumption; [apply Q; assumption|rewrite <- Q; assumption].
  - clear - Hf. induction Hf as [|e x sel ps [Q1 Q2] _ IH]; constructor; [|exact IH]. split; [|exact Q2]. exists (field_key X (fst e)). split; [apply field_key_named; reflexivity|exact Q1].
Qed.
Print Assumptions C55_marshal.

(** A number in a struct with one field, without the option string: exactly when
    and under which key it is written, and read. *)
Theorem C55_one_field : forall X ord name ex tag k z,
  fair_order ord -> int_range IInt z -> z <> 0 ->
  let f := one_field name ex tag in let E := one_field_env name ex tag in let b := serialize (PArr [(PStr k, PInt z)]) in
  ~ with_option f (bs "string") -> small b ->
  (Marshals X E [] ord (TName 0) (HStruct [HInt z]) b <-> ex = true /\ k <> bs "-" /\ named X f k) /\
  (Decodes X E b (TName 0) (VStruct [VInt 0]) (VStruct [VInt z]) <-> ex = true /\ tag <> bs "-" /\ named X f k).
Proof.
  intros X ord name ex tag k z Ho Hz Hnz f E b Hs Hsm.
  assert (tag_string (tag_of X f) = false) as Hts by (destruct (tag_string (tag_of X f)) eqn:Q; [apply string_iff in Q; contradiction|reflexivity]).
  unfold b, E, f in *. rewrite one_marshals by assumption. rewrite one_decodes by assumption. rewrite field_key_named. split.
  - destruct (written_field X (one_field name ex tag)) eqn:Q.
    + apply written_iff in Q as [Qe Qn]. cbn in Qe. rewrite field_key_named in Qn. split.
      * intros P. rewrite <- (app_nil_r (serialize _)) in P. symmetry in P. rewrite <- (app_nil_r (serialize _)) in P.
        apply serialize_inj in P as [P _]; [|split; reflexivity|split; reflexivity]. injection P as P. repeat split; congruence.
      * intros (_ & _ & ->). reflexivity.
    + split.
      * intros P. exfalso. rewrite <- (app_nil_r (serialize _)) in P. rewrite <- (app_nil_r (serialize (PArr []))) in P.
        apply serialize_inj in P as [P _]; [discriminate|split; reflexivity|split; reflexivity].
      * intros (-> & Hk & ->). exfalso. apply (eq_true_false_abs (written_field X (one_field name true tag))); [|exact Q].
        apply written_iff. split; [reflexivity|]. rewrite field_key_named. congruence.
  - split.
    + intros [Q1 Q2]. pose proof (proj1 (not_iff_compat (ignored_iff _)) (eq_ind_r (fun x => x <> true) (fun P => Bool.diff_false_true P) Q1)) as N. cbn in N.
      destruct ex; [|tauto]. repeat split; [tauto|congruence].
    + intros (-> & Q & ->). split; [|reflexivity]. destruct (is_ignored (one_field name true tag)) eqn:P; [|reflexivity]. apply ignored_iff in P. destruct P as [P|P]; [discriminate P|destruct (Q P)].
Qed.
Print Assumptions C55_one_field.

Example C55_example :
  named Xd (one_field (bs "Name") true (bs "my_name,omitempty")) (bs "my_name") /\
  with_option (one_field (bs "Name") true (bs "my_name,omitempty")) (bs "omitempty") /\
  ~ with_option (one_field (bs "Name") true (bs "my_name,omitempty")) (bs "string") /\
  named Xd (one_field (bs "Name") true (bs "bad'name,string")) (bs "Name") /\
  (forall X, x_letter X 233 = true -> named X (one_field (bs "Name") true (bs "caf" ++ [byte_of 195; byte_of 169])) (bs "caf" ++ [byte_of 195; byte_of 169])).
Proof.
  repeat split.
  - apply tag_key_iff. vm_compute. reflexivity.
  - apply (omitempty_iff Xd). vm_compute. reflexivity.
  - rewrite <- (string_iff Xd). vm_compute. discriminate.
  - apply tag_key_iff. vm_compute. reflexivity.
  - intros X HX. apply (nm_tag X _ (bs "caf" ++ [byte_of 195; byte_of 169]) []).
    + split; [discriminate|]. split; [reflexivity|]. constructor; [|constructor]. cbn. intuition discriminate.
    + exists [99; 97; 102; 233]%N. split; [discriminate|]. split; [|reflexivity].
      repeat (apply Forall_cons; [unfold name_char, scalar_value|]); [lia..|right; right; right; right; split; [lia|exact HX]|constructor].
Qed.
