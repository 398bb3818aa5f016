(** Properties of the errors: their texts say what they hold (C79). *)
From Coq Require Import Strings.String Strings.Byte ZArith List Bool Lia Floats.SpecFloat.
From Verif Require Import Base GoTypes Strconv Tags Grammar Denote Typing Api Decode Unmarshal Names NameDecode Message Php Said NumEnc PhpFacts TypeFault Demo Props26.
Import ListNotations.
Open Scope Z_scope.

Lemma int_names k : int_name k = int_kind_name k.
Proof. destruct k; vm_compute; reflexivity. Qed.
Lemma uint_names k : uint_name k = uint_kind_name k.
Proof. destruct k; vm_compute; reflexivity. Qed.
Lemma kind_names S E t : kind_name S E t = kind_word S E t.
Proof. unfold kind_name, kind_word. destruct (kind_of E t); try reflexivity; [apply int_names|apply uint_names]. Qed.
Lemma some_inj {A} (a b : A) : Some a = Some b -> a = b.
Proof. congruence. Qed.
Lemma names_end p : names [p] p.
Proof. replace p with ([] ++ p ++ []) at 2 by (cbn; apply app_nil_r). apply nm_cons, nm_nil. Qed.
Lemma names_one a p r : names [p] (a ++ p ++ r).
Proof. apply nm_cons, nm_nil. Qed.
Lemma names_last a p : names [p] (a ++ p).
Proof. replace p with (p ++ []) at 2 by apply app_nil_r. apply names_one. Qed.
Lemma names_two a p b q r : names [p; q] (a ++ p ++ b ++ q ++ r).
Proof. apply nm_cons, names_one. Qed.
Lemma names_two_last a p b q : names [p; q] (a ++ p ++ b ++ q).
Proof. apply nm_cons, names_last. Qed.

(** ** C79 The text of an error names what the error is about: ... *)
Theorem C79_text_names : forall S E e m, (forall z k, e = EOverflow (OvUint z k) -> 0 <= z) ->
  message S E e = Some m -> names (facts S E e) m.
Proof.
  intros S E e m Hz Q. destruct e as [o w|o|[z k|z k|f]|t|t| | | |t k|c|o d|u]; cbn [message] in Q; try discriminate Q; apply some_inj in Q; subst m; cbn [facts].
  - destruct w as [msg|t|t|c|c|typ c|what|what c|c what|c|c]; cbn [syntax_message].
    + apply names_end.
    + apply names_end.
    + apply names_end.
    + apply names_one.
    + apply names_one.
    + apply names_two_last.
    + apply names_one.
    + rewrite append_int_decimal. apply nm_cons. change (names [char c; decimal o] (bs ", get char '" ++ char c ++ bs "' instead at offset: " ++ decimal o)). apply names_two_last.
    + destruct (c =b "000"%byte); [apply names_last|apply names_two_last].
    + apply names_one.
    + apply names_one.
  - cbn [over_message]. rewrite append_int_decimal, int_names. apply names_two_last.
  - cbn [over_message]. rewrite append_uint_decimal by (eapply Hz; reflexivity). rewrite uint_names. apply names_two_last.
  - cbn [over_message]. exact (names_two_last _ _ (bs " overflow type ") (bs "float32")).
  - apply names_last.
  - unfold target_message. destruct (kind_of E t); apply names_one.
  - apply nm_nil.
  - apply nm_nil.
  - apply names_two_last.
  - rewrite <- ?kind_names. destruct c as [t|t|t|t|t|t|t|t|t]; cbn [cause_message]; rewrite ?kind_names; first [apply names_two|apply names_last|apply names_one].
Qed.
Print Assumptions C79_text_names.
(** ... an overflow error returned by Unmarshal names a number that the input
    gives for a place whose kind, also named, does not hold it, ... *)
Theorem C79_overflow_text : forall S X E cf data T v v' o, small data ->
  unmarshal X E cf data (TgPtr T v) = (v', RErr (EOverflow o)) ->
  exists number kind, message S E (EOverflow o) = Some (bs "php-serialize: " ++ number ++ bs " overflow type " ++ kind) /\
    ((exists k t z, given X E data T (KInt k) t /\ int_text t z /\ ~ int_range k z /\ number = decimal z /\ kind = int_kind_name k) \/
     (exists k t z, given X E data T (KUint k) t /\ int_text t z /\ ~ uint_range k z /\ number = decimal z /\ kind = uint_kind_name k) \/
     (exists t f, given X E data T KF32 t /\ float_text X t f /\ overflow_f32 f = true /\ number = w_number S f /\ kind = bs "float32")).
Proof.
  intros S X E cf data T v v' o Hsm Hu. pose proof (C71_overflow X E cf data T v v' o Hsm Hu) as O.
  inversion O as [k t z G I _ N|k t G I R N|t f G F N]; subst; cbn [message over_message].
  - exists (decimal z), (int_kind_name k). rewrite append_int_decimal, int_names. split; [reflexivity|]. left. exists k, t, z. auto.
  - exists (decimal (num t)), (uint_kind_name k). rewrite append_uint_decimal by apply R. rewrite uint_names. split; [reflexivity|]. right. left. exists k, t, (num t). split; [exact G|]. split; [apply it_pos, I|]. auto.
  - exists (w_number S f), (bs "float32"). split; [reflexivity|]. right. right. exists t, f. auto.
Qed.
Print Assumptions C79_overflow_text.
(** ... two overflow errors with the same text are about the same number and kind, ... *)
Lemma no_space : forall p q r r', ~ In " "%byte p -> ~ In " "%byte q -> p ++ " "%byte :: r = q ++ " "%byte :: r' -> p = q /\ r = r'.
Proof.
  induction p as [|a p IH]; intros [|b q] r r' Hp Hq Q; cbn [app] in Q.
  - injection Q as Q. auto.
  - injection Q as Q _. destruct Hq. left. congruence.
  - injection Q as Q _. destruct Hp. left. congruence.
  - injection Q as -> Q. destruct (IH q r r') as [-> ->]; auto; intros I; [apply Hp|apply Hq]; right; exact I.
Qed.
Lemma decimal_no_space z : ~ In " "%byte (decimal z).
Proof.
  intros I. assert (forall t, forallb is_digit t = true -> ~ In " "%byte t) as D.
  { intros t Ht J. rewrite forallb_forall in Ht. specialize (Ht _ J). discriminate Ht. }
  destruct (decimal_int_text z) as [t [_ Hd]|t [_ Hd]].
  - exact (D _ Hd I).
  - destruct I as [I|I]; [discriminate I|exact (D _ Hd I)].
Qed.
Theorem C79_overflow_distinct : forall S E o o', (forall z k, o = OvUint z k -> 0 <= z) -> (forall z k, o' = OvUint z k -> 0 <= z) ->
  (forall f, o <> OvFloat f) -> (forall f, o' <> OvFloat f) ->
  message S E (EOverflow o) = message S E (EOverflow o') -> o = o'.
Proof.
  intros S E o o' H1 H2 F1 F2 Q.
  assert (forall o, (forall z k, o = OvUint z k -> 0 <= z) -> (forall f, o <> OvFloat f) -> exists z kd, over_message S o = bs "php-serialize: " ++ decimal z ++ " "%byte :: (bs "overflow type " ++ kd) /\
    ((exists k, o = OvInt z k /\ kd = int_kind_name k) \/ (exists k, o = OvUint z k /\ kd = uint_kind_name k))) as N.
  { clear. intros [z k|z k|f] Hz Hf; [| |destruct (Hf f eq_refl)].
    - exists z, (int_kind_name k). split; [unfold over_message; rewrite append_int_decimal, int_names; reflexivity|]. left. eauto.
    - exists z, (uint_kind_name k). split; [unfold over_message; rewrite append_uint_decimal by (eapply Hz; reflexivity); rewrite uint_names; reflexivity|]. right. eauto. }
  destruct (N o H1 F1) as (z & kd & M & K). destruct (N o' H2 F2) as (z' & kd' & M' & K').
  assert (over_message S o = over_message S o') as Q' by (unfold message in Q; apply some_inj in Q; exact Q).
  rewrite M, M' in Q'. apply app_inv_head in Q'. apply no_space in Q'; [|apply decimal_no_space..]. destruct Q' as [Qz Qk].
  apply decimal_inj in Qz. subst z'. apply app_inv_head in Qk. subst kd'.
  destruct K as [(k & -> & ->)|(k & -> & ->)], K' as [(k' & -> & K2)|(k' & -> & K2)]; f_equal; destruct k, k'; vm_compute in K2; first [reflexivity|discriminate K2].
Qed.
Print Assumptions C79_overflow_distinct.

(** ... and the text of an UnmarshalTypeError names what was found, the struct
    and field if there is one, the type of the place and the offset, in this order. *)
Theorem C79_type_text : forall Q o d,
  names (if bytes_eqb (dt_struct d ++ dt_field d) [] then [dt_value d; r_string Q (dt_type d); decimal o]
         else [dt_value d; dt_struct d ++ bs "." ++ dt_field d; r_string Q (dt_type d); decimal o]) (type_error_message Q o d).
Proof.
  intros Q o [v t s f]. unfold type_error_message. cbn [dt_struct dt_field dt_value dt_type]. rewrite append_int_decimal.
  replace (bytes_eqb (s ++ f) []) with (negb (negb (bytes_eqb s []) || negb (bytes_eqb f []))) by (destruct s, f; reflexivity).
  destruct (negb (bytes_eqb s []) || negb (bytes_eqb f [])); cbn [negb].
  - apply nm_cons. change (names [s ++ bs "." ++ f; r_string Q t; decimal o]
      (bs " into Go struct field " ++ s ++ bs "." ++ f ++ bs " of type " ++ r_string Q t ++ bs " (offset " ++ decimal o ++ bs ")")).
    replace (s ++ bs "." ++ f ++ bs " of type " ++ r_string Q t ++ bs " (offset " ++ decimal o ++ bs ")")
      with ((s ++ bs "." ++ f) ++ bs " of type " ++ r_string Q t ++ bs " (offset " ++ decimal o ++ bs ")") by (rewrite <- !app_assoc; reflexivity).
    apply nm_cons, names_two.
  - apply nm_cons, names_two.
Qed.
Print Assumptions C79_type_text.
Definition S79 : Words := {| w_float := fun t => t; w_bool := fun t => t; w_type := fun _ => bs "main.T"; w_kind := fun _ => bs "chan"; w_number := fun _ => [] |}.
Example C79_example :
  unmarshal Xd [] 9 (bs "i:-129;") (TgPtr (TInt I8) (VInt 5)) = (VInt 5, RErr (EOverflow (OvInt (-129) I8))) /\
  message S79 [] (EOverflow (OvInt (-129) I8)) = Some (bs "php-serialize: -129 overflow type int8") /\
  message S79 [] (EDuplicate TAny (bs "k")) = Some (bs "found duplicate keys for struct main.T: k") /\
  facts S79 [] (EDuplicate TAny (bs "k")) = [bs "main.T"; bs "k"].
Proof. repeat split; vm_compute; reflexivity. Qed.
