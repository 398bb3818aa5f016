(** What becomes of floats on their way through Marshal and Unmarshal (C42), and which
    float a text is decoded to (C77). *)
From Coq Require Import Strings.String Strings.Byte ZArith List Bool Lia Floats.SpecFloat.
From Verif Require Import Base GoTypes Strconv Tags Scan Decode Unmarshal Grammar Denote Typing Api NumFacts ScanFacts Complete Sound SoundT CompileFacts UnmFacts
  Memory EncCompile Encode Php Repr EncApi EncSound PhpFacts FloatText FloatFacts Demo.
Import ListNotations.
Open Scope Z_scope.

Lemma denotes_chars t s a b c : denotes t s a b -> In c t -> is_digit c = true \/ c = "."%byte \/ c = "e"%byte \/ c = "+"%byte \/ c = "-"%byte.
Proof.
  intros [s' ip fp et k a' b' [_ Hi] Hf He _ _] Hc. rewrite forallb_forall in *.
  rewrite !in_app_iff in Hc. destruct Hc as [Hc|[Hc|[Hc|Hc]]].
  - destruct s'; [destruct Hc as [<-|[]]; tauto|destruct Hc].
  - left. apply Hi. exact Hc.
  - destruct fp as [|f fp]; [destruct Hc|]. destruct Hc as [<-|Hc]; [tauto|left; apply Hf; exact Hc].
  - destruct He as [|ds [_ Hd]|ds [_ Hd]]; [destruct Hc| |]; rewrite forallb_forall in Hd; (destruct Hc as [<-|[<-|Hc]]; [tauto|tauto|left; apply Hd; exact Hc]).
Qed.
Lemma denotes_text t s a b X f : denotes t s a b -> x_parse X t = Some f -> t <> [] /\ ~ In ";"%byte t /\ float_text X t f.
Proof.
  intros H Hp. pose proof (denotes_chars t s a b) as C. split; [|split].
  - destruct H as [s' ip fp et k a' b' [Hn _] _ _ _ _]. destruct s', ip; try discriminate; congruence.
  - intros K. specialize (C _ H K). repeat destruct C as [C|C]; discriminate C.
  - right. right. right. split; [|split; [|split; [|exact Hp]]]; intros ->.
    + specialize (C "I"%byte H (or_introl eq_refl)). repeat destruct C as [C|C]; discriminate C.
    + specialize (C "I"%byte H (or_intror (or_introl eq_refl))). repeat destruct C as [C|C]; discriminate C.
    + specialize (C "N"%byte H (or_introl eq_refl)). repeat destruct C as [C|C]; discriminate C.
Qed.

Lemma denotes_plain t s a b : denotes t s a b -> t <> [] /\ ~ In ";"%byte t /\ ~ In t [bs "INF"; bs "-INF"; bs "NAN"].
Proof.
  intros H. pose proof (denotes_chars t s a b) as C. split; [|split].
  - destruct H as [s' ip fp et k a' b' [Hn _] _ _ _ _]. destruct s', ip; try discriminate; congruence.
  - intros K. specialize (C _ H K). repeat destruct C as [C|C]; discriminate C.
  - intros [<-|[<-|[<-|[]]]].
    + specialize (C "I"%byte H (or_introl eq_refl)). repeat destruct C as [C|C]; discriminate C.
    + specialize (C "I"%byte H (or_intror (or_introl eq_refl))). repeat destruct C as [C|C]; discriminate C.
    + specialize (C "N"%byte H (or_introl eq_refl)). repeat destruct C as [C|C]; discriminate C.
Qed.

(** ** C42, float32.  Marshal writes a float32 with a text of strconv's choice, which
    denotes a number that rounds to this float32; Unmarshal lets strconv find the
    float64 nearest to that number, and rounds this to a float32.  Hence there are
    three cases: the float64 is greater than the largest float32, and there is an
    error; it lies half way between this float32, whose last bit is 1, and another,
    and the other is what is stored; or the float32 comes back. *)
Theorem C42_float32_exact : forall X E H ord s M e text a b m' e',
  let f := S754_finite s M e in
  let data := bs "d:" ++ text ++ bs ";" in
  small data ->
  x_fmt X (if exponent_form true f then "e"%byte else "f"%byte) true f = text ->
  denotes text s a b -> rounds_to 24 128 a b M e ->
  x_parse X text = Some (S754_finite s m' e') -> rounds_to 53 1024 a b m' e' ->
  Marshals X E H ord TF32 (HF32 f) data /\
  (forall v, Decodes X E data TF32 v (VF32 f) <-> ~ too_large m' e' /\ (Z.even (Zpos M) = true \/ ~ midway M e m' e')) /\
  (forall v, too_large m' e' -> Fails X E data TF32 v v) /\
  (forall v, ~ too_large m' e' -> Z.even (Zpos M) = false -> midway M e m' e' ->
     exists g, g <> f /\ Decodes X E data TF32 v (VF32 g)).
Proof.
  intros X E H ord s M e t a b m' e' f data Hsm Hfmt Hden R Hp R'.
  pose proof (denotes_pos _ _ _ _ Hden) as Hb. destruct (denotes_text _ _ _ _ X _ Hden Hp) as (T1 & T2 & T3).
  assert (bounded 53 1024 m' e' = true) as B' by apply R'. pose proof (overflow_large s m' e' B') as OV.
  assert (supported X E TF32) as Hs by (apply (compile_supported X E 9); destruct X; reflexivity).
  assert (~ too_large m' e' -> forall v, Decodes X E data TF32 v (VF32 (f32_of_f64 (S754_finite s m' e')))) as D.
  { intros NL v. apply (decodes_store X E TF32 (LFloat t)); [exact Hsm|exact Hs|]. apply sto_f32; try assumption; [split; reflexivity|].
    destruct (overflow_f32 _); [exfalso; apply NL, OV; reflexivity|reflexivity]. }
  assert (too_large m' e' -> forall v, Fails X E data TF32 v v) as Fl.
  { intros L v. exists 1%nat, (EOverflow (OvFloat (S754_finite s m' e'))). change data with (text (LFloat t)). remember (text (LFloat t)) as dat eqn:Ed.
    assert (pos dat 0 (text (LFloat t) ++ [])) as Hpos by (exists []; rewrite app_nil_r; auto).
    destruct (float_bytes_float dat 0 t [] Hpos (conj T1 T2)) as (c' & Hbt & _).
    unfold unmarshal. destruct dat as [|b0 dat]; [discriminate Ed|].
    rewrite (compile_scalar X E 0 [] TF32 KF32 (conj eq_refl eq_refl) eq_refl). unfold decode, decode_fuel. rewrite Nat.add_comm. cbn [Nat.add decode_f].
    rewrite (node_of_plain _ TF32 KF32 (conj eq_refl eq_refl)). unfold dec_float, dec_text. rewrite Hbt. unfold process_float.
    rewrite (proj2 (parse_float_some X t _) T3). rewrite (proj2 OV L). reflexivity. }
  split; [|split; [|split; [exact (fun v L => Fl L v)|]]].
  - exists 9%nat. change (ROk (out_float X true f) = ROk data). rewrite out_float_eq. unfold data. rewrite <- Hfmt. reflexivity.
  - intros v. split.
    + intros K. assert (~ too_large m' e') as NL by (intros L; exact (decodes_fails _ _ _ _ _ _ _ K (Fl L v))). split; [exact NL|].
      pose proof (decodes_det _ _ _ _ _ _ _ K (D NL v)) as Q. injection Q as Q. apply (proj1 (twice_rounded s M e m' e' a b Hb R R' NL)). symmetry. exact Q.
    + intros [NL C]. apply (proj2 (twice_rounded s M e m' e' a b Hb R R' NL)) in C. specialize (D NL v). rewrite C in D. exact D.
  - intros v NL Ho Hm. exists (f32_of_f64 (S754_finite s m' e')). split; [|exact (D NL v)].
    intros C. apply (proj1 (twice_rounded s M e m' e' a b Hb R R' NL)) in C. destruct C as [C|C]; [congruence|exact (C Hm)].
Qed.
Print Assumptions C42_float32_exact.

(** A float64 comes back, if strconv writes a number that rounds to it and reads the
    float64 this number rounds to. *)
Theorem C42_float64_exact : forall X E H ord s M e text a b m' e',
  let f := S754_finite s M e in
  let data := bs "d:" ++ text ++ bs ";" in
  small data ->
  x_fmt X (if exponent_form false f then "e"%byte else "f"%byte) false f = text ->
  denotes text s a b -> rounds_to 53 1024 a b M e ->
  x_parse X text = Some (S754_finite s m' e') -> rounds_to 53 1024 a b m' e' ->
  Marshals X E H ord TF64 (HF64 f) data /\ forall v, Decodes X E data TF64 v (VF64 f).
Proof.
  intros X E H ord s M e t a b m' e' f data Hsm Hfmt Hden R Hp R'.
  pose proof (denotes_pos _ _ _ _ Hden) as Hb. destruct (denotes_text _ _ _ _ X _ Hden Hp) as (T1 & T2 & T3).
  destruct (rounds_unique 53 1024 a b M e m' e' ltac:(lia) ltac:(lia) Hb R R') as [<- <-].
  assert (supported X E TF64) as Hs by (apply (compile_supported X E 9); destruct X; reflexivity).
  split.
  - exists 9%nat. change (ROk (out_float X false f) = ROk data). rewrite out_float_eq. unfold data. rewrite <- Hfmt. reflexivity.
  - intros v. apply (decodes_store X E TF64 (LFloat t)); [exact Hsm|exact Hs|]. apply sto_f64; try assumption. split; reflexivity.
Qed.
Print Assumptions C42_float64_exact.
(** 0.1 *)
Example C42_float64_example :
  denotes (bs "0.1") false 1 10 /\ rounds_to 53 1024 1 10 7205759403792794 (-56) /\
  exponent_form false (S754_finite false 7205759403792794 (-56)) = false.
Proof.
  split; [|split; [apply rounds_near; try reflexivity; discriminate|vm_compute; reflexivity]].
  apply (den false (bs "0") (bs "1") [] 0); [split; [discriminate|reflexivity]|reflexivity|constructor|reflexivity|reflexivity].
Qed.

(** The second case occurs: the float32 11420669 * 2^-107 is written 7.038531e-26 and
    read as 11420670 * 2^-107, without an error. *)
Definition odd_one : spec_float := S754_finite false 11420669 (-107).
Theorem C42_double_rounding_refuted : forall X E H ord v,
  x_fmt X "e"%byte true odd_one = bs "7.038531e-26" ->
  x_parse X (bs "7.038531e-26") = Some (S754_finite false 6131425250115584 (-136)) ->
  Marshals X E H ord TF32 (HF32 odd_one) (bs "d:7.038531e-26;") /\
  Decodes X E (bs "d:7.038531e-26;") TF32 v (VF32 (S754_finite false 11420670 (-107))).
Proof.
  intros X E H ord v Hf Hp. destruct X as [fm pa le un uq sl ma]. cbn in Hf, Hp. split.
  - exists 9%nat. change (ROk (serialize (PFloat (fm "e"%byte true odd_one))) = ROk (bs "d:7.038531e-26;")). rewrite Hf. reflexivity.
  - exists 9%nat. cbv -[SFltb SFleb] in Hp. cbv -[SFltb SFleb max_f32 max_f64 f32_of_f64]. rewrite Hp. vm_compute. reflexivity.
Qed.
Print Assumptions C42_double_rounding_refuted.

(** This is how strconv is documented to work.  The text denotes 7038531 / 10^32, which
    rounds to that float32 and to that float64, half way between the two float32s; and
    no number of fewer digits rounds to the float32 (FormatFloat with precision -1
    looks for "the smallest number of digits necessary to represent the value
    uniquely"). *)
Example C42_double_rounding_example :
  exponent_form true odd_one = true /\
  denotes (bs "7.038531e-26") false 7038531 (10 ^ 32) /\
  rounds_to 24 128 7038531 (10 ^ 32) 11420669 (-107) /\
  rounds_to 53 1024 7038531 (10 ^ 32) 6131425250115584 (-136) /\
  midway 11420669 (-107) 6131425250115584 (-136) /\ ~ too_large 6131425250115584 (-136).
Proof.
  split; [vm_compute; reflexivity|]. split.
  { change (bs "7.038531e-26") with ([] ++ bs "7" ++ ("."%byte :: bs "038531") ++ ("e"%byte :: "-"%byte :: bs "26")).
    apply (den false (bs "7") (bs "038531") _ (-26)); [split; [discriminate|reflexivity]|reflexivity| |reflexivity|reflexivity].
    apply (ex_minus (bs "26")). split; [discriminate|reflexivity]. }
  split; [|split; [|split]].
  - apply rounds_near; try reflexivity; discriminate.
  - apply rounds_near; try reflexivity; discriminate.
  - exists (in_units 11420670 (-107)). split; [exists 11420670, (-107); repeat split; vm_compute; discriminate|]. split; [vm_compute; discriminate|vm_compute; reflexivity].
  - vm_compute. discriminate.
Qed.
Example C42_double_rounding_shortest : forall d k, 0 <= d < 10 ^ 6 ->
  ~ rounds_to 24 128 (d * 10 ^ Z.max 0 k) (10 ^ Z.max 0 (- k)) 11420669 (-107).
Proof.
  intros d k Hd R. assert (0 < 10 ^ Z.max 0 (- k)) as Hb by (apply Z.pow_pos_nonneg; lia).
  pose proof (interval _ _ (proj1 R) _ _ Hb R) as [I1 I2].
  destruct (Z_lt_le_dec k (-31)) as [W|W].
  - rewrite (Z.max_l 0 k) in I1 by lia. rewrite (Z.max_r 0 (- k)) in I1 by lia. change (10 ^ 0) with 1 in I1.
    assert (10 ^ 32 <= 10 ^ (- k)) as V by (apply Z.pow_le_mono_r; lia).
    assert (10 ^ 32 * below 11420669 (-107) <= 10 ^ (- k) * below 11420669 (-107)) as V' by (apply Z.mul_le_mono_nonneg_r; [vm_compute; discriminate|exact V]).
    assert (d * 1 * 2 ^ 1200 <= 10 ^ 6 * 2 ^ 1200) as V2 by (apply Z.mul_le_mono_nonneg_r; [vm_compute; discriminate|lia]).
    assert (10 ^ 6 * 2 ^ 1200 < 10 ^ 32 * below 11420669 (-107)) as V3 by (vm_compute; reflexivity). lia.
  - assert (exists n, 10 ^ 31 * (d * 10 ^ Z.max 0 k) = n * 10 ^ Z.max 0 (- k)) as [n Hn].
    { exists (d * 10 ^ (31 + k)). rewrite <- !Z.mul_assoc, <- Z.pow_add_r, (Z.mul_comm (10 ^ 31)), <- Z.mul_assoc, <- Z.pow_add_r by lia. do 2 f_equal. lia. }
    set (a := d * 10 ^ Z.max 0 k) in *. set (b := 10 ^ Z.max 0 (- k)) in *.
    assert (10 ^ 31 * below 11420669 (-107) <= n * 2 ^ 1200) as J1.
    { apply (Z.mul_le_mono_pos_l _ _ b Hb). replace (b * (n * 2 ^ 1200)) with (n * b * 2 ^ 1200) by ring. rewrite <- Hn.
      replace (b * (10 ^ 31 * below 11420669 (-107))) with (10 ^ 31 * (b * below 11420669 (-107))) by ring. rewrite <- Z.mul_assoc. apply Z.mul_le_mono_nonneg_l; [lia|exact I1]. }
    assert (n * 2 ^ 1200 <= 10 ^ 31 * above 11420669 (-107)) as J2.
    { apply (Z.mul_le_mono_pos_l _ _ b Hb). replace (b * (n * 2 ^ 1200)) with (n * b * 2 ^ 1200) by ring. rewrite <- Hn.
      replace (b * (10 ^ 31 * above 11420669 (-107))) with (10 ^ 31 * (b * above 11420669 (-107))) by ring. rewrite <- Z.mul_assoc. apply Z.mul_le_mono_nonneg_l; [lia|exact I2]. }
    clear - J1 J2. assert (703853 * 2 ^ 1200 < 10 ^ 31 * below 11420669 (-107)) as K1 by (vm_compute; reflexivity).
    assert (10 ^ 31 * above 11420669 (-107) < 703854 * 2 ^ 1200) as K2 by (vm_compute; reflexivity).
    assert (703853 < n) by (apply (Z.mul_lt_mono_pos_r (2 ^ 1200)); [vm_compute; reflexivity|eapply Z.lt_le_trans; eassumption]).
    assert (n < 703854) by (apply (Z.mul_lt_mono_pos_r (2 ^ 1200)); [vm_compute; reflexivity|eapply Z.le_lt_trans; eassumption]). lia.
Qed.

(** ** C77 A decimal text is decoded to the float nearest to the number it denotes.

    Throughout, strconv.ParseFloat is assumed to round this text correctly: what it
    returns for it is the float64 nearest to a/b. *)
Definition parsed_right (X : Ext) (t : bytes) (s : bool) (a b : Z) (m : positive) (e : Z) : Prop :=
  denotes t s a b /\ x_parse X t = Some (S754_finite s m e) /\ rounds_to 53 1024 a b m e.

(** true of float64 *)
Theorem C77_float64 : forall X E T t s a b m e v, plain E T KF64 -> small (text (LFloat t)) ->
  parsed_right X t s a b m e -> Decodes X E (text (LFloat t)) T v (VF64 (S754_finite s m e)).
Proof.
  intros X E T t s a b m e v HT Hsm (Hd & Hp & _). destruct (denotes_text _ _ _ _ X _ Hd Hp) as (T1 & T2 & T3).
  apply (decodes_store X E T (LFloat t)); [exact Hsm|exact (compile_supported X E 1 T (compile_scalar X E 0 [] T KF64 HT eq_refl))|]. apply sto_f64; assumption.
Qed.
Print Assumptions C77_float64.

Lemma into_float32 X E T t s a b m e v : plain E T KF32 -> small (text (LFloat t)) -> parsed_right X t s a b m e ->
  (~ too_large m e -> Decodes X E (text (LFloat t)) T v (VF32 (f32_of_f64 (S754_finite s m e)))) /\
  (too_large m e -> Fails X E (text (LFloat t)) T v v).
Proof.
  intros HT Hsm (Hd & Hp & R'). destruct (denotes_text _ _ _ _ X _ Hd Hp) as (T1 & T2 & T3).
  pose proof (overflow_large s m e (proj1 R')) as OV. split.
  - intros NL. apply (decodes_store X E T (LFloat t)); [exact Hsm|exact (compile_supported X E 1 T (compile_scalar X E 0 [] T KF32 HT eq_refl))|]. apply sto_f32; try assumption.
    destruct (overflow_f32 _); [exfalso; apply NL, OV; reflexivity|reflexivity].
  - intros L. exists 1%nat, (EOverflow (OvFloat (S754_finite s m e))). remember (text (LFloat t)) as dat eqn:Ed.
    assert (pos dat 0 (text (LFloat t) ++ [])) as Hpos by (exists []; rewrite app_nil_r; auto).
    destruct (float_bytes_float dat 0 t [] Hpos (conj T1 T2)) as (c' & Hbt & _).
    unfold unmarshal. destruct dat as [|b0 dat]; [discriminate Ed|].
    rewrite (compile_scalar X E 0 [] T KF32 HT eq_refl). unfold decode, decode_fuel. rewrite Nat.add_comm. cbn [Nat.add decode_f].
    rewrite (node_of_plain _ T KF32 HT). unfold dec_float, dec_text. rewrite Hbt. unfold process_float.
    rewrite (proj2 (parse_float_some X t _) T3). rewrite (proj2 OV L). reflexivity.
Qed.

(** A float32 gets the float32 nearest to the float64 nearest to the number ... *)
Theorem C77_float32_twice : forall X E T t s a b m e v, plain E T KF32 -> small (text (LFloat t)) ->
  parsed_right X t s a b m e ->
  let G := in_units (Zpos m) e in
  if in_units (2 ^ 24 - 1) 104 <? G then Fails X E (text (LFloat t)) T v v
  else 2 * G <= in_units 1 (-149) /\ Decodes X E (text (LFloat t)) T v (VF32 (S754_zero s)) \/
       exists M e', rounds_to 24 128 G (2 ^ 1200) M e' /\ Decodes X E (text (LFloat t)) T v (VF32 (S754_finite s M e')).
Proof.
  intros X E T t s a b m e v HT Hsm P G. destruct (into_float32 X E T t s a b m e v HT Hsm P) as [D F].
  destruct (Z.ltb_spec (in_units (2 ^ 24 - 1) 104) G) as [L|L]; [exact (F L)|].
  assert (~ too_large m e) as NL by (unfold too_large; fold G; lia). specialize (D NL). destruct P as (_ & _ & R).
  destruct (nearest32 s m e (proj1 R) NL) as [[Q H]|(M & e' & Q & H)]; rewrite Q in D; [left; auto|right; exists M, e'; auto].
Qed.
Print Assumptions C77_float32_twice.
(** ... which is the one nearest to the number itself except in these cases ... *)
Theorem C77_float32_partial : forall X E T t s a b m e M e' v, plain E T KF32 -> small (text (LFloat t)) ->
  parsed_right X t s a b m e -> rounds_to 24 128 a b M e' ->
  (Decodes X E (text (LFloat t)) T v (VF32 (S754_finite s M e')) <->
   ~ too_large m e /\ (Z.even (Zpos M) = true \/ ~ midway M e' m e)).
Proof.
  intros X E T t s a b m e M e' v HT Hsm P R. destruct (into_float32 X E T t s a b m e v HT Hsm P) as [D F]. destruct P as (Hd & _ & R').
  pose proof (denotes_pos _ _ _ _ Hd) as Hb. split.
  - intros K. assert (~ too_large m e) as NL by (intros L; exact (decodes_fails _ _ _ _ _ _ _ K (F L))). split; [exact NL|].
    pose proof (decodes_det _ _ _ _ _ _ _ K (D NL)) as Q. injection Q as Q. apply (proj1 (twice_rounded s M e' m e a b Hb R R' NL)). symmetry. exact Q.
  - intros [NL C]. apply (proj2 (twice_rounded s M e' m e a b Hb R R' NL)) in C. specialize (D NL). rewrite C in D. exact D.
Qed.
Print Assumptions C77_float32_partial.
(** A number that is nearest to zero becomes zero; as float32 too, to which it is
    then also nearest. *)
Lemma representable_wider x : representable 24 128 x -> representable 53 1024 x.
Proof. intros (m & e & Hm & He & ->). exists m, e. repeat split; lia. Qed.
Theorem C77_zero : forall X E T t s a b v, small (text (LFloat t)) -> denotes t s a b ->
  rounds_to_zero 53 1024 a b -> x_parse X t = Some (S754_zero s) ->
  (plain E T KF64 -> Decodes X E (text (LFloat t)) T v (VF64 (S754_zero s))) /\
  (plain E T KF32 -> Decodes X E (text (LFloat t)) T v (VF32 (S754_zero s))) /\ rounds_to_zero 24 128 a b.
Proof.
  intros X E T t s a b v Hsm Hd R Hp. destruct (denotes_text _ _ _ _ X _ Hd Hp) as (T1 & T2 & T3). split; [|split].
  - intros HT. apply (decodes_store X E T (LFloat t)); [exact Hsm|exact (compile_supported X E 1 T (compile_scalar X E 0 [] T KF64 HT eq_refl))|]. apply sto_f64; assumption.
  - intros HT. change (S754_zero s) with (f32_of_f64 (S754_zero s)).
    apply (decodes_store X E T (LFloat t)); [exact Hsm|exact (compile_supported X E 1 T (compile_scalar X E 0 [] T KF32 HT eq_refl))|]. apply sto_f32; try assumption. destruct s; reflexivity.
  - intros x Hx. exact (R x (representable_wider x Hx)).
Qed.
Print Assumptions C77_zero.
Theorem C77_float32_underflow : forall X E T t s a b m e v, plain E T KF32 -> small (text (LFloat t)) ->
  parsed_right X t s a b m e -> rounds_to_zero 24 128 a b -> Decodes X E (text (LFloat t)) T v (VF32 (S754_zero s)).
Proof.
  intros X E T t s a b m e v HT Hsm P Z0. pose proof (C77_float32_twice X E T t s a b m e v HT Hsm P) as K. cbv zeta in K.
  destruct P as (Hd & _ & B & _ & N). pose proof (denotes_pos _ _ _ _ Hd) as Hb.
  assert (0 <= a) as Ha. { destruct Hd as [? ip fp et k ? ? [_ D1] D2 _ -> _]. apply Z.mul_nonneg_nonneg; [apply num_nonneg; rewrite forallb_app, D1, D2; reflexivity|apply Z.pow_nonneg; lia]. }
  specialize (Z0 (in_units 1 (-149)) ltac:(exists 1, (-149); repeat split; lia)). rewrite Z.mul_0_r, Z.sub_0_r in Z0.
  assert (representable 53 1024 (in_units 1 (-150))) as Rh by (exists 1, (-150); repeat split; lia).
  assert (in_units 1 (-149) = 2 * in_units 1 (-150)) as U by (vm_compute; reflexivity).
  assert (0 < in_units 1 (-150)) as Uh by (vm_compute; reflexivity).
  assert (0 <= a * 2 ^ 1200) as HA by (apply Z.mul_nonneg_nonneg; [exact Ha|vm_compute; discriminate]).
  assert (in_units 1 (-150) < in_units (2 ^ 24 - 1) 104) as UM by (vm_compute; reflexivity).
  rewrite U in *. set (h := in_units 1 (-150)) in *. set (A := a * 2 ^ 1200) in *. set (G := in_units (Zpos m) e) in *.
  assert (A <= b * h) as Hh by nia.
  assert (G <= h) as HG.
  { destruct (Z.le_gt_cases G h) as [L|L]; [exact L|exfalso]. assert (h <> G) as Ne by lia. specialize (N h Rh Ne).
    assert (b * h < b * G) by (apply Z.mul_lt_mono_pos_l; lia). lia. }
  destruct (Z.ltb_spec (in_units (2 ^ 24 - 1) 104) G) as [L|_]; [exfalso; lia|].
  destruct K as [[_ K]|(M & e' & R & K)]; [exact K|exfalso]. destruct R as (B' & _ & R).
  destruct (bounded_gen 24 128 M e' ltac:(lia) B') as (M1 & HE & _).
  assert (in_units 1 (-149) <= in_units (Zpos M) e') as HM.
  { unfold in_units. apply Z.mul_le_mono_nonneg; [lia|lia|lia|apply Z.pow_le_mono_r; lia]. }
  rewrite U in HM. fold h in HM. set (F := in_units (Zpos M) e') in *.
  assert (0 <> F) as Ne by lia. specialize (R 0 ltac:(exists 0, (-149); repeat split; lia) Ne).
  assert (0 < 2 ^ 1200) as P1 by (vm_compute; reflexivity). assert (0 <= G) as G0 by (unfold G, in_units; apply Z.mul_nonneg_nonneg; [lia|apply Z.pow_nonneg; lia]).
  rewrite Z.mul_0_r, Z.sub_0_r, (Z.mul_comm G), <- Z.mul_sub_distr_l, !Z.abs_mul in R. rewrite (Z.abs_eq (2 ^ 1200)) in R by (apply Z.lt_le_incl; exact P1).
  rewrite (Z.abs_eq G) in R by exact G0. set (u := 2 ^ 1200) in *. clearbody u.
  assert (Z.abs (G - F) < G \/ Z.abs (G - F) = G /\ Z.even (Zpos M) = true) as R'.
  { destruct R as [R|[R Ev]]; [left; apply (Z.mul_lt_mono_pos_l u); assumption|right; split; [apply (Z.mul_reg_l _ _ u); [lia|exact R]|exact Ev]]. }
  destruct R' as [R'|[R' Ev]]; [lia|]. assert (F = 2 * h) as HF by lia. rewrite <- U in HF. unfold F in HF.
  destruct (Z.eq_dec e' (-149)) as [->|Ne'].
  - unfold in_units in HF. apply Z.mul_reg_r in HF; [|vm_compute; discriminate]. injection HF as ->. discriminate Ev.
  - assert (in_units 1 (-148) <= in_units (Zpos M) e') as C.
    { unfold in_units. apply Z.mul_le_mono_nonneg; [lia|lia|lia|apply Z.pow_le_mono_r; lia]. }
    rewrite HF in C. revert C. vm_compute. intros C. apply C. reflexivity.
Qed.
Print Assumptions C77_float32_underflow.
Theorem C77_float32_overflow : forall X E T t s a b m e v, plain E T KF32 -> small (text (LFloat t)) ->
  parsed_right X t s a b m e -> rounds_to_infinity 24 128 a b -> Fails X E (text (LFloat t)) T v v.
Proof.
  intros X E T t s a b m e v HT Hsm P I. apply (proj2 (into_float32 X E T t s a b m e v HT Hsm P)). destruct P as (Hd & _ & B & _ & N). pose proof (denotes_pos _ _ _ _ Hd) as Hb.
  unfold rounds_to_infinity in I. change (2 ^ (24 + 1) - 1) with (2 ^ 25 - 1) in I. change (128 - 24) with 104 in I. unfold too_large.
  assert (representable 53 1024 (in_units (2 ^ 25 - 1) 103)) as Rh by (exists (2 ^ 25 - 1), 103; repeat split; lia).
  assert (in_units (2 ^ 25 - 1) 104 = 2 * in_units (2 ^ 25 - 1) 103) as U by (vm_compute; reflexivity). rewrite U in I.
  assert (in_units (2 ^ 24 - 1) 104 < in_units (2 ^ 25 - 1) 103) as UM by (vm_compute; reflexivity).
  set (h := in_units (2 ^ 25 - 1) 103) in *. set (A := a * 2 ^ 1200) in *. set (G := in_units (Zpos m) e) in *. set (top := in_units (2 ^ 24 - 1) 104) in *.
  clearbody h A G top. destruct (Z.le_gt_cases h G) as [L|L]; [lia|exfalso]. specialize (N h Rh ltac:(lia)).
  assert (b * G < b * h) by (apply Z.mul_lt_mono_pos_l; lia). lia.
Qed.
Print Assumptions C77_float32_overflow.
(** A number too large for a float64 is an error: strconv says so.  It is also too
    large for a float32. *)
Lemma too_large_for_both a b : 0 < b -> rounds_to_infinity 53 1024 a b -> rounds_to_infinity 24 128 a b.
Proof.
  intros Hb. unfold rounds_to_infinity. intros H. eapply Z.le_trans; [|exact H]. apply Z.mul_le_mono_nonneg_l; [lia|]. vm_compute. discriminate.
Qed.
Theorem C77_infinity : forall X E T t s a b v, small (text (LFloat t)) -> denotes t s a b ->
  rounds_to_infinity 53 1024 a b -> x_parse X t = None -> plain E T KF64 \/ plain E T KF32 ->
  Fails X E (text (LFloat t)) T v v /\ rounds_to_infinity 24 128 a b.
Proof.
  intros X E T t s a b v Hsm Hd R Hp HT. split; [|exact (too_large_for_both a b (denotes_pos _ _ _ _ Hd) R)].
  destruct (denotes_plain _ _ _ _ Hd) as (T1 & T2 & T3).
  exists 1%nat. remember (text (LFloat t)) as dat eqn:Ed. assert (pos dat 0 (text (LFloat t) ++ [])) as Hpos by (exists []; rewrite app_nil_r; auto).
  destruct (float_bytes_float dat 0 t [] Hpos (conj T1 T2)) as (c' & Hbt & _). exists (ESyntax c' (WFloat t)).
  assert (parse_float X t = None) as Hpf.
  { destruct (parse_float X t) as [f|] eqn:Q; [|reflexivity]. exfalso. apply parse_float_some in Q.
    destruct Q as [[Q _]|[[Q _]|[[Q _]|(_ & _ & _ & Q)]]]; [apply T3; left; symmetry; exact Q|apply T3; right; left; symmetry; exact Q|apply T3; right; right; left; symmetry; exact Q|congruence]. }
  unfold unmarshal. destruct dat as [|b0 dat]; [discriminate Ed|].
  destruct HT as [HT|HT]; [rewrite (compile_scalar X E 0 [] T KF64 HT eq_refl)|rewrite (compile_scalar X E 0 [] T KF32 HT eq_refl)];
    unfold decode, decode_fuel; rewrite Nat.add_comm; cbn [Nat.add decode_f]; rewrite (node_of_plain _ T _ HT); unfold dec_float, dec_text;
    rewrite Hbt; unfold process_float; rewrite Hpf; reflexivity.
Qed.
Print Assumptions C77_infinity.
Lemma den' (s : bool) t ip fp et k a b :
  t = (if s then ["-"%byte] else []) ++ ip ++ (match fp with [] => [] | _ => "."%byte :: fp end) ++ et ->
  numeral ip -> forallb is_digit fp = true -> exponent et k ->
  a = num (ip ++ fp) * 10 ^ Z.max 0 (k - blen fp) -> b = 10 ^ Z.max 0 (blen fp - k) -> denotes t s a b.
Proof. intros ->. apply den. Qed.
Example C77_example_extremes : denotes (bs "1e-400") false 1 (10 ^ 400) /\ denotes (bs "1e+400") false (10 ^ 400) 1 /\
  rounds_to_zero 53 1024 1 (10 ^ 400) /\ rounds_to_infinity 53 1024 (10 ^ 400) 1.
Proof.
  split; [|split; [|split]].
  - apply (den' false _ (bs "1") [] (bs "e-400") (-400)); [reflexivity|split; [discriminate|reflexivity]|reflexivity| |vm_compute; reflexivity|vm_compute; reflexivity].
    change (-400) with (- num (bs "400")). apply (ex_minus (bs "400")). split; [discriminate|reflexivity].
  - apply (den' false _ (bs "1") [] (bs "e+400") 400); [reflexivity|split; [discriminate|reflexivity]|reflexivity| |vm_compute; reflexivity|vm_compute; reflexivity].
    change 400 with (num (bs "400")). apply (ex_plus (bs "400")). split; [discriminate|reflexivity].
  - intros x (m & e & Hm & He & ->). rewrite Z.mul_0_r, Z.sub_0_r. destruct (Z.eq_dec m 0) as [->|N]; [unfold in_units; rewrite Z.mul_0_l, Z.mul_0_r, Z.sub_0_r; apply Z.le_refl|].
    assert (2 ^ 126 <= in_units m e) as L.
    { unfold in_units. change (2 ^ 126) with (1 * 2 ^ 126). apply Z.mul_le_mono_nonneg; [lia|lia|lia|apply Z.pow_le_mono_r; lia]. }
    assert (10 ^ 400 * 2 ^ 126 <= 10 ^ 400 * in_units m e) as K by (apply Z.mul_le_mono_nonneg_l; [vm_compute; discriminate|exact L]).
    assert (2 * (1 * 2 ^ 1200) <= 10 ^ 400 * 2 ^ 126) as K2 by (vm_compute; discriminate).
    assert (0 <= 1 * 2 ^ 1200) as K0 by (vm_compute; discriminate).
    set (A := 1 * 2 ^ 1200) in *. set (B := 10 ^ 400 * 2 ^ 126) in *. set (C := 10 ^ 400 * in_units m e) in *. clearbody A B C. lia.
  - vm_compute. discriminate.
Qed.
(** ... which occur. *)
Theorem C77_float32_refuted : exists t a b m e M e', rounds_to 24 128 a b M e' /\ Z.even (Zpos M) = false /\
  forall X E v, parsed_right X t false a b m e ->
  Decodes X E (text (LFloat t)) TF32 v (VF32 (S754_finite false (M + 1) e')) /\
  ~ Decodes X E (text (LFloat t)) TF32 v (VF32 (S754_finite false M e')).
Proof.
  exists (bs "7.038531e-26"), 7038531, (10 ^ 32), 6131425250115584%positive, (-136), 11420669%positive, (-107).
  destruct C42_double_rounding_example as (_ & _ & R & _ & Mi & NL). split; [exact R|]. split; [reflexivity|]. intros X E v P.
  assert (plain E TF32 KF32) as HT by (split; reflexivity). assert (small (text (LFloat (bs "7.038531e-26")))) as Hsm by (vm_compute; reflexivity). split.
  - exact (proj1 (into_float32 X E TF32 _ _ _ _ _ _ v HT Hsm P) NL).
  - intros K. apply (C77_float32_partial X E TF32 _ _ _ _ _ _ _ _ v HT Hsm P R) in K. destruct K as [_ [K|K]]; [discriminate K|exact (K Mi)].
Qed.
Print Assumptions C77_float32_refuted.
Example C77_example : let X := {| x_fmt := x_fmt Xd; x_parse := fun t => if bytes_eqb t (bs "7.038531e-26") then Some (S754_finite false 6131425250115584 (-136)) else None;
    x_letter := x_letter Xd; x_unmarshal := x_unmarshal Xd; x_unquote := x_unquote Xd; x_slots := x_slots Xd; x_marshal := x_marshal Xd; x_addr := x_addr Xd |} in
  parsed_right X (bs "7.038531e-26") false 7038531 (10 ^ 32) 6131425250115584 (-136).
Proof.
  destruct C42_double_rounding_example as (_ & D & _ & R & _). split; [exact D|]. split; [reflexivity|exact R].
Qed.
