(** What type errors say (C62). *)
From Coq Require Import Strings.String Strings.Byte ZArith List Bool Lia Floats.SpecFloat.
From Verif Require Import Base GoTypes Strconv Tags Scan Decode Unmarshal Grammar Denote Typing Api SoundT CompileFacts UnmFacts Offsets OffsetFacts Context ContextFacts Names NameDecode NameFacts NamePlace NameSound Demo Props5 Props19.
Import ListNotations.
Open Scope Z_scope.

(** ** C62 A type error says what was found where.

    When all that stands before a value has been accepted, and the data there
    does not fit the type of the place, the error that [Unmarshal] returns gives
    the place in the input, the data, the type that was expected there, and the
    names of the innermost struct type around the place and of its field.  All
    before it has been stored.  (Partial: [mismatch] lists two kinds of places for
    which the names are not those, see [C62_uint_refuted] and
    [C62_recursive_refuted].) *)
Theorem C62_place_partial : forall X Q E T v pre A d t old put rest off det w,
  supported X E T -> small (pre ++ rest) ->
  site X E (r_name Q) nowhere 0 T v pre A d t old put ->
  mismatch X E (r_name Q) (r_string Q) A d t old rest off det w ->
  exists cf, unmarshal_n X Q E cf (pre ++ rest) (TgPtr T v) = (put w, RErr (ETypeAt (blen pre + off) det)).
Proof.
  intros X Q E T v pre A d t old put rest off det w Hs Hsm Hsi Hm.
  apply (compile_iff X E T) in Hs as [cf Hcf]. exists cf.
  pose proof (site_mismatch X Q E T v pre A d t old put rest off det w Hsm Hsi Hm) as H.
  unfold unmarshal_n. rewrite Hcf, H. destruct (pre ++ rest) eqn:En; [|reflexivity].
  exfalso. apply app_eq_nil in En as [_ ->]. apply (mismatch_some _ _ _ _ _ _ _ _ _ _ _ _ Hm eq_refl).
Qed.
Print Assumptions C62_place_partial.

(** No error of [Unmarshal] is about a place that the destination does not have:
    the names in it are those of a field that it has or may have inside, and of
    the type of the struct of that field, and the type in it is that of such a
    place.  And an error of a user's method is passed on, as it is or with the
    names of such a place filled in. *)
Theorem C62_explained : forall X Q E cf data T v w e,
  unmarshal_n X Q E cf data (TgPtr T v) = (w, RErr e) ->
  explained X E (r_name Q) (r_string Q) T (r_error Q) e.
Proof.
  intros X Q E cf data T v w e H. unfold unmarshal_n in H.
  destruct data as [|b data']; [injection H as _ <-; exact I|]. set (data := b :: data') in *.
  pose proof (quiet_compile X E cf [] T) as Hq. destruct (compile_f X E cf [] T) as [[]|e'|p|]; [|injection H as _ <-|discriminate H|discriminate H].
  - pose proof (decode_explained X Q E T data (decode_fuel data) ([], []) [] T 0 0 v ltac:(apply na_top) ltac:(intros id nm [])) as Hs.
    unfold decode_n in H. destruct (decode_n_f X Q E (decode_fuel data) ([], []) [] T data 0 0 v) as [v' r].
    injection H as _ H. destruct r as [c|e'|p|]; cbn [bind] in H; try discriminate H.
    + unfold validate_end in H. destruct (blen data =? c); [discriminate H|]. pose proof (quiet_rd data c) as Hrd.
      destruct (rd data c) as [x|e'|p|]; cbn [bind] in H; try discriminate H; injection H as <-; [exact I|]. destruct e'; try exact I; destruct Hrd.
    + injection H as <-. exact Hs.
  - destruct e'; try exact I; destruct Hq.
Qed.
Print Assumptions C62_explained.

(** The rest of what [Unmarshal] does is what all the other theorems say of it. *)
Theorem C62_same : forall X Q E cf data tg, small data ->
  unmarshal X E cf data tg = (fst (unmarshal_n X Q E cf data tg), forget_r (snd (unmarshal_n X Q E cf data tg))).
Proof.
  intros X Q E cf data tg Hsm. unfold unmarshal, unmarshal_n. destruct data as [|b data']; [reflexivity|]. set (data := b :: data') in *.
  destruct tg as [| | |T v]; try reflexivity.
  pose proof (quiet_compile X E cf [] T) as Hq. destruct (compile_f X E cf [] T) as [[]|e'|p|]; try reflexivity;
    [|destruct e'; try reflexivity; destruct Hq].
  unfold decode_n, decode. pose proof (decode_like X Q E data (decode_fuel data) ([], []) [] T 0 0 v) as [L1 L2].
  pose proof (decode_offsets data Hsm X E (decode_fuel data) T 0 0 v ltac:(unfold within, blen; lia)) as g. unfold GD in g.
  destruct (decode_f X E (decode_fuel data) T data 0 0 v) as [v1 r1], (decode_n_f X Q E (decode_fuel data) ([], []) [] T data 0 0 v) as [v2 r2].
  cbn [fst snd] in *. subst v2. destruct r1 as [c|e|p|], r2 as [c2|e2|p2|]; cbn [like] in L2; try contradiction; cbn [bind forget_r fst snd].
  - subst c2. unfold validate_end. destruct (blen data =? c); [reflexivity|]. pose proof (quiet_rd data c) as Hrd.
    destruct (rd data c) as [x|e'|p|]; cbn [bind forget_r]; try reflexivity. destruct e'; try reflexivity; destruct Hrd.
  - cbn [G] in g. unfold strip in L2. unfold located in g. destruct e; try contradiction; destruct e2; cbn [forget]; congruence.
  - congruence.
  - reflexivity.
Qed.
Print Assumptions C62_same.

(** *** Where the names are not those of the place *)

(** 0: type Counter struct { C uint }; 1: type List struct { Next *List };
    2: type Owner struct { Head List };  3: type Loud int, with UnmarshalPHP;
    4: type Box struct { L Loud } *)
Definition En : env := [
  Decl (UStruct [Field (bs "C") true false [] (TUint UUint)]) NoMethod false;
  Decl (UStruct [Field (bs "Next") true false [] (TPtr (TName 1))]) NoMethod false;
  Decl (UStruct [Field (bs "Head") true false [] (TName 1)]) NoMethod false;
  Decl (UTy (TInt IInt)) NoMethod true;
  Decl (UStruct [Field (bs "L") true false [] (TName 3)]) NoMethod false ].
Definition Qn : Rtti := {|
  r_name := fun n => nth n [bs "Counter"; bs "List"; bs "Owner"; bs "Loud"; bs "Box"] [];
  r_string := fun t => match t with TInt IInt => bs "int" | TUint UUint => bs "uint" | TString => bs "string" | _ => bs "?" end;
  r_error := fun _ _ _ => UeType 7 (Detail (bs "text") TString (bs "Inner") (bs "Part")) |}.
Definition Xn : Ext := {| x_fmt := x_fmt Xd; x_parse := x_parse Xd; x_letter := x_letter Xd; x_unmarshal := fun n b v => (v, false);
  x_unquote := x_unquote Xd; x_slots := x_slots Xd; x_marshal := x_marshal Xd; x_addr := x_addr Xd |}.

Definition fields_n (n : nat) : list field := match nth_error En n with Some (Decl (UStruct fs) _ _) => fs | _ => [] end.
(** the text of a key *)
Definition key (n s : string) : bytes := text (LStr (bs n) (bs s)).

(** An unsigned integer: the error does not say that it is about a field. *)
Theorem C62_uint_refuted : exists v pre A d old put rest,
  site Xn En (r_name Qn) nowhere 0 (TName 0) v pre A d (TUint UUint) old put /\
  unmarshal_n Xn Qn En 9 (pre ++ rest) (TgPtr (TName 0) v) =
    (v, RErr (ETypeAt (blen pre + 5) (Detail (bs "number -1") (TUint UUint) [] []))) /\
  (in_struct A, in_field A) = (bs "Counter", bs "C").
Proof.
  exists (zero En (TName 0)), (opening (LArr (bs "1") []) ++ entries [] ++ key "1" "C" ++ []), (Around (bs "Counter") (bs "C") [0%nat]), 1, (VUint 0).
  eexists. exists (bs "i:-1;}"). split; [|split; [vm_compute; reflexivity|reflexivity]].
  eapply (si_field Xn En (r_name Qn) nowhere 0 (TName 0) 0 (fields_n 0)) with (k := bs "C") (l' := [VUint 0]) (old := VUint 0); try reflexivity.
  - split; reflexivity.
  - constructor.
  - split; [discriminate|reflexivity].
  - apply ste_nil.
  - constructor. split; [split; [discriminate|reflexivity]|reflexivity].
  - apply si_here.
Qed.
Print Assumptions C62_uint_refuted.

(** A key of a struct inside of another struct of its type: the error names the
    field that the outer one is in. *)
Theorem C62_recursive_refuted : exists v pre A d put rest w,
  site Xn En (r_name Qn) nowhere 0 (TName 2) v pre A d (TPtr (TName 1)) (VPtr None) put /\
  unmarshal_n Xn Qn En 9 (pre ++ bs "a:1:{" ++ rest) (TgPtr (TName 2) v) =
    (put w, RErr (ETypeAt (blen pre + 5) (Detail (bs "number") TString (bs "Owner") (bs "Head")))) /\
  (in_struct A, in_field A) = (bs "List", bs "Next").
Proof.
  exists (zero En (TName 2)), (opening (LArr (bs "1") []) ++ entries [] ++ key "4" "Head" ++ (opening (LArr (bs "1") []) ++ entries [] ++ key "4" "Next" ++ [])),
    (Around (bs "List") (bs "Next") [1%nat; 2%nat]), 2.
  eexists. exists (bs "i:0;N;}}}"), (VPtr (Some (zero En (TName 1)))). split; [|split].
  1:{ eapply (si_field Xn En (r_name Qn) nowhere 0 (TName 2) 2 (fields_n 2)) with (k := bs "Head") (l' := [VStruct [VPtr None]]) (old := VStruct [VPtr None]); try reflexivity.
  - split; reflexivity.
  - constructor.
  - split; [discriminate|reflexivity].
  - apply ste_nil.
  - constructor. split; [split; [discriminate|reflexivity]|reflexivity].
  - eapply (si_field Xn En (r_name Qn) _ 1 (TName 1) 1 (fields_n 1)) with (k := bs "Next") (l' := [VPtr None]) (old := VPtr None); try reflexivity.
    + split; reflexivity.
    + constructor.
    + split; [discriminate|reflexivity].
    + apply ste_nil.
    + constructor. split; [split; [discriminate|reflexivity]|reflexivity].
    + apply si_here. }
  - vm_compute. reflexivity.
  - reflexivity.
Qed.
Print Assumptions C62_recursive_refuted.

(** The error of an UnmarshalPHP method: what it says about the place in the data
    that the method was looking at is lost. *)
Theorem C62_method_refuted :
  r_error Qn 3 (bs "i:5;") (VInt 0) = UeType 7 (Detail (bs "text") TString (bs "Inner") (bs "Part")) /\
  unmarshal_n Xn Qn En 9 (bs "a:1:{s:1:""L"";i:5;}") (TgPtr (TName 4) (zero En (TName 4))) =
    (zero En (TName 4), RErr (EUserAt (UeType 7 (Detail (bs "text") TString (bs "Box") (bs "L"))))).
Proof. split; [reflexivity|vm_compute; reflexivity]. Qed.
Print Assumptions C62_method_refuted.

(** A number too large for the "a" of the "Next" of a Node (cf. [C61_example]) *)
Definition Qd : Rtti := {| r_name := fun n => match n with O => bs "Node" | _ => [] end; r_string := r_string Qn; r_error := r_error Qn |}.
Definition large : bytes := bs "i:9223372036854775808;}}".
Definition told : detail := Detail (bs "number 9223372036854775808") (TInt IInt) (bs "Node") (bs "A").
Example C62_example : exists A d put,
  supported Xd Ed (TName 0) /\ small (before ++ large) /\
  site Xd Ed (r_name Qd) nowhere 0 (TName 0) (zero Ed (TName 0)) before A d (TInt IInt) (VInt 0) put /\
  mismatch Xd Ed (r_name Qd) (r_string Qd) A d (TInt IInt) (VInt 0) large 22 told (VInt 0) /\
  put (VInt 0) = holds_7 (VInt 0) /\
  unmarshal_n Xd Qd Ed 9 (before ++ large) (TgPtr (TName 0) (zero Ed (TName 0))) = (holds_7 (VInt 0), RErr (ETypeAt 63 told)) /\
  type_error_message Qd 63 told =
    bs "php-serialize: cannot unmarshal number 9223372036854775808 into Go struct field Node.A of type int (offset 63)".
Proof.
  exists (Around (bs "Node") (bs "A") [0%nat; 0%nat]), 2. eexists. split.
  { eapply supported_inside; [exact node_supported|]. eapply in_step; [apply in_refl|]. eapply co_ptr. split; reflexivity. }
  split; [reflexivity|]. split.
  { change before with (opening (LArr (bs "2") [(LStr (bs "1") (bs "a"), LInt (bs "7"))]) ++
      entries [(LStr (bs "1") (bs "a"), LInt (bs "7"))] ++ text (LStr (bs "4") (bs "Next")) ++
      (opening (LArr (bs "1") []) ++ entries [] ++ text (LStr (bs "1") (bs "a")) ++ [])).
    eapply (si_field Xd Ed (r_name Qd) nowhere 0 (TName 0) 0 node_fs) with (k := bs "Next") (l' := [VInt 7; VStr []; VPtr None; VInt 0; VSlice None]) (old := VPtr None); try reflexivity.
    - split; reflexivity.
    - constructor.
    - split; [discriminate|reflexivity].
    - eapply ste_known with (k := bs "a") (v := VInt 7); try reflexivity; [constructor; split; [split; [discriminate|reflexivity]|reflexivity]| |apply ste_nil].
      apply (sto_int Xd Ed 1 (TInt IInt) IInt (bs "7") 7); [split; reflexivity| |]; [apply it_pos; split; [discriminate|reflexivity]|vm_compute; split; congruence].
    - constructor. split; [split; [discriminate|reflexivity]|reflexivity].
    - apply si_ptr with (t := TName 0); [split; reflexivity|reflexivity|discriminate|].
      eapply (si_field Xd Ed (r_name Qd) _ 1 (TName 0) 0 node_fs) with (k := bs "a") (l' := [VInt 0; VStr []; VPtr None; VInt 0; VSlice None]) (old := VInt 0); try reflexivity.
      + split; reflexivity.
      + constructor.
      + split; [discriminate|reflexivity].
      + apply ste_nil.
      + constructor. split; [split; [discriminate|reflexivity]|reflexivity].
      + apply si_here. }
  assert (int_text (bs "9223372036854775808") 9223372036854775808) as Ht by (apply it_pos; split; [discriminate|reflexivity]).
  split.
  { set (A := Around _ _ _). change large with (text (LInt (bs "9223372036854775808")) ++ bs "}}"). change 22 with (blen (text (LInt (bs "9223372036854775808")))).
    change told with (says A (bs "number " ++ bs "9223372036854775808") (TInt IInt)).
    apply (mm_int Xd Ed (r_name Qd) (r_string Qd) _ 2 (TInt IInt) IInt (VInt 0) (bs "9223372036854775808") 9223372036854775808 (bs "}}")); [split; reflexivity|exact Ht|].
    intros z Hz. assert (z = 9223372036854775808) as -> by (inversion Hz; subst; vm_compute; reflexivity). vm_compute. intros [_ Q]. apply Q. reflexivity. }
  split; [reflexivity|]. split; vm_compute; reflexivity.
Qed.
