(** The tests of the repository, run on the model.

    These are no proofs of properties.  They are here to show that the model is
    one of this code: the tests of /repo that check what Marshal, Unmarshal and
    the functions behind them return, with the results expected there.
    Written by tools/repotests.py. *)
From Coq Require Import Strings.String Strings.Byte ZArith List Bool Floats.SpecFloat.
From Verif Require Import Base GoTypes Strconv Tags Scan Decode Unmarshal Memory EncCompile Encode.
Import ListNotations.
Open Scope Z_scope.

Definition pi : spec_float := S754_finite false 7070651414971679 (-51).
Definition minus_pi : spec_float := S754_finite true 7070651414971679 (-51).
Definition pi32 : spec_float := S754_finite false 13170115 (-22).
Definition minus_pi32 : spec_float := S754_finite true 13170115 (-22).
Definition f354 : spec_float := S754_finite false 7971371340445778 (-51).
Definition f45 : spec_float := S754_finite false 5066549580791808 (-50).
Definition minus_f45 : spec_float := S754_finite true 5066549580791808 (-50).
Definition f15 : spec_float := S754_finite false 6755399441055744 (-52).
Definition tiny : spec_float := S754_finite false 7555786372591432 (-76).
Definition tiny32 : spec_float := S754_finite false 14073749 (-47).
Definition huge : spec_float := S754_finite false 7629394531250000 17.
Definition googol : spec_float := S754_finite false 5147557589468029 280.
Definition f35 : spec_float := S754_finite false 14680064 (-22).
Definition one : spec_float := S754_finite false 4503599627370496 (-52).
Definition large : spec_float := S754_finite false 4961102261649408 (-25).
Definition same_float (a b : spec_float) : bool :=
  match SFcompare a b with Some Eq => true | _ => false end.
(** What strconv does with the numbers in the tests; a MarshalPHP method that
    writes its string, and UnmarshalPHP methods that keep their argument. *)
Definition X0 : Ext := {|
  x_fmt := fun _ _ x =>
    if same_float x pi then bs "3.14" else if same_float x minus_pi then bs "-3.14"
    else if same_float x pi32 then bs "3.14" else if same_float x minus_pi32 then bs "-3.14"
    else if same_float x f354 then bs "3.54" else if same_float x f35 then bs "3.5" else if same_float x f45 then bs "4.5"
    else if same_float x minus_f45 then bs "-4.5" else if same_float x tiny then bs "1e-07"
    else if same_float x tiny32 then bs "1e-07" else if same_float x huge then bs "1e+21"
    else if same_float x (S754_zero false) then bs "0" else bs "1";
  x_parse := fun b =>
    if bytes_eqb b (bs "3.14") then Some pi else if bytes_eqb b (bs "-3.14") then Some minus_pi
    else if bytes_eqb b (bs "3.5") then Some f35 else if bytes_eqb b (bs "4.5") then Some f45
    else if bytes_eqb b (bs "-4.5") then Some minus_f45 else if bytes_eqb b (bs "1.5") then Some f15
    else if bytes_eqb b (bs "1e100") then Some googol
    else if bytes_eqb b (bs "1") then Some one else if bytes_eqb b (bs "147852369") then Some large
    else if bytes_eqb b (bs "INF") then Some (S754_infinity false) else if bytes_eqb b (bs "-INF") then Some (S754_infinity true)
    else if bytes_eqb b (bs "NAN") then Some S754_nan else None;
  x_letter := fun r => (12288 <=? r)%N;
  x_unmarshal := fun n b v => match v with VStr _ => (VStr b, true) | VBool _ => (v, false) | _ => (vbytes b, true) end;
  x_unquote := fun _ => None;
  x_slots := fun _ n => n <? 2 ^ 40;
  x_marshal := fun _ _ _ v => match v with HStruct [HStr s] => ROk (out_string s) | HStruct [HBool false] => ROk (bs "i:7;") | _ => RErr EUser end;
  x_addr := fun p => match p with ACell o i => 4096 * Z.of_nat o + Z.of_nat i | AMap o => 4096 * Z.of_nat o end |}.
Definition in_order (n : nat) (m : list (hval * hval)) : list (hval * hval) := m.
Definition fld (name tag : string) (t : gty) : field := Field (bs name) true false (bs tag) t.

Definition is_error {A} (r : R A) : bool := match r with RErr _ => true | _ => false end.

(** var v T; err := Unmarshal(data, &v) *)
Definition reads (E : env) (t : gty) (data : bytes) (v : gval) : Prop :=
  unmarshal X0 E 30 data (TgPtr t (zero E t)) = (v, ROk tt).
Definition accepts (E : env) (t : gty) (data : bytes) : Prop := exists v, reads E t data v.
Definition refused (E : env) (t : gty) (data : bytes) : bool :=
  match snd (unmarshal X0 E 30 data (TgPtr t (zero E t))) with RErr _ => true | _ => false end.
Definition refuses (E : env) (t : gty) (data : bytes) : Prop := refused E t data = true.
(** b, err := Marshal(v) *)
Definition writes (E : env) (H : heap) (t : gty) (v : hval) (b : bytes) : Prop :=
  snd (marshal X0 E H in_order 40 st0 (Some (t, v))) = ROk b.
Definition failed (E : env) (H : heap) (fuel : nat) (t : gty) (v : hval) : bool :=
  match snd (marshal X0 E H in_order fuel st0 (Some (t, v))) with RErr _ => true | _ => false end.
Definition fails (E : env) (H : heap) (t : gty) (v : hval) : Prop := failed E H 40 t v = true.
(** these fail from the 1001st level on only *)
Definition fails_deep (E : env) (H : heap) (t : gty) (v : hval) : Prop := failed E H (Z.to_nat 4100) t v = true.
Ltac run := first [vm_compute; reflexivity | eexists; vm_compute; reflexivity].

(** tests/unmarshal_test.go:11-25 TestUnmarshal_as_string *)
Example test_001 : reads [Decl (UStruct [fld "V" ",omitempty,string" (TPtr (TInt IInt))]) NoMethod false] (TName 0) (bs "a:1:{s:1:""V"";s:1:""1"";}") (VStruct [(VPtr (Some (VInt (1))))]).
Proof. run. Qed.

(** tests/unmarshal_test.go:27-54 TestUnmarshal_struct_string *)
Example test_002 : reads [Decl (UStruct [fld "F" "f1q" TString; fld "V" "1a9" TBool]) NoMethod false] (TName 0) (bs "a:1:{s:3:""f1q"";s:10:""0147852369"";}") (VStruct [(VStr (bs "0147852369")); (VBool false)]).
Proof. run. Qed.
Example test_003 : reads [Decl (UStruct [fld "F" "f" TString]) NoMethod false] (TName 0) (bs "a:0:{}") (VStruct [(VStr (bs ""))]).
Proof. run. Qed.

(** tests/unmarshal_test.go:56-90 TestUnmarshal_stdClass *)
Example test_004 : reads [Decl (UStruct [fld "A" "a" TString]) NoMethod false] (TName 0) (bs "O:8:""stdClass"":1:{s:1:""a"";s:13:""a str value q"";}") (VStruct [(VStr (bs "a str value q"))]).
Proof. run. Qed.
Example test_005 : reads [] TAny (bs "O:8:""stdClass"":1:{s:1:""a"";s:13:""a str value q"";}") (VIface (Some ((TMap TString TAny), (VMap (Some [((VStr (bs "a")), (VIface (Some (TString, (VStr (bs "a str value q"))))))]))))).
Proof. run. Qed.
Example test_006 : reads [Decl (UStruct [fld "Value" "value" TBool]) NoMethod false] (TName 0) (bs "a:2:{s:1:""a"";O:8:""stdClass"":1:{s:1:""a"";s:13:""a str value q"";}s:5:""value"";b:1;}") (VStruct [(VBool true)]).
Proof. run. Qed.

(** tests/unmarshal_test.go:92-118 TestUnmarshal_struct_bytes *)
Example test_007 : reads [Decl (UStruct [fld "F" "f1q" (TSlice (TUint U8))]) NoMethod false] (TName 0) (bs "a:1:{s:3:""f1q"";s:10:""0147852369"";}") (VStruct [(vbytes (bs "0147852369"))]).
Proof. run. Qed.
Example test_008 : reads [Decl (UStruct [fld "F" "f" (TSlice (TUint U8))]) NoMethod false] (TName 0) (bs "a:0:{}") (VStruct [(VSlice None)]).
Proof. run. Qed.

(** tests/unmarshal_test.go:120-179 TestUnmarshal_struct_float *)
Example test_009 : reads [Decl (UStruct [fld "F" "f" TF64]) NoMethod false] (TName 0) (bs "a:1:{s:1:""f"";d:3.14;}") (VStruct [(VF64 pi)]).
Proof. run. Qed.
Example test_010 : reads [Decl (UStruct [fld "F" "f" TF64]) NoMethod false] (TName 0) (bs "a:1:{s:1:""f"";d:1;}") (VStruct [(VF64 one)]).
Proof. run. Qed.
Example test_011 : reads [Decl (UStruct [fld "F" "f" TF64]) NoMethod false] (TName 0) (bs "a:1:{s:1:""f"";d:-3.14;}") (VStruct [(VF64 minus_pi)]).
Proof. run. Qed.
Example test_012 : reads [Decl (UStruct [fld "F" "f1q" TF32]) NoMethod false] (TName 0) (bs "a:1:{s:3:""f1q"";d:147852369;}") (VStruct [(VF32 (S754_finite false 9240773 4))]).
Proof. run. Qed.
Example test_013 : reads [Decl (UStruct [fld "F" "f1q" TF64]) NoMethod false] (TName 0) (bs "a:1:{s:3:""f1q"";d:147852369;}") (VStruct [(VF64 large)]).
Proof. run. Qed.

(** tests/unmarshal_test.go:181-243 TestUnmarshal_struct_uint; tests/unmarshal_test.go:245-307 TestUnmarshal_struct_int *)
Example test_014 : reads [Decl (UStruct [fld "F" "f1q" (TUint UUint)]) NoMethod false] (TName 0) (bs "a:1:{s:3:""f1q"";i:147852369;}") (VStruct [(VUint 147852369)]).
Proof. run. Qed.
Example test_015 : reads [Decl (UStruct [fld "F" "f1q" (TUint U8)]) NoMethod false] (TName 0) (bs "a:1:{s:3:""f1q"";i:255;}") (VStruct [(VUint 255)]).
Proof. run. Qed.
Example test_016 : reads [Decl (UStruct [fld "F" "f1q" (TUint U16)]) NoMethod false] (TName 0) (bs "a:1:{s:3:""f1q"";i:574;}") (VStruct [(VUint 574)]).
Proof. run. Qed.
Example test_017 : reads [Decl (UStruct [fld "F" "f1q" (TUint U32)]) NoMethod false] (TName 0) (bs "a:1:{s:3:""f1q"";i:57400;}") (VStruct [(VUint 57400)]).
Proof. run. Qed.
Example test_018 : reads [Decl (UStruct [fld "F" "f1q" (TUint U64)]) NoMethod false] (TName 0) (bs "a:1:{s:3:""f1q"";i:5740000;}") (VStruct [(VUint 5740000)]).
Proof. run. Qed.
Example test_019 : reads [Decl (UStruct [fld "F" "f1q" (TInt IInt)]) NoMethod false] (TName 0) (bs "a:1:{s:3:""f1q"";i:147852369;}") (VStruct [(VInt (147852369))]).
Proof. run. Qed.
Example test_020 : reads [Decl (UStruct [fld "F" "f1q" (TInt I8)]) NoMethod false] (TName 0) (bs "a:1:{s:3:""f1q"";i:65;}") (VStruct [(VInt (65))]).
Proof. run. Qed.
Example test_021 : reads [Decl (UStruct [fld "F" "f1q" (TInt I16)]) NoMethod false] (TName 0) (bs "a:1:{s:3:""f1q"";i:574;}") (VStruct [(VInt (574))]).
Proof. run. Qed.
Example test_022 : reads [Decl (UStruct [fld "F" "f1q" (TInt I32)]) NoMethod false] (TName 0) (bs "a:1:{s:3:""f1q"";i:57400;}") (VStruct [(VInt (57400))]).
Proof. run. Qed.
Example test_023 : reads [Decl (UStruct [fld "F" "f1q" (TInt I64)]) NoMethod false] (TName 0) (bs "a:1:{s:3:""f1q"";i:5740000;}") (VStruct [(VInt (5740000))]).
Proof. run. Qed.

(** tests/unmarshal_test.go:309-366 TestUnmarshal_slice *)
Example test_024 : reads [Decl (UStruct [fld "Value" "value" (TSlice TString)]) NoMethod false] (TName 0) (bs "a:1:{s:5:""value"";a:0:{}}") (VStruct [(VSlice None)]).
Proof. run. Qed.
Example test_025 : reads [Decl (UStruct [fld "Value" "value" (TSlice TString)]) NoMethod false] (TName 0) (bs "a:3:{s:2:""bb"";b:1;s:5:""value"";a:3:{i:0;s:3:""one"";i:1;s:3:""two"";i:2;s:1:""q"";}}") (VStruct [(VSlice (Some [(VStr (bs "one")); (VStr (bs "two")); (VStr (bs "q"))]))]).
Proof. run. Qed.
Example test_026 : reads [Decl (UStruct [fld "Value" "value" (TSlice TString)]) NoMethod false] (TName 0) (bs "a:1:{s:5:""value"";a:6:{i:0;s:3:""one"";i:1;s:3:""two"";i:2;s:1:""q"";i:3;s:1:""a"";i:4;s:2:""zx"";i:5;s:3:""abc"";}}") (VStruct [(VSlice (Some [(VStr (bs "one")); (VStr (bs "two")); (VStr (bs "q")); (VStr (bs "a")); (VStr (bs "zx")); (VStr (bs "abc"))]))]).
Proof. run. Qed.
Example test_027 : reads [Decl (UStruct [fld "Value" "value" (TSlice TString)]) NoMethod false] (TName 0) (bs "a:1:{s:5:""value"";a:2:{i:0;s:1:""a"";i:5;s:1:""b"";}}") (VStruct [(VSlice (Some [(VStr (bs "a")); (VStr (bs "")); (VStr (bs "")); (VStr (bs "")); (VStr (bs "")); (VStr (bs "b"))]))]).
Proof. run. Qed.
Example test_028 : reads [Decl (UStruct [fld "Value" "value" (TSlice TString)]) NoMethod false] (TName 0) (bs "a:1:{s:5:""value"";a:1:{i:1;s:1:""a"";}}") (VStruct [(VSlice (Some [(VStr (bs "")); (VStr (bs "a"))]))]).
Proof. run. Qed.

(** tests/unmarshal_test.go:368-404 TestUnmarshal_array *)
Example test_029 : reads [Decl (UStruct [fld "Value" "value" (TArray 5 TString)]) NoMethod false] (TName 0) (bs "a:1:{s:5:""value"";a:0:{}}") (VStruct [(VArr [(VStr (bs "")); (VStr (bs "")); (VStr (bs "")); (VStr (bs "")); (VStr (bs ""))])]).
Proof. run. Qed.
Example test_030 : reads [Decl (UStruct [fld "Value" "value" (TArray 5 TString)]) NoMethod false] (TName 0) (bs "a:1:{s:5:""value"";a:3:{i:0;s:3:""one"";i:1;s:3:""two"";i:2;s:1:""q"";}}") (VStruct [(VArr [(VStr (bs "one")); (VStr (bs "two")); (VStr (bs "q")); (VStr (bs "")); (VStr (bs ""))])]).
Proof. run. Qed.
Example test_031 : reads [Decl (UStruct [fld "Value" "value" (TArray 5 TString)]) NoMethod false] (TName 0) (bs "a:1:{s:5:""value"";a:6:{i:0;s:3:""one"";i:1;s:3:""two"";i:2;s:1:""q"";i:3;s:1:""a"";i:4;s:2:""zx"";i:5;s:3:""abc"";}}") (VStruct [(VArr [(VStr (bs "one")); (VStr (bs "two")); (VStr (bs "q")); (VStr (bs "a")); (VStr (bs "zx"))])]).
Proof. run. Qed.

(** tests/unmarshal_test.go:406-417 TestUnmarshal_skip_value *)
Example test_032 : reads [Decl (UStruct [fld "Value" "value" (TSlice TString)]) NoMethod false] (TName 0) (bs "a:3:{s:2:""bb"";b:1;s:5:""value"";a:3:{i:0;s:3:""one"";i:1;s:3:""two"";i:2;s:1:""q"";}s:6:""value2"";a:3:{i:0;s:1:""1"";i:1;s:1:""2"";i:2;s:1:""3"";}}") (VStruct [(VSlice (Some [(VStr (bs "one")); (VStr (bs "two")); (VStr (bs "q"))]))]).
Proof. run. Qed.

(** tests/unmarshal_test.go:429-440 TestUnmarshal_unmarshaler: the method keeps a copy of its argument *)
Example test_033 : reads [Decl (UStruct [fld "Value" "value" (TName 1)]) NoMethod false; Decl (UTy (TSlice (TUint U8))) NoMethod true] (TName 0) (bs "a:1:{s:5:""value"";a:3:{i:0;s:3:""one"";i:1;s:3:""two"";i:2;s:1:""q"";}}") (VStruct [(vbytes (bs "a:3:{i:0;s:3:""one"";i:1;s:3:""two"";i:2;s:1:""q"";}"))]).
Proof. run. Qed.

(** tests/unmarshal_test.go:442-453 TestUnmarshal_string_wrapper *)
Example test_034 : reads [Decl (UStruct [fld "Value" "value,string" (TInt IInt)]) NoMethod false] (TName 0) (bs "a:1:{s:5:""value"";s:3:""233"";}") (VStruct [(VInt (233))]).
Proof. run. Qed.

(** tests/unmarshal_test.go:455-508 TestUnmarshal_map *)
Example test_035 : reads [Decl (UStruct [fld "Value" "value" (TMap TString TString)]) NoMethod false] (TName 0) (bs "a:1:{s:5:""value"";a:5:{s:3:""one"";s:1:""1"";s:3:""two"";s:1:""2"";s:5:""three"";s:1:""3"";s:4:""four"";s:1:""4"";s:4:""five"";s:1:""5"";}}") (VStruct [(VMap (Some [((VStr (bs "one")), (VStr (bs "1"))); ((VStr (bs "two")), (VStr (bs "2"))); ((VStr (bs "three")), (VStr (bs "3"))); ((VStr (bs "four")), (VStr (bs "4"))); ((VStr (bs "five")), (VStr (bs "5")))]))]).
Proof. run. Qed.
Example test_036 : reads [Decl (UStruct [fld "Value" "value" (TMap TAny TString)]) NoMethod false] (TName 0) (bs "a:1:{s:5:""value"";a:5:{i:1;s:3:""one"";i:2;s:3:""two"";i:3;s:5:""three"";i:4;s:4:""four"";i:5;s:4:""five"";}}") (VStruct [(VMap (Some [((VIface (Some (TInt I64, (VInt (1))))), (VStr (bs "one"))); ((VIface (Some (TInt I64, (VInt (2))))), (VStr (bs "two"))); ((VIface (Some (TInt I64, (VInt (3))))), (VStr (bs "three"))); ((VIface (Some (TInt I64, (VInt (4))))), (VStr (bs "four"))); ((VIface (Some (TInt I64, (VInt (5))))), (VStr (bs "five")))]))]).
Proof. run. Qed.
Example test_037 : reads [Decl (UStruct [fld "Value" "value" TAny]) NoMethod false] (TName 0) (bs "a:1:{s:5:""value"";a:5:{i:1;s:3:""one"";i:2;s:3:""two"";i:3;s:5:""three"";i:4;s:4:""four"";i:5;s:4:""five"";}}") (VStruct [(VIface (Some ((TMap TAny TAny), (VMap (Some [((VIface (Some (TInt I64, (VInt (1))))), (VIface (Some (TString, (VStr (bs "one")))))); ((VIface (Some (TInt I64, (VInt (2))))), (VIface (Some (TString, (VStr (bs "two")))))); ((VIface (Some (TInt I64, (VInt (3))))), (VIface (Some (TString, (VStr (bs "three")))))); ((VIface (Some (TInt I64, (VInt (4))))), (VIface (Some (TString, (VStr (bs "four")))))); ((VIface (Some (TInt I64, (VInt (5))))), (VIface (Some (TString, (VStr (bs "five"))))))])))))]).
Proof. run. Qed.

(** tests/unmarshal_test.go:510-545 TestUnmarshal_ptr_string *)
Example test_038 : reads [Decl (UStruct [fld "F" "f1q" (TPtr TString)]) NoMethod false] (TName 0) (bs "a:1:{s:3:""f1q"";s:10:""0147852369"";}") (VStruct [(VPtr (Some (VStr (bs "0147852369"))))]).
Proof. run. Qed.
Example test_039 : reads [Decl (UStruct [fld "F" "f" (TPtr TString)]) NoMethod false] (TName 0) (bs "a:0:{}") (VStruct [(VPtr None)]).
Proof. run. Qed.
Example test_040 : refuses [Decl (UStruct [fld "F" "f" (TPtr (TPtr TString))]) NoMethod false] (TName 0) (bs "a:0:{}").
Proof. run. Qed.

(** tests/unmarshal_test.go:547-561 TestUnmarshal_anonymous_field *)
Example test_041 : refuses [Decl (UStruct [Field (bs "N") true true [] (TName 1); fld "C" "" (TInt IInt)]) NoMethod false; Decl (UStruct [fld "A" "" (TInt IInt); fld "B" "" (TInt IInt)]) NoMethod false] (TName 0) (bs "a:4:{s:1:""A"";i:3;s:1:""B"";i:2;s:1:""C"";i:1;}").
Proof. run. Qed.

(** tests/unmarshal_test.go:563-599 TestUnmarshal_empty_input *)
Example test_042 : refuses [] (TSlice (TInt IInt)) (bs "").
Proof. run. Qed.
Example test_043 : refuses [] (TArray 5 (TInt IInt)) (bs "").
Proof. run. Qed.
Example test_044 : refuses [] (TMap (TUint UUint) (TInt IInt)) (bs "").
Proof. run. Qed.
Example test_045 : refuses [] TAny (bs "").
Proof. run. Qed.
Example test_046 : refuses [] TString (bs "").
Proof. run. Qed.
Example test_047 : refuses [] (TInt IInt) (bs "").
Proof. run. Qed.
Example test_048 : refuses [] (TUint UUint) (bs "").
Proof. run. Qed.
Example test_049 : refuses [] TBool (bs "").
Proof. run. Qed.

(** tests/unmarshal_test.go:601-617 TestUnmarshal_as_string_2 *)
Example test_050 : reads [Decl (UTy (TUint U32)) NoMethod false; Decl (UTy (TUint U8)) NoMethod false; Decl (UStruct [fld "ID" "eid,string" (TName 0); fld "Type" "type" (TName 1)]) NoMethod false] (TMap (TName 0) (TName 2)) (bs "a:7:{i:1087180;a:2:{s:3:""eid"";s:7:""1087180"";s:4:""type"";i:2;}i:1087181;a:2:{s:3:""eid"";s:7:""1087181"";s:4:""type"";i:2;}i:1087182;a:2:{s:3:""eid"";s:7:""1087182"";s:4:""type"";i:2;}i:1087183;a:2:{s:3:""eid"";s:7:""1087183"";s:4:""type"";i:2;}i:1087184;a:2:{s:3:""eid"";s:7:""1087184"";s:4:""type"";i:2;}i:1087185;a:2:{s:3:""eid"";s:7:""1087185"";s:4:""type"";i:2;}i:1087186;a:2:{s:3:""eid"";s:7:""1087186"";s:4:""type"";i:2;}}") (VMap (Some [((VUint 1087180), (VStruct [(VUint 1087180); (VUint 2)])); ((VUint 1087181), (VStruct [(VUint 1087181); (VUint 2)])); ((VUint 1087182), (VStruct [(VUint 1087182); (VUint 2)])); ((VUint 1087183), (VStruct [(VUint 1087183); (VUint 2)])); ((VUint 1087184), (VStruct [(VUint 1087184); (VUint 2)])); ((VUint 1087185), (VStruct [(VUint 1087185); (VUint 2)])); ((VUint 1087186), (VStruct [(VUint 1087186); (VUint 2)]))])).
Proof. run. Qed.

(** tests/unmarshal_test.go:619-632 TestUnmarshal_null_array_1 *)
Example test_051 : accepts [Decl (UStruct [fld "Name" "tag_name" (TPtr TString); fld "Count" "result,string" (TInt IInt)]) NoMethod false] (TSlice (TName 0)) (bs "a:0:{}").
Proof. run. Qed.

(** tests/unmarshal_test.go:634-649 TestUnmarshal_null_array_2 *)
Example test_052 : reads [] TAny (bs "a:4:{s:1:""a"";i:2;s:4:""Test"";a:0:{}s:1:""b"";a:0:{}s:1:""o"";i:1;}") (VIface (Some ((TMap TAny TAny), (VMap (Some [((VIface (Some (TString, (VStr (bs "a"))))), (VIface (Some (TInt I64, (VInt (2)))))); ((VIface (Some (TString, (VStr (bs "Test"))))), (VIface (Some ((TMap TAny TAny), (VMap (Some [])))))); ((VIface (Some (TString, (VStr (bs "b"))))), (VIface (Some ((TMap TAny TAny), (VMap (Some [])))))); ((VIface (Some (TString, (VStr (bs "o"))))), (VIface (Some (TInt I64, (VInt (1))))))]))))).
Proof. run. Qed.

(** tests/unmarshal_test.go:651-664 TestUnmarshal_array_with_bool_to_map *)
Example test_053 : reads [] (TMap TString TAny) (bs "O:8:""stdClass"":1:{s:1:""a"";b:0;}") (VMap (Some [((VStr (bs "a")), (VIface (Some (TBool, (VBool false)))))])).
Proof. run. Qed.

(** tests/unmarshal_test.go:672-677 TestUnmarshal_error_case *)
Example test_054 : accepts [Decl (UStruct [fld "Name" "tag_name" (TPtr TString); fld "Count" "result,string" (TInt IInt); fld "TotalCount" "tag_results,string" (TInt IInt)]) NoMethod false] (TSlice (TName 0)) (bs "a:30:{i:0;a:2:{s:8:""tag_name"";s:18:""叛逆的鲁鲁修"";s:6:""result"";s:4:""1645"";}i:1;a:2:{s:8:""tag_name"";s:7:""SUNRISE"";s:6:""result"";s:4:""1229"";}i:2;a:2:{s:8:""tag_name"";s:24:""反逆のルルーシュ"";s:6:""result"";s:3:""936"";}i:3;a:2:{s:8:""tag_name"";s:15:""还是死妹控"";s:6:""result"";s:3:""721"";}i:4;a:2:{s:8:""tag_name"";s:2:""TV"";s:6:""result"";s:3:""664"";}i:5;a:2:{s:8:""tag_name"";s:6:""妹控"";s:6:""result"";s:3:""603"";}i:6;a:2:{s:8:""tag_name"";s:9:""codegeass"";s:6:""result"";s:3:""569"";}i:7;a:2:{s:8:""tag_name"";s:12:""谷口悟朗"";s:6:""result"";s:3:""523"";}i:8;a:2:{s:8:""tag_name"";s:9:""鲁路修"";s:6:""result"";s:3:""453"";}i:9;a:2:{s:8:""tag_name"";s:2:""R2"";s:6:""result"";s:3:""427"";}i:10;a:2:{s:8:""tag_name"";s:4:""2008"";s:6:""result"";s:3:""409"";}i:11;a:2:{s:8:""tag_name"";s:6:""原创"";s:6:""result"";s:3:""385"";}i:12;a:2:{s:8:""tag_name"";s:11:""2008年4月"";s:6:""result"";s:3:""357"";}i:13;a:2:{s:8:""tag_name"";s:15:""大河内一楼"";s:6:""result"";s:3:""174"";}i:14;a:2:{s:8:""tag_name"";s:6:""日升"";s:6:""result"";s:3:""151"";}i:15;a:2:{s:8:""tag_name"";s:6:""萝卜"";s:6:""result"";s:3:""120"";}i:16;a:2:{s:8:""tag_name"";s:6:""机战"";s:6:""result"";s:3:""111"";}i:17;a:2:{s:8:""tag_name"";s:15:""狗得鸡鸭死"";s:6:""result"";s:3:""104"";}i:18;a:2:{s:8:""tag_name"";s:9:""福山润"";s:6:""result"";s:2:""94"";}i:19;a:2:{s:8:""tag_name"";s:9:""露露胸"";s:6:""result"";s:2:""84"";}i:20;a:2:{s:8:""tag_name"";s:5:""CLAMP"";s:6:""result"";s:2:""69"";}i:21;a:2:{s:8:""tag_name"";s:6:""科幻"";s:6:""result"";s:2:""67"";}i:22;a:2:{s:8:""tag_name"";s:9:""鲁鲁修"";s:6:""result"";s:2:""62"";}i:23;a:2:{s:8:""tag_name"";s:5:""GEASS"";s:6:""result"";s:2:""57"";}i:24;a:2:{s:8:""tag_name"";s:6:""神作"";s:6:""result"";s:2:""54"";}i:25;a:2:{s:8:""tag_name"";s:6:""战斗"";s:6:""result"";s:2:""49"";}i:26;a:2:{s:8:""tag_name"";s:6:""战争"";s:6:""result"";s:2:""41"";}i:27;a:2:{s:8:""tag_name"";s:25:""裸露修的跌二次KUSO"";s:6:""result"";s:2:""40"";}i:28;a:2:{s:8:""tag_name"";s:6:""中二"";s:6:""result"";s:2:""37"";}i:29;a:2:{s:8:""tag_name"";s:12:""樱井孝宏"";s:6:""result"";s:2:""34"";}}").
Proof. run. Qed.

(** tests/unmarshal_test.go:679-696 TestUnmarshal_issue_69 *)
Example test_055 : reads [Decl (UStruct [fld "CompanyId" "company_id" (TInt IInt); fld "CorpID" "corp_id" TString; fld "OpenID" "openid" TString; fld "From" "from" TString; fld "Uid" "uid" (TInt IInt); fld "UnionID" "unionid" TString; fld "OrgUid" "org_uid,omitempty" (TInt IInt); fld "FromType" "from_type" (TInt IInt)]) NoMethod false] (TName 0) (bs "a:7:{s:4:""from"";s:4:""ding"";s:6:""openid"";s:15:""360946652480232"";s:7:""unionid"";s:26:""0Cg1QDDRfgyz8qMjqwwN0giEiE"";s:10:""company_id"";i:1;s:7:""corp_id"";s:36:""ding4eb8f5a40a6244aa35c2f4657eb6378f"";s:8:""agent_id"";i:894146310;s:3:""uid"";i:2;}") (VStruct [(VInt (1)); (VStr (bs "ding4eb8f5a40a6244aa35c2f4657eb6378f")); (VStr (bs "360946652480232")); (VStr (bs "ding")); (VInt (2)); (VStr (bs "0Cg1QDDRfgyz8qMjqwwN0giEiE")); (VInt (0)); (VInt (0))]).
Proof. run. Qed.

(** regression_test.go:97-131 TestPHPFloatSpecialValues *)
Example test_056 : reads [] TF64 (bs "d:INF;") (VF64 (S754_infinity false)).
Proof. run. Qed.
Example test_057 : reads [] TF64 (bs "d:-INF;") (VF64 (S754_infinity true)).
Proof. run. Qed.
Example test_058 : reads [] TF64 (bs "d:NAN;") (VF64 S754_nan).
Proof. run. Qed.

(** regression_test.go:133-138 TestUnmarshalNilPointer *)
Example test_059 : exists e, unmarshal X0 [] 9 (bs "i:1;") (TgNilPtr (TInt IInt)) = (VOther, RErr e).
Proof. run. Qed.

(** regression_test.go:140-148 TestUnmarshalTopLevelBoundaries *)
Example test_060 : refuses [] (TInt IInt) (bs "").
Proof. run. Qed.
Example test_061 : refuses [] (TInt IInt) (bs "i:1;x").
Proof. run. Qed.

(** regression_test.go:150-160 TestUnmarshalerReceivesFloat: a string type whose method keeps its argument *)
Example test_062 : reads [Decl (UTy TString) NoMethod true] (TName 0) (bs "d:3.5;") (VStr (bs "d:3.5;")).
Proof. run. Qed.
Example test_063 : reads [Decl (UTy TString) NoMethod true] (TName 0) (bs "i:-5;") (VStr (bs "i:-5;")).
Proof. run. Qed.

(** regression_test.go:162-167 TestUnmarshalNullIntoString *)
Example test_064 : reads [] TString (bs "N;") (VStr (bs "")).
Proof. run. Qed.

(** regression_test.go:169-237 TestUnmarshalIntegerValidation *)
Example test_065 : reads [] (TInt I64) (bs "i:9223372036854775807;") (VInt (9223372036854775807)).
Proof. run. Qed.
Example test_066 : reads [] (TInt I64) (bs "i:-9223372036854775808;") (VInt (-9223372036854775808)).
Proof. run. Qed.
Example test_067 : reads [] (TInt I64) (bs "i:000000000000000000001;") (VInt (1)).
Proof. run. Qed.
Example test_068 : reads [] (TInt I64) (bs "i:-000000000000000000001;") (VInt (-1)).
Proof. run. Qed.
Example test_069 : reads [] (TInt I64) (bs "i:000000000000000000000;") (VInt (0)).
Proof. run. Qed.
Example test_070 : reads [] (TInt I64) (bs "i:-000000000000000000000;") (VInt (0)).
Proof. run. Qed.
Example test_071 : refuses [] (TInt I64) (bs "i:9223372036854775808;").
Proof. run. Qed.
Example test_072 : refuses [] (TUint U64) (bs "i:18446744073709551616;").
Proof. run. Qed.
Example test_073 : refuses [] (TUint U64) (bs "i:-1;").
Proof. run. Qed.
Example test_074 : refuses [] (TInt I64) (bs "i:-;").
Proof. run. Qed.
Example test_075 : refuses [Decl (UStruct [fld "Value" "value,string" (TInt IInt)]) NoMethod false] (TName 0) (bs "a:1:{s:5:""value"";s:2:""1x"";}").
Proof. run. Qed.

(** regression_test.go:239-245 TestUnmarshalRejectsNegativeSequenceIndex *)
Example test_076 : refuses [] (TSlice TString) (bs "a:1:{i:-1;s:1:""x"";}").
Proof. run. Qed.
Example test_077 : refuses [] (TArray 1 TString) (bs "a:1:{i:-1;s:1:""x"";}").
Proof. run. Qed.

(** regression_test.go:247-277 TestUnmarshalTruncatedInputDoesNotPanic: every proper prefix *)
Example test_078 : forallb (fun n => refused [] TBool (firstn n (bs "b:1;"))) (seq 1 3) = true.
Proof. run. Qed.
Example test_079 : forallb (fun n => refused [] (TInt I64) (firstn n (bs "i:-123;"))) (seq 1 6) = true.
Proof. run. Qed.
Example test_080 : forallb (fun n => refused [] TF64 (firstn n (bs "d:3.14;"))) (seq 1 6) = true.
Proof. run. Qed.
Example test_081 : forallb (fun n => refused [] TString (firstn n (bs "s:5:""hello"";"))) (seq 1 11) = true.
Proof. run. Qed.
Example test_082 : forallb (fun n => refused [] (TSlice TString) (firstn n (bs "a:1:{i:0;s:1:""x"";}"))) (seq 1 17) = true.
Proof. run. Qed.
Example test_083 : forallb (fun n => refused [] (TMap TString (TInt IInt)) (firstn n (bs "a:1:{s:1:""x"";i:1;}"))) (seq 1 17) = true.
Proof. run. Qed.
Example test_084 : forallb (fun n => refused [Decl (UStruct [fld "X" "" (TInt IInt)]) NoMethod false] (TName 0) (firstn n (bs "a:1:{s:1:""X"";i:1;}"))) (seq 1 17) = true.
Proof. run. Qed.
Example test_085 : forallb (fun n => refused [Decl (UStruct [fld "X" "" (TInt IInt)]) NoMethod false] (TName 0) (firstn n (bs "O:8:""stdClass"":1:{s:1:""X"";i:1;}"))) (seq 1 30) = true.
Proof. run. Qed.

(** regression_test.go:279-297 TestUnmarshalOversizedStringLengthDoesNotPanic *)
Example test_086 : refuses [] TAny (bs "s:9223372036854775807:""x"";").
Proof. run. Qed.
Example test_087 : refuses [] TAny (bs "O:9223372036854775807:""stdClass"":0:{}").
Proof. run. Qed.

(** example_test.go:42-55 ExampleUnmarshal *)
Example test_088 : reads [Decl (UStruct [fld "Value" "value" (TMap TString TString)]) NoMethod false] (TName 0) (bs "a:1:{s:5:""value"";a:5:{s:3:""one"";s:1:""1"";s:3:""two"";s:1:""2"";s:5:""three"";s:1:""3"";s:4:""four"";s:1:""4"";s:4:""five"";s:1:""5"";}}") (VStruct [(VMap (Some [((VStr (bs "one")), (VStr (bs "1"))); ((VStr (bs "two")), (VStr (bs "2"))); ((VStr (bs "three")), (VStr (bs "3"))); ((VStr (bs "four")), (VStr (bs "4"))); ((VStr (bs "five")), (VStr (bs "5")))]))]).
Proof. run. Qed.

(** internal/decoder/decode_test.go:23-71 TestDecodeScalarTypes *)
Example test_089 : reads [] TBool (bs "b:1;") (VBool true).
Proof. run. Qed.
Example test_090 : reads [] (TInt IInt) (bs "i:-1;") (VInt (-1)).
Proof. run. Qed.
Example test_091 : reads [] (TInt I8) (bs "i:-8;") (VInt (-8)).
Proof. run. Qed.
Example test_092 : reads [] (TInt I16) (bs "i:-16;") (VInt (-16)).
Proof. run. Qed.
Example test_093 : reads [] (TInt I32) (bs "i:-32;") (VInt (-32)).
Proof. run. Qed.
Example test_094 : reads [] (TInt I64) (bs "i:-64;") (VInt (-64)).
Proof. run. Qed.
Example test_095 : reads [] (TUint UUint) (bs "i:1;") (VUint 1).
Proof. run. Qed.
Example test_096 : reads [] (TUint U8) (bs "i:8;") (VUint 8).
Proof. run. Qed.
Example test_097 : reads [] (TUint U16) (bs "i:16;") (VUint 16).
Proof. run. Qed.
Example test_098 : reads [] (TUint U32) (bs "i:32;") (VUint 32).
Proof. run. Qed.
Example test_099 : reads [] (TUint U64) (bs "i:64;") (VUint 64).
Proof. run. Qed.
Example test_100 : reads [] (TUint UPtr) (bs "i:9;") (VUint 9).
Proof. run. Qed.
Example test_101 : reads [] TF32 (bs "d:3.5;") (VF32 f35).
Proof. run. Qed.
Example test_102 : reads [] TF64 (bs "d:-4.5;") (VF64 minus_f45).
Proof. run. Qed.
Example test_103 : reads [] TString (bs "s:3:""foo"";") (VStr (bs "foo")).
Proof. run. Qed.

(** internal/decoder/decode_test.go:73-127 TestDecodeCompositeTypes *)
Example test_104 : reads [] (TSlice (TUint U8)) (bs "s:3:""foo"";") (vbytes (bs "foo")).
Proof. run. Qed.
Example test_105 : reads [] (TSlice (TUint U8)) (bs "a:2:{i:0;i:65;i:1;i:66;}") (vbytes (bs "AB")).
Proof. run. Qed.
Example test_106 : reads [] (TSlice TString) (bs "a:2:{i:0;s:1:""a"";i:2;s:1:""c"";}") (VSlice (Some [(VStr (bs "a")); (VStr (bs "")); (VStr (bs "c"))])).
Proof. run. Qed.
Example test_107 : reads [] (TArray 1 TString) (bs "a:2:{i:0;s:1:""a"";i:2;s:1:""c"";}") (VArr [(VStr (bs "a"))]).
Proof. run. Qed.
Example test_108 : reads [] (TMap TString (TPtr (TInt IInt))) (bs "a:1:{s:1:""x"";i:2;}") (VMap (Some [((VStr (bs "x")), (VPtr (Some (VInt (2)))))])).
Proof. run. Qed.
Example test_109 : reads [] (TMap TString TAny) (bs "O:8:""stdClass"":1:{s:1:""x"";i:2;}") (VMap (Some [((VStr (bs "x")), (VIface (Some (TInt I64, (VInt (2))))))])).
Proof. run. Qed.
Example test_110 : reads [] (TPtr (TInt IInt)) (bs "i:2;") (VPtr (Some (VInt (2)))).
Proof. run. Qed.
Example test_111 : unmarshal X0 [] 9 (bs "N;") (TgPtr (TPtr (TInt IInt)) (VPtr (Some (VInt (2))))) = (VPtr None, ROk tt).
Proof. run. Qed.

(** internal/decoder/decode_test.go:129-151 TestDecodeStructAndWrappedStrings *)
Example test_112 : reads [Decl (UStruct [fld "Bool" "bool,string" TBool; fld "Int" "int,string" (TInt IInt); fld "Uint" "uint,string" (TUint UUint); fld "Float" "float,string" TF64; fld "Ptr" "ptr,string" (TPtr (TInt IInt)); fld "Skip" "-" TString]) NoMethod false] (TName 0) (bs "a:5:{s:4:""bool"";s:4:""true"";s:3:""int"";s:2:""-2"";s:4:""uint"";s:1:""3"";s:5:""float"";s:3:""4.5"";s:3:""ptr"";s:1:""5"";}") (VStruct [VBool true; (VInt (-2)); (VUint 3); VF64 f45; (VPtr (Some (VInt (5)))); (VStr (bs ""))]).
Proof. run. Qed.
Example test_113 : unmarshal X0 [Decl (UStruct [fld "Bool" "bool,string" TBool; fld "Int" "int,string" (TInt IInt); fld "Uint" "uint,string" (TUint UUint); fld "Float" "float,string" TF64; fld "Ptr" "ptr,string" (TPtr (TInt IInt)); fld "Skip" "-" TString]) NoMethod false] 9 (bs "a:2:{s:7:""unknown"";a:1:{i:0;d:1.5;}s:3:""int"";s:1:""7"";}") (TgPtr (TName 0) (VStruct [VBool true; (VInt (-2)); (VUint 3); VF64 f45; (VPtr (Some (VInt (5)))); (VStr (bs ""))])) = ((VStruct [VBool true; (VInt (7)); (VUint 3); VF64 f45; (VPtr (Some (VInt (5)))); (VStr (bs ""))]), ROk tt).
Proof. run. Qed.

(** internal/decoder/decode_test.go:153-165 TestDecodeEmptyInterfaceValues *)
Example test_114 : accepts [] TAny (bs "N;").
Proof. run. Qed.
Example test_115 : accepts [] TAny (bs "b:1;").
Proof. run. Qed.
Example test_116 : accepts [] TAny (bs "i:1;").
Proof. run. Qed.
Example test_117 : accepts [] TAny (bs "d:1.5;").
Proof. run. Qed.
Example test_118 : accepts [] TAny (bs "s:1:""x"";").
Proof. run. Qed.
Example test_119 : accepts [] TAny (bs "a:1:{s:1:""x"";i:1;}").
Proof. run. Qed.
Example test_120 : accepts [] TAny (bs "O:8:""stdClass"":1:{s:1:""x"";i:1;}").
Proof. run. Qed.

(** internal/decoder/decode_test.go:198-228 TestDecodeUnmarshaler: the types are strings here, not structs with a string *)
Example test_121 : reads [Decl (UTy TString) NoMethod true] (TName 0) (bs "s:1:""x"";") (VStr (bs "s:1:""x"";")).
Proof. run. Qed.
Example test_122 : reads [Decl (UTy TString) NoMethod true] (TName 0) (bs "i:1;") (VStr (bs "i:1;")).
Proof. run. Qed.
Example test_123 : reads [Decl (UTy TString) NoMethod true] (TName 0) (bs "a:1:{i:0;d:1.5;}") (VStr (bs "a:1:{i:0;d:1.5;}")).
Proof. run. Qed.
Example test_124 : reads [Decl (UTy TString) NoMethod true] (TName 0) (bs "O:8:""stdClass"":0:{}") (VStr (bs "O:8:""stdClass"":0:{}")).
Proof. run. Qed.
Example test_125 : reads [Decl (UTy TString) NoMethod true] (TName 0) (bs "N;") (VStr (bs "")).
Proof. run. Qed.
Example test_126 : unmarshal X0 [Decl (UTy TString) NoMethod true; Decl (UStruct []) NoMethod false] 9 (bs "i:3;") (TgPtr (TIface true) (VIface (Some ((TPtr (TName 0)), (VPtr (Some (VStr (bs "")))))))) = ((VIface (Some ((TPtr (TName 0)), (VPtr (Some (VStr (bs "i:3;"))))))), ROk tt).
Proof. run. Qed.
Example test_127 : unmarshal X0 [Decl (UTy TString) NoMethod true; Decl (UStruct []) NoMethod false] 9 (bs "N;") (TgPtr (TIface true) (VIface (Some ((TPtr (TName 0)), (VPtr (Some (VStr (bs "i:3;")))))))) = (VIface None, ROk tt).
Proof. run. Qed.
Example test_128 : exists e, unmarshal X0 [Decl (UTy TString) NoMethod true; Decl (UStruct []) NoMethod false] 9 (bs "i:3;") (TgPtr (TIface true) (VIface (Some ((TPtr (TName 1)), (VPtr (Some (VStruct []))))))) = ((VIface (Some ((TPtr (TName 1)), (VPtr (Some (VStruct [])))))), RErr e).
Proof. run. Qed.
Example test_129 : unmarshal X0 [Decl (UTy TString) NoMethod true; Decl (UStruct []) NoMethod false] 9 (bs "N;") (TgPtr (TIface true) (VIface (Some ((TPtr (TName 1)), (VPtr (Some (VStruct []))))))) = (VIface None, ROk tt).
Proof. run. Qed.

(** internal/decoder/decode_test.go:230-271 TestDecodeErrors *)
Example test_130 : refuses [Decl (UStruct [fld "X" "" (TInt IInt)]) NoMethod false] TBool (bs "x").
Proof. run. Qed.
Example test_131 : refuses [Decl (UStruct [fld "X" "" (TInt IInt)]) NoMethod false] (TInt I8) (bs "i:128;").
Proof. run. Qed.
Example test_132 : refuses [Decl (UStruct [fld "X" "" (TInt IInt)]) NoMethod false] (TUint UUint) (bs "i:-1;").
Proof. run. Qed.
Example test_133 : refuses [Decl (UStruct [fld "X" "" (TInt IInt)]) NoMethod false] (TUint U8) (bs "i:256;").
Proof. run. Qed.
Example test_134 : refuses [Decl (UStruct [fld "X" "" (TInt IInt)]) NoMethod false] TF32 (bs "d:1e100;").
Proof. run. Qed.
Example test_135 : refuses [Decl (UStruct [fld "X" "" (TInt IInt)]) NoMethod false] TString (bs "b:1;").
Proof. run. Qed.
Example test_136 : refuses [Decl (UStruct [fld "X" "" (TInt IInt)]) NoMethod false] TString (bs "i:1;").
Proof. run. Qed.
Example test_137 : refuses [Decl (UStruct [fld "X" "" (TInt IInt)]) NoMethod false] TString (bs "d:1;").
Proof. run. Qed.
Example test_138 : refuses [Decl (UStruct [fld "X" "" (TInt IInt)]) NoMethod false] (TSlice TString) (bs "1").
Proof. run. Qed.
Example test_139 : refuses [Decl (UStruct [fld "X" "" (TInt IInt)]) NoMethod false] (TMap TString (TInt IInt)) (bs "x").
Proof. run. Qed.
Example test_140 : refuses [Decl (UStruct [fld "X" "" (TInt IInt)]) NoMethod false] (TName 0) (bs "x").
Proof. run. Qed.
Example test_141 : refuses [Decl (UStruct [fld "X" "" (TInt IInt)]) NoMethod false] TAny (bs "x").
Proof. run. Qed.
Example test_142 : refuses [Decl (UStruct [fld "X" "" (TInt IInt)]) NoMethod false] (TSlice TString) (bs "a:1:{i:0;}").
Proof. run. Qed.
Example test_143 : refuses [Decl (UStruct [fld "X" "" (TInt IInt)]) NoMethod false] (TMap TString (TInt IInt)) (bs "a:1:{s:1:""x"";}").
Proof. run. Qed.
Example test_144 : refuses [Decl (UStruct [fld "X" "" (TInt IInt)]) NoMethod false] TOther (bs "i:1;").
Proof. run. Qed.
Example test_145 : exists e, compile_f X0 [] 9 [] (TPtr (TPtr (TInt IInt))) = RErr e.
Proof. run. Qed.
Example test_146 : exists e, compile_f X0 [Decl (UStruct [Field (bs "Embedded") true true [] (TName 1)]) NoMethod false; Decl (UStruct [fld "X" "" (TInt IInt)]) NoMethod false] 9 [] (TName 0) = RErr e.
Proof. run. Qed.
Example test_147 : exists e, compile_f X0 [Decl (UStruct [fld "A" "x" (TInt IInt); fld "B" "x" (TInt IInt)]) NoMethod false] 9 [] (TName 0) = RErr e.
Proof. run. Qed.

(** internal/decoder/decode_test.go:273-293 TestDecodeNullAndEmptyContainers *)
Example test_148 : accepts [Decl (UStruct [fld "X" "" (TInt IInt)]) NoMethod false] TBool (bs "N;").
Proof. run. Qed.
Example test_149 : accepts [Decl (UStruct [fld "X" "" (TInt IInt)]) NoMethod false] (TInt IInt) (bs "N;").
Proof. run. Qed.
Example test_150 : accepts [Decl (UStruct [fld "X" "" (TInt IInt)]) NoMethod false] (TUint UUint) (bs "N;").
Proof. run. Qed.
Example test_151 : accepts [Decl (UStruct [fld "X" "" (TInt IInt)]) NoMethod false] TF64 (bs "N;").
Proof. run. Qed.
Example test_152 : accepts [Decl (UStruct [fld "X" "" (TInt IInt)]) NoMethod false] TString (bs "N;").
Proof. run. Qed.
Example test_153 : accepts [Decl (UStruct [fld "X" "" (TInt IInt)]) NoMethod false] (TSlice (TUint U8)) (bs "N;").
Proof. run. Qed.
Example test_154 : accepts [Decl (UStruct [fld "X" "" (TInt IInt)]) NoMethod false] (TSlice (TInt IInt)) (bs "N;").
Proof. run. Qed.
Example test_155 : accepts [Decl (UStruct [fld "X" "" (TInt IInt)]) NoMethod false] (TArray 1 (TInt IInt)) (bs "N;").
Proof. run. Qed.
Example test_156 : accepts [Decl (UStruct [fld "X" "" (TInt IInt)]) NoMethod false] (TMap TString (TInt IInt)) (bs "N;").
Proof. run. Qed.
Example test_157 : accepts [Decl (UStruct [fld "X" "" (TInt IInt)]) NoMethod false] (TName 0) (bs "N;").
Proof. run. Qed.
Example test_158 : accepts [Decl (UStruct [fld "X" "" (TInt IInt)]) NoMethod false] (TSlice (TUint U8)) (bs "a:0:{}").
Proof. run. Qed.
Example test_159 : accepts [Decl (UStruct [fld "X" "" (TInt IInt)]) NoMethod false] (TSlice (TInt IInt)) (bs "a:0:{}").
Proof. run. Qed.
Example test_160 : accepts [Decl (UStruct [fld "X" "" (TInt IInt)]) NoMethod false] (TArray 1 (TInt IInt)) (bs "a:0:{}").
Proof. run. Qed.
Example test_161 : accepts [Decl (UStruct [fld "X" "" (TInt IInt)]) NoMethod false] (TMap TString (TInt IInt)) (bs "a:0:{}").
Proof. run. Qed.
Example test_162 : accepts [Decl (UStruct [fld "X" "" (TInt IInt)]) NoMethod false] (TName 0) (bs "a:0:{}").
Proof. run. Qed.

(** internal/decoder/decode_test.go:295-307 TestDecodeDepthLimit *)
Example test_163 : is_error (snd (decode X0 [Decl (UStruct [fld "X" "" (TInt IInt)]) NoMethod false] (TSlice (TInt IInt)) (bs "a:0:{}") 0 max_depth (zero [Decl (UStruct [fld "X" "" (TInt IInt)]) NoMethod false] (TSlice (TInt IInt))))) = true.
Proof. run. Qed.
Example test_164 : is_error (snd (decode X0 [Decl (UStruct [fld "X" "" (TInt IInt)]) NoMethod false] (TArray 1 (TInt IInt)) (bs "a:0:{}") 0 max_depth (zero [Decl (UStruct [fld "X" "" (TInt IInt)]) NoMethod false] (TArray 1 (TInt IInt))))) = true.
Proof. run. Qed.
Example test_165 : is_error (snd (decode X0 [Decl (UStruct [fld "X" "" (TInt IInt)]) NoMethod false] (TMap TString (TInt IInt)) (bs "a:0:{}") 0 max_depth (zero [Decl (UStruct [fld "X" "" (TInt IInt)]) NoMethod false] (TMap TString (TInt IInt))))) = true.
Proof. run. Qed.
Example test_166 : is_error (snd (decode X0 [Decl (UStruct [fld "X" "" (TInt IInt)]) NoMethod false] (TName 0) (bs "a:0:{}") 0 max_depth (zero [Decl (UStruct [fld "X" "" (TInt IInt)]) NoMethod false] (TName 0)))) = true.
Proof. run. Qed.

(** internal/decoder/decode_test.go:315-320 TestUnmarshalerErrorAnnotation: an UnmarshalPHP method that always fails *)
Example test_167 : refuses [Decl (UTy TBool) NoMethod true] (TName 0) (bs "i:1;").
Proof. run. Qed.

(** internal/decoder/context_test.go:5-39 TestReadLength *)
Example test_168 : read_length (bs ":0:") 0 = ROk (0, 3).
Proof. run. Qed.
Example test_169 : read_length (bs ":12:") 0 = ROk (12, 4).
Proof. run. Qed.
Example test_170 : is_error (read_length (bs "") 0) = true.
Proof. run. Qed.
Example test_171 : is_error (read_length (bs "x") 0) = true.
Proof. run. Qed.
Example test_172 : is_error (read_length (bs "::") 0) = true.
Proof. run. Qed.
Example test_173 : is_error (read_length (bs ":1") 0) = true.
Proof. run. Qed.
Example test_174 : is_error (read_length (bs ":1x") 0) = true.
Proof. run. Qed.
Example test_175 : is_error (read_length (bs ":9223372036854775808:") 0) = true.
Proof. run. Qed.
Example test_176 : read_length_int (bs ":12:") 0 = ROk (12, 4).
Proof. run. Qed.
Example test_177 : is_error (read_length_int (bs ":9223372036854775808:") 0) = true.
Proof. run. Qed.

(** internal/decoder/context_test.go:41-67 TestReadString *)
Example test_178 : read_string (bs ":0:"""";") 0 = ROk ([], 6).
Proof. run. Qed.
Example test_179 : read_string (bs ":3:""foo"";") 0 = ROk (bs "foo", 9).
Proof. run. Qed.
Example test_180 : is_error (read_string (bs ":3:foo"";") 0) = true.
Proof. run. Qed.
Example test_181 : is_error (read_string (bs ":3:""fo") 0) = true.
Proof. run. Qed.
Example test_182 : is_error (read_string (bs ":3:""foo!;") 0) = true.
Proof. run. Qed.
Example test_183 : is_error (read_string (bs ":3:""foo""!") 0) = true.
Proof. run. Qed.
Example test_184 : is_error (read_string (bs ":9223372036854775807:""x"";") 0) = true.
Proof. run. Qed.

(** internal/decoder/context_test.go:69-129 TestReadScalarTokens *)
Example test_185 : read_integer_bytes (bs "i:0;") 0 = ROk (bs "0", 4).
Proof. run. Qed.
Example test_186 : read_integer_bytes (bs "i:-12;") 0 = ROk (bs "-12", 6).
Proof. run. Qed.
Example test_187 : is_error (read_integer_bytes (bs "") 0) = true.
Proof. run. Qed.
Example test_188 : is_error (read_integer_bytes (bs "x:1;") 0) = true.
Proof. run. Qed.
Example test_189 : is_error (read_integer_bytes (bs "i") 0) = true.
Proof. run. Qed.
Example test_190 : is_error (read_integer_bytes (bs "i!1;") 0) = true.
Proof. run. Qed.
Example test_191 : is_error (read_integer_bytes (bs "i:;") 0) = true.
Proof. run. Qed.
Example test_192 : is_error (read_integer_bytes (bs "i:-;") 0) = true.
Proof. run. Qed.
Example test_193 : is_error (read_integer_bytes (bs "i:12") 0) = true.
Proof. run. Qed.
Example test_194 : is_error (read_integer_bytes (bs "i:1x") 0) = true.
Proof. run. Qed.
Example test_195 : read_float_bytes (bs "d:3.5;") 0 = ROk (bs "3.5", 6).
Proof. run. Qed.
Example test_196 : is_error (read_float_bytes (bs "") 0) = true.
Proof. run. Qed.
Example test_197 : is_error (read_float_bytes (bs "x:1;") 0) = true.
Proof. run. Qed.
Example test_198 : is_error (read_float_bytes (bs "d") 0) = true.
Proof. run. Qed.
Example test_199 : is_error (read_float_bytes (bs "d!1;") 0) = true.
Proof. run. Qed.
Example test_200 : is_error (read_float_bytes (bs "d:;") 0) = true.
Proof. run. Qed.
Example test_201 : is_error (read_float_bytes (bs "d:1") 0) = true.
Proof. run. Qed.
Example test_202 : read_bool (bs "b:0;") 0 = ROk false.
Proof. run. Qed.
Example test_203 : read_bool (bs "b:1;") 0 = ROk true.
Proof. run. Qed.
Example test_204 : is_error (read_bool (bs "b:2;") 0) = true.
Proof. run. Qed.
Example test_205 : is_error (read_bool (bs "b!1;") 0) = true.
Proof. run. Qed.
Example test_206 : is_error (read_bool (bs "x:1;") 0) = true.
Proof. run. Qed.
Example test_207 : is_error (read_bool (bs "b:1") 0) = true.
Proof. run. Qed.

(** internal/decoder/context_test.go:131-168 TestSkipValue *)
Example test_208 : skip_value (bs "N;") 0 0 = ROk 2.
Proof. run. Qed.
Example test_209 : skip_value (bs "b:1;") 0 0 = ROk 4.
Proof. run. Qed.
Example test_210 : skip_value (bs "i:-1;") 0 0 = ROk 5.
Proof. run. Qed.
Example test_211 : skip_value (bs "d:INF;") 0 0 = ROk 6.
Proof. run. Qed.
Example test_212 : skip_value (bs "s:3:""foo"";") 0 0 = ROk 10.
Proof. run. Qed.
Example test_213 : skip_value (bs "a:1:{s:1:""x"";i:1;}") 0 0 = ROk 18.
Proof. run. Qed.
Example test_214 : skip_value (bs "O:8:""stdClass"":1:{s:1:""x"";i:1;}") 0 0 = ROk 31.
Proof. run. Qed.
Example test_215 : is_error (skip_value (bs "") 0 0) = true.
Proof. run. Qed.
Example test_216 : is_error (skip_value (bs "x") 0 0) = true.
Proof. run. Qed.
Example test_217 : is_error (skip_value (bs "N") 0 0) = true.
Proof. run. Qed.
Example test_218 : is_error (skip_value (bs "s:2:""x"";") 0 0) = true.
Proof. run. Qed.
Example test_219 : is_error (skip_value (bs "a:1:{s:1:""x"";}") 0 0) = true.
Proof. run. Qed.
Example test_220 : is_error (skip_value (bs "a:0:{i:0;i:1;}") 0 0) = true.
Proof. run. Qed.
Example test_221 : is_error (skip_value (bs "O:8:""stdClass"":1:{s:1:""x"";}") 0 0) = true.
Proof. run. Qed.
Example test_222 : is_error (skip_array (fun c => skip_value (bs ":0:{}") c (max_depth + 1)) (bs ":0:{}") 0 (max_depth + 1)) = true.
Proof. run. Qed.

(** internal/decoder/context_test.go:170-192 TestSmallTokenValidators *)
Example test_223 : is_error (validate_null (bs "") 0) = true.
Proof. run. Qed.
Example test_224 : is_error (validate_null (bs "N") 0) = true.
Proof. run. Qed.
Example test_225 : is_error (validate_null (bs "Nx") 0) = true.
Proof. run. Qed.
Example test_226 : validate_null (bs "N;") 0 = ROk tt.
Proof. run. Qed.
Example test_227 : is_error (validate_empty_array (bs "0") 0) = true.
Proof. run. Qed.
Example test_228 : is_error (validate_empty_array (bs "00{}") 0) = true.
Proof. run. Qed.
Example test_229 : is_error (validate_empty_array (bs "0:x}") 0) = true.
Proof. run. Qed.
Example test_230 : is_error (validate_empty_array (bs "0:{x") 0) = true.
Proof. run. Qed.
Example test_231 : validate_empty_array (bs "0:{}") 0 = ROk tt.
Proof. run. Qed.
Example test_232 : has_byte [] 0 || has_bytes (bs "x") (-1) 1 || has_bytes (bs "x") 0 (-1) = false.
Proof. run. Qed.

(** internal/runtime/struct_field_test.go:8-56 TestStructFieldTags *)
Example test_233 : tag_of X0 (fld "Default" "" TString) = Tag (bs "Default") false false.
Proof. run. Qed.
Example test_234 : tag_of X0 (fld "Named" "name,omitempty,string" (TInt IInt)) = Tag (bs "name") true true.
Proof. run. Qed.
Example test_235 : tag_key (tag_of X0 (fld "Invalid" "bad\name,omitempty" (TInt IInt))) = bs "Invalid".
Proof. run. Qed.
Example test_236 : is_ignored (fld "Ignored" "-" (TInt IInt)) && is_ignored (Field (bs "private") false false [] (TInt IInt)) && negb (is_ignored (fld "Default" "" TString)) = true.
Proof. run. Qed.
Example test_237 : is_valid_tag X0 (bs "name") = true.
Proof. run. Qed.
Example test_238 : is_valid_tag X0 (bs "with space") = true.
Proof. run. Qed.
Example test_239 : is_valid_tag X0 (bs "a-b") = true.
Proof. run. Qed.
Example test_240 : is_valid_tag X0 (bs "日本語") = true.
Proof. run. Qed.
Example test_241 : is_valid_tag X0 (bs "") = false.
Proof. run. Qed.
Example test_242 : is_valid_tag X0 (bs "bad\name") = false.
Proof. run. Qed.
Example test_243 : is_valid_tag X0 (bs "bad""name") = false.
Proof. run. Qed.

(** tests/marshal_test.go:66-348 testCase; tests/marshal_test.go:350-361 TestMarshal_concrete_types; tests/marshal_test.go:363-374 TestMarshal_interface; tests/marshal_test.go:376-386 TestMarshal_interface_ptr: each value by itself, inside an interface in a struct, and behind a pointer to an interface *)
Example test_244 : writes [] [] TBool (HBool true) (bs "b:1;").
Proof. run. Qed.
Example test_245 : writes [Decl (UStruct [fld "Name" "" TString; fld "Data" "" TAny; fld "Expected" "-" TString]) NoMethod false] [] (TName 0) (HStruct [(HStr (bs "bool true")); (HIface (Some (TBool, (HBool true)))); (HStr (bs "b:1;"))]) (bs "a:2:{s:4:""Name"";s:9:""bool true"";s:4:""Data"";b:1;}").
Proof. run. Qed.
Example test_246 : writes [] [Cells [(HIface (Some (TBool, (HBool true))))]] (TPtr TAny) (HPtr (Some (0, 0)%nat)) (bs "b:1;").
Proof. run. Qed.
Example test_247 : writes [] [Cells [(HBool true)]] (TPtr TBool) (HPtr (Some (0, 0)%nat)) (bs "b:1;").
Proof. run. Qed.
Example test_248 : writes [Decl (UStruct [fld "Name" "" TString; fld "Data" "" TAny; fld "Expected" "-" TString]) NoMethod false] [Cells [(HBool true)]] (TName 0) (HStruct [(HStr (bs "*bool-true")); (HIface (Some ((TPtr TBool), (HPtr (Some (0, 0)%nat))))); (HStr (bs "b:1;"))]) (bs "a:2:{s:4:""Name"";s:10:""*bool-true"";s:4:""Data"";b:1;}").
Proof. run. Qed.
Example test_249 : writes [] [Cells [(HBool true)]; Cells [(HIface (Some ((TPtr TBool), (HPtr (Some (0, 0)%nat)))))]] (TPtr TAny) (HPtr (Some (1, 0)%nat)) (bs "b:1;").
Proof. run. Qed.
Example test_250 : writes [Decl (UStruct [fld "B" "b,string" TBool]) NoMethod false] [] (TName 0) (HStruct [(HBool true)]) (bs "a:1:{s:1:""b"";s:4:""true"";}").
Proof. run. Qed.
Example test_251 : writes [Decl (UStruct [fld "B" "b,string" TBool]) NoMethod false; Decl (UStruct [fld "Name" "" TString; fld "Data" "" TAny; fld "Expected" "-" TString]) NoMethod false] [] (TName 1) (HStruct [(HStr (bs "bool true as string")); (HIface (Some ((TName 0), (HStruct [(HBool true)])))); (HStr (bs "a:1:{s:1:""b"";s:4:""true"";}"))]) (bs "a:2:{s:4:""Name"";s:19:""bool true as string"";s:4:""Data"";a:1:{s:1:""b"";s:4:""true"";}}").
Proof. run. Qed.
Example test_252 : writes [Decl (UStruct [fld "B" "b,string" TBool]) NoMethod false] [Cells [(HIface (Some ((TName 0), (HStruct [(HBool true)]))))]] (TPtr TAny) (HPtr (Some (0, 0)%nat)) (bs "a:1:{s:1:""b"";s:4:""true"";}").
Proof. run. Qed.
Example test_253 : writes [] [] TBool (HBool false) (bs "b:0;").
Proof. run. Qed.
Example test_254 : writes [Decl (UStruct [fld "Name" "" TString; fld "Data" "" TAny; fld "Expected" "-" TString]) NoMethod false] [] (TName 0) (HStruct [(HStr (bs "bool false")); (HIface (Some (TBool, (HBool false)))); (HStr (bs "b:0;"))]) (bs "a:2:{s:4:""Name"";s:10:""bool false"";s:4:""Data"";b:0;}").
Proof. run. Qed.
Example test_255 : writes [] [Cells [(HIface (Some (TBool, (HBool false))))]] (TPtr TAny) (HPtr (Some (0, 0)%nat)) (bs "b:0;").
Proof. run. Qed.
Example test_256 : writes [Decl (UStruct [fld "B" "b,string" TBool]) NoMethod false] [] (TName 0) (HStruct [(HBool false)]) (bs "a:1:{s:1:""b"";s:5:""false"";}").
Proof. run. Qed.
Example test_257 : writes [Decl (UStruct [fld "B" "b,string" TBool]) NoMethod false; Decl (UStruct [fld "Name" "" TString; fld "Data" "" TAny; fld "Expected" "-" TString]) NoMethod false] [] (TName 1) (HStruct [(HStr (bs "bool true as string")); (HIface (Some ((TName 0), (HStruct [(HBool false)])))); (HStr (bs "a:1:{s:1:""b"";s:5:""false"";}"))]) (bs "a:2:{s:4:""Name"";s:19:""bool true as string"";s:4:""Data"";a:1:{s:1:""b"";s:5:""false"";}}").
Proof. run. Qed.
Example test_258 : writes [Decl (UStruct [fld "B" "b,string" TBool]) NoMethod false] [Cells [(HIface (Some ((TName 0), (HStruct [(HBool false)]))))]] (TPtr TAny) (HPtr (Some (0, 0)%nat)) (bs "a:1:{s:1:""b"";s:5:""false"";}").
Proof. run. Qed.
Example test_259 : writes [] [Cells [(HBool false)]] (TPtr TBool) (HPtr (Some (0, 0)%nat)) (bs "b:0;").
Proof. run. Qed.
Example test_260 : writes [Decl (UStruct [fld "Name" "" TString; fld "Data" "" TAny; fld "Expected" "-" TString]) NoMethod false] [Cells [(HBool false)]] (TName 0) (HStruct [(HStr (bs "*bool false")); (HIface (Some ((TPtr TBool), (HPtr (Some (0, 0)%nat))))); (HStr (bs "b:0;"))]) (bs "a:2:{s:4:""Name"";s:11:""*bool false"";s:4:""Data"";b:0;}").
Proof. run. Qed.
Example test_261 : writes [] [Cells [(HBool false)]; Cells [(HIface (Some ((TPtr TBool), (HPtr (Some (0, 0)%nat)))))]] (TPtr TAny) (HPtr (Some (1, 0)%nat)) (bs "b:0;").
Proof. run. Qed.
Example test_262 : writes [Decl (UStruct [fld "Value" "value,string" (TPtr TBool)]) NoMethod false] [Cells [(HBool false)]] (TName 0) (HStruct [(HPtr (Some (0, 0)%nat))]) (bs "a:1:{s:5:""value"";s:5:""false"";}").
Proof. run. Qed.
Example test_263 : writes [Decl (UStruct [fld "Value" "value,string" (TPtr TBool)]) NoMethod false; Decl (UStruct [fld "Name" "" TString; fld "Data" "" TAny; fld "Expected" "-" TString]) NoMethod false] [Cells [(HBool false)]] (TName 1) (HStruct [(HStr (bs "*bool-as-string-direct")); (HIface (Some ((TName 0), (HStruct [(HPtr (Some (0, 0)%nat))])))); (HStr (bs "a:1:{s:5:""value"";s:5:""false"";}"))]) (bs "a:2:{s:4:""Name"";s:22:""*bool-as-string-direct"";s:4:""Data"";a:1:{s:5:""value"";s:5:""false"";}}").
Proof. run. Qed.
Example test_264 : writes [Decl (UStruct [fld "Value" "value,string" (TPtr TBool)]) NoMethod false] [Cells [(HBool false)]; Cells [(HIface (Some ((TName 0), (HStruct [(HPtr (Some (0, 0)%nat))]))))]] (TPtr TAny) (HPtr (Some (1, 0)%nat)) (bs "a:1:{s:5:""value"";s:5:""false"";}").
Proof. run. Qed.
Example test_265 : writes [Decl (UStruct [fld "Value" "value,string" (TPtr TBool); fld "B" "" (TPtr TBool)]) NoMethod false] [Cells [(HBool false)]] (TName 0) (HStruct [(HPtr (Some (0, 0)%nat)); (HPtr None)]) (bs "a:2:{s:5:""value"";s:5:""false"";s:1:""B"";N;}").
Proof. run. Qed.
Example test_266 : writes [Decl (UStruct [fld "Value" "value,string" (TPtr TBool); fld "B" "" (TPtr TBool)]) NoMethod false; Decl (UStruct [fld "Name" "" TString; fld "Data" "" TAny; fld "Expected" "-" TString]) NoMethod false] [Cells [(HBool false)]] (TName 1) (HStruct [(HStr (bs "*bool-as-string-indirect")); (HIface (Some ((TName 0), (HStruct [(HPtr (Some (0, 0)%nat)); (HPtr None)])))); (HStr (bs "a:2:{s:5:""value"";s:5:""false"";s:1:""B"";N;}"))]) (bs "a:2:{s:4:""Name"";s:24:""*bool-as-string-indirect"";s:4:""Data"";a:2:{s:5:""value"";s:5:""false"";s:1:""B"";N;}}").
Proof. run. Qed.
Example test_267 : writes [Decl (UStruct [fld "Value" "value,string" (TPtr TBool); fld "B" "" (TPtr TBool)]) NoMethod false] [Cells [(HBool false)]; Cells [(HIface (Some ((TName 0), (HStruct [(HPtr (Some (0, 0)%nat)); (HPtr None)]))))]] (TPtr TAny) (HPtr (Some (1, 0)%nat)) (bs "a:2:{s:5:""value"";s:5:""false"";s:1:""B"";N;}").
Proof. run. Qed.
Example test_268 : writes [] [] (TInt I8) (HInt (7)) (bs "i:7;").
Proof. run. Qed.
Example test_269 : writes [Decl (UStruct [fld "Name" "" TString; fld "Data" "" TAny; fld "Expected" "-" TString]) NoMethod false] [] (TName 0) (HStruct [(HStr (bs "int8")); (HIface (Some ((TInt I8), (HInt (7))))); (HStr (bs "i:7;"))]) (bs "a:2:{s:4:""Name"";s:4:""int8"";s:4:""Data"";i:7;}").
Proof. run. Qed.
Example test_270 : writes [] [Cells [(HIface (Some ((TInt I8), (HInt (7)))))]] (TPtr TAny) (HPtr (Some (0, 0)%nat)) (bs "i:7;").
Proof. run. Qed.
Example test_271 : writes [] [Cells [(HInt (-7))]] (TPtr (TInt I8)) (HPtr (Some (0, 0)%nat)) (bs "i:-7;").
Proof. run. Qed.
Example test_272 : writes [Decl (UStruct [fld "Name" "" TString; fld "Data" "" TAny; fld "Expected" "-" TString]) NoMethod false] [Cells [(HInt (-7))]] (TName 0) (HStruct [(HStr (bs "*int8")); (HIface (Some ((TPtr (TInt I8)), (HPtr (Some (0, 0)%nat))))); (HStr (bs "i:-7;"))]) (bs "a:2:{s:4:""Name"";s:5:""*int8"";s:4:""Data"";i:-7;}").
Proof. run. Qed.
Example test_273 : writes [] [Cells [(HInt (-7))]; Cells [(HIface (Some ((TPtr (TInt I8)), (HPtr (Some (0, 0)%nat)))))]] (TPtr TAny) (HPtr (Some (1, 0)%nat)) (bs "i:-7;").
Proof. run. Qed.
Example test_274 : writes [Decl (UStruct [fld "Value" "value,string" (TInt I8)]) NoMethod false] [] (TName 0) (HStruct [(HInt (10))]) (bs "a:1:{s:5:""value"";s:2:""10"";}").
Proof. run. Qed.
Example test_275 : writes [Decl (UStruct [fld "Value" "value,string" (TInt I8)]) NoMethod false; Decl (UStruct [fld "Name" "" TString; fld "Data" "" TAny; fld "Expected" "-" TString]) NoMethod false] [] (TName 1) (HStruct [(HStr (bs "int8 as string")); (HIface (Some ((TName 0), (HStruct [(HInt (10))])))); (HStr (bs "a:1:{s:5:""value"";s:2:""10"";}"))]) (bs "a:2:{s:4:""Name"";s:14:""int8 as string"";s:4:""Data"";a:1:{s:5:""value"";s:2:""10"";}}").
Proof. run. Qed.
Example test_276 : writes [Decl (UStruct [fld "Value" "value,string" (TInt I8)]) NoMethod false] [Cells [(HIface (Some ((TName 0), (HStruct [(HInt (10))]))))]] (TPtr TAny) (HPtr (Some (0, 0)%nat)) (bs "a:1:{s:5:""value"";s:2:""10"";}").
Proof. run. Qed.
Example test_277 : writes [] [] (TInt I16) (HInt (7)) (bs "i:7;").
Proof. run. Qed.
Example test_278 : writes [Decl (UStruct [fld "Name" "" TString; fld "Data" "" TAny; fld "Expected" "-" TString]) NoMethod false] [] (TName 0) (HStruct [(HStr (bs "int16")); (HIface (Some ((TInt I16), (HInt (7))))); (HStr (bs "i:7;"))]) (bs "a:2:{s:4:""Name"";s:5:""int16"";s:4:""Data"";i:7;}").
Proof. run. Qed.
Example test_279 : writes [] [Cells [(HIface (Some ((TInt I16), (HInt (7)))))]] (TPtr TAny) (HPtr (Some (0, 0)%nat)) (bs "i:7;").
Proof. run. Qed.
Example test_280 : writes [] [Cells [(HInt (7))]] (TPtr (TInt I16)) (HPtr (Some (0, 0)%nat)) (bs "i:7;").
Proof. run. Qed.
Example test_281 : writes [Decl (UStruct [fld "Name" "" TString; fld "Data" "" TAny; fld "Expected" "-" TString]) NoMethod false] [Cells [(HInt (7))]] (TName 0) (HStruct [(HStr (bs "*int16")); (HIface (Some ((TPtr (TInt I16)), (HPtr (Some (0, 0)%nat))))); (HStr (bs "i:7;"))]) (bs "a:2:{s:4:""Name"";s:6:""*int16"";s:4:""Data"";i:7;}").
Proof. run. Qed.
Example test_282 : writes [] [Cells [(HInt (7))]; Cells [(HIface (Some ((TPtr (TInt I16)), (HPtr (Some (0, 0)%nat)))))]] (TPtr TAny) (HPtr (Some (1, 0)%nat)) (bs "i:7;").
Proof. run. Qed.
Example test_283 : writes [Decl (UStruct [fld "Value" "value,string" (TInt I16)]) NoMethod false] [] (TName 0) (HStruct [(HInt (100))]) (bs "a:1:{s:5:""value"";s:3:""100"";}").
Proof. run. Qed.
Example test_284 : writes [Decl (UStruct [fld "Value" "value,string" (TInt I16)]) NoMethod false; Decl (UStruct [fld "Name" "" TString; fld "Data" "" TAny; fld "Expected" "-" TString]) NoMethod false] [] (TName 1) (HStruct [(HStr (bs "int16 as string")); (HIface (Some ((TName 0), (HStruct [(HInt (100))])))); (HStr (bs "a:1:{s:5:""value"";s:3:""100"";}"))]) (bs "a:2:{s:4:""Name"";s:15:""int16 as string"";s:4:""Data"";a:1:{s:5:""value"";s:3:""100"";}}").
Proof. run. Qed.
Example test_285 : writes [Decl (UStruct [fld "Value" "value,string" (TInt I16)]) NoMethod false] [Cells [(HIface (Some ((TName 0), (HStruct [(HInt (100))]))))]] (TPtr TAny) (HPtr (Some (0, 0)%nat)) (bs "a:1:{s:5:""value"";s:3:""100"";}").
Proof. run. Qed.
Example test_286 : writes [] [] (TInt I32) (HInt (7)) (bs "i:7;").
Proof. run. Qed.
Example test_287 : writes [Decl (UStruct [fld "Name" "" TString; fld "Data" "" TAny; fld "Expected" "-" TString]) NoMethod false] [] (TName 0) (HStruct [(HStr (bs "int32")); (HIface (Some ((TInt I32), (HInt (7))))); (HStr (bs "i:7;"))]) (bs "a:2:{s:4:""Name"";s:5:""int32"";s:4:""Data"";i:7;}").
Proof. run. Qed.
Example test_288 : writes [] [Cells [(HIface (Some ((TInt I32), (HInt (7)))))]] (TPtr TAny) (HPtr (Some (0, 0)%nat)) (bs "i:7;").
Proof. run. Qed.
Example test_289 : writes [] [Cells [(HInt (9))]] (TPtr (TInt I32)) (HPtr (Some (0, 0)%nat)) (bs "i:9;").
Proof. run. Qed.
Example test_290 : writes [Decl (UStruct [fld "Name" "" TString; fld "Data" "" TAny; fld "Expected" "-" TString]) NoMethod false] [Cells [(HInt (9))]] (TName 0) (HStruct [(HStr (bs "*int32")); (HIface (Some ((TPtr (TInt I32)), (HPtr (Some (0, 0)%nat))))); (HStr (bs "i:9;"))]) (bs "a:2:{s:4:""Name"";s:6:""*int32"";s:4:""Data"";i:9;}").
Proof. run. Qed.
Example test_291 : writes [] [Cells [(HInt (9))]; Cells [(HIface (Some ((TPtr (TInt I32)), (HPtr (Some (0, 0)%nat)))))]] (TPtr TAny) (HPtr (Some (1, 0)%nat)) (bs "i:9;").
Proof. run. Qed.
Example test_292 : writes [Decl (UStruct [fld "Value" "value,string" (TInt I32)]) NoMethod false] [] (TName 0) (HStruct [(HInt (100))]) (bs "a:1:{s:5:""value"";s:3:""100"";}").
Proof. run. Qed.
Example test_293 : writes [Decl (UStruct [fld "Value" "value,string" (TInt I32)]) NoMethod false; Decl (UStruct [fld "Name" "" TString; fld "Data" "" TAny; fld "Expected" "-" TString]) NoMethod false] [] (TName 1) (HStruct [(HStr (bs "int32 as string")); (HIface (Some ((TName 0), (HStruct [(HInt (100))])))); (HStr (bs "a:1:{s:5:""value"";s:3:""100"";}"))]) (bs "a:2:{s:4:""Name"";s:15:""int32 as string"";s:4:""Data"";a:1:{s:5:""value"";s:3:""100"";}}").
Proof. run. Qed.
Example test_294 : writes [Decl (UStruct [fld "Value" "value,string" (TInt I32)]) NoMethod false] [Cells [(HIface (Some ((TName 0), (HStruct [(HInt (100))]))))]] (TPtr TAny) (HPtr (Some (0, 0)%nat)) (bs "a:1:{s:5:""value"";s:3:""100"";}").
Proof. run. Qed.
Example test_295 : writes [Decl (UStruct [fld "Value" "value,string" (TPtr (TInt I32))]) NoMethod false] [Cells [(HInt (100))]] (TName 0) (HStruct [(HPtr (Some (0, 0)%nat))]) (bs "a:1:{s:5:""value"";s:3:""100"";}").
Proof. run. Qed.
Example test_296 : writes [Decl (UStruct [fld "Value" "value,string" (TPtr (TInt I32))]) NoMethod false; Decl (UStruct [fld "Name" "" TString; fld "Data" "" TAny; fld "Expected" "-" TString]) NoMethod false] [Cells [(HInt (100))]] (TName 1) (HStruct [(HStr (bs "*int32 as string")); (HIface (Some ((TName 0), (HStruct [(HPtr (Some (0, 0)%nat))])))); (HStr (bs "a:1:{s:5:""value"";s:3:""100"";}"))]) (bs "a:2:{s:4:""Name"";s:16:""*int32 as string"";s:4:""Data"";a:1:{s:5:""value"";s:3:""100"";}}").
Proof. run. Qed.
Example test_297 : writes [Decl (UStruct [fld "Value" "value,string" (TPtr (TInt I32))]) NoMethod false] [Cells [(HInt (100))]; Cells [(HIface (Some ((TName 0), (HStruct [(HPtr (Some (0, 0)%nat))]))))]] (TPtr TAny) (HPtr (Some (1, 0)%nat)) (bs "a:1:{s:5:""value"";s:3:""100"";}").
Proof. run. Qed.
Example test_298 : writes [] [] (TInt I64) (HInt (7)) (bs "i:7;").
Proof. run. Qed.
Example test_299 : writes [Decl (UStruct [fld "Name" "" TString; fld "Data" "" TAny; fld "Expected" "-" TString]) NoMethod false] [] (TName 0) (HStruct [(HStr (bs "int64")); (HIface (Some ((TInt I64), (HInt (7))))); (HStr (bs "i:7;"))]) (bs "a:2:{s:4:""Name"";s:5:""int64"";s:4:""Data"";i:7;}").
Proof. run. Qed.
Example test_300 : writes [] [Cells [(HIface (Some ((TInt I64), (HInt (7)))))]] (TPtr TAny) (HPtr (Some (0, 0)%nat)) (bs "i:7;").
Proof. run. Qed.
Example test_301 : writes [] [] (TInt IInt) (HInt (8)) (bs "i:8;").
Proof. run. Qed.
Example test_302 : writes [Decl (UStruct [fld "Name" "" TString; fld "Data" "" TAny; fld "Expected" "-" TString]) NoMethod false] [] (TName 0) (HStruct [(HStr (bs "int")); (HIface (Some ((TInt IInt), (HInt (8))))); (HStr (bs "i:8;"))]) (bs "a:2:{s:4:""Name"";s:3:""int"";s:4:""Data"";i:8;}").
Proof. run. Qed.
Example test_303 : writes [] [Cells [(HIface (Some ((TInt IInt), (HInt (8)))))]] (TPtr TAny) (HPtr (Some (0, 0)%nat)) (bs "i:8;").
Proof. run. Qed.
Example test_304 : writes [] [Cells [(HInt (10))]] (TPtr (TInt I64)) (HPtr (Some (0, 0)%nat)) (bs "i:10;").
Proof. run. Qed.
Example test_305 : writes [Decl (UStruct [fld "Name" "" TString; fld "Data" "" TAny; fld "Expected" "-" TString]) NoMethod false] [Cells [(HInt (10))]] (TName 0) (HStruct [(HStr (bs "*int64")); (HIface (Some ((TPtr (TInt I64)), (HPtr (Some (0, 0)%nat))))); (HStr (bs "i:10;"))]) (bs "a:2:{s:4:""Name"";s:6:""*int64"";s:4:""Data"";i:10;}").
Proof. run. Qed.
Example test_306 : writes [] [Cells [(HInt (10))]; Cells [(HIface (Some ((TPtr (TInt I64)), (HPtr (Some (0, 0)%nat)))))]] (TPtr TAny) (HPtr (Some (1, 0)%nat)) (bs "i:10;").
Proof. run. Qed.
Example test_307 : writes [] [Cells [(HInt (11))]] (TPtr (TInt IInt)) (HPtr (Some (0, 0)%nat)) (bs "i:11;").
Proof. run. Qed.
Example test_308 : writes [Decl (UStruct [fld "Name" "" TString; fld "Data" "" TAny; fld "Expected" "-" TString]) NoMethod false] [Cells [(HInt (11))]] (TName 0) (HStruct [(HStr (bs "*int")); (HIface (Some ((TPtr (TInt IInt)), (HPtr (Some (0, 0)%nat))))); (HStr (bs "i:11;"))]) (bs "a:2:{s:4:""Name"";s:4:""*int"";s:4:""Data"";i:11;}").
Proof. run. Qed.
Example test_309 : writes [] [Cells [(HInt (11))]; Cells [(HIface (Some ((TPtr (TInt IInt)), (HPtr (Some (0, 0)%nat)))))]] (TPtr TAny) (HPtr (Some (1, 0)%nat)) (bs "i:11;").
Proof. run. Qed.
Example test_310 : writes [] [] (TUint U8) (HUint 7) (bs "i:7;").
Proof. run. Qed.
Example test_311 : writes [Decl (UStruct [fld "Name" "" TString; fld "Data" "" TAny; fld "Expected" "-" TString]) NoMethod false] [] (TName 0) (HStruct [(HStr (bs "uint8")); (HIface (Some ((TUint U8), (HUint 7)))); (HStr (bs "i:7;"))]) (bs "a:2:{s:4:""Name"";s:5:""uint8"";s:4:""Data"";i:7;}").
Proof. run. Qed.
Example test_312 : writes [] [Cells [(HIface (Some ((TUint U8), (HUint 7))))]] (TPtr TAny) (HPtr (Some (0, 0)%nat)) (bs "i:7;").
Proof. run. Qed.
Example test_313 : writes [] [] (TUint U16) (HUint 7) (bs "i:7;").
Proof. run. Qed.
Example test_314 : writes [Decl (UStruct [fld "Name" "" TString; fld "Data" "" TAny; fld "Expected" "-" TString]) NoMethod false] [] (TName 0) (HStruct [(HStr (bs "uint16")); (HIface (Some ((TUint U16), (HUint 7)))); (HStr (bs "i:7;"))]) (bs "a:2:{s:4:""Name"";s:6:""uint16"";s:4:""Data"";i:7;}").
Proof. run. Qed.
Example test_315 : writes [] [Cells [(HIface (Some ((TUint U16), (HUint 7))))]] (TPtr TAny) (HPtr (Some (0, 0)%nat)) (bs "i:7;").
Proof. run. Qed.
Example test_316 : writes [] [] (TUint U32) (HUint 7) (bs "i:7;").
Proof. run. Qed.
Example test_317 : writes [Decl (UStruct [fld "Name" "" TString; fld "Data" "" TAny; fld "Expected" "-" TString]) NoMethod false] [] (TName 0) (HStruct [(HStr (bs "uint32")); (HIface (Some ((TUint U32), (HUint 7)))); (HStr (bs "i:7;"))]) (bs "a:2:{s:4:""Name"";s:6:""uint32"";s:4:""Data"";i:7;}").
Proof. run. Qed.
Example test_318 : writes [] [Cells [(HIface (Some ((TUint U32), (HUint 7))))]] (TPtr TAny) (HPtr (Some (0, 0)%nat)) (bs "i:7;").
Proof. run. Qed.
Example test_319 : writes [] [] (TUint U64) (HUint 7777) (bs "i:7777;").
Proof. run. Qed.
Example test_320 : writes [Decl (UStruct [fld "Name" "" TString; fld "Data" "" TAny; fld "Expected" "-" TString]) NoMethod false] [] (TName 0) (HStruct [(HStr (bs "uint64")); (HIface (Some ((TUint U64), (HUint 7777)))); (HStr (bs "i:7777;"))]) (bs "a:2:{s:4:""Name"";s:6:""uint64"";s:4:""Data"";i:7777;}").
Proof. run. Qed.
Example test_321 : writes [] [Cells [(HIface (Some ((TUint U64), (HUint 7777))))]] (TPtr TAny) (HPtr (Some (0, 0)%nat)) (bs "i:7777;").
Proof. run. Qed.
Example test_322 : writes [] [] (TUint UUint) (HUint 9) (bs "i:9;").
Proof. run. Qed.
Example test_323 : writes [Decl (UStruct [fld "Name" "" TString; fld "Data" "" TAny; fld "Expected" "-" TString]) NoMethod false] [] (TName 0) (HStruct [(HStr (bs "uint")); (HIface (Some ((TUint UUint), (HUint 9)))); (HStr (bs "i:9;"))]) (bs "a:2:{s:4:""Name"";s:4:""uint"";s:4:""Data"";i:9;}").
Proof. run. Qed.
Example test_324 : writes [] [Cells [(HIface (Some ((TUint UUint), (HUint 9))))]] (TPtr TAny) (HPtr (Some (0, 0)%nat)) (bs "i:9;").
Proof. run. Qed.
Example test_325 : writes [] [Cells [(HUint 7)]] (TPtr (TUint U8)) (HPtr (Some (0, 0)%nat)) (bs "i:7;").
Proof. run. Qed.
Example test_326 : writes [Decl (UStruct [fld "Name" "" TString; fld "Data" "" TAny; fld "Expected" "-" TString]) NoMethod false] [Cells [(HUint 7)]] (TName 0) (HStruct [(HStr (bs "*uint8")); (HIface (Some ((TPtr (TUint U8)), (HPtr (Some (0, 0)%nat))))); (HStr (bs "i:7;"))]) (bs "a:2:{s:4:""Name"";s:6:""*uint8"";s:4:""Data"";i:7;}").
Proof. run. Qed.
Example test_327 : writes [] [Cells [(HUint 7)]; Cells [(HIface (Some ((TPtr (TUint U8)), (HPtr (Some (0, 0)%nat)))))]] (TPtr TAny) (HPtr (Some (1, 0)%nat)) (bs "i:7;").
Proof. run. Qed.
Example test_328 : writes [] [Cells [(HUint 7)]] (TPtr (TUint U16)) (HPtr (Some (0, 0)%nat)) (bs "i:7;").
Proof. run. Qed.
Example test_329 : writes [Decl (UStruct [fld "Name" "" TString; fld "Data" "" TAny; fld "Expected" "-" TString]) NoMethod false] [Cells [(HUint 7)]] (TName 0) (HStruct [(HStr (bs "*uint16")); (HIface (Some ((TPtr (TUint U16)), (HPtr (Some (0, 0)%nat))))); (HStr (bs "i:7;"))]) (bs "a:2:{s:4:""Name"";s:7:""*uint16"";s:4:""Data"";i:7;}").
Proof. run. Qed.
Example test_330 : writes [] [Cells [(HUint 7)]; Cells [(HIface (Some ((TPtr (TUint U16)), (HPtr (Some (0, 0)%nat)))))]] (TPtr TAny) (HPtr (Some (1, 0)%nat)) (bs "i:7;").
Proof. run. Qed.
Example test_331 : writes [] [Cells [(HUint 7)]] (TPtr (TUint U32)) (HPtr (Some (0, 0)%nat)) (bs "i:7;").
Proof. run. Qed.
Example test_332 : writes [Decl (UStruct [fld "Name" "" TString; fld "Data" "" TAny; fld "Expected" "-" TString]) NoMethod false] [Cells [(HUint 7)]] (TName 0) (HStruct [(HStr (bs "*uint32")); (HIface (Some ((TPtr (TUint U32)), (HPtr (Some (0, 0)%nat))))); (HStr (bs "i:7;"))]) (bs "a:2:{s:4:""Name"";s:7:""*uint32"";s:4:""Data"";i:7;}").
Proof. run. Qed.
Example test_333 : writes [] [Cells [(HUint 7)]; Cells [(HIface (Some ((TPtr (TUint U32)), (HPtr (Some (0, 0)%nat)))))]] (TPtr TAny) (HPtr (Some (1, 0)%nat)) (bs "i:7;").
Proof. run. Qed.
Example test_334 : writes [] [Cells [(HUint 7)]] (TPtr (TUint U64)) (HPtr (Some (0, 0)%nat)) (bs "i:7;").
Proof. run. Qed.
Example test_335 : writes [Decl (UStruct [fld "Name" "" TString; fld "Data" "" TAny; fld "Expected" "-" TString]) NoMethod false] [Cells [(HUint 7)]] (TName 0) (HStruct [(HStr (bs "*uint64")); (HIface (Some ((TPtr (TUint U64)), (HPtr (Some (0, 0)%nat))))); (HStr (bs "i:7;"))]) (bs "a:2:{s:4:""Name"";s:7:""*uint64"";s:4:""Data"";i:7;}").
Proof. run. Qed.
Example test_336 : writes [] [Cells [(HUint 7)]; Cells [(HIface (Some ((TPtr (TUint U64)), (HPtr (Some (0, 0)%nat)))))]] (TPtr TAny) (HPtr (Some (1, 0)%nat)) (bs "i:7;").
Proof. run. Qed.
Example test_337 : writes [] [Cells [(HUint 787)]] (TPtr (TUint UUint)) (HPtr (Some (0, 0)%nat)) (bs "i:787;").
Proof. run. Qed.
Example test_338 : writes [Decl (UStruct [fld "Name" "" TString; fld "Data" "" TAny; fld "Expected" "-" TString]) NoMethod false] [Cells [(HUint 787)]] (TName 0) (HStruct [(HStr (bs "*uint")); (HIface (Some ((TPtr (TUint UUint)), (HPtr (Some (0, 0)%nat))))); (HStr (bs "i:787;"))]) (bs "a:2:{s:4:""Name"";s:5:""*uint"";s:4:""Data"";i:787;}").
Proof. run. Qed.
Example test_339 : writes [] [Cells [(HUint 787)]; Cells [(HIface (Some ((TPtr (TUint UUint)), (HPtr (Some (0, 0)%nat)))))]] (TPtr TAny) (HPtr (Some (1, 0)%nat)) (bs "i:787;").
Proof. run. Qed.
Example test_340 : writes [] [] TF32 (HF32 pi32) (bs "d:3.14;").
Proof. run. Qed.
Example test_341 : writes [Decl (UStruct [fld "Name" "" TString; fld "Data" "" TAny; fld "Expected" "-" TString]) NoMethod false] [] (TName 0) (HStruct [(HStr (bs "float32")); (HIface (Some (TF32, (HF32 pi32)))); (HStr (bs "d:3.14;"))]) (bs "a:2:{s:4:""Name"";s:7:""float32"";s:4:""Data"";d:3.14;}").
Proof. run. Qed.
Example test_342 : writes [] [Cells [(HIface (Some (TF32, (HF32 pi32))))]] (TPtr TAny) (HPtr (Some (0, 0)%nat)) (bs "d:3.14;").
Proof. run. Qed.
Example test_343 : writes [] [Cells [HF32 pi32]] (TPtr TF32) (HPtr (Some (0, 0)%nat)) (bs "d:3.14;").
Proof. run. Qed.
Example test_344 : writes [Decl (UStruct [fld "Name" "" TString; fld "Data" "" TAny; fld "Expected" "-" TString]) NoMethod false] [Cells [HF32 pi32]] (TName 0) (HStruct [(HStr (bs "*float32")); (HIface (Some ((TPtr TF32), (HPtr (Some (0, 0)%nat))))); (HStr (bs "d:3.14;"))]) (bs "a:2:{s:4:""Name"";s:8:""*float32"";s:4:""Data"";d:3.14;}").
Proof. run. Qed.
Example test_345 : writes [] [Cells [HF32 pi32]; Cells [(HIface (Some ((TPtr TF32), (HPtr (Some (0, 0)%nat)))))]] (TPtr TAny) (HPtr (Some (1, 0)%nat)) (bs "d:3.14;").
Proof. run. Qed.
Example test_346 : writes [] [] TF64 (HF64 pi) (bs "d:3.14;").
Proof. run. Qed.
Example test_347 : writes [Decl (UStruct [fld "Name" "" TString; fld "Data" "" TAny; fld "Expected" "-" TString]) NoMethod false] [] (TName 0) (HStruct [(HStr (bs "float64")); (HIface (Some (TF64, (HF64 pi)))); (HStr (bs "d:3.14;"))]) (bs "a:2:{s:4:""Name"";s:7:""float64"";s:4:""Data"";d:3.14;}").
Proof. run. Qed.
Example test_348 : writes [] [Cells [(HIface (Some (TF64, (HF64 pi))))]] (TPtr TAny) (HPtr (Some (0, 0)%nat)) (bs "d:3.14;").
Proof. run. Qed.
Example test_349 : writes [] [Cells [HF64 f354]] (TPtr TF64) (HPtr (Some (0, 0)%nat)) (bs "d:3.54;").
Proof. run. Qed.
Example test_350 : writes [Decl (UStruct [fld "Name" "" TString; fld "Data" "" TAny; fld "Expected" "-" TString]) NoMethod false] [Cells [HF64 f354]] (TName 0) (HStruct [(HStr (bs "*float64")); (HIface (Some ((TPtr TF64), (HPtr (Some (0, 0)%nat))))); (HStr (bs "d:3.54;"))]) (bs "a:2:{s:4:""Name"";s:8:""*float64"";s:4:""Data"";d:3.54;}").
Proof. run. Qed.
Example test_351 : writes [] [Cells [HF64 f354]; Cells [(HIface (Some ((TPtr TF64), (HPtr (Some (0, 0)%nat)))))]] (TPtr TAny) (HPtr (Some (1, 0)%nat)) (bs "d:3.54;").
Proof. run. Qed.
Example test_352 : writes [] [] TString (HStr (bs "qwer""qwer")) (bs "s:9:""qwer""qwer"";").
Proof. run. Qed.
Example test_353 : writes [Decl (UStruct [fld "Name" "" TString; fld "Data" "" TAny; fld "Expected" "-" TString]) NoMethod false] [] (TName 0) (HStruct [(HStr (bs "string")); (HIface (Some (TString, (HStr (bs "qwer""qwer"))))); (HStr (bs "s:9:""qwer""qwer"";"))]) (bs "a:2:{s:4:""Name"";s:6:""string"";s:4:""Data"";s:9:""qwer""qwer"";}").
Proof. run. Qed.
Example test_354 : writes [] [Cells [(HIface (Some (TString, (HStr (bs "qwer""qwer")))))]] (TPtr TAny) (HPtr (Some (0, 0)%nat)) (bs "s:9:""qwer""qwer"";").
Proof. run. Qed.
Example test_355 : writes [] [Cells [(HStr (bs "qwer""qwer"))]] (TPtr TString) (HPtr (Some (0, 0)%nat)) (bs "s:9:""qwer""qwer"";").
Proof. run. Qed.
Example test_356 : writes [Decl (UStruct [fld "Name" "" TString; fld "Data" "" TAny; fld "Expected" "-" TString]) NoMethod false] [Cells [(HStr (bs "qwer""qwer"))]] (TName 0) (HStruct [(HStr (bs "*string")); (HIface (Some ((TPtr TString), (HPtr (Some (0, 0)%nat))))); (HStr (bs "s:9:""qwer""qwer"";"))]) (bs "a:2:{s:4:""Name"";s:7:""*string"";s:4:""Data"";s:9:""qwer""qwer"";}").
Proof. run. Qed.
Example test_357 : writes [] [Cells [(HStr (bs "qwer""qwer"))]; Cells [(HIface (Some ((TPtr TString), (HPtr (Some (0, 0)%nat)))))]] (TPtr TAny) (HPtr (Some (1, 0)%nat)) (bs "s:9:""qwer""qwer"";").
Proof. run. Qed.
Example test_358 : writes [] [Cells [(HInt (1)); (HInt (4)); (HInt (6)); (HInt (2)); (HInt (3))]] (TSlice (TInt IInt)) (HSlice (Some (0, 0, 5)%nat)) (bs "a:5:{i:0;i:1;i:1;i:4;i:2;i:6;i:3;i:2;i:4;i:3;}").
Proof. run. Qed.
Example test_359 : writes [Decl (UStruct [fld "Name" "" TString; fld "Data" "" TAny; fld "Expected" "-" TString]) NoMethod false] [Cells [(HInt (1)); (HInt (4)); (HInt (6)); (HInt (2)); (HInt (3))]] (TName 0) (HStruct [(HStr (bs "simple slice")); (HIface (Some ((TSlice (TInt IInt)), (HSlice (Some (0, 0, 5)%nat))))); (HStr (bs "a:5:{i:0;i:1;i:1;i:4;i:2;i:6;i:3;i:2;i:4;i:3;}"))]) (bs "a:2:{s:4:""Name"";s:12:""simple slice"";s:4:""Data"";a:5:{i:0;i:1;i:1;i:4;i:2;i:6;i:3;i:2;i:4;i:3;}}").
Proof. run. Qed.
Example test_360 : writes [] [Cells [(HInt (1)); (HInt (4)); (HInt (6)); (HInt (2)); (HInt (3))]; Cells [(HIface (Some ((TSlice (TInt IInt)), (HSlice (Some (0, 0, 5)%nat)))))]] (TPtr TAny) (HPtr (Some (1, 0)%nat)) (bs "a:5:{i:0;i:1;i:1;i:4;i:2;i:6;i:3;i:2;i:4;i:3;}").
Proof. run. Qed.
Example test_361 : writes [Decl (UStruct [fld "V" "v" (TInt IInt)]) NoMethod false] [Cells [(HStruct [(HInt (6))]); (HStruct [(HInt (5))]); (HStruct [(HInt (4))]); (HStruct [(HInt (3))]); (HStruct [(HInt (2))])]] (TSlice (TName 0)) (HSlice (Some (0, 0, 5)%nat)) (bs "a:5:{i:0;a:1:{s:1:""v"";i:6;}i:1;a:1:{s:1:""v"";i:5;}i:2;a:1:{s:1:""v"";i:4;}i:3;a:1:{s:1:""v"";i:3;}i:4;a:1:{s:1:""v"";i:2;}}").
Proof. run. Qed.
Example test_362 : writes [Decl (UStruct [fld "V" "v" (TInt IInt)]) NoMethod false; Decl (UStruct [fld "Name" "" TString; fld "Data" "" TAny; fld "Expected" "-" TString]) NoMethod false] [Cells [(HStruct [(HInt (6))]); (HStruct [(HInt (5))]); (HStruct [(HInt (4))]); (HStruct [(HInt (3))]); (HStruct [(HInt (2))])]] (TName 1) (HStruct [(HStr (bs "struct-slice")); (HIface (Some ((TSlice (TName 0)), (HSlice (Some (0, 0, 5)%nat))))); (HStr (bs "a:5:{i:0;a:1:{s:1:""v"";i:6;}i:1;a:1:{s:1:""v"";i:5;}i:2;a:1:{s:1:""v"";i:4;}i:3;a:1:{s:1:""v"";i:3;}i:4;a:1:{s:1:""v"";i:2;}}"))]) (bs "a:2:{s:4:""Name"";s:12:""struct-slice"";s:4:""Data"";a:5:{i:0;a:1:{s:1:""v"";i:6;}i:1;a:1:{s:1:""v"";i:5;}i:2;a:1:{s:1:""v"";i:4;}i:3;a:1:{s:1:""v"";i:3;}i:4;a:1:{s:1:""v"";i:2;}}}").
Proof. run. Qed.
Example test_363 : writes [Decl (UStruct [fld "V" "v" (TInt IInt)]) NoMethod false] [Cells [(HStruct [(HInt (6))]); (HStruct [(HInt (5))]); (HStruct [(HInt (4))]); (HStruct [(HInt (3))]); (HStruct [(HInt (2))])]; Cells [(HIface (Some ((TSlice (TName 0)), (HSlice (Some (0, 0, 5)%nat)))))]] (TPtr TAny) (HPtr (Some (1, 0)%nat)) (bs "a:5:{i:0;a:1:{s:1:""v"";i:6;}i:1;a:1:{s:1:""v"";i:5;}i:2;a:1:{s:1:""v"";i:4;}i:3;a:1:{s:1:""v"";i:3;}i:4;a:1:{s:1:""v"";i:2;}}").
Proof. run. Qed.
Example test_364 : writes [Decl (UStruct [fld "Users" "users" (TSlice (TName 1)); fld "Map" "map" (TMap TString (TInt I64))]) NoMethod false; Decl (UStruct [fld "V" "v" (TInt IInt)]) NoMethod false] [Cells []; MapObj [((HStr (bs "one")), (HInt (1)))]] (TName 0) (HStruct [(HSlice (Some (0, 0, 0)%nat)); (HMap (Some 1%nat))]) (bs "a:2:{s:5:""users"";a:0:{}s:3:""map"";a:1:{s:3:""one"";i:1;}}").
Proof. run. Qed.
Example test_365 : writes [Decl (UStruct [fld "Users" "users" (TSlice (TName 1)); fld "Map" "map" (TMap TString (TInt I64))]) NoMethod false; Decl (UStruct [fld "V" "v" (TInt IInt)]) NoMethod false; Decl (UStruct [fld "Name" "" TString; fld "Data" "" TAny; fld "Expected" "-" TString]) NoMethod false] [Cells []; MapObj [((HStr (bs "one")), (HInt (1)))]] (TName 2) (HStruct [(HStr (bs "struct-with-map-indirect")); (HIface (Some ((TName 0), (HStruct [(HSlice (Some (0, 0, 0)%nat)); (HMap (Some 1%nat))])))); (HStr (bs "a:2:{s:5:""users"";a:0:{}s:3:""map"";a:1:{s:3:""one"";i:1;}}"))]) (bs "a:2:{s:4:""Name"";s:24:""struct-with-map-indirect"";s:4:""Data"";a:2:{s:5:""users"";a:0:{}s:3:""map"";a:1:{s:3:""one"";i:1;}}}").
Proof. run. Qed.
Example test_366 : writes [Decl (UStruct [fld "Users" "users" (TSlice (TName 1)); fld "Map" "map" (TMap TString (TInt I64))]) NoMethod false; Decl (UStruct [fld "V" "v" (TInt IInt)]) NoMethod false] [Cells []; MapObj [((HStr (bs "one")), (HInt (1)))]; Cells [(HIface (Some ((TName 0), (HStruct [(HSlice (Some (0, 0, 0)%nat)); (HMap (Some 1%nat))]))))]] (TPtr TAny) (HPtr (Some (2, 0)%nat)) (bs "a:2:{s:5:""users"";a:0:{}s:3:""map"";a:1:{s:3:""one"";i:1;}}").
Proof. run. Qed.
Example test_367 : writes [Decl (UStruct [fld "Map" "map" (TMap TString (TInt I64))]) NoMethod false] [MapObj [((HStr (bs "one")), (HInt (1)))]] (TName 0) (HStruct [(HMap (Some 0%nat))]) (bs "a:1:{s:3:""map"";a:1:{s:3:""one"";i:1;}}").
Proof. run. Qed.
Example test_368 : writes [Decl (UStruct [fld "Map" "map" (TMap TString (TInt I64))]) NoMethod false; Decl (UStruct [fld "Name" "" TString; fld "Data" "" TAny; fld "Expected" "-" TString]) NoMethod false] [MapObj [((HStr (bs "one")), (HInt (1)))]] (TName 1) (HStruct [(HStr (bs "struct with map embed")); (HIface (Some ((TName 0), (HStruct [(HMap (Some 0%nat))])))); (HStr (bs "a:1:{s:3:""map"";a:1:{s:3:""one"";i:1;}}"))]) (bs "a:2:{s:4:""Name"";s:21:""struct with map embed"";s:4:""Data"";a:1:{s:3:""map"";a:1:{s:3:""one"";i:1;}}}").
Proof. run. Qed.
Example test_369 : writes [Decl (UStruct [fld "Map" "map" (TMap TString (TInt I64))]) NoMethod false] [MapObj [((HStr (bs "one")), (HInt (1)))]; Cells [(HIface (Some ((TName 0), (HStruct [(HMap (Some 0%nat))]))))]] (TPtr TAny) (HPtr (Some (1, 0)%nat)) (bs "a:1:{s:3:""map"";a:1:{s:3:""one"";i:1;}}").
Proof. run. Qed.
Example test_370 : writes [] [MapObj []] (TMap (TInt IInt) TString) (HMap (Some 0%nat)) (bs "a:0:{}").
Proof. run. Qed.
Example test_371 : writes [Decl (UStruct [fld "Name" "" TString; fld "Data" "" TAny; fld "Expected" "-" TString]) NoMethod false] [MapObj []] (TName 0) (HStruct [(HStr (bs "empty map")); (HIface (Some ((TMap (TInt IInt) TString), (HMap (Some 0%nat))))); (HStr (bs "a:0:{}"))]) (bs "a:2:{s:4:""Name"";s:9:""empty map"";s:4:""Data"";a:0:{}}").
Proof. run. Qed.
Example test_372 : writes [] [MapObj []; Cells [(HIface (Some ((TMap (TInt IInt) TString), (HMap (Some 0%nat)))))]] (TPtr TAny) (HPtr (Some (1, 0)%nat)) (bs "a:0:{}").
Proof. run. Qed.
Example test_373 : writes [] [] (TMap TString TString) (HMap None) (bs "N;").
Proof. run. Qed.
Example test_374 : writes [Decl (UStruct [fld "Name" "" TString; fld "Data" "" TAny; fld "Expected" "-" TString]) NoMethod false] [] (TName 0) (HStruct [(HStr (bs "nil map")); (HIface (Some ((TMap TString TString), (HMap None)))); (HStr (bs "N;"))]) (bs "a:2:{s:4:""Name"";s:7:""nil map"";s:4:""Data"";N;}").
Proof. run. Qed.
Example test_375 : writes [] [Cells [(HIface (Some ((TMap TString TString), (HMap None))))]] (TPtr TAny) (HPtr (Some (0, 0)%nat)) (bs "N;").
Proof. run. Qed.
Example test_376 : writes [Decl (UStruct [fld "Value" "value,string" (TUint UUint)]) NoMethod false] [] (TName 0) (HStruct [(HUint 957123587)]) (bs "a:1:{s:5:""value"";s:9:""957123587"";}").
Proof. run. Qed.
Example test_377 : writes [Decl (UStruct [fld "Value" "value,string" (TUint UUint)]) NoMethod false; Decl (UStruct [fld "Name" "" TString; fld "Data" "" TAny; fld "Expected" "-" TString]) NoMethod false] [] (TName 1) (HStruct [(HStr (bs "uint as string")); (HIface (Some ((TName 0), (HStruct [(HUint 957123587)])))); (HStr (bs "a:1:{s:5:""value"";s:9:""957123587"";}"))]) (bs "a:2:{s:4:""Name"";s:14:""uint as string"";s:4:""Data"";a:1:{s:5:""value"";s:9:""957123587"";}}").
Proof. run. Qed.
Example test_378 : writes [Decl (UStruct [fld "Value" "value,string" (TUint UUint)]) NoMethod false] [Cells [(HIface (Some ((TName 0), (HStruct [(HUint 957123587)]))))]] (TPtr TAny) (HPtr (Some (0, 0)%nat)) (bs "a:1:{s:5:""value"";s:9:""957123587"";}").
Proof. run. Qed.
Example test_379 : writes [Decl (UStruct [fld "Value" "value,string" (TUint UUint)]) NoMethod false] [] (TName 0) (HStruct [(HUint 0)]) (bs "a:1:{s:5:""value"";s:1:""0"";}").
Proof. run. Qed.
Example test_380 : writes [Decl (UStruct [fld "Value" "value,string" (TUint UUint)]) NoMethod false; Decl (UStruct [fld "Name" "" TString; fld "Data" "" TAny; fld "Expected" "-" TString]) NoMethod false] [] (TName 1) (HStruct [(HStr (bs "uint as string 0")); (HIface (Some ((TName 0), (HStruct [(HUint 0)])))); (HStr (bs "a:1:{s:5:""value"";s:1:""0"";}"))]) (bs "a:2:{s:4:""Name"";s:16:""uint as string 0"";s:4:""Data"";a:1:{s:5:""value"";s:1:""0"";}}").
Proof. run. Qed.
Example test_381 : writes [Decl (UStruct [fld "Value" "value,string" (TUint UUint)]) NoMethod false] [Cells [(HIface (Some ((TName 0), (HStruct [(HUint 0)]))))]] (TPtr TAny) (HPtr (Some (0, 0)%nat)) (bs "a:1:{s:5:""value"";s:1:""0"";}").
Proof. run. Qed.
Example test_382 : writes [Decl (UStruct [fld "Value" "value,string" (TInt IInt)]) NoMethod false] [] (TName 0) (HStruct [(HInt (957123587))]) (bs "a:1:{s:5:""value"";s:9:""957123587"";}").
Proof. run. Qed.
Example test_383 : writes [Decl (UStruct [fld "Value" "value,string" (TInt IInt)]) NoMethod false; Decl (UStruct [fld "Name" "" TString; fld "Data" "" TAny; fld "Expected" "-" TString]) NoMethod false] [] (TName 1) (HStruct [(HStr (bs "int as string positive")); (HIface (Some ((TName 0), (HStruct [(HInt (957123587))])))); (HStr (bs "a:1:{s:5:""value"";s:9:""957123587"";}"))]) (bs "a:2:{s:4:""Name"";s:22:""int as string positive"";s:4:""Data"";a:1:{s:5:""value"";s:9:""957123587"";}}").
Proof. run. Qed.
Example test_384 : writes [Decl (UStruct [fld "Value" "value,string" (TInt IInt)]) NoMethod false] [Cells [(HIface (Some ((TName 0), (HStruct [(HInt (957123587))]))))]] (TPtr TAny) (HPtr (Some (0, 0)%nat)) (bs "a:1:{s:5:""value"";s:9:""957123587"";}").
Proof. run. Qed.
Example test_385 : writes [Decl (UStruct [fld "Value" "value,string" (TInt IInt)]) NoMethod false] [] (TName 0) (HStruct [(HInt (0))]) (bs "a:1:{s:5:""value"";s:1:""0"";}").
Proof. run. Qed.
Example test_386 : writes [Decl (UStruct [fld "Value" "value,string" (TInt IInt)]) NoMethod false; Decl (UStruct [fld "Name" "" TString; fld "Data" "" TAny; fld "Expected" "-" TString]) NoMethod false] [] (TName 1) (HStruct [(HStr (bs "int as string 0")); (HIface (Some ((TName 0), (HStruct [(HInt (0))])))); (HStr (bs "a:1:{s:5:""value"";s:1:""0"";}"))]) (bs "a:2:{s:4:""Name"";s:15:""int as string 0"";s:4:""Data"";a:1:{s:5:""value"";s:1:""0"";}}").
Proof. run. Qed.
Example test_387 : writes [Decl (UStruct [fld "Value" "value,string" (TInt IInt)]) NoMethod false] [Cells [(HIface (Some ((TName 0), (HStruct [(HInt (0))]))))]] (TPtr TAny) (HPtr (Some (0, 0)%nat)) (bs "a:1:{s:5:""value"";s:1:""0"";}").
Proof. run. Qed.
Example test_388 : writes [Decl (UStruct [fld "Value" "value,string" (TInt IInt)]) NoMethod false] [] (TName 0) (HStruct [(HInt (-957123587))]) (bs "a:1:{s:5:""value"";s:10:""-957123587"";}").
Proof. run. Qed.
Example test_389 : writes [Decl (UStruct [fld "Value" "value,string" (TInt IInt)]) NoMethod false; Decl (UStruct [fld "Name" "" TString; fld "Data" "" TAny; fld "Expected" "-" TString]) NoMethod false] [] (TName 1) (HStruct [(HStr (bs "int as string negative")); (HIface (Some ((TName 0), (HStruct [(HInt (-957123587))])))); (HStr (bs "a:1:{s:5:""value"";s:10:""-957123587"";}"))]) (bs "a:2:{s:4:""Name"";s:22:""int as string negative"";s:4:""Data"";a:1:{s:5:""value"";s:10:""-957123587"";}}").
Proof. run. Qed.
Example test_390 : writes [Decl (UStruct [fld "Value" "value,string" (TInt IInt)]) NoMethod false] [Cells [(HIface (Some ((TName 0), (HStruct [(HInt (-957123587))]))))]] (TPtr TAny) (HPtr (Some (0, 0)%nat)) (bs "a:1:{s:5:""value"";s:10:""-957123587"";}").
Proof. run. Qed.
Example test_391 : writes [Decl (UStruct [fld "OK" "" TBool; fld "Item" "" (TName 1); fld "V" "" (TInt IInt)]) NoMethod false; Decl (UStruct [fld "V" "v" (TInt IInt)]) NoMethod false] [] (TName 0) (HStruct [(HBool true); (HStruct [(HInt (5))]); (HInt (9999))]) (bs "a:3:{s:2:""OK"";b:1;s:4:""Item"";a:1:{s:1:""v"";i:5;}s:1:""V"";i:9999;}").
Proof. run. Qed.
Example test_392 : writes [Decl (UStruct [fld "OK" "" TBool; fld "Item" "" (TName 1); fld "V" "" (TInt IInt)]) NoMethod false; Decl (UStruct [fld "V" "v" (TInt IInt)]) NoMethod false; Decl (UStruct [fld "Name" "" TString; fld "Data" "" TAny; fld "Expected" "-" TString]) NoMethod false] [] (TName 2) (HStruct [(HStr (bs "nested struct not anonymous")); (HIface (Some ((TName 0), (HStruct [(HBool true); (HStruct [(HInt (5))]); (HInt (9999))])))); (HStr (bs "a:3:{s:2:""OK"";b:1;s:4:""Item"";a:1:{s:1:""v"";i:5;}s:1:""V"";i:9999;}"))]) (bs "a:2:{s:4:""Name"";s:27:""nested struct not anonymous"";s:4:""Data"";a:3:{s:2:""OK"";b:1;s:4:""Item"";a:1:{s:1:""v"";i:5;}s:1:""V"";i:9999;}}").
Proof. run. Qed.
Example test_393 : writes [Decl (UStruct [fld "OK" "" TBool; fld "Item" "" (TName 1); fld "V" "" (TInt IInt)]) NoMethod false; Decl (UStruct [fld "V" "v" (TInt IInt)]) NoMethod false] [Cells [(HIface (Some ((TName 0), (HStruct [(HBool true); (HStruct [(HInt (5))]); (HInt (9999))]))))]] (TPtr TAny) (HPtr (Some (0, 0)%nat)) (bs "a:3:{s:2:""OK"";b:1;s:4:""Item"";a:1:{s:1:""v"";i:5;}s:1:""V"";i:9999;}").
Proof. run. Qed.
Example test_394 : writes [Decl (UStruct [fld "Users" "users" (TSlice (TName 1)); fld "Obj" "obj" (TName 2); fld "B" "ok" TBool; fld "Map" "map" (TMap (TInt IInt) (TName 3))]) NoMethod false; Decl (UStruct [fld "ID" "id" (TUint U64); fld "Name" "name" TString]) NoMethod false; Decl (UStruct [fld "V" "v" (TInt IInt); fld "S" "a long string name replace field name" TString]) NoMethod false; Decl (UStruct [fld "V" "" (TInt IInt)]) NoMethod false] [Cells [(HStruct [(HUint 1); (HStr (bs "sai"))]); (HStruct [(HUint 2); (HStr (bs "trim21"))])]; MapObj [((HInt (7)), (HStruct [(HInt (4))]))]] (TName 0) (HStruct [(HSlice (Some (0, 0, 2)%nat)); (HStruct [(HInt (2)); (HStr (bs "vvv"))]); (HBool false); (HMap (Some 1%nat))]) (bs "a:4:{s:5:""users"";a:2:{i:0;a:2:{s:2:""id"";i:1;s:4:""name"";s:3:""sai"";}i:1;a:2:{s:2:""id"";i:2;s:4:""name"";s:6:""trim21"";}}s:3:""obj"";a:2:{s:1:""v"";i:2;s:37:""a long string name replace field name"";s:3:""vvv"";}s:2:""ok"";b:0;s:3:""map"";a:1:{i:7;a:1:{s:1:""V"";i:4;}}}").
Proof. run. Qed.
Example test_395 : writes [Decl (UStruct [fld "Users" "users" (TSlice (TName 1)); fld "Obj" "obj" (TName 2); fld "B" "ok" TBool; fld "Map" "map" (TMap (TInt IInt) (TName 3))]) NoMethod false; Decl (UStruct [fld "ID" "id" (TUint U64); fld "Name" "name" TString]) NoMethod false; Decl (UStruct [fld "V" "v" (TInt IInt); fld "S" "a long string name replace field name" TString]) NoMethod false; Decl (UStruct [fld "V" "" (TInt IInt)]) NoMethod false; Decl (UStruct [fld "Name" "" TString; fld "Data" "" TAny; fld "Expected" "-" TString]) NoMethod false] [Cells [(HStruct [(HUint 1); (HStr (bs "sai"))]); (HStruct [(HUint 2); (HStr (bs "trim21"))])]; MapObj [((HInt (7)), (HStruct [(HInt (4))]))]] (TName 4) (HStruct [(HStr (bs "struct with all")); (HIface (Some ((TName 0), (HStruct [(HSlice (Some (0, 0, 2)%nat)); (HStruct [(HInt (2)); (HStr (bs "vvv"))]); (HBool false); (HMap (Some 1%nat))])))); (HStr (bs "a:4:{s:5:""users"";a:2:{i:0;a:2:{s:2:""id"";i:1;s:4:""name"";s:3:""sai"";}i:1;a:2:{s:2:""id"";i:2;s:4:""name"";s:6:""trim21"";}}s:3:""obj"";a:2:{s:1:""v"";i:2;s:37:""a long string name replace field name"";s:3:""vvv"";}s:2:""ok"";b:0;s:3:""map"";a:1:{i:7;a:1:{s:1:""V"";i:4;}}}"))]) (bs "a:2:{s:4:""Name"";s:15:""struct with all"";s:4:""Data"";a:4:{s:5:""users"";a:2:{i:0;a:2:{s:2:""id"";i:1;s:4:""name"";s:3:""sai"";}i:1;a:2:{s:2:""id"";i:2;s:4:""name"";s:6:""trim21"";}}s:3:""obj"";a:2:{s:1:""v"";i:2;s:37:""a long string name replace field name"";s:3:""vvv"";}s:2:""ok"";b:0;s:3:""map"";a:1:{i:7;a:1:{s:1:""V"";i:4;}}}}").
Proof. run. Qed.
Example test_396 : writes [Decl (UStruct [fld "Users" "users" (TSlice (TName 1)); fld "Obj" "obj" (TName 2); fld "B" "ok" TBool; fld "Map" "map" (TMap (TInt IInt) (TName 3))]) NoMethod false; Decl (UStruct [fld "ID" "id" (TUint U64); fld "Name" "name" TString]) NoMethod false; Decl (UStruct [fld "V" "v" (TInt IInt); fld "S" "a long string name replace field name" TString]) NoMethod false; Decl (UStruct [fld "V" "" (TInt IInt)]) NoMethod false] [Cells [(HStruct [(HUint 1); (HStr (bs "sai"))]); (HStruct [(HUint 2); (HStr (bs "trim21"))])]; MapObj [((HInt (7)), (HStruct [(HInt (4))]))]; Cells [(HIface (Some ((TName 0), (HStruct [(HSlice (Some (0, 0, 2)%nat)); (HStruct [(HInt (2)); (HStr (bs "vvv"))]); (HBool false); (HMap (Some 1%nat))]))))]] (TPtr TAny) (HPtr (Some (2, 0)%nat)) (bs "a:4:{s:5:""users"";a:2:{i:0;a:2:{s:2:""id"";i:1;s:4:""name"";s:3:""sai"";}i:1;a:2:{s:2:""id"";i:2;s:4:""name"";s:6:""trim21"";}}s:3:""obj"";a:2:{s:1:""v"";i:2;s:37:""a long string name replace field name"";s:3:""vvv"";}s:2:""ok"";b:0;s:3:""map"";a:1:{i:7;a:1:{s:1:""V"";i:4;}}}").
Proof. run. Qed.
Example test_397 : writes [] [MapObj [((HInt (1)), (HMap (Some 1%nat)))]; MapObj [((HUint 4), (HStr (bs "ok")))]] (TMap (TInt IInt) (TMap (TUint UUint) TString)) (HMap (Some 0%nat)) (bs "a:1:{i:1;a:1:{i:4;s:2:""ok"";}}").
Proof. run. Qed.
Example test_398 : writes [Decl (UStruct [fld "Name" "" TString; fld "Data" "" TAny; fld "Expected" "-" TString]) NoMethod false] [MapObj [((HInt (1)), (HMap (Some 1%nat)))]; MapObj [((HUint 4), (HStr (bs "ok")))]] (TName 0) (HStruct [(HStr (bs "nested_map")); (HIface (Some ((TMap (TInt IInt) (TMap (TUint UUint) TString)), (HMap (Some 0%nat))))); (HStr (bs "a:1:{i:1;a:1:{i:4;s:2:""ok"";}}"))]) (bs "a:2:{s:4:""Name"";s:10:""nested_map"";s:4:""Data"";a:1:{i:1;a:1:{i:4;s:2:""ok"";}}}").
Proof. run. Qed.
Example test_399 : writes [] [MapObj [((HInt (1)), (HMap (Some 1%nat)))]; MapObj [((HUint 4), (HStr (bs "ok")))]; Cells [(HIface (Some ((TMap (TInt IInt) (TMap (TUint UUint) TString)), (HMap (Some 0%nat)))))]] (TPtr TAny) (HPtr (Some (2, 0)%nat)) (bs "a:1:{i:1;a:1:{i:4;s:2:""ok"";}}").
Proof. run. Qed.
Example test_400 : writes [] [MapObj [((HInt (1)), (HIface (Some ((TMap (TUint UUint) TString), (HMap (Some 1%nat))))))]; MapObj [((HUint 4), (HStr (bs "ok")))]] (TMap (TInt IInt) TAny) (HMap (Some 0%nat)) (bs "a:1:{i:1;a:1:{i:4;s:2:""ok"";}}").
Proof. run. Qed.
Example test_401 : writes [Decl (UStruct [fld "Name" "" TString; fld "Data" "" TAny; fld "Expected" "-" TString]) NoMethod false] [MapObj [((HInt (1)), (HIface (Some ((TMap (TUint UUint) TString), (HMap (Some 1%nat))))))]; MapObj [((HUint 4), (HStr (bs "ok")))]] (TName 0) (HStruct [(HStr (bs "map[type]any(map)")); (HIface (Some ((TMap (TInt IInt) TAny), (HMap (Some 0%nat))))); (HStr (bs "a:1:{i:1;a:1:{i:4;s:2:""ok"";}}"))]) (bs "a:2:{s:4:""Name"";s:17:""map[type]any(map)"";s:4:""Data"";a:1:{i:1;a:1:{i:4;s:2:""ok"";}}}").
Proof. run. Qed.
Example test_402 : writes [] [MapObj [((HInt (1)), (HIface (Some ((TMap (TUint UUint) TString), (HMap (Some 1%nat))))))]; MapObj [((HUint 4), (HStr (bs "ok")))]; Cells [(HIface (Some ((TMap (TInt IInt) TAny), (HMap (Some 0%nat)))))]] (TPtr TAny) (HPtr (Some (2, 0)%nat)) (bs "a:1:{i:1;a:1:{i:4;s:2:""ok"";}}").
Proof. run. Qed.
Example test_403 : writes [] [MapObj [((HInt (1)), (HIface (Some ((TSlice (TInt IInt)), (HSlice (Some (1, 0, 3)%nat))))))]; Cells [(HInt (3)); (HInt (1)); (HInt (4))]] (TMap (TInt IInt) TAny) (HMap (Some 0%nat)) (bs "a:1:{i:1;a:3:{i:0;i:3;i:1;i:1;i:2;i:4;}}").
Proof. run. Qed.
Example test_404 : writes [Decl (UStruct [fld "Name" "" TString; fld "Data" "" TAny; fld "Expected" "-" TString]) NoMethod false] [MapObj [((HInt (1)), (HIface (Some ((TSlice (TInt IInt)), (HSlice (Some (1, 0, 3)%nat))))))]; Cells [(HInt (3)); (HInt (1)); (HInt (4))]] (TName 0) (HStruct [(HStr (bs "map[type]any(slice)")); (HIface (Some ((TMap (TInt IInt) TAny), (HMap (Some 0%nat))))); (HStr (bs "a:1:{i:1;a:3:{i:0;i:3;i:1;i:1;i:2;i:4;}}"))]) (bs "a:2:{s:4:""Name"";s:19:""map[type]any(slice)"";s:4:""Data"";a:1:{i:1;a:3:{i:0;i:3;i:1;i:1;i:2;i:4;}}}").
Proof. run. Qed.
Example test_405 : writes [] [MapObj [((HInt (1)), (HIface (Some ((TSlice (TInt IInt)), (HSlice (Some (1, 0, 3)%nat))))))]; Cells [(HInt (3)); (HInt (1)); (HInt (4))]; Cells [(HIface (Some ((TMap (TInt IInt) TAny), (HMap (Some 0%nat)))))]] (TPtr TAny) (HPtr (Some (2, 0)%nat)) (bs "a:1:{i:1;a:3:{i:0;i:3;i:1;i:1;i:2;i:4;}}").
Proof. run. Qed.
Example test_406 : writes [Decl (UStruct [fld "ID" "id" (TUint U64); fld "Name" "name" TString]) NoMethod false] [MapObj [((HInt (1)), (HIface (Some ((TName 0), (HStruct [(HUint 0); (HStr (bs ""))])))))]] (TMap (TInt IInt) TAny) (HMap (Some 0%nat)) (bs "a:1:{i:1;a:2:{s:2:""id"";i:0;s:4:""name"";s:0:"""";}}").
Proof. run. Qed.
Example test_407 : writes [Decl (UStruct [fld "ID" "id" (TUint U64); fld "Name" "name" TString]) NoMethod false; Decl (UStruct [fld "Name" "" TString; fld "Data" "" TAny; fld "Expected" "-" TString]) NoMethod false] [MapObj [((HInt (1)), (HIface (Some ((TName 0), (HStruct [(HUint 0); (HStr (bs ""))])))))]] (TName 1) (HStruct [(HStr (bs "map[type]any(struct)")); (HIface (Some ((TMap (TInt IInt) TAny), (HMap (Some 0%nat))))); (HStr (bs "a:1:{i:1;a:2:{s:2:""id"";i:0;s:4:""name"";s:0:"""";}}"))]) (bs "a:2:{s:4:""Name"";s:20:""map[type]any(struct)"";s:4:""Data"";a:1:{i:1;a:2:{s:2:""id"";i:0;s:4:""name"";s:0:"""";}}}").
Proof. run. Qed.
Example test_408 : writes [Decl (UStruct [fld "ID" "id" (TUint U64); fld "Name" "name" TString]) NoMethod false] [MapObj [((HInt (1)), (HIface (Some ((TName 0), (HStruct [(HUint 0); (HStr (bs ""))])))))]; Cells [(HIface (Some ((TMap (TInt IInt) TAny), (HMap (Some 0%nat)))))]] (TPtr TAny) (HPtr (Some (1, 0)%nat)) (bs "a:1:{i:1;a:2:{s:2:""id"";i:0;s:4:""name"";s:0:"""";}}").
Proof. run. Qed.
Example test_409 : writes [Decl (UStruct [fld "V" "" (TInt IInt); fld "Ignored" "-" TString]) NoMethod false] [] (TName 0) (HStruct [(HInt (3)); (HStr (bs "vvv"))]) (bs "a:1:{s:1:""V"";i:3;}").
Proof. run. Qed.
Example test_410 : writes [Decl (UStruct [fld "V" "" (TInt IInt); fld "Ignored" "-" TString]) NoMethod false; Decl (UStruct [fld "Name" "" TString; fld "Data" "" TAny; fld "Expected" "-" TString]) NoMethod false] [] (TName 1) (HStruct [(HStr (bs "ignore struct field")); (HIface (Some ((TName 0), (HStruct [(HInt (3)); (HStr (bs "vvv"))])))); (HStr (bs "a:1:{s:1:""V"";i:3;}"))]) (bs "a:2:{s:4:""Name"";s:19:""ignore struct field"";s:4:""Data"";a:1:{s:1:""V"";i:3;}}").
Proof. run. Qed.
Example test_411 : writes [Decl (UStruct [fld "V" "" (TInt IInt); fld "Ignored" "-" TString]) NoMethod false] [Cells [(HIface (Some ((TName 0), (HStruct [(HInt (3)); (HStr (bs "vvv"))]))))]] (TPtr TAny) (HPtr (Some (0, 0)%nat)) (bs "a:1:{s:1:""V"";i:3;}").
Proof. run. Qed.
Example test_412 : writes [Decl (UStruct [Field (bs "b") false false [] TBool; fld "D" "" (TInt IInt)]) NoMethod false] [] (TName 0) (HStruct [(HBool false); (HInt (10))]) (bs "a:1:{s:1:""D"";i:10;}").
Proof. run. Qed.
Example test_413 : writes [Decl (UStruct [Field (bs "b") false false [] TBool; fld "D" "" (TInt IInt)]) NoMethod false; Decl (UStruct [fld "Name" "" TString; fld "Data" "" TAny; fld "Expected" "-" TString]) NoMethod false] [] (TName 1) (HStruct [(HStr (bs "private field")); (HIface (Some ((TName 0), (HStruct [(HBool false); (HInt (10))])))); (HStr (bs "a:1:{s:1:""D"";i:10;}"))]) (bs "a:2:{s:4:""Name"";s:13:""private field"";s:4:""Data"";a:1:{s:1:""D"";i:10;}}").
Proof. run. Qed.
Example test_414 : writes [Decl (UStruct [Field (bs "b") false false [] TBool; fld "D" "" (TInt IInt)]) NoMethod false] [Cells [(HIface (Some ((TName 0), (HStruct [(HBool false); (HInt (10))]))))]] (TPtr TAny) (HPtr (Some (0, 0)%nat)) (bs "a:1:{s:1:""D"";i:10;}").
Proof. run. Qed.
Example test_415 : writes [Decl (UStruct [fld "V" ",omitempty" TString; fld "D" ",omitempty" TString]) NoMethod false] [] (TName 0) (HStruct [(HStr (bs "")); (HStr (bs "d"))]) (bs "a:1:{s:1:""D"";s:1:""d"";}").
Proof. run. Qed.
Example test_416 : writes [Decl (UStruct [fld "V" ",omitempty" TString; fld "D" ",omitempty" TString]) NoMethod false; Decl (UStruct [fld "Name" "" TString; fld "Data" "" TAny; fld "Expected" "-" TString]) NoMethod false] [] (TName 1) (HStruct [(HStr (bs "omitempty")); (HIface (Some ((TName 0), (HStruct [(HStr (bs "")); (HStr (bs "d"))])))); (HStr (bs "a:1:{s:1:""D"";s:1:""d"";}"))]) (bs "a:2:{s:4:""Name"";s:9:""omitempty"";s:4:""Data"";a:1:{s:1:""D"";s:1:""d"";}}").
Proof. run. Qed.
Example test_417 : writes [Decl (UStruct [fld "V" ",omitempty" TString; fld "D" ",omitempty" TString]) NoMethod false] [Cells [(HIface (Some ((TName 0), (HStruct [(HStr (bs "")); (HStr (bs "d"))]))))]] (TPtr TAny) (HPtr (Some (0, 0)%nat)) (bs "a:1:{s:1:""D"";s:1:""d"";}").
Proof. run. Qed.
Example test_418 : writes [Decl (UStruct [fld "V" ",omitempty" (TPtr TString); fld "D" ",omitempty" (TPtr TString)]) NoMethod false] [Cells [(HStr (bs ""))]] (TName 0) (HStruct [(HPtr None); (HPtr (Some (0, 0)%nat))]) (bs "a:1:{s:1:""D"";s:0:"""";}").
Proof. run. Qed.
Example test_419 : writes [Decl (UStruct [fld "V" ",omitempty" (TPtr TString); fld "D" ",omitempty" (TPtr TString)]) NoMethod false; Decl (UStruct [fld "Name" "" TString; fld "Data" "" TAny; fld "Expected" "-" TString]) NoMethod false] [Cells [(HStr (bs ""))]] (TName 1) (HStruct [(HStr (bs "omitempty-ptr")); (HIface (Some ((TName 0), (HStruct [(HPtr None); (HPtr (Some (0, 0)%nat))])))); (HStr (bs "a:1:{s:1:""D"";s:0:"""";}"))]) (bs "a:2:{s:4:""Name"";s:13:""omitempty-ptr"";s:4:""Data"";a:1:{s:1:""D"";s:0:"""";}}").
Proof. run. Qed.
Example test_420 : writes [Decl (UStruct [fld "V" ",omitempty" (TPtr TString); fld "D" ",omitempty" (TPtr TString)]) NoMethod false] [Cells [(HStr (bs ""))]; Cells [(HIface (Some ((TName 0), (HStruct [(HPtr None); (HPtr (Some (0, 0)%nat))]))))]] (TPtr TAny) (HPtr (Some (1, 0)%nat)) (bs "a:1:{s:1:""D"";s:0:"""";}").
Proof. run. Qed.

(** tests/marshal_test.go:388-454 TestMarshal_int_as_string *)
Example test_421 : writes [Decl (UStruct [fld "I" "i,string" (TInt IInt)]) NoMethod false] [] (TName 0) (HStruct [(HInt (-104))]) (bs "a:1:{s:1:""i"";s:4:""-104"";}").
Proof. run. Qed.
Example test_422 : writes [Decl (UStruct [fld "I" "i,string" (TInt IInt)]) NoMethod false] [] (TName 0) (HStruct [(HInt (1040))]) (bs "a:1:{s:1:""i"";s:4:""1040"";}").
Proof. run. Qed.
Example test_423 : writes [Decl (UStruct [fld "I" "i,string" (TInt IInt)]) NoMethod false] [] (TName 0) (HStruct [(HInt (0))]) (bs "a:1:{s:1:""i"";s:1:""0"";}").
Proof. run. Qed.
Example test_424 : writes [Decl (UStruct [fld "I" "i,string" (TPtr (TInt IInt))]) NoMethod false] [Cells [(HInt (0))]; Cells [(HStruct [(HPtr (Some (0, 0)%nat))])]] (TPtr (TName 0)) (HPtr (Some (1, 0)%nat)) (bs "a:1:{s:1:""i"";s:1:""0"";}").
Proof. run. Qed.
Example test_425 : writes [Decl (UStruct [fld "II" "ii,string,omitempty" (TPtr (TInt IInt)); fld "I" "i,string" (TPtr (TInt IInt))]) NoMethod false] [Cells [(HInt (0))]; Cells [(HStruct [(HPtr None); (HPtr (Some (0, 0)%nat))])]] (TPtr (TName 0)) (HPtr (Some (1, 0)%nat)) (bs "a:1:{s:1:""i"";s:1:""0"";}").
Proof. run. Qed.
Example test_426 : writes [Decl (UStruct [fld "II" "ii,string" (TPtr (TInt IInt)); fld "I" "i,string" (TPtr (TInt IInt))]) NoMethod false] [Cells [(HInt (0))]; Cells [(HStruct [(HPtr None); (HPtr (Some (0, 0)%nat))])]] (TPtr (TName 0)) (HPtr (Some (1, 0)%nat)) (bs "a:2:{s:2:""ii"";N;s:1:""i"";s:1:""0"";}").
Proof. run. Qed.

(** tests/marshal_test.go:456-472 TestMarshal_bool_as_string *)
Example test_427 : writes [Decl (UStruct [fld "B" ",string" TBool]) NoMethod false] [] (TName 0) (HStruct [(HBool true)]) (bs "a:1:{s:1:""B"";s:4:""true"";}").
Proof. run. Qed.
Example test_428 : writes [Decl (UStruct [fld "B" ",string" TBool]) NoMethod false] [] (TName 0) (HStruct [(HBool false)]) (bs "a:1:{s:1:""B"";s:5:""false"";}").
Proof. run. Qed.

(** tests/marshal_test.go:474-499 TestMarshal_float32_as_string; tests/marshal_test.go:501-526 TestMarshal_float64_as_string; tests/marshal_test.go:528-556 TestMarshal_float64_as_string_reflect *)
Example test_429 : writes [Decl (UStruct [fld "F" "f,string" TF32]) NoMethod false] [] (TName 0) (HStruct [HF32 pi32]) (bs "a:1:{s:1:""f"";s:4:""3.14"";}").
Proof. run. Qed.
Example test_430 : writes [Decl (UStruct [fld "F" "f,string" TF32]) NoMethod false] [] (TName 0) (HStruct [HF32 one]) (bs "a:1:{s:1:""f"";s:1:""1"";}").
Proof. run. Qed.
Example test_431 : writes [Decl (UStruct [fld "F" "f,string" TF32]) NoMethod false] [] (TName 0) (HStruct [HF32 minus_pi32]) (bs "a:1:{s:1:""f"";s:5:""-3.14"";}").
Proof. run. Qed.
Example test_432 : writes [Decl (UStruct [fld "F" "f,string" TF64]) NoMethod false] [] (TName 0) (HStruct [HF64 pi]) (bs "a:1:{s:1:""f"";s:4:""3.14"";}").
Proof. run. Qed.
Example test_433 : writes [Decl (UStruct [fld "F" "f,string" TF64]) NoMethod false] [] (TName 0) (HStruct [HF64 one]) (bs "a:1:{s:1:""f"";s:1:""1"";}").
Proof. run. Qed.
Example test_434 : writes [Decl (UStruct [fld "F" "f,string" TF64]) NoMethod false] [] (TName 0) (HStruct [HF64 minus_pi]) (bs "a:1:{s:1:""f"";s:5:""-3.14"";}").
Proof. run. Qed.

(** tests/marshal_test.go:558-1011 TestMarshal_ptr *)
Example test_435 : writes [Decl (UStruct [fld "A" "a" (TPtr (TInt IInt)); fld "B" "b" (TPtr (TInt IInt))]) NoMethod false] [Cells [(HInt (50))]] (TName 0) (HStruct [(HPtr None); (HPtr (Some (0, 0)%nat))]) (bs "a:2:{s:1:""a"";N;s:1:""b"";i:50;}").
Proof. run. Qed.
Example test_436 : writes [Decl (UStruct [fld "A" "a" (TPtr (TInt IInt)); fld "B" "b,omitempty" (TPtr (TInt IInt))]) NoMethod false] [Cells [(HInt (50))]] (TName 0) (HStruct [(HPtr (Some (0, 0)%nat)); (HPtr None)]) (bs "a:1:{s:1:""a"";i:50;}").
Proof. run. Qed.
Example test_437 : writes [Decl (UStruct [fld "Value" "value" (TPtr (TInt IInt))]) NoMethod false] [Cells [(HInt (50))]] (TName 0) (HStruct [(HPtr (Some (0, 0)%nat))]) (bs "a:1:{s:5:""value"";i:50;}").
Proof. run. Qed.
Example test_438 : writes [Decl (UStruct [fld "Value" "value" (TPtr (TInt IInt))]) NoMethod false] [] (TName 0) (HStruct [(HPtr None)]) (bs "a:1:{s:5:""value"";N;}").
Proof. run. Qed.
Example test_439 : writes [Decl (UStruct [fld "Value" "value" (TPtr TString)]) NoMethod false] [Cells [(HStr (bs "abcdefg"))]] (TName 0) (HStruct [(HPtr (Some (0, 0)%nat))]) (bs "a:1:{s:5:""value"";s:7:""abcdefg"";}").
Proof. run. Qed.
Example test_440 : writes [Decl (UStruct [fld "Value" "value" (TPtr TString); fld "D" "d,omitempty" (TPtr (TInt IInt))]) NoMethod false] [Cells [(HStr (bs "abcdefg"))]; Cells [(HStruct [(HPtr (Some (0, 0)%nat)); (HPtr None)])]] (TPtr (TName 0)) (HPtr (Some (1, 0)%nat)) (bs "a:1:{s:5:""value"";s:7:""abcdefg"";}").
Proof. run. Qed.
Example test_441 : writes [Decl (UStruct [fld "Value" "value" (TInt IInt); fld "ID" "id" (TUint U32)]) NoMethod false] [Cells [(HStruct [(HInt (0)); (HUint 0)])]] (TPtr (TName 0)) (HPtr (Some (0, 0)%nat)) (bs "a:2:{s:5:""value"";i:0;s:2:""id"";i:0;}").
Proof. run. Qed.
Example test_442 : writes [Decl (UStruct [fld "Value" "value" (TInt IInt); fld "ID" "id" (TUint U32)]) NoMethod false] [] (TPtr (TName 0)) (HPtr None) (bs "N;").
Proof. run. Qed.
Example test_443 : writes [Decl (UStruct [fld "B" "b" (TPtr (TInt IInt)); fld "Value" "value" (TPtr (TName 1))]) NoMethod false; Decl (UStruct [fld "ID" "id" (TUint U64); fld "Name" "name" TString]) NoMethod false] [Cells [(HInt (20))]] (TName 0) (HStruct [(HPtr (Some (0, 0)%nat)); (HPtr None)]) (bs "a:2:{s:1:""b"";i:20;s:5:""value"";N;}").
Proof. run. Qed.
Example test_444 : writes [Decl (UStruct [fld "Value" "value" (TPtr (TName 1))]) NoMethod false; Decl (UStruct [fld "ID" "id" (TUint U64); fld "Name" "name" TString]) NoMethod false] [] (TName 0) (HStruct [(HPtr None)]) (bs "a:1:{s:5:""value"";N;}").
Proof. run. Qed.
Example test_445 : writes [Decl (UStruct [fld "Value" "value" (TPtr (TName 1))]) NoMethod false; Decl (UStruct [fld "ID" "id" (TUint U64); fld "Name" "name" TString]) NoMethod false] [Cells [(HStruct [(HUint 4); (HStr (bs "one"))])]] (TName 0) (HStruct [(HPtr (Some (0, 0)%nat))]) (bs "a:1:{s:5:""value"";a:2:{s:2:""id"";i:4;s:4:""name"";s:3:""one"";}}").
Proof. run. Qed.
Example test_446 : writes [Decl (UStruct [fld "B" "b" (TPtr (TInt IInt)); fld "Value" "value" (TPtr (TName 1))]) NoMethod false; Decl (UStruct [fld "ID" "id" (TUint U64); fld "Name" "name" TString]) NoMethod false] [Cells [(HStruct [(HUint 4); (HStr (bs "one"))])]] (TName 0) (HStruct [(HPtr None); (HPtr (Some (0, 0)%nat))]) (bs "a:2:{s:1:""b"";N;s:5:""value"";a:2:{s:2:""id"";i:4;s:4:""name"";s:3:""one"";}}").
Proof. run. Qed.
Example test_447 : writes [Decl (UStruct [fld "Value" "value" (TPtr (TArray 5 (TInt IInt)))]) NoMethod false] [] (TName 0) (HStruct [(HPtr None)]) (bs "a:1:{s:5:""value"";N;}").
Proof. run. Qed.
Example test_448 : writes [Decl (UStruct [fld "Value" "value" (TPtr (TArray 5 (TInt IInt))); fld "B" "b" (TPtr TBool)]) NoMethod false] [Cells [(HBool true)]] (TName 0) (HStruct [(HPtr None); (HPtr (Some (0, 0)%nat))]) (bs "a:2:{s:5:""value"";N;s:1:""b"";b:1;}").
Proof. run. Qed.
Example test_449 : writes [Decl (UStruct [fld "Value" "value,omitempty" (TPtr (TArray 5 (TInt IInt)))]) NoMethod false] [Cells [(HArr [(HInt (1)); (HInt (6)); (HInt (4)); (HInt (7)); (HInt (9))])]] (TName 0) (HStruct [(HPtr (Some (0, 0)%nat))]) (bs "a:1:{s:5:""value"";a:5:{i:0;i:1;i:1;i:6;i:2;i:4;i:3;i:7;i:4;i:9;}}").
Proof. run. Qed.
Example test_450 : writes [Decl (UStruct [fld "Value" "value" (TPtr (TArray 5 (TInt IInt)))]) NoMethod false] [Cells [(HArr [(HInt (1)); (HInt (6)); (HInt (4)); (HInt (7)); (HInt (9))])]] (TName 0) (HStruct [(HPtr (Some (0, 0)%nat))]) (bs "a:1:{s:5:""value"";a:5:{i:0;i:1;i:1;i:6;i:2;i:4;i:3;i:7;i:4;i:9;}}").
Proof. run. Qed.
Example test_451 : writes [Decl (UStruct [fld "Value" "value,omitempty" (TPtr (TSlice TString))]) NoMethod false] [Cells [(HStr (bs "a")); (HStr (bs "b")); (HStr (bs "c")); (HStr (bs "d")); (HStr (bs "e")); (HStr (bs "f")); (HStr (bs "g"))]; Cells [(HSlice (Some (0, 0, 7)%nat))]] (TName 0) (HStruct [(HPtr (Some (1, 0)%nat))]) (bs "a:1:{s:5:""value"";a:7:{i:0;s:1:""a"";i:1;s:1:""b"";i:2;s:1:""c"";i:3;s:1:""d"";i:4;s:1:""e"";i:5;s:1:""f"";i:6;s:1:""g"";}}").
Proof. run. Qed.
Example test_452 : writes [Decl (UStruct [fld "Value" "value" (TPtr (TSlice TString))]) NoMethod false] [Cells [(HStr (bs "a")); (HStr (bs "b")); (HStr (bs "c")); (HStr (bs "d")); (HStr (bs "e")); (HStr (bs "f")); (HStr (bs "g"))]; Cells [(HSlice (Some (0, 0, 7)%nat))]] (TName 0) (HStruct [(HPtr (Some (1, 0)%nat))]) (bs "a:1:{s:5:""value"";a:7:{i:0;s:1:""a"";i:1;s:1:""b"";i:2;s:1:""c"";i:3;s:1:""d"";i:4;s:1:""e"";i:5;s:1:""f"";i:6;s:1:""g"";}}").
Proof. run. Qed.
Example test_453 : writes [Decl (UStruct [fld "Value" "value" (TPtr (TSlice TString))]) NoMethod false] [] (TName 0) (HStruct [(HPtr None)]) (bs "a:1:{s:5:""value"";N;}").
Proof. run. Qed.
Example test_454 : writes [Decl (UStruct [fld "Value" "value" (TPtr (TSlice TString))]) NoMethod false] [Cells [(HStr (bs "1")); (HStr (bs "2"))]; Cells [(HSlice (Some (0, 0, 2)%nat))]] (TName 0) (HStruct [(HPtr (Some (1, 0)%nat))]) (bs "a:1:{s:5:""value"";a:2:{i:0;s:1:""1"";i:1;s:1:""2"";}}").
Proof. run. Qed.
Example test_455 : writes [Decl (UStruct [fld "Value" "value,omitempty" (TPtr TString)]) NoMethod false] [Cells [(HStr (bs "abcdefg"))]] (TName 0) (HStruct [(HPtr (Some (0, 0)%nat))]) (bs "a:1:{s:5:""value"";s:7:""abcdefg"";}").
Proof. run. Qed.
Example test_456 : writes [Decl (UStruct [fld "Value" "value" (TPtr (TMap (TInt IInt) (TInt IInt)))]) NoMethod false] [] (TName 0) (HStruct [(HPtr None)]) (bs "a:1:{s:5:""value"";N;}").
Proof. run. Qed.
Example test_457 : writes [] [MapObj [((HInt (1)), (HInt (2)))]; Cells [(HMap (Some 0%nat))]] (TPtr (TMap (TInt IInt) (TInt IInt))) (HPtr (Some (1, 0)%nat)) (bs "a:1:{i:1;i:2;}").
Proof. run. Qed.
Example test_458 : writes [Decl (UStruct [fld "Value" "value,omitempty" (TPtr (TMap (TInt IInt) (TInt IInt)))]) NoMethod false] [MapObj [((HInt (1)), (HInt (2)))]; Cells [(HMap (Some 0%nat))]] (TName 0) (HStruct [(HPtr (Some (1, 0)%nat))]) (bs "a:1:{s:5:""value"";a:1:{i:1;i:2;}}").
Proof. run. Qed.
Example test_459 : writes [Decl (UStruct [fld "Value" "value,omitempty" (TPtr (TMap (TInt IInt) (TInt IInt)))]) NoMethod false] [] (TName 0) (HStruct [(HPtr None)]) (bs "a:0:{}").
Proof. run. Qed.
Example test_460 : writes [Decl (UStruct [fld "Value" "value" (TPtr (TMap (TInt IInt) (TInt IInt))); fld "Bool" "b" (TPtr TBool)]) NoMethod false] [] (TName 0) (HStruct [(HPtr None); (HPtr None)]) (bs "a:2:{s:5:""value"";N;s:1:""b"";N;}").
Proof. run. Qed.
Example test_461 : writes [Decl (UStruct [fld "Value" "value,omitempty" (TPtr (TMap (TInt IInt) (TInt IInt))); fld "Bool" "b" (TPtr TBool)]) NoMethod false] [MapObj [((HInt (1)), (HInt (2)))]; Cells [(HMap (Some 0%nat))]] (TName 0) (HStruct [(HPtr (Some (1, 0)%nat)); (HPtr None)]) (bs "a:2:{s:5:""value"";a:1:{i:1;i:2;}s:1:""b"";N;}").
Proof. run. Qed.
Example test_462 : writes [] [] (TPtr (TMap (TInt IInt) (TInt IInt))) (HPtr None) (bs "N;").
Proof. run. Qed.
Example test_463 : writes [Decl (UStruct [fld "Value" "value" (TPtr (TInt IInt))]) NoMethod false] [Cells [(HInt (644))]] (TName 0) (HStruct [(HPtr (Some (0, 0)%nat))]) (bs "a:1:{s:5:""value"";i:644;}").
Proof. run. Qed.
Example test_464 : fails [Decl (UStruct [fld "Value" "value" (TPtr (TPtr (TPtr (TUint UUint))))]) NoMethod false] [Cells [(HUint 8)]; Cells [(HPtr (Some (0, 0)%nat))]; Cells [(HPtr (Some (1, 0)%nat))]] (TName 0) (HStruct [(HPtr (Some (2, 0)%nat))]).
Proof. run. Qed.
Example test_465 : writes [Decl (UStruct [fld "Value" "value" TAny]) NoMethod false] [Cells [(HUint 8)]; Cells [(HPtr (Some (0, 0)%nat))]; Cells [(HIface (Some ((TPtr (TPtr (TUint UUint))), (HPtr (Some (1, 0)%nat)))))]] (TName 0) (HStruct [(HIface (Some ((TPtr TAny), (HPtr (Some (2, 0)%nat)))))]) (bs "a:1:{s:5:""value"";i:8;}").
Proof. run. Qed.

(** tests/marshal_test.go:1013-1048 TestMarshal_map *)
Example test_466 : writes [Decl (UStruct [fld "Map" "map" (TMap TString (TInt I64))]) NoMethod false] [] (TName 0) (HStruct [HMap None]) (bs "a:1:{s:3:""map"";N;}").
Proof. run. Qed.
Example test_467 : writes [Decl (UStruct [fld "Map" "map" (TMap TString (TInt I64))]) NoMethod false] [MapObj [((HStr (bs "abcdef")), (HInt (1)))]] (TName 0) (HStruct [(HMap (Some 0%nat))]) (bs "a:1:{s:3:""map"";a:1:{s:6:""abcdef"";i:1;}}").
Proof. run. Qed.
Example test_468 : writes [Decl (UStruct [fld "Users" "users" (TSlice (TName 1)); fld "Map" "map" (TMap TString (TInt I64))]) NoMethod false; Decl (UStruct [fld "V" "v" (TInt IInt)]) NoMethod false] [MapObj [((HStr (bs "abcdef")), (HInt (1)))]] (TName 0) (HStruct [HSlice None; (HMap (Some 0%nat))]) (bs "a:2:{s:5:""users"";N;s:3:""map"";a:1:{s:6:""abcdef"";i:1;}}").
Proof. run. Qed.

(** tests/marshal_test.go:1061-1067 TestMarshal_interface_with_method *)
Example test_469 : writes [Decl (UStruct [fld "Value" "value" TAny]) NoMethod false; Decl (UStruct []) NoMethod false] [] (TName 0) (HStruct [(HIface (Some ((TName 1), HStruct [])))]) (bs "a:1:{s:5:""value"";a:0:{}}").
Proof. run. Qed.

(** tests/marshal_test.go:1069-1086 TestMarshal_anonymous_field *)
Example test_470 : fails [Decl (UStruct [Field (bs "N") true true [] (TName 1); fld "C" "" (TInt IInt)]) NoMethod false; Decl (UStruct [fld "A" "" (TInt IInt); fld "B" "" (TInt IInt)]) NoMethod false] [] (TName 0) (HStruct [(HStruct [(HInt (3)); (HInt (2))]); (HInt (1))]).
Proof. run. Qed.

(** tests/marshal_test.go:1088-1110 TestRecursivePanic *)
Example test_471 : writes [Decl (UStruct [fld "Name" "" TString; fld "E" "" (TSlice (TName 0))]) NoMethod false] [Cells [(HStruct [(HStr (bs "BB")); (HSlice (Some (1, 0, 1)%nat))])]; Cells [(HStruct [(HStr (bs "C C D D E E F F")); HSlice None])]] (TName 0) (HStruct [(HStr (bs "hello")); (HSlice (Some (0, 0, 1)%nat))]) (bs "a:2:{s:4:""Name"";s:5:""hello"";s:1:""E"";a:1:{i:0;a:2:{s:4:""Name"";s:2:""BB"";s:1:""E"";a:1:{i:0;a:2:{s:4:""Name"";s:15:""C C D D E E F F"";s:1:""E"";N;}}}}}").
Proof. run. Qed.

(** tests/marshal_test.go:1122-1140 TestUserMarshaler: what MarshalPHP returns is given by [X0] *)
Example test_472 : writes [Decl (UStruct [fld "T" "" (TName 1)]) NoMethod false; Decl (UStruct [Field (bs "t") false false [] TString]) ValueRecv false] [] (TName 0) (HStruct [(HStruct [(HStr (bs "2024-07-16T01:02:03+08:00"))])]) (bs "a:1:{s:1:""T"";s:25:""2024-07-16T01:02:03+08:00"";}").
Proof. run. Qed.

(** tests/marshal_test.go:1155-1184 go118TestCase; tests/marshal_test.go:1186-1197 TestMarshal_go118_concrete_types; tests/marshal_test.go:1199-1211 TestMarshal_go118_interface: each value by itself, inside an interface in a struct *)
Example test_473 : writes [Decl (UStruct [fld "Value" "" (TInt IInt)]) NoMethod false] [] (TName 0) (HStruct [(HInt (1))]) (bs "a:1:{s:5:""Value"";i:1;}").
Proof. run. Qed.
Example test_474 : writes [Decl (UStruct [fld "Value" "" (TInt IInt)]) NoMethod false; Decl (UStruct [fld "Name" "" TString; fld "Data" "" TAny; fld "Expected" "-" TString]) NoMethod false] [] (TName 1) (HStruct [(HStr (bs "generic[int]")); (HIface (Some ((TName 0), (HStruct [(HInt (1))])))); (HStr (bs "a:1:{s:5:""Value"";i:1;}"))]) (bs "a:2:{s:4:""Name"";s:12:""generic[int]"";s:4:""Data"";a:1:{s:5:""Value"";i:1;}}").
Proof. run. Qed.
Example test_475 : writes [Decl (UStruct [fld "Value" "" (TName 1)]) NoMethod false; Decl (UStruct [fld "ID" "id" (TUint U64); fld "Name" "name" TString]) NoMethod false] [] (TName 0) (HStruct [(HStruct [(HUint 0); (HStr (bs ""))])]) (bs "a:1:{s:5:""Value"";a:2:{s:2:""id"";i:0;s:4:""name"";s:0:"""";}}").
Proof. run. Qed.
Example test_476 : writes [Decl (UStruct [fld "Value" "" (TName 1)]) NoMethod false; Decl (UStruct [fld "ID" "id" (TUint U64); fld "Name" "name" TString]) NoMethod false; Decl (UStruct [fld "Name" "" TString; fld "Data" "" TAny; fld "Expected" "-" TString]) NoMethod false] [] (TName 2) (HStruct [(HStr (bs "generic[struct]")); (HIface (Some ((TName 0), (HStruct [(HStruct [(HUint 0); (HStr (bs ""))])])))); (HStr (bs "a:1:{s:5:""Value"";a:2:{s:2:""id"";i:0;s:4:""name"";s:0:"""";}}"))]) (bs "a:2:{s:4:""Name"";s:15:""generic[struct]"";s:4:""Data"";a:1:{s:5:""Value"";a:2:{s:2:""id"";i:0;s:4:""name"";s:0:"""";}}}").
Proof. run. Qed.
Example test_477 : writes [Decl (UStruct [fld "Value" "" (TMap TString (TInt IInt))]) NoMethod false] [MapObj [((HStr (bs "one")), (HInt (1)))]] (TName 0) (HStruct [(HMap (Some 0%nat))]) (bs "a:1:{s:5:""Value"";a:1:{s:3:""one"";i:1;}}").
Proof. run. Qed.
Example test_478 : writes [Decl (UStruct [fld "Value" "" (TMap TString (TInt IInt))]) NoMethod false; Decl (UStruct [fld "Name" "" TString; fld "Data" "" TAny; fld "Expected" "-" TString]) NoMethod false] [MapObj [((HStr (bs "one")), (HInt (1)))]] (TName 1) (HStruct [(HStr (bs "generic[map]")); (HIface (Some ((TName 0), (HStruct [(HMap (Some 0%nat))])))); (HStr (bs "a:1:{s:5:""Value"";a:1:{s:3:""one"";i:1;}}"))]) (bs "a:2:{s:4:""Name"";s:12:""generic[map]"";s:4:""Data"";a:1:{s:5:""Value"";a:1:{s:3:""one"";i:1;}}}").
Proof. run. Qed.
Example test_479 : writes [Decl (UStruct [fld "Value" "" (TSlice TString)]) NoMethod false] [Cells [(HStr (bs "hello")); (HStr (bs "world"))]] (TName 0) (HStruct [(HSlice (Some (0, 0, 2)%nat))]) (bs "a:1:{s:5:""Value"";a:2:{i:0;s:5:""hello"";i:1;s:5:""world"";}}").
Proof. run. Qed.
Example test_480 : writes [Decl (UStruct [fld "Value" "" (TSlice TString)]) NoMethod false; Decl (UStruct [fld "Name" "" TString; fld "Data" "" TAny; fld "Expected" "-" TString]) NoMethod false] [Cells [(HStr (bs "hello")); (HStr (bs "world"))]] (TName 1) (HStruct [(HStr (bs "generic[slice]")); (HIface (Some ((TName 0), (HStruct [(HSlice (Some (0, 0, 2)%nat))])))); (HStr (bs "a:1:{s:5:""Value"";a:2:{i:0;s:5:""hello"";i:1;s:5:""world"";}}"))]) (bs "a:2:{s:4:""Name"";s:14:""generic[slice]"";s:4:""Data"";a:1:{s:5:""Value"";a:2:{i:0;s:5:""hello"";i:1;s:5:""world"";}}}").
Proof. run. Qed.
Example test_481 : writes [Decl (UStruct [fld "B" "" TBool; fld "Value" "" (TSlice TString)]) NoMethod false] [Cells [(HStr (bs "hello")); (HStr (bs "world"))]] (TName 0) (HStruct [(HBool false); (HSlice (Some (0, 0, 2)%nat))]) (bs "a:2:{s:1:""B"";b:0;s:5:""Value"";a:2:{i:0;s:5:""hello"";i:1;s:5:""world"";}}").
Proof. run. Qed.
Example test_482 : writes [Decl (UStruct [fld "B" "" TBool; fld "Value" "" (TSlice TString)]) NoMethod false; Decl (UStruct [fld "Name" "" TString; fld "Data" "" TAny; fld "Expected" "-" TString]) NoMethod false] [Cells [(HStr (bs "hello")); (HStr (bs "world"))]] (TName 1) (HStruct [(HStr (bs "generic2[slice]")); (HIface (Some ((TName 0), (HStruct [(HBool false); (HSlice (Some (0, 0, 2)%nat))])))); (HStr (bs "a:2:{s:1:""B"";b:0;s:5:""Value"";a:2:{i:0;s:5:""hello"";i:1;s:5:""world"";}}"))]) (bs "a:2:{s:4:""Name"";s:15:""generic2[slice]"";s:4:""Data"";a:2:{s:1:""B"";b:0;s:5:""Value"";a:2:{i:0;s:5:""hello"";i:1;s:5:""world"";}}}").
Proof. run. Qed.

(** tests/marshal_test.go:1217-1256 TestMarshal_uint_as_string; tests/marshal_test.go:1258-1271 TestMarshal_uint_as_string_omitempty *)
Example test_483 : writes [Decl (UStruct [fld "A" "a,string" (TUint U8); fld "B" "b,string" (TUint U16); fld "C" "c,string" (TUint U32); fld "D" "d,string" (TUint U64); fld "E" "e,string" (TUint UUint)]) NoMethod false] [Cells [(HStruct [(HUint 2); (HUint 3); (HUint 0); (HUint 52); (HUint 110)])]] (TPtr (TName 0)) (HPtr (Some (0, 0)%nat)) (bs "a:5:{s:1:""a"";s:1:""2"";s:1:""b"";s:1:""3"";s:1:""c"";s:1:""0"";s:1:""d"";s:2:""52"";s:1:""e"";s:3:""110"";}").
Proof. run. Qed.
Example test_484 : writes [Decl (UStruct [fld "I" "i,string" (TUint UUint)]) NoMethod false] [] (TName 0) (HStruct [(HUint 0)]) (bs "a:1:{s:1:""i"";s:1:""0"";}").
Proof. run. Qed.
Example test_485 : writes [Decl (UStruct [fld "I" "i,string" (TUint UUint)]) NoMethod false] [] (TName 0) (HStruct [(HUint 1040)]) (bs "a:1:{s:1:""i"";s:4:""1040"";}").
Proof. run. Qed.
Example test_486 : writes [Decl (UStruct [fld "A" "a,string,omitempty" (TUint U8); fld "B" "b,string,omitempty" (TUint U16); fld "C" "c,string,omitempty" (TUint U32); fld "D" "d,string,omitempty" (TUint U64); fld "E" "e,string,omitempty" (TUint UUint)]) NoMethod false] [Cells [(HStruct [(HUint 0); (HUint 0); (HUint 0); (HUint 0); (HUint 0)])]] (TPtr (TName 0)) (HPtr (Some (0, 0)%nat)) (bs "a:0:{}").
Proof. run. Qed.

(** tests/marshal_test.go:1273-1359 TestMarshal_uint_as_string_ptr_omitempty *)
Example test_487 : writes [Decl (UStruct [fld "A" "a,string,omitempty" (TPtr (TUint U8)); fld "B" "b,string,omitempty" (TPtr (TUint U16)); fld "C" "c,string,omitempty" (TPtr (TUint U32)); fld "D" "d,string,omitempty" (TPtr (TUint U64)); fld "E" "e,string,omitempty" (TPtr (TUint UUint))]) NoMethod false] [Cells [(HUint 0); (HUint 0); (HUint 0); (HUint 0); (HUint 0)]; Cells [(HStruct [(HPtr (Some (0, 0)%nat)); (HPtr (Some (0, 1)%nat)); (HPtr (Some (0, 2)%nat)); (HPtr (Some (0, 3)%nat)); (HPtr (Some (0, 4)%nat))])]] (TPtr (TName 0)) (HPtr (Some (1, 0)%nat)) (bs "a:5:{s:1:""a"";s:1:""0"";s:1:""b"";s:1:""0"";s:1:""c"";s:1:""0"";s:1:""d"";s:1:""0"";s:1:""e"";s:1:""0"";}").
Proof. run. Qed.
Example test_488 : writes [Decl (UStruct [fld "A" "a,string,omitempty" (TPtr (TUint U8))]) NoMethod false] [Cells [(HUint 0)]; Cells [(HStruct [(HPtr (Some (0, 0)%nat))])]] (TPtr (TName 0)) (HPtr (Some (1, 0)%nat)) (bs "a:1:{s:1:""a"";s:1:""0"";}").
Proof. run. Qed.
Example test_489 : writes [Decl (UStruct [fld "B" "b,string,omitempty" (TPtr (TUint U16))]) NoMethod false] [Cells [(HUint 0)]; Cells [(HStruct [(HPtr (Some (0, 0)%nat))])]] (TPtr (TName 0)) (HPtr (Some (1, 0)%nat)) (bs "a:1:{s:1:""b"";s:1:""0"";}").
Proof. run. Qed.
Example test_490 : writes [Decl (UStruct [fld "C" "c,string,omitempty" (TPtr (TUint U32))]) NoMethod false] [Cells [(HUint 0)]; Cells [(HStruct [(HPtr (Some (0, 0)%nat))])]] (TPtr (TName 0)) (HPtr (Some (1, 0)%nat)) (bs "a:1:{s:1:""c"";s:1:""0"";}").
Proof. run. Qed.
Example test_491 : writes [Decl (UStruct [fld "D" "d,string,omitempty" (TPtr (TUint U64))]) NoMethod false] [Cells [(HUint 0)]; Cells [(HStruct [(HPtr (Some (0, 0)%nat))])]] (TPtr (TName 0)) (HPtr (Some (1, 0)%nat)) (bs "a:1:{s:1:""d"";s:1:""0"";}").
Proof. run. Qed.
Example test_492 : writes [Decl (UStruct [fld "E" "e,string,omitempty" (TPtr (TUint UUint))]) NoMethod false] [Cells [(HUint 0)]; Cells [(HStruct [(HPtr (Some (0, 0)%nat))])]] (TPtr (TName 0)) (HPtr (Some (1, 0)%nat)) (bs "a:1:{s:1:""e"";s:1:""0"";}").
Proof. run. Qed.

(** tests/marshal_test.go:1376-1430 TestMarshalBool_ptr_as_string *)
Example test_493 : writes [Decl (UStruct [fld "Value" "value,string" (TPtr TBool)]) NoMethod false] [Cells [(HBool false)]; Cells [(HStruct [(HPtr (Some (0, 0)%nat))])]] (TPtr (TName 0)) (HPtr (Some (1, 0)%nat)) (bs "a:1:{s:5:""value"";s:5:""false"";}").
Proof. run. Qed.
Example test_494 : writes [Decl (UStruct [fld "Value" "value,string" (TPtr TBool); fld "B" "" (TPtr TBool)]) NoMethod false] [Cells [(HBool false)]; Cells [(HStruct [(HPtr (Some (0, 0)%nat)); (HPtr None)])]] (TPtr (TName 0)) (HPtr (Some (1, 0)%nat)) (bs "a:2:{s:5:""value"";s:5:""false"";s:1:""B"";N;}").
Proof. run. Qed.
Example test_495 : writes [Decl (UStruct [fld "Value" "value,string" (TPtr TBool)]) NoMethod false] [Cells [(HBool true)]; Cells [(HStruct [(HPtr (Some (0, 0)%nat))])]] (TPtr (TName 0)) (HPtr (Some (1, 0)%nat)) (bs "a:1:{s:5:""value"";s:4:""true"";}").
Proof. run. Qed.
Example test_496 : writes [Decl (UStruct [fld "Value" "value,string" (TPtr TBool); fld "B" "" (TPtr TBool)]) NoMethod false] [Cells [(HBool true)]; Cells [(HStruct [(HPtr (Some (0, 0)%nat)); (HPtr None)])]] (TPtr (TName 0)) (HPtr (Some (1, 0)%nat)) (bs "a:2:{s:5:""value"";s:4:""true"";s:1:""B"";N;}").
Proof. run. Qed.

(** tests/marshal_test.go:1432-1443 TestMarshal_array_map; tests/marshal_test.go:1445-1452 TestMarshal_Array_nil *)
Example test_497 : writes [] [MapObj [((HInt (-3)), (HUint 1))]; MapObj [((HInt (-1)), (HUint 1))]] (TArray 5 (TMap (TInt IInt) (TUint UUint))) (HArr [(HMap (Some 0%nat)); HMap None; (HMap (Some 1%nat)); HMap None; HMap None]) (bs "a:5:{i:0;a:1:{i:-3;i:1;}i:1;N;i:2;a:1:{i:-1;i:1;}i:3;N;i:4;N;}").
Proof. run. Qed.
Example test_498 : writes [] [] (TArray 5 (TInt IInt)) (HArr [(HInt (0)); (HInt (0)); (HInt (0)); (HInt (0)); (HInt (0))]) (bs "a:5:{i:0;i:0;i:1;i:0;i:2;i:0;i:3;i:0;i:4;i:0;}").
Proof. run. Qed.

(** regression_test.go:17-25 TestMarshalNil; regression_test.go:27-47 TestMarshalNamedFloat32 *)
Example test_499 : snd (marshal X0 [] [] in_order 9 st0 None) = ROk (bs "N;").
Proof. run. Qed.
Example test_500 : writes [Decl (UTy TF32) NoMethod false] [] (TName 0) (HF32 f35) (bs "d:3.5;").
Proof. run. Qed.
Example test_501 : writes [Decl (UStruct [fld "Value" "value,string" (TName 1)]) NoMethod false; Decl (UTy TF32) NoMethod false] [] (TName 0) (HStruct [HF32 f35]) (bs "a:1:{s:5:""value"";s:3:""3.5"";}").
Proof. run. Qed.

(** regression_test.go:49-95 TestMarshalRejectsRecursiveValues *)
Example test_502 : fails [] [MapObj [((HStr (bs "self")), (HIface (Some ((TMap TString TAny), (HMap (Some 0%nat))))))]] (TMap TString TAny) (HMap (Some 0%nat)).
Proof. run. Qed.
Example test_503 : fails [] [Cells [(HIface (Some ((TSlice TAny), (HSlice (Some (0, 0, 1)%nat)))))]] (TSlice TAny) (HSlice (Some (0, 0, 1)%nat)).
Proof. run. Qed.
Example test_504 : fails_deep [Decl (UStruct [fld "Next" "" (TPtr (TName 0))]) NoMethod false] [Cells [(HStruct [(HPtr (Some (0, 0)%nat))])]] (TPtr (TName 0)) (HPtr (Some (0, 0)%nat)).
Proof. run. Qed.
Example test_505 : fails_deep [Decl (UTy (TMap TString (TName 0))) NoMethod false] [MapObj [((HStr (bs "self")), (HMap (Some 0%nat)))]] (TName 0) (HMap (Some 0%nat)).
Proof. run. Qed.
Example test_506 : fails_deep [Decl (UTy (TSlice (TName 0))) NoMethod false] [Cells [(HSlice (Some (0, 0, 1)%nat))]] (TName 0) (HSlice (Some (0, 0, 1)%nat)).
Proof. run. Qed.

(** regression_test.go:97-131 TestPHPFloatSpecialValues *)
Example test_507 : writes [] [] TF64 (HF64 (S754_infinity false)) (bs "d:INF;").
Proof. run. Qed.
Example test_508 : writes [] [] TF64 (HF64 (S754_infinity true)) (bs "d:-INF;").
Proof. run. Qed.
Example test_509 : writes [] [] TF64 (HF64 S754_nan) (bs "d:NAN;").
Proof. run. Qed.

(** example_test.go:9-40 ExampleMarshal *)
Example test_510 : writes [Decl (UStruct [fld "Users" "users,omitempty" (TSlice (TName 1)); fld "Obj" "obj" (TName 2); fld "Ignored" "-" TBool]) NoMethod false; Decl (UStruct [fld "ID" "id,string" (TUint U32); fld "Name" "name" TString]) NoMethod false; Decl (UStruct [fld "V" "v" (TInt IInt); fld "S" "a long string name replace field name" TString]) NoMethod false] [Cells [(HStruct [(HUint 1); (HStr (bs "sai"))]); (HStruct [(HUint 2); (HStr (bs "trim21"))])]] (TName 0) (HStruct [(HSlice (Some (0, 0, 2)%nat)); (HStruct [(HInt (2)); (HStr (bs "vvv"))]); (HBool false)]) (bs "a:2:{s:5:""users"";a:2:{i:0;a:2:{s:2:""id"";s:1:""1"";s:4:""name"";s:3:""sai"";}i:1;a:2:{s:2:""id"";s:1:""2"";s:4:""name"";s:6:""trim21"";}}s:3:""obj"";a:2:{s:1:""v"";i:2;s:37:""a long string name replace field name"";s:3:""vvv"";}}").
Proof. run. Qed.

(** tests/marshal_test.go:1361-1374 TestMarshal_int_ptr_string *)
Example test_511 : writes [Decl (UStruct [fld "I" "i,string" (TPtr (TInt IInt))]) NoMethod false] [Cells [(HInt (0))]; Cells [(HStruct [(HPtr (Some (0, 0)%nat))])]] (TPtr (TName 0)) (HPtr (Some (1, 0)%nat)) (bs "a:1:{s:1:""i"";s:1:""0"";}").
Proof. run. Qed.

(** internal/encoder/encoder_test.go:11-42 TestMarshalScalarTypes *)
Example test_512 : writes [] [] TBool (HBool true) (bs "b:1;").
Proof. run. Qed.
Example test_513 : writes [] [] TBool (HBool false) (bs "b:0;").
Proof. run. Qed.
Example test_514 : writes [] [] (TInt I8) (HInt (-8)) (bs "i:-8;").
Proof. run. Qed.
Example test_515 : writes [] [] (TInt I16) (HInt (-16)) (bs "i:-16;").
Proof. run. Qed.
Example test_516 : writes [] [] (TInt I32) (HInt (-32)) (bs "i:-32;").
Proof. run. Qed.
Example test_517 : writes [] [] (TInt I64) (HInt (-64)) (bs "i:-64;").
Proof. run. Qed.
Example test_518 : writes [] [] (TInt IInt) (HInt (-1)) (bs "i:-1;").
Proof. run. Qed.
Example test_519 : writes [] [] (TUint U8) (HUint 8) (bs "i:8;").
Proof. run. Qed.
Example test_520 : writes [] [] (TUint U16) (HUint 16) (bs "i:16;").
Proof. run. Qed.
Example test_521 : writes [] [] (TUint U32) (HUint 32) (bs "i:32;").
Proof. run. Qed.
Example test_522 : writes [] [] (TUint U64) (HUint 64) (bs "i:64;").
Proof. run. Qed.
Example test_523 : writes [] [] (TUint UUint) (HUint 1) (bs "i:1;").
Proof. run. Qed.
Example test_524 : writes [] [] TF32 (HF32 f35) (bs "d:3.5;").
Proof. run. Qed.
Example test_525 : writes [] [] TF64 (HF64 minus_f45) (bs "d:-4.5;").
Proof. run. Qed.
Example test_526 : writes [] [] TString (HStr (bs "foo")) (bs "s:3:""foo"";").
Proof. run. Qed.
Example test_527 : writes [] [Cells [(HUint 102); (HUint 111); (HUint 111)]] (TSlice (TUint U8)) (HSlice (Some (0, 0, 3)%nat)) (bs "s:3:""foo"";").
Proof. run. Qed.

(** internal/encoder/encoder_test.go:44-63 TestMarshalFloatFormats *)
Example test_528 : writes [] [] TF32 (HF32 tiny32) (bs "d:1e-07;").
Proof. run. Qed.
Example test_529 : writes [] [] TF64 (HF64 tiny) (bs "d:1e-07;").
Proof. run. Qed.
Example test_530 : writes [] [] TF64 (HF64 huge) (bs "d:1e+21;").
Proof. run. Qed.
Example test_531 : writes [] [] TF64 (HF64 (S754_zero false)) (bs "d:0;").
Proof. run. Qed.

(** internal/encoder/encoder_test.go:65-92 TestMarshalCompositeTypes: with the whole text *)
Example test_532 : writes [] [] (TArray 2 (TInt IInt)) (HArr [(HInt (1)); (HInt (2))]) (bs "a:2:{i:0;i:1;i:1;i:2;}").
Proof. run. Qed.
Example test_533 : writes [] [Cells [(HStr (bs "a")); (HStr (bs "b"))]] (TSlice TString) (HSlice (Some (0, 0, 2)%nat)) (bs "a:2:{i:0;s:1:""a"";i:1;s:1:""b"";}").
Proof. run. Qed.
Example test_534 : writes [] [MapObj [((HStr (bs "x")), (HInt (1)))]; Cells [(HMap (Some 0%nat))]] (TSlice (TMap TString (TInt IInt))) (HSlice (Some (1, 0, 1)%nat)) (bs "a:1:{i:0;a:1:{s:1:""x"";i:1;}}").
Proof. run. Qed.
Example test_535 : writes [] [MapObj [((HStr (bs "x")), (HInt (1)))]] (TMap TString (TInt IInt)) (HMap (Some 0%nat)) (bs "a:1:{s:1:""x"";i:1;}").
Proof. run. Qed.
Example test_536 : writes [] [MapObj [((HInt (1)), (HStr (bs "x")))]] (TMap (TInt IInt) TString) (HMap (Some 0%nat)) (bs "a:1:{i:1;s:1:""x"";}").
Proof. run. Qed.
Example test_537 : writes [] [MapObj [((HUint 1), (HInt (2)))]] (TMap (TUint UUint) (TInt IInt)) (HMap (Some 0%nat)) (bs "a:1:{i:1;i:2;}").
Proof. run. Qed.
Example test_538 : writes [] [MapObj [((HStr (bs "outer")), (HMap (Some 1%nat)))]; MapObj [((HStr (bs "inner")), (HInt (1)))]] (TMap TString (TMap TString (TInt IInt))) (HMap (Some 0%nat)) (bs "a:1:{s:5:""outer"";a:1:{s:5:""inner"";i:1;}}").
Proof. run. Qed.
Example test_539 : writes [] [] (TSlice (TInt IInt)) (HSlice None) (bs "N;").
Proof. run. Qed.
Example test_540 : writes [] [] (TMap TString (TInt IInt)) (HMap None) (bs "N;").
Proof. run. Qed.
Example test_541 : writes [] [] (TPtr (TInt IInt)) (HPtr None) (bs "N;").
Proof. run. Qed.

(** internal/encoder/encoder_test.go:94-108 TestMarshalPointers: with the whole text *)
Example test_542 : writes [] [Cells [(HBool true)]] (TPtr TBool) (HPtr (Some (0, 0)%nat)) (bs "b:1;").
Proof. run. Qed.
Example test_543 : writes [] [Cells [(HInt (1))]] (TPtr (TInt IInt)) (HPtr (Some (0, 0)%nat)) (bs "i:1;").
Proof. run. Qed.
Example test_544 : writes [] [Cells [(HUint 2)]] (TPtr (TUint UUint)) (HPtr (Some (0, 0)%nat)) (bs "i:2;").
Proof. run. Qed.
Example test_545 : writes [] [Cells [HF32 f35]] (TPtr TF32) (HPtr (Some (0, 0)%nat)) (bs "d:3.5;").
Proof. run. Qed.
Example test_546 : writes [] [Cells [HF64 f45]] (TPtr TF64) (HPtr (Some (0, 0)%nat)) (bs "d:4.5;").
Proof. run. Qed.
Example test_547 : writes [] [Cells [(HStr (bs "x"))]] (TPtr TString) (HPtr (Some (0, 0)%nat)) (bs "s:1:""x"";").
Proof. run. Qed.
Example test_548 : writes [] [MapObj [((HStr (bs "x")), (HInt (1)))]; Cells [(HMap (Some 0%nat))]] (TPtr (TMap TString (TInt IInt))) (HPtr (Some (1, 0)%nat)) (bs "a:1:{s:1:""x"";i:1;}").
Proof. run. Qed.
Example test_549 : writes [] [Cells [(HInt (1))]; Cells [(HSlice (Some (0, 0, 1)%nat))]] (TPtr (TSlice (TInt IInt))) (HPtr (Some (1, 0)%nat)) (bs "a:1:{i:0;i:1;}").
Proof. run. Qed.

(** internal/encoder/encoder_test.go:110-140 TestMarshalStructTags: with the whole text *)
Example test_550 : writes [Decl (UStruct [fld "Bool" "bool,string" TBool; fld "Int8" "int8,string" (TInt I8); fld "Int16" "int16,string" (TInt I16); fld "Int32" "int32,string" (TInt I32); fld "Int64" "int64,string" (TInt I64); fld "Int" "int,string" (TInt IInt); fld "Uint" "uint,string" (TUint UUint); fld "Float32" "float32,string" TF32; fld "Float64" "float64,string" TF64; fld "Any" "any,string" TAny; fld "Ptr" "ptr,omitempty" (TPtr (TInt IInt)); fld "Omit" "omit,omitempty" TString; fld "Ignore" "-" TString; Field (bs "private") false false [] TString]) NoMethod false] [] (TName 0) (HStruct [(HBool true); (HInt (-8)); (HInt (-16)); (HInt (-32)); (HInt (-64)); (HInt (-1)); (HUint 2); HF32 f35; HF64 f45; (HIface (Some ((TInt I64), (HInt (5))))); (HPtr None); (HStr (bs "")); (HStr (bs "")); (HStr (bs ""))]) (bs "a:10:{s:4:""bool"";s:4:""true"";s:4:""int8"";s:2:""-8"";s:5:""int16"";s:3:""-16"";s:5:""int32"";s:3:""-32"";s:5:""int64"";s:3:""-64"";s:3:""int"";s:2:""-1"";s:4:""uint"";s:1:""2"";s:7:""float32"";s:3:""3.5"";s:7:""float64"";s:3:""4.5"";s:3:""any"";s:1:""5"";}").
Proof. run. Qed.

(** internal/encoder/encoder_test.go:142-165 TestMarshalInterfaceValues: with the whole text *)
Example test_551 : writes [Decl (UStruct [fld "Value" "value" TAny]) NoMethod false] [] (TName 0) (HStruct [HIface None]) (bs "a:1:{s:5:""value"";N;}").
Proof. run. Qed.
Example test_552 : writes [Decl (UStruct [fld "Value" "value" TAny]) NoMethod false] [] (TName 0) (HStruct [(HIface (Some (TBool, (HBool true))))]) (bs "a:1:{s:5:""value"";b:1;}").
Proof. run. Qed.
Example test_553 : writes [Decl (UStruct [fld "Value" "value" TAny]) NoMethod false] [] (TName 0) (HStruct [(HIface (Some ((TUint U8), (HUint 1))))]) (bs "a:1:{s:5:""value"";i:1;}").
Proof. run. Qed.
Example test_554 : writes [Decl (UStruct [fld "Value" "value" TAny]) NoMethod false] [] (TName 0) (HStruct [(HIface (Some ((TUint U16), (HUint 2))))]) (bs "a:1:{s:5:""value"";i:2;}").
Proof. run. Qed.
Example test_555 : writes [Decl (UStruct [fld "Value" "value" TAny]) NoMethod false] [] (TName 0) (HStruct [(HIface (Some ((TUint U32), (HUint 3))))]) (bs "a:1:{s:5:""value"";i:3;}").
Proof. run. Qed.
Example test_556 : writes [Decl (UStruct [fld "Value" "value" TAny]) NoMethod false] [] (TName 0) (HStruct [(HIface (Some ((TUint U64), (HUint 4))))]) (bs "a:1:{s:5:""value"";i:4;}").
Proof. run. Qed.
Example test_557 : writes [Decl (UStruct [fld "Value" "value" TAny]) NoMethod false] [] (TName 0) (HStruct [(HIface (Some ((TUint UUint), (HUint 5))))]) (bs "a:1:{s:5:""value"";i:5;}").
Proof. run. Qed.
Example test_558 : writes [Decl (UStruct [fld "Value" "value" TAny]) NoMethod false] [] (TName 0) (HStruct [(HIface (Some ((TInt I8), (HInt (-1)))))]) (bs "a:1:{s:5:""value"";i:-1;}").
Proof. run. Qed.
Example test_559 : writes [Decl (UStruct [fld "Value" "value" TAny]) NoMethod false] [] (TName 0) (HStruct [(HIface (Some ((TInt I16), (HInt (-2)))))]) (bs "a:1:{s:5:""value"";i:-2;}").
Proof. run. Qed.
Example test_560 : writes [Decl (UStruct [fld "Value" "value" TAny]) NoMethod false] [] (TName 0) (HStruct [(HIface (Some ((TInt I32), (HInt (-3)))))]) (bs "a:1:{s:5:""value"";i:-3;}").
Proof. run. Qed.
Example test_561 : writes [Decl (UStruct [fld "Value" "value" TAny]) NoMethod false] [] (TName 0) (HStruct [(HIface (Some ((TInt I64), (HInt (-4)))))]) (bs "a:1:{s:5:""value"";i:-4;}").
Proof. run. Qed.
Example test_562 : writes [Decl (UStruct [fld "Value" "value" TAny]) NoMethod false] [] (TName 0) (HStruct [(HIface (Some ((TInt IInt), (HInt (-5)))))]) (bs "a:1:{s:5:""value"";i:-5;}").
Proof. run. Qed.
Example test_563 : writes [Decl (UStruct [fld "Value" "value" TAny]) NoMethod false] [] (TName 0) (HStruct [(HIface (Some (TF32, HF32 f35)))]) (bs "a:1:{s:5:""value"";d:3.5;}").
Proof. run. Qed.
Example test_564 : writes [Decl (UStruct [fld "Value" "value" TAny]) NoMethod false] [] (TName 0) (HStruct [(HIface (Some (TF64, HF64 f45)))]) (bs "a:1:{s:5:""value"";d:4.5;}").
Proof. run. Qed.
Example test_565 : writes [Decl (UStruct [fld "Value" "value" TAny]) NoMethod false] [] (TName 0) (HStruct [(HIface (Some (TString, (HStr (bs "x")))))]) (bs "a:1:{s:5:""value"";s:1:""x"";}").
Proof. run. Qed.
Example test_566 : writes [Decl (UStruct [fld "Value" "value" TAny]) NoMethod false] [Cells [(HIface (Some ((TInt IInt), (HInt (1))))); (HIface (Some (TString, (HStr (bs "x")))))]] (TName 0) (HStruct [(HIface (Some ((TSlice TAny), (HSlice (Some (0, 0, 2)%nat)))))]) (bs "a:1:{s:5:""value"";a:2:{i:0;i:1;i:1;s:1:""x"";}}").
Proof. run. Qed.
Example test_567 : writes [Decl (UStruct [fld "Value" "value" TAny]) NoMethod false] [Cells [(HInt (1)); (HInt (2))]] (TName 0) (HStruct [(HIface (Some ((TSlice (TInt IInt)), (HSlice (Some (0, 0, 2)%nat)))))]) (bs "a:1:{s:5:""value"";a:2:{i:0;i:1;i:1;i:2;}}").
Proof. run. Qed.
Example test_568 : writes [Decl (UStruct [fld "Value" "value" TAny]) NoMethod false] [Cells []] (TName 0) (HStruct [(HIface (Some ((TSlice (TInt IInt)), (HSlice (Some (0, 0, 0)%nat)))))]) (bs "a:1:{s:5:""value"";a:0:{}}").
Proof. run. Qed.
Example test_569 : writes [Decl (UStruct [fld "Value" "value" TAny]) NoMethod false] [MapObj [((HStr (bs "x")), (HIface (Some ((TInt IInt), (HInt (1))))))]] (TName 0) (HStruct [(HIface (Some ((TMap TString TAny), (HMap (Some 0%nat)))))]) (bs "a:1:{s:5:""value"";a:1:{s:1:""x"";i:1;}}").
Proof. run. Qed.
Example test_570 : writes [Decl (UStruct [fld "Value" "value" TAny]) NoMethod false] [MapObj [((HStr (bs "x")), (HInt (1)))]] (TName 0) (HStruct [(HIface (Some ((TMap TString (TInt IInt)), (HMap (Some 0%nat)))))]) (bs "a:1:{s:5:""value"";a:1:{s:1:""x"";i:1;}}").
Proof. run. Qed.
Example test_571 : writes [Decl (UStruct [fld "Value" "value" TAny]) NoMethod false] [MapObj []] (TName 0) (HStruct [(HIface (Some ((TMap TString (TInt IInt)), (HMap (Some 0%nat)))))]) (bs "a:1:{s:5:""value"";a:0:{}}").
Proof. run. Qed.
Example test_572 : writes [Decl (UStruct [fld "Value" "value" TAny]) NoMethod false; Decl (UStruct [fld "X" "" (TInt IInt)]) NoMethod false] [] (TName 0) (HStruct [(HIface (Some ((TName 1), (HStruct [(HInt (1))]))))]) (bs "a:1:{s:5:""value"";a:1:{s:1:""X"";i:1;}}").
Proof. run. Qed.
Example test_573 : writes [Decl (UStruct [fld "Value" "value" TAny]) NoMethod false] [Cells [(HInt (0))]; Cells [(HIface (Some ((TPtr (TInt IInt)), (HPtr (Some (0, 0)%nat)))))]] (TName 0) (HStruct [(HIface (Some ((TPtr TAny), (HPtr (Some (1, 0)%nat)))))]) (bs "a:1:{s:5:""value"";i:0;}").
Proof. run. Qed.

(** internal/encoder/encoder_test.go:167-188 TestMarshalInterfaceValuesAsString: with the whole text *)
Example test_574 : writes [Decl (UStruct [fld "Value" "value,string" TAny]) NoMethod false] [] (TName 0) (HStruct [(HIface (Some (TBool, (HBool true))))]) (bs "a:1:{s:5:""value"";s:4:""true"";}").
Proof. run. Qed.
Example test_575 : writes [Decl (UStruct [fld "Value" "value,string" TAny]) NoMethod false] [] (TName 0) (HStruct [(HIface (Some ((TUint U8), (HUint 1))))]) (bs "a:1:{s:5:""value"";s:1:""1"";}").
Proof. run. Qed.
Example test_576 : writes [Decl (UStruct [fld "Value" "value,string" TAny]) NoMethod false] [] (TName 0) (HStruct [(HIface (Some ((TUint U16), (HUint 2))))]) (bs "a:1:{s:5:""value"";s:1:""2"";}").
Proof. run. Qed.
Example test_577 : writes [Decl (UStruct [fld "Value" "value,string" TAny]) NoMethod false] [] (TName 0) (HStruct [(HIface (Some ((TUint U32), (HUint 3))))]) (bs "a:1:{s:5:""value"";s:1:""3"";}").
Proof. run. Qed.
Example test_578 : writes [Decl (UStruct [fld "Value" "value,string" TAny]) NoMethod false] [] (TName 0) (HStruct [(HIface (Some ((TUint U64), (HUint 4))))]) (bs "a:1:{s:5:""value"";s:1:""4"";}").
Proof. run. Qed.
Example test_579 : writes [Decl (UStruct [fld "Value" "value,string" TAny]) NoMethod false] [] (TName 0) (HStruct [(HIface (Some ((TUint UUint), (HUint 5))))]) (bs "a:1:{s:5:""value"";s:1:""5"";}").
Proof. run. Qed.
Example test_580 : writes [Decl (UStruct [fld "Value" "value,string" TAny]) NoMethod false] [] (TName 0) (HStruct [(HIface (Some ((TInt I8), (HInt (-1)))))]) (bs "a:1:{s:5:""value"";s:2:""-1"";}").
Proof. run. Qed.
Example test_581 : writes [Decl (UStruct [fld "Value" "value,string" TAny]) NoMethod false] [] (TName 0) (HStruct [(HIface (Some ((TInt I16), (HInt (-2)))))]) (bs "a:1:{s:5:""value"";s:2:""-2"";}").
Proof. run. Qed.
Example test_582 : writes [Decl (UStruct [fld "Value" "value,string" TAny]) NoMethod false] [] (TName 0) (HStruct [(HIface (Some ((TInt I32), (HInt (-3)))))]) (bs "a:1:{s:5:""value"";s:2:""-3"";}").
Proof. run. Qed.
Example test_583 : writes [Decl (UStruct [fld "Value" "value,string" TAny]) NoMethod false] [] (TName 0) (HStruct [(HIface (Some ((TInt I64), (HInt (-4)))))]) (bs "a:1:{s:5:""value"";s:2:""-4"";}").
Proof. run. Qed.
Example test_584 : writes [Decl (UStruct [fld "Value" "value,string" TAny]) NoMethod false] [] (TName 0) (HStruct [(HIface (Some ((TInt IInt), (HInt (-5)))))]) (bs "a:1:{s:5:""value"";s:2:""-5"";}").
Proof. run. Qed.
Example test_585 : writes [Decl (UStruct [fld "Value" "value,string" TAny]) NoMethod false] [] (TName 0) (HStruct [(HIface (Some (TF32, HF32 f35)))]) (bs "a:1:{s:5:""value"";s:3:""3.5"";}").
Proof. run. Qed.
Example test_586 : writes [Decl (UStruct [fld "Value" "value,string" TAny]) NoMethod false] [] (TName 0) (HStruct [(HIface (Some (TF64, HF64 f45)))]) (bs "a:1:{s:5:""value"";s:3:""4.5"";}").
Proof. run. Qed.
Example test_587 : fails [Decl (UStruct [fld "Value" "value,string" TAny]) NoMethod false] [Cells [(HInt (1))]] (TName 0) (HStruct [(HIface (Some ((TSlice (TInt IInt)), (HSlice (Some (0, 0, 1)%nat)))))]).
Proof. run. Qed.

(** internal/encoder/encoder_test.go:201-209 TestMarshalCustomMarshaler: what MarshalPHP returns is given by [X0] *)
Example test_588 : writes [Decl (UStruct [Field (bs "err") false false [] TBool]) ValueRecv false] [] (TName 0) (HStruct [(HBool false)]) (bs "i:7;").
Proof. run. Qed.
Example test_589 : fails [Decl (UStruct [Field (bs "err") false false [] TBool]) ValueRecv false] [] (TName 0) (HStruct [(HBool true)]).
Proof. run. Qed.

(** internal/encoder/encoder_test.go:211-236 TestMarshalErrors *)
Example test_590 : fails [] [] TOther (HOther false).
Proof. run. Qed.
Example test_591 : fails [] [MapObj [((HBool true), (HInt (1)))]] (TMap TBool (TInt IInt)) (HMap (Some 0%nat)).
Proof. run. Qed.
Example test_592 : fails [Decl (UStruct [fld "Value" "" TAny]) NoMethod false] [] (TName 0) (HStruct [(HIface (Some (TOther, HOther false)))]).
Proof. run. Qed.
Example test_593 : fails [] [Cells [(HInt (1))]; Cells [(HPtr (Some (0, 0)%nat))]] (TPtr (TPtr (TInt IInt))) (HPtr (Some (1, 0)%nat)).
Proof. run. Qed.
Example test_594 : fails [Decl (UStruct [fld "Value" "value,string" (TSlice (TInt IInt))]) NoMethod false] [] (TName 0) (HStruct [HSlice None]).
Proof. run. Qed.

(** internal/encoder/encoder_test.go:238-271 TestEncoderHelpers *)
Example test_595 : int_digits (0) = 1.
Proof. run. Qed.
Example test_596 : int_digits (-1) = 2.
Proof. run. Qed.
Example test_597 : int_digits (9) = 1.
Proof. run. Qed.
Example test_598 : int_digits (10) = 2.
Proof. run. Qed.
Example test_599 : int_digits (-10) = 3.
Proof. run. Qed.
Example test_600 : uint_digits 0 = 1.
Proof. run. Qed.
Example test_601 : uint_digits 9 = 1.
Proof. run. Qed.
Example test_602 : uint_digits 10 = 2.
Proof. run. Qed.
Example test_603 : exists b, snd (marshal X0 [Decl (UStruct [fld "Value" "value,string" TBool]) NoMethod false] [] in_order 9 st0 (Some (TName 0, (HStruct [(HBool false)])))) = ROk b.
Proof. run. Qed.
Example test_604 : exists b, snd (marshal X0 [Decl (UStruct [fld "Value" "value,string" (TInt IInt)]) NoMethod false] [] in_order 9 st0 (Some (TName 0, (HStruct [(HInt (0))])))) = ROk b.
Proof. run. Qed.
Example test_605 : exists b, snd (marshal X0 [Decl (UStruct [fld "Value" "value,string" (TUint UUint)]) NoMethod false] [] in_order 9 st0 (Some (TName 0, (HStruct [(HUint 0)])))) = ROk b.
Proof. run. Qed.
Example test_606 : exists b, snd (marshal X0 [Decl (UStruct [fld "Value" "value,string" TF64]) NoMethod false] [] in_order 9 st0 (Some (TName 0, (HStruct [HF64 f45])))) = ROk b.
Proof. run. Qed.
Example test_607 : exists b, snd (marshal X0 [Decl (UStruct [fld "Value" "value,string" TString]) NoMethod false] [] in_order 9 st0 (Some (TName 0, (HStruct [(HStr (bs ""))])))) = ROk b.
Proof. run. Qed.
