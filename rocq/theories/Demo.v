(** A concrete world used only to show that the theorems' hypotheses can be
    met: some declared types and a fixed choice of the external functions. *)
From Coq Require Import Strings.String Strings.Byte ZArith List Bool Lia Floats.SpecFloat.
From Verif Require Import Base GoTypes Tags Grammar Denote Typing CompileFacts.
Import ListNotations.
Open Scope Z_scope.

Definition Xd : Ext := {|
  x_fmt := fun _ _ _ => bs "1.5";
  x_parse := fun b => if bytes_eqb b (bs "1.5") then Some (S754_finite false 3 (-1)) else None;
  x_letter := fun _ => false;
  x_unmarshal := fun n b v => match v with VInt z => (VInt (z mod 10 + 1), true) | _ => (v, true) end;
  x_unquote := fun _ => None;
  x_slots := fun _ n => n <? 2 ^ 40;
  x_marshal := fun _ _ _ _ => ROk (bs "N;");
  x_addr := fun p => match p with ACell o i => 4096 * Z.of_nat o + Z.of_nat i | AMap o => 4096 * Z.of_nat o end |}.

(** 0: type Node struct { A int `php:"a"`; B string `php:"b,omitempty"`; Next *Node; skip int; Tags []string }
    1: type U int64, with UnmarshalPHP
    2: type Nodes []Node
    3: type Box struct { N int64 `php:"n,string"`; Any any; ID [2]int8; M map[string]uint8; U U; H int `php:"-"` }
    4: type Fixed struct { K map[int]bool; P *Fixed } *)
Definition Ed : env := [
  Decl (UStruct [Field (bs "A") true false (bs "a") (TInt IInt);
                 Field (bs "B") true false (bs "b,omitempty") TString;
                 Field (bs "Next") true false [] (TPtr (TName 0));
                 Field (bs "skip") false false [] (TInt IInt);
                 Field (bs "Tags") true false [] (TSlice TString)]) NoMethod false;
  Decl (UTy (TInt I64)) NoMethod true;
  Decl (UTy (TSlice (TName 0))) NoMethod false;
  Decl (UStruct [Field (bs "N") true false (bs "n,string") (TInt I64);
                 Field (bs "Any") true false [] TAny;
                 Field (bs "ID") true false [] (TArray 2 (TInt I8));
                 Field (bs "M") true false [] (TMap TString (TUint U8));
                 Field (bs "U") true false [] (TName 1);
                 Field (bs "H") true false (bs "-") (TInt IInt)]) NoMethod false;
  Decl (UStruct [Field (bs "K") true false [] (TMap (TInt IInt) TBool);
                 Field (bs "P") true false [] (TPtr (TName 4))]) NoMethod false ].

Lemma Ed_grounded T : grounded Ed T.
Proof.
  apply ranked_grounded. exists (fun n => match n with 2%nat => 1%nat | _ => 0%nat end). intros n d t m Hn Hd Hu Hm.
  do 5 (destruct n as [|n]; [cbn in Hn; injection Hn as <-; cbn in *; try discriminate; injection Hd as <-; cbn in Hm; try tauto; destruct Hm as [<-|[]]; lia|]).
  destruct n; discriminate.
Qed.
Lemma Ed_go : go_env Ed.
Proof.
  split.
  - exists (fun n => match n with 3%nat => 1%nat | _ => 0%nat end). intros n d Hn.
    do 5 (destruct n as [|n]; [cbn in Hn; injection Hn as <-; split; [cbn; lia|]; intros m Hm; cbn in Hm; try tauto; destruct Hm as [<-|[]]; lia|]).
    destruct n; discriminate.
  - intros n d t m Hn Hd. do 5 (destruct n as [|n]; [cbn in Hn; injection Hn as <-; cbn in *; try discriminate; injection Hd as <-; discriminate|]).
    destruct n; discriminate.
Qed.
Lemma Ed_user : user_ok Xd Ed.
Proof.
  intros n b v Hv. cbn. destruct v; cbn; try exact Hv.
  inversion Hv; subst. eapply ty_int; [eassumption|]. unfold int_range in *.
  pose proof (Z.mod_pos_bound z 10 ltac:(lia)). destruct k; cbn in *; lia.
Qed.
