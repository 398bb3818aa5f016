(** C44 for Marshal itself: the scripts of the pool theorems are those of the
    encoders. *)
From Coq Require Import Strings.String Strings.Byte ZArith List Bool Lia Floats.SpecFloat Permutation.
From Verif Require Import Base GoTypes Tags Memory EncCompile Encode EncApi Demo EncScript EncScriptFacts.
From Verif Require Pool PoolFacts.
Import ListNotations.
Open Scope Z_scope.

(** ** C44 Marshal under concurrency.  Some goroutine calls Marshal on [v]: the
    call's buffer operations are [sc] (EncScript.v).  Whatever else runs at the
    same time, what that call returns is what Marshal (Encode.v) returns on [v],
    and the slice it returned holds exactly what its caller has left in it. *)
Theorem C44_marshal : forall W X E H ord method f t v sc calls s r held,
  method_scripts X E H method -> script X E H ord method f st0 t v = Some sc ->
  Pool.reachable W calls s -> In (Pool.Returned sc r held) (Pool.items s) ->
  match r with
  | Pool.Good b => Marshals X E H ord t v b /\
      exists sl now, held = Some (sl, now) /\ Pool.content (Pool.mem s) sl = now
  | Pool.Bad e => MarshalFails X E H ord t v e
  | Pool.Panics p => MarshalPanics X E H ord t v p
  end.
Proof.
  intros W X E H ord method f t v sc calls s r held Mok Hs Q Hi.
  pose proof (PoolFacts.pools_isolate W calls s sc r held Q Hi) as [Hr Hh].
  pose proof (script_results X E H ord method Mok f st0 t v) as S. rewrite Hs in S.
  destruct (snd (marshal X E H ord f st0 (Some (t, v)))) as [b|e|p|] eqn:Em; [destruct S as (sc' & [= <-] & S)..|discriminate S];
    rewrite Hr, S in *; [split; [|destruct held as [[sl now]|]; [eauto|destruct (Hh b); reflexivity]]|..]; exists f; exact Em.
Qed.
Print Assumptions C44_marshal.
(** If callers do not write to the slices they get, the slice holds the result for ever. *)
Theorem C44_marshal_stable : forall X E H ord method f t v sc calls s r sl now,
  method_scripts X E H method -> script X E H ord method f st0 t v = Some sc ->
  Pool.reachable False calls s -> In (Pool.Returned sc r (Some (sl, now))) (Pool.items s) ->
  Marshals X E H ord t v (Pool.content (Pool.mem s) sl).
Proof.
  intros X E H ord method f t v sc calls s r sl now Mok Hs Q Hi.
  pose proof (PoolFacts.pools_stable calls s sc r sl now Q Hi) as Hr.
  pose proof (script_results X E H ord method Mok f st0 t v) as S. rewrite Hs in S.
  destruct (snd (marshal X E H ord f st0 (Some (t, v)))) as [b|e|p|] eqn:Em; [destruct S as (sc' & [= <-] & S)..|discriminate S];
    rewrite S in Hr; try discriminate Hr. injection Hr as <-. exists f. exact Em.
Qed.
Print Assumptions C44_marshal_stable.
(** Every call that comes back has such a script; it produces what the call
    returns, whatever the caller's goroutine was doing before. *)
Theorem C44_scripts : forall X E H ord method t v, method_scripts X E H method ->
  (forall b, Marshals X E H ord t v b -> exists f sc, script X E H ord method f st0 t v = Some sc /\ Pool.results sc = Pool.Good b) /\
  (forall e, MarshalFails X E H ord t v e -> exists f sc, script X E H ord method f st0 t v = Some sc /\ Pool.results sc = Pool.Bad e) /\
  (forall p, MarshalPanics X E H ord t v p -> exists f sc, script X E H ord method f st0 t v = Some sc /\ Pool.results sc = Pool.Panics p) /\
  (MarshalDiverges X E H ord t v -> forall f, script X E H ord method f st0 t v = None).
Proof.
  intros X E H ord method t v Mok.
  split; [|split; [|split]]; [intros b (f & Hf)|intros e (f & Hf)|intros p (f & Hf)|intros D f; pose proof (D f) as Hf];
    pose proof (script_results X E H ord method Mok f st0 t v) as S; rewrite Hf in S; [exists f; exact S..|exact S].
Qed.
Print Assumptions C44_scripts.

(** type Rec struct { M Meth `php:"m"`; F float64 `php:"f,string"` }, where Meth is
    an int whose MarshalPHP calls Marshal on a bool and returns what that returns:
    one struct buffer, one nested call, one use of the small buffer. *)
Definition E16 : env := [
  Decl (UStruct [Field (bs "M") true false (bs "m") (TName 1);
                 Field (bs "F") true false (bs "f,string") TF64]) NoMethod false;
  Decl (UTy (TInt IInt)) ValueRecv false ].
Definition X16 : Ext := {| x_fmt := x_fmt Xd; x_parse := x_parse Xd; x_letter := x_letter Xd; x_unmarshal := x_unmarshal Xd;
  x_unquote := x_unquote Xd; x_slots := x_slots Xd; x_marshal := fun _ _ _ _ => ROk (bs "b:1;"); x_addr := x_addr Xd |}.
Definition pass_on (r : Pool.outcome) : Pool.cmd :=
  match r with Pool.Good raw => Pool.Emit raw | Pool.Bad e => Pool.Fail e | Pool.Panics p => Pool.Crash p end.
Definition method16 (t : gty) (v : hval) : Pool.cmd :=
  match call_marshal X16 E16 [] t v with
  | ROk b => Pool.Call [Pool.Emit b] pass_on
  | RErr e => Pool.Fail e
  | RPanic p => Pool.Crash p
  | RFuel => Pool.Emit []
  end.
Definition script16 : list Pool.cmd :=
  [Pool.Struct (bs "a:2:{")
     [Pool.Emit (bs "s:1:""m"";"); Pool.Call [Pool.Emit (bs "b:1;")] pass_on;
      Pool.Emit (bs "s:1:""f"";"); Pool.Small (bs "s:3:""") (bs "1.5") (bs """;")]].
Example C44_marshal_example :
  method_scripts X16 E16 [] method16 /\
  script X16 E16 [] (fun _ m => m) method16 9 st0 (TName 0) (HStruct [HInt 7; HF64 (S754_finite false 3 (-1))]) = Some script16 /\
  Pool.results script16 = Pool.Good (bs "a:2:{s:1:""m"";b:1;s:1:""f"";s:3:""1.5"";}").
Proof.
  split; [|split; vm_compute; reflexivity].
  intros t v. unfold method16. destruct (call_marshal X16 E16 [] t v); try reflexivity; try exact I.
  cbn. now rewrite app_nil_r.
Qed.
