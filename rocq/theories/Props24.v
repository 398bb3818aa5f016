(** Maps (C69). *)
From Coq Require Import Strings.String Strings.Byte ZArith List Bool Lia.
From Verif Require Import Base GoTypes Tags Unmarshal Grammar Denote Elements Typing Api NumFacts TextFacts CompileFacts Safe UnmFacts StoreFacts StructFacts SeqFacts RoundTripFacts
  MapSpec MapFacts Demo.
Import ListNotations.
Open Scope Z_scope.

(** ** C69 Maps: after a successful Unmarshal a map holds under every key the value of
    the last entry of the input with that key, decoded into a zero value; keys that the
    input does not mention keep their values; a nil map has become a map.  [kvs] are the entries of the input,
    key and value decoded on their own. *)
Theorem C69_maps : forall X E T k t p n es o w,
  small (text p) -> wf p -> body_of p n es -> plain E T (KMap k t) -> Decodes X E (text p) T (VMap o) w ->
  exists kvs m, w = VMap (Some m) /\
    Forall2 (fun e d => Decodes X E (text (fst e)) k (zero E k) (fst d) /\ Decodes X E (text (snd e)) t (zero E t) (snd d)) es kvs /\
    forall q, at_key q m = match at_key q (rev kvs) with Some x => Some x | None => at_key q (held o) end.
Proof.
  intros X E T k t p n es o w Hsm Hw Hb Hk H.
  assert (supported X E T) as Hs by (apply decodes_iff in H; [exact (proj1 H)|exact Hsm]).
  assert (supported X E k) as Hsk by (eapply supported_component; [exact Hs|eapply co_key; eauto]).
  assert (supported X E t) as Hst by (eapply supported_component; [exact Hs|eapply co_val; eauto]).
  apply decodes_text in H; [|assumption..]. apply (store_map_inv X E 0 T k t) in H; [|exact Hk].
  destruct H as [_ [[-> _]|(n' & es' & o' & m & Hb' & _ & _ & [= <-] & -> & He)]]; [inversion Hb|].
  assert (n' = n /\ es' = es) as [-> ->] by (inversion Hb; subst; inversion Hb'; subst; auto).
  destruct (map_entries_lookup _ _ _ _ _ He) as (kvs & F & L). exists kvs, m. split; [reflexivity|]. split; [|exact L].
  clear L He. assert (forall e, In e es -> small (text (fst e)) /\ small (text (snd e)) /\ wf (fst e) /\ wf (snd e)) as Hin.
  { intros e Hi. destruct (in_wf _ _ _ e Hb Hi Hw) as [W1 W2]. split; [|split; [eapply in_small; eauto|auto]].
    eapply small_le; [|exact Hsm]. apply body_of_len in Hb. pose proof (in_body e es Hi). lia. }
  assert (Forall (fun e => small (text (fst e)) /\ small (text (snd e)) /\ wf (fst e) /\ wf (snd e)) es) as Hf by (apply Forall_forall; exact Hin).
  clear Hin Hb Hb' Hw Hsm. induction F as [|e d es kvs [A B] F IH]; [constructor|]. inversion Hf as [|? ? (S1 & S2 & W1 & W2) Hf']; subst. constructor; [|apply IH; assumption].
  split; [|exact (decodes_inner X E t (snd e) _ _ S2 W2 Hst B)].
  destruct e as [q1 q2], d as [d1 d2]. cbn [fst snd] in *. inversion A as [? ? ? ? _ St|? ? t' Hp _ _]; subst; [exact (decodes_inner X E k q1 _ _ S1 W1 Hsk St)|].
  apply decodes_text; [assumption..|]. destruct Hp as [Hp1 Hp2].
  assert (is_ptr E t' = false) as Hn.
  { destruct (is_ptr E t') eqn:Q; [|reflexivity]. exfalso. apply (proj1 Hsk k (in_refl _ _)). eapply us_ptr; [split; eassumption|exact Q]. }
  replace (zero E k) with (VPtr None) at 2 by (symmetry; eapply zero_ptr; eassumption). eapply sto_ptr_null; [split; eassumption|exact Hn].
Qed.
Print Assumptions C69_maps.
(** A map takes everything whose keys and values can be decoded on their own (for keys that are strings,
    booleans or integers), up to the nesting limit. *)
Theorem C69_accepts : forall X E T k t p n es o,
  go_env E -> small (text p) -> wf p -> body_of p n es -> num n <= max_int64 -> nesting p < 10000 -> supported X E T -> plain E T (KMap k t) ->
  has_unmarshal E k = None -> (match kind_of E k with KString | KBool | KInt _ | KUint _ => True | _ => False end) ->
  Forall (fun e => exists kv vv, Decodes X E (text (fst e)) k (zero E k) kv /\ Decodes X E (text (snd e)) t (zero E t) vv) es ->
  exists m, Decodes X E (text p) T (VMap o) (VMap (Some m)).
Proof.
  intros X E T k t p n es o Hgo Hsm Hw Hb Hn Hd Hs Hk Hu Hkk F.
  assert (supported X E k) as Hsk by (eapply supported_component; [exact Hs|eapply co_key; eauto]).
  assert (supported X E t) as Hst by (eapply supported_component; [exact Hs|eapply co_val; eauto]).
  rewrite (nesting_body p n es Hb) in Hd.
  destruct (map_entries_exists (store_key X E 1 k) (fun q w => store X E 1 t q (zero E t) w) es (held o)) as (m & M).
  - rewrite Forall_forall in F |- *. intros e Hi. destruct (F e Hi) as (kv & vv & A & B). exists kv, vv.
    destruct (in_wf _ _ _ e Hb Hi Hw) as [W1 W2]. pose proof (in_small _ _ _ e Hb Hi Hsm) as S2. destruct (nest_body_in e es Hi) as [N1 N2].
    assert (small (text (fst e))) as S1 by (eapply small_le; [|exact Hsm]; apply body_of_len in Hb; pose proof (in_body e es Hi); lia).
    apply inner_decodes in A; [|try assumption; unfold limit; lia..]. apply inner_decodes in B; [|try assumption; unfold limit; lia..].
    split; [|split; [exact B|]].
    + apply sk_plain; [|exact A]. right. destruct (kind_of E k); try contradiction; exact I.
    + inversion A; subst; unfold plain in *; repeat match goal with h : _ /\ _ |- _ => destruct h end; try congruence; try reflexivity;
        try solve [match goal with h : kind_of E k = _ |- _ => rewrite h in Hkk; destruct Hkk end].
      apply (hash_typed E k); [|apply zero_typed, Hgo]. apply ht_scalar. destruct (kind_of E k); try contradiction; reflexivity.
  - exists m. apply decodes_text; [assumption..|]. eapply sto_map; [exact Hk|unfold limit; lia|exact Hb| |exact Hn|exact M].
    inversion Hb; subst; inversion Hw; subst; assumption.
Qed.
Print Assumptions C69_accepts.
(** {"a": 1, "b": 2} into a map that holds {"b": 9, "c": 3}; the value of "b" is not merged with the old one: *)
Example C69_example :
  let T := TMap TString (TInt IInt) in let p := LArr (bs "3") [(LStr (bs "1") (bs "a"), LInt (bs "7")); (LStr (bs "1") (bs "b"), LInt (bs "2")); (LStr (bs "1") (bs "a"), LInt (bs "1"))] in
  let old := Some [(VStr (bs "b"), VInt 9); (VStr (bs "c"), VInt 3)] in
  go_env Ed /\ small (text p) /\ wf p /\ nesting p < 10000 /\ supported Xd Ed T /\ plain Ed T (KMap TString (TInt IInt)) /\
  Decodes Xd Ed (text p) T (VMap old) (VMap (Some [(VStr (bs "b"), VInt 2); (VStr (bs "c"), VInt 3); (VStr (bs "a"), VInt 1)])).
Proof.
  cbv zeta. split; [exact Ed_go|]. split; [reflexivity|]. split.
  { assert (forall ds, ds <> [] -> forallb is_digit ds = true -> wf (LInt ds)) as I by (intros ds A B; apply (wf_int ds (num ds)), it_pos; split; assumption).
    apply wf_arr; [split; [discriminate|reflexivity]|]. repeat constructor; try discriminate; apply I; discriminate || reflexivity. }
  split; [reflexivity|]. split; [apply (compile_supported Xd Ed 9); vm_compute; reflexivity|]. split; [split; reflexivity|].
  exists 9%nat. vm_compute. reflexivity.
Qed.
(** Values that are structs are decoded into a zero struct, not into the old value. *)
Theorem C69_not_merged : forall X,
  let E := [Decl (UStruct [Field (bs "A") true false [] (TInt IInt); Field (bs "B") true false [] (TInt IInt)]) NoMethod false] in
  Decodes X E (bs "a:1:{s:1:""k"";a:1:{s:1:""A"";i:1;}}") (TMap TString (TName 0)) (VMap (Some [(VStr (bs "k"), VStruct [VInt 5; VInt 5])]))
    (VMap (Some [(VStr (bs "k"), VStruct [VInt 1; VInt 0])])).
Proof. intros X E. exists 9%nat. destruct X. vm_compute. reflexivity. Qed.
Print Assumptions C69_not_merged.
