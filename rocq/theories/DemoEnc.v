(** A concrete memory, used only to show that hypotheses can be met. *)
From Coq Require Import Strings.String Strings.Byte ZArith List Bool Lia Floats.SpecFloat Permutation.
From Verif Require Import Base GoTypes Tags Grammar Denote Memory EncCompile Encode Php Repr EncApi EncCompileFacts Demo.
Import ListNotations.
Open Scope Z_scope.

(** &Node{A: 7, B: "", Next: &Node{A: -1, B: "é", Next: nil, Tags: nil}, Tags: []string{"x", ""}}
    (allocation 0: the inner node; 1: the tags; 2: the outer node), and
    allocation 3: map[string]any{"k": []any{int(1), nil}, "n": nil}, 4: that slice *)
Definition Hd : heap := [
  Cells [HStruct [HInt (-1); HStr (bs "yes"); HPtr None; HInt 3; HSlice None]];
  Cells [HStr (bs "x"); HStr []];
  Cells [HStruct [HInt 7; HStr []; HPtr (Some (0, 0)%nat); HInt 0; HSlice (Some (1, 0, 2)%nat)]];
  MapObj [(HStr (bs "k"), HIface (Some (TSlice TAny, HSlice (Some (4, 0, 2)%nat)))); (HStr (bs "n"), HIface None)];
  Cells [HIface (Some (TInt IInt, HInt 1)); HIface None] ].
Definition in_order (n : nat) (m : list (hval * hval)) : list (hval * hval) := m.
Definition backwards (n : nat) (m : list (hval * hval)) : list (hval * hval) := rev m.

Lemma in_order_fair : fair_order in_order.
Proof. intros n m. apply Permutation_refl. Qed.
Lemma backwards_fair : fair_order backwards.
Proof. intros n m. apply Permutation_rev. Qed.

Lemma Ed_node_encodable : encodable Xd Ed (TPtr (TName 0)).
Proof. eapply (compile_encodable Xd Ed 9 _ _). vm_compute. reflexivity. Qed.

Definition node_text : bytes := bs "a:3:{s:1:""a"";i:7;s:4:""Next"";a:4:{s:1:""a"";i:-1;s:1:""b"";s:3:""yes"";s:4:""Next"";N;s:4:""Tags"";N;}s:4:""Tags"";a:2:{i:0;s:1:""x"";i:1;s:0:"""";}}".
Lemma node_marshals : Marshals Xd Ed Hd in_order (TPtr (TName 0)) (HPtr (Some (2, 0)%nat)) node_text.
Proof. exists 12%nat. vm_compute. reflexivity. Qed.

Definition node_php : php :=
  PArr [(PStr (bs "a"), PInt 7);
        (PStr (bs "Next"), PArr [(PStr (bs "a"), PInt (-1)); (PStr (bs "b"), PStr (bs "yes")); (PStr (bs "Next"), PNull); (PStr (bs "Tags"), PNull)]);
        (PStr (bs "Tags"), PArr [(PInt 0, PStr (bs "x")); (PInt 1, PStr [])])].

Section NodeRepr.
  Context {S : Type} (en : S -> bool -> addr -> S -> Prop) (s0 s1 s2 s3 : S).
  Hypothesis H1 : en s0 false (cell_at Xd 2 0) s1.
  Hypothesis H2 : en s1 false (cell_at Xd 0 0) s2.
  Hypothesis H3 : en s1 false (cell_at Xd 1 0) s3.
  Lemma node_repr : repr Xd Ed Hd en s0 (TPtr (TName 0)) (HPtr (Some (2, 0)%nat)) node_php.
  Proof.
    apply rp_shape; [reflexivity|reflexivity|].
    eapply sh_ptr_struct; [reflexivity|reflexivity|reflexivity|exact H1|].
    eapply sh_struct; [reflexivity|].
    apply (fl_write Xd Ed Hd en s1 (Field (bs "A") true false (bs "a") (TInt IInt))); [reflexivity|discriminate| |].
    { apply fv_plain; [reflexivity|reflexivity|]. apply rp_shape; [reflexivity|reflexivity|]. apply sh_scalar. apply sr_int. cbv. split; [discriminate|reflexivity]. }
    apply fl_omit; [reflexivity|reflexivity|constructor|].
    apply (fl_write Xd Ed Hd en s1 (Field (bs "Next") true false [] (TPtr (TName 0)))); [reflexivity|discriminate| |].
    { eapply fv_ptr_struct; [reflexivity|reflexivity|reflexivity|reflexivity|exact H2|].
      apply rp_shape; [reflexivity|reflexivity|]. eapply sh_struct; [reflexivity|].
      apply (fl_write Xd Ed Hd en s2 (Field (bs "A") true false (bs "a") (TInt IInt))); [reflexivity|discriminate| |].
      { apply fv_plain; [reflexivity|reflexivity|]. apply rp_shape; [reflexivity|reflexivity|]. apply sh_scalar. apply sr_int. cbv. split; [discriminate|reflexivity]. }
      apply (fl_write Xd Ed Hd en s2 (Field (bs "B") true false (bs "b,omitempty") TString)); [reflexivity|intros _ Q; inversion Q| |].
      { apply fv_plain; [reflexivity|reflexivity|]. apply rp_shape; [reflexivity|reflexivity|]. apply sh_scalar. apply sr_str. }
      apply (fl_write Xd Ed Hd en s2 (Field (bs "Next") true false [] (TPtr (TName 0)))); [reflexivity|discriminate| |].
      { eapply fv_nil. reflexivity. }
      apply fl_skip; [reflexivity|].
      apply (fl_write Xd Ed Hd en s2 (Field (bs "Tags") true false [] (TSlice TString))); [reflexivity|discriminate| |].
      { apply fv_plain; [reflexivity|reflexivity|]. apply rp_shape; [reflexivity|reflexivity|]. eapply sh_slice_nil. reflexivity. }
      apply fl_nil. }
    apply fl_skip; [reflexivity|].
    apply (fl_write Xd Ed Hd en s1 (Field (bs "Tags") true false [] (TSlice TString))); [reflexivity|discriminate| |].
    { apply fv_plain; [reflexivity|reflexivity|]. apply rp_shape; [reflexivity|reflexivity|]. eapply sh_slice; [reflexivity|reflexivity|exact H3|].
      apply el_cons; [apply rp_shape; [reflexivity|reflexivity|]; apply sh_scalar; apply sr_str|].
      apply el_cons; [apply rp_shape; [reflexivity|reflexivity|]; apply sh_scalar; apply sr_str|]. apply el_nil. }
    apply fl_nil.
  Qed.
End NodeRepr.
