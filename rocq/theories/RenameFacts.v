(** What a value represents does not depend on names (C87). *)
From Coq Require Import Strings.String Strings.Byte ZArith List Bool Lia Floats.SpecFloat Permutation.
From Verif Require Import Base GoTypes Tags Denote Memory EncCompile Php Repr Wider WiderFacts Rename.
Import ListNotations.
Open Scope Z_scope.

Section Facts.
  Context (X : Ext) (E : env) (H : heap) {S : Type} (enter : S -> bool -> addr -> S -> Prop).
  Notation renamed := (renamed X E).
  Notation repr := (repr X E H enter).
  Notation shape := (shape X E H enter).
  Notation inner := (inner X E H enter).
  Notation elems := (elems X E H enter).
  Notation pairs := (pairs X E H enter).
  Notation fields := (fields X E H enter).
  Notation field_val := (field_val X E H enter).

  Lemma room_scalar k k' v p : room k k' -> scalar_repr X k v p -> scalar_repr X k' v p.
  Proof.
    intros Hr Hs. destruct Hs; destruct k'; try contradiction; cbn [room] in Hr; try constructor.
    - eapply irange; eauto.
    - exact (proj1 (proj2 Hr)).
    - eapply urange; [exact (proj2 (proj2 Hr))|assumption].
  Qed.
  Lemma room_key k k' : room k k' -> key_kind k = true -> key_kind k' = true.
  Proof. destruct k; try discriminate; destruct k'; try contradiction; cbn; auto. intros (_ & Hn & _) _. destruct k0; auto; try congruence. Qed.

  (** The coarse kind is the same. *)
  Lemma renamed_kinds T T' : renamed T T' ->
    iface_kind (kind_of E T) = iface_kind (kind_of E T') /\ struct_kind (kind_of E T) = struct_kind (kind_of E T') /\
    ptr_kind (kind_of E T) = ptr_kind (kind_of E T') /\ by_structure (kind_of E T) = by_structure (kind_of E T') /\
    marshaler E T = marshaler E T' /\ bytes_type T = bytes_type T'.
  Proof.
    intros R. destruct R as [T|T T' k k' (M & B & K) (M' & B' & K') Hr|T T' k k' (M & B & K) (M' & B' & K') I I'|T T' t t' (M & B & K) (M' & B' & K') R|T T' n t t' (M & B & K) (M' & B' & K') R
      |T T' k k' t t' (M & B & K) (M' & B' & K') HK R|T T' t t' (M & B & K) (M' & B' & K') R|T T' id id' fs fs' (M & B & K) (M' & B' & K') L R];
      [repeat split; reflexivity| | | | | | | ]; rewrite M, M', B, B', K, K'; repeat split; try reflexivity.
    - destruct k; try contradiction; destruct k'; try contradiction; reflexivity.
    - destruct k; try contradiction; destruct k'; try contradiction; reflexivity.
    - destruct k; try contradiction; destruct k'; try contradiction; reflexivity.
    - destruct k; try contradiction; destruct k'; try contradiction; try reflexivity. destruct Hr as (A & A' & _). destruct k, k0; try reflexivity; congruence.
    - congruence.
    - destruct k; try discriminate; destruct k'; try discriminate; reflexivity.
    - destruct k; try discriminate; destruct k'; try discriminate; reflexivity.
    - destruct k; try discriminate; destruct k'; try discriminate; reflexivity.
  Qed.

  Lemma inner_iface s t t' v p : iface_kind (kind_of E t) = true -> iface_kind (kind_of E t') = true -> inner s t v p -> inner s t' v p.
  Proof.
    intros I I' Q. destruct Q; try (match goal with K : kind_of E ?t = _, I : iface_kind (kind_of E ?t) = true |- _ => rewrite K in I; discriminate I end).
    - apply in_nil. exact I'.
    - eapply in_iface; eauto.
    - exfalso. match goal with Q : scalar_repr _ _ _ _ |- _ => destruct Q; discriminate end.
  Qed.
  Lemma quoted_iface t t' v p : iface_kind (kind_of E t) = true -> iface_kind (kind_of E t') = true -> quoted_any X E H t v p -> quoted_any X E H t' v p.
  Proof.
    intros I I' Q. destruct Q; try (match goal with K : kind_of E ?t = _, I : iface_kind (kind_of E ?t) = true |- _ => rewrite K in I; discriminate I end);
      try discriminate I.
    - apply qa_nil. exact I'.
    - eapply qa_iface; eauto.
  Qed.
  Lemma quoted_renamed t t' v p : renamed t t' -> quoted_repr X E H t v p -> quoted_repr X E H t' v p.
  Proof.
    intros R Q.
    destruct R as [T|T T' k k' (M & B & K) (M' & B' & K') Hr|T T' k k' (M & B & K) (M' & B' & K') J J'|T T' t t' (M & B & K) (M' & B' & K') R|T T' n t t' (M & B & K) (M' & B' & K') R
      |T T' k k' t t' (M & B & K) (M' & B' & K') HK R|T T' t t' (M & B & K) (M' & B' & K') R|T T' id id' fs fs' (M & B & K) (M' & B' & K') L R]; [exact Q|..];
      try (exfalso; destruct Q as [b Kq|kq z Kq Hz|kq z Kq Hz|f Kq|f Kq|s Kq|v p Kq Hq]; rewrite K in Kq; discriminate Kq).
    - destruct k; try contradiction; destruct k'; try contradiction; cbn [room] in Hr;
        destruct Q as [b Kq|kq z Kq Hz|kq z Kq Hz|f Kq|f Kq|s Kq|v p Kq Hq]; rewrite K in Kq; try discriminate Kq; try (injection Kq as Kq).
      + apply qr_bool. exact K'.
      + eapply qr_int; [exact K'|]. rewrite <- Kq in Hz. eapply irange; [exact Hr|exact Hz].
      + eapply qr_uint; [exact K'|]. rewrite <- Kq in Hz. eapply urange; [exact (proj2 (proj2 Hr))|exact Hz].
      + apply qr_f32. exact K'.
      + apply qr_f64. exact K'.
      + apply qr_str. exact K'.
    - destruct Q as [b Kq|kq z Kq Hz|kq z Kq Hz|f Kq|f Kq|s Kq|v p Kq Hq]; try (rewrite <- K, Kq in J; discriminate J).
      apply qr_iface; [rewrite K'; exact J'|]. eapply quoted_iface; [| |exact Hq]; rewrite ?K, ?K'; assumption.
  Qed.

  Definition fields_renamed (fs fs' : list field) : Prop :=
    length fs = length fs' /\
    forall i f f', nth_error fs i = Some f -> nth_error fs' i = Some f' ->
      written_field X f = written_field X f' /\ (written_field X f = true -> same_tag X f f' /\ renamed (f_ty f) (f_ty f')).
  Lemma fields_renamed_cons f fs fs2 : fields_renamed (f :: fs) fs2 ->
    exists f' fs', fs2 = f' :: fs' /\ fields_renamed fs fs' /\ written_field X f = written_field X f' /\ (written_field X f = true -> same_tag X f f' /\ renamed (f_ty f) (f_ty f')).
  Proof.
    intros [L R]. destruct fs2 as [|f' fs']; [discriminate L|]. exists f', fs'. split; [reflexivity|]. split; [split; [injection L as L; exact L|]|exact (R 0%nat f f' eq_refl eq_refl)].
    intros i g g' A A'. exact (R (Datatypes.S i) g g' A A').
  Qed.

  Ltac inv_ren R K :=
    let M := fresh "M" in let B := fresh "B" in let K1 := fresh "K1" in let M' := fresh "M'" in let B' := fresh "B'" in let K' := fresh "K'" in
    destruct R as [T|T T' k1 k1' (M & B & K1) (M' & B' & K') Hroom|T T' k1 k1' (M & B & K1) (M' & B' & K') J J'|T T' t1 t1' (M & B & K1) (M' & B' & K') R|T T' n1 t1 t1' (M & B & K1) (M' & B' & K') R
      |T T' k1 k1' t1 t1' (M & B & K1) (M' & B' & K') HK R|T T' t1 t1' (M & B & K1) (M' & B' & K') R|T T' id1 id1' fs1 fs1' (M & B & K1) (M' & B' & K') Hlen R];
    [|rewrite K in K1; try discriminate K1; try (subst k1; first [contradiction | discriminate J]); try (injection K1 as; subst) ..].

  Lemma ren_ptr T T' t : renamed T T' -> kind_of E T = KPtr t -> exists t', kind_of E T' = KPtr t' /\ renamed t t'.
  Proof. intros R K. inv_ren R K; [exists t; split; [exact K|apply rn_same]|eauto]. Qed.

  Lemma ren :
    (forall s T v p, repr s T v p -> forall T', renamed T T' -> repr s T' v p) /\
    (forall s T v p, shape s T v p -> forall T', renamed T T' -> shape s T' v p) /\
    (forall s T v p, inner s T v p -> True) /\
    (forall s b t i l ps, elems s b t i l ps -> b = false -> forall t', renamed t t' -> elems s false t' i l ps) /\
    (forall s b k t l ps, pairs s b k t l ps -> b = false -> forall k' t', k = k' \/ room k k' -> renamed t t' -> pairs s false k' t' l ps) /\
    (forall s fs l ps, fields s fs l ps -> forall fs', fields_renamed fs fs' -> fields s fs' l ps) /\
    (forall s f v p, field_val s f v p -> forall f', same_tag X f f' -> renamed (f_ty f) (f_ty f') -> field_val s f' v p).
  Proof.
    apply repr_ind7; try (intros; exact I).
    - (* rp_marshaler *) intros s t v b Mm Hs T' R. pose proof (renamed_kinds _ _ R) as (_ & _ & _ & _ & Q & _).
      destruct R; try (match goal with A : by_kind _ _ _ |- _ => destruct A as (A & _); congruence end). apply rp_marshaler; assumption.
    - (* rp_bytes *) intros s t v b Mm Hb Hv T' R.
      destruct R; try (match goal with A : by_kind _ ?T _, Q : bytes_type ?T = true |- _ => destruct A as (_ & A & _); congruence end). apply rp_bytes; assumption.
    - (* rp_shape *) intros s t v p Mm Hb Hs IH T' R. pose proof (renamed_kinds _ _ R) as (_ & _ & _ & _ & Q & Q'). apply rp_shape; [congruence|congruence|]. apply IH. exact R.
    - (* sh_scalar *) intros s t v p Hs T' R.
      destruct R as [T|T T' k k' (M & B & K) (M' & B' & K') Hr|T T' k k' (M & B & K) (M' & B' & K') J J'|T T' t t' (M & B & K) (M' & B' & K') R|T T' n t t' (M & B & K) (M' & B' & K') R
        |T T' k k' t t' (M & B & K) (M' & B' & K') HK R|T T' t t' (M & B & K) (M' & B' & K') R|T T' id id' fs fs' (M & B & K) (M' & B' & K') L R];
        [apply sh_scalar; exact Hs|rewrite K in Hs ..]; try (inversion Hs; fail).
      + apply sh_scalar. rewrite K'. eapply room_scalar; eauto.
      + exfalso. clear K. destruct Hs; discriminate J.
    - (* sh_struct *) intros s t id fs l ps K Hf IH T' R. inv_ren R K.
      + eapply sh_struct; eauto.
      + eapply sh_struct; [exact K'|]. apply IH. split; assumption.
    - (* sh_array *) intros s t n t' l ps K Hl He IH T' R. inv_ren R K.
      + eapply sh_array; eauto.
      + eapply sh_array; [exact K'|reflexivity|]. apply IH; auto.
    - (* sh_slice_nil *) intros s t t' K T' R. inv_ren R K; eapply sh_slice_nil; eauto.
    - (* sh_slice *) intros s s' t t' o i n l ps K Hc En He IH T' R. inv_ren R K.
      + eapply sh_slice; eauto.
      + eapply sh_slice; [exact K'|exact Hc|exact En|]. apply IH; auto.
    - (* sh_map_nil *) intros s t k t' K T' R. inv_ren R K; eapply sh_map_nil; eauto.
    - (* sh_map *) intros s s' t k t' o m l ps K Hm Hp En Ha IH T' R. inv_ren R K.
      + eapply sh_map; eauto.
      + eapply sh_map; [exact K'|exact Hm|exact Hp|exact En|]. apply IH; auto. destruct HK as [->|HK]; auto.
    - (* sh_iface *) intros s t v p I Hi _ T' R. pose proof (renamed_kinds _ _ R) as (Q & _). apply sh_iface; [congruence|]. eapply inner_iface; [exact I|congruence|exact Hi].
    - (* sh_ptr_iface *) intros s t t' v p K I Hi _ T' R. inv_ren R K.
      + eapply sh_ptr_iface; eauto.
      + pose proof (renamed_kinds _ _ R) as (Q & _). eapply sh_ptr_iface; [exact K'|congruence|].
        inversion Hi; subst; try (match goal with A : kind_of E T = _ |- _ => rewrite K in A; first [discriminate A | injection A as; subst] end);
          try (match goal with A : iface_kind (kind_of E T) = true |- _ => rewrite K in A; discriminate A end).
        * eapply in_ptr_nil. exact K'.
        * eapply in_ptr; [exact K'|eassumption|]. eapply inner_iface; [exact I|congruence|eassumption].
        * exfalso. match goal with Q : scalar_repr _ _ _ _ |- _ => rewrite K in Q; inversion Q end.
    - (* sh_ptr_nil *) intros s t t' K I T' R. inv_ren R K; [eapply sh_ptr_nil; eauto|]. pose proof (renamed_kinds _ _ R) as (Q & _). eapply sh_ptr_nil; [exact K'|congruence].
    - (* sh_ptr_struct *) intros s s' t t' o i c p K Hs Hc En Hh IH T' R. inv_ren R K; [eapply sh_ptr_struct; eauto|]. pose proof (renamed_kinds _ _ R) as (_ & Q & _).
      eapply sh_ptr_struct; [exact K'|congruence|exact Hc|exact En|]. apply IH. exact R.
    - (* sh_ptr_direct *) intros s t t' o i c p K Hs Hb Hc Hh IH T' R. inv_ren R K; [eapply sh_ptr_direct; eauto|]. pose proof (renamed_kinds _ _ R) as (_ & Q & _ & Q' & _).
      eapply sh_ptr_direct; [exact K'|congruence|congruence|exact Hc|]. apply IH. exact R.
    - (* sh_ptr *) intros s t t' o i c p K Hb Hi Hc Hh IH T' R. inv_ren R K; [eapply sh_ptr; eauto|]. pose proof (renamed_kinds _ _ R) as (Q & _ & _ & Q' & _).
      eapply sh_ptr; [exact K'|congruence|congruence|exact Hc|]. apply IH. exact R.
    - (* el_nil *) intros; apply el_nil.
    - (* el_cons *) intros s t i v l p ps Hr IH He IHe _ t' R. apply el_cons; auto.
    - (* el_cons_in *) intros; discriminate.
    - (* pa_nil *) intros; apply pa_nil.
    - (* pa_cons *) intros s k t kv v l kp p ps [Hk Hs] Hr IH Hp IHp _ k' t' HK R. apply pa_cons; auto.
      destruct HK as [<-|HK]; [split; assumption|]. split; [eapply room_key; eauto|eapply room_scalar; eauto].
    - (* pa_cons_in *) intros; discriminate.
    - (* fl_nil *) intros s fs' [L _]. destruct fs'; [apply fl_nil|discriminate L].
    - (* fl_skip *) intros s f fs v l ps Hw Hf IH fs2 R. apply fields_renamed_cons in R as (f' & fs' & -> & R & Q & _). apply fl_skip; [congruence|apply IH; exact R].
    - (* fl_omit *) intros s f fs v l ps Hw Ho Hz Hf IH fs2 R. apply fields_renamed_cons in R as (f' & fs' & -> & R & Q & Q'). destruct (Q' Hw) as [(_ & _ & A) _].
      apply fl_omit; [congruence|congruence|exact Hz|apply IH; exact R].
    - (* fl_write *) intros s f fs v l p ps Hw Ho Hv IHv Hf IH fs2 R. apply fields_renamed_cons in R as (f' & fs' & -> & R & Q & Q'). destruct (Q' Hw) as [(A & B & C) D].
      rewrite A. apply fl_write; [congruence|rewrite <- C; exact Ho|apply IHv; [repeat split; assumption|exact D]|apply IH; exact R].
    - (* fv_nil *) intros s f t' K f' Tg R. destruct (ren_ptr _ _ _ R K) as (u & K' & _). eapply fv_nil; exact K'.
    - (* fv_ptr_struct *) intros s s' f t' o i c p K Hq Hs Hc En Hr IH f' (_ & Tg & _) R. destruct (ren_ptr _ _ _ R K) as (u & K' & R').
      pose proof (renamed_kinds _ _ R') as (_ & Q & _). eapply fv_ptr_struct; [exact K'|congruence|congruence|exact Hc|exact En|apply IH; exact R'].
    - (* fv_ptr *) intros s f t' o i c p K Hq Hs Hc Hr IH f' (_ & Tg & _) R. destruct (ren_ptr _ _ _ R K) as (u & K' & R').
      pose proof (renamed_kinds _ _ R') as (_ & Q & _). eapply fv_ptr; [exact K'|congruence|congruence|exact Hc|apply IH; exact R'].
    - (* fv_plain *) intros s f v p K Hq Hr IH f' (_ & Tg & _) R. pose proof (renamed_kinds _ _ R) as (_ & _ & Q & _). eapply fv_plain; [congruence|congruence|apply IH; exact R].
    - (* fv_ptr_quoted *) intros s f t' o i c p K Hq Hc Hr f' (_ & Tg & _) R. destruct (ren_ptr _ _ _ R K) as (u & K' & R').
      eapply fv_ptr_quoted; [exact K'|congruence|exact Hc|eapply quoted_renamed; eauto].
    - (* fv_quoted *) intros s f v p K Hq Hr f' (_ & Tg & _) R. pose proof (renamed_kinds _ _ R) as (_ & _ & Q & _). eapply fv_quoted; [congruence|congruence|eapply quoted_renamed; eauto].
  Qed.
End Facts.
