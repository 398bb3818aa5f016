(** Induction over value trees (the generated principle stops at lists). *)
From Coq Require Import Strings.String Strings.Byte ZArith List Bool.
From Verif Require Import Base GoTypes.
Import ListNotations.

Section GvalInd.
  Context (P : gval -> Prop).
  Hypotheses (Hb : forall b, P (VBool b)) (Hi : forall z, P (VInt z)) (Hu : forall z, P (VUint z)) (Hf : forall f, P (VF32 f)) (Hg : forall f, P (VF64 f))
    (Hs : forall s, P (VStr s)) (Hln : P (VSlice None)) (Hl : forall l, Forall P l -> P (VSlice (Some l))) (Ha : forall l, Forall P l -> P (VArr l))
    (Hmn : P (VMap None)) (Hm : forall m, Forall (fun e => P (fst e) /\ P (snd e)) m -> P (VMap (Some m)))
    (Hpn : P (VPtr None)) (Hp : forall v, P v -> P (VPtr (Some v))) (Hfn : P (VIface None)) (Hfi : forall t v, P v -> P (VIface (Some (t, v))))
    (Hst : forall l, Forall P l -> P (VStruct l)) (Ho : P VOther).
  Fixpoint gval_ind' (v : gval) : P v :=
    let each := fix each (l : list gval) : Forall P l :=
      match l with [] => Forall_nil _ | x :: l' => Forall_cons x (gval_ind' x) (each l') end in
    match v with
    | VBool b => Hb b | VInt z => Hi z | VUint z => Hu z | VF32 f => Hf f | VF64 f => Hg f | VStr s => Hs s
    | VSlice None => Hln | VSlice (Some l) => Hl l (each l) | VArr l => Ha l (each l)
    | VMap None => Hmn
    | VMap (Some m) => Hm m ((fix go (m : list (gval * gval)) : Forall (fun e => P (fst e) /\ P (snd e)) m :=
        match m with [] => Forall_nil _ | x :: m' => Forall_cons x (conj (gval_ind' (fst x)) (gval_ind' (snd x))) (go m') end) m)
    | VPtr None => Hpn | VPtr (Some v') => Hp v' (gval_ind' v')
    | VIface None => Hfn | VIface (Some (t, v')) => Hfi t v' (gval_ind' v')
    | VStruct l => Hst l (each l) | VOther => Ho
    end.
End GvalInd.
