(* P_Sym.v - property theorems about the order and the scale of hidden units (C111) *)
From Coq Require Import String List Arith Bool ZArith Reals.
From Flocq Require Import Core IEEE754.BinarySingleNaN.
From Verif Require Import Base Scalar Mat SpecMat Act LayMat Layer Net SpecNet SpecOrder SpecSym Sym1 Sym2.
Import ListNotations.
Local Open Scope nat_scope.

(** C111.  Listing the units of a hidden Dense layer in another order, and multiplying a unit by a factor that its activation lets through on the way in
    while dividing by it on the way out, does not change a single prediction, in exact arithmetic. *)
Theorem C111_same_predictions : forall (jk : R), forall rs rs' (h h' : heap (ROps jk)) n k m J s c k0 q p0 l0 l1 l2 l0' l2' a b0 b1 b2 na nb nc nd N X out out',
  detNet (ROps jk) h n k m -> nth_error (nlay n) J = Some b0 -> nth_error (nlay n) (J + 1) = Some b1 -> nth_error (nlay n) (J + 2) = Some b2 ->
  hget (ROps jk) h b0 = Ok l0 -> hget (ROps jk) h b1 = Ok l1 -> hget (ROps jk) h b2 = Ok l2 -> lk l0 = KDense na nb -> lk l1 = KAct (Some a) -> lk l2 = KDense nc nd ->
  hget (ROps jk) h' b0 = Ok l0' -> hget (ROps jk) h' b2 = Ok l2' -> (forall i x, nth_error (nlay n) i = Some x -> i <> J -> i <> J + 2 -> hget (ROps jk) h' x = hget (ROps jk) h x) ->
  reorder q s -> (forall u, u < q -> passes jk a (c u)) -> rewired s c k0 q p0 l0 l2 l0' l2' -> mwf out -> mwf out' ->
  exists h1 h1' o, predict (ROps jk) rs h n (mgen N k X) out = Ok (h1, o) /\ predict (ROps jk) rs' h' n (mgen N k X) out' = Ok (h1', o).
Proof. exact same_predictions. Qed.
Print Assumptions C111_same_predictions.

(* the factor 1, so a mere reordering, works for every activation; positive factors work for the rectifiers, a change of sign for the odd functions *)
Theorem C111_any_activation : forall (jk : R), forall a, passes jk a 1%R.
Proof. exact passes_one. Qed.
Print Assumptions C111_any_activation.

Theorem C111_positive_factor : forall (jk : R), forall a c, In a [AAbsolute; ADivideBy256; AIdentity; ALeakyRelu; ALeakyRelu256; ARelu] -> (0 < c)%R -> passes jk a c.
Proof. exact passes_pos. Qed.
Print Assumptions C111_positive_factor.

Theorem C111_sign : forall (jk : R), forall a, In a [AAtan; ADivideBy256; AIdentity; ASin; ASoftSign; ATanh; ATanhShrink; AHardTanh] -> passes jk a (-1)%R.
Proof. exact passes_odd. Qed.
Print Assumptions C111_sign.

Theorem C111_case : forall (jk : R), forall rs rs' W B V N X, exists h1 h1' o, predict (ROps jk) rs ((syHeap jk) ARelu W B V) syNet (mgen N 1 X) (mempty (ROps jk)) = Ok (h1, o) /\
  predict (ROps jk) rs' ((syHeap jk) ARelu (fun i u => dbl u * W i (swap u))%R (fun i u => dbl u * B i (swap u))%R (fun u j => V (swap u) j / dbl u)%R) syNet (mgen N 1 X) (mempty (ROps jk)) = Ok (h1', o).
Proof. exact sym_case. Qed.
Print Assumptions C111_case.

(* the limits: a negative factor does not go through Relu, and in single precision the order of the units shows *)
Theorem C111_negative_refuted : forall jk, ~ passes jk ARelu (-1)%R.
Proof. exact negative_refuted. Qed.
Print Assumptions C111_negative_refuted.

Theorem C111_order_float_refuted : forall (lm : libm -> b32 -> b32) (pw : b32 -> b32 -> b32) (jk : b32), (onOne lm pw jk) ((sumHeap lm pw jk) big mbig (b32_of_Z 1)) = Some [B2SF (b32_of_Z 1)] /\ (onOne lm pw jk) ((sumHeap lm pw jk) big (b32_of_Z 1) mbig) = Some [B2SF (b32_of_Z 0)] /\ B2SF (b32_of_Z 1) <> B2SF (b32_of_Z 0).
Proof. exact order_float_refuted. Qed.
Print Assumptions C111_order_float_refuted.

