(* P_PoolF.v - property theorems about max pooling in single precision (C107) *)
From Coq Require Import List Arith Bool ZArith Reals Lia.
From Flocq Require Import IEEE754.BinarySingleNaN.
From Verif Require Import Base Scalar Mat SpecMat LayMat LayImg LayTens SpecNaN SpecPool PoolF1 PoolF2 PoolF3.
Import ListNotations.
Local Open Scope nat_scope.

(** C107.  Global max pooling and max pooling on floats, NaN and infinities included: which cell is taken, and where the gradient goes. *)
@thm C107_forward = globalmax_forward_F | forall (lm : libm -> b32 -> b32) (pw : b32 -> b32 -> b32) (jk : b32), | F = (B32Ops lm pw jk)
@thm C107_gradient = globalmax_train_F | forall (lm : libm -> b32 -> b32) (pw : b32 -> b32 -> b32) (jk : b32), | F = (B32Ops lm pw jk)
(* the cell is determined *)
@thm C107_unique = topCell_uniq
@thm C107_case = nanImg_run | forall (lm : libm -> b32 -> b32) (pw : b32 -> b32 -> b32) (jk : b32), | F = (B32Ops lm pw jk)
(* a plane of NaN, or of cells at most -1e38: the backward pass writes outside *)
@thm C107_nothing_above = globalmax_train_notop | forall (lm : libm -> b32 -> b32) (pw : b32 -> b32 -> b32) (jk : b32), | F = (B32Ops lm pw jk)
@thm C107_nan_case = nanPlane_run | forall (lm : libm -> b32 -> b32) (pw : b32 -> b32 -> b32) (jk : b32), | F = (B32Ops lm pw jk)
(* with 2^24+2 cells the gradient may reach the wrong one *)
@thm C107_wide_refuted = globalmax_far | forall (lm : libm -> b32 -> b32) (pw : b32 -> b32 -> b32) (jk : b32), | F = (B32Ops lm pw jk)
@thm C107_max_pool = maxpool_forward_F | forall (lm : libm -> b32 -> b32) (pw : b32 -> b32 -> b32) (jk : b32), | F = (B32Ops lm pw jk)
