(* P_Round.v - property theorems about single-precision rounding (C89) *)
From Coq Require Import List Arith ZArith Reals Lra Lia.
From Flocq Require Import Core IEEE754.BinarySingleNaN.
From Verif Require Import Base Scalar Mat SpecMat Act LayMat Layer Net SpecRound RoundProofs1 RoundProofs2 B32Int.
Import ListNotations.
Local Open Scope R_scope.

(** C89.  Every float operation rounds to nearest even, as the model assumes (DESIGN.md).  A cell of a matrix product that
    is finite is within dotErr of the exact sum; it is finite when the absolute values cannot overflow. *)
@thmr C89_product = product_error | forall (lm : libm -> b32 -> b32) (pw : b32 -> b32 -> b32) (junk : b32), | F = (B32Ops lm pw junk)
@thmr C89_bound_size = bound_size
@thmr C89_prediction = predict_close | forall (lm : libm -> b32 -> b32) (pw : b32 -> b32 -> b32) (junk : b32), | F = (B32Ops lm pw junk)
(* 3 -> Dense(1,1), weight 2, bias 1 -> Relu: the exact output is 7, the bound below 1e-5 *)
Example C89_case : let us := [UDense 1 1 (fun _ _ => b32_of_Z 2) (fun _ => b32_of_Z 1); URelu] in let x := fun _ : nat => val (b32_of_Z 3) in
  small us x (fun _ => 0) 1 1 /\ exact us x 0%nat = 7 /\ errOf us x (fun _ => 0) 0%nat < 1 / 100000.
Proof.
  destruct (ofZ_exact 3 ltac:(simpl; lia)) as (A1 & A2 & _). destruct (ofZ_exact 2 ltac:(simpl; lia)) as (B1 & B2 & _). destruct (ofZ_exact 1 ltac:(simpl; lia)) as (C1 & C2 & _).
  intros us x. subst us x. unfold val. cbn [small exact errOf exact1 err1 small1 rsum]. unfold val. rewrite !A1, !B1, !C1. rewrite !Rabs_pos_eq by lra.
  assert (U : u32 = / 16777216) by (unfold u32; simpl; lra). assert (E : 0 < eta32 < / 16777216). { unfold eta32. split; [apply bpow_gt_0|]. replace (/ 16777216) with (bpow radix2 (-24)) by (simpl; lra). apply bpow_lt. lia. }
  assert (M : 100 < max32). { unfold max32. apply Rlt_trans with (bpow radix2 7); [simpl; lra|apply bpow_lt; lia]. }
  split; [|split].
  - exists 1%nat. split; [|exists 1%nat; auto]. split; auto. split; auto. split; [lia|]. split; [intros; exact B2|]. split; [intros; exact C2|]. intros _ _. unfold dotMag. simpl. rewrite U. lra.
  - unfold Rmax. destruct (Rle_dec 0 _); lra.
  - unfold dotErr. simpl. rewrite U. lra.
Qed.
