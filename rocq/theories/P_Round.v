(* P_Round.v - property theorems about single-precision rounding (C89) *)
From Coq Require Import List Arith ZArith Reals Lra Lia.
From Flocq Require Import Core IEEE754.BinarySingleNaN.
From Verif Require Import Base Scalar Mat SpecMat Act LayMat Layer Net SpecRound RoundProofs1 RoundProofs2 B32Int.
Import ListNotations.
Local Open Scope R_scope.

(** C89.  Every float operation rounds to nearest even, as the model assumes (DESIGN.md).  A cell of a matrix product that
    is finite is within dotErr of the exact sum; it is finite when the absolute values cannot overflow. *)
Theorem C89_product : forall (lm : libm -> b32 -> b32) (pw : b32 -> b32 -> b32) (junk : b32), (forall n k m (a b : nat -> nat -> b32),
  exists c, mmul (B32Ops lm pw junk) (mgen n k a) (mgen k m b) = Ok (mgen n m c) /\ forall i j, (i < n)%nat -> (j < m)%nat ->
  (fin (c i j) -> (forall l, (l < k)%nat -> fin (a i l) /\ fin (b l j)) /\ Rabs (val (c i j) - rsum k (fun l => val (a i l) * val (b l j))) <= dotErr k (rsum k (fun l => Rabs (val (a i l) * val (b l j))))) /\
  ((forall l, (l < k)%nat -> fin (a i l) /\ fin (b l j)) -> dotMag k (rsum k (fun l => Rabs (val (a i l) * val (b l j)))) < max32 -> fin (c i j)))%R.
Proof. exact product_error. Qed.
Print Assumptions C89_product.

Theorem C89_bound_size : (forall n A, 2 * INR (n + 1) * u32 <= 1 -> 0 <= A -> dotErr n A <= 2 * INR (n + 1) * u32 * A + 2 * INR n * eta32)%R.
Proof. exact bound_size. Qed.
Print Assumptions C89_bound_size.

Theorem C89_prediction : forall (lm : libm -> b32 -> b32) (pw : b32 -> b32 -> b32) (junk : b32), (forall jk rs rsR (h : heap (B32Ops lm pw junk)) (hR : heap (ROps jk)) n us nb k m (X : nat -> nat -> b32),
  us <> [] -> holdsAll (B32Ops lm pw junk) (fun v => v) h (nlay n) us -> holdsAll (ROps jk) val hR (nlay n) us -> (0 < nb)%nat ->
  (forall i j, (i < nb)%nat -> (j < k)%nat -> fin (X i j)) -> (forall i, (i < nb)%nat -> small us (fun j => val (X i j)) (fun _ => 0) k m) ->
  exists Z ZR, predict (B32Ops lm pw junk) rs h n (mgen nb k X) (mempty (B32Ops lm pw junk)) = Ok (h, mgen nb m Z) /\ predict (ROps jk) rsR hR n (mgen nb k (fun i j => val (X i j))) (mempty (ROps jk)) = Ok (hR, mgen nb m ZR) /\
  forall i j, (i < nb)%nat -> (j < m)%nat -> fin (Z i j) /\ ZR i j = exact us (fun j => val (X i j)) j /\ Rabs (val (Z i j) - ZR i j) <= errOf us (fun j => val (X i j)) (fun _ => 0) j)%R.
Proof. exact predict_close. Qed.
Print Assumptions C89_prediction.

(* 3 -> Dense(1,1), weight 2, bias 1 -> Relu: the exact output is 7, the bound below 1e-5 *)
Example C89_case : let us := [UDense 1 1 (fun _ _ => b32_of_Z 2) (fun _ => b32_of_Z 1); URelu] in let x := fun _ : nat => val (b32_of_Z 3) in
  small us x (fun _ => 0) 1 1 /\ exact us x 0%nat = 7 /\ errOf us x (fun _ => 0) 0%nat < 1 / 100000.
Proof.
  destruct (ofZ_exact 3 ltac:(simpl; lia)) as (A1 & A2 & _). destruct (ofZ_exact 2 ltac:(simpl; lia)) as (B1 & B2 & _). destruct (ofZ_exact 1 ltac:(simpl; lia)) as (C1 & C2 & _).
  intros us x. subst us x. unfold val. cbn [small exact errOf exact1 err1 small1 rsum]. unfold val. rewrite !A1, !B1, !C1. rewrite !Rabs_pos_eq by lra.
  assert (U : u32 = / 16777216) by (unfold u32; simpl; lra). assert (E : 0 < eta32 < / 16777216). { unfold eta32. split; [apply bpow_gt_0|]. replace (/ 16777216) with (bpow radix2 (-24)) by (simpl; lra). apply bpow_lt. lia. }
  assert (M : 100 < max32). { unfold max32. apply Rlt_trans with (bpow radix2 7); [simpl; lra|apply bpow_lt; lia]. }
  split; [|split].
  - exists 1%nat. split; [|exists 1%nat; auto]. split; auto. split; auto. split; [lia|]. split; [intros; exact B2|]. split; [intros; exact C2|]. intros _ _. unfold dotMag. simpl. rewrite U. lra.
  - unfold Rmax. destruct (Rle_dec 0 _); lra.
  - unfold dotErr. simpl. rewrite U. lra.
Qed.
