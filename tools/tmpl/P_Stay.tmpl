(* P_Stay.v - property theorems about the optimisers in single precision (C94) *)
From Coq Require Import List Arith ZArith Reals Lra Lia Bool.
From Flocq Require Import Core IEEE754.BinarySingleNaN.
From Verif Require Import Base Scalar Mat SpecMat B32Int Loss Optim SpecRound SpecNaN B32Kit NaNAct SpecStay OptFin1 OptFin2 OptFin3.
Import ListNotations.
Local Open Scope R_scope.

(** C94.  [within z x]: x is finite and |x| <= 2^z; [fraction x]: between 0 and 1, or the -1 of the default; [adaptive k]: Adagrad, RMSProp,
    Adam, Amsgrad, Nadam (SpecStay.v).  optRun is a sequence of calls optimize(w, g) on one optimiser, of any length. *)
@thm C94_bounded = weights_stay | forall (lm : libm -> b32 -> b32) (pw : b32 -> b32 -> b32) (jk : b32), | F = (B32Ops lm pw jk)
@thm C94_overflow_freezes = overflow_freezes | forall (lm : libm -> b32 -> b32) (pw : b32 -> b32 -> b32) (jk : b32), | F = (B32Ops lm pw jk)
@thm C94_any_gradient_refuted = unbounded_refuted
(* weight 3, gradients 5 and then 2^65, the default parameters *)
Example C94_case : within 0 (b32_of_Z (-1)) /\ fraction (b32_of_Z (-1)) /\ val (b32_of_Z (-1)) = -1 /\ within 100 (b32_of_Z 3) /\ within 40 (b32_of_Z 5) /\ adaptive OAdam /\
  within 100 (b32_mul (b32_of_Z (2 ^ 24)) (b32_mul (b32_of_Z (2 ^ 24)) (b32_of_Z (2 ^ 17)))) /\ p2 64 <= Rabs (val (b32_mul (b32_of_Z (2 ^ 24)) (b32_mul (b32_of_Z (2 ^ 24)) (b32_of_Z (2 ^ 17))))).
Proof.
  destruct (ofZ_val (-1) ltac:(lia)) as [A1 A2]. assert (P : forall z, (0 <= z)%Z -> 1 <= p2 z) by (intros; apply (p2_le 0); auto).
  split; [apply w_Z; [lia|]; change (p2 0) with 1; rewrite Rabs_left; lra|]. split; [split; auto|]. split; [exact A2|].
  split; [apply w_Z; [lia|]; pose proof (p2_le 2 100 ltac:(lia)); replace (p2 2) with 4 in H by reflexivity; rewrite Rabs_pos_eq; lra|].
  split; [apply w_Z; [lia|]; pose proof (p2_le 3 40 ltac:(lia)); replace (p2 3) with 8 in H by reflexivity; rewrite Rabs_pos_eq; lra|]. split; [unfold adaptive; auto|].
  destruct (ofZ_val (2 ^ 24) ltac:(lia)) as [B1 B2]. destruct (ofZ_val (2 ^ 17) ltac:(lia)) as [C1 C2]. assert (E24 : IZR (2 ^ 24) = p2 24) by (unfold p2; simpl; lra). assert (E17 : IZR (2 ^ 17) = p2 17) by (unfold p2; simpl; lra). rewrite E24 in B2. rewrite E17 in C2. pose proof max_pos as MP.
  assert (H1 : rg (p2 41) (p2 41) (b32_mul (b32_of_Z (2 ^ 24)) (b32_of_Z (2 ^ 17)))). { apply rg_mul; auto; [apply fmt_p2; lia | apply fmt_p2; lia | pose proof (p2_pos 41); lra | apply p2_lt_max; lia|]. rewrite B2, C2, p2_mul. split; apply Rle_refl. }
  destruct H1 as [H1 H1']. assert (H2 : rg (p2 65) (p2 65) (b32_mul (b32_of_Z (2 ^ 24)) (b32_mul (b32_of_Z (2 ^ 24)) (b32_of_Z (2 ^ 17))))).
  { assert (E : val (b32_mul (b32_of_Z (2 ^ 24)) (b32_of_Z (2 ^ 17))) = p2 41) by lra. apply rg_mul; auto; [apply fmt_p2; lia | apply fmt_p2; lia | pose proof (p2_pos 65); lra | apply p2_lt_max; lia|]. rewrite E, B2, p2_mul. split; apply Rle_refl. }
  destruct H2 as [H2 H2']. pose proof (p2_pos 65). pose proof (p2_le 65 100 ltac:(lia)). pose proof (p2_le 64 65 ltac:(lia)). split; [split; auto|]; rewrite Rabs_pos_eq; lra.
Qed.
