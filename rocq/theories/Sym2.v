(* Sym2.v - which activations let a factor through; concrete networks; single precision *)
From Coq Require Import String List Arith Bool Lia ZArith Reals Lra.
From Flocq Require Import Core IEEE754.BinarySingleNaN.
From Verif Require Import Base Scalar Mat SpecMat SpecReal RSum MatFacts MatProofs Act LayMat Layer Net SpecNet NetRow NetProofs1 SpecOrder SpecFixed Fixed4 TrainProofs14 SpecSym Sym1.
Import ListNotations.
Local Open Scope nat_scope.
Ltac onR := match goal with |- @eq _ ?a ?b => change (@eq R a b) end.
Section S.
Variable jk : R.
Notation F := (ROps jk).
(* reordering alone works for every activation *)
Lemma passes_one : forall a, passes jk a 1%R.
Proof. intro a. split; [lra|]. intro z. rewrite !Rmult_1_l. reflexivity. Qed.
(* a positive factor *)
Lemma passes_pos : forall a c, In a [AAbsolute; ADivideBy256; AIdentity; ALeakyRelu; ALeakyRelu256; ARelu] -> (0 < c)%R -> passes jk a c.
Proof.
  intros a c Hin Hc. split; [lra|]. intro z. assert (P : (0 < z -> 0 < c * z)%R) by (intro; apply Rmult_lt_0_compat; auto). assert (M : (z < 0 -> c * z < 0)%R) by (intro; nra). assert (Z : (z = 0 -> c * z = 0)%R) by (intros ->; ring).
  repeat (destruct Hin as [<-|Hin]); try destruct Hin; cbv beta iota delta [act_apply fabs fmul flt fle f0 f1 ROps].
  - rewrite Rabs_mult, (Rabs_right c) by lra. reflexivity.
  - onR. ring.
  - reflexivity.
  - unfold Rleb. destruct (Rle_dec 0 (c * z)), (Rle_dec 0 z); [reflexivity|exfalso; lra|exfalso; destruct (Rle_lt_or_eq_dec 0 z); lra|onR; ring].
  - unfold Rleb. destruct (Rle_dec 0 (c * z)), (Rle_dec 0 z); [reflexivity|exfalso; lra|exfalso; destruct (Rle_lt_or_eq_dec 0 z); lra|onR; ring].
  - unfold Rltb. destruct (Rlt_dec 0 (c * z)), (Rlt_dec 0 z); [reflexivity|exfalso; destruct (Rtotal_order z 0) as [|[|]]; lra|exfalso; lra|onR; ring].
Qed.
(* a change of sign *)
Lemma passes_odd : forall a, In a [AAtan; ADivideBy256; AIdentity; ASin; ASoftSign; ATanh; ATanhShrink; AHardTanh] -> passes jk a (-1)%R.
Proof.
  intros a Hin. split; [lra|]. intro z. replace (-1 * z)%R with (- z)%R by ring. assert (T : Rtanh (- z) = (- Rtanh z)%R). { unfold Rtanh. rewrite Ropp_involutive. pose proof (exp_pos z). pose proof (exp_pos (- z)). field. lra. }
  repeat (destruct Hin as [<-|Hin]); try destruct Hin; cbv beta iota delta [act_apply fabs fmul fadd fdiv fsub fopp flt fle f0 f1 flm ROps Rlibm].
  - rewrite atan_opp. onR. ring.
  - onR. ring.
  - onR. ring.
  - rewrite sin_neg. onR. ring.
  - rewrite Rabs_Ropp. onR. field. pose proof (Rabs_pos z). lra.
  - rewrite T. onR. ring.
  - rewrite T. onR. ring.
  - unfold Rltb. destruct (Rlt_dec 1 (- z)), (Rlt_dec (- z) (Ropp 1)), (Rlt_dec 1 z), (Rlt_dec z (Ropp 1)); onR; lra.
Qed.
End S.

(** * a concrete network: Dense(1,2), Relu, Dense(2,1); units swapped, unit 0 doubled *)
Section Case.
Variable jk : R.
Notation F := (ROps jk).
Definition syDense (i o : nat) (W B : nat -> nat -> R) : layer F := setWB (layBase F (KDense i o) "GlorotUniform" "Zeros") (@mgen R i o W) (@mgen R 1 o B).
Definition syHeap (a : actKind) (W B V : nat -> nat -> R) : heap F := [Some (syDense 1 2 W B); Some (fxAct F a); Some (syDense 2 1 V (fun _ _ => 0%R))].
Definition syNet : net := mkNet [0; 1; 2] false false.
Definition swap (u : nat) : nat := 1 - u.
Definition dbl (u : nat) : R := if u =? 0 then 2%R else 1%R.
Lemma sym_case : forall rs rs' W B V N X, exists h1 h1' o, predict F rs (syHeap ARelu W B V) syNet (mgen N 1 X) (mempty F) = Ok (h1, o) /\
  predict F rs' (syHeap ARelu (fun i u => dbl u * W i (swap u))%R (fun i u => dbl u * B i (swap u))%R (fun u j => V (swap u) j / dbl u)%R) syNet (mgen N 1 X) (mempty F) = Ok (h1', o).
Proof.
  intros rs rs' W B V N X.
  apply (same_predictions jk rs rs' _ _ syNet 1 1 0 swap dbl 1 2 1 (syDense 1 2 W B) (fxAct F ARelu) (syDense 2 1 V (fun _ _ => 0%R)) (syDense 1 2 (fun i u => dbl u * W i (swap u))%R (fun i u => dbl u * B i (swap u))%R) (syDense 2 1 (fun u j => V (swap u) j / dbl u)%R (fun _ _ => 0%R)) ARelu 0 1 2 1 2 2 1); try reflexivity.
  - split; [discriminate|]. split; [repeat constructor; cbn; intuition discriminate|]. eexists. exists 2. split; [reflexivity|]. split; [split; apply shaped_mgen|]. eexists. exists 2. split; [reflexivity|]. split; [split; [reflexivity|discriminate]|]. eexists. exists 1. split; [reflexivity|]. split; [split; apply shaped_mgen|reflexivity].
  - intros [|[|[|i]]] x E; try lia; [injection E as <-; reflexivity|destruct i; discriminate E].
  - split; intros; unfold swap in *; lia.
  - intros u Hu. apply passes_pos; [cbn; auto 10|]. unfold dbl. destruct (u =? 0); lra.
  - split; [reflexivity|]. split; [reflexivity|]. split; [reflexivity|]. exists W, B, V. do 5 (split; [reflexivity|]). reflexivity.
Qed.
End Case.

(** * in single precision the order shows *)
Section P.
Variables (lm : libm -> b32 -> b32) (pw : b32 -> b32 -> b32) (jk : b32).
Notation F := (B32Ops lm pw jk).
Definition three (a b c : b32) (j : nat) : b32 := match j with 0 => a | 1 => b | _ => c end.
(* Dense(1,3) with the weights a, b, c, Identity, Dense(3,1) with weights 1: on the input 1 it computes a + b + c *)
Definition sumHeap (a b c : b32) : heap F := [Some (setWB (layBase F (KDense 1 3) "GlorotUniform" "Zeros") (mgen 1 3 (fun _ j => three a b c j)) (mgen 1 3 (fun _ _ => b32_of_Z 0)));
  Some (fxAct F AIdentity); Some (setWB (layBase F (KDense 3 1) "GlorotUniform" "Zeros") (mgen 3 1 (fun _ _ => b32_of_Z 1)) (mgen 1 1 (fun _ _ => b32_of_Z 0)))].
Definition big : b32 := b32_of_Z (2 ^ 24).
Definition mbig : b32 := b32_of_Z (- 2 ^ 24).
Definition onOne (h : heap F) : option (list SpecFloat.spec_float) := match predict F (fun _ => mkRnd F (fun _ => b32_of_Z 0) (fun _ => 0%Z)) h syNet (mgen 1 1 (fun _ _ => b32_of_Z 1)) (mempty F) with Ok (_, o) => Some (map B2SF (mdata o)) | Err _ => None end.
(* the same three units in another order: 0 instead of 1 *)
Theorem order_float_refuted : onOne (sumHeap big mbig (b32_of_Z 1)) = Some [B2SF (b32_of_Z 1)] /\ onOne (sumHeap big (b32_of_Z 1) mbig) = Some [B2SF (b32_of_Z 0)] /\ B2SF (b32_of_Z 1) <> B2SF (b32_of_Z 0).
Proof. split; [|split]; [vm_compute; reflexivity|vm_compute; reflexivity|vm_compute; discriminate]. Qed.
End P.
(* a factor that is not positive does show through Relu *)
Theorem negative_refuted : forall jk, ~ passes jk ARelu (-1)%R.
Proof. intros jk [_ H]. specialize (H 1%R). cbv beta iota delta [act_apply flt f0 f1 ROps Rltb] in H. destruct (Rlt_dec 0 (-1 * 1)), (Rlt_dec 0 1); lra. Qed.
