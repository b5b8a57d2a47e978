(* Fold2.v - rewriting networks for inference: concrete networks, and single precision *)
From Coq Require Import String List Arith Bool Lia ZArith Reals Lra.
From Flocq Require Import Core IEEE754.BinarySingleNaN.
From Verif Require Import Base Scalar Mat SpecMat SpecReal RSum MatFacts MatProofs Act LayMat LayImg Layer Net SpecNet NetRow NetProofs1 SpecFold Fold1 Sym2.
Import ListNotations.
Local Open Scope nat_scope.

Section Case.
Variables (jk : R) (W B V C G D : nat -> nat -> R).
Notation F := (ROps jk).
Notation dn := (syDense jk).
Definition bare (k : kind F) (w b : mat F) : layer F := setWB (layBase F k "GlorotUniform" "Zeros") w b.
Definition foHeap : heap F := [Some (dn 2 2 W B); Some (layBase F (@KDropout F (1 / 2)%R) "" ""); Some (dn 2 1 V C);
  Some (dn 2 1 (fun p j => rsum 2 (fun u => W p u * V u j)%R) (fun _ j => rsum 2 (fun u => B 0%nat u * V u j) + C 0%nat j)%R);
  Some (bare (KDot 2 2) (@mgen R 2 2 W) (mempty F)); Some (bare KBias (mempty F) (@mgen R 1 2 B));
  Some (bare KAffine (@mgen R 1 2 G) (@mgen R 1 2 D)); Some (dn 2 2 (fun p j => W p j * G 0%nat j)%R (fun _ j => B 0%nat j * G 0%nat j + D 0%nat j)%R);
  Some (bare KGain (@mgen R 1 2 G) (mempty F)); Some (bare KBias (mempty F) (@mgen R 1 2 D))].
Definition foNet (ls : list nat) : net := mkNet ls false false.
Ltac nd := repeat constructor; cbn; intuition discriminate.
Ltac sw := split; [reflexivity|]; split; [reflexivity|]; split; [discriminate|nd].
Lemma det_012 : detNet F foHeap (foNet [0; 1; 2]) 2 1.
Proof. split; [discriminate|]. split; [nd|]. eexists. exists 2. split; [reflexivity|]. split; [split; apply shaped_mgen|]. eexists. exists 2. split; [reflexivity|]. split; [split; reflexivity|]. eexists. exists 1. split; [reflexivity|]. split; [split; apply shaped_mgen|reflexivity]. Qed.
Lemma det_06 : detNet F foHeap (foNet [0; 6]) 2 2.
Proof. split; [discriminate|]. split; [nd|]. eexists. exists 2. split; [reflexivity|]. split; [split; apply shaped_mgen|]. eexists. exists 2. split; [reflexivity|]. split; [split; [reflexivity|]; split; [lia|]; left; split; apply shaped_mgen|reflexivity]. Qed.
Lemma drop_case : detNet F foHeap (foNet [0; 2]) 2 1 /\ samePredict foHeap (foNet [0; 1; 2]) (foNet [0; 2]) 2.
Proof. eapply (drop_idle F foHeap (foNet [0; 1; 2]) (foNet [0; 2]) [0] 1 [2]); [exact det_012|sw|reflexivity|exact I]. Qed.
Lemma split_case : detNet F foHeap (foNet [4; 5; 2]) 2 1 /\ samePredict foHeap (foNet [0; 2]) (foNet [4; 5; 2]) 2.
Proof. eapply (dense_split F foHeap (foNet [0; 2]) (foNet [4; 5; 2]) [] 0 4 5 [2]); [apply drop_case|sw|reflexivity|reflexivity|reflexivity|reflexivity|reflexivity|reflexivity|reflexivity|reflexivity|cbn; lia]. Qed.
Lemma merge_case : detNet F foHeap (foNet [3]) 2 1 /\ samePredict foHeap (foNet [0; 2]) (foNet [3]) 2.
Proof. eapply (dense_merge jk foHeap (foNet [0; 2]) (foNet [3]) [] 0 2 3 [] _ _ _ 2 2 2 1 2 1 2 1 2 2 1 W B V C); [apply drop_case|sw|reflexivity..]. Qed.
Lemma affine_case : detNet F foHeap (foNet [7]) 2 2 /\ samePredict foHeap (foNet [0; 6]) (foNet [7]) 2 /\ detNet F foHeap (foNet [0; 8; 9]) 2 2 /\ samePredict foHeap (foNet [0; 6]) (foNet [0; 8; 9]) 2.
Proof.
  rewrite <- and_assoc. split.
  - eapply (affine_merge jk foHeap (foNet [0; 6]) (foNet [7]) [] 0 6 7 [] _ _ _ 2 2 2 2 2 2 2 2 W B G D); [apply det_06|sw|reflexivity..].
  - eapply (affine_split F foHeap (foNet [0; 6]) (foNet [0; 8; 9]) [0] 6 8 9 []); [apply det_06|sw|reflexivity|reflexivity|reflexivity|reflexivity|reflexivity|reflexivity|reflexivity|reflexivity|cbn; lia].
Qed.
End Case.

Section P.
Variables (lm : libm -> b32 -> b32) (pw : b32 -> b32 -> b32) (jk : b32).
Notation F := (B32Ops lm pw jk).
Definition dense1 (w : b32) : layer F := setWB (layBase F (KDense 1 1) "GlorotUniform" "Zeros") (mgen 1 1 (fun _ _ => w)) (mgen 1 1 (fun _ _ => b32_of_Z 0)).
Definition tiny : b32 := fdiv F (b32_of_Z 1) (b32_of_Z (2 ^ 80)).
(* two Dense layers with the weight 2^-80, and the one Dense layer with their product in single precision, which is 0 *)
Definition tinyHeap : heap F := [Some (dense1 tiny); Some (dense1 tiny); Some (dense1 (fmul F tiny tiny))].
Definition onBig (ls : list nat) : option (list SpecFloat.spec_float) := match predict F (fun _ => mkRnd F (fun _ => b32_of_Z 0) (fun _ => 0%Z)) tinyHeap (mkNet ls false false) (mgen 1 1 (fun _ _ => b32_of_Z (2 ^ 100))) (mempty F) with Ok (_, o) => Some (map B2SF (mdata o)) | Err _ => None end.
Theorem merge_float_refuted : exists v, onBig [0; 1] = Some [v] /\ v <> SpecFloat.S754_zero false /\ onBig [2] = Some [SpecFloat.S754_zero false].
Proof. eexists. split; [vm_compute; reflexivity|]. split; [discriminate|vm_compute; reflexivity]. Qed.
End P.
