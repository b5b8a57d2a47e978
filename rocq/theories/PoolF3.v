(* PoolF3.v - max pooling in single precision: concrete images *)
From Coq Require Import List Arith Bool Lia Reals Lra ZArith.
From Flocq Require Import Core IEEE754.BinarySingleNaN.
From Verif Require Import Base Scalar Mat SpecMat MatFacts Loss LayMat LayImg LayTens SpecNaN SpecPool PoolF1 PoolF2.
Import ListNotations.
Local Open Scope nat_scope.

Section P.
Variables (lm : libm -> b32 -> b32) (pw : b32 -> b32 -> b32) (jk : b32).
Notation F := (B32Ops lm pw jk).

Lemma globalmax_far : exists nC k (t : nat -> nat -> nat -> nat -> b32) mx', k < nC /\ topCell (cellsOf (t 0 0) nC) (1 * nC) k /\
  fwdGlobalMaxPool F 1 nC 1 true (mempty F) (tens 1 1 1 nC t) (mempty F) = Ok (mx', mgen 1 1 (fun _ _ => f1 F)) /\
  bwdGlobalMaxPool F 1 nC 1 false mx' (mgen 1 1 (fun _ _ => f1 F)) (mempty F) = Ok (tens 1 1 1 nC (fun _ _ _ c => if c =? k - 1 then f1 F else f0 F)) /\
  Z.of_nat nC = (2 ^ 24 + 2)%Z.
Proof.
  destruct (Z_of_nat_complete (2 ^ 24 + 2) ltac:(lia)) as [nC HC]. destruct (Z_of_nat_complete (2 ^ 24 + 1) ltac:(lia)) as [k Hk]. symmetry in HC, Hk.
  destruct (globalmax_wide lm pw jk nC k HC Hk) as (T & mx' & A & B). exists nC, k, (fun _ _ _ c => if c =? k then f1 F else f0 F), mx'.
  split; [lia|]. split; [exact T|]. split; [exact A|]. split; [exact B|exact HC].
Qed.

(* one plane of two rows: NaN 1 / 3 3 *)
Definition nanImg (r c : nat) : b32 := match r, c with 0, 0 => B754_nan | 0, _ => b32_of_Z 1 | _, _ => b32_of_Z 3 end.
Lemma nanImg_top : topCell (cellsOf nanImg 2) (2 * 2) 2.
Proof.
  split; [lia|]. split; [vm_compute; reflexivity|]. split; [vm_compute; reflexivity|]. split; intros q Hq N.
  - do 4 (destruct q as [|q]; [first [vm_compute; reflexivity | vm_compute in N; discriminate N]|]). lia.
  - do 2 (destruct q as [|q]; [first [vm_compute; reflexivity | vm_compute in N; discriminate N]|]). lia.
Qed.
Lemma nanImg_run : forall g, exists mx',
  fwdGlobalMaxPool F 2 2 1 true (mempty F) (tens 1 1 2 2 (fun _ _ => nanImg)) (mempty F) = Ok (mx', mgen 1 1 (fun _ _ => b32_of_Z 3)) /\
  bwdGlobalMaxPool F 2 2 1 false mx' (mgen 1 1 (fun _ _ => g)) (mempty F) = Ok (tens 1 1 2 2 (fun _ _ r c => if r * 2 + c =? 2 then g else f0 F)).
Proof.
  intro g. destruct (globalmax_train_F lm pw jk 1 1 2 2 (fun _ _ => nanImg) (mempty F) (mempty F) (fun _ _ => g) (mempty F)) as (mx' & p & Hp & A & B); try reflexivity; try lia.
  - intros. exists 2. exact nanImg_top.
  - exists mx'. assert (P : forall s h, s < 1 -> h < 1 -> p s h = 2) by (intros s h Hs Hh; apply (topCell_uniq _ _ _ _ (Hp s h Hs Hh) nanImg_top)).
    split.
    + eapply eq_trans; [exact A|]. apply f_equal. f_equal. apply mgen_ext. intros s h Hs Hh. rewrite P by auto. reflexivity.
    + eapply eq_trans; [exact B|]. apply f_equal. apply Scatter.tens_ext. intros s h r c Hs Hh _ _. rewrite P by auto. reflexivity.
Qed.
(* a plane of NaN: the layer answers -1e38, and the backward pass writes before the beginning of the row *)
Lemma nanPlane_run : forall g, exists mx' Y,
  fwdGlobalMaxPool F 2 2 1 true (mempty F) (tens 1 1 2 2 (fun _ _ _ _ => B754_nan)) (mempty F) = Ok (mx', mgen 1 1 Y) /\ Y 0 0 = floor38 /\
  bwdGlobalMaxPool F 2 2 1 false mx' (mgen 1 1 (fun _ _ => g)) (mempty F) = Err EOob.
Proof.
  intro g. apply (globalmax_train_notop lm pw jk 1 1 2 2 (fun _ _ _ _ => B754_nan)); try reflexivity; try lia. intros q _ N. discriminate N.
Qed.
End P.
