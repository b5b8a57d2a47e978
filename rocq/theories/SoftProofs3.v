(* SoftProofs3.v - Softmax, Softmin and the cross-entropies as called by a network, in single precision *)
From Coq Require Import List Arith ZArith Reals Lra Lia Bool.
From Flocq Require Import Core IEEE754.BinarySingleNaN.
From Verif Require Import Base Scalar Mat SpecMat RSum MatFacts MatProofs MatLoops B32Int Loss LossProofs LayMat Layer LayProofs3 LayProofs7 SpecRound RoundProofs1 SpecNaN B32Kit NaNAct NaNFin NaNCase SpecSoft SoftProofs1 SoftProofs2.
Import ListNotations.
Local Open Scope R_scope.

Section B32.
Variables (lm : libm -> b32 -> b32) (pw : b32 -> b32 -> b32) (jk : b32).
Notation F := (B32Ops lm pw jk).
Local Opaque b32_add b32_sub b32_mul b32_div b32_sqrt b32_of_Z Bopp Babs.

Lemma row_facts : forall k x, expUnit lm -> (0 < k)%nat -> (forall j, (j < k)%nat -> fin (x j)) ->
  (forall j, (j < k)%nat -> prob (softF F k x j)) /\
  (forall m j, (m < k)%nat -> (j < k)%nat -> (forall i, (i < k)%nat -> val (x i) <= val (x m)) -> val (softF F k x j) <= val (softF F k x m)) /\
  (2 * INR k * u32 <= 1 ->
    Rabs (rsum k (fun j => val (softF F k x j)) - 1) <= 2 * INR (k + 1) * u32 + INR k * eta32 /\
    forall eps, expClose lm eps -> forall j, (j < k)%nat -> Rabs (val (softF F k x j) - softmaxR k (fun i => val (x i)) j) <= INR (2 * k + 1) * (eps + 2 * u32) + eta32).
Proof.
  intros k x E K H. split; [apply p_prob; auto|]. split; [intros; apply p_top; auto|]. intro Ku. split; [apply sum_one; auto|]. intros eps C j Hj. apply soft_close; auto.
Qed.
Theorem softmax_forward : forall r l n k X out, expUnit lm -> lk l = KSoftmax -> (0 < k)%nat -> (forall i j, (i < n)%nat -> (j < k)%nat -> fin (X i j)) ->
  exists Y, layForward F r l (mgen n k X) out = Ok (l, mgen n k Y) /\ forall i, (i < n)%nat ->
    (forall j, (j < k)%nat -> prob (Y i j)) /\
    (forall m j, (m < k)%nat -> (j < k)%nat -> (forall c, (c < k)%nat -> val (X i c) <= val (X i m)) -> val (Y i j) <= val (Y i m)) /\
    (2 * INR k * u32 <= 1 ->
      Rabs (rsum k (fun j => val (Y i j)) - 1) <= 2 * INR (k + 1) * u32 + INR k * eta32 /\
      forall eps, expClose lm eps -> forall j, (j < k)%nat -> Rabs (val (Y i j) - softmaxR k (fun c => val (X i c)) j) <= INR (2 * k + 1) * (eps + 2 * u32) + eta32).
Proof.
  intros r l n k X out E K Hk H. eexists. split; [unfold layForward; rewrite K, fwdSoftmax_gen by auto; reflexivity|]. intros i Hi. apply row_facts; auto.
Qed.
Theorem softmin_forward : forall r l n k X out, expUnit lm -> lk l = KSoftmin -> (0 < k)%nat -> (forall i j, (i < n)%nat -> (j < k)%nat -> fin (X i j)) ->
  exists Y, layForward F r l (mgen n k X) out = Ok (l, mgen n k Y) /\ forall i, (i < n)%nat ->
    (forall j, (j < k)%nat -> prob (Y i j)) /\
    (forall m j, (m < k)%nat -> (j < k)%nat -> (forall c, (c < k)%nat -> val (X i m) <= val (X i c)) -> val (Y i j) <= val (Y i m)) /\
    (2 * INR k * u32 <= 1 ->
      Rabs (rsum k (fun j => val (Y i j)) - 1) <= 2 * INR (k + 1) * u32 + INR k * eta32 /\
      forall eps, expClose lm eps -> forall j, (j < k)%nat -> Rabs (val (Y i j) - softmaxR k (fun c => - val (X i c)) j) <= INR (2 * k + 1) * (eps + 2 * u32) + eta32).
Proof.
  intros r l n k X out E K Hk H. eexists. split; [unfold layForward; rewrite K, fwdSoftmin_gen by auto; reflexivity|]. intros i Hi.
  destruct (row_facts k (fun j => Bopp (X i j)) E Hk (fun j Hj => fin_opp _ (H i j Hi Hj))) as (A & B & C). change (fun j => fopp F (X i j)) with (fun j => Bopp (X i j)).
  split; [exact A|]. split.
  - intros m j Hm Hj M. apply B; auto. intros c Hc. rewrite !val_opp. pose proof (M c Hc). lra.
  - intro Ku. destruct (C Ku) as [C1 C2]. split; [exact C1|]. intros eps Q j Hj. pose proof (C2 eps Q j Hj) as W. unfold softmaxR in *. rewrite val_opp in W. rewrite (rsum_ext k _ (fun i0 => exp (- val (X i i0)))) in W; [exact W|]. intros c Hc. rewrite val_opp. reflexivity.
Qed.

(** * cross-entropies *)
Lemma classes : forall n c T, truthFor LSparseCategoricalCrossEntropy n c T -> exists cls, forall i, (i < n)%nat -> toInt F (T i O) = Ok (Z.of_nat (cls i)) /\ (cls i < c)%nat.
Proof.
  intros n c T H. exists (fun i => match b32_toZ (T i O) with Some z => Z.to_nat z | None => O end). intros i Hi. destruct (H i Hi) as (t & A & B). unfold toInt. change (ftoZ F (T i 0%nat)) with (b32_toZ (T i 0%nat)). rewrite B, Nat2Z.id. auto.
Qed.
Theorem ce_finite : forall k cabs b n c P T out gin, logUnit lm -> truthFor k n c T -> (forall i j, (i < n)%nat -> (j < c)%nat -> prob (P i j)) -> mwf out -> mwf gin ->
  exists L G, compute F cabs k b (mgen n c P) (mgen n (truthCols k c) T) out = Ok (mgen n 1 L) /\
    compute_gradient F k b (mgen n c P) (mgen n (truthCols k c) T) gin = Ok (mgen n c G) /\
    (forall i, (i < n)%nat -> fin (L i O) /\ 0 <= val (L i O) <= p2 30) /\
    (forall i j, (i < n)%nat -> (j < c)%nat -> fin (G i j) /\ Rabs (val (G i j)) <= p2 27).
Proof.
  intros k cabs b n c P T out gin LU HT HP Wo Wg. destruct k; try contradiction HT; cbn [truthCols].
  - do 2 eexists. split; [apply cce_F; auto|]. split; [apply cceg_F; auto|]. split; [intros i Hi; apply loss_cce; auto|]. intros i j Hi Hj. apply grad_cce; auto.
  - destruct (classes _ _ _ HT) as (cls & HC). do 2 eexists. split; [apply sce_F; eauto|]. split; [apply sceg_F; eauto|]. split.
    + intros i Hi. exact (loss_sce lm pw jk LU (P i (cls i)) (HP i (cls i) Hi (proj2 (HC i Hi)))).
    + intros i j Hi Hj. apply grad_sce; auto.
  - destruct HT as [-> HT]. do 2 eexists. split; [apply bce_F; auto|]. split; [apply bceg_F; auto|]. split; [intros i Hi; apply loss_bce; auto|]. intros i j Hi Hj. replace j with O in * by lia. apply grad_bce; auto.
Qed.

(** * a Softmax output trained on a cross-entropy *)
Lemma back_small : forall g p, fin g -> Rabs (val g) <= p2 27 -> prob p -> fin (b32_mul g (b32_mul p (b32_sub one p))) /\ Rabs (val (b32_mul g (b32_mul p (b32_sub one p)))) <= p2 27.
Proof.
  intros g p A B P. destruct (one_minus p P) as [C D]. destruct P as [P1 P2]. pose proof max_big.
  assert (Q : btw (-1) 1 (b32_mul p (b32_sub one p))). { apply mul_btw; auto; try lra; [apply (fmt_Z (-1)); lia | apply (fmt_Z 1); lia |]. nra. }
  destruct (mul_unitr _ g Q A) as [R1 R2]. split; auto. lra.
Qed.
Theorem head_finite : forall k cabs b r l n c X T o1 o2 o3 o4, expUnit lm -> logUnit lm -> lk l = KSoftmax -> lfirst l = false -> (0 < c)%nat ->
  (forall i j, (i < n)%nat -> (j < c)%nat -> fin (X i j)) -> truthFor k n c T -> mwf o2 -> mwf o3 ->
  exists P L G D, layForward F r l (mgen n c X) o1 = Ok (l, mgen n c P) /\
    compute F cabs k b (mgen n c P) (mgen n (truthCols k c) T) o2 = Ok (mgen n 1 L) /\
    compute_gradient F k b (mgen n c P) (mgen n (truthCols k c) T) o3 = Ok (mgen n c G) /\
    layBackward F l (mgen n c X) (mgen n c G) o4 = Ok (l, mgen n c D) /\
    (forall i, (i < n)%nat -> fin (L i O) /\ 0 <= val (L i O) <= p2 30) /\
    (forall i j, (i < n)%nat -> (j < c)%nat -> fin (D i j) /\ Rabs (val (D i j)) <= p2 27).
Proof.
  intros k cabs b r l n c X T o1 o2 o3 o4 EU LU K Fi Hc HX HT W2 W3.
  assert (HP : forall i j, (i < n)%nat -> (j < c)%nat -> prob (softF F c (X i) j)) by (intros i j Hi Hj; apply p_prob; auto).
  destruct (ce_finite k cabs b n c (fun i => softF F c (X i)) T o2 o3 LU HT HP W2 W3) as (L & G & A1 & A2 & A3 & A4).
  exists (fun i => softF F c (X i)), L, G. eexists. split; [unfold layForward; rewrite K, fwdSoftmax_gen by auto; reflexivity|]. split; [exact A1|]. split; [exact A2|].
  split; [unfold layBackward; rewrite K, Fi, bwdSoftmax_gen by auto; reflexivity|]. split; [exact A3|].
  intros i j Hi Hj. destruct (A4 i j Hi Hj). apply back_small; auto.
Qed.
End B32.

(* a crude library *)
Lemma step_unit : expUnit stepLm /\ logUnit stepLm.
Proof.
  pose proof step_std as S. split; [split|].
  - apply (SpecNaN.exp_neg _ _ S).
  - intros x Hx V. pose proof max_big. pose proof (fin_ext x Hx). destruct (exp_cases x (fin_num x Hx)) as [[_ Q]|[[-> _]|[_ Q]]]; [lra | apply btw_one; lra | lra].
  - rewrite (SpecNaN.exp_inf _ _ S). apply btw_z. lra.
  - intros x Hx V. simpl. assert (0 < p2 (-27)) by apply bpow_gt_0. destruct (b32_lt x z32) eqn:L; [apply lt_val in L; auto; [rewrite z_val in L; lra | reflexivity]|]. apply btw_z. lra.
Qed.
