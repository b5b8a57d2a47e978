(* LayConv3.v - convolution over the reals: forward map and gradients *)
From Coq Require Import List Arith Bool Lia Reals Lra ZArith.
From Coquelicot Require Import Coquelicot.
From Verif Require Import Base Scalar Mat SpecMat SpecReal RSum MatFacts MatProofs MatLoops Scatter RDeriv Loss SpecLoss LayMat LayImg LayKit SpecLayer LayGrad LayCurve LayTens ImgKit ImgDot LayProofs2 LayConv1 LayConv2.
Import ListNotations.
Local Open Scope R_scope.

Definition xcorr v (w : nat -> nat -> R) (t : nat -> nat -> nat -> nat -> R) : nat -> nat -> nat -> nat -> R :=
  fun s o r c => rsum (vI v) (fun h => rsum (vkr v) (fun a => rsum (vkc v) (fun b => w o (ccol v h a b) * t s h (r * vsr v + a)%nat (c * vsc v + b)%nat))).

Lemma conv_forward : forall jk v fast nS w t col, convOk v = Ok tt -> mwf col ->
  fwdConv (ROps jk) v fast (mgen (vO v) (vI v * vkr v * vkc v) w) col (tens nS (vI v) (vR v) (vC v) t) =
  Ok (mgen (nS * oR v * oC v) (vI v * vkr v * vkc v) (colAt v t),
      tens nS (vO v) (oR v) (oC v) (fun s o r c => rsum (vI v) (fun h => rsum (vkr v) (fun a => rsum (vkc v) (fun b =>
        w o ((h * vkr v + a) * vkc v + b)%nat * t s h (r * vsr v + a)%nat (c * vsc v + b)%nat))))).
Proof.
  intros jk v fast nS w t col Hok Hcol. eapply eq_trans; [exact (fwdConv_gen (ROps jk) v fast nS w t col Hok Hcol)|]. apply Ok_eq. f_equal. apply tens_ext. intros s o r c Hs Ho Hr Hc.
  rewrite fsum_R, rsum_pix. apply rsum_ext. intros h Hh. apply rsum_ext. intros a Ha. apply rsum_ext. intros b Hb. rewrite pix_h, pix_r, pix_c by auto. reflexivity.
Qed.

(* sums over all triples of a column-matrix cell *)
Definition sum6 v nS (f : nat -> nat -> nat -> nat -> nat -> nat -> R) : R :=
  rsum nS (fun s => rsum (oR v) (fun r => rsum (oC v) (fun c => rsum (vI v) (fun h => rsum (vkr v) (fun a => rsum (vkc v) (fun b => f s r c h a b)))))).
Definition put6 v (col : nat -> nat -> R) k s r c h a b : R :=
  if (iaddr v s h (r * vsr v + a) (c * vsc v + b) =? k)%nat then col (ccol v h a b) (crow v s r c) else 0.
Lemma slow_R : forall jk v col nS k, allRows (ROps jk) v (slowRow (ROps jk) v col) nS k = sum6 v nS (put6 v col k).
Proof.
  intros jk v col nS k. unfold allRows. change (f0 (ROps jk)) with 0. rewrite <- (Rplus_0_l (sum6 _ _ _)). unfold sum6.
  apply (fold_adds nS (fun s x => fold_left (fun x r => slowRow (ROps jk) v col s r k x) (seq 0 (oR v)) x)). intros s x1 _.
  apply (fold_adds (oR v) (fun r x => slowRow (ROps jk) v col s r k x)). intros r x2 _. unfold slowRow.
  apply (fold_adds (oC v) (fun c x => fold_left (fun x h => fold_left (fun x a => fold_left (fun x b => step6 (ROps jk) v col s r c h a b k x) (seq 0 (vkc v)) x) (seq 0 (vkr v)) x) (seq 0 (vI v)) x)). intros c x3 _.
  apply (fold_adds (vI v) (fun h x => fold_left (fun x a => fold_left (fun x b => step6 (ROps jk) v col s r c h a b k x) (seq 0 (vkc v)) x) (seq 0 (vkr v)) x)). intros h x4 _.
  apply (fold_adds (vkr v) (fun a x => fold_left (fun x b => step6 (ROps jk) v col s r c h a b k x) (seq 0 (vkc v)) x)). intros a x5 _.
  apply (fold_adds (vkc v) (fun b x => step6 (ROps jk) v col s r c h a b k x)). intros b x6 _. unfold step6, put6. cbn [fadd ROps T]. apply if_add.
Qed.
Lemma fast_R : forall jk v col nS k, allRows (ROps jk) v (fastRow (ROps jk) v col) nS k = sum6 v nS (put6 v col k).
Proof.
  intros jk v col nS k. unfold allRows. change (f0 (ROps jk)) with 0. rewrite <- (Rplus_0_l (sum6 _ _ _)). unfold sum6.
  apply (fold_adds nS (fun s x => fold_left (fun x r => fastRow (ROps jk) v col s r k x) (seq 0 (oR v)) x)). intros s x1 _.
  apply (fold_adds (oR v) (fun r x => fastRow (ROps jk) v col s r k x)). intros r x2 _. unfold fastRow.
  transitivity (x2 + rsum (vI v) (fun h => rsum (vkr v) (fun a => rsum (vkc v) (fun b => rsum (oC v) (fun c => put6 v col k s r c h a b))))).
  - apply (fold_adds (vI v) (fun h x => fold_left (fun x a => fold_left (fun x b => fold_left (fun x c => step6 (ROps jk) v col s r c h a b k x) (seq 0 (oC v)) x) (seq 0 (vkc v)) x) (seq 0 (vkr v)) x)). intros h x4 _.
    apply (fold_adds (vkr v) (fun a x => fold_left (fun x b => fold_left (fun x c => step6 (ROps jk) v col s r c h a b k x) (seq 0 (oC v)) x) (seq 0 (vkc v)) x)). intros a x5 _.
    apply (fold_adds (vkc v) (fun b x => fold_left (fun x c => step6 (ROps jk) v col s r c h a b k x) (seq 0 (oC v)) x)). intros b x6 _.
    apply (fold_adds (oC v) (fun c x => step6 (ROps jk) v col s r c h a b k x)). intros c x7 _. unfold step6, put6. cbn [fadd ROps T]. apply if_add.
  - f_equal. symmetry. rewrite rsum_swap. apply rsum_ext. intros h _. rewrite rsum_swap. apply rsum_ext. intros a _. rewrite rsum_swap. reflexivity.
Qed.
Lemma col2im_paths_R : forall jk v col nS im, mwf im ->
  col2imLUT (ROps jk) v nS (mgen (vI v * vkr v * vkc v) (nS * oR v * oC v) col) im = col2im (ROps jk) v nS (mgen (vI v * vkr v * vkc v) (nS * oR v * oC v) col) im.
Proof.
  intros jk v col nS im Him. eapply eq_trans; [exact (col2imLUT_gen (ROps jk) v col nS im Him)|]. symmetry. eapply eq_trans; [exact (col2im_gen (ROps jk) v col nS im Him)|].
  apply Ok_eq, mflat_ext. intros k _. rewrite slow_R, fast_R. reflexivity.
Qed.
Lemma fdot_sum6 : forall N v nS S B, fdot N (fun k => sum6 v nS (fun s r c h a b => S s r c h a b k)) B = sum6 v nS (fun s r c h a b => fdot N (S s r c h a b) B).
Proof.
  intros N v nS S B. unfold sum6. 
  repeat (rewrite fdot_sum; apply rsum_ext; intros ? _). reflexivity.
Qed.
Lemma sum6_ext : forall v nS f g, (forall s r c h a b, (s < nS)%nat -> (r < oR v)%nat -> (c < oC v)%nat -> (h < vI v)%nat -> (a < vkr v)%nat -> (b < vkc v)%nat -> f s r c h a b = g s r c h a b) ->
  sum6 v nS f = sum6 v nS g.
Proof. intros. unfold sum6. repeat (apply rsum_ext; intros). auto. Qed.

Definition cscale v : R := / INR (vkr v * vkc v * vO v).
(* col2im as a transposed map *)
Lemma col2im_adjoint : forall jk v fast nS (col : nat -> nat -> R) im, mwf im -> exists gi,
  (if fast : bool then col2imLUT (ROps jk) v nS (mgen (vI v * vkr v * vkc v) (nS * oR v * oC v) col) im
   else col2im (ROps jk) v nS (mgen (vI v * vkr v * vkc v) (nS * oR v * oC v) col) im) = Ok (mgen nS (vI v * vR v * vC v) (fun i j => gi i j * cscale v)) /\
  forall B, dot nS (vI v * vR v * vC v) gi B = sum6 v nS (fun s r c h a b => col (ccol v h a b) (crow v s r c) * img (vR v) (vC v) B s h (r * vsr v + a)%nat (c * vsc v + b)%nat).
Proof.
  intros jk v fast nS col im Him. set (N := (vI v * vR v * vC v)%nat). exists (fun i j => sum6 v nS (put6 v col (i * N + j)%nat)). split.
  - assert (E : col2im (ROps jk) v nS (mgen (vI v * vkr v * vkc v) (nS * oR v * oC v) col) im = Ok (mgen nS N (fun i j => sum6 v nS (put6 v col (i * N + j)%nat) * cscale v))).
    { eapply eq_trans; [exact (col2im_gen (ROps jk) v col nS im Him)|]. apply Ok_eq. eapply eq_trans; [apply mflat_gen|]. apply mgen_ext. intros i j _ _. rewrite slow_R.
      unfold imScale, cscale. rewrite fofN_R. cbn [fmul fdiv f1 ROps T]. fold N. unfold Rdiv. ring. }
    destruct fast; [|exact E]. eapply eq_trans; [apply col2im_paths_R; auto|exact E].
  - intro B. rewrite (dot_fdot nS N (fun k => sum6 v nS (put6 v col k))).
    rewrite (fdot_sum6 (nS * N) v nS (fun s r c h a b k => put6 v col k s r c h a b)). apply sum6_ext. intros s r c h a b Hs Hr Hc Hh Ha Hb. unfold put6.
    assert (L1 := fitsR v r a Hr Ha). assert (L2 := fitsC v c b Hc Hb).
    rewrite fdot_point by (apply addr4_lt; auto). unfold N, iaddr. rewrite flatF_addr by auto. reflexivity.
Qed.

Lemma xcorr_curve : forall v nS W P t dW dP, dcurve (vO v) (vI v * vkr v * vkc v) W t dW -> dcurve4 nS (vI v) (vR v) (vC v) P t dP ->
  dcurve4 nS (vO v) (oR v) (oC v) (fun x => xcorr v (W x) (P x)) t (fun s o r c => xcorr v dW (P t) s o r c + xcorr v (W t) dP s o r c).
Proof.
  intros v nS W P t dW dP HW HP s o r c Hs Ho Hr Hc. unfold xcorr. rewrite <- rsum_plus.
  apply (is_derive_rsum (vI v) (fun h x => rsum (vkr v) (fun a => rsum (vkc v) (fun b => W x o (ccol v h a b) * P x s h (r * vsr v + a)%nat (c * vsc v + b)%nat)))). intros h Hh. rewrite <- rsum_plus.
  apply (is_derive_rsum (vkr v) (fun a x => rsum (vkc v) (fun b => W x o (ccol v h a b) * P x s h (r * vsr v + a)%nat (c * vsc v + b)%nat))). intros a Ha. rewrite <- rsum_plus.
  apply (is_derive_rsum (vkc v) (fun b x => W x o (ccol v h a b) * P x s h (r * vsr v + a)%nat (c * vsc v + b)%nat)). intros b Hb.
  apply d_mul.
  - apply HW; auto. apply ccol_lt; auto.
  - apply HP; auto; [apply fitsR|apply fitsC]; auto.
Qed.
Lemma dcurve_const : forall n m (X : nat -> nat -> R) t, dcurve n m (fun _ => X) t (fun _ _ => 0).
Proof. intros n m X t i j _ _. apply @is_derive_const. Qed.
Lemma dcurve4_const : forall nS nH nR nC (X : nat -> nat -> nat -> nat -> R) t, dcurve4 nS nH nR nC (fun _ => X) t (fun _ _ _ _ => 0).
Proof. intros nS nH nR nC X t s h r c _ _ _ _. apply @is_derive_const. Qed.
Lemma xcorr_zero_l : forall v P s o r c, xcorr v (fun _ _ => 0) P s o r c = 0.
Proof. intros. unfold xcorr. apply rsum_zero; intros. apply rsum_zero; intros. apply rsum_zero; intros. ring. Qed.
Lemma xcorr_zero_r : forall v W s o r c, xcorr v W (fun _ _ _ _ => 0) s o r c = 0.
Proof. intros. unfold xcorr. apply rsum_zero; intros. apply rsum_zero; intros. apply rsum_zero; intros. ring. Qed.

(* <G, xcorr> as a sum over the column matrix *)
Lemma dot_xcorr : forall v nS G w t, dot4 nS (vO v) (oR v) (oC v) G (xcorr v w t) =
  sum6 v nS (fun s r c h a b => rsum (vO v) (fun o => w o (ccol v h a b) * G s o r c) * t s h (r * vsr v + a)%nat (c * vsc v + b)%nat).
Proof.
  intros v nS G w t. unfold dot4, sum6. apply rsum_ext. intros s Hs. rewrite rsum_swap. apply rsum_ext. intros r Hr. rewrite rsum_swap. apply rsum_ext. intros c Hc.
  unfold xcorr. rewrite (rsum_ext (vO v) _ (fun o => rsum (vI v) (fun h => rsum (vkr v) (fun a => rsum (vkc v) (fun b => G s o r c * (w o (ccol v h a b) * t s h (r * vsr v + a)%nat (c * vsc v + b)%nat)))))).
  2:{ intros o Ho. repeat (rewrite <- rsum_scal; apply rsum_ext; intros ? _). reflexivity. }
  rewrite rsum_swap. apply rsum_ext. intros h Hh. rewrite rsum_swap. apply rsum_ext. intros a Ha. rewrite rsum_swap. apply rsum_ext. intros b Hb.
  rewrite <- rsum_scal_r. apply rsum_ext. intros o Ho. ring.
Qed.
Lemma dot_xcorr_w : forall v nS G w t, dot4 nS (vO v) (oR v) (oC v) G (xcorr v w t) =
  dot (vO v) (vI v * vkr v * vkc v) (fun o k => rsum (nS * oR v * oC v) (fun i => G (i / oC v / oR v)%nat o ((i / oC v) mod oR v)%nat (i mod oC v)%nat * colAt v t i k)) w.
Proof.
  intros v nS G w t. unfold dot4, dot.
  transitivity (rsum (vO v) (fun o => rsum nS (fun s => rsum (oR v) (fun r => rsum (oC v) (fun c => G s o r c * xcorr v w t s o r c))))).
  - rewrite rsum_swap. reflexivity.
  - apply rsum_ext. intros o Ho. rewrite (rsum_pix (vI v)).
    rewrite (rsum_ext (vI v) _ (fun h => rsum (vkr v) (fun a => rsum (vkc v) (fun b => rsum nS (fun s => rsum (oR v) (fun r => rsum (oC v) (fun c => G s o r c * (w o (ccol v h a b) * t s h (r * vsr v + a)%nat (c * vsc v + b)%nat)))))))).
    2:{ intros h Hh. apply rsum_ext. intros a Ha. apply rsum_ext. intros b Hb. rewrite rsum_pix. rewrite <- rsum_scal_r. apply rsum_ext. intros s Hs. rewrite <- rsum_scal_r. apply rsum_ext. intros r Hr. rewrite <- rsum_scal_r. apply rsum_ext. intros c Hc.
        change (pix (oR v) (oC v)) with (crow v). change (pix (vkr v) (vkc v)) with (ccol v). rewrite colAt_at by auto. unfold crow. rewrite pix_h, pix_r, pix_c by auto. ring. }
    unfold xcorr.
    rewrite (rsum_ext nS _ (fun s => rsum (oR v) (fun r => rsum (oC v) (fun c => rsum (vI v) (fun h => rsum (vkr v) (fun a => rsum (vkc v) (fun b => G s o r c * (w o (ccol v h a b) * t s h (r * vsr v + a)%nat (c * vsc v + b)%nat)))))))).
    2:{ intros s Hs. apply rsum_ext. intros r Hr. apply rsum_ext. intros c Hc. repeat (rewrite <- rsum_scal; apply rsum_ext; intros ? _). reflexivity. }
    (* move h, a, b outwards *)
    transitivity (rsum (vI v) (fun h => rsum nS (fun s => rsum (oR v) (fun r => rsum (oC v) (fun c => rsum (vkr v) (fun a => rsum (vkc v) (fun b => G s o r c * (w o (ccol v h a b) * t s h (r * vsr v + a)%nat (c * vsc v + b)%nat)))))))).
    { symmetry. rewrite rsum_swap. apply rsum_ext. intros s _. rewrite rsum_swap. apply rsum_ext. intros r _. rewrite rsum_swap. reflexivity. }
    apply rsum_ext. intros h _.
    transitivity (rsum (vkr v) (fun a => rsum nS (fun s => rsum (oR v) (fun r => rsum (oC v) (fun c => rsum (vkc v) (fun b => G s o r c * (w o (ccol v h a b) * t s h (r * vsr v + a)%nat (c * vsc v + b)%nat))))))).
    { symmetry. rewrite rsum_swap. apply rsum_ext. intros s _. rewrite rsum_swap. apply rsum_ext. intros r _. rewrite rsum_swap. reflexivity. }
    apply rsum_ext. intros a _. symmetry. rewrite rsum_swap. apply rsum_ext. intros s _. rewrite rsum_swap. apply rsum_ext. intros r _. rewrite rsum_swap. reflexivity.
Qed.
