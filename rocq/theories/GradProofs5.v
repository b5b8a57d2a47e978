(* GradProofs5.v - the forward pass of a layer depends on its parameters only; joint derivatives along all parameters *)
From Coq Require Import List Arith Bool Lia Reals Lra ZArith QArith String.
From Coquelicot Require Import Coquelicot.
From Verif Require Import Base Scalar Mat SpecMat SpecReal RSum MatFacts MatLoops MatProofs RDeriv Loss SpecLoss LossProofs LossProofs2 Act SpecAct LayMat LayImg ImgKit ImgDot LayKit LayConv1 SpecLayer LayGrad LayCurve Layer Net NetProofs1 NetTrain TrainProofs1 SpecGrad GradProofs1 GradProofs2.
Import ListNotations.

Section Alike.
Variable F : FOps.
Notation M := (mat F).
Definition alike (l0 l1 : layer F) : Prop :=
  lk l0 = lk l1 /\ lw l0 = lw l1 /\ lb l0 = lb l1 /\ ltrain l0 = ltrain l1 /\ lbi l0 = lbi l1 /\ mwf (lmem l0) /\ mwf (lmem l1).
Definition simpleKind (l : layer F) : Prop :=
  match lk l with KGaussianDropout _ | KMaxPool _ | KGlobalMaxPool _ _ _ | KFlip _ _ _ | KSimpleRnn _ _ | KSimplestRnn _ => False | _ => True end.

Definition sndOk {A} (x : res (A * M)) : res M := match x with Ok (_, o) => Ok o | Err e => Err e end.
Lemma dropout_mem : forall tr rate g (m1 m2 x : M), mwf m1 -> mwf m2 -> sndOk (fwdDropout F tr rate g m1 x) = sndOk (fwdDropout F tr rate g m2 x).
Proof.
  intros tr rate g m1 m2 x H1 H2. unfold fwdDropout. destruct (tr && negb (feq F rate (f0 F))); [|reflexivity].
  destruct (mresize_flat F m1 (mrows x) (mcols x) H1) as [g1 ->]. destruct (mresize_flat F m2 (mrows x) (mcols x) H2) as [g2 ->].
  unfold setQuickBernoulli. destruct (bernoulliLimit F (fsub F (f1 F) rate)); cbn [bind]; [|reflexivity]. rewrite !quickBernoulli_flat. reflexivity.
Qed.
Lemma rrelu_mem : forall tr g a1 a2 (m1 m2 x : M), mwf m1 -> mwf m2 -> sndOk (fwdRRelu F tr g a1 a2 m1 x) = sndOk (fwdRRelu F tr g a1 a2 m2 x).
Proof.
  intros tr g a1 a2 m1 m2 x H1 H2. unfold fwdRRelu. destruct tr.
  - destruct (mresize_flat F m1 (mrows x) (mcols x) H1) as [g1 ->]. destruct (mresize_flat F m2 (mrows x) (mcols x) H2) as [g2 ->].
    rewrite !setRandom_flat. reflexivity.
  - match goal with |- sndOk (bind ?a _) = _ => destruct a; reflexivity end.
Qed.
Lemma im2col_mem : forall v (m1 m2 x : M), mwf m1 -> mwf m2 -> mwf x -> im2col F v x m1 = im2col F v x m2.
Proof.
  intros v m1 m2 x H1 H2 Hx. destruct (mwf_is_gen F x Hx) as [f Ef].
  destruct (Nat.eq_dec (mcols x) (vI v * vR v * vC v)) as [E|E].
  - rewrite E in Ef. rewrite Ef, (tens_img F (mrows x) (vI v) (vR v) (vC v) f), !im2col_gen by auto. reflexivity.
  - unfold im2col, assert_. replace (mcols x =? vR v * vC v * vI v) with false by (symmetry; apply Nat.eqb_neq; intro; apply E; lia). reflexivity.
Qed.
Lemma im2colLUT_mem : forall v l (m1 m2 x : M), lut v = Ok l -> mwf m1 -> mwf m2 -> mwf x -> im2colLUT F v l x m1 = im2colLUT F v l x m2.
Proof.
  intros v l m1 m2 x Hl H1 H2 Hx. destruct (mwf_is_gen F x Hx) as [f Ef].
  destruct (Nat.eq_dec (mcols x) (vI v * vR v * vC v)) as [E|E].
  - rewrite E in Ef. rewrite Ef, (tens_img F (mrows x) (vI v) (vR v) (vC v) f), !im2colLUT_gen by auto. reflexivity.
  - unfold im2colLUT, assert_. replace (mcols x =? vR v * vC v * vI v) with false by (symmetry; apply Nat.eqb_neq; intro; apply E; lia). reflexivity.
Qed.
Lemma conv_mem : forall v fast (w m1 m2 x : M), mwf m1 -> mwf m2 -> mwf x -> fwdConv F v fast w m1 x = fwdConv F v fast w m2 x.
Proof.
  intros v fast w m1 m2 x H1 H2 Hx. unfold fwdConv. destruct (convOk v); cbn [bind]; [|reflexivity]. destruct fast.
  - destruct (lut v) as [l0|] eqn:L; cbn [bind]; [|reflexivity]. rewrite (im2colLUT_mem v l0 m1 m2 x) by auto. reflexivity.
  - rewrite (im2col_mem v m1 m2 x) by auto. reflexivity.
Qed.
Lemma prelu_mem : forall w g1 g2 x, sndOk (fwdPRelu F w g1 x) = sndOk (fwdPRelu F w g2 x).
Proof.
  intros. unfold fwdPRelu. destruct (msize w =? 0).
  - destruct (msetConstR F w 1 (mcols x) (flit F 1 4)); cbn [bind]; [|reflexivity]. match goal with |- sndOk (bind ?a _) = _ => destruct a; reflexivity end.
  - cbn [bind]. match goal with |- sndOk (bind ?a _) = _ => destruct a; reflexivity end.
Qed.
Lemma pelu_mem : forall w g1 g2 x, sndOk (fwdPELU F w g1 x) = sndOk (fwdPELU F w g2 x).
Proof.
  intros. unfold fwdPELU. destruct (msize w =? 0).
  - match goal with |- sndOk (bind (bind ?a _) _) = _ => destruct a; cbn [bind]; [|reflexivity] end. match goal with |- sndOk (bind ?a _) = _ => destruct a; reflexivity end.
  - cbn [bind]. match goal with |- sndOk (bind ?a _) = _ => destruct a; reflexivity end.
Qed.
Lemma terelu_mem : forall w g1 g2 x, sndOk (fwdTERELU F w g1 x) = sndOk (fwdTERELU F w g2 x).
Proof.
  intros. unfold fwdTERELU. destruct (msize w =? 0).
  - match goal with |- sndOk (bind (bind ?a _) _) = _ => destruct a; cbn [bind]; [|reflexivity] end. match goal with |- sndOk (bind ?a _) = _ => destruct a; reflexivity end.
  - cbn [bind]. match goal with |- sndOk (bind ?a _) = _ => destruct a; reflexivity end.
Qed.

Lemma forward_alike : forall r l0 l1 x out l' o, simpleKind l0 -> alike l0 l1 -> mwf x -> layForward F r l0 x out = Ok (l', o) -> exists l1', layForward F r l1 x out = Ok (l1', o).
Proof.
  intros r l0 l1 x out l' o Sk (A1 & A2 & A3 & A4 & A5 & A6 & A7) Hx E. unfold simpleKind in Sk. unfold layForward in *. rewrite <- A1, <- A2, <- A3, <- A4, <- A5.
  destruct (lk l0) eqn:K; try contradiction; try solve [binp E; injection E as _ Eo; rewrite Ex; cbn [bind]; rewrite Eo; eexists; reflexivity].
  - binp E. inversion E; subst. pose proof (prelu_mem (lw l0) (lgw l0) (lgw l1) x) as Q. rewrite Ex in Q. cbn [sndOk] in Q.
    destruct (fwdPRelu F (lw l0) (lgw l1) x) as [[[? ?] ?]|]; [|discriminate]. cbn [sndOk] in Q. inversion Q; subst. eexists. reflexivity.
  - binp E. inversion E; subst. pose proof (rrelu_mem (ltrain l0) (rf r) a1 a2 (lmem l0) (lmem l1) x A6 A7) as Q. rewrite Ex in Q. cbn [sndOk] in Q.
    destruct (fwdRRelu F (ltrain l0) (rf r) a1 a2 (lmem l1) x) as [[? ?]|]; [|discriminate]. cbn [sndOk] in Q. inversion Q; subst. eexists. reflexivity.
  - binp E. inversion E; subst. pose proof (pelu_mem (lw l0) (lgw l0) (lgw l1) x) as Q. rewrite Ex in Q. cbn [sndOk] in Q.
    destruct (fwdPELU F (lw l0) (lgw l1) x) as [[[? ?] ?]|]; [|discriminate]. cbn [sndOk] in Q. inversion Q; subst. eexists. reflexivity.
  - binp E. inversion E; subst. pose proof (terelu_mem (lw l0) (lgw l0) (lgw l1) x) as Q. rewrite Ex in Q. cbn [sndOk] in Q.
    destruct (fwdTERELU F (lw l0) (lgw l1) x) as [[[? ?] ?]|]; [|discriminate]. cbn [sndOk] in Q. inversion Q; subst. eexists. reflexivity.
  - binp E. inversion E; subst. pose proof (dropout_mem (ltrain l0) rate (rz r) (lmem l0) (lmem l1) x A6 A7) as Q. rewrite Ex in Q. cbn [sndOk] in Q.
    destruct (fwdDropout F (ltrain l0) rate (rz r) (lmem l1) x) as [[? ?]|]; [|discriminate]. cbn [sndOk] in Q. inversion Q; subst. eexists. reflexivity.
  - binp E. inversion E; subst. rewrite <- (conv_mem _ _ _ (lmem l0) (lmem l1) x) by auto. rewrite Ex. eexists. reflexivity.
Qed.

(* the internal matrix stays well formed *)
Lemma forward_mem : forall r l x out l' o, simpleKind l -> mwf (lmem l) -> mwf x -> layForward F r l x out = Ok (l', o) -> mwf (lmem l').
Proof.
  intros r l x out l' o Sk Hm Hx E. unfold simpleKind in Sk. unfold layForward in E. destruct (lk l) eqn:K; try contradiction; try solve [binp E; inversion E; subst; exact Hm].
  - binp E. inversion E; subst. cbn [lmem setMem]. unfold fwdRRelu in Ex. destruct (ltrain l).
    + destruct (mresize_flat F (lmem l) (mrows x) (mcols x) Hm) as [g Eg]. rewrite Eg, setRandom_flat in Ex. cbn [bind] in Ex. binp Ex. inversion Ex; subst. rewrite mflat_gen. apply mwf_gen.
    + binp Ex. inversion Ex; subst. exact Hm.
  - binp E. inversion E; subst. cbn [lmem setMem]. unfold fwdDropout in Ex. destruct (ltrain l && negb (feq F rate (f0 F))).
    + destruct (mresize_flat F (lmem l) (mrows x) (mcols x) Hm) as [g Eg]. rewrite Eg in Ex. unfold setQuickBernoulli in Ex.
      destruct (bernoulliLimit F (fsub F (f1 F) rate)); cbn [bind] in Ex; [|discriminate]. rewrite quickBernoulli_flat in Ex. cbn [bind] in Ex.
      unfold mscale in Ex. rewrite mflat_gen, mapLoop_gen in Ex. cbn [bind] in Ex. binp Ex. inversion Ex; subst. apply mwf_gen.
    + inversion Ex; subst. exact Hm.
  - binp E. inversion E; subst. cbn [lmem setMem setNs]. unfold fwdConv in Ex. binp Ex. inversion Ex; subst. destruct (mwf_is_gen F x Hx) as [f Ef].
    destruct (Nat.eq_dec (mcols x) (vI v * vR v * vC v)) as [E0|E0].
    + rewrite E0 in Ef. rewrite Ef, (tens_img F (mrows x) (vI v) (vR v) (vC v) f) in Ex1. destruct fast.
      * binp Ex1. rewrite im2colLUT_gen in Ex1 by auto. inversion Ex1; subst. apply mwf_gen.
      * rewrite im2col_gen in Ex1 by auto. inversion Ex1; subst. apply mwf_gen.
    + exfalso. destruct fast.
      * binp Ex1. unfold im2colLUT, assert_ in Ex1. replace (mcols x =? vR v * vC v * vI v) with false in Ex1 by (symmetry; apply Nat.eqb_neq; intro; apply E0; lia). discriminate.
      * unfold im2col, assert_ in Ex1. replace (mcols x =? vR v * vC v * vI v) with false in Ex1 by (symmetry; apply Nat.eqb_neq; intro; apply E0; lia). discriminate.
Qed.
Lemma backward_mem : forall l x g gin l' o, layBackward F l x g gin = Ok (l', o) -> lmem l' = lmem l.
Proof. intros l x g gin l' o E. unfold layBackward in E. destruct (lk l) eqn:K; binp E; inversion E; subst; reflexivity. Qed.
End Alike.
