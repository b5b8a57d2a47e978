(* GradProofs1.v - every differentiable layer as a differentiable map of (weights, biases, input) *)
From Coq Require Import List Arith Bool Lia Reals Lra ZArith QArith String.
From Coquelicot Require Import Coquelicot.
From Verif Require Import Base Scalar Mat SpecMat SpecReal RSum MatFacts MatProofs MatProofs2 MatProps MatLoops Scatter RDeriv Loss SpecLoss Act SpecAct ActProofs LayMat LayImg LayKit SpecLayer LayGrad LayCurve LayTens ImgKit ImgDot
  LayProofs1 LayProofs2 LayProofs3 LayProofs4 LayProofs5 LayProofs6 LayProofs8 LayPool1 LayConv1 LayConv2 LayConv3 LayConv4 Layer Net SpecGrad.
Import ListNotations.
Local Open Scope R_scope.

Section Contract.
Variable jk : R.
Notation F := (ROps jk).

Definition contract (r : rnd F) (l : layer F) (n k m : nat) (X : nat -> nat -> R) (ws bs : option R) (is : R) : Prop :=
  exists rw cw W rb cb b (fY : (nat -> nat -> R) -> (nat -> nat -> R) -> (nat -> nat -> R) -> nat -> nat -> R) lf,
    lw l = mgen rw cw W /\ lb l = mgen rb cb b /\
    (forall out, mwf out -> layForward F r l (mgen n k X) out = Ok (lf, mgen n m (fY W b X))) /\
    (lw lf = lw l /\ lb lf = lb l /\ lfirst lf = lfirst l) /\
    (forall W' b' X' out, mwf out -> exists l', layForward F r (setWB l (mgen rw cw W') (mgen rb cb b')) (mgen n k X') out = Ok (l', mgen n m (fY W' b' X'))) /\
    (forall G gin, mwf gin -> exists l2 g gi tw tb,
      layBackward F lf (mgen n k X) (mgen n m G) gin = Ok (l2, g) /\ mwf g /\ (lw l2 = lw l /\ lb l2 = lb l) /\
      (lfirst l = false -> exists gs, g = mgen n k gs /\ forall i j, (i < n)%nat -> (j < k)%nat -> gi i j = is * gs i j) /\
      (forall s, ws = Some s -> exists gw, lgw l2 = mgen rw cw gw /\ forall i j, (i < rw)%nat -> (j < cw)%nat -> tw i j = s * gw i j) /\
      (forall s, bs = Some s -> exists gb, lgb l2 = mgen rb cb gb /\ forall i j, (i < rb)%nat -> (j < cb)%nat -> tb i j = s * gb i j) /\
      (forall Wc bc Xc t dW db dX, Wc t = W -> bc t = b -> Xc t = X ->
        dcurve rw cw Wc t dW -> dcurve rb cb bc t db -> dcurve n k Xc t dX ->
        exists dY, dcurve n m (fun x => fY (Wc x) (bc x) (Xc x)) t dY /\
        dot n m G dY = dot n k gi dX + dot rw cw tw dW + dot rb cb tb db)).

Lemma sized_gen : forall (x : mat R) r c, sizedAs x r c -> exists f, x = mgen r c f.
Proof. intros x r c (H & <- & <-). exact (mwf_is_gen F x H). Qed.
Lemma wf_gen : forall x : mat R, mwf x -> exists r c f, x = mgen r c f.
Proof. intros x H. destruct (mwf_is_gen F x H) as [f E]. eauto. Qed.
Lemma bindE : forall A B (m : res A) (f : A -> res B) a, m = Ok a -> bind m f = f a.
Proof. intros. subst. reflexivity. Qed.
Lemma dot0l : forall n k B, dot n k (fun _ _ => 0) B = 0.
Proof. intros. unfold dot. apply rsum_zero. intros. apply rsum_zero. intros. lra. Qed.

Ltac cbl := cbn [lk lw lgw lb lgb ltrain lfirst lmem lns lwi lbi lrnn setW setB setP setWB setGW setGB setGWB setMem setNs].
Ltac fstep E := refine (eq_trans (bindE _ _ _ _ _ E) _); try reflexivity.
Ltac mw := match goal with |- mwf (if ?c then _ else _) => destruct c; [assumption|apply mwf_gen] end.
Ltac infirst := let E := fresh in intro E; rewrite E; eexists; split; [reflexivity|]; intros ? ? ? ?; symmetry; apply Rmult_1_l.
(* rewrite the class and the members *)
Ltac mem K := unfold layForward, layBackward; cbl; rewrite K; repeat match goal with H : lw _ = mgen _ _ _ |- _ => rewrite H | H : lb _ = mgen _ _ _ |- _ => rewrite H
  | H : lgw _ = mgen _ _ _ |- _ => rewrite H | H : lgb _ = mgen _ _ _ |- _ => rewrite H end.
(* witnesses of the backward part: new object, returned matrix, true gradients of input, weights, biases *)
Ltac bwit K L g gi tw tb E := exists L, g, gi, tw, tb; split; [mem K; fstep E|]; cbl; split; [mw|]; split; [auto|]; split; [infirst|].
Ltac exactg := let s := fresh in let H := fresh in intros s H; inversion H; subst; eexists; split; [reflexivity|]; intros ? ? ? ?; cbv beta; field; auto.
Ltac none := let s := fresh in let H := fresh in intros s H; discriminate H.

(** Dense *)
Lemma c_dense : forall r (l : layer F) n k m X nI nO, (0 < n)%nat -> lk l = KDense nI nO -> sizedAs (lw l) k m -> sizedAs (lb l) 1 m ->
  contract r l n k m X (Some (INR n)) (Some (INR n)) 1.
Proof.
  intros r l n k m X nI nO Hn K Sw Sb. destruct (sized_gen _ _ _ Sw) as [W EW]. destruct (sized_gen _ _ _ Sb) as [b Eb]. apply INR_pos in Hn.
  exists k, m, W, 1%nat, m, b, (fun W b X i j => rsum k (fun l => X i l * W l j) + b 0%nat j), l. do 2 (split; [assumption|]).
  split; [|split; [|split]].
  - intros out Ho. mem K. fstep (fwdDense_R jk n k m W b X).
  - auto.
  - intros W' b' X' out Ho. eexists. mem K. fstep (fwdDense_R jk n k m W' b' X').
  - intros G gin Hg. set (tw := fun l j => rsum n (fun i => X i l * G i j)). set (tb := fun _ j : nat => rsum n (fun i => G i j)).
    set (gi := fun i l => rsum m (fun j => G i j * W l j)).
    bwit K (setGWB l (mgen k m (fun l j => tw l j * (1 / INR n)) : mat F) (mgen 1 m (fun i j => tb i j / INR n) : mat F)) (if lfirst l then gin else mgen n k gi) gi tw tb
      (bwdDense_R jk (lfirst l) n k m W X G gin).
    split; [exactg|split; [exactg|]].
    intros Wc bc Xc t dW db dX E1 E2 E3 H1 H2 H3. destruct (dense_curve n k m Xc Wc bc t dX dW db G H3 H1 H2) as (dY & A & B).
    exists dY. split; [exact A|]. rewrite B, E1, E3. reflexivity.
Qed.

(** other parameterised layers; the unused parameter matrix only has to be well formed *)
Lemma dcurve_ext : forall n k (P Q : R -> nat -> nat -> R) t D, (forall x i j, P x i j = Q x i j) -> dcurve n k P t D -> dcurve n k Q t D.
Proof. intros n k P Q t D E H i j Hi Hj. eapply is_derive_ext; [|apply H; auto]. intro x. apply E. Qed.
Definition zz : nat -> nat -> R := fun _ _ => 0.
Ltac shape := cbl; repeat split; try reflexivity; symmetry; assumption.

Lemma c_dot : forall r (l : layer F) n k m X nI nO, (0 < n)%nat -> lk l = KDot nI nO -> sizedAs (lw l) k m -> mwf (lb l) ->
  contract r l n k m X (Some (INR n)) None 1.
Proof.
  intros r l n k m X nI nO Hn K Sw Sb. destruct (sized_gen _ _ _ Sw) as [W EW]. destruct (wf_gen _ Sb) as (rb & cb & b & Eb). apply INR_pos in Hn.
  exists k, m, W, rb, cb, b, (fun W b X i j => rsum k (fun l => X i l * W l j)), l. do 2 (split; [assumption|]).
  split; [|split; [|split]].
  - intros out Ho. mem K. fstep (fwdDot_R jk n k m W X).
  - auto.
  - intros W' b' X' out Ho. eexists. mem K. fstep (fwdDot_R jk n k m W' X').
  - intros G gin Hg. set (tw := fun l j => rsum n (fun i => X i l * G i j)).
    set (gi := fun i l => rsum m (fun j => G i j * W l j)).
    bwit K (setGW l (mgen k m (fun l j => tw l j * (1 / INR n)) : mat F)) (if lfirst l then gin else mgen n k gi) gi tw zz
      (bwdDot_R jk (lfirst l) n k m W X G gin).
    split; [exactg|split; [none|]].
    intros Wc bc Xc t dW db dX E1 E2 E3 H1 H2 H3. destruct (matmul_curve n k m Xc Wc t dX dW G H3 H1) as (dY & A & B).
    exists dY. split; [exact A|]. unfold zz. rewrite B, E1, E3, dot0l. unfold gi, tw. ring.
Qed.

Lemma c_bias : forall r (l : layer F) n k X, (0 < n)%nat -> (0 < k)%nat -> lk l = KBias -> mwf (lw l) -> sizedAs (lb l) 1 k ->
  contract r l n k k X None (Some (INR n)) 1.
Proof.
  intros r l n k X Hn Hk K Sw Sb. destruct (wf_gen _ Sw) as (rw & cw & W & EW). destruct (sized_gen _ _ _ Sb) as [b Eb]. apply INR_pos in Hn.
  exists rw, cw, W, 1%nat, k, b, (fun W b X i j => X i j + b 0%nat j), (setB l (mgen 1 k b : mat F)). do 2 (split; [assumption|]).
  split; [|split; [|split]].
  - intros out Ho. mem K. fstep (fwdBias_gen F (lbi l) (rf r) n k b X Hk).
  - shape.
  - intros W' b' X' out Ho. eexists. mem K. fstep (fwdBias_gen F (lbi l) (rf r) n k b' X' Hk).
  - intros G gin Hg. set (tb := fun _ j : nat => rsum n (fun i => G i j)).
    bwit K (setGB (setB l (mgen 1 k b : mat F)) (mgen 1 k (fun i j => tb i j / INR n) : mat F)) (if lfirst l then gin else mgen n k G) G zz tb
      (bwdBias_R jk (lfirst l) n k G gin).
    split; [none|split; [exactg|]].
    intros Wc bc Xc t dW db dX E1 E2 E3 H1 H2 H3. destruct (rowadd_curve n k Xc bc t dX db G H3 H2) as (A & B).
    eexists. split; [exact A|]. unfold zz. rewrite B, dot0l. unfold tb. ring.
Qed.

Lemma c_gain : forall r (l : layer F) n k X, (0 < k)%nat -> lk l = KGain -> sizedAs (lw l) 1 k -> mwf (lb l) ->
  contract r l n k k X None None 1.
Proof.
  intros r l n k X Hk K Sw Sb. destruct (sized_gen _ _ _ Sw) as [W EW]. destruct (wf_gen _ Sb) as (rb & cb & b & Eb).
  exists 1%nat, k, W, rb, cb, b, (fun W b X i j => X i j * W 0%nat j), (setW l (mgen 1 k W : mat F)). do 2 (split; [assumption|]).
  split; [|split; [|split]].
  - intros out Ho. mem K. fstep (fwdGain_gen F n k W X Hk).
  - shape.
  - intros W' b' X' out Ho. eexists. mem K. fstep (fwdGain_gen F n k W' X' Hk).
  - intros G gin Hg. set (tw := fun _ j : nat => rsum n (fun i => X i j * G i j)). set (gi := fun i j => G i j * W 0%nat j).
    bwit K (setGW (setW l (mgen 1 k W : mat F)) (mgen 1 k (gainGrad n k X G) : mat F)) (if lfirst l then gin else mgen n k gi) gi tw zz
      (bwdGain_R jk (lfirst l) n k W X G gin).
    split; [none|split; [none|]].
    intros Wc bc Xc t dW db dX E1 E2 E3 H1 H2 H3. destruct (rowmul_curve n k Xc Wc t dX dW G H3 H1) as (dY & A & B).
    exists dY. split; [exact A|]. unfold zz. rewrite B, E1, E3, dot0l. unfold tw, gi. ring.
Qed.

Lemma c_affine : forall r (l : layer F) n k X, (0 < n)%nat -> (0 < k)%nat -> lk l = KAffine -> sizedAs (lw l) 1 k -> sizedAs (lb l) 1 k ->
  contract r l n k k X None (Some (INR n)) 1.
Proof.
  intros r l n k X Hn Hk K Sw Sb. destruct (sized_gen _ _ _ Sw) as [W EW]. destruct (sized_gen _ _ _ Sb) as [b Eb]. apply INR_pos in Hn.
  exists 1%nat, k, W, 1%nat, k, b, (fun W b X i j => X i j * W 0%nat j + b 0%nat j), (setWB l (mgen 1 k W : mat F) (mgen 1 k b : mat F)). do 2 (split; [assumption|]).
  split; [|split; [|split]].
  - intros out Ho. mem K. fstep (fwdAffine_gen F n k W b X out Hk Ho).
  - shape.
  - intros W' b' X' out Ho. eexists. mem K. fstep (fwdAffine_gen F n k W' b' X' out Hk Ho).
  - intros G gin Hg. set (tw := fun _ j : nat => rsum n (fun i => X i j * G i j)). set (gi := fun i j => G i j * W 0%nat j). set (tb := fun _ j : nat => rsum n (fun i => G i j)).
    bwit K (setGWB (setWB l (mgen 1 k W : mat F) (mgen 1 k b : mat F)) (mgen 1 k (gainGrad n k X G) : mat F) (mgen 1 k (fun i j => tb i j / INR n) : mat F)) (if lfirst l then gin else mgen n k gi) gi tw tb
      (bwdAffine_R jk (lfirst l) n k W X G gin).
    split; [none|split; [exactg|]].
    intros Wc bc Xc t dW db dX E1 E2 E3 H1 H2 H3. destruct (affine_curve n k Xc Wc bc t dX dW db G H3 H1 H2) as (dY & A & B).
    exists dY. split; [exact A|]. rewrite B, E1, E3. reflexivity.
Qed.

Lemma c_globalgain : forall r (l : layer F) n k X, lk l = KGlobalGain -> sizedAs (lw l) 1 1 -> sizedAs (lgw l) 1 1 -> mwf (lb l) ->
  contract r l n k k X None None 1.
Proof.
  intros r l n k X K Sw Sg Sb. destruct (sized_gen _ _ _ Sw) as [W EW]. destruct (sized_gen _ _ _ Sg) as [g0 Eg]. destruct (wf_gen _ Sb) as (rb & cb & b & Eb).
  exists 1%nat, 1%nat, W, rb, cb, b, (fun W b X i j => X i j * W 0%nat 0%nat), l. do 2 (split; [assumption|]).
  split; [|split; [|split]].
  - intros out Ho. mem K. fstep (fwdGlobalGain_R jk n k W X).
  - auto.
  - intros W' b' X' out Ho. eexists. mem K. fstep (fwdGlobalGain_R jk n k W' X').
  - intros G gin Hg. set (tw := fun _ _ : nat => dot n k X G). set (gi := fun i j => G i j * W 0%nat 0%nat).
    bwit K (setGW l (mgen 1 1 (fun _ _ => meanXtG n k X G) : mat F)) (if lfirst l then gin else mgen n k gi) gi tw zz
      (bwdGlobalGain_R jk (lfirst l) n k W g0 X G gin).
    split; [none|split; [none|]].
    intros Wc bc Xc t dW db dX E1 E2 E3 H1 H2 H3. destruct (scalaff_curve n k Xc Wc (fun _ => zz) t dX dW zz G H3 H1 (LayCurve.dcurve_const 1 1 zz t)) as (dY & A & B).
    exists dY. split; [eapply dcurve_ext; [|exact A]; intros; unfold zz; apply Rplus_0_r|]. unfold zz in *. rewrite B, E1, E3, dot0l, LayCurve.dot_zero. unfold tw, gi. ring.
Qed.

Lemma c_globalbias : forall r (l : layer F) n k X, (0 < n)%nat -> (0 < k)%nat -> lk l = KGlobalBias -> mwf (lw l) -> sizedAs (lb l) 1 1 -> sizedAs (lgb l) 1 1 ->
  contract r l n k k X None (Some (INR n * INR k)) 1.
Proof.
  intros r l n k X Hn Hk K Sw Sb Sg. destruct (wf_gen _ Sw) as (rw & cw & W & EW). destruct (sized_gen _ _ _ Sb) as [b Eb]. destruct (sized_gen _ _ _ Sg) as [g0 Eg]. apply INR_pos in Hn, Hk.
  exists rw, cw, W, 1%nat, 1%nat, b, (fun W b X i j => X i j + b 0%nat 0%nat), l. do 2 (split; [assumption|]).
  split; [|split; [|split]].
  - intros out Ho. mem K. fstep (fwdGlobalBias_R jk n k b X).
  - auto.
  - intros W' b' X' out Ho. eexists. mem K. fstep (fwdGlobalBias_R jk n k b' X').
  - intros G gin Hg. set (tb := fun _ _ : nat => rsum n (fun i => rsum k (fun j => G i j))).
    bwit K (setGB l (mgen 1 1 (fun _ _ => meanAll n k G) : mat F)) (if lfirst l then gin else mgen n k G) G zz tb
      (bwdGlobalBias_R jk (lfirst l) n k g0 G gin).
    split; [none|split; [intros s Es; inversion Es; eexists; split; [reflexivity|]; intros i j Hi Hj; unfold tb, meanAll; field; auto|]].
    intros Wc bc Xc t dW db dX E1 E2 E3 H1 H2 H3. destruct (scalaff_curve n k Xc (fun _ _ _ => 1) bc t dX zz db G H3 (LayCurve.dcurve_const 1 1 (fun _ _ => 1) t) H2) as (dY & A & B).
    exists dY. split; [eapply dcurve_ext; [|exact A]; intros; cbv beta; ring|]. unfold zz in *. rewrite B, dot0l, LayCurve.dot_zero.
    rewrite (dot_ext n k (fun i j => G i j * 1) dX G dX) by (intros; ring). unfold tb. ring.
Qed.

Lemma c_globalaffine : forall r (l : layer F) n k X, (0 < n)%nat -> (0 < k)%nat -> lk l = KGlobalAffine ->
  sizedAs (lw l) 1 1 -> sizedAs (lgw l) 1 1 -> sizedAs (lb l) 1 1 -> sizedAs (lgb l) 1 1 ->
  contract r l n k k X None (Some (INR n * INR k)) 1.
Proof.
  intros r l n k X Hn Hk K Sw Sgw Sb Sgb. destruct (sized_gen _ _ _ Sw) as [W EW]. destruct (sized_gen _ _ _ Sgw) as [g0 Eg]. destruct (sized_gen _ _ _ Sb) as [b Eb]. destruct (sized_gen _ _ _ Sgb) as [g1 Eg1]. apply INR_pos in Hn, Hk.
  exists 1%nat, 1%nat, W, 1%nat, 1%nat, b, (fun W b X i j => X i j * W 0%nat 0%nat + b 0%nat 0%nat), l. do 2 (split; [assumption|]).
  split; [|split; [|split]].
  - intros out Ho. mem K. fstep (fwdGlobalAffine_R jk n k W b X).
  - auto.
  - intros W' b' X' out Ho. eexists. mem K. fstep (fwdGlobalAffine_R jk n k W' b' X').
  - intros G gin Hg. set (tw := fun _ _ : nat => dot n k X G). set (tb := fun _ _ : nat => rsum n (fun i => rsum k (fun j => G i j))). set (gi := fun i j => G i j * W 0%nat 0%nat).
    bwit K (setGWB l (mgen 1 1 (fun _ _ => meanXtG n k X G) : mat F) (mgen 1 1 (fun _ _ => meanAll n k G) : mat F)) (if lfirst l then gin else mgen n k gi) gi tw tb
      (bwdGlobalAffine_R jk (lfirst l) n k W g0 g1 X G gin).
    split; [none|split; [intros s Es; inversion Es; eexists; split; [reflexivity|]; intros i j Hi Hj; unfold tb, meanAll; field; auto|]].
    intros Wc bc Xc t dW db dX E1 E2 E3 H1 H2 H3. destruct (scalaff_curve n k Xc Wc bc t dX dW db G H3 H1 H2) as (dY & A & B).
    exists dY. split; [exact A|]. rewrite B, E1, E3. reflexivity.
Qed.

Lemma c_channelbias : forall r (l : layer F) n nR nC nH X, (0 < n)%nat -> (0 < nR)%nat -> (0 < nC)%nat -> lk l = KChannelBias nR nC nH -> mwf (lw l) -> sizedAs (lb l) 1 nH ->
  contract r l n (nH * nR * nC) (nH * nR * nC) X None (Some (INR n / (INR nR * INR nC))) 1.
Proof.
  intros r l n nR nC nH X Hn HR HC K Sw Sb. destruct (wf_gen _ Sw) as (rw & cw & W & EW). destruct (sized_gen _ _ _ Sb) as [b Eb]. assert (Hn' := Hn). apply INR_pos in Hn', HR, HC.
  exists rw, cw, W, 1%nat, nH, b, (fun W b X i j => X i j + b 0%nat (j / nC / nR)%nat), l. do 2 (split; [assumption|]).
  split; [|split; [|split]].
  - intros out Ho. mem K. fstep (fwdChannelBias_gen F n nH nR nC b X).
  - auto.
  - intros W' b' X' out Ho. eexists. mem K. fstep (fwdChannelBias_gen F n nH nR nC b' X').
  - intros G gin Hg. set (tb := fun _ h : nat => rsum n (fun s => rsum nR (fun r => rsum nC (fun c => G s (pix nR nC h r c))))).
    bwit K (setGB l (mgen 1 nH (fun i h => tb i h * (INR nR * INR nC) / INR n) : mat F)) (if lfirst l then gin else mgen n (nH * nR * nC) G) G zz tb
      (bwdChannelBias_R jk (lfirst l) n nH nR nC G gin Hn).
    split; [none|split; [exactg|]].
    intros Wc bc Xc t dW db dX E1 E2 E3 H1 H2 H3. destruct (channelbias_curve n nH nR nC Xc bc t dX db G H3 H2) as (dY & A & B).
    exists dY. split; [exact A|]. unfold zz. rewrite B, dot0l. unfold tb. ring.
Qed.

(** layers without trained parameters: lw and lb only have to be well formed *)
Lemma c_noparam : forall r (l : layer F) n k m X (f : (nat -> nat -> R) -> nat -> nat -> R) lf, mwf (lw l) -> mwf (lb l) ->
  (forall out, mwf out -> layForward F r l (mgen n k X) out = Ok (lf, mgen n m (f X))) ->
  (lw lf = lw l /\ lb lf = lb l /\ lfirst lf = lfirst l) ->
  (forall w b X' out, mwf out -> exists l', layForward F r (setWB l w b) (mgen n k X') out = Ok (l', mgen n m (f X'))) ->
  (forall G gin, mwf gin -> exists gi,
     layBackward F lf (mgen n k X) (mgen n m G) gin = Ok (lf, if lfirst l then gin else mgen n k gi) /\
     (forall Xc t dX, Xc t = X -> dcurve n k Xc t dX -> exists dY, dcurve n m (fun x => f (Xc x)) t dY /\ dot n m G dY = dot n k gi dX)) ->
  contract r l n k m X None None 1.
Proof.
  intros r l n k m X f lf Sw Sb H1 H2 H3 H4. destruct (wf_gen _ Sw) as (rw & cw & W & EW). destruct (wf_gen _ Sb) as (rb & cb & b & Eb).
  exists rw, cw, W, rb, cb, b, (fun _ _ => f), lf. do 2 (split; [assumption|]). split; [assumption|]. split; [assumption|]. split; [auto|].
  intros G gin Hg. destruct (H4 G gin Hg) as (gi & A & B). exists lf, (if lfirst l then gin else mgen n k gi), gi, zz, zz.
  split; [assumption|]. split; [mw|]. split; [tauto|]. split; [infirst|]. split; [none|]. split; [none|].
  intros Wc bc Xc t dW db dX E1 E2 E3 D1 D2 D3. destruct (B Xc t dX E3 D3) as (dY & C & D). exists dY. split; [exact C|]. rewrite D. unfold zz. rewrite !dot0l. ring.
Qed.

Lemma c_act : forall r (l : layer F) n k X a, lk l = KAct (Some a) -> mwf (lw l) -> mwf (lb l) -> ~ odd_derivative a -> cells n k X (fun x => ~ In x (corners a)) ->
  contract r l n k k X None None 1.
Proof.
  intros r l n k X a K Sw Sb Ho Hc. apply (c_noparam r l n k k X (fun X i j => act_apply F a (X i j)) l); auto.
  - intros out Hout. mem K. fstep (fwdAct_gen F a n k X out Hout).
  - intros w b X' out Hout. eexists. mem K. fstep (fwdAct_gen F a n k X' out Hout).
  - intros G gin Hg. exists (fun i j => act_deriv F a (X i j) * G i j). split; [mem K; fstep (bwdAct_gen F a (lfirst l) n k X G gin Hg)|].
    intros Xc t dX E D. destruct (cell_curve n k Xc t dX (fun _ _ => act_apply F a) (fun i j => act_deriv F a (X i j)) G D) as (dY & A & B).
    + intros i j Hi Hj. rewrite E. apply act_derivative; auto.
    + exists dY. split; [exact A|]. rewrite B. apply dot_ext. intros. ring.
Qed.

Lemma c_gated : forall r (l : layer F) n m X a1 a2, lk l = KGated (Some a1) (Some a2) -> mwf (lw l) -> mwf (lb l) -> ~ odd_derivative a1 -> ~ odd_derivative a2 ->
  cells n m X (fun x => ~ In x (corners a1)) -> cells n m (fun i j => X i (j + m)%nat) (fun x => ~ In x (corners a2)) ->
  contract r l n (2 * m) m X None None 1.
Proof.
  intros r l n m X a1 a2 K Sw Sb Ho1 Ho2 Hc1 Hc2. apply (c_noparam r l n (2 * m) m X (fun X i j => act_apply F a1 (X i j) * act_apply F a2 (X i (j + m)%nat)) l); auto.
  - intros out Hout. mem K. fstep (fwdGated_gen F a1 a2 n m X out Hout).
  - intros w b X' out Hout. eexists. mem K. fstep (fwdGated_gen F a1 a2 n m X' out Hout).
  - intros G gin Hg. eexists. split.
    + mem K. destruct (lfirst l); [reflexivity|]. fstep (bwdGated_gen F a1 a2 n m X G gin Hg).
    + intros Xc t dX E D. destruct (gated_curve n m Xc t dX (act_apply F a1) (act_apply F a2) (fun i j => act_deriv F a1 (X i j)) (fun i j => act_deriv F a2 (X i (j + m)%nat)) G D) as (dY & A & B).
      * intros i j Hi Hj. rewrite E. apply act_derivative; auto.
      * intros i j Hi Hj. rewrite E. apply act_derivative; auto.
      * exists dY. split; [exact A|]. rewrite B, E. apply dot_ext. intros i j Hi Hj. destruct (j <? m)%nat; simpl fmul; ring.
Qed.

Lemma c_crelu : forall r (l : layer F) n k X, lk l = KCRelu -> mwf (lw l) -> mwf (lb l) -> cells n k X (fun x => x <> 0) ->
  contract r l n k (2 * k) X None None 1.
Proof.
  intros r l n k X K Sw Sb Hc.
  apply (c_noparam r l n k (2 * k) X (fun X i c => if (c <? k)%nat then (if Rleb 0 (X i c) then X i c else 0) else if Rleb 0 (X i (c - k)%nat) then 0 else - X i (c - k)%nat) l); auto.
  - intros out Hout. mem K. fstep (fwdCRelu_gen F n k X out Hout).
  - intros w b X' out Hout. eexists. mem K. fstep (fwdCRelu_gen F n k X' out Hout).
  - intros G gin Hg. eexists. split.
    + mem K. destruct (lfirst l); [reflexivity|]. fstep (bwdCRelu_gen F n k X G gin Hg).
    + intros Xc t dX E D. destruct (crelu_curve n k Xc t dX G D) as (dY & A & B).
      * rewrite E. exact Hc.
      * exists dY. split; [exact A|]. rewrite B, E. reflexivity.
Qed.

Lemma c_rrelu : forall r (l : layer F) n k X a1 a2, lk l = KRRelu a1 a2 -> ltrain l = true -> mwf (lmem l) -> mwf (lw l) -> mwf (lb l) -> cells n k X (fun x => x <> 0) ->
  contract r l n k k X None None 1.
Proof.
  intros r l n k X a1 a2 K Ht Hm Sw Sb Hc. set (g := rf r).
  apply (c_noparam r l n k k X (fun X i j => (fun i j x => if Rltb x 0 then x * g (i * k + j)%nat else x) i j (X i j)) (setMem l (mgen n k (fun i j => g (i * k + j)%nat) : mat F))); auto.
  - intros out Hout. mem K. rewrite Ht. fstep (fwdRRelu_train F g a1 a2 (lmem l) n k X Hm).
  - intros w b X' out Hout. eexists. mem K. rewrite Ht. fstep (fwdRRelu_train F g a1 a2 (lmem l) n k X' Hm).
  - intros G gin Hg. eexists. split.
    + mem K. destruct (lfirst l); [reflexivity|]. fstep (bwdRRelu_gen F n k (fun i j => g (i * k + j)%nat) X G gin).
    + intros Xc t dX E D. destruct (cell_curve n k Xc t dX (fun i j x => if Rltb x 0 then x * g (i * k + j)%nat else x) (fun i j => if Rltb (X i j) 0 then g (i * k + j)%nat else 1) G D) as (dY & A & B).
      * intros i j Hi Hj. rewrite E. specialize (Hc i j Hi Hj). cbv beta in Hc.
        apply (d_branch (fun x => x) (fun x => x * g (i * k + j)%nat) (fun x => x) (X i j) 0 1); auto.
        -- apply (is_derive_id (X i j)).
        -- intros _. eapply is_derive_eq; [apply (d_mul_const_r (g (i * k + j)%nat) (fun x => x)); apply (is_derive_id (X i j))|]. unfold one; simpl. ring.
        -- intros _. apply (is_derive_id (X i j)).
      * exists dY. split; [exact A|]. rewrite B. apply dot_ext. intros i j Hi Hj. simpl flt. simpl fmul. destruct (Rltb (X i j) 0); ring.
Qed.

Lemma c_ident : forall r (l : layer F) n k X, mwf (lw l) -> mwf (lb l) ->
  (forall w b X' out, layForward F r (setWB l w b) (mgen n k X') out = Ok (setWB l w b, mgen n k X')) ->
  (forall out, layForward F r l (mgen n k X) out = Ok (l, mgen n k X)) ->
  (forall G gin, layBackward F l (mgen n k X) (mgen n k G) gin = Ok (l, if lfirst l then gin else mgen n k G)) ->
  contract r l n k k X None None 1.
Proof.
  intros r l n k X Sw Sb H1 H2 H3. apply (c_noparam r l n k k X (fun X => X) l); auto.
  - intros w b X' out _. eexists. apply H1.
  - intros G gin Hg. exists G. split; [apply H3|]. intros Xc t dX E D. exists dX. split; [exact D|reflexivity].
Qed.

Lemma setMem_same : forall l : layer F, setMem l (lmem l) = l.
Proof. destruct l; reflexivity. Qed.

Lemma c_dropout : forall r (l : layer F) n k X rate, lk l = KDropout rate -> mwf (lmem l) -> mwf (lw l) -> mwf (lb l) -> (rate = 0 \/ ltrain l = true /\ 0 < rate < 1) ->
  contract r l n k k X None None 1.
Proof.
  intros r l n k X rate K Hm Sw Sb [-> | [Ht Hr]].
  - assert (Q : feq F 0 (f0 F) = true) by (simpl; unfold Reqb; destruct (Req_EM_T 0 0); congruence).
    apply c_ident; auto.
    + intros. unfold layForward. cbl. rewrite K. unfold fwdDropout. rewrite Q. rewrite andb_false_r. cbn [bind]. destruct l; reflexivity.
    + intros. unfold layForward. rewrite K. unfold fwdDropout. rewrite Q, andb_false_r. cbn [bind]. rewrite setMem_same. reflexivity.
    + intros. unfold layBackward. rewrite K. unfold bwdDropout. rewrite Q. destruct (lfirst l); reflexivity.
  - set (m := keep rate (rz r) k).
    apply (c_noparam r l n k k X (fun X i j => X i j * m i j) (setMem l (mgen n k m : mat F))); auto.
    + intros out Hout. mem K. rewrite Ht. fstep (fwdDropout_R jk rate (rz r) (lmem l) n k X Hr Hm).
    + intros w b X' out Hout. eexists. mem K. rewrite Ht. fstep (fwdDropout_R jk rate (rz r) (lmem l) n k X' Hr Hm).
    + intros G gin Hg. assert (Hr' : rate <> 0) by lra. exists (fun i j => G i j * m i j). split.
      * mem K. destruct (lfirst l); [reflexivity|]. fstep (bwdDropout_gen jk rate m n k G gin Hr').
      * intros Xc t dX E D. destruct (cell_curve n k Xc t dX (fun i j x => x * m i j) (fun i j => m i j) G D) as (dY & A & B).
        -- intros i j Hi Hj. eapply is_derive_eq; [apply (d_mul_const_r (m i j) (fun x => x)); apply (is_derive_id (Xc t i j))|]. unfold one; simpl. ring.
        -- exists dY. split; [exact A|exact B].
Qed.

Lemma c_noise : forall r (l : layer F) n k X s, (lk l = KGaussianNoise s \/ lk l = KUniformNoise s) -> mwf (lw l) -> mwf (lb l) -> contract r l n k k X None None 1.
Proof.
  intros r l n k X s K Sw Sb.
  assert (EF : forall (l : layer F) X out, (lk l = KGaussianNoise s \/ lk l = KUniformNoise s) -> layForward F r l (mgen n k X) out = (o <- fwdNoise F (ltrain l) s (rf r) (mgen n k X) ;; Ok (l, o))).
  { intros l0 X0 out [E|E]; unfold layForward; rewrite E; reflexivity. }
  assert (EB : forall G gin, layBackward F l (mgen n k X) (mgen n k G) gin = Ok (l, if lfirst l then gin else mgen n k G)).
  { intros G gin. destruct K as [E|E]; unfold layBackward; rewrite E; reflexivity. }
  destruct (ltrain l && flt F (f0 F) s) eqn:Et.
  - apply andb_true_iff in Et. destruct Et as [Et Hs].
    assert (Hs' : 0 < s) by (simpl in Hs; unfold Rltb in Hs; destruct (Rlt_dec 0 s); congruence).
    apply (c_noparam r l n k k X (fun X i j => X i j + rf r (i * k + j)%nat) l); auto.
    + intros out _. rewrite EF by auto. rewrite Et. fstep (proj1 (noise_training jk s (rf r) n k X zz (mempty F) Hs')).
    + intros w b X' out _. eexists. rewrite EF by exact K. cbl. rewrite Et. fstep (proj1 (noise_training jk s (rf r) n k X' zz (mempty F) Hs')).
    + intros G gin _. exists G. split; [apply EB|]. intros Xc t dX E D. exists dX. split; [|reflexivity].
      intros i j Hi Hj. apply (d_add_const_r (rf r (i * k + j)%nat) (fun x => Xc x i j)). apply D; auto.
  - assert (EN : forall X, fwdNoise F (ltrain l) s (rf r) X = Ok X) by (intro; unfold fwdNoise; rewrite Et; reflexivity).
    apply c_ident; auto.
    + intros. rewrite EF by exact K. cbl. rewrite EN. reflexivity.
    + intros. rewrite EF by exact K. rewrite EN. reflexivity.
Qed.

Lemma c_avgpool : forall r (l : layer F) n p X, lk l = KAvgPool p -> mwf (lw l) -> mwf (lb l) ->
  contract r l n (pH p * pR p * pC p) (pH p * (pR p / pfr p) * (pC p / pfc p)) X None None 1.
Proof.
  intros r l n [nR nC nH fr fc] X K Sw Sb. cbn [pH pR pC pfr pfc].
  assert (EF : forall X out, mwf out -> fwdAvgPool F (mkPool nR nC nH fr fc) (mgen n (nH * nR * nC) X) out = Ok (mgen n (nH * (nR / fr) * (nC / fc)) (unimg (nR / fr) (nC / fc) (avgMap fr fc (img nR nC X))))).
  { intros Q out Hout. rewrite tens_img. eapply eq_trans; [exact (avgpool_forward jk n nH nR nC fr fc (img nR nC Q) out Hout)|]. rewrite tens_unimg. reflexivity. }
  apply (c_noparam r l n _ _ X (fun X => unimg (nR / fr) (nC / fc) (avgMap fr fc (img nR nC X))) l); auto.
  - intros out Hout. mem K. fstep (EF X out Hout).
  - intros w b X' out Hout. eexists. mem K. fstep (EF X' out Hout).
  - intros G gin Hg. destruct (bwdAvgPool_R jk n nH nR nC fr fc (img (nR / fr) (nC / fc) G) gin Hg) as (gi & H1 & H2). exists gi. split.
    + mem K. destruct (lfirst l); [reflexivity|]. rewrite <- (tens_img F n nH (nR / fr) (nC / fc) G) in H1. fstep H1.
    + intros Xc t dX E D. eexists. split.
      * apply dcurve_unimg. apply avgMap_curve. apply dcurve_img. exact D.
      * rewrite dot_unimg, H2. reflexivity.
Qed.

Lemma c_globalavg : forall r (l : layer F) n nR nC nH X, lk l = KGlobalAvgPool nR nC nH -> mwf (lw l) -> mwf (lb l) ->
  contract r l n (nH * nR * nC) nH X None None 1.
Proof.
  intros r l n nR nC nH X K Sw Sb.
  assert (EF : forall X out, mwf out -> fwdGlobalAvgPool F nR nC nH (mgen n (nH * nR * nC) X) out = Ok (mgen n nH (fun s h => rsum nR (fun r => rsum nC (fun c => img nR nC X s h r c)) / INR (nR * nC)))).
  { intros Q out Hout. rewrite tens_img. exact (globalavg_forward jk n nH nR nC (img nR nC Q) out Hout). }
  apply (c_noparam r l n _ _ X (fun X s h => rsum nR (fun r => rsum nC (fun c => img nR nC X s h r c)) / INR (nR * nC)) l); auto.
  - intros out Hout. mem K. fstep (EF X out Hout).
  - intros w b X' out Hout. eexists. mem K. fstep (EF X' out Hout).
  - intros G gin Hg. exists (unimg nR nC (fun s h _ _ => G s h * (1 / INR (nR * nC)))). split.
    + mem K. destruct (lfirst l); [reflexivity|]. fstep (bwdGlobalAvgPool_gen F n nH nR nC G gin Hg).
      rewrite <- tens_unimg. f_equal. f_equal. apply tens_ext. intros. rewrite fofN_R. reflexivity.
    + intros P t dP E HP. apply dcurve_img in HP. exists (fun s h => rsum nR (fun r => rsum nC (fun c => img nR nC dP s h r c)) / INR (nR * nC)). split.
      * intros s h Hs Hh. unfold Rdiv. apply d_mul_const_r. apply (is_derive_rsum nR (fun r x => rsum nC (fun c => img nR nC (P x) s h r c))). intros r0 Hr.
        apply (is_derive_rsum nC (fun c x => img nR nC (P x) s h r0 c)). intros c Hc. apply HP; auto.
      * rewrite dot_dot4. unfold dot, dot4. apply rsum_ext. intros s Hs. apply rsum_ext. intros h Hh. unfold Rdiv. rewrite <- rsum_scal_r, <- rsum_scal. apply rsum_ext. intros r0 Hr.
        rewrite <- rsum_scal_r, <- rsum_scal. apply rsum_ext. intros c Hc. rewrite img_unimg by auto. ring.
Qed.

Lemma c_zeropad : forall r (l : layer F) n nR nC nH nB X, lk l = KZeroPad nR nC nH nB -> mwf (lw l) -> mwf (lb l) ->
  contract r l n (nH * nR * nC) (nH * (nR + 2 * nB) * (nC + 2 * nB)) X None None 1.
Proof.
  intros r l n nR nC nH nB X K Sw Sb. set (oR := (nR + 2 * nB)%nat). set (oC := (nC + 2 * nB)%nat).
  assert (EF : forall X out, mwf out -> fwdZeroPad F nR nC nH nB (mgen n (nH * nR * nC) X) out = Ok (mgen n (nH * oR * oC) (unimg oR oC (padMap 0 nR nC nB (img nR nC X))))).
  { intros Q out Hout. rewrite tens_img. eapply eq_trans; [exact (fwdZeroPad_gen F n nH nR nC nB (img nR nC Q) out Hout)|]. rewrite <- tens_unimg. reflexivity. }
  apply (c_noparam r l n _ _ X (fun X => unimg oR oC (padMap 0 nR nC nB (img nR nC X))) l); auto.
  - intros out Hout. mem K. fstep (EF X out Hout).
  - intros w b X' out Hout. eexists. mem K. fstep (EF X' out Hout).
  - intros G gin Hg. exists (unimg nR nC (fun s h r c => img oR oC G s h (r + nB)%nat (c + nB)%nat)). split.
    + mem K. destruct (lfirst l); [reflexivity|]. assert (E := bwdZeroPad_gen F n nH nR nC nB (img oR oC G) gin Hg). unfold oR, oC in E. rewrite <- (tens_img F n nH (nR + 2 * nB) (nC + 2 * nB) G) in E. fstep E.
      rewrite <- tens_unimg. reflexivity.
    + intros P t dP E HP. eexists. split.
      * apply dcurve_unimg. apply padMap_curve. apply dcurve_img. exact HP.
      * rewrite dot_unimg. unfold oR, oC. rewrite padMap_adjoint, dot_dot4. apply dot4_ext. intros. rewrite img_unimg by auto. reflexivity.
Qed.

Lemma c_prelu : forall r (l : layer F) n k X, (0 < n)%nat -> (0 < k)%nat -> lk l = KPRelu -> sizedAs (lw l) 1 k -> sizedAs (lgw l) 1 k -> mwf (lb l) -> cells n k X (fun x => x <> 0) ->
  contract r l n k k X (Some (INR n)) None 1.
Proof.
  intros r l n k X Hn Hk K Sw Sg Sb Hc. destruct (sized_gen _ _ _ Sw) as [W EW]. destruct (sized_gen _ _ _ Sg) as [g0 Eg]. destruct (wf_gen _ Sb) as (rb & cb & b & Eb). apply INR_pos in Hn.
  set (lf := setP l (mgen 1 k W : mat F) (mgen 1 k g0 : mat F) (mgen rb cb b : mat F) (lgb l)).
  exists 1%nat, k, W, rb, cb, b, (fun W b X i j => if Rltb (X i j) 0 then X i j * W 0%nat j else X i j), lf. do 2 (split; [assumption|]).
  split; [|split; [|split]].
  - intros out Ho. unfold lf. mem K. fstep (fwdPRelu_gen F n k W (mgen 1 k g0) X Hk).
  - unfold lf. shape.
  - intros W' b' X' out Ho. eexists. mem K. fstep (fwdPRelu_gen F n k W' (mgen 1 k g0) X' Hk).
  - intros G gin Hg. set (tw := fun _ j : nat => rsum n (fun i => if Rltb (X i j) 0 then X i j * G i j else 0)).
    set (gi := fun i j => if Rltb (X i j) 0 then G i j * W 0%nat j else G i j). unfold lf.
    bwit K (setGW lf (mgen 1 k (fun i j => tw i j / INR n) : mat F)) (if lfirst l then gin else mgen n k gi) gi tw zz
      (bwdPRelu_R jk (lfirst l) n k W g0 X G gin).
    split; [exactg|split; [none|]].
    intros Wc bc Xc t dW db dX E1 E2 E3 H1 H2 H3. destruct (prelu_curve n k Xc Wc t dX dW G H3 H1) as (dY & A & B); [rewrite E3; exact Hc|].
    exists dY. split; [exact A|]. unfold zz. rewrite B, E1, E3, dot0l. unfold gi, tw. ring.
Qed.

Lemma in_mgen : forall r c (f : nat -> nat -> R) i j, (i < r)%nat -> (j < c)%nat -> In (f i j) (mdata (mgen r c f)).
Proof.
  intros r c f i j Hi Hj. unfold mgen. cbn [mdata]. apply in_flat_map. exists i. split; [apply in_seq; lia|]. apply in_map. apply in_seq. lia.
Qed.

Lemma c_pelu : forall r (l : layer F) n k X, (0 < k)%nat -> lk l = KPELU -> sizedAs (lw l) 2 k -> sizedAs (lgw l) 2 k -> mwf (lb l) -> cells n k X (fun x => x <> 0) ->
  (forall x, In x (mdata (lw l)) -> 1 / 10 <= x) -> contract r l n k k X None None 1.
Proof.
  intros r l n k X Hk K Sw Sg Sb Hc Hw. destruct (sized_gen _ _ _ Sw) as [W EW]. destruct (sized_gen _ _ _ Sg) as [g0 Eg]. destruct (wf_gen _ Sb) as (rb & cb & b & Eb).
  assert (HW : forall r j, (r < 2)%nat -> (j < k)%nat -> 1 / 10 <= W r j). { intros i j Hi Hj. apply Hw. rewrite EW. apply in_mgen; auto. }
  set (lf := setP l (mgen 2 k W : mat F) (mgen 2 k g0 : mat F) (mgen rb cb b : mat F) (lgb l)).
  exists 2%nat, k, W, rb, cb, b, (fun W b X i j => peluF F (W 0%nat j) (W 1%nat j) (X i j)), lf. do 2 (split; [assumption|]).
  split; [|split; [|split]].
  - intros out Ho. unfold lf. mem K. fstep (fwdPELU_gen F n k W (mgen 2 k g0) X Hk).
  - unfold lf. shape.
  - intros W' b' X' out Ho. eexists. mem K. fstep (fwdPELU_gen F n k W' (mgen 2 k g0) X' Hk).
  - intros G gin Hg. set (tw := fun r j => rsum n (fun i => G i j * (if (r =? 0)%nat then peluDa F (W 0%nat j) (W 1%nat j) (X i j) else peluDb F (W 0%nat j) (W 1%nat j) (X i j)))).
    set (gi := fun i j => G i j * peluDx F (W 0%nat j) (W 1%nat j) (X i j)).
    set (gw := fun r j => rsum n (fun i => if (r =? 0)%nat then peluDa F (W 0%nat j) (W 1%nat j) (X i j) else peluDb F (W 0%nat j) (W 1%nat j) (X i j)) / INR n). unfold lf.
    bwit K (setP lf (mgen 2 k W : mat F) (mgen 2 k gw : mat F) (mgen rb cb b : mat F) (lgb l)) (if lfirst l then gin else mgen n k gi) gi tw zz
      (bwdPELU_R jk (lfirst l) n k W g0 X G gin Hk HW).
    split; [none|split; [none|]].
    intros Wc bc Xc t dW db dX E1 E2 E3 H1 H2 H3. destruct (pelu_curve jk n k Xc Wc t dX dW G H3 H1) as (dY & A & B); [rewrite E3; exact Hc| |].
    { intros j Hj. rewrite E1. specialize (HW 1%nat j ltac:(lia) Hj). lra. }
    exists dY. split; [exact A|]. unfold zz. rewrite B, E1, E3, dot0l. unfold gi, tw. ring.
Qed.

Lemma c_terelu : forall r (l : layer F) n k X, (0 < k)%nat -> lk l = KTERELU -> sizedAs (lw l) 1 k -> sizedAs (lgw l) 1 k -> mwf (lb l) -> cells n k X (fun x => x <> 0 /\ x <> 1) ->
  contract r l n k k X None None 1.
Proof.
  intros r l n k X Hk K Sw Sg Sb Hc. destruct (sized_gen _ _ _ Sw) as [W EW]. destruct (sized_gen _ _ _ Sg) as [g0 Eg]. destruct (wf_gen _ Sb) as (rb & cb & b & Eb).
  set (lf := setP l (mgen 1 k W : mat F) (mgen 1 k g0 : mat F) (mgen rb cb b : mat F) (lgb l)).
  exists 1%nat, k, W, rb, cb, b, (fun W b X i j => tereluF F (W 0%nat j) (X i j)), lf. do 2 (split; [assumption|]).
  split; [|split; [|split]].
  - intros out Ho. unfold lf. mem K. fstep (fwdTERELU_gen F n k W (mgen 1 k g0) X Hk).
  - unfold lf. shape.
  - intros W' b' X' out Ho. eexists. mem K. fstep (fwdTERELU_gen F n k W' (mgen 1 k g0) X' Hk).
  - intros G gin Hg. set (tw := fun _ j : nat => rsum n (fun i => G i j * tereluDw (X i j))).
    set (gi := fun i j => tereluDx F (G i j) (W 0%nat j) (X i j)). unfold lf.
    bwit K (setGW lf (mgen 1 k (fun _ j => rsum n (fun i => tereluDw (X i j)) / INR n) : mat F)) (if lfirst l then gin else mgen n k gi) gi tw zz
      (bwdTERELU_R jk (lfirst l) n k W g0 X G gin).
    split; [none|split; [none|]].
    intros Wc bc Xc t dW db dX E1 E2 E3 H1 H2 H3. destruct (terelu_curve jk n k Xc Wc t dX dW G H3 H1) as (dY & A & B); [rewrite E3; exact Hc|].
    exists dY. split; [exact A|]. unfold zz. rewrite B, E1, E3, dot0l. unfold gi, tw. ring.
Qed.

Lemma c_tdbias : forall r (l : layer F) n f m X, (0 < n)%nat -> (0 < f)%nat -> (0 < m)%nat -> lk l = KTDBias m -> mwf (lw l) -> sizedAs (lb l) 1 m ->
  contract r l n (f * m) (f * m) X None (Some (INR n * INR f)) 1.
Proof.
  intros r l n f m X Hn Hf Hm K Sw Sb. destruct (wf_gen _ Sw) as (rw & cw & W & EW). destruct (sized_gen _ _ _ Sb) as [b Eb]. apply INR_pos in Hn, Hf.
  exists rw, cw, W, 1%nat, m, b, (fun W b X => unframes f m (fun r j => frames f m X r j + b 0%nat j)), l. do 2 (split; [assumption|]).
  split; [|split; [|split]].
  - intros out Ho. mem K. fstep (fwdTDBias_gen F n f m b X Hm).
  - auto.
  - intros W' b' X' out Ho. eexists. mem K. fstep (fwdTDBias_gen F n f m b' X' Hm).
  - intros G gin Hg. set (tb := fun _ j : nat => rsum (f * n) (fun r => frames f m G r j)).
    assert (E : bwdTDBias F m (lfirst l) (mgen n (f * m) G) gin = Ok (mgen 1 m (fun i j => tb i j / (INR f * INR n)) : mat F, if lfirst l then gin else mgen n (f * m) G)).
    { eapply eq_trans; [exact (bwdTDBias_gen F (lfirst l) n f m G gin Hm)|]. apply Ok_eq. f_equal; apply mgen_ext; intros; fs; auto. rewrite mult_INR. reflexivity. }
    bwit K (setGB l (mgen 1 m (fun i j => tb i j / (INR f * INR n)) : mat F)) (if lfirst l then gin else mgen n (f * m) G) G zz tb E.
    split; [none|split; [exactg|]].
    intros Wc bc Xc t dW db dX E1 E2 E3 H1 H2 H3. destruct (tdbias_curve n f m Xc bc t dX db G H3 H2) as (dY & A & B).
    exists dY. split; [exact A|]. unfold zz. rewrite B, dot0l. unfold tb. rewrite Rplus_0_r. reflexivity.
Qed.

Lemma c_tddot : forall r (l : layer F) n f fi fo X, (0 < n)%nat -> (0 < fi)%nat -> (0 < fo)%nat -> lk l = KTDDot fi fo -> sizedAs (lw l) fi fo -> mwf (lb l) ->
  contract r l n (f * fi) (f * fo) X (Some (INR n)) None 1.
Proof.
  intros r l n f fi fo X Hn Hfi Hfo K Sw Sb. destruct (sized_gen _ _ _ Sw) as [W EW]. destruct (wf_gen _ Sb) as (rb & cb & b & Eb). apply INR_pos in Hn.
  assert (FW : forall W X, fwdTDDot F fi fo (mgen fi fo W) (mgen n (f * fi) X) = Ok (mgen n (f * fo) (unframes f fo (fun r j => rsum fi (fun l => frames f fi X r l * W l j))))).
  { intros. eapply eq_trans; [exact (fwdTDDot_gen F n f fi fo _ _ Hfi)|]. apply Ok_eq, mgen_ext. intros. unfold unframes. fs. reflexivity. }
  exists fi, fo, W, rb, cb, b, (fun W b X => unframes f fo (fun r j => rsum fi (fun l => frames f fi X r l * W l j))), l. do 2 (split; [assumption|]).
  split; [|split; [|split]].
  - intros out Ho. mem K. fstep (FW W X).
  - auto.
  - intros W' b' X' out Ho. eexists. mem K. fstep (FW W' X').
  - intros G gin Hg. set (tw := fun l j => rsum (f * n) (fun r => frames f fi X r l * frames f fo G r j)). set (gi := unframes f fi (fun r l => rsum fo (fun j => frames f fo G r j * W l j))).
    assert (E : bwdTDDot F fi fo (lfirst l) (mgen fi fo W) (mgen n (f * fi) X) (mgen n (f * fo) G) gin = Ok (mgen fi fo (fun l j => tw l j * (1 / INR n)) : mat F, if lfirst l then gin else mgen n (f * fi) gi)).
    { eapply eq_trans; [exact (bwdTDDot_gen F (lfirst l) n f fi fo W X G gin Hfo)|]. apply Ok_eq. f_equal; [|destruct (lfirst l); auto]; apply mgen_ext; intros; unfold gi, unframes; fs; auto. }
    bwit K (setGW l (mgen fi fo (fun l j => tw l j * (1 / INR n)) : mat F)) (if lfirst l then gin else mgen n (f * fi) gi) gi tw zz E.
    split; [exactg|split; [none|]].
    intros Wc bc Xc t dW db dX E1 E2 E3 H1 H2 H3. destruct (tddot_curve n f fi fo Xc Wc t dX dW G H3 H1) as (dY & A & B).
    exists dY. split; [exact A|]. unfold zz. rewrite B, E1, E3, dot0l. unfold tw, gi. rewrite Rplus_0_r. reflexivity.
Qed.

Lemma c_tddense : forall r (l : layer F) n f fi fo X, (0 < n)%nat -> (0 < f)%nat -> (0 < fi)%nat -> (0 < fo)%nat -> lk l = KTDDense fi fo -> sizedAs (lw l) fi fo -> sizedAs (lb l) 1 fo ->
  contract r l n (f * fi) (f * fo) X (Some (INR n)) (Some (INR n * INR f)) 1.
Proof.
  intros r l n f fi fo X Hn Hf Hfi Hfo K Sw Sb. destruct (sized_gen _ _ _ Sw) as [W EW]. destruct (sized_gen _ _ _ Sb) as [b Eb]. apply INR_pos in Hn, Hf.
  assert (FW : forall W b X, fwdTDDense F fi fo (mgen fi fo W) (mgen 1 fo b) (mgen n (f * fi) X) = Ok (mgen n (f * fo) (unframes f fo (fun r j => rsum fi (fun l => frames f fi X r l * W l j) + b 0%nat j)))).
  { intros. eapply eq_trans; [exact (fwdTDDense_gen F n f fi fo _ _ _ Hfi)|]. apply Ok_eq, mgen_ext. intros. unfold unframes. fs. reflexivity. }
  exists fi, fo, W, 1%nat, fo, b, (fun W b X => unframes f fo (fun r j => rsum fi (fun l => frames f fi X r l * W l j) + b 0%nat j)), l. do 2 (split; [assumption|]).
  split; [|split; [|split]].
  - intros out Ho. mem K. fstep (FW W b X).
  - auto.
  - intros W' b' X' out Ho. eexists. mem K. fstep (FW W' b' X').
  - intros G gin Hg. set (tw := fun l j => rsum (f * n) (fun r => frames f fi X r l * frames f fo G r j)). set (gi := unframes f fi (fun r l => rsum fo (fun j => frames f fo G r j * W l j))).
    set (tb := fun _ j : nat => rsum (f * n) (fun r => frames f fo G r j)).
    assert (E : bwdTDDense F fi fo (lfirst l) (mgen fi fo W) (mgen n (f * fi) X) (mgen n (f * fo) G) gin =
      Ok (mgen fi fo (fun l j => tw l j * (1 / INR n)) : mat F, mgen 1 fo (fun i j => tb i j / (INR f * INR n)) : mat F, if lfirst l then gin else mgen n (f * fi) gi)).
    { eapply eq_trans; [exact (bwdTDDense_gen F (lfirst l) n f fi fo W X G gin Hfo)|]. apply Ok_eq. f_equal; [f_equal|destruct (lfirst l); auto]; apply mgen_ext; intros; unfold gi, unframes; fs; auto.
      rewrite mult_INR. reflexivity. }
    bwit K (setGWB l (mgen fi fo (fun l j => tw l j * (1 / INR n)) : mat F) (mgen 1 fo (fun i j => tb i j / (INR f * INR n)) : mat F)) (if lfirst l then gin else mgen n (f * fi) gi) gi tw tb E.
    split; [exactg|split; [exactg|]].
    intros Wc bc Xc t dW db dX E1 E2 E3 H1 H2 H3. destruct (tddense_curve n f fi fo Xc Wc bc t dX dW db G H3 H1 H2) as (dY & A & B).
    exists dY. split; [exact A|]. rewrite B, E1, E3. reflexivity.
Qed.

Lemma c_conv : forall r (l : layer F) n v fast X, lk l = KConv v fast -> convOk v = Ok tt -> (0 < vkr v)%nat -> (0 < vkc v)%nat -> (0 < vO v)%nat ->
  sizedAs (lw l) (vO v) (vI v * vkr v * vkc v) -> mwf (lmem l) -> mwf (lb l) ->
  contract r l n (vI v * vR v * vC v) (vO v * oR v * oC v) X (Some 1) None (INR (vkr v * vkc v * vO v)).
Proof.
  intros r l n v fast X K Hok Hkr Hkc HO Sw Hm Sb. destruct (sized_gen _ _ _ Sw) as [W EW]. destruct (wf_gen _ Sb) as (rb & cb & b & Eb).
  set (KK := (vI v * vkr v * vkc v)%nat) in *. set (N := (vI v * vR v * vC v)%nat). set (M := (vO v * oR v * oC v)%nat).
  assert (FW : forall W X, fwdConv F v fast (mgen (vO v) KK W) (lmem l) (mgen n N X) =
    Ok (mgen (n * oR v * oC v) KK (colAt v (img (vR v) (vC v) X)) : mat F, mgen n M (unimg (oR v) (oC v) (xcorr v W (img (vR v) (vC v) X))))).
  { intros. unfold N. rewrite (tens_img F n (vI v) (vR v) (vC v) X0). eapply eq_trans; [exact (conv_forward jk v fast n W0 (img (vR v) (vC v) X0) (lmem l) Hok Hm)|]. rewrite tens_unimg. reflexivity. }
  set (C := colAt v (img (vR v) (vC v) X)).
  set (lf := setNs (setMem l (mgen (n * oR v * oC v) KK C : mat F)) n).
  exists (vO v), KK, W, rb, cb, b, (fun W b X => unimg (oR v) (oC v) (xcorr v W (img (vR v) (vC v) X))), lf. do 2 (split; [assumption|]).
  split; [|split; [|split]].
  - intros out Ho. unfold lf. mem K. fstep (FW W X).
  - unfold lf. shape.
  - intros W' b' X' out Ho. eexists. mem K. fstep (FW W' X').
  - intros G gin Hg. set (G4 := img (oR v) (oC v) G).
    set (u := fun o i => G4 (i / oC v / oR v)%nat o ((i / oC v) mod oR v)%nat (i mod oC v)%nat).
    set (gw := fun o k => rsum (n * oR v * oC v) (fun i => u o i * C i k)). set (gcol := fun k i => rsum (vO v) (fun o => W o k * u o i)).
    destruct (col2im_adjoint jk v fast n gcol gin Hg) as (gi & E1 & E2).
    assert (EB : bwdConv F v fast (lfirst l) n (mgen (vO v) KK W) (mgen (n * oR v * oC v) KK C) (mgen n N X) (mgen n M G) gin =
      Ok (mgen (vO v) KK gw : mat F, if lfirst l then gin else mgen n N (fun i j => gi i j * cscale v))).
    { generalize (lfirst l). intro first. unfold bwdConv, M. change (mrows (mgen n (vO v * oR v * oC v) G)) with n. change (mcols (mgen n (vO v * oR v * oC v) G)) with (vO v * oR v * oC v)%nat.
      unfold assert_. rewrite Nat.eqb_refl. replace (vO v * oR v * oC v =? oR v * oC v * vO v)%nat with true by (symmetry; apply Nat.eqb_eq; ring). cbn [bind].
      rewrite (tens_img F n (vO v) (oR v) (oC v) G). rewrite (reshapeFromOut_gen F). cbn [bind].
      change (fun o i => img (oR v) (oC v) G (i / oC v / oR v)%nat o ((i / oC v) mod oR v)%nat (i mod oC v)%nat) with u.
      rewrite (mmul_gen F). cbn [bind].
      assert (EWg : mgen (vO v) KK (fun i j => fsum F (n * oR v * oC v) (fun l => fmul F (u i l) (C l j))) = mgen (vO v) KK gw).
      { apply mgen_ext. intros i j _ _. rewrite fsum_R. reflexivity. }
      rewrite EWg. change (mrows (mgen (vO v) KK gw)) with (vO v). change (mcols (mgen (vO v) KK gw)) with KK. change (mrows (mgen (vO v) KK W)) with (vO v). change (mcols (mgen (vO v) KK W)) with KK.
      rewrite !Nat.eqb_refl. cbn [bind]. destruct first; [reflexivity|].
      rewrite (mtranspose_gen F). cbn [bind]. rewrite (mmul_gen F). cbn [bind].
      assert (EG : mgen KK (n * oR v * oC v) (fun i j => fsum F (vO v) (fun l => fmul F (W l i) (u l j))) = mgen KK (n * oR v * oC v) gcol).
      { apply mgen_ext. intros i j _ _. rewrite fsum_R. reflexivity. }
      rewrite EG. unfold KK.
      assert (E1' : (if fast then col2imLUT F v n (mgen (vI v * vkr v * vkc v) (n * oR v * oC v) gcol) gin else col2im F v n (mgen (vI v * vkr v * vkc v) (n * oR v * oC v) gcol) gin)
        = Ok (mgen n N (fun i j => gi i j * cscale v))) by exact E1.
      rewrite E1'. cbn [bind]. change (mrows (mgen n N X)) with n. change (mcols (mgen n N X)) with N.
      change (mrows (mgen n N (fun i j => gi i j * cscale v))) with n. change (mcols (mgen n N (fun i j => gi i j * cscale v))) with N. rewrite !Nat.eqb_refl. reflexivity. }
    exists (setGW lf (mgen (vO v) KK gw : mat F)), (if lfirst l then gin else mgen n N (fun i j => gi i j * cscale v)), gi, gw, zz.
    unfold lf. split; [mem K; fstep EB|]. cbl. split; [mw|]. split; [auto|]. split.
    { intro Ef. rewrite Ef. eexists. split; [reflexivity|]. intros i j _ _. unfold cscale. field. apply not_0_INR. nia. }
    split; [intros s Es; inversion Es; eexists; split; [reflexivity|]; intros; ring|split; [none|]].
    intros Wc bc Xc t dW db dX E3 E4 E5 H1 H2 H3. eexists. split.
    + apply dcurve_unimg. apply (xcorr_curve v n Wc (fun x => img (vR v) (vC v) (Xc x)) t dW (img (vR v) (vC v) dX) H1). apply dcurve_img. exact H3.
    + unfold M. rewrite dot_unimg. fold G4. unfold zz. cbv beta. rewrite dot0l, E3, E5.
      transitivity (dot4 n (vO v) (oR v) (oC v) G4 (xcorr v W (img (vR v) (vC v) dX)) + dot4 n (vO v) (oR v) (oC v) G4 (xcorr v dW (img (vR v) (vC v) X))).
      * unfold dot4. rewrite <- rsum_plus. apply rsum_ext. intros s _. rewrite <- rsum_plus. apply rsum_ext. intros o _. rewrite <- rsum_plus. apply rsum_ext. intros r0 _. rewrite <- rsum_plus. apply rsum_ext. intros c _. rewrite Rplus_comm. apply Rmult_plus_distr_l.
      * rewrite Rplus_0_r. f_equal; [|rewrite dot_xcorr_w; reflexivity].
        rewrite dot_xcorr. unfold N. rewrite E2. apply sum6_ext. intros s r0 c h a b0 Hs Hr Hc Hh Ha Hb. unfold gcol, u, crow. f_equal. apply rsum_ext. intros o Ho.
        rewrite pix_h, pix_r, pix_c by auto. reflexivity.
Qed.

(** all together *)
Lemma contract_all : forall r (l : layer F) n k m X, (0 < n)%nat -> differentiable jk l n k m X -> contract r l n k m X (weightScale jk l n k) (biasScale jk l n k) (inputScale jk l).
Proof.
  intros r l n k m X Hn (Sw & Sb & Sm & H). unfold weightScale, biasScale, inputScale. destruct (lk l) as [] eqn:K; try contradiction.
  - destruct H. eapply c_dense; eauto.
  - eapply c_dot; eauto.
  - destruct H as (-> & ? & ?). apply c_bias; auto.
  - destruct H as (-> & ? & ?). apply c_gain; auto.
  - destruct H as (-> & ? & ? & ?). apply c_affine; auto.
  - destruct H as (-> & ? & ?). apply c_globalgain; auto.
  - destruct H as (-> & ? & ? & ?). apply c_globalbias; auto.
  - destruct H as (-> & ? & ? & ? & ? & ?). apply c_globalaffine; auto.
  - destruct H as (-> & -> & ? & ? & ?). apply c_channelbias; auto.
  - destruct a as [a|]; [|contradiction]. destruct H as (-> & ? & ?). eapply c_act; eauto.
  - destruct a1 as [a1|]; [|contradiction]. destruct a2 as [a2|]; [|contradiction]. destruct H as (-> & ? & ? & ? & ?). eapply c_gated; eauto.
  - destruct H as (-> & ?). apply c_crelu; auto.
  - destruct H as (-> & ? & ? & ? & ?). apply c_prelu; auto.
  - destruct H as (-> & ? & ?). eapply c_rrelu; eauto.
  - destruct H as (-> & ? & ? & ? & ? & ?). apply c_pelu; auto.
  - destruct H as (-> & ? & ? & ? & ?). apply c_terelu; auto.
  - destruct H as (-> & ?). eapply c_dropout; eauto.
  - subst. eapply c_noise; eauto.
  - subst. eapply c_noise; eauto.
  - destruct H as (-> & Hf & Hk & E & ?). assert (0 < k / fs)%nat by (destruct (k / fs)%nat; lia). remember (k / fs)%nat as f. rewrite E. apply c_tdbias; auto.
  - destruct H as (Hi & Ho & E & Em & ?). remember (k / fi)%nat as f. rewrite E, Em. apply c_tddot; auto.
  - destruct H as (Hi & Ho & Hk & E & Em & ? & ?). assert (0 < k / fi)%nat by (destruct (k / fi)%nat; lia). remember (k / fi)%nat as f. rewrite E, Em. apply c_tddense; auto.
  - destruct H as (-> & ->). apply c_avgpool; auto.
  - destruct H as (-> & ->). eapply c_globalavg; eauto.
  - destruct H as (-> & ->). eapply c_zeropad; eauto.
  - destruct H as (-> & -> & ? & ? & ? & ? & ?). eapply c_conv; eauto.
Qed.
End Contract.
