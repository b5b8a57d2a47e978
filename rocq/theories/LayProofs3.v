(* LayProofs3.v - ChannelBias, Activation, GatedActivation, CRelu, PRelu, RRelu, PELU, TERELU *)
From Coq Require Import List Arith Bool Lia Reals Lra ZArith QArith String.
From Coquelicot Require Import Coquelicot.
From Verif Require Import Base Scalar Mat SpecMat SpecReal RSum MatFacts MatProofs MatProofs2 MatProps MatLoops Scatter RDeriv Loss SpecLoss Act SpecAct ActProofs LayMat LayKit SpecLayer LayGrad LayCurve LayTens LayProofs1 LayProofs2.
Import ListNotations.
Local Open Scope R_scope.

(** ChannelBias *)
Lemma fwdChannelBias_gen : forall (F : FOps) n nH nR nC b X,
  fwdChannelBias F nR nC nH (mgen 1 nH b) (mgen n (nH * nR * nC) X) =
  Ok (mgen n (nH * nR * nC) (fun i j => fadd F (X i j) (b 0%nat (j / nC / nR)%nat))).
Proof.
  intros. unfold fwdChannelBias. change (mrows (mgen n (nH * nR * nC) X)) with n.
  rewrite gen_tens, channelWiseAdd_tens, tens_gen. apply Ok_eq, mgen_ext. intros i j Hi Hj.
  destruct (pix_inv nH nR nC j Hj) as (_ & _ & _ & E). rewrite E. reflexivity.
Qed.
Lemma bwdChannelBias_R : forall jk first n nH nR nC G gin, (0 < n)%nat ->
  bwdChannelBias (ROps jk) nR nC nH first (mgen n (nH * nR * nC) G) gin =
  Ok (mgen 1 nH (fun _ h => rsum n (fun s => rsum nR (fun r => rsum nC (fun c => G s (pix nR nC h r c)))) * (INR nR * INR nC) / INR n),
      if first then gin else mgen n (nH * nR * nC) G).
Proof.
  intros. apply INR_pos in H. unfold bwdChannelBias. change (mrows (mgen n (nH * nR * nC) G)) with n. rewrite gen_tens.
  rewrite channelWiseMean_tens. cbn [bind]. apply Ok_eq. f_equal. apply mgen_ext. intros. unfold chmean_factor. field. auto.
Qed.
Lemma channelbias_curve : forall n nH nR nC X b t dX db (G : nat -> nat -> R),
  dcurve n (nH * nR * nC) X t dX -> dcurve 1 nH b t db ->
  exists dY, dcurve n (nH * nR * nC) (fun x i j => X x i j + b x 0%nat (j / nC / nR)%nat) t dY /\
  dot n (nH * nR * nC) G dY = dot n (nH * nR * nC) G dX +
    dot 1 nH (fun _ h => rsum n (fun s => rsum nR (fun r => rsum nC (fun c => G s (pix nR nC h r c))))) db.
Proof.
  intros n nH nR nC X b t dX db G HX Hb. exists (fun i j => dX i j + db 0%nat (j / nC / nR)%nat). split.
  - intros i j Hi Hj. apply (d_add (fun x => X x i j) (fun x => b x 0%nat (j / nC / nR)%nat)); [apply HX; auto|].
    destruct (pix_inv nH nR nC j Hj) as (E & _). apply Hb; auto.
  - rewrite (dot_plus _ _ G dX (fun _ j => db 0%nat (j / nC / nR)%nat)). f_equal. unfold dot. simpl rsum at 3. rewrite Rplus_0_l.
    rewrite (rsum_ext n _ (fun i => rsum nH (fun h => rsum nR (fun r => rsum nC (fun c => G i (pix nR nC h r c))) * db 0%nat h))).
    + rewrite rsum_swap. apply rsum_ext. intros h Hh. rewrite rsum_scal_r. reflexivity.
    + intros i Hi. rewrite rsum_pix. apply rsum_ext. intros h Hh. rewrite <- rsum_scal_r. apply rsum_ext. intros r Hr. rewrite <- rsum_scal_r.
      apply rsum_ext. intros c Hc. rewrite pix_h by auto. reflexivity.
Qed.
Lemma channelbias_gradients : forall jk first n nH nR nC b X G gin, (0 < n)%nat -> (0 < nR)%nat -> (0 < nC)%nat ->
  exists gb gi,
    bwdChannelBias (ROps jk) nR nC nH first (mgen n (nH * nR * nC) G) gin = Ok (mgen 1 nH gb, if first then gin else mgen n (nH * nR * nC) gi) /\
    gradOf 1 nH (INR n / (INR nR * INR nC)) (fun b' => obj G (fwdChannelBias (ROps jk) nR nC nH (mgen 1 nH b') (mgen n (nH * nR * nC) X))) b gb /\
    gradOf n (nH * nR * nC) 1 (fun X' => obj G (fwdChannelBias (ROps jk) nR nC nH (mgen 1 nH b) (mgen n (nH * nR * nC) X'))) X gi.
Proof.
  intros jk first n nH nR nC b X G gin Hn HR HC. do 2 eexists. split; [apply bwdChannelBias_R; auto|]. apply INR_pos in Hn, HR, HC. split.
  - apply gradOf_curve with (n := n) (m := (nH * nR * nC)%nat) (f := fun b i j => X i j + b 0%nat (j / nC / nR)%nat).
    + intro. exact (fwdChannelBias_gen (ROps jk) n nH nR nC Q X).
    + intros a c Ha Hc. destruct (channelbias_curve n nH nR nC (fun _ => X) (fun x => upd2 b a c x) (b a c) _ _ G (dcurve_const _ _ _ _) (dcurve_cell _ _ _ _ _)) as (dY & H1 & H2).
      eexists. split; [exact H1|]. rewrite H2. at_cell. field. auto.
  - apply gradOf_curve with (n := n) (m := (nH * nR * nC)%nat) (f := fun X i j => X i j + b 0%nat (j / nC / nR)%nat).
    + intro. exact (fwdChannelBias_gen (ROps jk) n nH nR nC b Q).
    + intros a c Ha Hc. destruct (channelbias_curve n nH nR nC (fun x => upd2 X a c x) (fun _ => b) (X a c) _ _ G (dcurve_cell _ _ _ _ _) (dcurve_const _ _ _ _)) as (dY & H1 & H2).
      eexists. split; [exact H1|]. rewrite H2. at_cell. ring.
Qed.
Lemma channelbias_refuted : forall jk : R, exists n nH nR nC b X G gin gb gi, (0 < n)%nat /\ (0 < nR)%nat /\ (0 < nC)%nat /\
  bwdChannelBias (ROps jk) nR nC nH false (mgen n (nH * nR * nC) G) gin = Ok (mgen 1 nH gb, mgen n (nH * nR * nC) gi) /\
  ~ gradOf 1 nH (INR n) (fun b' => obj G (fwdChannelBias (ROps jk) nR nC nH (mgen 1 nH b') (mgen n (nH * nR * nC) X))) b gb.
Proof.
  intros jk. destruct (channelbias_gradients jk false 1 1 2 1 (fun _ _ => 0) (fun _ _ => 0) (fun _ _ => 1) (mempty (ROps jk)) ltac:(lia) ltac:(lia) ltac:(lia)) as (gb & gi & H1 & H2 & _).
  do 10 eexists. split; [|split; [|split; [|split; [exact H1|]]]]; try lia. intros H.
  specialize (H 0%nat 0%nat ltac:(lia) ltac:(lia)). specialize (H2 0%nat 0%nat ltac:(lia) ltac:(lia)).
  pose proof (partial_unique _ _ _ _ _ _ H H2) as E. rewrite bwdChannelBias_R in H1 by lia.
  assert (E1 : mgen 1 1 (fun _ h : nat => rsum 1 (fun s => rsum 2 (fun r => rsum 1 (fun c => 1))) * (INR 2 * INR 1) / INR 1) = mgen 1 1 gb)
    by (exact (f_equal (fun r => match r with Ok p => fst p | Err _ => mempty (ROps jk) end) H1)).
  apply (mgen_inj _ _ _ _ _ 0 0) in E1; try lia. rewrite <- E1 in E. simpl in E. lra.
Qed.

(** Activation *)
Lemma fwdAct_gen : forall (F : FOps) a n k X out, mwf out ->
  fwdAct F (Some a) (mgen n k X) out = Ok (mgen n k (fun i j => act_apply F a (X i j))).
Proof.
  intros F a n k X out Ho. unfold fwdAct, assert_. cbn [notNull bind]. cbv zeta. simpl mrows. simpl mcols.
  destruct (mresize_flat F out n k Ho) as [q ->]. change (msize (mflat n k q)) with (n * k)%nat.
  rewrite (mgen_flat _ n k X). rewrite (@flat_fill F n k _ (fun p => act_apply F a (X (p / k)%nat (p mod k)%nat))).
  - rewrite mgen_flat. reflexivity.
  - intros p q' Hp. rewrite mget1_flat by auto. cbn [bind actApply]. apply mset1_flat; auto.
Qed.
Lemma bwdAct_gen : forall (F : FOps) a first n k X G gin, mwf gin ->
  bwdAct F (Some a) first (mgen n k X) (mgen n k G) gin = Ok (if first then gin else mgen n k (fun i j => fmul F (act_deriv F a (X i j)) (G i j))).
Proof.
  intros F a first n k X G gin Ho. unfold bwdAct, assert_. simpl mrows. simpl mcols. rewrite !Nat.eqb_refl. cbn [notNull bind]. destruct first; auto. cbv zeta.
  destruct (mresize_flat F gin n k Ho) as [q ->]. change (msize (mflat n k q)) with (n * k)%nat.
  rewrite (mgen_flat _ n k X). rewrite (@flat_fill F n k _ (fun p => act_deriv F a (X (p / k)%nat (p mod k)%nat))).
  - cbn [bind]. rewrite <- (mgen_flat _ n k (fun i j => act_deriv F a (X i j))). apply mcwiseProduct_gen.
  - intros p q' Hp. rewrite mget1_flat by auto. cbn [bind actDeriv]. apply mset1_flat; auto.
Qed.
Lemma activation_gradient : forall jk a n k X G out gin, mwf out -> mwf gin -> ~ odd_derivative a ->
  (forall i j, (i < n)%nat -> (j < k)%nat -> ~ In (X i j) (corners a)) ->
  exists gi, bwdAct (ROps jk) (Some a) false (mgen n k X) (mgen n k G) gin = Ok (mgen n k gi) /\
  gradOf n k 1 (fun X' => obj G (fwdAct (ROps jk) (Some a) (mgen n k X') out)) X gi.
Proof.
  intros jk a n k X G out gin Ho Hg Hod Hc. eexists. split; [exact (bwdAct_gen (ROps jk) a false n k X G gin Hg)|].
  apply gradOf_curve with (n := n) (m := k) (f := fun X i j => act_apply (ROps jk) a (X i j)).
  - intro. exact (fwdAct_gen (ROps jk) a n k Q out Ho).
  - intros b c Hb Hc'. destruct (cell_curve n k (fun x => upd2 X b c x) (X b c) _ (fun _ _ => act_apply (ROps jk) a) (fun i j => act_deriv (ROps jk) a (X i j)) G (dcurve_cell _ _ _ _ _)) as (dY & H1 & H2).
    + intros i j Hi Hj. rewrite upd2_same. apply act_derivative; auto.
    + exists dY. split; [exact H1|]. rewrite H2. at_cell. simpl fmul. ring.
Qed.
