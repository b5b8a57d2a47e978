(* LayProofs6.v - Dropout, noise, Softmax, Softmin *)
From Coq Require Import List Arith Bool Lia Reals Lra ZArith QArith String.
From Coquelicot Require Import Coquelicot.
From Verif Require Import Base Scalar Mat SpecMat SpecReal RSum MatFacts MatProofs MatProofs2 MatProps MatLoops Scatter RDeriv Loss SpecLoss LayMat LayKit SpecLayer LayGrad LayCurve LayTens LayProofs1 LayProofs2 LayProofs4 LayProofs5.
Import ListNotations.
Local Open Scope R_scope.

(** Dropout *)
Lemma dropout_inference : forall (F : FOps) rate g mask mIn, fwdDropout F false rate g mask mIn = Ok (mask, mIn).
Proof. reflexivity. Qed.
Lemma gaussiandropout_inference : forall (F : FOps) g mask mIn, fwdGaussianDropout F false g mask mIn = Ok (mask, mIn).
Proof. reflexivity. Qed.
Lemma noise_inference : forall (F : FOps) noise g mIn, fwdNoise F false noise g mIn = Ok mIn.
Proof. reflexivity. Qed.
Lemma dropout_rate0 : forall jk train g mask mIn, fwdDropout (ROps jk) train 0 g mask mIn = Ok (mask, mIn).
Proof. intros. unfold fwdDropout. simpl. unfold Reqb. destruct (Req_EM_T 0 0); [|lra]. rewrite andb_false_r. reflexivity. Qed.

Lemma Rtrunc_pos_bounds : forall x, 0 <= x -> (IZR (Rtrunc x) <= x < IZR (Rtrunc x) + 1) /\ (0 <= Rtrunc x)%Z.
Proof.
  intros x Hx. unfold Rtrunc. destruct (Rlt_dec x 0); [lra|]. unfold Int_part. pose proof (archimed x) as [A B].
  assert (E : IZR (up x - 1) <= x < IZR (up x - 1) + 1) by (rewrite minus_IZR; lra). split; [exact E|].
  assert (IZR (-1) < IZR (up x - 1)) by (rewrite minus_IZR in *; lra). apply lt_IZR in H. lia.
Qed.

Lemma bernoulliLimit_R : forall jk p, 0 <= p <= 1 -> bernoulliLimit (ROps jk) p = Ok (Rtrunc (p * 65536)).
Proof.
  intros jk p Hp. unfold bernoulliLimit, toInt. simpl ftoZ. cbn [bind]. change (fmul (ROps jk) p (fofZ (ROps jk) 65536)) with (p * 65536).
  assert (0 <= p * 65536) by lra. destruct (Rtrunc_pos_bounds _ H) as [[E1 E2] E3].
  assert (Rtrunc (p * 65536) <= 65536)%Z by (apply le_IZR; lra).
  replace ((-2147483648 <=? Rtrunc (p * 65536)) && (Rtrunc (p * 65536) <=? 2147483647))%Z with true.
  - rewrite Z.mod_small by lia. reflexivity.
  - symmetry. apply andb_true_iff. split; apply Z.leb_le; lia.
Qed.

Definition keep (rate : R) (g : nat -> Z) (k i j : nat) : R :=
  if (g (i * k + j)%nat mod 65536 <? Rtrunc ((1 - rate) * 65536))%Z then / (1 - rate) else 0.
Lemma fwdDropout_R : forall jk rate g mask n k X, 0 < rate < 1 -> mwf mask ->
  fwdDropout (ROps jk) true rate g mask (mgen n k X) = Ok (mgen n k (keep rate g k), mgen n k (fun i j => X i j * keep rate g k i j)).
Proof.
  intros jk rate g mask n k X Hr Hm. unfold fwdDropout. simpl feq. simpl f0. unfold Reqb. destruct (Req_EM_T rate 0); [lra|]. cbn [negb andb].
  change (mcols (mgen n k X)) with k. change (mrows (mgen n k X)) with n. destruct (mresize_flat (ROps jk) mask n k Hm) as [q ->].
  unfold setQuickBernoulli. simpl fsub. simpl f1. rewrite bernoulliLimit_R by lra. cbn [bind]. rewrite (bernoulli_cells (ROps jk)). cbn [bind].
  unfold mscale. rewrite (@mapLoop_flat R). cbn [bind]. simpl fdiv. simpl fmul. simpl f1. simpl f0.
  assert (E : mflat n k (fun p => (if (g p mod 65536 <? Rtrunc ((1 - rate) * 65536))%Z then 1 else 0) * (1 / (1 - rate))) = mgen n k (keep rate g k)).
  { rewrite mgen_flat. apply mflat_ext. intros p Hp. unfold keep. rewrite idx_eq by (intro; subst; lia). destruct (g p mod 65536 <? Rtrunc ((1 - rate) * 65536))%Z; field; lra. }
  eapply eq_trans; [exact (f_equal (fun m => o <- mcwiseProduct (ROps jk) (mgen n k X) m ;; Ok (m, o)) E)|].
  rewrite (mcwiseProduct_gen (ROps jk)). reflexivity.
Qed.
Lemma bwdDropout_gen : forall jk rate M n k G gin, rate <> 0 ->
  bwdDropout (ROps jk) false rate (mgen n k M) (mgen n k G) gin = Ok (mgen n k (fun i j => G i j * M i j)).
Proof.
  intros jk rate M n k G gin Hr. unfold bwdDropout. simpl feq. simpl f0. unfold Reqb. destruct (Req_EM_T rate 0); [lra|]. cbn [negb].
  exact (mcwiseProduct_gen (ROps jk) n k G M).
Qed.
Lemma dropout_training : forall jk rate g mask n k X G gin, 0 < rate < 1 -> mwf mask ->
  exists M, fwdDropout (ROps jk) true rate g mask (mgen n k X) = Ok (mgen n k M, mgen n k (fun i j => X i j * M i j)) /\
  (forall i j, M i j = 0 \/ M i j = / (1 - rate)) /\
  bwdDropout (ROps jk) false rate (mgen n k M) (mgen n k G) gin = Ok (mgen n k (fun i j => G i j * M i j)) /\
  gradOf n k 1 (fun X' => obj G (out_ (fwdDropout (ROps jk) true rate g mask (mgen n k X')))) X (fun i j => G i j * M i j).
Proof.
  intros jk rate g mask n k X G gin Hr Hm. exists (keep rate g k). split; [apply fwdDropout_R; auto|]. split; [|split].
  - intros. unfold keep. destruct (_ <? _)%Z; auto.
  - apply bwdDropout_gen. lra.
  - apply gradOf_curve with (n := n) (m := k) (f := fun X i j => X i j * keep rate g k i j).
    + intro. rewrite fwdDropout_R by auto. reflexivity.
    + intros a c Ha Hc.
      destruct (cell_curve n k (fun x => upd2 X a c x) (X a c) _ (fun i j x => x * keep rate g k i j) (fun i j => keep rate g k i j) G (dcurve_cell _ _ _ _ _)) as (dY & H1 & H2).
      * intros i j Hi Hj. eapply is_derive_eq; [apply (d_mul_const_r (keep rate g k i j) (fun x => x)); apply is_derive_id|]. unfold one; simpl; ring.
      * exists dY. split; [exact H1|]. rewrite H2. at_cell. ring.
Qed.
(* the mask depends only on the draws: a kept cell is one whose 16 low bits are below the limit *)

(** noise *)
Lemma noise_training : forall jk noise g n k X G gin, 0 < noise ->
  fwdNoise (ROps jk) true noise g (mgen n k X) = Ok (mgen n k (fun i j => X i j + g (i * k + j)%nat)) /\
  bwdPass (ROps jk) false (mgen n k G) gin = Ok (mgen n k G) /\
  gradOf n k 1 (fun X' => obj G (fwdNoise (ROps jk) true noise g (mgen n k X'))) X G.
Proof.
  intros jk noise g n k X G gin Hn.
  assert (E : forall X, fwdNoise (ROps jk) true noise g (mgen n k X) = Ok (mgen n k (fun i j => X i j + g (i * k + j)%nat))).
  { clear X. intro X. unfold fwdNoise. simpl flt. simpl f0. unfold Rltb. destruct (Rlt_dec 0 noise); [|lra]. cbn [andb].
    change (msize (mgen n k X)) with (n * k)%nat. rewrite (mgen_flat _ n k X).
    rewrite (@flat_loop R n k _ (fun p x => x + g p)).
    - rewrite mgen_flat. apply Ok_eq, mflat_ext. intros p Hp. rewrite idx_eq by (intro; subst; lia). reflexivity.
    - intros p q Hp. rewrite (mget1_flat R) by auto. cbn [bind]. rewrite (mset1_flat R) by auto. reflexivity. }
  split; [apply E|]. split; [reflexivity|].
  apply gradOf_curve with (n := n) (m := k) (f := fun X i j => X i j + g (i * k + j)%nat).
  - exact E.
  - intros a c Ha Hc.
    destruct (cell_curve n k (fun x => upd2 X a c x) (X a c) _ (fun i j x => x + g (i * k + j)%nat) (fun i j => 1) G (dcurve_cell _ _ _ _ _)) as (dY & H1 & H2).
    + intros i j Hi Hj. apply (d_add_const_r (g (i * k + j)%nat) (fun x => x)). apply (is_derive_id (upd2 X a c (X a c) i j : R)).
    + exists dY. split; [exact H1|]. rewrite H2. at_cell. ring.
Qed.

(** GaussianDropout: in training the mask is built for rows*cols columns, so more than one row trips an assertion *)
Lemma gaussian_fill : forall (F : FOps) (g : nat -> F) m c, mwf m ->
  forN c (fun i k => mset2 k 0 i (g i)) (mresize F m 1 c) = Ok (mgen 1 c (fun _ j => g j)).
Proof.
  intros F g m c Hm. destruct (mresize_gen F m 1 c Hm) as [q ->].
  rewrite (@colmap F 1 c _ (fun j _ _ => g j)); auto. intros j q' Hj. rewrite mset2_gen by lia. apply Ok_eq, mgen_ext. intros a b Ha Hb.
  unfold upd2. replace a with 0%nat by lia. reflexivity.
Qed.
Lemma gaussiandropout_one_row : forall jk g mask k X, mwf mask ->
  fwdGaussianDropout (ROps jk) true g mask (mgen 1 k X) = Ok (mgen 1 k (fun _ j => g j), mgen 1 k (fun _ j => X 0%nat j * g j)).
Proof.
  intros jk g mask k X Hm. unfold fwdGaussianDropout. cbv zeta. change (msize (mgen 1 k X)) with (1 * k)%nat. replace (1 * k)%nat with k by lia.
  replace (msize (mresize (ROps jk) mask 1 k)) with (1 * k)%nat by (destruct (mresize_gen (ROps jk) mask 1 k Hm) as [q ->]; reflexivity). replace (1 * k)%nat with k by lia.
  rewrite (gaussian_fill (ROps jk) g mask k Hm). cbn [bind]. rewrite (mgen_flat _ 1 k (fun _ j => g j)), (masDiagonal_flat (ROps jk)). cbn [bind].
  change (1 * k)%nat with (k + 0)%nat. rewrite Nat.add_0_r. rewrite (mmul_gen (ROps jk)). cbn [bind]. apply Ok_eq. f_equal. apply mgen_ext. intros i j Hi Hj. fs.
  rewrite (rsum_single k j) by (auto; intros l Hl Hlj; apply Nat.eqb_neq in Hlj; rewrite ?Hlj, ?(Nat.eqb_sym j l), ?Hlj; simpl; ring).
  rewrite Nat.eqb_refl, Nat.mod_small by auto. replace i with 0%nat by lia. reflexivity.
Qed.
Lemma gaussiandropout_many_rows : forall jk g mask n k X, mwf mask -> (1 < n)%nat -> (0 < k)%nat ->
  fwdGaussianDropout (ROps jk) true g mask (mgen n k X) = Err EAssert.
Proof.
  intros jk g mask n k X Hm Hn Hk. unfold fwdGaussianDropout. cbv zeta. change (msize (mgen n k X)) with (n * k)%nat.
  replace (msize (mresize (ROps jk) mask 1 (n * k))) with (n * k)%nat by (destruct (mresize_gen (ROps jk) mask 1 (n * k) Hm) as [q ->]; unfold msize; simpl; lia).
  rewrite (gaussian_fill (ROps jk) g mask (n * k) Hm). cbn [bind]. rewrite (mgen_flat _ 1 (n * k) (fun _ j => g j)), (masDiagonal_flat (ROps jk)). cbn [bind].
  unfold mmul, assert_. change (mcols (mgen n k X)) with k. 
  match goal with |- context[mrows (mgen ?r ?c ?f)] => change (mrows (mgen r c f)) with r end.
  replace (k =? 1 * (n * k))%nat with false by (symmetry; apply Nat.eqb_neq; nia). reflexivity.
Qed.
