(* LayProofs8.v - time distributed layers: the input is n samples of f frames *)
From Coq Require Import List Arith Bool Lia Reals Lra ZArith QArith String.
From Coquelicot Require Import Coquelicot.
From Verif Require Import Base Scalar Mat SpecMat SpecReal RSum MatFacts MatProofs MatProofs2 MatProps MatLoops Scatter RDeriv Loss SpecLoss LayMat LayKit SpecLayer LayGrad LayCurve LayProofs1 LayProofs2 LayProofs4 LayProofs5.
Import ListNotations.
Local Open Scope nat_scope.

(* n x (f*m) seen as (f*n) x m *)
Definition frames {A} (f m : nat) (X : nat -> nat -> A) : nat -> nat -> A := fun r l => X (r / f) ((r mod f) * m + l).
Definition unframes {A} (f m : nat) (Y : nat -> nat -> A) : nat -> nat -> A := fun i c => Y (i * f + c / m) (c mod m).

Lemma frame_idx : forall n f m p, p < n * (f * m) ->
  p / m / f = p / (f * m) /\ (p / m) mod f * m + p mod m = p mod (f * m) /\ (p / (f * m)) * f + p mod (f * m) / m = p / m /\ (p mod (f * m)) mod m = p mod m.
Proof.
  intros n f m p Hp. assert (Hm : m <> 0) by (intro; subst; lia). assert (Hf : f <> 0) by (intro; subst; lia).
  assert (E1 : p / m / f = p / (f * m)) by (rewrite Nat.div_div by auto; f_equal; lia).
  assert (E2 : p mod (f * m) = p mod m + m * ((p / m) mod f)) by (rewrite (Nat.mul_comm f m); apply Nat.mod_mul_r; auto).
  split; [exact E1|]. split; [lia|].
  assert (L : p mod m < m) by (apply Nat.mod_upper_bound; auto). split.
  - rewrite E2. rewrite (Nat.add_comm (p mod m)), (Nat.mul_comm m). rewrite idx_div by auto. rewrite <- E1. apply idx_eq; auto.
  - rewrite E2. rewrite (Nat.add_comm (p mod m)), (Nat.mul_comm m). apply idx_mod; auto.
Qed.
Lemma view_frames : forall A (n f m : nat) (X : nat -> nat -> A), mkMat (f * n) m (mdata (mgen n (f * m) X)) = mgen (f * n) m (frames f m X).
Proof.
  intros A n f m X. rewrite (mgen_flat _ n (f * m) X), mgen_flat. unfold mflat. simpl mdata. replace (f * n * m) with (n * (f * m)) by lia. f_equal.
  apply map_ext_in. intros p Hp. apply in_seq in Hp. destruct (frame_idx n f m p ltac:(lia)) as (E1 & E2 & _). unfold frames. rewrite E1, E2. reflexivity.
Qed.
Lemma viewResize_frames : forall (F : FOps) n f m (X : nat -> nat -> F), viewResize F (mgen n (f * m) X) (f * n) m = Ok (mgen (f * n) m (frames f m X)).
Proof.
  intros. unfold viewResize, assert_. change (msize (mgen n (f * m) X)) with (n * (f * m)).
  replace (n * (f * m) =? f * n * m) with true by (symmetry; apply Nat.eqb_eq; lia). cbn [bind]. rewrite view_frames. reflexivity.
Qed.
Lemma resize_unframes : forall (F : FOps) n f m (Y : nat -> nat -> F), mresize F (mgen (f * n) m Y) n (f * m) = mgen n (f * m) (unframes f m Y).
Proof.
  intros. rewrite (mgen_flat _ (f * n) m Y), mresize_view by lia. rewrite mgen_flat. apply mflat_ext. intros p Hp.
  destruct (frame_idx n f m p Hp) as (_ & _ & E3 & E4). unfold unframes. rewrite E3, E4. reflexivity.
Qed.
Lemma unframes_frames : forall A (n f m : nat) (X : nat -> nat -> A) i c, i < n -> c < f * m -> unframes f m (frames f m X) i c = X i c.
Proof.
  intros A n f m X i c Hi Hc. unfold unframes, frames. assert (m <> 0) by (intro; subst; lia).
  rewrite idx_div by (apply Nat.div_lt_upper_bound; lia). rewrite idx_mod by (apply Nat.div_lt_upper_bound; lia). rewrite idx_eq by auto. reflexivity.
Qed.
Lemma ndiv_frames : forall f m, 0 < m -> ndiv (f * m) m = Ok f.
Proof. intros. unfold ndiv. replace (m =? 0) with false by (symmetry; apply Nat.eqb_neq; lia). rewrite Nat.div_mul by lia. reflexivity. Qed.

(** closed forms *)
Lemma fwdTDDot_gen : forall (F : FOps) n f fi fo W X, 0 < fi ->
  fwdTDDot F fi fo (mgen fi fo W) (mgen n (f * fi) X) =
  Ok (mgen n (f * fo) (unframes f fo (fun r j => fsum F fi (fun l => fmul F (frames f fi X r l) (W l j))))).
Proof.
  intros. unfold fwdTDDot. change (mcols (mgen n (f * fi) X)) with (f * fi). change (mrows (mgen n (f * fi) X)) with n. rewrite ndiv_frames by auto. cbn [bind].
  rewrite viewResize_frames. cbn [bind]. rewrite mmul_gen. cbn [bind]. rewrite resize_unframes. reflexivity.
Qed.
Lemma fwdTDDense_gen : forall (F : FOps) n f fi fo W b X, 0 < fi ->
  fwdTDDense F fi fo (mgen fi fo W) (mgen 1 fo b) (mgen n (f * fi) X) =
  Ok (mgen n (f * fo) (unframes f fo (fun r j => fadd F (fsum F fi (fun l => fmul F (frames f fi X r l) (W l j))) (b 0 j)))).
Proof.
  intros. unfold fwdTDDense. change (mcols (mgen n (f * fi) X)) with (f * fi). change (mrows (mgen n (f * fi) X)) with n. rewrite ndiv_frames by auto. cbn [bind].
  rewrite viewResize_frames. cbn [bind]. rewrite mmul_gen. cbn [bind]. rewrite rowWiseAdd_gen. cbn [bind]. rewrite resize_unframes. reflexivity.
Qed.
Lemma fwdTDBias_gen : forall (F : FOps) n f m b X, 0 < m ->
  fwdTDBias F m (mgen 1 m b) (mgen n (f * m) X) = Ok (mgen n (f * m) (unframes f m (fun r j => fadd F (frames f m X r j) (b 0 j)))).
Proof.
  intros. unfold fwdTDBias. change (msize (mgen n (f * m) X)) with (n * (f * m)). change (mcols (mgen n (f * m) X)) with (f * m). change (mrows (mgen n (f * m) X)) with n.
  replace (n * (f * m)) with ((f * n) * m) by lia. rewrite ndiv_frames by auto. cbn [bind]. rewrite viewResize_frames. cbn [bind]. rewrite rowWiseAdd_gen. cbn [bind].
  rewrite resize_unframes. reflexivity.
Qed.
Lemma bwdTDBias_gen : forall (F : FOps) first n f m G gin, 0 < m ->
  bwdTDBias F m first (mgen n (f * m) G) gin =
  Ok (mgen 1 m (fun _ j => fdiv F (fsum F (f * n) (fun r => frames f m G r j)) (fofN F (f * n))), if first then gin else mgen n (f * m) G).
Proof.
  intros. unfold bwdTDBias. change (msize (mgen n (f * m) G)) with (n * (f * m)). 
  replace (n * (f * m)) with ((f * n) * m) by lia. rewrite ndiv_frames by auto. cbn [bind]. rewrite viewResize_frames. cbn [bind]. rewrite colMean_gen. reflexivity.
Qed.
Lemma bwdTDDot_gen : forall (F : FOps) first n f fi fo W X G gin, 0 < fo ->
  bwdTDDot F fi fo first (mgen fi fo W) (mgen n (f * fi) X) (mgen n (f * fo) G) gin =
  Ok (mgen fi fo (fun l j => fmul F (fsum F (f * n) (fun r => fmul F (frames f fi X r l) (frames f fo G r j))) (fdiv F (f1 F) (fofN F n))),
      if first then gin else mgen n (f * fi) (unframes f fi (fun r l => fsum F fo (fun j => fmul F (frames f fo G r j) (W l j))))).
Proof.
  intros. unfold bwdTDDot. change (mcols (mgen n (f * fo) G)) with (f * fo). change (mrows (mgen n (f * fo) G)) with n. change (mrows (mgen n (f * fi) X)) with n.
  rewrite ndiv_frames by auto. cbn [bind]. rewrite !viewResize_frames. cbn [bind]. rewrite mtranspose_gen. cbn [bind]. rewrite mmul_gen. cbn [bind].
  unfold mscale. rewrite (@mapLoop_gen F). cbn [bind]. destruct first; cbn [bind]; auto. rewrite mtranspose_gen. cbn [bind]. rewrite mmul_gen. cbn [bind]. rewrite resize_unframes. reflexivity.
Qed.
Lemma bwdTDDense_gen : forall (F : FOps) first n f fi fo W X G gin, 0 < fo ->
  bwdTDDense F fi fo first (mgen fi fo W) (mgen n (f * fi) X) (mgen n (f * fo) G) gin =
  Ok (mgen fi fo (fun l j => fmul F (fsum F (f * n) (fun r => fmul F (frames f fi X r l) (frames f fo G r j))) (fdiv F (f1 F) (fofN F n))),
      mgen 1 fo (fun _ j => fdiv F (fsum F (f * n) (fun r => frames f fo G r j)) (fofN F (f * n))),
      if first then gin else mgen n (f * fi) (unframes f fi (fun r l => fsum F fo (fun j => fmul F (frames f fo G r j) (W l j))))).
Proof.
  intros. unfold bwdTDDense. change (mcols (mgen n (f * fo) G)) with (f * fo). change (mrows (mgen n (f * fo) G)) with n. change (mrows (mgen n (f * fi) X)) with n.
  rewrite ndiv_frames by auto. cbn [bind]. rewrite !viewResize_frames. cbn [bind]. rewrite mtranspose_gen. cbn [bind]. rewrite mmul_gen. cbn [bind].
  unfold mscale. rewrite (@mapLoop_gen F). cbn [bind]. rewrite colMean_gen. cbn [bind]. destruct first; cbn [bind]; auto. rewrite mtranspose_gen. cbn [bind]. rewrite mmul_gen. cbn [bind]. rewrite resize_unframes. reflexivity.
Qed.

(** the same map on every frame: output frame t of sample i only uses input frame t of sample i *)
Definition frameOf {A} (m t : nat) (x : nat -> A) : nat -> A := fun l => x (t * m + l).
Lemma frames_frameOf : forall A n f m (X : nat -> nat -> A) i t l, i < n -> t < f -> frames f m X (i * f + t) l = frameOf m t (X i) l.
Proof. intros. unfold frames, frameOf. rewrite idx_div, idx_mod by auto. reflexivity. Qed.

Lemma tddense_frames : forall (F : FOps) n f fi fo W b X, 0 < fi -> exists Y,
  fwdTDDense F fi fo (mgen fi fo W) (mgen 1 fo b) (mgen n (f * fi) X) = Ok (mgen n (f * fo) Y) /\
  forall i t, i < n -> t < f ->
    fwdDense F (mgen fi fo W) (mgen 1 fo b) (mgen 1 fi (fun _ => frameOf fi t (X i))) = Ok (mgen 1 fo (fun _ => frameOf fo t (Y i))).
Proof.
  intros F n f fi fo W b X Hfi. eexists. split; [apply fwdTDDense_gen; auto|]. intros i t Hi Ht.
  rewrite fwdDense_gen. apply Ok_eq, mgen_ext. intros r j _ Hj. unfold frameOf at 2, unframes. rewrite idx_div, idx_mod by auto. f_equal.
  apply fold_left_ext_in. intros a l _. rewrite (frames_frameOf F n f fi X i t l Hi Ht). reflexivity.
Qed.
Lemma tddot_frames : forall (F : FOps) n f fi fo W X, 0 < fi -> exists Y,
  fwdTDDot F fi fo (mgen fi fo W) (mgen n (f * fi) X) = Ok (mgen n (f * fo) Y) /\
  forall i t, i < n -> t < f ->
    fwdDot F (mgen fi fo W) (mgen 1 fi (fun _ => frameOf fi t (X i))) = Ok (mgen 1 fo (fun _ => frameOf fo t (Y i))).
Proof.
  intros F n f fi fo W X Hfi. eexists. split; [apply fwdTDDot_gen; auto|]. intros i t Hi Ht.
  rewrite fwdDot_gen. apply Ok_eq, mgen_ext. intros r j _ Hj. unfold frameOf at 2, unframes. rewrite idx_div, idx_mod by auto.
  apply fold_left_ext_in. intros a l _. rewrite (frames_frameOf F n f fi X i t l Hi Ht). reflexivity.
Qed.
Lemma tdbias_frames : forall (F : FOps) n f m b X, 0 < m -> exists Y,
  fwdTDBias F m (mgen 1 m b) (mgen n (f * m) X) = Ok (mgen n (f * m) Y) /\
  forall i t, i < n -> t < f -> forall j, j < m -> frameOf m t (Y i) j = fadd F (frameOf m t (X i) j) (b 0 j).
Proof.
  intros F n f m b X Hm. eexists. split; [apply fwdTDBias_gen; auto|]. intros i t Hi Ht j Hj.
  unfold frameOf at 1, unframes. rewrite idx_div, idx_mod by auto. rewrite (frames_frameOf F n f m X i t j Hi Ht). reflexivity.
Qed.

(** gradients *)
Local Open Scope R_scope.
Lemma dot_frames : forall n f m A B, dot n (f * m) A B = dot (f * n) m (frames f m A) (frames f m B).
Proof.
  intros. unfold dot. rewrite (Nat.mul_comm f n), rsum_flat. apply rsum_ext. intros i Hi. rewrite rsum_flat. apply rsum_ext. intros t Ht.
  apply rsum_ext. intros l Hl. unfold frames. rewrite idx_div, idx_mod by auto. reflexivity.
Qed.
Lemma frames_unframes : forall n f m (Y : nat -> nat -> R) r j, (r < f * n)%nat -> (j < m)%nat -> frames f m (unframes f m Y) r j = Y r j.
Proof.
  intros n f m Y r j Hr Hj. unfold frames, unframes. assert (f <> 0)%nat by (intro; subst; lia). rewrite idx_div, idx_mod by auto. rewrite idx_eq by auto. reflexivity.
Qed.
Lemma dcurve_frames : forall n f m X t dX, dcurve n (f * m) X t dX -> dcurve (f * n) m (fun x => frames f m (X x)) t (frames f m dX).
Proof.
  intros n f m X t dX H r l Hr Hl. unfold frames. assert (f <> 0)%nat by (intro; subst; lia). apply H.
  - apply Nat.div_lt_upper_bound; lia.
  - apply idx_lt; auto. apply Nat.mod_upper_bound; auto.
Qed.
Lemma dcurve_unframes : forall n f m Y t dY, dcurve (f * n) m Y t dY -> dcurve n (f * m) (fun x => unframes f m (Y x)) t (unframes f m dY).
Proof.
  intros n f m Y t dY H i c Hi Hc. unfold unframes. assert (m <> 0)%nat by (intro; subst; lia). apply H.
  - rewrite (Nat.mul_comm f n). apply idx_lt; auto. apply Nat.div_lt_upper_bound; lia.
  - apply Nat.mod_upper_bound; auto.
Qed.
(* a layer applied frame by frame *)
Lemma framed_curve : forall n f m (Y : R -> nat -> nat -> R) t dY (G : nat -> nat -> R), dcurve (f * n) m Y t dY ->
  dcurve n (f * m) (fun x => unframes f m (Y x)) t (unframes f m dY) /\ dot n (f * m) G (unframes f m dY) = dot (f * n) m (frames f m G) dY.
Proof.
  intros n f m Y t dY G H. split; [apply dcurve_unframes; auto|]. rewrite dot_frames. apply dot_ext. intros. rewrite frames_unframes with (n := n) by auto. reflexivity.
Qed.
Lemma dot_unframes : forall n f m A B, dot (f * n) m A (frames f m B) = dot n (f * m) (unframes f m A) B.
Proof. intros. rewrite dot_frames. apply dot_ext. intros. rewrite frames_unframes with (n := n) by auto. reflexivity. Qed.

Lemma frames_const_curve : forall n f m (X : nat -> nat -> R) t, dcurve (f * n) m (fun _ => frames f m X) t (fun _ _ => 0).
Proof. intros. apply dcurve_const. Qed.

Lemma tddense_curve : forall n f fi fo X W b t dX dW db (G : nat -> nat -> R),
  dcurve n (f * fi) X t dX -> dcurve fi fo W t dW -> dcurve 1 fo b t db ->
  exists dY, dcurve n (f * fo) (fun x => unframes f fo (fun r j => rsum fi (fun l => frames f fi (X x) r l * W x l j) + b x 0%nat j)) t dY /\
  dot n (f * fo) G dY = dot n (f * fi) (unframes f fi (fun r l => rsum fo (fun j => frames f fo G r j * W t l j))) dX
    + dot fi fo (fun l j => rsum (f * n) (fun r => frames f fi (X t) r l * frames f fo G r j)) dW
    + dot 1 fo (fun _ j => rsum (f * n) (fun r => frames f fo G r j)) db.
Proof.
  intros n f fi fo X W b t dX dW db G HX HW Hb.
  destruct (dense_curve (f * n) fi fo (fun x => frames f fi (X x)) W b t _ _ _ (frames f fo G) (dcurve_frames _ _ _ _ _ _ HX) HW Hb) as (dY & H1 & H2).
  destruct (framed_curve n f fo _ t dY G H1) as [H3 H4]. eexists. split; [exact H3|]. rewrite H4, H2, dot_unframes. reflexivity.
Qed.
Lemma tddense_gradients : forall jk first n f fi fo (W b X G : nat -> nat -> R) gin, (0 < n)%nat -> (0 < f)%nat -> (0 < fi)%nat -> (0 < fo)%nat ->
  exists gw gb gi,
    bwdTDDense (ROps jk) fi fo first (mgen fi fo W) (mgen n (f * fi) X) (mgen n (f * fo) G) gin = Ok (mgen fi fo gw, mgen 1 fo gb, if first then gin else mgen n (f * fi) gi) /\
    gradOf fi fo (INR n) (fun W' => obj G (fwdTDDense (ROps jk) fi fo (mgen fi fo W') (mgen 1 fo b) (mgen n (f * fi) X))) W gw /\
    gradOf 1 fo (INR n * INR f) (fun b' => obj G (fwdTDDense (ROps jk) fi fo (mgen fi fo W) (mgen 1 fo b') (mgen n (f * fi) X))) b gb /\
    gradOf n (f * fi) 1 (fun X' => obj G (fwdTDDense (ROps jk) fi fo (mgen fi fo W) (mgen 1 fo b) (mgen n (f * fi) X'))) X gi.
Proof.
  intros jk first n f fi fo W b X G gin Hn Hf Hfi Hfo. apply INR_pos in Hn, Hf.
  assert (FW : forall W b X, fwdTDDense (ROps jk) fi fo (mgen fi fo W) (mgen 1 fo b) (mgen n (f * fi) X) =
     Ok (mgen n (f * fo) (unframes f fo (fun r j => rsum fi (fun l => frames f fi X r l * W l j) + b 0%nat j)))).
  { intros. eapply eq_trans; [exact (fwdTDDense_gen (ROps jk) n f fi fo _ _ _ Hfi)|]. apply Ok_eq, mgen_ext. intros. unfold unframes. fs. reflexivity. }
  exists (fun l j => rsum (f * n) (fun r => frames f fi X r l * frames f fo G r j) * (1 / INR n)), (fun _ j => rsum (f * n) (fun r => frames f fo G r j) / (INR f * INR n)),
    (unframes f fi (fun r l => rsum fo (fun j => frames f fo G r j * W l j))).
  split; [|split; [|split]].
  - eapply eq_trans; [exact (bwdTDDense_gen (ROps jk) first n f fi fo W X G gin Hfo)|]. apply Ok_eq. f_equal; [f_equal|destruct first; auto]; apply mgen_ext; intros; unfold unframes; fs; auto.
    rewrite mult_INR. reflexivity.
  - apply gradOf_curve with (n := n) (m := (f * fo)%nat) (f := fun W => unframes f fo (fun r j => rsum fi (fun l => frames f fi X r l * W l j) + b 0%nat j)).
    + intro. apply FW.
    + intros a c Ha Hc. destruct (tddense_curve n f fi fo (fun _ => X) (fun x => upd2 W a c x) (fun _ => b) (W a c) _ _ _ G
        (dcurve_const _ _ _ _) (dcurve_cell _ _ _ _ _) (dcurve_const _ _ _ _)) as (dY & H1 & H2).
      exists dY. split; [exact H1|]. rewrite H2. at_cell. field. auto.
  - apply gradOf_curve with (n := n) (m := (f * fo)%nat) (f := fun b => unframes f fo (fun r j => rsum fi (fun l => frames f fi X r l * W l j) + b 0%nat j)).
    + intro. apply FW.
    + intros a c Ha Hc. destruct (tddense_curve n f fi fo (fun _ => X) (fun _ => W) (fun x => upd2 b a c x) (b a c) _ _ _ G
        (dcurve_const _ _ _ _) (dcurve_const _ _ _ _) (dcurve_cell _ _ _ _ _)) as (dY & H1 & H2).
      exists dY. split; [exact H1|]. rewrite H2. at_cell. field. auto.
  - apply gradOf_curve with (n := n) (m := (f * fo)%nat) (f := fun X => unframes f fo (fun r j => rsum fi (fun l => frames f fi X r l * W l j) + b 0%nat j)).
    + intro. apply FW.
    + intros a c Ha Hc. destruct (tddense_curve n f fi fo (fun x => upd2 X a c x) (fun _ => W) (fun _ => b) (X a c) _ _ _ G
        (dcurve_cell _ _ _ _ _) (dcurve_const _ _ _ _) (dcurve_const _ _ _ _)) as (dY & H1 & H2).
      exists dY. split; [exact H1|]. rewrite H2. at_cell. ring.
Qed.
Lemma tddot_curve : forall n f fi fo X W t dX dW (G : nat -> nat -> R),
  dcurve n (f * fi) X t dX -> dcurve fi fo W t dW ->
  exists dY, dcurve n (f * fo) (fun x => unframes f fo (fun r j => rsum fi (fun l => frames f fi (X x) r l * W x l j))) t dY /\
  dot n (f * fo) G dY = dot n (f * fi) (unframes f fi (fun r l => rsum fo (fun j => frames f fo G r j * W t l j))) dX
    + dot fi fo (fun l j => rsum (f * n) (fun r => frames f fi (X t) r l * frames f fo G r j)) dW.
Proof.
  intros n f fi fo X W t dX dW G HX HW.
  destruct (matmul_curve (f * n) fi fo (fun x => frames f fi (X x)) W t _ _ (frames f fo G) (dcurve_frames _ _ _ _ _ _ HX) HW) as (dY & H1 & H2).
  destruct (framed_curve n f fo _ t dY G H1) as [H3 H4]. eexists. split; [exact H3|]. rewrite H4, H2, dot_unframes. reflexivity.
Qed.
Lemma tddot_gradients : forall jk first n f fi fo (W X G : nat -> nat -> R) gin, (0 < n)%nat -> (0 < fi)%nat -> (0 < fo)%nat ->
  exists gw gi,
    bwdTDDot (ROps jk) fi fo first (mgen fi fo W) (mgen n (f * fi) X) (mgen n (f * fo) G) gin = Ok (mgen fi fo gw, if first then gin else mgen n (f * fi) gi) /\
    gradOf fi fo (INR n) (fun W' => obj G (fwdTDDot (ROps jk) fi fo (mgen fi fo W') (mgen n (f * fi) X))) W gw /\
    gradOf n (f * fi) 1 (fun X' => obj G (fwdTDDot (ROps jk) fi fo (mgen fi fo W) (mgen n (f * fi) X'))) X gi.
Proof.
  intros jk first n f fi fo W X G gin Hn Hfi Hfo. apply INR_pos in Hn.
  assert (FW : forall W X, fwdTDDot (ROps jk) fi fo (mgen fi fo W) (mgen n (f * fi) X) =
     Ok (mgen n (f * fo) (unframes f fo (fun r j => rsum fi (fun l => frames f fi X r l * W l j))))).
  { intros. eapply eq_trans; [exact (fwdTDDot_gen (ROps jk) n f fi fo _ _ Hfi)|]. apply Ok_eq, mgen_ext. intros. unfold unframes. fs. reflexivity. }
  exists (fun l j => rsum (f * n) (fun r => frames f fi X r l * frames f fo G r j) * (1 / INR n)),
    (unframes f fi (fun r l => rsum fo (fun j => frames f fo G r j * W l j))).
  split; [|split].
  - eapply eq_trans; [exact (bwdTDDot_gen (ROps jk) first n f fi fo W X G gin Hfo)|]. apply Ok_eq. f_equal; [|destruct first; auto]; apply mgen_ext; intros; unfold unframes; fs; auto.
  - apply gradOf_curve with (n := n) (m := (f * fo)%nat) (f := fun W => unframes f fo (fun r j => rsum fi (fun l => frames f fi X r l * W l j))).
    + intro. apply FW.
    + intros a c Ha Hc. destruct (tddot_curve n f fi fo (fun _ => X) (fun x => upd2 W a c x) (W a c) _ _ G
        (dcurve_const _ _ _ _) (dcurve_cell _ _ _ _ _)) as (dY & H1 & H2).
      exists dY. split; [exact H1|]. rewrite H2. at_cell. field. auto.
  - apply gradOf_curve with (n := n) (m := (f * fo)%nat) (f := fun X => unframes f fo (fun r j => rsum fi (fun l => frames f fi X r l * W l j))).
    + intro. apply FW.
    + intros a c Ha Hc. destruct (tddot_curve n f fi fo (fun x => upd2 X a c x) (fun _ => W) (X a c) _ _ G
        (dcurve_cell _ _ _ _ _) (dcurve_const _ _ _ _)) as (dY & H1 & H2).
      exists dY. split; [exact H1|]. rewrite H2. at_cell. ring.
Qed.
Lemma tdbias_curve : forall n f m X b t dX db (G : nat -> nat -> R),
  dcurve n (f * m) X t dX -> dcurve 1 m b t db ->
  exists dY, dcurve n (f * m) (fun x => unframes f m (fun r j => frames f m (X x) r j + b x 0%nat j)) t dY /\
  dot n (f * m) G dY = dot n (f * m) G dX + dot 1 m (fun _ j => rsum (f * n) (fun r => frames f m G r j)) db.
Proof.
  intros n f m X b t dX db G HX Hb.
  destruct (rowadd_curve (f * n) m (fun x => frames f m (X x)) b t _ _ (frames f m G) (dcurve_frames _ _ _ _ _ _ HX) Hb) as [H1 H2].
  destruct (framed_curve n f m _ t _ G H1) as [H3 H4]. eexists. split; [exact H3|]. rewrite H4, H2, <- dot_frames. reflexivity.
Qed.
Lemma tdbias_gradients : forall jk first n f m (b X G : nat -> nat -> R) gin, (0 < n)%nat -> (0 < f)%nat -> (0 < m)%nat ->
  exists gb gi,
    bwdTDBias (ROps jk) m first (mgen n (f * m) G) gin = Ok (mgen 1 m gb, if first then gin else mgen n (f * m) gi) /\
    gradOf 1 m (INR n * INR f) (fun b' => obj G (fwdTDBias (ROps jk) m (mgen 1 m b') (mgen n (f * m) X))) b gb /\
    gradOf n (f * m) 1 (fun X' => obj G (fwdTDBias (ROps jk) m (mgen 1 m b) (mgen n (f * m) X'))) X gi.
Proof.
  intros jk first n f m b X G gin Hn Hf Hm. apply INR_pos in Hn, Hf.
  exists (fun _ j => rsum (f * n) (fun r => frames f m G r j) / (INR f * INR n)), G. split; [|split].
  - eapply eq_trans; [exact (bwdTDBias_gen (ROps jk) first n f m G gin Hm)|]. apply Ok_eq. f_equal; apply mgen_ext; intros; fs; auto. rewrite mult_INR. reflexivity.
  - apply gradOf_curve with (n := n) (m := (f * m)%nat) (f := fun b => unframes f m (fun r j => frames f m X r j + b 0%nat j)).
    + intro. exact (fwdTDBias_gen (ROps jk) n f m _ _ Hm).
    + intros a c Ha Hc. destruct (tdbias_curve n f m (fun _ => X) (fun x => upd2 b a c x) (b a c) _ _ G (dcurve_const _ _ _ _) (dcurve_cell _ _ _ _ _)) as (dY & H1 & H2).
      exists dY. split; [exact H1|]. rewrite H2. at_cell. field. auto.
  - apply gradOf_curve with (n := n) (m := (f * m)%nat) (f := fun X => unframes f m (fun r j => frames f m X r j + b 0%nat j)).
    + intro. exact (fwdTDBias_gen (ROps jk) n f m _ _ Hm).
    + intros a c Ha Hc. destruct (tdbias_curve n f m (fun x => upd2 X a c x) (fun _ => b) (X a c) _ _ G (dcurve_cell _ _ _ _ _) (dcurve_const _ _ _ _)) as (dY & H1 & H2).
      exists dY. split; [exact H1|]. rewrite H2. at_cell. ring.
Qed.
