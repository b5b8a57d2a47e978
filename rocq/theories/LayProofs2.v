(* LayProofs2.v - gradients of Dense, Dot, Bias, Gain, Affine, Global*, ChannelBias *)
From Coq Require Import List Arith Bool Lia Reals Lra ZArith QArith String.
From Coquelicot Require Import Coquelicot.
From Verif Require Import Base Scalar Mat SpecMat SpecReal RSum MatFacts MatProofs MatProofs2 MatProps MatLoops Scatter RDeriv Loss SpecLoss LayMat LayKit SpecLayer LayGrad LayCurve LayProofs1.
Import ListNotations.
Local Open Scope R_scope.

Lemma INR_pos : forall n, (0 < n)%nat -> INR n <> 0.
Proof. intros n H. apply lt_INR in H. simpl in H. lra. Qed.

Ltac fs := repeat rewrite fsum_R; repeat rewrite fofN_R; simpl fmul; simpl fadd; simpl fdiv; simpl f1; simpl f0; simpl fsub.

(* real closed forms *)
Lemma fwdDense_R : forall jk n k m W b X,
  fwdDense (ROps jk) (mgen k m W) (mgen 1 m b) (mgen n k X) = Ok (mgen n m (fun i j => rsum k (fun l => X i l * W l j) + b 0%nat j)).
Proof. intros. eapply eq_trans; [exact (fwdDense_gen (ROps jk) n k m W b X)|]. apply Ok_eq, mgen_ext. intros. fs. reflexivity. Qed.
Lemma fwdDot_R : forall jk n k m W X,
  fwdDot (ROps jk) (mgen k m W) (mgen n k X) = Ok (mgen n m (fun i j => rsum k (fun l => X i l * W l j))).
Proof. intros. eapply eq_trans; [exact (fwdDot_gen (ROps jk) n k m W X)|]. apply Ok_eq, mgen_ext. intros. fs. reflexivity. Qed.
Lemma bwdDense_R : forall jk first n k m W X G gin,
  bwdDense (ROps jk) first (mgen k m W) (mgen n k X) (mgen n m G) gin =
  Ok (mgen k m (fun l j => rsum n (fun i => X i l * G i j) * (1 / INR n)),
      mgen 1 m (fun _ j => rsum n (fun i => G i j) / INR n),
      if first then gin else mgen n k (fun i l => rsum m (fun j => G i j * W l j))).
Proof.
  intros. eapply eq_trans; [exact (bwdDense_gen (ROps jk) first n k m W X G gin)|].
  apply Ok_eq. f_equal; [f_equal|destruct first; auto]; apply mgen_ext; intros; fs; reflexivity.
Qed.
Lemma bwdDot_R : forall jk first n k m W X G gin,
  bwdDot (ROps jk) first (mgen k m W) (mgen n k X) (mgen n m G) gin =
  Ok (mgen k m (fun l j => rsum n (fun i => X i l * G i j) * (1 / INR n)),
      if first then gin else mgen n k (fun i l => rsum m (fun j => G i j * W l j))).
Proof.
  intros. eapply eq_trans; [exact (bwdDot_gen (ROps jk) first n k m W X G gin)|].
  apply Ok_eq. f_equal; [|destruct first; auto]; apply mgen_ext; intros; fs; reflexivity.
Qed.

(* curves through Dense *)
Lemma dense_curve : forall n k m X W b t dX dW db (G : nat -> nat -> R),
  dcurve n k X t dX -> dcurve k m W t dW -> dcurve 1 m b t db ->
  exists dY, dcurve n m (fun x i j => rsum k (fun l => X x i l * W x l j) + b x 0%nat j) t dY /\
  dot n m G dY = dot n k (fun i l => rsum m (fun j => G i j * W t l j)) dX + dot k m (fun l j => rsum n (fun i => X t i l * G i j)) dW
               + dot 1 m (fun _ j => rsum n (fun i => G i j)) db.
Proof.
  intros n k m X W b t dX dW db G HX HW Hb. destruct (matmul_curve n k m X W t dX dW G HX HW) as (dY & H1 & H2).
  destruct (rowadd_curve n m _ b t dY db G H1 Hb) as [H3 H4].
  exists (fun i j => dY i j + db 0%nat j). split; [exact H3|]. rewrite H4, H2. ring.
Qed.

Ltac at_cell := rewrite ?upd2_same, ?dot_zero, ?dot_delta by assumption.

Lemma dense_gradients : forall jk first n k m W b X G gin, (0 < n)%nat ->
  exists gw gb gi,
    bwdDense (ROps jk) first (mgen k m W) (mgen n k X) (mgen n m G) gin = Ok (mgen k m gw, mgen 1 m gb, if first then gin else mgen n k gi) /\
    gradOf k m (INR n) (fun W' => obj G (fwdDense (ROps jk) (mgen k m W') (mgen 1 m b) (mgen n k X))) W gw /\
    gradOf 1 m (INR n) (fun b' => obj G (fwdDense (ROps jk) (mgen k m W) (mgen 1 m b') (mgen n k X))) b gb /\
    gradOf n k 1 (fun X' => obj G (fwdDense (ROps jk) (mgen k m W) (mgen 1 m b) (mgen n k X'))) X gi.
Proof.
  intros jk first n k m W b X G gin Hn. apply INR_pos in Hn. do 3 eexists. split; [apply bwdDense_R|]. split; [|split].
  - apply gradOf_curve with (n := n) (m := m) (f := fun W i j => rsum k (fun l => X i l * W l j) + b 0%nat j).
    + intro. apply fwdDense_R.
    + intros a c Ha Hc. destruct (dense_curve n k m (fun _ => X) (fun x => upd2 W a c x) (fun _ => b) (W a c) _ _ _ G
        (dcurve_const _ _ _ _) (dcurve_cell _ _ _ _ _) (dcurve_const _ _ _ _)) as (dY & H1 & H2).
      exists dY. split; [exact H1|]. rewrite H2. at_cell. field. auto.
  - apply gradOf_curve with (n := n) (m := m) (f := fun b i j => rsum k (fun l => X i l * W l j) + b 0%nat j).
    + intro. apply fwdDense_R.
    + intros a c Ha Hc. destruct (dense_curve n k m (fun _ => X) (fun _ => W) (fun x => upd2 b a c x) (b a c) _ _ _ G
        (dcurve_const _ _ _ _) (dcurve_const _ _ _ _) (dcurve_cell _ _ _ _ _)) as (dY & H1 & H2).
      exists dY. split; [exact H1|]. rewrite H2. at_cell. field. auto.
  - apply gradOf_curve with (n := n) (m := m) (f := fun X i j => rsum k (fun l => X i l * W l j) + b 0%nat j).
    + intro. apply fwdDense_R.
    + intros a c Ha Hc. destruct (dense_curve n k m (fun x => upd2 X a c x) (fun _ => W) (fun _ => b) (X a c) _ _ _ G
        (dcurve_cell _ _ _ _ _) (dcurve_const _ _ _ _) (dcurve_const _ _ _ _)) as (dY & H1 & H2).
      exists dY. split; [exact H1|]. rewrite H2. at_cell. ring.
Qed.

Lemma dot_gradients : forall jk first n k m W X G gin, (0 < n)%nat ->
  exists gw gi,
    bwdDot (ROps jk) first (mgen k m W) (mgen n k X) (mgen n m G) gin = Ok (mgen k m gw, if first then gin else mgen n k gi) /\
    gradOf k m (INR n) (fun W' => obj G (fwdDot (ROps jk) (mgen k m W') (mgen n k X))) W gw /\
    gradOf n k 1 (fun X' => obj G (fwdDot (ROps jk) (mgen k m W) (mgen n k X'))) X gi.
Proof.
  intros jk first n k m W X G gin Hn. apply INR_pos in Hn. do 2 eexists. split; [apply bwdDot_R|]. split.
  - apply gradOf_curve with (n := n) (m := m) (f := fun W i j => rsum k (fun l => X i l * W l j)).
    + intro. apply fwdDot_R.
    + intros a c Ha Hc. destruct (matmul_curve n k m (fun _ => X) (fun x => upd2 W a c x) (W a c) _ _ G
        (dcurve_const _ _ _ _) (dcurve_cell _ _ _ _ _)) as (dY & H1 & H2).
      exists dY. split; [exact H1|]. rewrite H2. at_cell. field. auto.
  - apply gradOf_curve with (n := n) (m := m) (f := fun X i j => rsum k (fun l => X i l * W l j)).
    + intro. apply fwdDot_R.
    + intros a c Ha Hc. destruct (matmul_curve n k m (fun x => upd2 X a c x) (fun _ => W) (X a c) _ _ G
        (dcurve_cell _ _ _ _ _) (dcurve_const _ _ _ _)) as (dY & H1 & H2).
      exists dY. split; [exact H1|]. rewrite H2. at_cell. ring.
Qed.

(** Bias *)
Lemma fwdBias_R : forall jk name g n k b X, (0 < k)%nat ->
  out_ (fwdBias (ROps jk) name g (mgen 1 k b) (mgen n k X)) = Ok (mgen n k (fun i j => X i j + b 0%nat j)).
Proof. intros. unfold out_. rewrite (fwdBias_gen (ROps jk)) by auto. reflexivity. Qed.
Lemma bwdBias_R : forall jk first n k G gin,
  bwdBias (ROps jk) first (mgen n k G) gin = Ok (mgen 1 k (fun _ j => rsum n (fun i => G i j) / INR n), if first then gin else mgen n k G).
Proof.
  intros. eapply eq_trans; [exact (bwdBias_gen (ROps jk) first n k G gin)|].
  apply Ok_eq. f_equal. apply mgen_ext; intros; fs; reflexivity.
Qed.
Lemma bias_gradients : forall jk name g first n k b X G gin, (0 < n)%nat -> (0 < k)%nat ->
  exists gb gi,
    bwdBias (ROps jk) first (mgen n k G) gin = Ok (mgen 1 k gb, if first then gin else mgen n k gi) /\
    gradOf 1 k (INR n) (fun b' => obj G (out_ (fwdBias (ROps jk) name g (mgen 1 k b') (mgen n k X)))) b gb /\
    gradOf n k 1 (fun X' => obj G (out_ (fwdBias (ROps jk) name g (mgen 1 k b) (mgen n k X')))) X gi.
Proof.
  intros jk name g first n k b X G gin Hn Hk. apply INR_pos in Hn. do 2 eexists. split; [apply bwdBias_R|]. split.
  - apply gradOf_curve with (n := n) (m := k) (f := fun b i j => X i j + b 0%nat j).
    + intro. apply fwdBias_R; auto.
    + intros a c Ha Hc. destruct (rowadd_curve n k (fun _ => X) (fun x => upd2 b a c x) (b a c) _ _ G (dcurve_const _ _ _ _) (dcurve_cell _ _ _ _ _)) as [H1 H2].
      eexists. split; [exact H1|]. rewrite H2. at_cell. field. auto.
  - apply gradOf_curve with (n := n) (m := k) (f := fun X i j => X i j + b 0%nat j).
    + intro. apply fwdBias_R; auto.
    + intros a c Ha Hc. destruct (rowadd_curve n k (fun x => upd2 X a c x) (fun _ => b) (X a c) _ _ G (dcurve_cell _ _ _ _ _) (dcurve_const _ _ _ _)) as [H1 H2].
      eexists. split; [exact H1|]. rewrite H2. at_cell. ring.
Qed.

(** Gain, Affine *)
Definition gainGrad (n k : nat) (X G : nat -> nat -> R) : nat -> nat -> R :=
  fun _ j => rsum k (fun l => rsum n (fun i => X i l * G i j)) / INR k.

Lemma fwdGain_R : forall jk n k w X, (0 < k)%nat ->
  out_ (fwdGain (ROps jk) (mgen 1 k w) (mgen n k X)) = Ok (mgen n k (fun i j => X i j * w 0%nat j)).
Proof. intros. unfold out_. rewrite (fwdGain_gen (ROps jk)) by auto. reflexivity. Qed.
Lemma bwdGain_R : forall jk first n k w X G gin,
  bwdGain (ROps jk) first (mgen 1 k w) (mgen n k X) (mgen n k G) gin =
  Ok (mgen 1 k (gainGrad n k X G), if first then gin else mgen n k (fun i j => G i j * w 0%nat j)).
Proof.
  intros. eapply eq_trans; [exact (bwdGain_gen (ROps jk) first n k w X G gin)|].
  apply Ok_eq. f_equal. apply mgen_ext; intros; fs. unfold gainGrad. f_equal. apply rsum_ext; intros. fs. reflexivity.
Qed.
Lemma fwdAffine_R : forall jk n k w b X out, (0 < k)%nat -> mwf out ->
  out_ (fwdAffine (ROps jk) (mgen 1 k w) (mgen 1 k b) (mgen n k X) out) = Ok (mgen n k (fun i j => X i j * w 0%nat j + b 0%nat j)).
Proof. intros. unfold out_. rewrite (fwdAffine_gen (ROps jk)) by auto. reflexivity. Qed.
Lemma bwdAffine_R : forall jk first n k w X G gin,
  bwdAffine (ROps jk) first (mgen 1 k w) (mgen n k X) (mgen n k G) gin =
  Ok (mgen 1 k (gainGrad n k X G), mgen 1 k (fun _ j => rsum n (fun i => G i j) / INR n), if first then gin else mgen n k (fun i j => G i j * w 0%nat j)).
Proof.
  intros. eapply eq_trans; [exact (bwdAffine_gen (ROps jk) first n k w X G gin)|].
  apply Ok_eq. f_equal. f_equal; apply mgen_ext; intros; fs; auto. unfold gainGrad. f_equal. apply rsum_ext; intros. fs. reflexivity.
Qed.

(* the true derivative with respect to the gains *)
Lemma gain_true : forall jk n k w X G, (0 < k)%nat ->
  gradOf 1 k 1 (fun w' => obj G (out_ (fwdGain (ROps jk) (mgen 1 k w') (mgen n k X)))) w (fun _ j => rsum n (fun i => X i j * G i j)).
Proof.
  intros jk n k w X G Hk.
  apply gradOf_curve with (n := n) (m := k) (f := fun w i j => X i j * w 0%nat j).
  - intro. apply fwdGain_R; auto.
  - intros a c Ha Hc. destruct (rowmul_curve n k (fun _ => X) (fun x => upd2 w a c x) (w a c) _ _ G (dcurve_const _ _ _ _) (dcurve_cell _ _ _ _ _)) as (dY & H1 & H2).
    eexists. split; [exact H1|]. rewrite H2. at_cell. ring.
Qed.

Lemma gain_gradients : forall jk first n k w X G gin, (0 < k)%nat ->
  exists gi,
    bwdGain (ROps jk) first (mgen 1 k w) (mgen n k X) (mgen n k G) gin =
      Ok (mgen 1 k (fun _ j => rsum k (fun l => rsum n (fun i => X i l * G i j)) / INR k), if first then gin else mgen n k gi) /\
    gradOf 1 k 1 (fun w' => obj G (out_ (fwdGain (ROps jk) (mgen 1 k w') (mgen n k X)))) w (fun _ j => rsum n (fun i => X i j * G i j)) /\
    gradOf n k 1 (fun X' => obj G (out_ (fwdGain (ROps jk) (mgen 1 k w) (mgen n k X')))) X gi.
Proof.
  intros jk first n k w X G gin Hk. eexists. split; [apply bwdGain_R|]. split; [apply gain_true; auto|].
  apply gradOf_curve with (n := n) (m := k) (f := fun X i j => X i j * w 0%nat j).
  - intro. apply fwdGain_R; auto.
  - intros a c Ha Hc. destruct (rowmul_curve n k (fun x => upd2 X a c x) (fun _ => w) (X a c) _ _ G (dcurve_cell _ _ _ _ _) (dcurve_const _ _ _ _)) as (dY & H1 & H2).
    eexists. split; [exact H1|]. rewrite H2. at_cell. ring.
Qed.

Lemma affine_curve : forall n k X w b t dX dw db (G : nat -> nat -> R),
  dcurve n k X t dX -> dcurve 1 k w t dw -> dcurve 1 k b t db ->
  exists dY, dcurve n k (fun x i j => X x i j * w x 0%nat j + b x 0%nat j) t dY /\
  dot n k G dY = dot n k (fun i j => G i j * w t 0%nat j) dX + dot 1 k (fun _ j => rsum n (fun i => X t i j * G i j)) dw
               + dot 1 k (fun _ j => rsum n (fun i => G i j)) db.
Proof.
  intros n k X w b t dX dw db G HX Hw Hb. destruct (rowmul_curve n k X w t dX dw G HX Hw) as (dY & H1 & H2).
  destruct (rowadd_curve n k _ b t dY db G H1 Hb) as [H3 H4].
  exists (fun i j => dY i j + db 0%nat j). split; [exact H3|]. rewrite H4, H2. ring.
Qed.

Lemma affine_gradients : forall jk first n k w b X G out gin, (0 < n)%nat -> (0 < k)%nat -> mwf out ->
  exists gb gi,
    bwdAffine (ROps jk) first (mgen 1 k w) (mgen n k X) (mgen n k G) gin =
      Ok (mgen 1 k (fun _ j => rsum k (fun l => rsum n (fun i => X i l * G i j)) / INR k), mgen 1 k gb, if first then gin else mgen n k gi) /\
    gradOf 1 k 1 (fun w' => obj G (out_ (fwdAffine (ROps jk) (mgen 1 k w') (mgen 1 k b) (mgen n k X) out))) w (fun _ j => rsum n (fun i => X i j * G i j)) /\
    gradOf 1 k (INR n) (fun b' => obj G (out_ (fwdAffine (ROps jk) (mgen 1 k w) (mgen 1 k b') (mgen n k X) out))) b gb /\
    gradOf n k 1 (fun X' => obj G (out_ (fwdAffine (ROps jk) (mgen 1 k w) (mgen 1 k b) (mgen n k X') out))) X gi.
Proof.
  intros jk first n k w b X G out gin Hn Hk Ho. apply INR_pos in Hn. do 2 eexists. split; [apply bwdAffine_R|]. split; [|split].
  - apply gradOf_curve with (n := n) (m := k) (f := fun w i j => X i j * w 0%nat j + b 0%nat j).
    + intro. apply fwdAffine_R; auto.
    + intros a c Ha Hc. destruct (affine_curve n k (fun _ => X) (fun x => upd2 w a c x) (fun _ => b) (w a c) _ _ _ G
        (dcurve_const _ _ _ _) (dcurve_cell _ _ _ _ _) (dcurve_const _ _ _ _)) as (dY & H1 & H2).
      exists dY. split; [exact H1|]. rewrite H2. at_cell. ring.
  - apply gradOf_curve with (n := n) (m := k) (f := fun b i j => X i j * w 0%nat j + b 0%nat j).
    + intro. apply fwdAffine_R; auto.
    + intros a c Ha Hc. destruct (affine_curve n k (fun _ => X) (fun _ => w) (fun x => upd2 b a c x) (b a c) _ _ _ G
        (dcurve_const _ _ _ _) (dcurve_const _ _ _ _) (dcurve_cell _ _ _ _ _)) as (dY & H1 & H2).
      exists dY. split; [exact H1|]. rewrite H2. at_cell. field. auto.
  - apply gradOf_curve with (n := n) (m := k) (f := fun X i j => X i j * w 0%nat j + b 0%nat j).
    + intro. apply fwdAffine_R; auto.
    + intros a c Ha Hc. destruct (affine_curve n k (fun x => upd2 X a c x) (fun _ => w) (fun _ => b) (X a c) _ _ _ G
        (dcurve_cell _ _ _ _ _) (dcurve_const _ _ _ _) (dcurve_const _ _ _ _)) as (dY & H1 & H2).
      exists dY. split; [exact H1|]. rewrite H2. at_cell. ring.
Qed.

Lemma partial_unique : forall L P a b d d', isPartial L P a b d -> isPartial L P a b d' -> d = d'.
Proof. intros L P a b d d' H H'. unfold isPartial in *. apply is_derive_unique in H, H'. congruence. Qed.

Lemma mgen_inj : forall A n k (f g : nat -> nat -> A) i j, mgen n k f = mgen n k g -> (i < n)%nat -> (j < k)%nat -> f i j = g i j.
Proof. intros A n k f g i j E Hi Hj. pose proof (mget2_gen A n k f i j Hi Hj) as H. rewrite E, (mget2_gen A n k g i j Hi Hj) in H. congruence. Qed.

(* Gain: the weight gradient is not 1/n of the derivative, already for one row of two columns *)
Lemma gain_refuted : forall jk : R, exists n k w X G gin gw gi, (0 < n)%nat /\
  bwdGain (ROps jk) false (mgen 1 k w) (mgen n k X) (mgen n k G) gin = Ok (mgen 1 k gw, mgen n k gi) /\
  ~ gradOf 1 k (INR n) (fun w' => obj G (out_ (fwdGain (ROps jk) (mgen 1 k w') (mgen n k X)))) w gw.
Proof.
  intros jk. exists 1%nat, 2%nat, (fun _ _ => 1), (fun _ j => if Nat.eqb j 0 then 1 else 0), (fun _ _ => 1), (mempty (ROps jk)).
  do 2 eexists. split; [lia|]. split; [exact (bwdGain_R jk false _ _ _ _ _ _)|]. intros H.
  specialize (H 0%nat 0%nat ltac:(lia) ltac:(lia)).
  pose proof (gain_true jk 1 2 (fun _ _ => 1) (fun _ j => if Nat.eqb j 0 then 1 else 0) (fun _ _ => 1) ltac:(lia) 0%nat 0%nat ltac:(lia) ltac:(lia)) as H'.
  pose proof (partial_unique _ _ _ _ _ _ H H') as E. unfold gainGrad in E. simpl in E. lra.
Qed.
Lemma affine_refuted : forall jk : R, exists n k w b X G out gin gw gb gi, (0 < n)%nat /\ mwf out /\
  bwdAffine (ROps jk) false (mgen 1 k w) (mgen n k X) (mgen n k G) gin = Ok (mgen 1 k gw, mgen 1 k gb, mgen n k gi) /\
  ~ gradOf 1 k (INR n) (fun w' => obj G (out_ (fwdAffine (ROps jk) (mgen 1 k w') (mgen 1 k b) (mgen n k X) out))) w gw.
Proof.
  intros jk. exists 1%nat, 2%nat, (fun _ _ => 1), (fun _ _ => 0), (fun _ j => if Nat.eqb j 0 then 1 else 0), (fun _ _ => 1), (mempty (ROps jk)), (mempty (ROps jk)).
  do 3 eexists. split; [lia|]. split; [reflexivity|]. split; [exact (bwdAffine_R jk false _ _ _ _ _ _)|]. intros H.
  specialize (H 0%nat 0%nat ltac:(lia) ltac:(lia)).
  destruct (affine_gradients jk false 1 2 (fun _ _ => 1) (fun _ _ => 0) (fun _ j => if Nat.eqb j 0 then 1 else 0) (fun _ _ => 1) (mempty (ROps jk)) (mempty (ROps jk)) ltac:(lia) ltac:(lia) eq_refl)
    as (gb & gi & _ & H' & _). specialize (H' 0%nat 0%nat ltac:(lia) ltac:(lia)).
  pose proof (partial_unique _ _ _ _ _ _ H H') as E. unfold gainGrad in E. simpl in E. lra.
Qed.

(** Global layers *)
Lemma rsum_flat2 : forall n k (f : nat -> nat -> R), rsum (n * k) (fun i => f (i / k)%nat (i mod k)%nat) = rsum n (fun i => rsum k (fun j => f i j)).
Proof.
  intros. rewrite rsum_flat. apply rsum_ext. intros i Hi. apply rsum_ext. intros j Hj. rewrite idx_div, idx_mod by auto. reflexivity.
Qed.

Lemma fwdGlobalGain_R : forall jk n k w X,
  fwdGlobalGain (ROps jk) (mgen 1 1 w) (mgen n k X) = Ok (mgen n k (fun i j => X i j * w 0%nat 0%nat)).
Proof. intros. exact (fwdGlobalGain_gen (ROps jk) n k w X). Qed.
Lemma fwdGlobalBias_R : forall jk n k b X,
  fwdGlobalBias (ROps jk) (mgen 1 1 b) (mgen n k X) = Ok (mgen n k (fun i j => X i j + b 0%nat 0%nat)).
Proof. intros. exact (fwdGlobalBias_gen (ROps jk) n k b X). Qed.
Lemma fwdGlobalAffine_R : forall jk n k w b X,
  fwdGlobalAffine (ROps jk) (mgen 1 1 w) (mgen 1 1 b) (mgen n k X) = Ok (mgen n k (fun i j => X i j * w 0%nat 0%nat + b 0%nat 0%nat)).
Proof. intros. exact (fwdGlobalAffine_gen (ROps jk) n k w b X). Qed.

Definition meanAll (n k : nat) (G : nat -> nat -> R) : R := rsum n (fun i => rsum k (fun j => G i j)) / (INR n * INR k).
Definition meanXtG (n k : nat) (X G : nat -> nat -> R) : R := rsum k (fun l => rsum k (fun j => rsum n (fun i => X i l * G i j))) / (INR k * INR k).

Lemma meanAll_flat : forall jk n k (G : nat -> nat -> R),
  fdiv (ROps jk) (fsum (ROps jk) (n * k) (fun i => G (i / k)%nat (i mod k)%nat)) (fofN (ROps jk) (n * k)) = meanAll n k G.
Proof. intros. fs. rewrite rsum_flat2, mult_INR. reflexivity. Qed.
Lemma meanXtG_flat : forall jk n k (X G : nat -> nat -> R),
  fdiv (ROps jk) (fsum (ROps jk) (k * k) (fun q => fsum (ROps jk) n (fun i => fmul (ROps jk) (X i (q / k)%nat) (G i (q mod k)%nat)))) (fofN (ROps jk) (k * k)) = meanXtG n k X G.
Proof.
  intros. fs. rewrite (rsum_ext (k * k) _ (fun q => rsum n (fun i => X i (q / k)%nat * G i (q mod k)%nat))) by (intros; fs; reflexivity).
  rewrite (rsum_flat2 k k (fun a b => rsum n (fun i => X i a * G i b))), mult_INR. reflexivity.
Qed.

Lemma bwdGlobalBias_R : forall jk first n k gb G gin,
  bwdGlobalBias (ROps jk) first (mgen 1 1 gb) (mgen n k G) gin = Ok (mgen 1 1 (fun _ _ => meanAll n k G), if first then gin else mgen n k G).
Proof.
  intros. eapply eq_trans; [exact (bwdGlobalBias_gen (ROps jk) first n k gb G gin)|].
  apply Ok_eq. f_equal. apply mgen_ext; intros. apply meanAll_flat.
Qed.
Lemma bwdGlobalGain_R : forall jk first n k w gw X G gin,
  bwdGlobalGain (ROps jk) first (mgen 1 1 w) (mgen 1 1 gw) (mgen n k X) (mgen n k G) gin =
  Ok (mgen 1 1 (fun _ _ => meanXtG n k X G), if first then gin else mgen n k (fun i j => G i j * w 0%nat 0%nat)).
Proof.
  intros. eapply eq_trans; [exact (bwdGlobalGain_gen (ROps jk) first n k w gw X G gin)|].
  apply Ok_eq. f_equal. apply mgen_ext; intros. apply meanXtG_flat.
Qed.
Lemma bwdGlobalAffine_R : forall jk first n k w gw gb X G gin,
  bwdGlobalAffine (ROps jk) first (mgen 1 1 w) (mgen 1 1 gw) (mgen 1 1 gb) (mgen n k X) (mgen n k G) gin =
  Ok (mgen 1 1 (fun _ _ => meanXtG n k X G), mgen 1 1 (fun _ _ => meanAll n k G), if first then gin else mgen n k (fun i j => G i j * w 0%nat 0%nat)).
Proof.
  intros. eapply eq_trans; [exact (bwdGlobalAffine_gen (ROps jk) first n k w gw gb X G gin)|].
  apply Ok_eq. f_equal. f_equal; apply mgen_ext; intros; [apply meanXtG_flat | apply meanAll_flat].
Qed.

(* curves *)
Lemma scalaff_curve : forall n k X w b t dX dw db (G : nat -> nat -> R),
  dcurve n k X t dX -> dcurve 1 1 w t dw -> dcurve 1 1 b t db ->
  exists dY, dcurve n k (fun x i j => X x i j * w x 0%nat 0%nat + b x 0%nat 0%nat) t dY /\
  dot n k G dY = dot n k (fun i j => G i j * w t 0%nat 0%nat) dX + dot 1 1 (fun _ _ => dot n k (X t) G) dw + dot 1 1 (fun _ _ => rsum n (fun i => rsum k (fun j => G i j))) db.
Proof.
  intros n k X w b t dX dw db G HX Hw Hb. exists (fun i j => dX i j * w t 0%nat 0%nat + X t i j * dw 0%nat 0%nat + db 0%nat 0%nat). split.
  - intros i j Hi Hj. apply (d_add (fun x => X x i j * w x 0%nat 0%nat) (fun x => b x 0%nat 0%nat)); [|apply Hb; lia].
    apply (d_mul (fun x => X x i j) (fun x => w x 0%nat 0%nat)); [apply HX; auto | apply Hw; lia].
  - rewrite (dot_plus n k G (fun i j => dX i j * w t 0%nat 0%nat + X t i j * dw 0%nat 0%nat) (fun _ _ => db 0%nat 0%nat)).
    rewrite (dot_plus n k G (fun i j => dX i j * w t 0%nat 0%nat) (fun i j => X t i j * dw 0%nat 0%nat)).
    f_equal; [f_equal|].
    + apply dot_ext. intros. ring.
    + unfold dot at 2. simpl. unfold dot. rewrite !Rplus_0_l. rewrite <- rsum_scal_r. apply rsum_ext. intros. rewrite <- rsum_scal_r. apply rsum_ext. intros. ring.
    + unfold dot. simpl. rewrite !Rplus_0_l. rewrite <- rsum_scal_r. apply rsum_ext. intros. rewrite <- rsum_scal_r. apply rsum_ext. intros. ring.
Qed.

(* what the global layers return, and what the derivatives are *)
Lemma globalbias_gradients : forall jk first n k b gb X G gin, (0 < n)%nat -> (0 < k)%nat ->
  exists gb' gi,
    bwdGlobalBias (ROps jk) first (mgen 1 1 gb) (mgen n k G) gin = Ok (mgen 1 1 gb', if first then gin else mgen n k gi) /\
    gradOf 1 1 (INR n * INR k) (fun b' => obj G (fwdGlobalBias (ROps jk) (mgen 1 1 b') (mgen n k X))) b gb' /\
    gradOf n k 1 (fun X' => obj G (fwdGlobalBias (ROps jk) (mgen 1 1 b) (mgen n k X'))) X gi.
Proof.
  intros jk first n k b gb X G gin Hn Hk. apply INR_pos in Hn, Hk. do 2 eexists. split; [apply bwdGlobalBias_R|]. split.
  - apply gradOf_curve with (n := n) (m := k) (f := fun b i j => X i j + b 0%nat 0%nat).
    + intro. apply fwdGlobalBias_R.
    + intros a c Ha Hc. destruct (scalaff_curve n k (fun _ => X) (fun _ _ _ => 1) (fun x => upd2 b a c x) (b a c) _ _ _ G
        (dcurve_const _ _ _ _) (dcurve_const _ _ _ _) (dcurve_cell _ _ _ _ _)) as (dY & H1 & H2).
      exists dY. split. { intros i j Hi Hj. eapply is_derive_ext; [|apply H1; auto]. intros. simpl. ring. }
      rewrite H2. at_cell. unfold meanAll. field. auto.
  - apply gradOf_curve with (n := n) (m := k) (f := fun X i j => X i j + b 0%nat 0%nat).
    + intro. apply fwdGlobalBias_R.
    + intros a c Ha Hc. destruct (scalaff_curve n k (fun x => upd2 X a c x) (fun _ _ _ => 1) (fun _ => b) (X a c) _ _ _ G
        (dcurve_cell _ _ _ _ _) (dcurve_const _ _ _ _) (dcurve_const _ _ _ _)) as (dY & H1 & H2).
      exists dY. split. { intros i j Hi Hj. eapply is_derive_ext; [|apply H1; auto]. intros. simpl. ring. }
      rewrite H2. at_cell. ring.
Qed.

Lemma globalgain_gradients : forall jk first n k w gw X G gin,
  exists gi,
    bwdGlobalGain (ROps jk) first (mgen 1 1 w) (mgen 1 1 gw) (mgen n k X) (mgen n k G) gin =
      Ok (mgen 1 1 (fun _ _ => rsum k (fun l => rsum k (fun j => rsum n (fun i => X i l * G i j))) / (INR k * INR k)), if first then gin else mgen n k gi) /\
    gradOf 1 1 1 (fun w' => obj G (fwdGlobalGain (ROps jk) (mgen 1 1 w') (mgen n k X))) w (fun _ _ => rsum n (fun i => rsum k (fun j => X i j * G i j))) /\
    gradOf n k 1 (fun X' => obj G (fwdGlobalGain (ROps jk) (mgen 1 1 w) (mgen n k X'))) X gi.
Proof.
  intros jk first n k w gw X G gin. eexists. split; [apply bwdGlobalGain_R|]. split.
  - apply gradOf_curve with (n := n) (m := k) (f := fun w i j => X i j * w 0%nat 0%nat).
    + intro. apply fwdGlobalGain_R.
    + intros a c Ha Hc. destruct (scalaff_curve n k (fun _ => X) (fun x => upd2 w a c x) (fun _ _ _ => 0) (w a c) _ _ _ G
        (dcurve_const _ _ _ _) (dcurve_cell _ _ _ _ _) (dcurve_const _ _ _ _)) as (dY & H1 & H2).
      exists dY. split. { intros i j Hi Hj. eapply is_derive_ext; [|apply H1; auto]. intros. simpl. ring. }
      rewrite H2. at_cell. unfold dot. ring.
  - apply gradOf_curve with (n := n) (m := k) (f := fun X i j => X i j * w 0%nat 0%nat).
    + intro. apply fwdGlobalGain_R.
    + intros a c Ha Hc. destruct (scalaff_curve n k (fun x => upd2 X a c x) (fun _ => w) (fun _ _ _ => 0) (X a c) _ _ _ G
        (dcurve_cell _ _ _ _ _) (dcurve_const _ _ _ _) (dcurve_const _ _ _ _)) as (dY & H1 & H2).
      exists dY. split. { intros i j Hi Hj. eapply is_derive_ext; [|apply H1; auto]. intros. simpl. ring. }
      rewrite H2. at_cell. ring.
Qed.

Lemma globalaffine_gradients : forall jk first n k w b gw gb X G gin, (0 < n)%nat -> (0 < k)%nat ->
  exists gb' gi,
    bwdGlobalAffine (ROps jk) first (mgen 1 1 w) (mgen 1 1 gw) (mgen 1 1 gb) (mgen n k X) (mgen n k G) gin =
      Ok (mgen 1 1 (fun _ _ => rsum k (fun l => rsum k (fun j => rsum n (fun i => X i l * G i j))) / (INR k * INR k)), mgen 1 1 gb', if first then gin else mgen n k gi) /\
    gradOf 1 1 1 (fun w' => obj G (fwdGlobalAffine (ROps jk) (mgen 1 1 w') (mgen 1 1 b) (mgen n k X))) w (fun _ _ => rsum n (fun i => rsum k (fun j => X i j * G i j))) /\
    gradOf 1 1 (INR n * INR k) (fun b' => obj G (fwdGlobalAffine (ROps jk) (mgen 1 1 w) (mgen 1 1 b') (mgen n k X))) b gb' /\
    gradOf n k 1 (fun X' => obj G (fwdGlobalAffine (ROps jk) (mgen 1 1 w) (mgen 1 1 b) (mgen n k X'))) X gi.
Proof.
  intros jk first n k w b gw gb X G gin Hn Hk. apply INR_pos in Hn, Hk. do 2 eexists. split; [apply bwdGlobalAffine_R|]. split; [|split].
  - apply gradOf_curve with (n := n) (m := k) (f := fun w i j => X i j * w 0%nat 0%nat + b 0%nat 0%nat).
    + intro. apply fwdGlobalAffine_R.
    + intros a c Ha Hc. destruct (scalaff_curve n k (fun _ => X) (fun x => upd2 w a c x) (fun _ => b) (w a c) _ _ _ G
        (dcurve_const _ _ _ _) (dcurve_cell _ _ _ _ _) (dcurve_const _ _ _ _)) as (dY & H1 & H2).
      exists dY. split; [exact H1|]. rewrite H2. at_cell. unfold dot. ring.
  - apply gradOf_curve with (n := n) (m := k) (f := fun b i j => X i j * w 0%nat 0%nat + b 0%nat 0%nat).
    + intro. apply fwdGlobalAffine_R.
    + intros a c Ha Hc. destruct (scalaff_curve n k (fun _ => X) (fun _ => w) (fun x => upd2 b a c x) (b a c) _ _ _ G
        (dcurve_const _ _ _ _) (dcurve_const _ _ _ _) (dcurve_cell _ _ _ _ _)) as (dY & H1 & H2).
      exists dY. split; [exact H1|]. rewrite H2. at_cell. unfold meanAll. field. auto.
  - apply gradOf_curve with (n := n) (m := k) (f := fun X i j => X i j * w 0%nat 0%nat + b 0%nat 0%nat).
    + intro. apply fwdGlobalAffine_R.
    + intros a c Ha Hc. destruct (scalaff_curve n k (fun x => upd2 X a c x) (fun _ => w) (fun _ => b) (X a c) _ _ _ G
        (dcurve_cell _ _ _ _ _) (dcurve_const _ _ _ _) (dcurve_const _ _ _ _)) as (dY & H1 & H2).
      exists dY. split; [exact H1|]. rewrite H2. at_cell. ring.
Qed.

Lemma globalbias_refuted : forall jk : R, exists n k b gb X G gin gb' gi, (0 < n)%nat /\
  bwdGlobalBias (ROps jk) false (mgen 1 1 gb) (mgen n k G) gin = Ok (mgen 1 1 gb', mgen n k gi) /\
  ~ gradOf 1 1 (INR n) (fun b' => obj G (fwdGlobalBias (ROps jk) (mgen 1 1 b') (mgen n k X))) b gb'.
Proof.
  intros jk. destruct (globalbias_gradients jk false 1 2 (fun _ _ => 0) (fun _ _ => 0) (fun _ _ => 0) (fun _ _ => 1) (mempty (ROps jk)) ltac:(lia) ltac:(lia))
    as (gb' & gi & H1 & H2 & _).
  exists 1%nat, 2%nat, (fun _ _ => 0), (fun _ _ => 0), (fun _ _ => 0), (fun _ _ => 1), (mempty (ROps jk)), gb', gi.
  split; [lia|]. split; [exact H1|]. intros H.
  specialize (H 0%nat 0%nat ltac:(lia) ltac:(lia)). specialize (H2 0%nat 0%nat ltac:(lia) ltac:(lia)).
  pose proof (partial_unique _ _ _ _ _ _ H H2) as E. rewrite bwdGlobalBias_R in H1.
  assert (E1 : mgen 1 1 (fun _ _ => meanAll 1 2 (fun _ _ => 1)) = mgen 1 1 gb') by (exact (f_equal (fun r => match r with Ok p => fst p | Err _ => mempty (ROps jk) end) H1)).
  apply (mgen_inj _ _ _ _ _ 0 0) in E1; try lia. rewrite <- E1 in E. unfold meanAll in E. simpl in E. lra.
Qed.
Lemma globalgain_refuted : forall jk : R, exists n k w gw X G gin gw' gi, (0 < n)%nat /\
  bwdGlobalGain (ROps jk) false (mgen 1 1 w) (mgen 1 1 gw) (mgen n k X) (mgen n k G) gin = Ok (mgen 1 1 gw', mgen n k gi) /\
  ~ gradOf 1 1 (INR n) (fun w' => obj G (fwdGlobalGain (ROps jk) (mgen 1 1 w') (mgen n k X))) w gw'.
Proof.
  intros jk. set (X := fun _ j : nat => if Nat.eqb j 0 then 1 else 0).
  destruct (globalgain_gradients jk false 1 2 (fun _ _ => 0) (fun _ _ => 0) X (fun _ _ => 1) (mempty (ROps jk))) as (gi & H1 & H2 & _).
  do 9 eexists. split; [|split; [exact H1|]]; [lia|]. intros H.
  specialize (H 0%nat 0%nat ltac:(lia) ltac:(lia)). specialize (H2 0%nat 0%nat ltac:(lia) ltac:(lia)).
  pose proof (partial_unique _ _ _ _ _ _ H H2) as E. unfold X in E. simpl in E. lra.
Qed.
