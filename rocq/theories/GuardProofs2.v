(* GuardProofs2.v - which arguments layers, losses, optimisers and networks accept *)
From Coq Require Import String List Arith Bool Lia ZArith.
From Verif Require Import Base Scalar Mat SpecMat MatFacts MatProofs MatProofs2 Act LayMat LayImg LayRnn Loss Optim KMeans Layer Net LayProofs1 LayProofs4 LayConv1 SpecGuard GuardProofs.
Import ListNotations.
Local Open Scope nat_scope.

Section G.
Variable F : FOps.
Notation M := (mat F).
Ltac chk := repeat match goal with
  | |- context [assert_ (?x =? ?y)] => destruct (Nat.eqb_spec x y); [rewrite (assert_true true) by reflexivity|rewrite (assert_false false) by reflexivity]
  end.

(** losses: the truth has the shape of the prediction, or is one column of class numbers *)
Definition truthFits (k : lossKind) (p t : M) : Prop :=
  match k with LSparseCategoricalCrossEntropy => mcols t = 1 /\ mrows t = mrows p | LBinaryCrossEntropy => mcols t = 1 /\ sameShape F t p | _ => sameShape F t p end.
Lemma compute_mismatch : forall cabs k b p t l, ~ truthFits k p t -> compute F cabs k b p t l = Err EAssert.
Proof. intros cabs k b p t l N. unfold truthFits, sameShape in N. destruct k; unfold compute; chk; try reflexivity; exfalso; apply N; auto. Qed.
(* compute_gradient of the binary cross entropy takes any number of columns *)
Definition gradientFits (k : lossKind) (p t : M) : Prop := match k with LBinaryCrossEntropy => sameShape F t p | _ => truthFits k p t end.
Lemma gradient_mismatch : forall k b p t g, ~ gradientFits k p t -> compute_gradient F k b p t g = Err EAssert.
Proof. intros k b p t g N. unfold gradientFits, truthFits, sameShape in N. destruct k; unfold compute_gradient; chk; try reflexivity; exfalso; apply N; auto. Qed.

(** optimisers *)
Definition selfChecking (k : optKind) : bool := match k with ONone | ONadam | OAdamax => false | _ => true end.
Lemma optimize_mismatch : forall cabs o w dw, selfChecking (okind F o) = true -> ~ sameShape F w dw -> optimize F cabs o w dw = Err EAssert.
Proof.
  intros cabs o w dw S N. unfold sameShape in N. unfold optimize.
  assert (D : (assert_ (mrows w =? mrows dw) ;;; assert_ (mcols w =? mcols dw)) = Err EAssert) by (destruct (Nat.eqb_spec (mrows w) (mrows dw)); [|reflexivity]; destruct (Nat.eqb_spec (mcols w) (mcols dw)); [exfalso; auto|reflexivity]). rewrite D.
  destruct (okind F o); try discriminate S; reflexivity.
Qed.

(** the distance of two rows in KMeans *)
Lemma kmDist_mismatch : forall cabs l a b, ~ (mrows a = 1 /\ mrows b = 1 /\ mcols a = mcols b) -> kmDist F cabs l a b = Err EAssert.
Proof. intros cabs l a b N. unfold kmDist. chk; try reflexivity; exfalso; auto. Qed.

(** Net::replace *)
Lemma replace_mismatch : forall h n i a, length (nlay n) <= i -> netReplace F h n i a = Err EAssert.
Proof. intros h n i a H. unfold netReplace. destruct (Nat.ltb_spec i (length (nlay n))); [lia|reflexivity]. Qed.

(** layers: the number of columns the forward pass accepts *)
Lemma dense_guarded : forall w b mIn, mwf w -> mwf b -> mwf mIn -> mrows b = 1 -> mcols b = mcols w -> guarded (fwdDense F w b mIn) (mcols mIn = mrows w).
Proof.
  intros w b mIn Hw Hb Hi Rb Cb. split; [|intro N; unfold fwdDense; chk; first [contradiction|reflexivity]].
  intro E. destruct (mwf_is_gen F w Hw) as (fw & Ew), (mwf_is_gen F b Hb) as (fb & Eb), (mwf_is_gen F mIn Hi) as (fi & Ei). rewrite Ew, Eb, Ei, Rb, Cb, E, fwdDense_gen. eauto.
Qed.
Lemma dot_guarded : forall w mIn, mwf w -> mwf mIn -> guarded (fwdDot F w mIn) (mcols mIn = mrows w).
Proof.
  intros w mIn Hw Hi. split; [|intro N; unfold fwdDot; chk; [contradiction|reflexivity]]. intro E. unfold fwdDot. rewrite E, Nat.eqb_refl. cbn [assert_ bind]. apply (product_guarded F mIn w Hi Hw). auto.
Qed.
Lemma bias_guarded : forall name g b mIn, mwf b -> mwf mIn -> msize b <> 0 -> guarded (fwdBias F name g b mIn) (mrows b = 1 /\ mcols b = mcols mIn).
Proof.
  intros name g b mIn Hb Hi Hz. unfold fwdBias. destruct (Nat.eqb_spec (msize b) 0); [contradiction|]. cbn [bind]. destruct (broadcast_guarded F mIn b Hi Hb) as (_ & _ & G1 & G2).
  split; intro H; [destruct (G1 H) as (x & ->); cbn; eauto|rewrite (G2 H); reflexivity].
Qed.
Lemma gated_guarded : forall a1 a2 mIn out, mwf mIn -> mwf out -> guarded (fwdGated F (Some a1) (Some a2) mIn out) (Nat.even (mcols mIn) = true).
Proof.
  intros a1 a2 mIn out Hi Ho. split; [|intro N; unfold fwdGated; destruct (Nat.even _); [destruct N; reflexivity|reflexivity]].
  intro E. apply Nat.even_spec in E. destruct E as (h & Eh). destruct (mwf_is_gen F mIn Hi) as (f & Ei). rewrite Ei, Eh, fwdGated_gen by auto. eauto.
Qed.
Lemma conv_mismatch : forall v fast w col mIn, convOk v = Ok tt -> mcols mIn <> vI v * vR v * vC v -> fwdConv F v fast w col mIn = Err EAssert.
Proof.
  intros v fast w col mIn Hv N. unfold fwdConv. rewrite Hv. cbn [bind].
  assert (Nx : mcols mIn <> vR v * vC v * vI v) by (intro; apply N; lia).
  destruct fast.
  - rewrite lut_gen. cbn [bind]. unfold im2colLUT. destruct (Nat.eqb_spec (mcols mIn) (vR v * vC v * vI v)); [contradiction|reflexivity].
  - unfold im2col. destruct (Nat.eqb_spec (mcols mIn) (vR v * vC v * vI v)); [contradiction|reflexivity].
Qed.
(* the gradients of a convolution have the shapes of the weights and of the input *)
Lemma conv_backward_shapes : forall (l l' : layer F) v fast mIn mG gin gi, lk l = KConv v fast -> layBackward F l mIn mG gin = Ok (l', gi) ->
  mrows mG = lns l /\ mcols mG = oR v * oC v * vO v /\ mrows (lgw l') = mrows (lw l) /\ mcols (lgw l') = mcols (lw l) /\
  (lfirst l = true /\ gi = gin \/ lfirst l = false /\ mrows gi = mrows mIn /\ mcols gi = mcols mIn).
Proof.
  intros l l' v fast mIn mG gin gi K E. unfold layBackward in E. rewrite K in E. apply bind_inv in E. destruct E as ([gw g] & E & E2). injection E2 as <- <-.
  unfold bwdConv in E.
  all: apply bind_inv in E; destruct E as (t1 & A1 & E); unfold assert_ in A1; destruct (Nat.eqb_spec (mrows mG) (lns l)) as [H1|]; [|discriminate].
  all: apply bind_inv in E; destruct E as (t2 & A2 & E); unfold assert_ in A2; destruct (Nat.eqb_spec (mcols mG) (oR v * oC v * vO v)) as [H2|]; [|discriminate].
  all: apply bind_inv in E; destruct E as (u & _ & E); apply bind_inv in E; destruct E as (gw' & _ & E).
  all: apply bind_inv in E; destruct E as (t3 & A3 & E); unfold assert_ in A3; destruct (Nat.eqb_spec (mrows gw') (mrows (lw l))) as [H3|]; [|discriminate].
  all: apply bind_inv in E; destruct E as (t4 & A4 & E); unfold assert_ in A4; destruct (Nat.eqb_spec (mcols gw') (mcols (lw l))) as [H4|]; [|discriminate].
  destruct (lfirst l) eqn:Fl.
  - injection E as <- <-. cbn. auto 8.
  - apply bind_inv in E. destruct E as (wt & _ & E). apply bind_inv in E. destruct E as (gc & _ & E). apply bind_inv in E. destruct E as (g' & _ & E).
    apply bind_inv in E. destruct E as (t5 & A5 & E). unfold assert_ in A5. destruct (Nat.eqb_spec (mrows g') (mrows mIn)) as [H5|]; [|discriminate].
    apply bind_inv in E. destruct E as (t6 & A6 & E). unfold assert_ in A6. destruct (Nat.eqb_spec (mcols g') (mcols mIn)) as [H6|]; [|discriminate].
    injection E as <- <-. cbn. auto 10.
Qed.
Lemma channel_mismatch : forall nR nC nH b mIn, 0 < mrows mIn -> mcols mIn <> nH * nR * nC -> fwdChannelBias F nR nC nH b mIn = Err EAssert.
Proof.
  intros nR nC nH b mIn Hr N. unfold fwdChannelBias, channelWiseAdd, msize. chk; try reflexivity. exfalso. apply N. assert (mrows mIn * mcols mIn = mrows mIn * (nH * nR * nC)) by lia. nia.
Qed.
Lemma channelwise_mismatch : forall mIn nS nH nR nC w, (msize w <> nH \/ mrows mIn <> nS \/ msize mIn <> nS * nH * nR * nC -> channelWiseAdd F mIn nS nH nR nC w = Err EAssert) /\
  (mrows mIn <> nS \/ msize mIn <> nS * nH * nR * nC -> channelWiseMean F mIn nS nH nR nC = Err EAssert).
Proof.
  intros mIn nS nH nR nC w. split; intro H; unfold channelWiseAdd, channelWiseMean, assert_.
  - destruct (Nat.eqb_spec (msize w) nH); [|reflexivity]. cbn [bind]. destruct (Nat.eqb_spec (mrows mIn) nS); [|reflexivity]. cbn [bind]. destruct (Nat.eqb_spec (msize mIn) (nS * nH * nR * nC)); [|reflexivity]. lia.
  - destruct (Nat.eqb_spec (mrows mIn) nS); [|reflexivity]. cbn [bind]. destruct (Nat.eqb_spec (msize mIn) (nS * nH * nR * nC)); [|reflexivity]. lia.
Qed.
Lemma convOk_sizes : forall v, convOk v = Ok tt <-> 2 * (vkr v / 2) <= vR v /\ 2 * (vkc v / 2) <= vC v.
Proof.
  intro v. unfold convOk. destruct (Nat.leb_spec (2 * (vkr v / 2)) (vR v)), (Nat.leb_spec (2 * (vkc v / 2)) (vC v)); cbn [andb assert_]; split; intro H1; try discriminate; try lia; auto.
Qed.
End G.

(** the pooling and padding classes and RandomFlip do not check: a narrow batch is read past its end, a wide one is accepted *)
Lemma pooling_refuted : let p := mkPool 2 2 1 2 2 in let narrow := mkMat 1 3 [1; 2; 3]%Z in let wide := mkMat 1 5 [1; 2; 3; 4; 5]%Z in let e := mempty ZOps in
  fwdMaxPool ZOps p false e narrow e = Err EOob /\ fwdAvgPool ZOps p narrow e = Err EOob /\ fwdGlobalAvgPool ZOps 2 2 1 narrow e = Err EOob /\ fwdZeroPad ZOps 2 2 1 1 narrow e = Err EOob /\
  (exists m, fwdMaxPool ZOps p false e wide e = Ok (e, m)) /\ (exists m, fwdAvgPool ZOps p wide e = Ok m) /\ (exists m, fwdGlobalAvgPool ZOps 2 2 1 wide e = Ok m) /\ (exists m, fwdZeroPad ZOps 2 2 1 1 wide e = Ok m) /\ (exists m, fwdGlobalMaxPool ZOps 2 2 1 false e wide e = Ok (e, m)).
Proof. cbv zeta. repeat (split; [try (vm_compute; reflexivity); eexists; vm_compute; reflexivity|]). eexists; vm_compute; reflexivity. Qed.

(* a default-constructed matrix: no cell is accessible, and only matrices without rows can be multiplied by it *)
Theorem default_guarded : forall (F : FOps) (b : mat F) i j, mwf b -> mget1 (mempty F) i = Err EAssert /\ mget2 (mempty F) i j = Err EAssert /\ guarded (mmul F (mempty F) b) (mrows b = 0).
Proof.
  intros F b i j Hb. split; [reflexivity|]. split; [reflexivity|]. destruct (product_guarded F (mempty F) b eq_refl Hb) as [A B]. split; intro H; [apply A | apply B]; cbn in *; auto.
Qed.
(* copyInto does not reject a matrix that is too high, it writes past the end *)
Theorem copyInto_refuted : exists (a m : mat ZOps) start, mwf a /\ mwf m /\ mcols a = mcols m /\ mrows m < start + mrows a /\ copyInto ZOps a m start = Err EOob.
Proof. exists (mkMat 2 1 [3; 4]%Z), (mkMat 2 1 [5; 6]%Z), 1. repeat split. cbn. auto. Qed.
