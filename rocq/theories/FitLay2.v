(* FitLay2.v - the backward pass of a well-sized layer after its forward pass *)
From Coq Require Import String List Arith Bool Lia ZArith.
From Verif Require Import Base Scalar Mat SpecMat MatFacts MatProofs MatLoops Loss LayMat LayImg Layer Net LayKit ImgKit LayTens ImgDot
  LayProofs1 LayProofs3 LayProofs4 LayProofs5 LayProofs6 LayProofs7 LayProofs8 LayPool1 LayConv1 LayConv2 SpecFit FitLay1.
Import ListNotations.
Local Open Scope nat_scope.

Section Any.
Variable F : FOps.
Notation M := (mat F).
Hint Resolve gen_shp shp_wf mwf_gen resize_shp mresize_wf : fit.

(* loops over matrices of one size *)
Lemma shp_loop : forall r c n (body : nat -> M -> res M) (s : M), shp r c s ->
  (forall i s, i < n -> shp r c s -> exists s', body i s = Ok s' /\ shp r c s') -> exists s', forN n body s = Ok s' /\ shp r c s'.
Proof. intros r c n body s Hs H. apply (@forN_inv _ (fun _ s => shp r c s) n body s); auto. Qed.
Lemma shp_loop2 : forall r c n m (body : nat -> nat -> M -> res M) (s : M), shp r c s ->
  (forall i j s, i < n -> j < m -> shp r c s -> exists s', body i j s = Ok s' /\ shp r c s') -> exists s', loop2 n m body s = Ok s' /\ shp r c s'.
Proof. intros r c n m body s Hs H. apply shp_loop; auto. intros i s' Hi Hs'. apply shp_loop; auto. Qed.
Lemma rowGet_ok : forall r c (m : M) s k, shp r c m -> s < r -> k < c -> exists x, rowGet F m s k = Ok x.
Proof.
  intros r c m s k H Hs Hk. destruct (shp_gen _ _ _ _ H) as [f ->]. unfold rowGet. change (mrows (mgen r c f)) with r. change (mcols (mgen r c f)) with c.
  unfold assert_. rewrite ltb_true by auto. cbn [bind]. rewrite rget_gen by auto. eauto.
Qed.
Lemma rowSet_ok : forall r c (m : M) s k v, shp r c m -> s < r -> k < c -> exists m', rowSet F m s k v = Ok m' /\ shp r c m'.
Proof.
  intros r c m s k v H Hs Hk. destruct H as (W & Er & Ec). unfold rowSet. rewrite Er, Ec. unfold assert_. rewrite ltb_true by auto. cbn [bind].
  unfold rset. assert (L : s * c + k < length (mdata m)). { unfold mwf in W. rewrite W, Er, Ec. nia. } rewrite ltb_true by auto. cbn [bind].
  eexists. split; [reflexivity|]. split; [|split; auto]. unfold mwf. cbn [mdata mrows mcols]. rewrite length_upd. unfold mwf in W. rewrite W. congruence.
Qed.
Lemma bwdAvgPool_ok : forall nR nC nH fr fc n G gin, 0 < nH * (nR / fr) * (nC / fc) -> fr <> 0 -> fc <> 0 -> mwf gin ->
  exists g, bwdAvgPool F (mkPool nR nC nH fr fc) false (mgen n (nH * (nR / fr) * (nC / fc)) G) gin = Ok g /\ shp n (nH * nR * nC) g.
Proof.
  intros nR nC nH fr fc n G gin Hm Hfr Hfc Hg. unfold bwdAvgPool. cbn [pH pR pC pfr pfc]. unfold pIn, pOut, poR, poC. cbn [pR pC pfr pfc].
  change (mrows (mgen n (nH * (nR / fr) * (nC / fc)) G)) with n. rewrite msetZero_gen by auto. cbn [bind].
  assert (DR := Nat.mul_div_le nR fr Hfr). assert (DC := Nat.mul_div_le nC fc Hfc). set (R := nR / fr) in *. set (C := nC / fc) in *.
  destruct (shp_loop2 n (nR * nC * nH) n nH (fun s h g => loop2 R C (fun r c g => v <- rowGet F (mgen n (nH * R * C) G) s (h * (R * C) + (c + r * C));;
     let v0 := fmul F v (invKernel F (mkPool nR nC nH fr fc)) in loop2 fr fc (fun a b g0 => let k := h * (nR * nC) + ((r * fr + a) * nC + (c * fc + b)) in
       x <- rowGet F g0 s k;; rowSet F g0 s k (fadd F x v0)) g) g) (mgen n (nR * nC * nH) (fun _ _ => f0 F)) (gen_shp _ _ _ _)) as (g & E & S).
  - intros s h g Hs Hh Sg. apply shp_loop2; auto. intros r c g' Hr Hc Sg'.
    destruct (rowGet_ok n (nH * R * C) (mgen n (nH * R * C) G) s (h * (R * C) + (c + r * C)) (gen_shp _ _ _ _) Hs) as [x Ex].
    { assert (c + r * C < R * C) by nia. nia. }
    rewrite Ex. cbn [bind]. cbv zeta. apply shp_loop2; auto. intros a b g0 Ha Hb S0.
    assert (L : h * (nR * nC) + ((r * fr + a) * nC + (c * fc + b)) < nR * nC * nH).
    { assert (r * fr + a < nR) by nia. assert (c * fc + b < nC) by nia. assert ((r * fr + a) * nC + (c * fc + b) < nR * nC) by nia. nia. }
    destruct (rowGet_ok n (nR * nC * nH) g0 s _ S0 Hs L) as [y Ey]. rewrite Ey. cbn [bind]. apply rowSet_ok; auto.
  - exists g. split; [exact E|]. replace (nH * nR * nC) with (nR * nC * nH) by ring. exact S.
Qed.
Lemma channelWiseMean_ok : forall n nH nR nC G, exists f, channelWiseMean F (mgen n (nH * nR * nC) G) n nH nR nC = Ok (mgen 1 nH f).
Proof.
  intros n nH nR nC G. unfold channelWiseMean. change (mrows (mgen n (nH * nR * nC) G)) with n. change (msize (mgen n (nH * nR * nC) G)) with (n * (nH * nR * nC)).
  unfold assert_. rewrite Nat.eqb_refl. replace (n * (nH * nR * nC) =? n * nH * nR * nC) with true by (symmetry; apply Nat.eqb_eq; ring). cbn [bind].
  rewrite msetZero_gen by reflexivity. cbn [bind].
  destruct (shp_loop 1 nH n (fun iS s => forN nH (fun iH s => forN nR (fun iR s => forN nC (fun iC s => x <- mget2 s 0 iH ;; y <- mget2 (mgen n (nH * nR * nC) G) iS (iH * nR * nC + iR * nC + iC) ;;
    mset2 s 0 iH (fadd F x y)) s) s) s) (mgen 1 nH (fun _ _ => f0 F)) (gen_shp _ _ _ _)) as (g & E & S).
  - intros iS s HS Ss. apply shp_loop; auto. intros iH s1 HH S1. apply shp_loop; auto. intros iR s2 HR S2. apply shp_loop; auto. intros iC s3 HC S3.
    destruct (shp_gen _ _ _ _ S3) as [f ->]. rewrite mget2_gen by lia. cbn [bind].
    assert (L : iH * nR * nC + iR * nC + iC < nH * nR * nC). { assert (iR * nC + iC < nR * nC) by nia. replace (iH * nR * nC) with (iH * (nR * nC)) by ring. replace (nH * nR * nC) with (nH * (nR * nC)) by ring. nia. }
    rewrite mget2_gen by auto. cbn [bind]. rewrite mset2_gen by lia. eexists. split; [reflexivity|]. apply gen_shp.
  - destruct (shp_gen _ _ _ _ S) as [f ->]. rewrite E. cbn [bind]. unfold mscale. rewrite (@mapLoop_gen F). eauto.
Qed.
Lemma bwdConv_ok : forall v fast first n W C x G gin, mwf gin -> mrows x = n -> mcols x = vI v * vR v * vC v ->
  exists gw gi, bwdConv F v fast first n (mgen (vO v) (vI v * vkr v * vkc v) W) (mgen (n * oR v * oC v) (vI v * vkr v * vkc v) C) x (mgen n (vO v * oR v * oC v) G) gin = Ok (mgen (vO v) (vI v * vkr v * vkc v) gw, gi) /\
    mwf gi /\ (first = false -> shp n (vI v * vR v * vC v) gi).
Proof.
  intros v fast first n W C x G gin Hg Er Ec. unfold bwdConv. change (mrows (mgen n (vO v * oR v * oC v) G)) with n. change (mcols (mgen n (vO v * oR v * oC v) G)) with (vO v * oR v * oC v).
  unfold assert_. rewrite Nat.eqb_refl. replace (vO v * oR v * oC v =? oR v * oC v * vO v) with true by (symmetry; apply Nat.eqb_eq; ring). cbn [bind].
  rewrite (tens_img F n (vO v) (oR v) (oC v) G), reshapeFromOut_gen. cbn [bind]. rewrite mmul_gen. cbn [bind].
  match goal with |- context [mgen (vO v) (vI v * vkr v * vkc v) ?g] => set (gw := g) end.
  change (mrows (mgen (vO v) (vI v * vkr v * vkc v) gw)) with (vO v). change (mcols (mgen (vO v) (vI v * vkr v * vkc v) gw)) with (vI v * vkr v * vkc v).
  change (mrows (mgen (vO v) (vI v * vkr v * vkc v) W)) with (vO v). change (mcols (mgen (vO v) (vI v * vkr v * vkc v) W)) with (vI v * vkr v * vkc v). rewrite !Nat.eqb_refl. cbn [bind].
  destruct first. { do 2 eexists. split; [reflexivity|]. split; [auto|discriminate]. }
  rewrite mtranspose_gen. cbn [bind]. rewrite mmul_gen. cbn [bind].
  assert (Q : forall (e : res M) g0, e = Ok (mflat n (vI v * vR v * vC v) g0) -> exists gw0 gi, (gi0 <- e;; (if mrows gi0 =? mrows x then Ok tt else Err EAssert);;; (if mcols gi0 =? mcols x then Ok tt else Err EAssert);;; Ok (mgen (vO v) (vI v * vkr v * vkc v) gw, gi0)) =
    Ok (mgen (vO v) (vI v * vkr v * vkc v) gw0, gi) /\ mwf gi /\ (false = false -> shp n (vI v * vR v * vC v) gi)).
  { intros e g0 ->. cbn [bind]. change (mrows (mflat n (vI v * vR v * vC v) g0)) with n. change (mcols (mflat n (vI v * vR v * vC v) g0)) with (vI v * vR v * vC v). rewrite Er, Ec, !Nat.eqb_refl. cbn [bind].
    rewrite mflat_gen. do 2 eexists. split; [reflexivity|]. split; [apply mwf_gen|intros; apply gen_shp]. }
  destruct fast; eapply Q; [apply col2imLUT_gen|apply col2im_gen]; auto.
Qed.

Ltac nn := match goal with H : none ?m, G : negb (msize ?m =? 0) = true |- _ => exfalso; exact (none_no _ _ H G) end.
Ltac rds := cbn [lk ltrain lfirst lw lgw lb lgb lmem lns lbi setP setW setB setWB setGW setGB setGWB setMem setNs].
Ltac kp := unfold keeps, hasWeights, hasBiases; rds; (split; [solve [auto]|]); (split; [solve [auto]|]); (split; [solve [auto]|]); split; intros; try nn; auto.
Ltac ft K := unfold fits; rds; rewrite ?K; repeat match goal with |- _ /\ _ => split end; auto with fit.
Ltac gr := unfold graded, hasWeights, hasBiases; rds; split; intros; try nn; auto with fit.
Ltac fg := match goal with |- mwf _ /\ _ => split; [try (match goal with |- mwf (if ?b then _ else _) => destruct b end); auto with fit|let E := fresh in intro E; try rewrite E; auto with fit] end.

Lemma bwd_fits : forall (l : layer F) n k m x g gin, fits l k m -> ready F l n k -> shp n k x -> shp n m g -> mwf gin ->
  exists l' gi, layBackward F l x g gin = Ok (l', gi) /\ (mwf gi /\ (lfirst l = false -> shp n k gi)) /\ fits l' k m /\ keeps F l l' /\ graded F l'.
Proof.
  intros l n k m x g gin H Rd Hx Hg Hgin. pose proof H as H'. unfold fits in H. destruct H as (Hk & Hm & W1 & W2 & W3 & H).
  pose proof Hx as Hx'. destruct (shp_gen _ _ _ _ Hx) as [X ->]. destruct (shp_gen _ _ _ _ Hg) as [G ->].
  unfold ready in Rd. unfold layBackward. destruct (lk l) eqn:K; try contradiction.
  - destruct H as [A B]. destruct (shp_gen _ _ _ _ A) as [W EW]. destruct (shp_gen _ _ _ _ B) as [b Eb]. rewrite EW, bwdDense_gen. cbn [bind].
    do 2 eexists. split; [reflexivity|]. split; [fg|]. split; [ft K|]. split; [kp|]. gr; rewrite ?EW, ?Eb; apply gen_shp.
  - destruct H as [A B]. destruct (shp_gen _ _ _ _ A) as [W EW]. rewrite EW, bwdDot_gen. cbn [bind].
    do 2 eexists. split; [reflexivity|]. split; [fg|]. split; [ft K|]. split; [kp|]. gr; rewrite ?EW; apply gen_shp.
  - destruct H as (-> & A & B & C). destruct (shp_gen _ _ _ _ Rd) as [b Eb]. rewrite bwdBias_gen. cbn [bind].
    do 2 eexists. split; [reflexivity|]. split; [fg|]. split; [ft K|]. split; [kp|]. gr; rewrite ?Eb; apply gen_shp.
  - destruct H as (-> & A & B). destruct (shp_gen _ _ _ _ Rd) as [W EW]. rewrite EW, bwdGain_gen. cbn [bind].
    do 2 eexists. split; [reflexivity|]. split; [fg|]. split; [ft K|]. split; [kp|]. gr; rewrite ?EW; apply gen_shp.
  - destruct H as (-> & A). destruct Rd as [R1 R2]. destruct (shp_gen _ _ _ _ R1) as [W EW]. destruct (shp_gen _ _ _ _ R2) as [b Eb]. rewrite EW, bwdAffine_gen. cbn [bind].
    do 2 eexists. split; [reflexivity|]. split; [fg|]. split; [ft K|]. split; [kp|]. gr; rewrite ?EW, ?Eb; apply gen_shp.
  - destruct H as (-> & A & B & C). destruct (shp_gen _ _ _ _ A) as [W EW]. destruct (shp_gen _ _ _ _ B) as [GW EG]. rewrite EW, EG, bwdGlobalGain_gen. cbn [bind].
    do 2 eexists. split; [reflexivity|]. split; [fg|]. split; [ft K|]. split; [kp|]. gr; rewrite ?EW; apply gen_shp.
  - destruct H as (-> & A & B & C). destruct (shp_gen _ _ _ _ B) as [b Eb]. destruct (shp_gen _ _ _ _ C) as [gb EG]. rewrite EG, bwdGlobalBias_gen. cbn [bind].
    do 2 eexists. split; [reflexivity|]. split; [fg|]. split; [ft K|]. split; [kp|]. gr; rewrite ?Eb; apply gen_shp.
  - destruct H as (-> & A & A' & B & B'). destruct (shp_gen _ _ _ _ A) as [W EW]. destruct (shp_gen _ _ _ _ A') as [GW EG]. destruct (shp_gen _ _ _ _ B) as [b Eb]. destruct (shp_gen _ _ _ _ B') as [gb EB].
    rewrite EW, EG, EB, bwdGlobalAffine_gen. cbn [bind].
    do 2 eexists. split; [reflexivity|]. split; [fg|]. split; [ft K|]. split; [kp|]. gr; rewrite ?EW, ?Eb; apply gen_shp.
  - destruct H as (-> & -> & A & B). destruct (shp_gen _ _ _ _ B) as [b Eb]. unfold bwdChannelBias. change (mrows (mgen n (nH * nR * nC) G)) with n.
    destruct (channelWiseMean_ok n nH nR nC G) as [f Ef]. rewrite Ef. cbn [bind].
    do 2 eexists. split; [reflexivity|]. split; [fg|]. split; [ft K|]. split; [kp|]. gr; rewrite ?Eb; apply gen_shp.
  - destruct H as (-> & A & B & C). destruct a as [a|]; [|congruence]. rewrite bwdAct_gen by auto. cbn [bind].
    do 2 eexists. split; [reflexivity|]. split; [fg|]. split; [auto|]. split; [apply keeps_refl|gr].
  - destruct H as (-> & A & B & C & D). destruct a1 as [a1|]; [|congruence]. destruct a2 as [a2|]; [|congruence]. destruct (lfirst l) eqn:Fi.
    + unfold bwdGated. cbn [bind]. do 2 eexists. split; [reflexivity|]. split; [split; [auto|discriminate]|]. split; [auto|]. split; [apply keeps_refl|gr].
    + rewrite bwdGated_gen by auto. cbn [bind]. do 2 eexists. split; [reflexivity|]. split; [fg|]. split; [auto|]. split; [apply keeps_refl|gr].
  - destruct H as (-> & A & B). destruct (lfirst l) eqn:Fi.
    + unfold bwdCRelu. cbn [bind]. do 2 eexists. split; [reflexivity|]. split; [split; [auto|discriminate]|]. split; [auto|]. split; [apply keeps_refl|gr].
    + rewrite bwdCRelu_gen by auto. cbn [bind]. do 2 eexists. split; [reflexivity|]. split; [fg|]. split; [auto|]. split; [apply keeps_refl|gr].
  - destruct H as (-> & A & B). destruct Rd as [R1 R2]. destruct (shp_gen _ _ _ _ R1) as [W EW]. destruct (shp_gen _ _ _ _ R2) as [GW EG]. rewrite EW, EG, bwdPRelu_gen. cbn [bind].
    do 2 eexists. split; [reflexivity|]. split; [fg|]. split; [ft K; right; split; auto with fit|]. split; [kp|]. gr; rewrite ?EW; apply gen_shp.
  - destruct H as (-> & A & B). destruct (shp_gen _ _ _ _ Rd) as [S ES]. rewrite ES. destruct (lfirst l) eqn:Fi.
    + unfold bwdRRelu. cbn [bind]. do 2 eexists. split; [reflexivity|]. split; [split; [auto|discriminate]|]. split; [auto|]. split; [apply keeps_refl|gr].
    + rewrite bwdRRelu_gen. cbn [bind]. do 2 eexists. split; [reflexivity|]. split; [fg|]. split; [auto|]. split; [apply keeps_refl|gr].
  - destruct H as (-> & A & B). destruct Rd as [R1 R2]. destruct (shp_gen _ _ _ _ R1) as [W EW]. destruct (shp_gen _ _ _ _ R2) as [GW EG]. rewrite EW, EG.
    pose proof (bwdPELU_gen F (lfirst l) n k W GW X G gin Hk) as E. cbv zeta in E. rewrite E. cbn [bind].
    do 2 eexists. split; [reflexivity|]. split; [fg|]. split; [ft K; right; split; auto with fit|]. split; [kp; rewrite EW; auto|]. gr.
  - destruct H as (-> & A & B). destruct Rd as [R1 R2]. destruct (shp_gen _ _ _ _ R1) as [W EW]. destruct (shp_gen _ _ _ _ R2) as [GW EG]. rewrite EW, EG, bwdTERELU_gen. cbn [bind].
    do 2 eexists. split; [reflexivity|]. split; [fg|]. split; [ft K; right; split; auto with fit|]. split; [kp|]. gr; rewrite ?EW; apply gen_shp.
  - destruct H as (-> & A & B & C). unfold bwdDropout. destruct (lfirst l) eqn:Fi.
    + cbn [bind]. do 2 eexists. split; [reflexivity|]. split; [split; [auto|discriminate]|]. split; [auto|]. split; [apply keeps_refl|gr].
    + destruct Rd as [Rd|Rd].
      * rewrite Rd. cbn [negb bind]. do 2 eexists. split; [reflexivity|]. split; [fg|]. split; [auto|]. split; [apply keeps_refl|gr].
      * destruct (shp_gen _ _ _ _ Rd) as [S ES]. rewrite ES. destruct (negb (feq F rate (f0 F))); [rewrite mcwiseProduct_gen|]; cbn [bind]; do 2 eexists; (split; [reflexivity|]); (split; [fg|]); (split; [auto|]); (split; [apply keeps_refl|gr]).
  - destruct H as (-> & A & B). unfold bwdPass. cbn [bind]. do 2 eexists. split; [reflexivity|]. split; [fg|]. split; [auto|]. split; [apply keeps_refl|gr].
  - destruct H as (-> & A & B). unfold bwdPass. cbn [bind]. do 2 eexists. split; [reflexivity|]. split; [fg|]. split; [auto|]. split; [apply keeps_refl|gr].
  - destruct H as (-> & A & B). destruct (lfirst l) eqn:Fi.
    + unfold bwdSoftmax. cbn [bind]. do 2 eexists. split; [reflexivity|]. split; [split; [auto|discriminate]|]. split; [auto|]. split; [apply keeps_refl|gr].
    + rewrite bwdSoftmax_gen by auto. cbn [bind]. do 2 eexists. split; [reflexivity|]. split; [fg|]. split; [auto|]. split; [apply keeps_refl|gr].
  - destruct H as (-> & A & B). destruct (lfirst l) eqn:Fi.
    + unfold bwdSoftmin. cbn [bind]. do 2 eexists. split; [reflexivity|]. split; [split; [auto|discriminate]|]. split; [auto|]. split; [apply keeps_refl|gr].
    + rewrite bwdSoftmin_gen by auto. cbn [bind]. do 2 eexists. split; [reflexivity|]. split; [fg|]. split; [auto|]. split; [apply keeps_refl|gr].
  - destruct H as ((f & ->) & -> & A & B). destruct (shp_gen _ _ _ _ B) as [b Eb]. rewrite bwdTDBias_gen by nia. cbn [bind].
    do 2 eexists. split; [reflexivity|]. split; [fg|]. split; [ft K; eauto|]. split; [kp|]. gr; rewrite ?Eb; apply gen_shp.
  - destruct H as ((f & -> & ->) & A & B). destruct (shp_gen _ _ _ _ A) as [W EW]. rewrite EW, bwdTDDot_gen by nia. cbn [bind].
    do 2 eexists. split; [reflexivity|]. split; [fg|]. split; [ft K; eauto|]. split; [kp|]. gr; rewrite ?EW; apply gen_shp.
  - destruct H as ((f & -> & ->) & A & B). destruct (shp_gen _ _ _ _ A) as [W EW]. destruct (shp_gen _ _ _ _ B) as [b Eb]. rewrite EW, bwdTDDense_gen by nia. cbn [bind].
    do 2 eexists. split; [reflexivity|]. split; [fg|]. split; [ft K; eauto|]. split; [kp|]. gr; rewrite ?EW, ?Eb; apply gen_shp.
  - destruct H as (A & B & -> & -> & C & D). destruct p as [pr pc ph fr fc]. cbn [pR pC pH pfr pfc] in *. unfold poR, poC in *. cbn [pR pC pfr pfc] in *. destruct (lfirst l) eqn:Fi.
    + unfold bwdAvgPool. cbn [bind]. do 2 eexists. split; [reflexivity|]. split; [split; [auto|discriminate]|]. split; [auto|]. split; [apply keeps_refl|gr].
    + destruct (bwdAvgPool_ok pr pc ph fr fc n G gin Hm A B Hgin) as (gi & E & S). rewrite E. cbn [bind]. do 2 eexists. split; [reflexivity|]. split; [split; [eauto with fit|auto]|]. split; [auto|]. split; [apply keeps_refl|gr].
  - destruct H as (-> & -> & C & D). destruct (lfirst l) eqn:Fi.
    + unfold bwdGlobalAvgPool. cbn [bind]. do 2 eexists. split; [reflexivity|]. split; [split; [auto|discriminate]|]. split; [auto|]. split; [apply keeps_refl|gr].
    + rewrite bwdGlobalAvgPool_gen by auto. rewrite tens_unimg. cbn [bind]. do 2 eexists. split; [reflexivity|]. split; [fg|]. split; [auto|]. split; [apply keeps_refl|gr].
  - destruct H as (-> & -> & C & D). destruct (lfirst l) eqn:Fi.
    + unfold bwdZeroPad. cbn [bind]. do 2 eexists. split; [reflexivity|]. split; [split; [auto|discriminate]|]. split; [auto|]. split; [apply keeps_refl|gr].
    + rewrite (tens_img F n nH (nR + 2 * nB) (nC + 2 * nB) G), bwdZeroPad_gen by auto. rewrite tens_unimg. cbn [bind]. do 2 eexists. split; [reflexivity|]. split; [fg|]. split; [auto|]. split; [apply keeps_refl|gr].
  - destruct H as (C & -> & -> & A & B). destruct Rd as [R1 R2]. destruct (shp_gen _ _ _ _ A) as [W EW]. destruct (shp_gen _ _ _ _ R1) as [S ES]. rewrite EW, ES, R2.
    destruct (bwdConv_ok v fast (lfirst l) n W S (mgen n (vI v * vR v * vC v) X) G gin Hgin eq_refl eq_refl) as (gw & gi & E & Q1 & Q2). rewrite E. cbn [bind].
    do 2 eexists. split; [reflexivity|]. split; [auto|]. split; [ft K|]. split; [kp|]. gr; rewrite ?EW; apply gen_shp.
Qed.
End Any.
