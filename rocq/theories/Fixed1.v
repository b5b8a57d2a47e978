(* Fixed1.v - a zero gradient: the backward pass of a layer and a step of an optimiser *)
From Coq Require Import String List Arith Bool Lia ZArith Reals Lra.
From Verif Require Import Base Scalar Mat SpecMat SpecReal RSum MatFacts MatLoops MatProofs MatProofs2 Act Loss SpecLoss LossProofs Optim SpecOpt OptProofs Regul LayMat LayImg LayKit LayTens ImgKit LayGrad LayCurve ImgDot Layer Net
  LayProofs1 LayProofs3 LayProofs4 LayProofs5 LayProofs6 LayProofs7 LayProofs8 LayPool1 SpecFit FitLay1 FitLay2 FitNet2 SpecResume SpecFixed.
Import ListNotations.
Local Open Scope R_scope.

Section Any.
Variable jk : R.
Notation F := (ROps jk).
Notation M := (mat F).
Definition zeros (r c : nat) : M := @mgen R r c (fun _ _ => 0).
Lemma zsum : forall n (f : nat -> R), (forall i, (i < n)%nat -> f i = 0) -> fsum F n f = 0.
Proof. intros n f H. rewrite fsum_R. rewrite (rsum_ext n f (fun _ => 0)) by auto. induction n; simpl; auto. rewrite IHn by auto. lra. Qed.
Lemma zdiv : forall x : R, 0 / x = 0. Proof. intro. unfold Rdiv. ring. Qed.

(* what a backward pass on a zero gradient leaves *)
Definition still (l l' : layer F) : Prop := lk l' = lk l /\ lfirst l' = lfirst l /\ ltrain l' = ltrain l /\ lw l' = lw l /\ lb l' = lb l /\
  (hasWeights l = true -> lgw l' = zeros (mrows (lw l)) (mcols (lw l))) /\ (hasBiases l = true -> lgb l' = zeros (mrows (lb l)) (mcols (lb l))).
Lemma none_b : forall l : layer F, none (lb l) -> hasBiases l = true -> False.
Proof. intros l [_ H] B. unfold hasBiases in B. rewrite H in B. discriminate. Qed.
Lemma none_w : forall l : layer F, none (lw l) -> hasWeights l = true -> False.
Proof. intros l [_ H] B. unfold hasWeights in B. rewrite H in B. discriminate. Qed.

Ltac z0 := first [ring | unfold Rdiv; ring].
Ltac ze := rewrite ?fofN_R; cbn [fmul fdiv fadd fopp fsub f0 f1 ROps];
  repeat (rewrite zsum by (intros; rewrite ?zsum by (intros; rewrite ?zsum by (intros; cbn [fmul ROps]; z0); cbn [fmul ROps]; z0); cbn [fmul ROps]; z0)); try z0.
Ltac zm := apply mgen_ext; intros; ze.
Ltac st := split; [reflexivity|]; split; [reflexivity|]; split; [reflexivity|]; split; [reflexivity|]; split; [reflexivity|]; split; intro Q.
Lemma zero_bwd : forall (l : layer F) n k m X gin, fits l k m -> plainKind (lk l) -> sized F l -> mwf gin -> exists l' gi,
  layBackward F l (mgen n k X) (zeros n m) gin = Ok (l', gi) /\ still l l' /\ (lfirst l = false -> gi = zeros n k).
Proof.
  intros l n k m X gin H Pk Sz Hgin. pose proof H as H'. unfold fits in H. destruct H as (Hk & Hm & W1 & W2 & W3 & H). unfold zeros.
  unfold layBackward. unfold sized in Sz. destruct (lk l) eqn:K; try contradiction.
  - destruct H as [A B]. destruct (shp_gen _ _ _ _ A) as [W EW]. destruct (shp_gen _ _ _ _ B) as [b Eb]. rewrite EW, (bwdDense_gen F). cbn [bind].
    do 2 eexists. split; [reflexivity|]. split; [st|]. { cbn [lgw setGWB]. rewrite EW. zm. } { rewrite Eb. zm. } { intros ->. zm. }
  - destruct H as [A B]. destruct (shp_gen _ _ _ _ A) as [W EW]. rewrite EW, (bwdDot_gen F). cbn [bind].
    do 2 eexists. split; [reflexivity|]. split; [st|]. { cbn [lgw setGW]. rewrite EW. zm. } { destruct (none_b l B Q). } { intros ->. zm. }
  - destruct H as (-> & A & B & C). destruct B as [[_ B]|B]; [congruence|]. destruct (shp_gen _ _ _ _ B) as [b Eb]. rewrite (bwdBias_gen F). cbn [bind].
    do 2 eexists. split; [reflexivity|]. split; [st|]. { destruct (none_w l A Q). } { rewrite Eb. zm. } { intros ->. reflexivity. }
  - destruct H as (-> & A & B). destruct A as [[_ A]|A]; [congruence|]. destruct (shp_gen _ _ _ _ A) as [W EW]. rewrite EW, (bwdGain_gen F). cbn [bind].
    do 2 eexists. split; [reflexivity|]. split; [st|]. { cbn [lgw setGW]. rewrite EW. zm. } { destruct (none_b l B Q). } { intros ->. zm. }
  - destruct H as (-> & A). destruct A as [[[_ A] _]|[A B]]; [congruence|]. destruct (shp_gen _ _ _ _ A) as [W EW]. destruct (shp_gen _ _ _ _ B) as [b Eb]. rewrite EW, (bwdAffine_gen F). cbn [bind].
    do 2 eexists. split; [reflexivity|]. split; [st|]. { cbn [lgw setGWB]. rewrite EW. zm. } { rewrite Eb. zm. } { intros ->. zm. }
  - destruct H as (-> & A & B & C). destruct (shp_gen _ _ _ _ A) as [W EW]. destruct (shp_gen _ _ _ _ B) as [GW EG]. rewrite EW, EG, (bwdGlobalGain_gen F). cbn [bind].
    do 2 eexists. split; [reflexivity|]. split; [st|]. { cbn [lgw setGW]. rewrite EW. zm. } { destruct (none_b l C Q). } { intros ->. zm. }
  - destruct H as (-> & A & B & C). destruct (shp_gen _ _ _ _ B) as [b Eb]. destruct (shp_gen _ _ _ _ C) as [gb EG]. rewrite EG, (bwdGlobalBias_gen F). cbn [bind].
    do 2 eexists. split; [reflexivity|]. split; [st|]. { destruct (none_w l A Q). } { rewrite Eb. zm. } { intros ->. reflexivity. }
  - destruct H as (-> & A & A' & B & B'). destruct (shp_gen _ _ _ _ A) as [W EW]. destruct (shp_gen _ _ _ _ A') as [GW EG]. destruct (shp_gen _ _ _ _ B) as [b Eb]. destruct (shp_gen _ _ _ _ B') as [gb EB].
    rewrite EW, EG, EB, (bwdGlobalAffine_gen F). cbn [bind].
    do 2 eexists. split; [reflexivity|]. split; [st|]. { cbn [lgw setGWB]. rewrite EW. zm. } { rewrite Eb. zm. } { intros ->. zm. }
  - destruct H as (-> & -> & A & B). destruct (shp_gen _ _ _ _ B) as [b Eb]. 
    assert (exists f, bwdChannelBias F nR nC nH (lfirst l) (mgen n (nH * nR * nC) (fun _ _ => 0)) gin = Ok (mgen 1 nH f, if lfirst l then gin else mgen n (nH * nR * nC) (fun _ _ => 0)) /\ forall i j, f i j = 0) as (f & E & Hf).
    { unfold bwdChannelBias. change (mrows (mgen n (nH * nR * nC) _)) with n. rewrite gen_tens. rewrite channelWiseMean_tens. cbn [bind]. eexists. split; [reflexivity|]. intros i j. cbv beta. rewrite (rsum_zero n); [apply Rmult_0_l|]. intros. apply rsum_zero. intros. apply rsum_zero. reflexivity. }
    change (@mgen R n) with (@mgen (T F) n). change (@mgen R n) with (@mgen (T F) n) in E. rewrite E. cbn [bind]. do 2 eexists. split; [reflexivity|]. split; [st|]. { destruct (none_w l A Q). } { rewrite Eb. apply mgen_ext. intros. apply Hf. } { intros ->. reflexivity. }
  - destruct H as (-> & A & B & C). destruct a as [a|]; [|congruence]. rewrite (bwdAct_gen F) by auto. cbn [bind].
    do 2 eexists. split; [reflexivity|]. split; [st|]. { destruct (none_w l B Q). } { destruct (none_b l C Q). } { intros ->. zm. }
  - destruct H as (-> & A & B & C & D). destruct a1 as [a1|]; [|congruence]. destruct a2 as [a2|]; [|congruence]. destruct (lfirst l) eqn:Fi.
    + unfold bwdGated. cbn [bind]. do 2 eexists. split; [reflexivity|]. split; [|discriminate]. st. { destruct (none_w l C Q). } { destruct (none_b l D Q). }
    + rewrite (bwdGated_gen F) by auto. cbn [bind]. do 2 eexists. split; [reflexivity|]. split; [st|]. { destruct (none_w l C Q). } { destruct (none_b l D Q). } { intros _. apply mgen_ext. intros. destruct (_ <? _)%nat; ze. }
  - destruct H as (-> & A & B). destruct (lfirst l) eqn:Fi.
    + unfold bwdCRelu. cbn [bind]. do 2 eexists. split; [reflexivity|]. split; [|discriminate]. st. { destruct (none_w l A Q). } { destruct (none_b l B Q). }
    + rewrite (bwdCRelu_gen F) by auto. cbn [bind]. do 2 eexists. split; [reflexivity|]. split; [st|]. { destruct (none_w l A Q). } { destruct (none_b l B Q). } { intros _. apply mgen_ext. intros. destruct (flt F _ _); ze. }
  - destruct H as (-> & A & B). destruct A as [[_ A]|[A A']]; [congruence|]. destruct (shp_gen _ _ _ _ A) as [W EW]. destruct (shp_gen _ _ _ _ A') as [GW EG]. rewrite EW, EG, (bwdPRelu_gen F). cbn [bind].
    do 2 eexists. split; [reflexivity|]. split; [st|]. { cbn [lgw setGW]. rewrite EW. apply mgen_ext. intros. rewrite fofN_R.
      match goal with |- fdiv F ?v _ = 0 => assert (v = 0) as -> end; [|cbn [fdiv ROps]; z0]. cbn [f0 ROps]. induction (seq 0 n) as [|q v IH]; cbn [fold_left]; auto. destruct (flt F _ _); auto. cbn [fadd fmul ROps]. rewrite Rmult_0_r, Rplus_0_r. auto. }
    { destruct (none_b l B Q). } { intros ->. apply mgen_ext. intros. destruct (flt F _ _); ze. }
  - destruct H as (-> & A & B). destruct (lfirst l) eqn:Fi.
    + unfold bwdSoftmax. cbn [bind]. do 2 eexists. split; [reflexivity|]. split; [|discriminate]. st. { destruct (none_w l A Q). } { destruct (none_b l B Q). }
    + rewrite (bwdSoftmax_gen F) by auto. cbn [bind]. do 2 eexists. split; [reflexivity|]. split; [st|]. { destruct (none_w l A Q). } { destruct (none_b l B Q). } { intros _. apply mgen_ext. intros. cbn [fmul ROps]. z0. }
  - destruct H as (-> & A & B). destruct (lfirst l) eqn:Fi.
    + unfold bwdSoftmin. cbn [bind]. do 2 eexists. split; [reflexivity|]. split; [|discriminate]. st. { destruct (none_w l A Q). } { destruct (none_b l B Q). }
    + rewrite (bwdSoftmin_gen F) by auto. cbn [bind]. do 2 eexists. split; [reflexivity|]. split; [st|]. { destruct (none_w l A Q). } { destruct (none_b l B Q). } { intros _. apply mgen_ext. intros. cbv zeta. cbn [fmul fdiv fopp ROps]. z0. }
  - destruct H as ((f & ->) & -> & A & B). destruct (shp_gen _ _ _ _ B) as [b Eb]. rewrite (bwdTDBias_gen F) by nia. cbn [bind].
    do 2 eexists. split; [reflexivity|]. split; [st|]. { destruct (none_w l A Q). } { rewrite Eb. unfold frames. zm. } { intros ->. reflexivity. }
  - destruct H as ((f & -> & ->) & A & B). destruct (shp_gen _ _ _ _ A) as [W EW]. rewrite EW, (bwdTDDot_gen F) by nia. cbn [bind].
    do 2 eexists. split; [reflexivity|]. split; [st|]. { cbn [lgw setGW]. rewrite EW. unfold frames. zm. } { destruct (none_b l B Q). } { intros ->. unfold unframes, frames. zm. }
  - destruct H as ((f & -> & ->) & A & B). destruct (shp_gen _ _ _ _ A) as [W EW]. destruct (shp_gen _ _ _ _ B) as [b Eb]. rewrite EW, (bwdTDDense_gen F) by nia. cbn [bind].
    do 2 eexists. split; [reflexivity|]. split; [st|]. { cbn [lgw setGWB]. rewrite EW. unfold frames. zm. } { rewrite Eb. unfold frames. zm. } { intros ->. unfold unframes, frames. zm. }
  - destruct H as (A & B & -> & -> & C & D). destruct p as [pr pc ph fr fc]. cbn [pR pC pH pfr pfc] in *. unfold poR, poC in *. cbn [pR pC pfr pfc] in *. destruct (lfirst l) eqn:Fi.
    + unfold bwdAvgPool. cbn [bind]. do 2 eexists. split; [reflexivity|]. split; [|discriminate]. st. { destruct (none_w l C Q). } { destruct (none_b l D Q). }
    + destruct (bwdAvgPool_R jk n ph pr pc fr fc (fun _ _ _ _ => 0) gin Hgin) as (gi & E & S). rewrite (tens_img F n ph (pr / fr) (pc / fc)). unfold img at 1. rewrite E. cbn [bind]. do 2 eexists. split; [reflexivity|]. split; [st|]. { destruct (none_w l C Q). } { destruct (none_b l D Q). }
      intros _. apply mgen_ext. intros i j Hi Hj. specialize (S (delta i j)). rewrite dot_delta in S by auto. rewrite S. unfold dot4. rewrite rsum_zero; auto. intros. apply rsum_zero. intros. apply rsum_zero. intros. apply rsum_zero. intros. ring.
  - destruct H as (-> & -> & C & D). destruct (lfirst l) eqn:Fi.
    + unfold bwdGlobalAvgPool. cbn [bind]. do 2 eexists. split; [reflexivity|]. split; [|discriminate]. st. { destruct (none_w l C Q). } { destruct (none_b l D Q). }
    + rewrite (bwdGlobalAvgPool_gen F) by auto. rewrite tens_unimg. cbn [bind]. do 2 eexists. split; [reflexivity|]. split; [st|]. { destruct (none_w l C Q). } { destruct (none_b l D Q). } { intros _. unfold unimg. apply mgen_ext. intros. cbn [fmul ROps]. z0. }
  - destruct H as (-> & -> & C & D). destruct (lfirst l) eqn:Fi.
    + unfold bwdZeroPad. cbn [bind]. do 2 eexists. split; [reflexivity|]. split; [|discriminate]. st. { destruct (none_w l C Q). } { destruct (none_b l D Q). }
    + rewrite (tens_img F n nH (nR + 2 * nB) (nC + 2 * nB)), (bwdZeroPad_gen F) by auto. rewrite tens_unimg. cbn [bind]. do 2 eexists. split; [reflexivity|]. split; [st|]. { destruct (none_w l C Q). } { destruct (none_b l D Q). } { intros _. reflexivity. }
Qed.

(** * optimisers *)
Definition zst (k : optKind) (s : cst F) : Prop := cm F s = 0 /\ cp F s = 0 /\ (k = ORPROPm \/ k = OiRPROPm \/ cv F s = 0).
Lemma max0 : stdmax F (0 : R) (0 : R) = 0.
Proof. unfold stdmax. destruct (flt F _ _); reflexivity. Qed.
Lemma rprop0 : forall w u : R, rpropMove F w (0 : R) u = w.
Proof. intros w u. unfold rpropMove. cbn [flt f0 ROps]. unfold Rltb. destruct (Rlt_dec 0 0); [lra|reflexivity]. Qed.
Lemma zero_cstep : forall k lr dec mom b1 b2 s w, rests k -> zst k s -> snd (cstep F k lr dec mom b1 b2 s w (0 : R)) = w /\ zst k (fst (cstep F k lr dec mom b1 b2 s w (0 : R))).
Proof.
  intros k lr dec mom b1 b2 [m v p] w [N1 N2] (Z1 & Z2 & Z3). cbn [cm cv cp] in *. subst m p.
  assert (Zv : k = ORPROPm \/ k = OiRPROPm \/ v = 0) by exact Z3.
  destruct k; try congruence; try (destruct Z3 as [Z3|[Z3|Z3]]; try discriminate; subst v); cbn [cstep fst snd cm cv cp]; unfold mix, sqr, zst; cbn [cm cv cp fmul fadd fsub fopp fdiv f0 f1 fabs ROps];
    rewrite ?Rabs_R0, ?Rmult_0_l, ?Rmult_0_r, ?Rplus_0_l, ?Ropp_0, ?Rmult_0_l, ?zdiv, ?Rplus_0_r, ?Rmult_0_l, ?zdiv, ?Rplus_0_r, ?Rminus_0_r, ?Rmult_0_l, ?zdiv, ?Rplus_0_r, ?max0; auto.
  - rewrite rprop0. auto.
  - destruct (flt F (0 : R) (0 : R)); rewrite rprop0; (split; [reflexivity | split; [reflexivity | split; [reflexivity | right; left; reflexivity]]]).
Qed.
Definition rested (r c : nat) (o : opt F) : Prop := rests (okind F o) /\ wfOpt F o /\ (fresh F o \/ exists st, stored F r c o st /\ forall i j, zst (okind F o) (st i j)).
Lemma rested_step : forall r c o (W : nat -> nat -> F) o' w', rested r c o -> optimize F (absFloat F) o (mgen r c W) (zeros r c) = Ok (o', w') -> w' = mgen r c W /\ rested r c o'.
Proof.
  intros r c o W o' w' (Rs & Wo & H) E. unfold zeros in E.
  assert (exists st, loaded F r c o (fun _ _ => 0) st /\ forall i j, zst (okind F o) (st i j)) as (st & L & Z).
  { destruct H as [H|(st & H & Z)]; [|exists st; split; auto; apply stored_loaded; auto]. eexists. split; [apply fresh_loaded; exact H|]. intros i j. unfold zst. destruct (okind F o); cbn [cinit cm cv cp f0 ROps]; auto. }
  destruct (optimize_step F r c o st W (fun _ _ => 0) L) as (o1 & E1 & S1 & K1 & _). cbv zeta in E1, S1. change (@mgen R r c (fun _ _ : nat => 0)) with (@mgen (T F) r c (fun _ _ => 0)) in E. rewrite E1 in E. injection E; intros <- <-.
  assert (Q : forall i j, snd (cstep F (okind F o) (olr F o) (odecay F o) (omom F o) (b1p F o) (b2p F o) (st i j) (W i j) (0:R)) = W i j /\ zst (okind F o) (fst (cstep F (okind F o) (olr F o) (odecay F o) (omom F o) (b1p F o) (b2p F o) (st i j) (W i j) (0:R)))) by (intros; apply zero_cstep; auto).
  split; [apply mgen_ext; intros; apply Q|]. split; [rewrite K1; auto|]. split; [eapply optimize_wf; eauto|]. right. eexists. split; [exact S1|]. intros. rewrite K1. apply Q.
Qed.
Lemma init_kind : forall o, okind F (init F o) = okind F o.
Proof. intros o. unfold init. destruct (okind F o); reflexivity. Qed.
Lemma rested_init : forall r c o, rested r c o -> rested r c (init F o).
Proof. intros r c o (Rs & Wo & _). split; [rewrite init_kind; auto|]. destruct (opt_init F r c o Wo) as [A _]. split; auto. left. apply fresh_init; auto. Qed.
Lemma rested_new : forall r c k lr dec mom, rests k -> rested r c (set_params F (newOpt F k) lr dec mom).
Proof.
  intros r c k lr dec mom H. unfold set_params. apply rested_init. split; [exact H|]. split; [exact (wf_new F k)|]. left. pose proof (wf_new F k) as (A & B & C). split; [exact A|]. split; [exact B|]. split; [exact C|]. cbn [okind newOpt s_m s_v s_p]. destruct k; auto.
Qed.
End Any.
