(* FitLay1.v - forward and backward passes of well-sized layers succeed and keep the sizes *)
From Coq Require Import String List Arith Bool Lia ZArith.
From Verif Require Import Base Scalar Mat SpecMat MatFacts MatProofs MatLoops Loss LayMat LayImg Layer Net LayKit ImgKit LayTens ImgDot
  LayProofs1 LayProofs3 LayProofs4 LayProofs5 LayProofs6 LayProofs7 LayProofs8 LayPool1 LayConv1 LayConv2 SpecInit InitProofs SpecFit.
Import ListNotations.
Local Open Scope nat_scope.

Section Any.
Variable F : FOps.
Notation M := (mat F).

Lemma szg : forall r c (f : nat -> nat -> F), msize (mgen r c f) = r * c.
Proof. reflexivity. Qed.
Lemma shp_gen : forall r c (m : M), shp r c m -> exists f, m = mgen r c f.
Proof. intros r c m (H & <- & <-). apply mwf_is_gen. auto. Qed.
Lemma gen_shp : forall r c (f : nat -> nat -> F), shp r c (mgen r c f).
Proof. intros. split; [apply mwf_gen|split; reflexivity]. Qed.
Lemma shp_wf : forall r c (m : M), shp r c m -> mwf m.
Proof. intros r c m H. apply H. Qed.
Lemma shp_size : forall r c (m : M), shp r c m -> msize m = r * c.
Proof. intros r c m (_ & <- & <-). reflexivity. Qed.
Lemma wf_shp : forall m : M, mwf m -> shp (mrows m) (mcols m) m.
Proof. intros m H. split; auto. Qed.
Lemma resize_shp : forall (m : M) r c, mwf m -> shp r c (mresize F m r c).
Proof. intros m r c H. destruct (mresize_gen F m r c H) as [f ->]. apply gen_shp. Qed.
Lemma mem_shp : forall (m m' : M), shp (mrows m) (mcols m) m' -> mrows m' = mrows m /\ mcols m' = mcols m.
Proof. intros m m' H. destruct H as (_ & ? & ?). auto. Qed.
Hint Resolve gen_shp shp_wf mwf_gen resize_shp mresize_wf : fit.

(* what a pass leaves alone *)
Definition keeps (l l' : layer F) : Prop :=
  lk l' = lk l /\ ltrain l' = ltrain l /\ lfirst l' = lfirst l /\
  (hasWeights l = true -> mrows (lw l') = mrows (lw l) /\ mcols (lw l') = mcols (lw l)) /\
  (hasBiases l = true -> mrows (lb l') = mrows (lb l) /\ mcols (lb l') = mcols (lb l)).
Lemma keeps_refl : forall l, keeps l l.
Proof. intro l. unfold keeps. auto 10. Qed.
Lemma keeps_trans : forall a b c, keeps a b -> keeps b c -> keeps a c.
Proof.
  intros a b c (A1 & A2 & A3 & A4 & A5) (B1 & B2 & B3 & B4 & B5).
  assert (HW : hasWeights a = true -> hasWeights b = true). { intro H. destruct (A4 H) as [E1 E2]. unfold hasWeights, msize in *. rewrite E1, E2. auto. }
  assert (HB : hasBiases a = true -> hasBiases b = true). { intro H. destruct (A5 H) as [E1 E2]. unfold hasBiases, msize in *. rewrite E1, E2. auto. }
  unfold keeps. split; [congruence|]. split; [congruence|]. split; [congruence|]. split; intro H.
  - destruct (A4 H), (B4 (HW H)). split; congruence.
  - destruct (A5 H), (B5 (HB H)). split; congruence.
Qed.

(* what the backward pass finds after a forward pass in training mode over n rows of k values *)
Definition ready (l : layer F) (n k : nat) : Prop :=
  match lk l with
  | KBias => shp 1 k (lb l)
  | KGain => shp 1 k (lw l)
  | KAffine => shp 1 k (lw l) /\ shp 1 k (lb l)
  | KPRelu | KTERELU => shp 1 k (lw l) /\ shp 1 k (lgw l)
  | KPELU => shp 2 k (lw l) /\ shp 2 k (lgw l)
  | KRRelu _ _ => shp n k (lmem l)
  | KDropout rate => feq F rate (f0 F) = true \/ shp n k (lmem l)
  | KConv v _ => shp (n * oR v * oC v) (vI v * vkr v * vkc v) (lmem l) /\ lns l = n
  | _ => True
  end.
(* gradients as large as the parameters *)
Definition graded (l : layer F) : Prop :=
  (hasWeights l = true -> shp (mrows (lw l)) (mcols (lw l)) (lgw l)) /\
  (hasBiases l = true -> shp (mrows (lb l)) (mcols (lb l)) (lgb l)).

Lemma none_no : forall m : M, none m -> negb (msize m =? 0) = true -> False.
Proof. intros m [_ E] H. rewrite E in H. discriminate. Qed.
Lemma known_init : forall s g (m : M) r c, knownInit s -> mwf m -> exists w, initCompute F s g m r c = Ok w /\ shp r c w.
Proof.
  intros s g m r c K H. destruct (initCompute_spec F s g m r c H) as (w & E & S). exists w. split; auto. destruct S as [[N _]|(f & -> & _)]; [|apply gen_shp].
  exfalso. specialize (N (f0 F)). unfold knownInit in K. simpl in K. repeat destruct K as [<-|K]; try (vm_compute in N; discriminate). contradiction.
Qed.

Lemma fwdDropout_train : forall rate g (mask : M) n k X z, mwf mask -> feq F rate (f0 F) = false -> bernoulliLimit F (fsub F (f1 F) rate) = Ok z ->
  exists mk Y, fwdDropout F true rate g mask (mgen n k X) = Ok (mgen n k mk, mgen n k Y).
Proof.
  intros rate g mask n k X z H E Z. unfold fwdDropout. rewrite E. cbn [negb andb]. change (mrows (mgen n k X)) with n. change (mcols (mgen n k X)) with k.
  unfold setQuickBernoulli. rewrite Z. cbn [bind]. destruct (mresize_flat F mask n k H) as [q ->]. rewrite quickBernoulli_flat. cbn [bind].
  rewrite mflat_gen. unfold mscale. rewrite (@mapLoop_gen F). cbn [bind]. rewrite mcwiseProduct_gen. cbn [bind]. eexists _, _. reflexivity.
Qed.
Lemma fwdNoise_ok : forall train noise g n k X, exists Y, fwdNoise F train noise g (mgen n k X) = Ok (mgen n k Y).
Proof.
  intros. unfold fwdNoise. destruct (train && flt F (f0 F) noise); [|eauto]. change (msize (mgen n k X)) with (n * k).
  rewrite mgen_flat. 
  destruct (@forN_inv _ (fun _ m => exists q, m = mflat n k q) (n * k) (fun i o => x <- mget1 o i ;; mset1 o i (fadd F x (g i))) (mflat n k (fun k0 => X (k0 / k) (k0 mod k)))) as (s & E & q & ->).
  - eauto.
  - intros i s Hi [q ->]. rewrite mget1_flat by auto. cbn [bind]. rewrite mset1_flat by auto. eauto.
  - exists (fun i j => q (i * k + j)). rewrite E. rewrite mflat_gen. reflexivity.
Qed.

Lemma fwdPELU_lazy : forall (w gw : M) n k X, 0 < k -> mwf w -> msize w = 0 -> mwf gw -> exists W GW Y, fwdPELU F w gw (mgen n k X) = Ok (mgen 2 k W, mgen 2 k GW, mgen n k Y).
Proof.
  intros w gw n k X Hk Hw Ew Hg. unfold fwdPELU. rewrite Ew. cbn [Nat.eqb]. change (mcols (mgen n k X)) with k.
  change (msetConst F (mresize F w 2 k) (f1 F)) with (msetConstR F w 2 k (f1 F)). rewrite msetConstR_gen by auto. cbn [bind].
  change (mrows (mgen 2 k (fun _ _ => f1 F))) with 2. change (mcols (mgen 2 k (fun _ _ => f1 F))) with k. destruct (mresize_gen F gw 2 k Hg) as [GW EG]. rewrite EG.
  pose proof (fwdPELU_gen F n k (fun _ _ => f1 F) (mgen 2 k GW) X Hk) as G. unfold fwdPELU in G. rewrite szg in G.
  replace (2 * k =? 0) with false in G by (symmetry; apply Nat.eqb_neq; lia). cbn [bind] in G. change (mcols (mgen n k X)) with k in G. rewrite G. eauto.
Qed.
Lemma fwdTERELU_lazy : forall (w gw : M) n k X, 0 < k -> mwf w -> msize w = 0 -> mwf gw -> exists W GW Y, fwdTERELU F w gw (mgen n k X) = Ok (mgen 1 k W, mgen 1 k GW, mgen n k Y).
Proof.
  intros w gw n k X Hk Hw Ew Hg. unfold fwdTERELU. rewrite Ew. cbn [Nat.eqb]. change (mcols (mgen n k X)) with k. cbv zeta.
  rewrite msetConstR_gen by auto. cbn [bind].
  change (mrows (mgen 1 k (fun _ _ => f1 F))) with 1. change (mcols (mgen 1 k (fun _ _ => f1 F))) with k. destruct (mresize_gen F gw 1 k Hg) as [GW EG]. rewrite EG.
  pose proof (fwdTERELU_gen F n k (fun _ _ => f1 F) (mgen 1 k GW) X Hk) as G. unfold fwdTERELU in G. cbv zeta in G. rewrite szg in G.
  replace (1 * k =? 0) with false in G by (symmetry; apply Nat.eqb_neq; lia). cbn [bind] in G. change (mcols (mgen n k X)) with k in G. rewrite G. eauto.
Qed.
Lemma fwdAffine_lazy : forall (w b : M) n k X out, 0 < k -> mwf w -> mwf b -> msize b = 0 -> mwf out ->
  exists W B Y, fwdAffine F w b (mgen n k X) out = Ok (mgen 1 k W, mgen 1 k B, mgen n k Y).
Proof.
  intros w b n k X out Hk Hw Hb Eb Ho. unfold fwdAffine. rewrite Eb. cbn [Nat.eqb]. change (mcols (mgen n k X)) with k.
  rewrite msetZero_gen by auto. cbn [bind]. unfold msetOnes. rewrite msetConstR_gen by auto. cbn [bind].
  pose proof (fwdAffine_gen F n k (fun _ _ => f1 F) (fun _ _ => f0 F) X out Hk Ho) as G. unfold fwdAffine in G. rewrite szg in G.
  replace (1 * k =? 0) with false in G by (symmetry; apply Nat.eqb_neq; lia). cbn [bind] in G. change (mcols (mgen n k X)) with k in G. rewrite G. eauto.
Qed.
Lemma fwdBias_any : forall s g (b : M) n k X, 0 < k -> knownInit s -> sizedOr 1 k b -> exists B Y, fwdBias F s g b (mgen n k X) = Ok (mgen 1 k B, mgen n k Y) /\ (msize b <> 0 -> b = mgen 1 k B).
Proof.
  intros s g b n k X Hk Ks [[Wb Eb]|Sb].
  - unfold fwdBias. rewrite Eb. cbn [Nat.eqb]. destruct (known_init s g b 1 k Ks Wb) as (w & E & S). change (mcols (mgen n k X)) with k. rewrite E. cbn [bind].
    destruct (shp_gen _ _ _ S) as [B ->]. rewrite rowWiseAdd_gen. cbn [bind]. do 2 eexists. split; [reflexivity|]. intro H. contradiction.
  - destruct (shp_gen _ _ _ Sb) as [B ->]. rewrite fwdBias_gen by auto. eauto.
Qed.

Ltac gen H := match type of H with shp _ _ ?m => let f := fresh "f" in let E := fresh "Eg" in destruct (shp_gen _ _ _ H) as [f E] end.
Ltac sh := repeat match goal with H : shp _ _ _ |- _ => gen H; clear H end.
Ltac nn := match goal with H : none ?m, G : negb (msize ?m =? 0) = true |- _ => exfalso; exact (none_no _ H G) end.
Ltac kp := unfold keeps, hasWeights, hasBiases; cbn [lk ltrain lfirst lw lb setP setW setB setWB setGW setGB setGWB setMem setNs]; (split; [solve [auto]|]); (split; [solve [auto]|]); (split; [solve [auto]|]); split; intros; try nn; auto.
Ltac ft K := unfold fits; cbn [lk ltrain lfirst lw lgw lb lgb lmem lns lbi setP setW setB setWB setGW setGB setGWB setMem setNs]; rewrite ?K; repeat match goal with |- _ /\ _ => split end; auto with fit.
Ltac rd K := intros; unfold ready; cbn [lk ltrain lfirst lw lgw lb lgb lmem lns lbi setP setW setB setWB setGW setGB setGWB setMem setNs]; rewrite ?K; auto with fit.

Lemma fwd_fits : forall r (l : layer F) n k m x out, fits l k m -> shp n k x -> mwf out ->
  exists l' y, layForward F r l x out = Ok (l', y) /\ shp n m y /\ fits l' k m /\ keeps l l' /\ (ltrain l = true -> ready l' n k).
Proof.
  intros r l n k m x out H Hx Ho. pose proof H as H'. unfold fits in H. destruct H as (Hk & Hm & W1 & W2 & W3 & H). destruct (shp_gen _ _ _ Hx) as [X ->].
  unfold layForward. destruct (lk l) eqn:K; try contradiction.
  - destruct H as [A B]. destruct (shp_gen _ _ _ A) as [W EW]. destruct (shp_gen _ _ _ B) as [b Eb]. rewrite EW, Eb, fwdDense_gen. cbn [bind].
    do 2 eexists. split; [reflexivity|]. split; [apply gen_shp|]. split; [auto|]. split; [apply keeps_refl|rd K].
  - destruct H as [A B]. destruct (shp_gen _ _ _ A) as [W EW]. rewrite EW, fwdDot_gen. cbn [bind].
    do 2 eexists. split; [reflexivity|]. split; [apply gen_shp|]. split; [auto|]. split; [apply keeps_refl|rd K].
  - destruct H as (-> & A & B & C). destruct (fwdBias_any (lbi l) (rf r) (lb l) n k X Hk C B) as (b & Y & E & Eb). rewrite E. cbn [bind].
    do 2 eexists. split; [reflexivity|]. split; [apply gen_shp|]. split; [ft K; right; apply gen_shp|]. split; [|rd K].
    kp. rewrite Eb; [auto|]. intro Z. rewrite Z in *. discriminate.
  - destruct H as (-> & [[A1 A2]|A] & B).
    + rewrite fwdGain_lazy, fwdGain_gen by auto. cbn [bind]. do 2 eexists. split; [reflexivity|]. split; [apply gen_shp|]. split; [ft K; right; apply gen_shp|]. split; [|rd K].
      kp. rewrite A2 in *. discriminate.
    + destruct (shp_gen _ _ _ A) as [W EW]. rewrite EW, fwdGain_gen by auto. cbn [bind]. do 2 eexists. split; [reflexivity|]. split; [apply gen_shp|]. split; [ft K; right; apply gen_shp|]. split; [|rd K].
      kp. rewrite EW. auto.
  - destruct H as (-> & [[[A1 A2] [B1 B2]]|[A B]]).
    + destruct (fwdAffine_lazy (lw l) (lb l) n k X out Hk A1 B1 B2 Ho) as (W & b & Y & E). rewrite E. cbn [bind]. do 2 eexists. split; [reflexivity|]. split; [apply gen_shp|].
      split; [ft K; right; split; apply gen_shp|]. split; [|rd K]. kp; rewrite ?A2, ?B2 in *; discriminate.
    + destruct (shp_gen _ _ _ A) as [W EW]. destruct (shp_gen _ _ _ B) as [b Eb]. rewrite EW, Eb, fwdAffine_gen by auto. cbn [bind]. do 2 eexists. split; [reflexivity|]. split; [apply gen_shp|].
      split; [ft K; right; split; apply gen_shp|]. split; [|rd K]. kp; rewrite ?EW, ?Eb; auto.
  - destruct H as (-> & A & B & C). destruct (shp_gen _ _ _ A) as [W EW]. rewrite EW, fwdGlobalGain_gen. cbn [bind].
    do 2 eexists. split; [reflexivity|]. split; [apply gen_shp|]. split; [auto|]. split; [apply keeps_refl|rd K].
  - destruct H as (-> & A & B & C). destruct (shp_gen _ _ _ B) as [W EW]. rewrite EW, fwdGlobalBias_gen. cbn [bind].
    do 2 eexists. split; [reflexivity|]. split; [apply gen_shp|]. split; [auto|]. split; [apply keeps_refl|rd K].
  - destruct H as (-> & A & _ & B & _). destruct (shp_gen _ _ _ A) as [W EW]. destruct (shp_gen _ _ _ B) as [b Eb]. rewrite EW, Eb, fwdGlobalAffine_gen. cbn [bind].
    do 2 eexists. split; [reflexivity|]. split; [apply gen_shp|]. split; [auto|]. split; [apply keeps_refl|rd K].
  - destruct H as (-> & -> & A & B). destruct (shp_gen _ _ _ B) as [b Eb]. rewrite Eb, fwdChannelBias_gen. cbn [bind].
    do 2 eexists. split; [reflexivity|]. split; [apply gen_shp|]. split; [auto|]. split; [apply keeps_refl|rd K].
  - destruct H as (-> & A & B & C). destruct a as [a|]; [|congruence]. rewrite fwdAct_gen by auto. cbn [bind].
    do 2 eexists. split; [reflexivity|]. split; [apply gen_shp|]. split; [auto|]. split; [apply keeps_refl|rd K].
  - destruct H as (-> & A & B & C & D). destruct a1 as [a1|]; [|congruence]. destruct a2 as [a2|]; [|congruence]. rewrite fwdGated_gen by auto. cbn [bind].
    do 2 eexists. split; [reflexivity|]. split; [apply gen_shp|]. split; [auto|]. split; [apply keeps_refl|rd K].
  - destruct H as (-> & A & B). rewrite fwdCRelu_gen by auto. cbn [bind].
    do 2 eexists. split; [reflexivity|]. split; [apply gen_shp|]. split; [auto|]. split; [apply keeps_refl|rd K].
  - destruct H as (-> & [[A1 A2]|[A A']] & B).
    + rewrite fwdPRelu_lazy by auto. destruct (mresize_gen F (lgw l) 1 k W1) as [GW EG]. rewrite EG, fwdPRelu_gen by auto. cbn [bind].
      do 2 eexists. split; [reflexivity|]. split; [apply gen_shp|]. split; [ft K; right; split; apply gen_shp|]. split; [|rd K]. kp. rewrite A2 in *. discriminate.
    + destruct (shp_gen _ _ _ A) as [W EW]. destruct (shp_gen _ _ _ A') as [GW EG]. rewrite EW, EG, fwdPRelu_gen by auto. cbn [bind].
      do 2 eexists. split; [reflexivity|]. split; [apply gen_shp|]. split; [ft K; right; split; apply gen_shp|]. split; [|rd K]. kp. rewrite EW. auto.
  - destruct H as (-> & A & B). destruct (ltrain l) eqn:Tr.
    + rewrite fwdRRelu_train by auto. cbn [bind]. do 2 eexists. split; [reflexivity|]. split; [apply gen_shp|]. split; [ft K|]. split; [kp|rd K].
    + rewrite fwdRRelu_infer by auto. cbn [bind]. do 2 eexists. split; [reflexivity|]. split; [apply gen_shp|]. split; [ft K|]. split; [kp|discriminate].
  - destruct H as (-> & [[A1 A2]|[A A']] & B).
    + destruct (fwdPELU_lazy (lw l) (lgw l) n k X Hk A1 A2 W1) as (W & GW & Y & E). rewrite E. cbn [bind].
      do 2 eexists. split; [reflexivity|]. split; [apply gen_shp|]. split; [ft K; right; split; apply gen_shp|]. split; [|rd K]. kp. rewrite A2 in *. discriminate.
    + destruct (shp_gen _ _ _ A) as [W EW]. destruct (shp_gen _ _ _ A') as [GW EG]. rewrite EW, EG, fwdPELU_gen by auto. cbn [bind].
      do 2 eexists. split; [reflexivity|]. split; [apply gen_shp|]. split; [ft K; right; split; apply gen_shp|]. split; [|rd K]. kp. rewrite EW. auto.
  - destruct H as (-> & [[A1 A2]|[A A']] & B).
    + destruct (fwdTERELU_lazy (lw l) (lgw l) n k X Hk A1 A2 W1) as (W & GW & Y & E). rewrite E. cbn [bind].
      do 2 eexists. split; [reflexivity|]. split; [apply gen_shp|]. split; [ft K; right; split; apply gen_shp|]. split; [|rd K]. kp. rewrite A2 in *. discriminate.
    + destruct (shp_gen _ _ _ A) as [W EW]. destruct (shp_gen _ _ _ A') as [GW EG]. rewrite EW, EG, fwdTERELU_gen by auto. cbn [bind].
      do 2 eexists. split; [reflexivity|]. split; [apply gen_shp|]. split; [ft K; right; split; apply gen_shp|]. split; [|rd K]. kp. rewrite EW. auto.
  - destruct H as (-> & A & B & C). destruct (ltrain l) eqn:Tr.
    + destruct (feq F rate (f0 F)) eqn:Er.
      * unfold fwdDropout. rewrite Er. cbn [negb andb bind]. do 2 eexists. split; [reflexivity|]. split; [apply gen_shp|]. split; [ft K|]. split; [kp|rd K].
      * destruct C as [C|[z C]]; [discriminate|]. destruct (fwdDropout_train rate (rz r) (lmem l) n k X z W3 Er C) as (mk & Y & E). rewrite E. cbn [bind].
        do 2 eexists. split; [reflexivity|]. split; [apply gen_shp|]. split; [ft K; right; eauto|]. split; [kp|rd K].
    + rewrite dropout_inference. cbn [bind]. do 2 eexists. split; [reflexivity|]. split; [apply gen_shp|]. split; [ft K|]. split; [kp|discriminate].
  - destruct H as (-> & A & B). destruct (fwdNoise_ok (ltrain l) s (rf r) n k X) as [Y E]. rewrite E. cbn [bind].
    do 2 eexists. split; [reflexivity|]. split; [apply gen_shp|]. split; [auto|]. split; [apply keeps_refl|rd K].
  - destruct H as (-> & A & B). destruct (fwdNoise_ok (ltrain l) s (rf r) n k X) as [Y E]. rewrite E. cbn [bind].
    do 2 eexists. split; [reflexivity|]. split; [apply gen_shp|]. split; [auto|]. split; [apply keeps_refl|rd K].
  - destruct H as (-> & A & B). rewrite fwdSoftmax_gen by auto. cbn [bind].
    do 2 eexists. split; [reflexivity|]. split; [apply gen_shp|]. split; [auto|]. split; [apply keeps_refl|rd K].
  - destruct H as (-> & A & B). rewrite fwdSoftmin_gen by auto. cbn [bind].
    do 2 eexists. split; [reflexivity|]. split; [apply gen_shp|]. split; [auto|]. split; [apply keeps_refl|rd K].
  - destruct H as ((f & ->) & -> & A & B). destruct (shp_gen _ _ _ B) as [b Eb]. rewrite Eb, fwdTDBias_gen by nia. cbn [bind].
    do 2 eexists. split; [reflexivity|]. split; [apply gen_shp|]. split; [auto|]. split; [apply keeps_refl|rd K].
  - destruct H as ((f & -> & ->) & A & B). destruct (shp_gen _ _ _ A) as [W EW]. rewrite EW, fwdTDDot_gen by nia. cbn [bind].
    do 2 eexists. split; [reflexivity|]. split; [apply gen_shp|]. split; [auto|]. split; [apply keeps_refl|rd K].
  - destruct H as ((f & -> & ->) & A & B). destruct (shp_gen _ _ _ A) as [W EW]. destruct (shp_gen _ _ _ B) as [b Eb]. rewrite EW, Eb, fwdTDDense_gen by nia. cbn [bind].
    do 2 eexists. split; [reflexivity|]. split; [apply gen_shp|]. split; [auto|]. split; [apply keeps_refl|rd K].
  - destruct H as (A & B & -> & -> & C). destruct p as [pr pc ph fr fc]. cbn [pR pC pH pfr pfc] in *. unfold poR, poC in *. cbn [pR pC pfr pfc] in *. rewrite tens_img, fwdAvgPool_gen by auto. cbn [bind].
    do 2 eexists. split; [reflexivity|]. rewrite tens_unimg. split; [apply gen_shp|]. split; [auto|]. split; [apply keeps_refl|rd K].
  - destruct H as (-> & -> & C). rewrite tens_img, fwdGlobalAvgPool_gen by auto. cbn [bind].
    do 2 eexists. split; [reflexivity|]. split; [apply gen_shp|]. split; [auto|]. split; [apply keeps_refl|rd K].
  - destruct H as (-> & -> & C). rewrite tens_img, fwdZeroPad_gen by auto. cbn [bind].
    do 2 eexists. split; [reflexivity|]. rewrite tens_unimg. split; [apply gen_shp|]. split; [auto|]. split; [apply keeps_refl|rd K].
  - destruct H as (C & -> & -> & A & B). destruct (shp_gen _ _ _ A) as [W EW]. rewrite EW, (tens_img F n (vI v) (vR v) (vC v) X), fwdConv_gen by auto. cbn [bind].
    do 2 eexists. split; [reflexivity|]. rewrite tens_unimg. split; [apply gen_shp|]. split; [ft K|]. split; [kp|rd K].
Qed.
End Any.
