(* RegrFin2.v - training a network of dense layers and activations on a regression loss keeps everything finite *)
From Coq Require Import String List Arith ZArith Reals Lra Lia Bool.
From Flocq Require Import Core IEEE754.BinarySingleNaN.
From Verif Require Import Base Scalar Mat SpecMat MatFacts MatLoops MatProofs B32Int Act Loss Optim SpecOpt OptProofs Regul LayMat LayImg Layer LayProofs1 LayProofs2 LayProofs3 LayProofs7 Net NetTrain NetProofs1 NetProofs2 TrainProofs1 SpecTrain TrainProofs2 SpecFit FitLay1 FitNet1 FitNet2 FitNet3 FitRun FitKeep SpecRound SpecNaN B32Kit NaNAct SpecSoft SoftProofs3 SpecStay OptFin1 OptFin2 SpecTrainFin TrainFin1 TrainFin2 TrainFin4 NetRule1 NetRule2 SpecMlp MlpFin1 SpecRegr RegrFin1.
Import ListNotations.
Local Open Scope R_scope.
Local Opaque b32_add b32_sub b32_mul b32_div b32_sqrt b32_of_Z Bopp Babs.

Section B32.
Variables (lm : libm -> b32 -> b32) (pw : b32 -> b32 -> b32) (jk : b32).
Notation F := (B32Ops lm pw jk).
Notation M := (mat F).
Hypothesis Std : stdLibm lm pw.
Variables (c0 : settings F) (ok : optKind) (r : Z) (b : budget) (m : nat) (d : nat -> nat) (kd : nat -> kind F).
Notation lo := (cLoss F c0).
Hypothesis Hlo : measured lo.
Hypothesis Hdm : (0 < d m)%nat /\ (Z.of_nat (d m) < 2 ^ 24)%Z.
Hypothesis Hem : (0 <= eX b m <= 62)%Z.
Hypothesis Hgm : (gradTo lo (eX b m + 1) <= eG b m)%Z.
Hypothesis Hle : (lossTo lo (eX b m + 1) <= 79)%Z.
Hypothesis Hr : slow r (cLr F c0).
Hypothesis Hmo : within 0 (cMom F c0).
Hypothesis Hok : create_optimizer (cOpt F c0) = Some ok.
Hypothesis Hk2 : ok = OSGD \/ ok = OMomentum.

Ltac tof E := change (@mgen b32) with (@mgen (Scalar.T F)) in E.
Definition par (z : Z) (p q : nat) (x : M) : Prop := exists W, x = mgen p q W /\ forall i j, within z (W i j).
Definition K (i : nat) (l : layer F) : Prop :=
  lk l = kd i /\ fastKind F (kd i) = kd i /\ ((0 < i)%nat -> lfirst l = false) /\ (0 < d i)%nat /\ (0 < d (S i))%nat /\
  affordable lm pw jk ok (cReg F c0) r b i l /\
  match kd i with KDense _ _ => par (eW b i) (d i) (d (S i)) (lw l) /\ par (eW b i) 1 (d (S i)) (lb l) | _ => d (S i) = d i /\ msize (lw l) = 0%nat /\ msize (lb l) = 0%nat end.
Definition dense (i : nat) : Prop := exists p q, kd i = KDense p q.
Definition G (i : nat) (l : layer F) : Prop := dense i -> par (eX b i + eG b (S i) + 1) (d i) (d (S i)) (lgw l) /\ par (eX b i + eG b (S i) + 1) 1 (d (S i)) (lgb l).
Definition P (nb i : nat) (x : M) : Prop := (0 < nb)%nat /\ (Z.of_nat nb < 2 ^ 24)%Z /\ exists X, x = mgen nb (d i) X /\ forall u v, within (eX b i) (X u v).
Definition Q (nb i : nat) (x g : M) : Prop := exists X D, x = mgen nb (d i) X /\ g = mgen nb (d i) D /\ forall u v, within (eG b i) (D u v).
Definition OW (i : nat) (o : opt F) : Prop := dense i /\ slowIn lm pw jk ok (eR b i) r (d i) (d (S i)) o.
Definition OB (i : nat) (o : opt F) : Prop := dense i /\ slowIn lm pw jk ok (eR b i) r 1 (d (S i)) o.
Definition TT (nb : nat) (y : M) : Prop := exists Y, y = mgen nb (d m) Y /\ forall u v, within (eX b m) (Y u v).
Definition RX (x : nat -> b32) : Prop := forall j, (j < d 0)%nat -> within (eX b 0) (x j).
Definition RY (y : nat -> b32) : Prop := forall j, (j < d m)%nat -> within (eX b m) (y j).
Definition PP (i : nat) (l : layer F) : Prop := lk l = kd i /\ fastKind F (kd i) = kd i /\ (dense i -> forall x, In x (mdata (lw l)) \/ In x (mdata (lb l)) -> within (eW b i) x).

(* parameters replaced by others of the same shape and size *)
Lemma afford_par : forall g rr i l l' p q, affordable lm pw jk ok g rr b i l -> lk l' = lk l -> lk l = KDense p q -> mrows (lw l') = mrows (lw l) -> mcols (lw l') = mcols (lw l) ->
  (forall x, In x (mdata (lw l')) -> within (eW b i) x) -> (forall x, In x (mdata (lb l')) -> within (eW b i) x) -> affordable lm pw jk ok g rr b i l'.
Proof.
  intros g rr i l l' p q (A & B & C & D) E1 E2 E3 E4 E5 E6. unfold affordable. rewrite E1, E2 in *. split; [auto|]. split; [auto|]. split; [auto|]. destruct D as (u & v & D). exists u, v. rewrite E3, E4. tauto.
Qed.
Lemma afford_same : forall g rr i l l', affordable lm pw jk ok g rr b i l -> lk l' = lk l -> lw l' = lw l -> lb l' = lb l -> affordable lm pw jk ok g rr b i l'.
Proof. intros g rr i l l' H E1 E2 E3. unfold affordable in *. rewrite E1, E2, E3. exact H. Qed.
Lemma par_in : forall z p q x, par z p q x -> forall y, In y (mdata x) -> within z y.
Proof. intros z p q x (W & -> & H). apply (gen_in (within z)); auto. Qed.
Lemma par_shape : forall z p q x, par z p q x -> mrows x = p /\ mcols x = q. Proof. intros z p q x (W & -> & _). auto. Qed.
(* the same layer up to training mode and gradients *)
Lemma K_same : forall i l l', K i l -> lk l' = lk l -> lw l' = lw l -> lb l' = lb l -> lfirst l' = lfirst l -> K i l'.
Proof.
  intros i l l' (A & B & C & D & E & H) E1 E2 E3 E4. unfold K. rewrite E1, E2, E3, E4. split; [auto|]. split; [auto|]. split; [auto|]. split; [auto|]. split; [auto|]. destruct H as [H1 H2]. split; auto. eapply afford_same; eauto.
Qed.
Lemma K_train : forall i l t, K i l -> K i (setTrain l t). Proof. intros. eapply K_same; eauto. Qed.
Lemma body : forall i l, K i l -> affordable lm pw jk ok (cReg F c0) r b i l /\ match kd i with KDense _ _ => par (eW b i) (d i) (d (S i)) (lw l) /\ par (eW b i) 1 (d (S i)) (lb l) | _ => d (S i) = d i /\ msize (lw l) = 0%nat /\ msize (lb l) = 0%nat end.
Proof. intros i l (A & _ & _ & _ & _ & H). exact H. Qed.
Lemma body_cases : forall i l, K i l -> (exists p q, kd i = KDense p q) \/ exists a, kd i = KAct (Some a).
Proof. intros i l H. destruct (body i l H) as [(_ & _ & _ & A) _]. destruct H as (H1 & _). rewrite H1 in A. destruct (kd i); try contradiction; [left; eauto|]. match type of A with match ?o with _ => _ end => destruct o; [right; eauto | contradiction] end. Qed.
Lemma w_fin : forall z x, within z x -> fin x. Proof. intros z x H. apply H. Qed.

Lemma K_fwd : forall i rn l x out l' o, K i l -> layForward F rn l x out = Ok (l', o) -> K i l'.
Proof.
  intros i rn l x out l' o H E. assert (l' = l); [|congruence]. pose proof H as (H1 & H2). destruct (body_cases i l H) as [(p & q & A)|(a & A)]; unfold layForward in E; rewrite H1, A in E; binp E; injection E; auto.
Qed.
Lemma P_wf : forall nb i x, P nb i x -> mwf x. Proof. intros nb i x (_ & _ & X & -> & _). apply mwf_gen. Qed.
Lemma P_fwd : forall nb i rn l x out l' o, (i < m)%nat -> K i l -> P nb i x -> mwf out -> layForward F rn l x out = Ok (l', o) -> P nb (S i) o.
Proof.
  intros nb i rn l x out l' o Hi H (N1 & N2 & X & -> & HX) Ho E. split; [auto|]. split; [auto|].
  pose proof H as (H1 & _). destruct (body i l H) as [Af Sh]. destruct (body_cases i l H) as [(p & q & A)|(a & A)]; rewrite A in Sh.
    + destruct Sh as ((W & EW & HW) & (B & EB & HB)). unfold affordable in Af. rewrite H1, A in Af. destruct Af as (X1 & X2 & X3 & u & v & U1 & U2 & U3 & U4 & U5 & U6 & U7 & U8 & _). rewrite EW in U3. change (mrows (mgen (d i) (d (S i)) W)) with (d i) in U3.
      unfold layForward in E. rewrite H1, A, EW, EB in E. tof E. rewrite fwdDense_gen in E. cbn [bind] in E. injection E; intros; subst. eexists. split; [reflexivity|]. intros s t. apply (dense_out lm pw jk (eX b i) (eW b i) (eX b (S i)) u); auto; lia.
    + destruct Sh as (D & _). unfold affordable in Af. rewrite H1, A in Af. destruct Af as (X1 & X2 & X3 & Hs & _). unfold layForward in E. rewrite H1, A in E. tof E. rewrite (fwdAct_gen F) in E by auto. cbn [bind] in E. injection E; intros; subst. eexists. split; [rewrite D; reflexivity|]. intros s t. cbv beta.
      destruct Hs as [Hs|[Hs Hs']]; [apply within_w with 0%Z; [apply flat_apply; auto; eapply w_fin; eauto | lia] | apply within_w with (eX b i); auto; apply shrink_apply; auto; lia].
Qed.
Lemma Q_loss : forall nb bal o y g0 g, bon F bal = false -> P nb m o -> TT nb y -> mwf g0 -> compute_gradient F lo bal o y g0 = Ok g -> mwf g /\ Q nb m o g.
Proof.
  intros nb bal o y g0 g Hb (_ & _ & X & -> & HX) (Y & -> & HY) Hg E. destruct (regr_gradient lm pw jk lo bal nb (d m) (eX b m) X Y g0) as (D & ED & HD); auto; try lia. tof E. tof ED. rewrite ED in E. injection E; intros; subst. split; [apply mwf_gen|]. exists X, D. split; auto. split; auto. intros. eapply within_w; eauto.
Qed.
Lemma Q_bwd : forall nb i l x o g gin l' gi, (i < m)%nat -> K i l -> P nb i x -> P nb (S i) o -> Fwd F K i x o -> Q nb (S i) o g -> mwf gin -> layBackward F l x g gin = Ok (l', gi) ->
  K i l' /\ G i l' /\ mwf gi /\ ((0 < i)%nat -> Q nb i x gi).
Proof.
  intros nb i l x o g gin l' gi Hi H (N1 & N2 & X & -> & HX) _ _ (Xo & D & -> & -> & HD) Hg E.
  pose proof H as (H1 & _ & Hfi & _). destruct (body i l H) as [Af Sh]. destruct (body_cases i l H) as [(p & q & A)|(a & A)]; rewrite A in Sh.
    + destruct Sh as ((W & EW & HW) & (B & EB & HB)). unfold affordable in Af. rewrite H1, A in Af. destruct Af as (X1 & X2 & X3 & u & v & U1 & U2 & U3 & U4 & U5 & U6 & U7 & U8 & _). rewrite EW in U4. change (mcols (mgen (d i) (d (S i)) W)) with (d (S i)) in U4.
      unfold layBackward in E. rewrite H1, A, EW in E. tof E. rewrite bwdDense_gen in E. cbn [bind] in E. apply Ok_inj in E. injection E; intros Eg El. subst l'. split; [apply K_same with l; auto|].
      split. { intros _. split; eexists; (split; [reflexivity|]). - intros s t. apply (dense_gw lm pw jk); auto; lia. - intros s t. apply within_w with (eG b (S i)); [apply (dense_gb lm pw jk); auto; lia | lia]. }
      split; [subst gi; destruct (lfirst l); auto; apply mwf_gen|]. intro Pi. rewrite (Hfi Pi) in Eg. exists X. eexists. split; [reflexivity|]. split; [symmetry; exact Eg|].  intros s t. specialize (U7 Pi). apply (dense_back lm pw jk (eG b (S i)) (eW b i) (eG b i) v); auto; lia.
    + destruct Sh as (Dd & _). unfold affordable in Af. rewrite H1, A in Af. destruct Af as (X1 & X2 & X3 & Hs & Hge). rewrite Dd in *. unfold layBackward in E. rewrite H1, A in E. tof E. rewrite (bwdAct_gen F) in E by auto. cbn [bind] in E. apply Ok_inj in E. injection E; intros Eg El. subst l'. split; auto.
      split; [intros (p & q & De); congruence|]. split; [subst gi; destruct (lfirst l); auto; apply mwf_gen|]. intro Pi. rewrite (Hfi Pi) in Eg. exists X. eexists. split; [reflexivity|]. split; [symmetry; exact Eg|].  intros s t. apply within_w with (eG b (S i)); auto. cbn [fmul B32Ops]. apply unit_mul; auto; [|lia]. destruct Hs as [Hs|[Hs _]]; [apply flat_deriv | apply shrink_deriv]; auto; eapply w_fin; eauto.
Qed.
Lemma opt_ok : forall p q i l o (w0 g0 : M) g o' w, K i l -> dense i -> slowIn lm pw jk ok (eR b i) r p q o -> par (eW b i) p q w0 -> par (eX b i + eG b (S i) + 1) p q g0 ->
  (match cReg F c0 with Some rg => reg_apply F rg w0 g0 | None => Ok g0 end) = Ok g -> optimize F (absFloat F) o w0 g = Ok (o', w) ->
  par (eW b i) p q w /\ par (eX b i + eG b (S i) + 1) p q g /\ slowIn lm pw jk ok (eR b i) r p q o'.
Proof.
  intros p q i l o w0 g0 g o' w H De Ho (W & -> & HW) (D & -> & HD) Eg Eo. pose proof H as (H1 & _). destruct De as (pp & qq & A). destruct (body i l H) as [Af _]. unfold affordable in Af. rewrite H1, A in Af. destruct Af as (X1 & X2 & X3 & u & v & U1 & U2 & U3 & U4 & U5 & U6 & U7 & U8 & U9 & U10 & _).
  destruct (reg_to lm pw jk Std _ _ _ _ _ _ _ _ U9 HD Eg) as (D' & -> & HD1 & HD2). destruct (opt_room lm pw jk ok (eR b i) r (eW b i) p q o W D' U10 Ho HW HD2) as (o1 & W' & EO & HO & HW'). tof EO. tof Eo. rewrite EO in Eo. apply Ok_inj in Eo. injection Eo; intros; subst. split; [exists W'; auto|]. split; [exists D'; auto|]. auto.
Qed.
Lemma K_par : forall i l w g bb gb, K i l -> dense i -> par (eW b i) (d i) (d (S i)) w -> par (eW b i) 1 (d (S i)) bb -> K i (setP l w g bb gb).
Proof.
  intros i l w g bb gb H De Pw Pb. pose proof (body i l H) as [Af Sh]. destruct De as (p & q & A). pose proof H as (H1 & H2 & H3 & H4 & H5 & _). unfold K. rewrite A in *. destruct Sh as (S1 & S2).
  do 5 (split; [auto|]). split; [|split; auto]. destruct (par_shape _ _ _ _ S1), (par_shape _ _ _ _ Pw). eapply (afford_par _ _ i l (setP l w g bb gb) p q Af eq_refl H1); cbn [lw lb setP]; try congruence; eapply par_in; eauto.
Qed.
Lemma O_w : forall i l o g o' w, K i l -> G i l -> OW i o -> (match cReg F c0 with Some rg => reg_apply F rg (lw l) (lgw l) | None => Ok (lgw l) end) = Ok g -> optimize F (absFloat F) o (lw l) g = Ok (o', w) ->
  K i (setP l w g (lb l) (lgb l)) /\ G i (setP l w g (lb l) (lgb l)) /\ OW i o'.
Proof.
  intros i l o g o' w H HG [De Ho] Eg Eo. destruct (HG De) as [G1 G2]. destruct (body i l H) as [_ Sh]. destruct De as (p & q & A) eqn:EDe. rewrite A in Sh. destruct Sh as [S1 S2]. destruct (opt_ok _ _ i l o _ _ g o' w H (ex_intro _ p (ex_intro _ q A)) Ho S1 G1 Eg Eo) as (P1 & P2 & P3).
  split; [apply K_par; auto; exists p, q; auto|]. split; [intros _; split; auto|]. split; [exists p, q; auto | auto].
Qed.
Lemma O_b : forall i l o g o' w, K i l -> G i l -> OB i o -> (match cReg F c0 with Some rg => reg_apply F rg (lb l) (lgb l) | None => Ok (lgb l) end) = Ok g -> optimize F (absFloat F) o (lb l) g = Ok (o', w) ->
  K i (setP l (lw l) (lgw l) w g) /\ G i (setP l (lw l) (lgw l) w g) /\ OB i o'.
Proof.
  intros i l o g o' w H HG [De Ho] Eg Eo. destruct (HG De) as [G1 G2]. destruct (body i l H) as [_ Sh]. destruct De as (p & q & A) eqn:EDe. rewrite A in Sh. destruct Sh as [S1 S2]. destruct (opt_ok _ _ i l o _ _ g o' w H (ex_intro _ p (ex_intro _ q A)) Ho S2 G2 Eg Eo) as (P1 & P2 & P3).
  split; [apply K_par; auto; exists p, q; auto|]. split; [intros _; split; auto|]. split; [exists p, q; auto | auto].
Qed.
Lemma S_loss : forall nb bal o y out ml s, bon F bal = false -> P nb m o -> TT nb y -> mwf out -> compute F (absFloat F) lo bal o y out = Ok ml -> mmean F ml = Ok s -> (fun x : b32 => nn (lossTo lo (eX b m + 1)) x) s /\ mwf ml.
Proof.
  intros nb bal o y out ml s Hb (N1 & N2 & X & -> & HX) (Y & -> & HY) Ho E Es. assert (L : (lossTo lo (eX b m + 1) <= 103)%Z) by lia. exact (regr_loss lm pw jk lo bal nb (d m) (eX b m) X Y out ml s Hlo Hb Hem L N1 N2 (proj1 Hdm) (proj2 Hdm) HX HY E Es).
Qed.
Lemma P_rows : forall nb X, (0 < nb)%nat -> (Z.of_nat nb < 2 ^ 24)%Z -> (forall i, (i < nb)%nat -> RX (X i)) -> P nb 0 (mgen nb (d 0) X).
Proof. intros nb X A B C. split; auto. split; auto. destruct (total (within (eX b 0)) nb (d 0) X) as (X' & E & H); [apply w_zero | intros; apply C; auto|]. exists X'. split; [exact E|].  exact H. Qed.
Lemma T_rows : forall nb Y, (0 < nb)%nat -> (Z.of_nat nb < 2 ^ 24)%Z -> (forall i, (i < nb)%nat -> RY (Y i)) -> TT nb (mgen nb (d m) Y).
Proof. intros nb Y A B C. destruct (total (within (eX b m)) nb (d m) Y) as (Y' & E & H); [apply w_zero | intros; apply C; auto|]. exists Y'. split; [exact E|]. exact H. Qed.
Lemma O_start : forall i l k0, K i l -> create_optimizer (cOpt F c0) = Some k0 -> (hasWeights l = true -> OW i (set_params F (newOpt F k0) (cLr F c0) (cDecay F c0) (cMom F c0))) /\ (hasBiases l = true -> OB i (set_params F (newOpt F k0) (cLr F c0) (cDecay F c0) (cMom F c0))).
Proof.
  intros i l k0 H E. rewrite Hok in E. injection E; intros <-. unfold hasWeights, hasBiases.
  assert (C : dense i \/ msize (lw l) = 0%nat /\ msize (lb l) = 0%nat). { destruct (body_cases i l H) as [A|(a & A)]; [left; exact A|]. right. destruct (body i l H) as [_ Sh]. rewrite A in Sh. tauto. }
  destruct C as [C|[-> ->]]; [|split; discriminate]. split; intros _; (split; [exact C | apply slow_new; auto]).
Qed.
Lemma O_init : forall i o, (OW i o -> OW i (init F o)) /\ (OB i o -> OB i (init F o)).
Proof. intros i o. split; intros [A B]; (split; [exact A | apply slow_init; auto; apply Hr]). Qed.
Lemma PP_K : forall i l, K i l -> PP i l.
Proof.
  intros i l H. pose proof H as (H1 & H2 & _). split; auto. split; auto. intros De x Hx. destruct (body i l H) as [_ Sh]. destruct De as (p & q & A). rewrite A in Sh. destruct Sh as [S1 S2]. destruct Hx as [Hx|Hx]; [apply (par_in _ _ _ _ S1 x Hx) | apply (par_in _ _ _ _ S2 x Hx)].
Qed.
Lemma PP_clone : forall i rn l l', layClone F rn l = Ok l' -> PP i l -> PP i l'.
Proof.
  intros i rn l l' E (A & B & C). apply clone_params in E. destruct E as (E1 & _ & _ & E2). rewrite A, B in E1. split; auto. split; auto. intros De. specialize (C De). destruct De as (p & q & De). unfold sameParams in E2. rewrite A, De in E2. destruct E2 as [-> ->]. exact C.
Qed.
End B32.


Section Main.
Variables (lm : libm -> b32 -> b32) (pw : b32 -> b32 -> b32) (jk : b32).
Notation F := (B32Ops lm pw jk).
Lemma pairs_form : forall z w lo k m (x y : mat F), measured lo -> dataOk k m lo (x, y) -> pairsUpTo z w (x, y) -> exists N X Y, x = mgen N k X /\ y = mgen N m Y /\ (Z.of_nat N < 2 ^ 24)%Z /\ (forall i j, within z (X i j)) /\ forall i j, within w (Y i j).
Proof.
  intros z w lo k m x y Hlo (A & B & C & D & E) (G & H & I). cbn [fst snd] in *. assert (Cy : mcols y = m) by (unfold measured in Hlo; cbn [In] in Hlo; repeat destruct Hlo as [<-|Hlo]; try contradiction; exact E).
  destruct (mwf_is_gen F x A) as [X0 EX]. destruct (mwf_is_gen F y B) as [Y0 EY]. rewrite C in EX. rewrite D, Cy in EY. set (N := mrows x) in *. rewrite EX in H. rewrite EY in I. destruct (total_in lm pw jk z N k X0 H) as (X & E1 & E2). destruct (total_in lm pw jk w N m Y0 I) as (Y & E3 & E4). exists N, X, Y. rewrite EX, EY. auto.
Qed.
Theorem regr_finite : forall (R0 : fitRnd F) h n t k m x y b r ok, stdLibm lm pw ->
  trainable h n t k m -> (0 < length (nlay n))%nat -> measured (cLoss F (tc F t)) -> create_optimizer (cOpt F (tc F t)) = Some ok -> (ok = OSGD \/ ok = OMomentum) -> slow r (cLr F (tc F t)) -> within 0 (cMom F (tc F t)) ->
  affordableFit lm pw jk (tc F t) ok r b h (nlay n) m ->
  ttrain F t = Some (x, y) -> (0 < mrows x)%nat -> pairsUpTo (eX b 0) (eX b (length (nlay n))) (x, y) -> (forall v, tval F t = Some v -> pairsUpTo (eX b 0) (eX b (length (nlay n))) v) ->
  exists h' n' t' calls, fit F (absFloat F) R0 h n t = Ok (h', n', t', calls) /\
    length (hTL F (th F t')) = Z.to_nat (cEpochs F (tc F t)) /\ (forall v, In v (hTL F (th F t')) -> upTo (lossTo (cLoss F (tc F t)) (eX b (length (nlay n)) + 1)) v) /\
    (forall v, In v (hVL F (th F t')) -> upTo (lossTo (cLoss F (tc F t)) (eX b (length (nlay n)) + 1) + 24) v) /\
    length (nlay n') = length (nlay n) /\
    forall i a l, nth_error (nlay n) i = Some a -> hget F h a = Ok l -> exists a' l', nth_error (nlay n') i = Some a' /\ hget F h' a' = Ok l' /\ lk l' = lk l /\
      forall p q, lk l = KDense p q -> forall w, In w (mdata (lw l')) \/ In w (mdata (lb l')) -> within (eW b i) w.
Proof.
  intros R0 h n t k m x y b r ok Std Ht H2 Hlo Hok Hk2 Hr Hmo (Am & Af & Ax & Ag & Al0) Hx Hpos Sd Sv. pose proof Ht as (Nd & St & Fo & _ & _ & _ & _ & _ & _ & (dd & Ed & Hd) & Hv). rewrite Hx in Ed. injection Ed; intros <-.
  destruct (stack_dims F _ _ _ _ St) as (d & D0 & Dm & Dims). set (mm := length (nlay n)) in *.
  set (kd := fun i => match nth_error (nlay n) i with Some a => match hget F h a with Ok l => lk l | Err _ => KSoftmax end | None => KSoftmax end).
  destruct (pairs_form _ _ _ _ _ _ _ Hlo Hd Sd) as (N & X & Y & -> & -> & HN & HX & HT). change (mrows (mgen N k X)) with N in Hpos. subst k m.
  assert (FF : forall i a l, nth_error (nlay n) i = Some a -> hget F h a = Ok l -> kd i = lk l) by (intros i a l Ea El; unfold kd; rewrite Ea, El; reflexivity).
  assert (Dp : (0 < d mm)%nat). { destruct (nth_error (nlay n) (mm - 1)) as [a|] eqn:Ea; [|apply nth_error_None in Ea; unfold mm in *; lia]. destruct (Dims _ a Ea) as (l & _ & F1 & F2 & _). replace (S (mm - 1)) with mm in F2 by lia. exact F2. }
  assert (Lp : (0 <= lossTo (cLoss F (tc F t)) (eX b mm + 1))%Z) by (unfold measured in Hlo; cbn [In] in Hlo; repeat destruct Hlo as [Q0|Hlo]; try contradiction; rewrite <- Q0 in *; cbn [lossTo] in *; lia).
  destruct (fit_keeps lm pw jk R0 h n t (d 0%nat) (d mm) N X Y (d mm) (lossTo (cLoss F (tc F t)) (eX b mm + 1)) (K lm pw jk (tc F t) ok r b d kd) (G lm pw jk b d kd) (P lm pw jk b d) (Q lm pw jk b d) (OW lm pw jk ok r b d kd) (OB lm pw jk ok r b d kd) (TT lm pw jk b mm d) (RX b d) (RY b mm d) (PP lm pw jk b kd))
    as (h' & n' & t' & calls & Ef & H1 & H3 & H4 & H5 & H6); auto; try lia.
  - apply K_fwd.
  - apply P_wf.
  - eapply P_fwd; eauto.
  - eapply Q_loss; eauto.
  - eapply Q_bwd; eauto.
  - eapply O_w; eauto.
  - eapply O_b; eauto.
  - eapply S_loss; eauto.
  - eapply P_rows; eauto.
  - eapply T_rows; eauto.
  - intros i a l Ea El. pose proof (Af i a l Ea El) as Al. destruct (Dims i a Ea) as (l2 & E2 & Fi). rewrite El in E2. injection E2; intros <-. set (l' := if (i =? 0)%nat then setFirst l true else l). assert (Ek : lk l' = lk l /\ lw l' = lw l /\ lb l' = lb l) by (unfold l'; destruct (i =? 0)%nat; auto). destruct Ek as (E3 & E4 & E5). destruct Fi as (F1 & F2 & _ & _ & _ & F3).
    unfold K. rewrite (FF i a l Ea El), E4, E5. split; [exact E3|]. split; [|split; [|split; [exact F1|]; split; [exact F2|]]].
    + destruct Al as (_ & _ & _ & Al). destruct (lk l); try contradiction; reflexivity.
    + intro Pi. unfold l'. destruct i as [|i]; [lia|]. cbn [Nat.eqb]. eapply Fo; eauto.
    + split; [eapply afford_same; eauto|]. destruct Al as (_ & _ & _ & Al). destruct (lk l); try contradiction.
      * destruct F3 as [F3 F4]. destruct (shp_gen F _ _ _ F3) as (W & EW). destruct (shp_gen F _ _ _ F4) as (B & EB). rewrite EW, EB in *. destruct Al as (u & v & Al). destruct Al as (_ & _ & _ & _ & _ & _ & _ & _ & _ & _ & A1 & A2). split; [destruct (total_in lm pw jk _ _ _ _ A1) as (W' & ? & ?); exists W'; auto | destruct (total_in lm pw jk _ _ _ _ A2) as (W' & ? & ?); exists W'; auto].
      * destruct F3 as (F3 & _ & [_ F4] & [_ F5]). auto.
  - eapply O_start; eauto.
  - exact (O_init lm pw jk (tc F t) ok r b d kd Hr Hk2).
  - eapply PP_K.
  - apply PP_clone.
  - intros i Hi j Hj. apply HX.
  - intros i Hi j Hj. apply HT.
  - intros xv yv Ev. destruct (pairs_form _ _ _ _ _ _ _ Hlo (Hv _ Ev) (Sv _ Ev)) as (Nv & Xv & Yv & E1 & E2 & E3 & E4 & E5). exists Nv, Xv, Yv. do 3 (split; [auto|]). split; [intros i Hi j Hj; apply E4 | intros i Hi j Hj; apply E5].
  - exists h', n', t', calls. split; auto. split; auto. split; [intros v Hv'; destruct (H3 v Hv'); split; auto|]. split; [intros v Hv'; destruct (H4 v Hv'); split; auto|]. split; auto. intros i a l Ea El. assert (Li : (i < mm)%nat) by (apply nth_error_Some; congruence). destruct (nth_error (nlay n') i) as [a'|] eqn:Ea'; [|apply nth_error_None in Ea'; fold mm in H5; lia].
    destruct (H6 i a' Ea') as (l' & El' & (P1 & _ & P2)). exists a', l'. split; auto. split; auto. rewrite (FF i a l Ea El) in P1. split; auto. intros p q Kl. apply P2. exists p, q. rewrite (FF i a l Ea El). exact Kl.
Qed.
End Main.
