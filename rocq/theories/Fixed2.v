(* Fixed2.v - training a network that already reproduces its data *)
From Coq Require Import String List Arith Bool Lia ZArith Reals Lra Permutation FunctionalExtensionality.
From Verif Require Import Base Scalar Mat SpecMat SpecReal RSum MatFacts MatLoops MatProofs MatProps Act Loss SpecLoss LossProofs Optim SpecOpt OptProofs Regul LayMat LayImg LayRnn LayProofs1 LayProofs2 Layer Net NetTrain SpecNet SpecTrain NetRow NetProofs1 NetProofs2
  TrainProofs1 TrainProofs2 TrainProofs3 TrainProofs4 TrainProofs5 SpecFit FitLay1 FitLay2 FitLay3 FitNet1 FitNet2 FitNet3 FitRun FitKeep NetRule1 SpecResume SpecFixed Fixed1.
Import ListNotations.
Local Open Scope R_scope.

Section Any.
Variable jk : R.
Notation F := (ROps jk).
Notation M := (mat F).
Notation cabs := (absFloat F).

(** * the layers *)
Lemma plain_fwd : forall r (l : layer F) k m x out l' o, fits l k m -> plainKind (lk l) -> sized F l -> layForward F r l x out = Ok (l', o) -> l' = l.
Proof.
  intros r l k m x out l' o Ft Pl S E. assert (Sb : lk l = KAffine -> msize (lb l) <> 0%nat).
  { intro K. destruct Ft as (A1 & _ & _ & _ & _ & A). unfold sized in S. rewrite K in A, S. destruct A as [_ [[[_ Z] _]|[_ (_ & B1 & B2)]]]; [congruence|]. unfold msize. rewrite B1, B2. lia. }
  unfold sized in S. unfold layForward in E. destruct (lk l) eqn:K; cbn in Pl; try contradiction; try (specialize (Sb eq_refl)); binp E; apply Ok_inj in E; injection E; intros; subst; auto;
    unfold fwdBias, fwdGain, fwdAffine, fwdPRelu in *;
    match goal with H : context [(msize ?m =? 0)%nat] |- _ => first [rewrite (proj2 (Nat.eqb_neq _ _) S) in H | rewrite (proj2 (Nat.eqb_neq _ _) Sb) in H]; cbn [bind] in H; binp H; apply Ok_inj in H; injection H; intros; subst; cbn [fst snd] end; destruct l; reflexivity.
Qed.
Lemma shp_pos : forall c (m : M), (0 < c)%nat -> shp 1 c m -> msize m <> 0%nat.
Proof. intros c m H (_ & A & B). unfold msize. rewrite A, B. lia. Qed.
Lemma plain_det : forall (l : layer F) k m, fits l k m -> plainKind (lk l) -> sized F l -> detLayer F l k m.
Proof.
  intros l k m (A1 & A2 & A3 & A4 & A5 & A) Pl S. unfold sized in S. unfold detLayer. destruct (lk l) eqn:K; cbn in Pl; try contradiction; unfold shapedOrEmpty, sizedOr, poR, poC in *.
  - exact A.
  - exact (proj1 A).
  - destruct A as (A & _ & [[_ Z]|B] & _); [congruence|]. split; auto. split; [lia|]. split; [left; exact B|]. intro Q. destruct (shp_pos _ _ A1 B Q).
  - destruct A as (A & [[_ Z]|B] & _); [congruence|]. split; auto.
  - destruct A as (A & [[[_ Z] _]|B]); [congruence|]. split; auto.
  - destruct A as (A & B & _). split; auto.
  - destruct A as (A & _ & B & _). split; auto.
  - destruct A as (A & B & _ & C & _). exact (conj A (conj B C)).
  - destruct A as (A & B & _ & C). exact (conj B (conj A C)).
  - destruct A as (A & B & _). split; auto.
  - destruct A as (A & B & C & _). split; auto.
  - exact (proj1 A).
  - destruct A as (A & [[_ Z]|[B _]] & _); [congruence|]. split; auto.
  - split; [apply A|auto].
  - split; [apply A|auto].
  - destruct A as ((f & E) & A & _ & B). split; auto. split; [nia|]. split; [exists f; auto|exact B].
  - destruct A as ((f & E) & A & _). split; [nia|]. split; [exists f; auto|exact A].
  - destruct A as ((f & E) & A & B). split; [nia|]. split; [exists f; auto|]. split; [exact A|exact B].
  - destruct A as (A & B & C & D & _). split; [|split; [exact C|exact D]]. unfold poolOk. rewrite (proj2 (Nat.eqb_neq _ _) A), (proj2 (Nat.eqb_neq _ _) B). reflexivity.
  - destruct A as (A & B & _). auto.
  - destruct A as (A & B & _). auto.
Qed.
Lemma plain_ready : forall (l : layer F) n k m, fits l k m -> plainKind (lk l) -> sized F l -> ready F l n k.
Proof.
  intros l n k m (A1 & A2 & A3 & A4 & A5 & A) Pl S. unfold sized in S. unfold ready. destruct (lk l) eqn:K; cbn in Pl; try contradiction; auto; unfold sizedOr, none in A; tauto.
Qed.
Lemma fits_wf : forall (l : layer F) k m, fits l k m -> mwf (lw l) /\ mwf (lb l).
Proof. intros l k m (_ & _ & _ & _ & _ & A). unfold sizedOr, none, shp in A. destruct (lk l); tauto. Qed.
Lemma rowFun_same : forall (l l' : layer F) k, lk l' = lk l -> lw l' = lw l -> lb l' = lb l -> rowFun F l' k = rowFun F l k.
Proof. intros l l' k A B C. unfold rowFun. rewrite A, B, C. reflexivity. Qed.

(** * the loss *)
Lemma smooth_reg : forall k, smoothLoss k -> isRegression k. Proof. destruct k; cbn; tauto. Qed.
Lemma comp_nobal : forall k b p y out, isRegression k -> bon F b = false -> compute F cabs k b p y out = compute F cabs k (noBalance F) p y out.
Proof. intros k b p y out H B. destruct k; cbn in H; try contradiction; unfold compute, balanceIf; rewrite B; reflexivity. Qed.
Lemma grad_nobal : forall k b p y out, isRegression k -> bon F b = false -> compute_gradient F k b p y out = compute_gradient F k (noBalance F) p y out.
Proof. intros k b p y out H B. destruct k; cbn in H; try contradiction; unfold compute_gradient, balanceIf; rewrite B; reflexivity. Qed.
Lemma err_zero : forall k, isRegression k -> errTerm k 0 = 0.
Proof.
  intros k H. destruct k; cbn in H; try contradiction; cbn [errTerm]; rewrite ?Rabs_R0; try ring.
  - destruct (Rlt_dec 0 1); [|lra]. unfold Rdiv. ring.
  - replace (1 + 0 ^ 2) with 1 by ring. rewrite sqrt_1. ring.
  - rewrite Ropp_0, exp_0. replace ((1 + 1) / 2) with 1 by field. apply ln_1.
Qed.
Lemma grad_zero : forall k c, smoothLoss k -> regGrad F k c (0 : R) = 0.
Proof.
  intros k c H. destruct k; cbn in H; try contradiction; unfold regGrad; cbn [fdiv fmul ROps f0 f1 fopp flt fadd flm]; rewrite ?zdiv, ?Rmult_0_r, ?Rmult_0_l; auto.
  - unfold Rltb. destruct (Rlt_dec 1 0); [lra|]. destruct (Rlt_dec 0 (- (1))); [lra|]. reflexivity.
  - change (Rtanh 0 = 0). unfold Rtanh. rewrite ?Ropp_0, ?Rmult_0_r, ?exp_0. unfold Rdiv. ring.
Qed.

(** * the run *)
Section Run.
Variables (h0 : heap F) (ls : list nat) (D : nat -> nat) (L : nat -> layer F) (c0 : settings F).
Notation m := (length ls).
Hypothesis Hls : smoothLoss (cLoss F c0).
Hypothesis Hreg : cReg F c0 = None.
Hypothesis HD : forall i, (i < m)%nat -> fits (L i) (D i) (D (S i)) /\ plainKind (lk (L i)) /\ sized F (L i).

(* the i-th activation of a row *)
Fixpoint act (i : nat) (x : nat -> R) : nat -> R := match i with O => x | S i => rowFun F (L i) (D i) (act i x) end.
Definition K (i : nat) (l : layer F) : Prop := fits l (D i) (D (S i)) /\ plainKind (lk l) /\ sized F l /\ lk l = lk (L i) /\ lw l = lw (L i) /\ lb l = lb (L i) /\ ((0 < i)%nat -> lfirst l = false).
Definition G (i : nat) (l : layer F) : Prop := (hasWeights l = true -> lgw l = zeros jk (mrows (lw l)) (mcols (lw l))) /\ (hasBiases l = true -> lgb l = zeros jk (mrows (lb l)) (mcols (lb l))).
Definition OW (i : nat) (o : opt F) : Prop := hasWeights (L i) = true /\ rested jk (mrows (lw (L i))) (mcols (lw (L i))) o.
Definition OB (i : nat) (o : opt F) : Prop := hasBiases (L i) = true /\ rested jk (mrows (lb (L i))) (mcols (lb (L i))) o.
Definition Q (nb i : nat) (x g : M) : Prop := g = zeros jk nb (D i).
Definition SS (s : F) : Prop := s = (0 : R).
Lemma K_train : forall i l b, K i l -> K i (setTrain l b). Proof. intros i l b H. exact H. Qed.
Lemma K_fwd : forall i r l x out l' o, K i l -> layForward F r l x out = Ok (l', o) -> K i l'.
Proof. intros i r l x out l' o H E. pose proof H as (A & B & C & _). rewrite (plain_fwd _ _ _ _ _ _ _ _ A B C E). exact H. Qed.
Lemma O_w : forall i l o g o' w, K i l -> G i l -> OW i o -> (match cReg F c0 with Some r => reg_apply F r (lw l) (lgw l) | None => Ok (lgw l) end) = Ok g -> optimize F cabs o (lw l) g = Ok (o', w) ->
  K i (setP l w g (lb l) (lgb l)) /\ G i (setP l w g (lb l) (lgb l)) /\ OW i o'.
Proof.
  intros i l o g o' w Kl Gl [Hw Ho] Eg Eo. rewrite Hreg in Eg. injection Eg; intros <-. pose proof Kl as (A & B & C & E1 & E2 & E3 & _). destruct (fits_wf _ _ _ A) as [Ww _]. destruct (mwf_is_gen F (lw l) Ww) as [W EW].
  assert (Hl : hasWeights l = true) by (unfold hasWeights in *; rewrite E2; auto). destruct Gl as [G1 G2]. rewrite (G1 Hl), EW in Eo. rewrite <- E2 in Ho. change (mrows (mgen ?a ?b W)) with a in Eo. change (mcols (mgen ?a ?b W)) with b in Eo.
  destruct (rested_step jk _ _ _ _ _ _ Ho Eo) as [-> Ho']. assert (Es : setP l (mgen (mrows (lw l)) (mcols (lw l)) W) (lgw l) (lb l) (lgb l) = l). { rewrite <- EW. destruct l; reflexivity. }
  rewrite Es. split; auto. split; [split; auto|]. split; auto. rewrite <- E2. exact Ho'.
Qed.
Lemma O_b : forall i l o g o' b, K i l -> G i l -> OB i o -> (match cReg F c0 with Some r => reg_apply F r (lb l) (lgb l) | None => Ok (lgb l) end) = Ok g -> optimize F cabs o (lb l) g = Ok (o', b) ->
  K i (setP l (lw l) (lgw l) b g) /\ G i (setP l (lw l) (lgw l) b g) /\ OB i o'.
Proof.
  intros i l o g o' w Kl Gl [Hw Ho] Eg Eo. rewrite Hreg in Eg. injection Eg; intros <-. pose proof Kl as (A & B & C & E1 & E2 & E3 & _). destruct (fits_wf _ _ _ A) as [_ Ww]. destruct (mwf_is_gen F (lb l) Ww) as [W EW].
  assert (Hl : hasBiases l = true) by (unfold hasBiases in *; rewrite E3; auto). destruct Gl as [G1 G2]. rewrite (G2 Hl), EW in Eo. rewrite <- E3 in Ho. change (mrows (mgen ?a ?b W)) with a in Eo. change (mcols (mgen ?a ?b W)) with b in Eo.
  destruct (rested_step jk _ _ _ _ _ _ Ho Eo) as [-> Ho']. assert (Es : setP l (lw l) (lgw l) (mgen (mrows (lb l)) (mcols (lb l)) W) (lgb l) = l). { rewrite <- EW. destruct l; reflexivity. }
  rewrite Es. split; auto. split; [split; auto|]. split; auto. rewrite <- E3. exact Ho'.
Qed.
Section Batch.
Variables (Xb Yb : nat -> nat -> R) (B : nat).
Hypothesis HB : forall i j, (i < B)%nat -> (j < D m)%nat -> act m (Xb i) j = Yb i j.
Definition P (nb i : nat) (x : M) : Prop := nb = B /\ x = @mgen R B (D i) (fun r => act i (Xb r)).
Definition TT (nb : nat) (y : M) : Prop := nb = B /\ y = @mgen R B (D m) Yb.
Lemma P_wf : forall nb i x, P nb i x -> mwf x. Proof. intros nb i x [_ ->]. apply mwf_gen. Qed.
Lemma P_fwd : forall nb i r l x out l' o, (i < m)%nat -> K i l -> P nb i x -> mwf out -> layForward F r l x out = Ok (l', o) -> P nb (S i) o.
Proof.
  intros nb i r l x out l' o Hi Kl [-> ->] Ho E. split; auto. pose proof Kl as (A1 & A2 & A3 & A4 & A5 & A6 & _). change (@mgen R) with (@mgen F) in E.
  destruct (row_forward F l (D i) (D (S i)) B (fun r => act i (Xb r)) r out (plain_det _ _ _ A1 A2 A3) Ho) as (l2 & E2 & _). rewrite E2 in E. injection E; intros <- _.
  rewrite (rowFun_same (L i) l) by auto. reflexivity.
Qed.
Lemma Q_loss : forall nb b o y g0 g, bon F b = false -> P nb m o -> TT nb y -> mwf g0 -> compute_gradient F (cLoss F c0) b o y g0 = Ok g -> mwf g /\ Q nb m o g.
Proof.
  intros nb b o y g0 g Hb [-> ->] [_ ->] _ E. pose proof (smooth_reg _ Hls) as Hr. rewrite grad_nobal, reg_gradient_value in E by auto. injection E; intros <-. split; [apply mwf_gen|]. unfold Q, zeros. apply mgen_ext. intros i j Hi Hj. unfold regG. rewrite HB by auto. rewrite Rminus_diag_eq by auto. apply grad_zero; auto.
Qed.
Lemma S_loss : forall nb b o y out ml s, bon F b = false -> P nb m o -> TT nb y -> mwf out -> compute F cabs (cLoss F c0) b o y out = Ok ml -> mmean F ml = Ok s -> SS s /\ mwf ml.
Proof.
  intros nb b o y out ml s Hb [-> ->] [_ ->] _ E Es. pose proof (smooth_reg _ Hls) as Hr. rewrite comp_nobal, reg_compute in E by auto. injection E; intros <-. split; [|apply mwf_gen]. change (@mgen R) with (@mgen F) in Es. rewrite (mmean_gen F) in Es. apply Ok_inj in Es. subst s. unfold SS.
  match goal with |- fdiv _ ?v ?w = _ => replace v with (0 : R); [exact (zdiv w)|] end. symmetry. apply zsum. intros q Hq. assert (q mod D m < D m)%nat by (apply Nat.mod_upper_bound; nia).
  unfold lossColumn; rewrite rsum_zero; [apply zdiv|]; intros; rewrite HB by (auto; try nia); rewrite Rminus_diag_eq by auto; apply err_zero; auto.
Qed.
Lemma Q_bwd : forall nb i l x o g gin l' gi, (i < m)%nat -> K i l -> P nb i x -> P nb (S i) o -> Fwd F K i x o -> Q nb (S i) o g -> mwf gin -> layBackward F l x g gin = Ok (l', gi) ->
  K i l' /\ G i l' /\ mwf gi /\ ((0 < i)%nat -> Q nb i x gi).
Proof.
  intros nb i l x o g gin l' gi Hi Kl [-> ->] [_ ->] _ -> Hg E. pose proof Kl as (A1 & A2 & A3 & A4 & A5 & A6 & A7).
  destruct (bwd_fits F l B (D i) (D (S i)) (@mgen F B (D i) (fun r => act i (Xb r))) (zeros jk B (D (S i))) gin A1 (plain_ready _ _ _ _ A1 A2 A3)) as (l2 & g2 & E2 & (W2 & _) & F2 & _); auto; try apply gen_shp.
  destruct (zero_bwd jk l B (D i) (D (S i)) (fun r => act i (Xb r)) gin) as (l3 & g3 & E3 & S3 & Z3); auto.
  change (@mgen R B (D i)) with (@mgen F B (D i)) in E. rewrite E in E2. injection E2; intros <- <-. change (@mgen R B (D i)) with (@mgen F B (D i)) in E3. rewrite E in E3. injection E3; intros <- <-.
  destruct S3 as (B1 & B2 & B3 & B4 & B5 & B6 & B7). split; [|split; [|split; [exact W2|intro Hp; apply Z3; auto]]].
  - split; auto. split; [rewrite B1; auto|]. split; [unfold sized in *; rewrite B1, B4, B5; auto|]. rewrite B1, B2, B4, B5. auto 10.
  - unfold G, hasWeights, hasBiases in *. rewrite B4, B5. auto.
Qed.
End Batch.
End Run.
End Any.
