(* RegrFin1.v - the regression losses and their gradients in single precision *)
From Coq Require Import List Arith ZArith Reals Lra Lia Bool.
From Flocq Require Import Core IEEE754.BinarySingleNaN.
From Verif Require Import Base Scalar Mat SpecMat MatFacts MatLoops MatProofs B32Int Act Loss LossProofs LayProofs1 SpecRound SpecNaN B32Kit NaNAct SpecStay OptFin1 OptFin2 TrainFin1 TrainFin2 MlpFin1 SpecMlp SpecRegr.
Import ListNotations.
Local Open Scope R_scope.
Local Opaque b32_add b32_sub b32_mul b32_div b32_sqrt b32_of_Z Bopp Babs.

Lemma sqrt_rg : forall lo hi x, fin x -> 0 <= lo -> lo * lo <= val x <= hi * hi -> 0 <= hi -> fmt lo -> fmt hi -> rg lo hi (b32_sqrt x).
Proof.
  intros lo hi x Hx Hlo Bx Hh F1 F2. Local Transparent b32_sqrt. unfold b32_sqrt. destruct (Bsqrt_correct 24 128 prec32_gt_0 prec32_lt mode_NE x) as (C1 & C2 & _).
  assert (Hf : is_finite (@Bsqrt 24 128 prec32_gt_0 prec32_lt mode_NE x) = true). { rewrite C2. destruct x as [b|b| |b m e He]; try discriminate Hx; auto. destruct b; auto. exfalso. assert (val (B754_finite true m e He) < 0) by (unfold val; simpl; apply F2R_lt_0; simpl; lia). nra. }
  split; [exact Hf|]. unfold val in *. rewrite C1. split; [apply rnd_ge; auto; rewrite <- (sqrt_square lo) by lra; apply sqrt_le_1_alt; lra | apply rnd_le; auto; rewrite <- (sqrt_square hi) by lra; apply sqrt_le_1_alt; lra].
Qed.
Local Opaque b32_sqrt.

Ltac rgt := auto; try lra; try (apply fmt_0); try (apply fmt_1); try (apply fmt_p2; lia); try (rewrite one_val; lra); try (split; nra); try nra.
Section B32.
Variables (lm : libm -> b32 -> b32) (pw : b32 -> b32 -> b32) (jk : b32).
Notation F := (B32Ops lm pw jk).
Notation M := (mat F).
Ltac tof E := change (@mgen b32) with (@mgen (Scalar.T F)) in E.

Lemma w_sub : forall a b x y, within a x -> within b y -> (a < b + 1)%Z -> (-149 <= b + 1 <= 127)%Z -> within (b + 1) (b32_sub x y).
Proof.
  intros a b x y [A1 A2] [B1 B2] H K. pose proof (p2_le a b ltac:(lia)). assert (E : p2 (b + 1) = 2 * p2 b) by (rewrite Z.add_comm, <- p2_mul; reflexivity). pose proof (p2_lt_max (b + 1) ltac:(lia)). pose proof (p2_pos (b + 1)). pose proof max_pos. apply Rabs_le_inv in A2. apply Rabs_le_inv in B2.
  assert (Z : rg (- p2 (b + 1)) (p2 (b + 1)) (b32_sub x y)) by (apply rg_sub; auto; try lra; try (apply fmt_opp, fmt_p2; lia); try (apply fmt_p2; lia)). destruct Z as [C D]. split; auto. apply Rabs_le. lra.
Qed.
(* the value of an error *)
Definition errF (k : lossKind) (x : b32) : b32 := match regElem F (absFloat F) k x with Ok v => v | Err _ => B754_zero false end.
Definition elemTo (k : lossKind) (z : Z) : Z := match k with LMeanSquaredError | LL2 => 2 * z | LMeanAbsoluteError | LHuber | LL1 => z | LMeanCubicError | LL3 => 3 * z | _ => z + 1 end.
Lemma err_ok : forall k x, measured k -> regElem F (absFloat F) k x = Ok (errF k x).
Proof. intros k x H. unfold errF. unfold measured in H. cbn [In] in H. repeat destruct H as [<-|H]; try contradiction; reflexivity. Qed.
Lemma one_rg : rg 1 1 one. Proof. split; [exact one_fin|]. rewrite one_val. lra. Qed.
Lemma p2_two : forall z, p2 (2 * z) = p2 z * p2 z. Proof. intro z. rewrite p2_mul. f_equal. lia. Qed.
Lemma err_nn : forall k z x, measured k -> (0 <= z <= 63)%Z -> (elemTo k z <= 103)%Z -> within z x -> nn (elemTo k z) (errF k x).
Proof.
  intros k z x H Hz He Hx. unfold measured in H. cbn [In] in H. pose proof (p2_le 0 z (proj1 Hz)) as P0. change (p2 0) with 1 in P0. pose proof max_pos as MP. pose proof max_big as MB.
  assert (Sq : (2 * z <= 127)%Z -> nn (2 * z) (b32_mul x x)) by (intro; apply n_sqr; auto; lia).
  assert (Cu : (3 * z <= 103)%Z -> nn (3 * z) (Babs (b32_mul (b32_mul x x) x))). { intro Q. apply w_abs. apply w_mul with (2 * z)%Z z; auto; try lia. apply nn_within. apply Sq. lia. }
  repeat destruct H as [<-|H]; try contradiction; cbn [errF regElem absFloat elemTo bind] in *; cbn [fmul fabs flt f1 fsub flm fadd B32Ops] in *.
  - apply Sq. lia.
  - apply Sq. lia.
  - apply w_abs. auto.
  - apply w_abs. auto.
  - apply Cu. lia.
  - apply Cu. lia.
  - destruct (w_abs z x Hx) as [A B]. pose proof half_rg lm pw jk as [H1 H2]. change (p2 0) with 1 in H2. pose proof (p2_lt_max z ltac:(lia)) as PM. destruct (b32_lt (Babs x) one) eqn:L.
    + apply lt_val in L; auto using one_fin. rewrite one_val in L. assert (S : rg 0 1 (b32_mul (Babs x) (Babs x))) by (apply rg_mul; rgt). destruct S as [S1 S2]. apply rg_w with 0 1; try lra. apply rg_mul; rgt.
    + apply nlt_val in L; auto using one_fin. rewrite one_val in L. destruct one_rg as [O1 _]. assert (S : rg 1 (p2 z) (b32_mul one (Babs x))) by (apply rg_mul; rgt). destruct S as [S1 S2].
      assert (U : rg 0 1 (b32_mul (half F) one)) by (apply rg_mul; rgt). destruct U as [U1 U2]. assert (V : rg 0 1 (b32_mul (b32_mul (half F) one) one)) by (apply rg_mul; rgt). destruct V as [V1 V2].
      apply rg_sub; rgt.
  - destruct (Sq ltac:(lia)) as [S1 S2]. destruct one_rg as [O1 _]. pose proof (p2_lt_max (2 * z + 1) ltac:(lia)) as PM. assert (P2 : p2 (2 * z + 1) = 2 * p2 (2 * z)) by (rewrite Z.add_comm, <- p2_mul; reflexivity). pose proof (p2_le 0 (2 * z) ltac:(lia)) as P3. change (p2 0) with 1 in P3.
    assert (Mu : rg 0 (p2 (2 * z)) (b32_mul (b32_mul x x) one)) by (apply rg_mul; rgt). destruct Mu as [M1 M2].
    assert (Ad : rg 1 (p2 (2 * z + 1)) (b32_add (b32_mul (b32_mul x x) one) one)) by (apply rg_add; rgt). destruct Ad as [A1 A2].
    assert (P4 : p2 (z + 1) = 2 * p2 z) by (rewrite Z.add_comm, <- p2_mul; reflexivity). pose proof (p2_two z) as P5. pose proof (p2_lt_max (z + 1) ltac:(lia)) as PN.
    assert (Sr : rg 1 (p2 (z + 1)) (b32_sqrt (b32_add (b32_mul (b32_mul x x) one) one))) by (apply sqrt_rg; rgt). destruct Sr as [Q1 Q2].
    assert (Su : rg 0 (p2 (z + 1)) (b32_sub (b32_sqrt (b32_add (b32_mul (b32_mul x x) one) one)) one)) by (apply rg_sub; rgt). destruct Su as [T1 T2].
    apply rg_mul; rgt.
Qed.
Lemma sign_w : forall x, within 0 (fsign F x).
Proof. intro x. cbn [fsign B32Ops]. assert (p2 0 = 1) by reflexivity. destruct (Bsign x); apply w_Z; try lia; rewrite ?Rabs_R1; try lra. rewrite Rabs_left; lra. Qed.
Lemma over_N : forall z n x, (0 < n)%nat -> (Z.of_nat n < 2 ^ 24)%Z -> (-149 <= z <= 127)%Z -> within z x -> within z (fdiv F x (fofN F n)).
Proof.
  intros z n x Hn Hn' Hz Hx. cbn [fdiv B32Ops]. destruct (ofZ_val (Z.of_nat n) ltac:(lia)) as [A B]. apply w_div with z 0%Z; auto; try lia. change (fofN F n) with (b32_of_Z (Z.of_nat n)). change (p2 0) with 1. assert (1 <= IZR (Z.of_nat n)) by (apply IZR_le; lia). rewrite B, Rabs_pos_eq; lra.
Qed.
Lemma pseudo_w : forall z x, (0 <= z)%Z -> (z <= 63)%Z -> within z x -> within 1 (b32_div x (b32_sqrt (b32_add (b32_mul (b32_mul x x) one) one))).
Proof.
  intros z x Hz He Hx. pose proof max_pos as MP. pose proof max_big as MB. destruct (n_sqr x z Hx ltac:(lia)) as [S1 S2]. destruct one_rg as [O1 _]. pose proof (p2_lt_max (2 * z + 1) ltac:(lia)) as PM. assert (P2 : p2 (2 * z + 1) = 2 * p2 (2 * z)) by (rewrite Z.add_comm, <- p2_mul; reflexivity). pose proof (p2_le 0 (2 * z) ltac:(lia)) as P3. change (p2 0) with 1 in P3. pose proof Hx as [X1 X2].
  assert (Mu : rg 0 (p2 (2 * z)) (b32_mul (b32_mul x x) one)) by (apply rg_mul; rgt). destruct Mu as [M1 M2].
  assert (Ad : rg 1 (p2 (2 * z + 1)) (b32_add (b32_mul (b32_mul x x) one) one)) by (apply rg_add; rgt). destruct Ad as [A1 A2].
  assert (Sr : rg 1 (p2 (2 * z + 1)) (b32_sqrt (b32_add (b32_mul (b32_mul x x) one) one))) by (apply sqrt_rg; rgt). destruct Sr as [Q1 Q2].
  assert (Y : exists e, (0 <= e <= 127)%Z /\ Rabs (val x) <= p2 (e + 1) /\ p2 e <= val (b32_sqrt (b32_add (b32_mul (b32_mul x x) one) one))).
  { destruct (Rle_or_lt (Rabs (val x)) 1) as [L|L]; [exists 0%Z; split; [lia|]; split; [change (p2 (0 + 1)) with 2; lra | change (p2 0) with 1; lra]|].
    assert (Nz : val x <> 0) by (intro Q; rewrite Q, Rabs_R0 in L; lra). destruct (Raux.mag radix2 (val x)) as [e Me]. specialize (Me Nz). destruct Me as [Me1 Me2]. fold (p2 (e - 1)) in Me1. fold (p2 e) in Me2.
    assert (E1 : (0 < e)%Z) by (apply (lt_bpow radix2); fold (p2 0); fold (p2 e); change (p2 0) with 1; lra). assert (E2 : (e - 1 <= z)%Z) by (apply Z.lt_succ_r; apply (lt_bpow radix2); fold (p2 (e - 1)); fold (p2 (Z.succ z)); apply Rle_lt_trans with (p2 z); [lra|]; apply bpow_lt; lia).
    exists (e - 1)%Z. split; [lia|]. replace (e - 1 + 1)%Z with e by lia. split; [lra|]. assert (P4 : p2 (2 * (e - 1)) <= p2 (2 * z)) by (apply p2_le; lia). pose proof (p2_pos (e - 1)) as P5. pose proof (p2_two (e - 1)) as P6. assert (P7 : 1 <= p2 (2 * (e - 1))) by (apply (p2_le 0); lia).
    assert (B1 : rg (p2 (2 * (e - 1))) (p2 (2 * z)) (b32_mul x x)). { apply rg_mul; auto; try lra; try (apply fmt_p2; lia). split; [|rewrite p2_two]; replace (val x * val x) with (Rabs (val x) * Rabs (val x)) by (rewrite <- Rabs_mult; apply Rabs_pos_eq; nra); [rewrite P6; nra|]. pose proof (Rabs_pos (val x)). nra. } destruct B1 as [B1 B2].
    assert (C1 : rg (p2 (2 * (e - 1))) (p2 (2 * z)) (b32_mul (b32_mul x x) one)) by (apply rg_mul; auto; try lra; try (apply fmt_p2; lia); rewrite one_val; lra). destruct C1 as [C1 C2].
    assert (D1 : rg (p2 (2 * (e - 1))) (p2 (2 * z + 1)) (b32_add (b32_mul (b32_mul x x) one) one)) by (apply rg_add; auto; try lra; try (apply fmt_p2; lia); rewrite one_val; lra). destruct D1 as [D1 D2].
    assert (F1 : rg (p2 (e - 1)) (p2 (2 * z + 1)) (b32_sqrt (b32_add (b32_mul (b32_mul x x) one) one))) by (apply sqrt_rg; auto; try lra; try (apply fmt_p2; lia); nra). apply F1. }
  destruct Y as (e & E1 & E2 & E3). pose proof (p2_pos e). apply w_div with (e + 1)%Z e; auto; try lia; [split; auto|]. rewrite Rabs_pos_eq; lra.
Qed.
Lemma grad_w : forall k z c x, measured k -> (0 <= z <= 63)%Z -> (lossTo k z <= 103)%Z -> (0 < c)%nat -> (Z.of_nat c < 2 ^ 24)%Z -> within z x -> within (gradTo k z) (regGrad F k c x).
Proof.
  intros k z c x H Hz He Hc Hc' Hx. unfold measured in H. cbn [In] in H.
  assert (Cu : (3 * z <= 103)%Z -> within (2 * z + 2) (b32_mul (b32_mul (b32_mul (b32_of_Z 3) x) x) (if b32_lt (B754_zero false) x then one else Bopp one))).
  { intro Q. assert (T3 : within 2 (b32_of_Z 3)) by (apply w_Z; [lia|]; rewrite Rabs_pos_eq by lra; change (p2 2) with 4; lra).
    apply w_mul with (2 * z + 2)%Z 0%Z; try lia; [|destruct (b32_lt _ _); [apply w_one | apply w_opp, w_one]]. apply w_mul with (z + 2)%Z z; auto; try lia. apply w_mul with 2%Z z; auto; lia. }
  repeat destruct H as [<-|H]; try contradiction; cbn [regGrad gradTo lossTo] in *.
  - apply over_N; auto; lia.
  - auto.
  - apply sign_w.
  - apply over_N; auto; try lia. apply sign_w.
  - apply Cu. lia.
  - apply Cu. lia.
  - cbn [flt f1 fopp B32Ops]. destruct (b32_lt one x) eqn:L1; [apply w_one|]. destruct (b32_lt x (Bopp one)) eqn:L2; [apply w_opp, w_one|]. destruct Hx as [A B]. apply nlt_val in L1; auto using one_fin. apply nlt_val in L2; auto using one_fin, fin_opp. rewrite val_opp, one_val in *. split; auto. change (p2 0) with 1. apply Rabs_le. lra.
  - apply pseudo_w with z; auto; lia.
Qed.
(* a batch *)
Theorem regr_gradient : forall k b n c z O Y g0, measured k -> bon F b = false -> (0 <= z <= 62)%Z -> (lossTo k (z + 1) <= 103)%Z -> (0 < c)%nat -> (Z.of_nat c < 2 ^ 24)%Z -> (forall i j, within z (O i j)) -> (forall i j, within z (Y i j)) ->
  exists D, compute_gradient F k b (mgen n c O) (mgen n c Y) g0 = Ok (mgen n c D) /\ forall i j, within (gradTo k (z + 1)) (D i j).
Proof.
  intros k b n c z O Y g0 H Hb Hz He Hc Hc' HO HY. exists (fun i j => regGrad F k c (b32_sub (O i j) (Y i j))). assert (L : (z + 1 <= 127)%Z) by (unfold measured in H; cbn [In] in H; repeat destruct H as [<-|H]; try contradiction; cbn [lossTo] in He; lia). split.
  - assert (E : compute_gradient F k b (mgen n c O) (mgen n c Y) g0 = (assert_ (mcols (mgen n c Y) =? mcols (mgen n c O))%nat;;; assert_ (mrows (mgen n c Y) =? mrows (mgen n c O))%nat;;; (d <- msubM F (mgen n c O) (mgen n c Y) ;; g <- mapLoop (regGrad F k (mcols (mgen n c O))) d ;; balanceIf F b (mgen n c Y) g))) by (unfold measured in H; cbn [In] in H; repeat destruct H as [<-|H]; try contradiction; reflexivity).
    tof E. change (@mgen b32) with (@mgen (Scalar.T F)). rewrite E. change (mcols (mgen n c ?f)) with c. change (mrows (mgen n c ?f)) with n. rewrite !Nat.eqb_refl. cbn [assert_ bind]. rewrite (msubM_gen F). cbn [bind]. rewrite (@mapLoop_gen F). cbn [bind]. unfold balanceIf. rewrite Hb. reflexivity.
  - intros i j. apply grad_w; auto; try lia. apply w_sub with z; auto; lia.
Qed.
Theorem regr_loss : forall k b n c z O Y out ml s, measured k -> bon F b = false -> (0 <= z <= 62)%Z -> (lossTo k (z + 1) <= 103)%Z -> (0 < n)%nat -> (Z.of_nat n < 2 ^ 24)%Z -> (0 < c)%nat -> (Z.of_nat c < 2 ^ 24)%Z -> (forall i j, within z (O i j)) -> (forall i j, within z (Y i j)) ->
  compute F (absFloat F) k b (mgen n c O) (mgen n c Y) out = Ok ml -> mmean F ml = Ok s -> nn (lossTo k (z + 1)) s /\ mwf ml.
Proof.
  intros k b n c z O Y out ml s H Hb Hz He Hn Hn' Hc Hc' HO HY E Es. set (e := elemTo k (z + 1)). assert (L : (z + 1 <= 127)%Z /\ (0 <= e <= 103)%Z) by (unfold e, measured in *; cbn [In] in H; repeat destruct H as [<-|H]; try contradiction; cbn [lossTo elemTo] in *; lia). destruct L as [L1 L2].
  assert (E0 : compute F (absFloat F) k b (mgen n c O) (mgen n c Y) out = (assert_ (mcols (mgen n c Y) =? mcols (mgen n c O))%nat;;; assert_ (mrows (mgen n c Y) =? mrows (mgen n c O))%nat;;; (d <- msubM F (mgen n c O) (mgen n c Y) ;; e <- mapLoopR F (regElem F (absFloat F) k) d ;; l <- regReduce F k e ;; balanceIf F b (mgen n c Y) l))) by (unfold measured in H; cbn [In] in H; repeat destruct H as [<-|H]; try contradiction; reflexivity).
  tof E. tof E0. rewrite E0 in E. change (mcols (mgen n c ?f)) with c in E. change (mrows (mgen n c ?f)) with n in E. rewrite !Nat.eqb_refl in E. cbn [assert_ bind] in E. rewrite (msubM_gen F) in E. cbn [bind] in E. rewrite (mapLoopR_gen F _ (errF k)) in E by (intro; apply err_ok; auto). cbn [bind] in E. unfold balanceIf in E. rewrite Hb in E.
  assert (V : forall i j, nn e (errF k (fsub F (O i j) (Y i j)))) by (intros i j; apply err_nn; auto; try lia; apply w_sub with z; auto; lia).
  assert (R : exists f, regReduce F k (mgen n c (fun i j => errF k (fsub F (O i j) (Y i j)))) = Ok (mgen 1 c f) /\ forall i j, nn (lossTo k (z + 1)) (f i j)).
  { assert (S : forall j, rg 0 (INR n * p2 e) (fsum F n (fun i => errF k (fsub F (O i j) (Y i j))))) by (intro j; apply sum_nn; auto; lia).
    assert (Mn : elemTo k (z + 1) = lossTo k (z + 1) -> forall j, nn (lossTo k (z + 1)) (fdiv F (fsum F n (fun i => errF k (fsub F (O i j) (Y i j)))) (fofN F n))) by (intros <- j; apply (mean_nn lm pw jk) with n; auto; lia).
    assert (Su : (e + 24 = lossTo k (z + 1))%Z -> forall j, nn (lossTo k (z + 1)) (fsum F n (fun i => errF k (fsub F (O i j) (Y i j))))).
    { intros <- j. destruct (S j) as [A B]. split; auto. assert (INR n <= p2 24) by (rewrite INR_IZR_INZ; unfold p2; change (bpow radix2 24) with (IZR (2 ^ 24)); apply IZR_le; lia). pose proof (p2_pos e). replace (p2 (e + 24)) with (p2 24 * p2 e) by (rewrite p2_mul; f_equal; lia). nra. }
    unfold measured in H; cbn [In] in H; repeat destruct H as [<-|H]; try contradiction; unfold regReduce, colWiseSum, colWiseMean; rewrite (colWise_gen F); eexists; (split; [reflexivity|]); intros i j; first [apply Mn; reflexivity | apply Su; reflexivity]. }
  destruct R as (f & Ef & Hf). tof Ef. rewrite Ef in E. cbn [bind] in E. injection E; intros <-. split; [|apply mwf_gen]. rewrite mmean_gen in Es. injection Es; intros <-. cbn [fdiv B32Ops]. rewrite Nat.add_0_r. change (b32_of_Z (Z.of_nat c)) with (fofN F c). assert (0 <= lossTo k (z + 1))%Z by (unfold e in L2; unfold measured in H; cbn [In] in H; repeat destruct H as [<-|H]; try contradiction; cbn [lossTo elemTo] in *; lia).
  apply (mean_nn lm pw jk) with c; auto; try lia. apply sum_nn; auto; try lia.
Qed.
End B32.
