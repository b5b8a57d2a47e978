(* NetRule2.v - the same for a whole training run in single precision, with the recorded losses *)
From Coq Require Import String List Arith ZArith Reals Lra Lia Bool Permutation.
From Flocq Require Import Core IEEE754.BinarySingleNaN.
From Verif Require Import Base Scalar Mat SpecMat MatFacts MatLoops MatProofs MatProps B32Int Act Loss Optim SpecOpt OptProofs Regul LayMat LayImg Layer LayProofs1 Net NetTrain NetProofs1 NetProofs2 TrainProofs1 TrainProofs2 TrainProofs3 SpecFit FitLay1 FitNet1 FitNet2 FitNet3 FitRun FitKeep
  SpecRound SpecNaN B32Kit SpecSoft SpecStay OptFin1 OptFin2 SpecTrainFin TrainFin1 TrainFin3 NetRule1.
Import ListNotations.
Local Open Scope R_scope.
Local Opaque b32_add b32_sub b32_mul b32_div b32_sqrt b32_of_Z Bopp Babs.

Lemma ceilD_le : forall n b, (0 < b)%nat -> (ceilDiv n b <= n)%nat.
Proof. intros n b H. unfold ceilDiv. apply Nat.lt_succ_r. apply Nat.div_lt_upper_bound; nia. Qed.
Lemma ceilD_pos : forall n b, (0 < n)%nat -> (0 < b)%nat -> (0 < ceilDiv n b)%nat.
Proof. intros n b H Hb. unfold ceilDiv. apply Nat.div_str_pos. lia. Qed.

Section B32.
Variables (lm : libm -> b32 -> b32) (pw : b32 -> b32 -> b32) (jk : b32).
Notation F := (B32Ops lm pw jk).
Notation M := (mat F).
Variables (R0 : fitRnd F) (h0 : heap F) (n : net) (t0 : trainer F) (k mo N : nat) (X Y : nat -> nat -> b32).
Notation ls := (nlay n). Notation m := (length ls). Notation c0 := (tc F t0). Notation v0 := (tval F t0).
Variables (q : nat) (e : Z).                 (* columns of the truth; losses up to 2^e *)
Variables (K G : nat -> layer F -> Prop) (P : nat -> nat -> M -> Prop) (Q : nat -> nat -> M -> M -> Prop) (OW OB : nat -> opt F -> Prop) (TT : nat -> M -> Prop).
Variables (RX RY : (nat -> b32) -> Prop) (PP : nat -> layer F -> Prop).
Notation cabs := (absFloat F).
Notation Fwd := (Fwd F K). Notation SS := (fun x : b32 => nn e x).
Hypothesis He : (-149 <= e <= 79)%Z.
Hypothesis Ht : trainable h0 n t0 k mo.
Hypothesis Lm : (0 < m)%nat.
Hypothesis K_train : forall i l b, K i l -> K i (setTrain l b).
Hypothesis K_fwd : forall i r l x out l' o, K i l -> layForward F r l x out = Ok (l', o) -> K i l'.
Hypothesis P_wf : forall nb i x, P nb i x -> mwf x.
Hypothesis P_fwd : forall nb i r l x out l' o, (i < m)%nat -> K i l -> P nb i x -> mwf out -> layForward F r l x out = Ok (l', o) -> P nb (S i) o.
Hypothesis Q_loss : forall nb b o y g0 g, bon F b = false -> P nb m o -> TT nb y -> mwf g0 -> compute_gradient F (cLoss F c0) b o y g0 = Ok g -> mwf g /\ Q nb m o g.
Hypothesis Q_bwd : forall nb i l x o g gin l' gi, (i < m)%nat -> K i l -> P nb i x -> P nb (S i) o -> Fwd i x o -> Q nb (S i) o g -> mwf gin -> layBackward F l x g gin = Ok (l', gi) ->
  K i l' /\ G i l' /\ mwf gi /\ ((0 < i)%nat -> Q nb i x gi).
Hypothesis O_w : forall i l o g o' w, K i l -> G i l -> OW i o -> (match cReg F c0 with Some r => reg_apply F r (lw l) (lgw l) | None => Ok (lgw l) end) = Ok g -> optimize F cabs o (lw l) g = Ok (o', w) ->
  K i (setP l w g (lb l) (lgb l)) /\ G i (setP l w g (lb l) (lgb l)) /\ OW i o'.
Hypothesis O_b : forall i l o g o' b, K i l -> G i l -> OB i o -> (match cReg F c0 with Some r => reg_apply F r (lb l) (lgb l) | None => Ok (lgb l) end) = Ok g -> optimize F cabs o (lb l) g = Ok (o', b) ->
  K i (setP l (lw l) (lgw l) b g) /\ G i (setP l (lw l) (lgw l) b g) /\ OB i o'.
Hypothesis S_loss : forall nb b o y out ml s, bon F b = false -> P nb m o -> TT nb y -> mwf out -> compute F cabs (cLoss F c0) b o y out = Ok ml -> mmean F ml = Ok s -> SS s /\ mwf ml.
(* data, row by row *)
Hypothesis P_rows : forall nb X, (0 < nb)%nat -> (Z.of_nat nb < 2 ^ 24)%Z -> (forall i, (i < nb)%nat -> RX (X i)) -> P nb 0 (mgen nb k X).
Hypothesis T_rows : forall nb Y, (0 < nb)%nat -> (Z.of_nat nb < 2 ^ 24)%Z -> (forall i, (i < nb)%nat -> RY (Y i)) -> TT nb (mgen nb q Y).
(* the start *)
Hypothesis K_start : forall i a l, nth_error ls i = Some a -> hget F h0 a = Ok l -> K i (if (i =? 0)%nat then setFirst l true else l).
Hypothesis O_start : forall i l kd, K i l -> create_optimizer (cOpt F c0) = Some kd -> (hasWeights l = true -> OW i (set_params F (newOpt F kd) (cLr F c0) (cDecay F c0) (cMom F c0))) /\ (hasBiases l = true -> OB i (set_params F (newOpt F kd) (cLr F c0) (cDecay F c0) (cMom F c0))).
Hypothesis O_init : forall i o, (OW i o -> OW i (init F o)) /\ (OB i o -> OB i (init F o)).
Hypothesis PP_K : forall i l, K i l -> PP i l.
Hypothesis PP_clone : forall i r l l', layClone F r l = Ok l' -> PP i l -> PP i l'.
Hypothesis Hx : ttrain F t0 = Some (mgen N k X, mgen N q Y).
Hypothesis HN : (0 < N)%nat.
Hypothesis HN' : (Z.of_nat N < 2 ^ 24)%Z.
Hypothesis HX : forall i, (i < N)%nat -> RX (X i).
Hypothesis HY : forall i, (i < N)%nat -> RY (Y i).
Hypothesis Hv : forall xv yv, v0 = Some (xv, yv) -> exists Nv Xv Yv, xv = mgen Nv k Xv /\ yv = mgen Nv q Yv /\ (Z.of_nat Nv < 2 ^ 24)%Z /\ (forall i, (i < Nv)%nat -> RX (Xv i)) /\ forall i, (i < Nv)%nat -> RY (Yv i).

Notation lays := (lays F ls K). Notation trI := (trI F ls c0 v0 OW OB). Notation net_ tr := (mkNet ls (nclass n) tr).
Lemma nodup : NoDup ls. Proof. exact (proj1 Ht). Qed.

Lemma accuracy_lays : forall rs h tr (t : trainer F) x y h' l a, lays h -> lossAccuracy F cabs rs h (net_ tr) t x y = Ok (h', l, a) -> lays h'.
Proof.
  intros rs h tr t x y h' l a H E. unfold lossAccuracy in E. cbv zeta in E. destruct ((_ =? 0)%nat || _); [injection E; intros; subst; auto|]. destruct (cValBatch F (tc F t) =? 0)%nat; [discriminate|].
  apply bind_inv in E. destruct E as ([[[[h1 o1] m1] l1] g1] & E1 & E2). injection E2; intros; subst. apply (forN_postI _ (fun _ '(h, _, _, _, _) => lays h)) in E1; auto.
  intros i [[[[h2 o2] m2] l2] g2] [[[[h3 o3] m3] l3] g3] Hi H2 E3. binp E3. injection E3; intros; subst. match goal with H : predict _ _ _ _ _ _ = _ |- _ => eapply (predict_lays F ls (nclass n) nodup K P K_fwd P_fwd) in H; eauto end.
Qed.
Lemma add_sum_e : forall b s y, (Z.of_nat (b + 1) < 2 ^ 24)%Z -> rg 0 (INR b * p2 e) s -> nn e y -> rg 0 (INR (b + 1) * p2 e) (b32_add s y).
Proof.
  intros b s y Hb [A B] [C D]. pose proof (N_lt (b + 1) e Hb ltac:(lia)). pose proof (fmt_N (b + 1) e Hb ltac:(lia)). rewrite plus_INR in *. change (INR 1) with 1 in *. pose proof max_pos. apply rg_add; auto; try lra. apply fmt_0.
Qed.
Lemma small_24 : forall b n0, (b <= n0)%nat -> (Z.of_nat n0 < 2 ^ 24)%Z -> INR b * p2 e <= p2 (e + 24).
Proof.
  intros b n0 H Hn0. assert (INR b <= p2 24) by (rewrite INR_IZR_INZ; unfold p2; change (bpow radix2 24) with (IZR (2 ^ 24)); apply IZR_le; lia). pose proof (p2_pos e). replace (p2 (e + 24)) with (p2 24 * p2 e) by (rewrite p2_mul; f_equal; lia). nra.
Qed.
Lemma accuracy_loss : forall rs h tr (t : trainer F) Nv Xv Yv h' l a, lays h -> tc F t = c0 -> bon F (tbal F t) = false -> (Z.of_nat Nv < 2 ^ 24)%Z -> (forall i, (i < Nv)%nat -> RX (Xv i)) -> (forall i, (i < Nv)%nat -> RY (Yv i)) ->
  lossAccuracy F cabs rs h (net_ tr) t (mgen Nv k Xv) (mgen Nv q Yv) = Ok (h', l, a) -> nn (e + 24) l.
Proof.
  intros rs h tr t Nv Xv Yv h' l a H Tc Hbn HNv HXv HYv E. unfold lossAccuracy in E. cbv zeta in E. change (mrows (mgen Nv k Xv)) with Nv in E. cbn [nlay] in E. rewrite (proj2 (Nat.eqb_neq m 0)) in E by lia. cbn [orb] in E. destruct (Nat.eqb_spec Nv 0); [injection E; intros _ <- _; apply zero_nn|]. rewrite Tc in E. set (vb := cValBatch F c0) in *. destruct (Nat.eqb_spec vb 0) as [|Hvb]; [discriminate|]. assert (Hvp : (0 < vb)%nat) by lia. clearbody vb.
  apply bind_inv in E. destruct E as ([[[[h1 o1] m1] l1] g1] & E1 & E2). injection E2; intros _ <- _. clear E2.
  assert (I : lays h1 /\ mwf m1 /\ mwf o1 /\ rg 0 (INR (ceilDiv Nv vb) * p2 e) l1).
  { apply (forN_postI _ (fun b '(h, o, ml, l, _) => lays h /\ mwf ml /\ mwf o /\ rg 0 (INR b * p2 e) l)) in E1; auto.
    - split; auto. do 2 (split; [reflexivity|]). change (INR 0) with 0. rewrite Rmult_0_l. split; [reflexivity|]. change (val (f0 F)) with 0. lra.
    - intros b [[[[h2 o2] m2] l2] g2] [[[[h3 o3] m3] l3] g3] Hi (D2 & W2 & V2 & S2) E3. pose proof (ceil_lt Nv vb b ltac:(lia) Hi) as Lb. set (s := (b * vb)%nat) in *. set (u := Nat.min (s + vb) Nv) in *. assert (Hu : (s < u <= Nv)%nat) by (unfold u; lia).
      rewrite !(viewRow_gen F) in E3 by lia. cbn [bind] in E3. destruct (predict F (rs b) h2 _ _ o2) as [[h4 o4]|] eqn:E4; [|discriminate]. cbn [bind] in E3.
      assert (Px : P (u - s) 0 (mgen (u - s) k (fun i j => Xv (s + i)%nat j))) by (apply P_rows; try lia; intros i Hi0; apply HXv; lia). assert (Ty : TT (u - s) (mgen (u - s) q (fun i j => Yv (s + i)%nat j))) by (apply T_rows; try lia; intros i Hi0; apply HYv; lia).
      pose proof (predict_lays F ls (nclass n) nodup K P K_fwd P_fwd _ _ _ _ _ _ _ D2 E4) as D4. pose proof (predict_rule F ls (nclass n) nodup K P K_fwd P_wf P_fwd _ _ _ _ _ _ _ _ Lm D2 Px V2 E4) as Po.
      apply bind_inv in E3. destruct E3 as (ml & Eml & E3). apply bind_inv in E3. destruct E3 as (sm & Es & E3). destruct (S_loss _ _ _ _ _ _ _ Hbn Po Ty W2 Eml Es) as [Ss Wml]. binp E3. injection E3; intros; subst h3 o3 m3 l3 g3.
      split; auto. split; auto. split; [eapply P_wf; eauto|]. rewrite <- (Nat.add_1_r b). pose proof (ceilD_le Nv vb Hvp). apply add_sum_e; auto. lia. }
  destruct I as (_ & _ & _ & A & B). split; auto. pose proof (small_24 (ceilDiv Nv vb) Nv (ceilD_le Nv vb Hvp) HNv). lra.
Qed.

Definition histE (ep : nat) (t : trainer F) : Prop := length (hTL F (th F t)) = ep /\ (forall x, In x (hTL F (th F t)) -> nn e x) /\ forall x, In x (hVL F (th F t)) -> nn (e + 24) x.
Definition JE (ep : nat) (h : heap F) (t : trainer F) : Prop := lays h /\ trI t /\ (0 < tadj F t)%nat /\ histE ep t.
Lemma epoch_batches : forall rs h tr t X' Y' h' t', lays h -> trI t -> (0 < tadj F t)%nat -> tonl F t = (B754_zero false : b32) -> (forall i, (i < N)%nat -> RX (X' i)) -> (forall i, (i < N)%nat -> RY (Y' i)) ->
  trainOneEpoch F cabs rs h (net_ tr) t (mgen N k X') (mgen N q Y') = Ok (h', t') -> lays h' /\ trI t' /\ th F t' = th F t /\ tadj F t' = tadj F t /\ nn e (b32_div (tonl F t') (fofN F N)).
Proof.
  intros rs h tr t X' Y' h' t' H Ti Had Z0 HX' HY' E. unfold trainOneEpoch in E. cbv zeta in E. change (mrows (mgen N k X')) with N in E. rewrite (proj2 (Nat.eqb_neq N 0)) in E by lia. set (adj := tadj F t) in *. rewrite (proj2 (Nat.eqb_neq adj 0)) in E by lia.
  assert (I : lays h' /\ trI t' /\ th F t' = th F t /\ tadj F t' = adj /\ rg 0 (INR (ceilDiv N adj) * p2 e) (tonl F t')).
  { apply (forN_postI _ (fun b '(h, t') => lays h /\ trI t' /\ th F t' = th F t /\ tadj F t' = adj /\ rg 0 (INR b * p2 e) (tonl F t'))) in E; auto.
    - do 2 (split; [auto|]). do 2 (split; [reflexivity|]). rewrite Z0. change (INR 0) with 0. rewrite Rmult_0_l. split; [reflexivity|]. change (val (B754_zero false)) with 0. lra.
    - intros b [h2 t2] [h3 t3] Hi (H2 & Ti2 & Th2 & A2 & S2) E3. pose proof (ceil_lt N adj b Had Hi) as Lb. set (s := (b * adj)%nat) in *. set (u := Nat.min (s + adj) N) in *. assert (Hu : (s < u <= N)%nat) by (unfold u; lia).
      rewrite !(viewRow_gen F) in E3 by lia. cbn [bind] in E3.
      assert (Px : P (u - s) 0 (mgen (u - s) k (fun i j => X' (s + i)%nat j))) by (apply P_rows; try lia; intros i Hi0; apply HX'; lia). assert (Ty : TT (u - s) (mgen (u - s) q (fun i j => Y' (s + i)%nat j))) by (apply T_rows; try lia; intros i Hi0; apply HY'; lia).
      destruct (batch_rule F cabs ls (nclass n) c0 v0 nodup K G P Q OW OB TT SS K_fwd P_wf P_fwd Q_loss Q_bwd O_w O_b S_loss (rs b) tr h2 t2 h3 t3 _ _ _ Lm H2 Ti2 Px Ty E3) as (H3 & Ti3 & Th3 & A3 & _ & y & Hy & Ey).
      do 2 (split; [auto|]). split; [congruence|]. split; [congruence|]. rewrite Ey, <- (Nat.add_1_r b). pose proof (ceilD_le N adj Had). apply add_sum_e; auto. lia. }
  destruct I as (I1 & I2 & I3 & I4 & I5). do 4 (split; [auto|]). apply (mean_nn lm pw jk) with (ceilDiv N adj); auto; try lia. split; [apply ceilD_pos; auto | apply ceilD_le; auto].
Qed.
Lemma epoch_rule : forall ep h1 tr t1 h2 t2 h3 t3 l a, JE ep h1 t1 -> epochTrain F cabs R0 ep h1 (net_ tr) t1 (mgen N k X) (mgen N q Y) = Ok (h2, net_ false, t2) ->
  epochStats F cabs R0 ep h2 (net_ false) t2 N = Ok (h3, t3, l, a) -> JE (S ep) h3 t3.
Proof.
  intros ep h1 tr t1 h2 t2 h3 t3 l a (D & Tr & Ad & H) E1 E2.
  assert (J2 : lays h2 /\ trI t2 /\ th F t2 = th F t1 /\ tadj F t2 = tadj F t1 /\ nn e (b32_div (tonl F t2) (fofN F N))).
  { unfold epochTrain in E1. cbv zeta in E1. set (ta := setOnline F t1 (f0 F) 0) in *. assert (Tra : trI ta) by exact Tr. change (mrows (mgen N k X)) with N in E1.
    match type of E1 with bind ?a _ = _ => assert (exists X' Y', (forall i, (i < N)%nat -> RX (X' i)) /\ (forall i, (i < N)%nat -> RY (Y' i)) /\ a = Ok (mgen N k X', mgen N q Y')) as (X' & Y' & HX' & HY' & EP) end.
    { destruct (tadj F ta <? N)%nat; [|exists X, Y; auto]. destruct (randPerm_perm (oShuffle F R0 ep) N) as (v & Ev & Pv). assert (Lv : length v = N) by (rewrite <- (Permutation_length Pv); apply seq_length).
      assert (In_v : forall x, In x v -> (x < N)%nat). { intros x Hx0. apply (Permutation_in x (Permutation_sym Pv)) in Hx0. apply in_seq in Hx0. lia. }
      exists (fun i => X (nth i v O)), (fun i => Y (nth i v O)). split; [intros i Hi; apply HX, In_v, nth_In; lia|]. split; [intros i Hi; apply HY, In_v, nth_In; lia|]. rewrite Ev. cbn [bind].
      change (@mgen b32) with (@mgen (Scalar.T F)). rewrite !(applyRowPermutation_gen F) by (solve [auto | reflexivity]). reflexivity. }
    change (@mgen b32) with (@mgen (Scalar.T F)) in E1, EP. rewrite EP in E1. cbn [bind] in E1. destruct (netSetTrain F h1 _ true) as [[h4 n4]|] eqn:E4; [|discriminate]. cbn [bind] in E1. destruct (mode_rule F ls (nclass n) nodup K K_train _ _ _ _ _ D E4) as (D4 & ->).
    destruct (trainOneEpoch F cabs _ h4 _ ta _ _) as [[h5 t5]|] eqn:E5; [|discriminate]. cbn [bind] in E1. destruct (epoch_batches _ _ _ _ _ _ _ _ D4 Tra Ad eq_refl HX' HY' E5) as (D5 & Tr5 & H5 & A5 & L5).
    destruct (netSetTrain F h5 _ false) as [[h6 n6]|] eqn:E6; [|discriminate]. cbn [bind] in E1. destruct (mode_rule F ls (nclass n) nodup K K_train _ _ _ _ _ D5 E6) as (D6 & ->). injection E1; intros; subst. auto 10. }
  clear E1. destruct J2 as (D2 & Tr2 & H2 & A2 & L2). unfold epochStats in E2. cbv zeta in E2. change (fdiv F (tonl F t2) (fofN F N)) with (b32_div (tonl F t2) (fofN F N)) in E2.
  assert (QQ : forall H', hTL F H' = hTL F (th F t2) ++ [b32_div (tonl F t2) (fofN F N)] -> (hVL F H' = hVL F (th F t2) \/ exists v, nn (e + 24) v /\ hVL F H' = hVL F (th F t2) ++ [v]) -> forall h', lays h' -> JE (S ep) h' (setHist F t2 H')).
  { intros H' EH EV h' D'. split; auto. split; [exact Tr2|]. split; [change (tadj F (setHist F t2 H')) with (tadj F t2); lia|]. destruct H as (HE & HL & HV). unfold histE. change (th F (setHist F t2 H')) with H'. rewrite EH, H2. split; [rewrite app_length; cbn [length]; lia|]. split.
    - intros x Hx0. apply in_app_or in Hx0. destruct Hx0 as [Hx0|[<-|[]]]; auto.
    - rewrite H2 in EV. destruct EV as [->|(v & Hv0 & ->)]; auto. intros x Hx0. apply in_app_or in Hx0. destruct Hx0 as [Hx0|[<-|[]]]; auto. }
  pose proof Tr2 as (_ & Tc & (Tv & Hbn) & _). destruct (tval F t2) as [[xv yv]|].
  - apply bind_inv in E2. destruct E2 as ([[h4 l4] a4] & E4 & E2). injection E2; intros; subst h3 t3 l a. pose proof (accuracy_lays _ _ _ _ _ _ _ _ _ D2 E4) as D4. destruct (Hv xv yv (eq_sym Tv)) as (Nv & Xv & Yv & -> & -> & B1 & B2 & B3).
    eapply accuracy_loss in E4; eauto. apply QQ; auto; destruct (nclass n); try reflexivity; right; eexists; split; eauto.
  - injection E2; intros; subst h3 t3 l a. apply QQ; auto; destruct (nclass n); auto.
Qed.

Lemma vresize_len : forall (v : list M) r, Forall mwf v -> length (vresize F v r) = r /\ Forall mwf (vresize F v r).
Proof.
  intros v r H. unfold vresize. split; [rewrite app_length, firstn_length, repeat_length; lia|]. apply Forall_app. split; [|apply Forall_forall; intros x Hx0; apply repeat_spec in Hx0; subst; reflexivity].
  apply Forall_forall. intros x Hx0. rewrite Forall_forall in H. apply H. rewrite <- (firstn_skipn r v). apply in_or_app. auto.
Qed.
Theorem fit_keeps : exists h' n' t' calls, fit F cabs R0 h0 n t0 = Ok (h', n', t', calls) /\ length (hTL F (th F t')) = Z.to_nat (cEpochs F c0) /\ (forall x, In x (hTL F (th F t')) -> nn e x) /\ (forall x, In x (hVL F (th F t')) -> nn (e + 24) x) /\
  length (nlay n') = m /\ forall i b, nth_error (nlay n') i = Some b -> exists l, hget F h' b = Ok l /\ PP i l.
Proof.
  destruct (fit_all F PP PP_clone m R0 h0 n t0 k mo (mgen N k X) (mgen N q Y) Ht) with (J := JE) as (h' & n' & t' & calls & h2 & Ef & (_ & _ & _ & Hh1 & Hh2 & Hh3) & Al); auto.
  - intros ep h1 h2 t1 Fr (D & Q0). split; [|exact Q0]. intros i a Ea. destruct (D i a Ea) as (l & El & Kl). exists l. split; auto. rewrite Fr; auto. eapply nth_error_In; eauto.
  - intros ep h1 t1 t2 (zz & os & -> & Hos) (D & Tr & Ad & H). split; auto. split; [|split; [exact Ad|exact H]]. destruct Tr as (T1 & T2 & T3 & T4 & T5 & T6 & T7 & (O1 & O2 & O3)). do 7 (split; [assumption|]). destruct Hos as [-> | ->]; [split; [exact O1|split; [exact O2|exact O3]]|].
    split; [|split; [|exact O3]].
    + intros j a i Ea Ei. destruct (O1 j a i Ea Ei) as (o & Eo & Ho). exists (init F o). split; [change (topts F (setOpts F (setCur F t1 zz) ?v)) with v; rewrite nth_error_map, Eo; reflexivity | apply O_init; auto].
    + intros j a i Ea Ei. destruct (O2 j a i Ea Ei) as (o & Eo & Ho). exists (init F o). split; [change (topts F (setOpts F (setCur F t1 zz) ?v)) with v; rewrite nth_error_map; change (tpw F (setOpts F (setCur F t1 zz) _)) with (tpw F t1); rewrite Eo; reflexivity | apply O_init; auto].
  - intros ep rs h1 h2 t1 xv yv l a tr (D & Q0) Ea. split; [eapply accuracy_lays; eauto | exact Q0].
  - intros h1 t1 Es. destruct (setNet_post F _ _ _ _ _ Es) as (A1 & A2 & A3 & A4 & A5 & A6 & A7 & A8 & A9 & A10 & A11 & A12 & kd & A13 & A14).
    assert (V : tinOut F t1 = vresize F (tinOut F t0) (m + 1) /\ tgrad F t1 = vresize F (tgrad F t0) (m + 1)). { unfold setNet in Es. cbv zeta in Es. binp Es. apply Ok_inj in Es. injection Es; intros; subst. split; reflexivity. }
    destruct V as [V1 V2]. assert (Wi : Forall mwf (tinOut F t0) /\ Forall mwf (tgrad F t0)) by (destruct Ht as (_ & _ & _ & _ & _ & _ & _ & Wi & Wg & _); auto). destruct Wi as [Wi Wg].
    assert (D : lays h1).
    { intros i a Ea. destruct (A4 a (nth_error_In _ _ Ea)) as (l & El). exists l. split; auto. destruct i as [|i].
      - destruct (A3 a) as (l0 & E0 & E1). { destruct ls; [discriminate Ea|]. exact Ea. } rewrite E1 in El. injection El; intros <-. apply (K_start 0 a l0 Ea E0).
      - apply (K_start (S i) a l Ea). unfold hget, rget in *. rewrite A2 in El; auto. intro Q0. pose proof (same_at ls nodup (S i) 0 a Ea) as Q1. destruct ls; [discriminate Ea|]. cbn in Q0, Q1. specialize (Q1 Q0). discriminate Q1. }
    split; [exact D|]. split; [|split].
    + split; [exact A8|]. split; [exact A7|]. split; [split; [exact A10 | reflexivity]|]. destruct (vresize_len (tinOut F t0) (m + 1) Wi) as [B1 B2]. destruct (vresize_len (tgrad F t0) (m + 1) Wg) as [B3 B4].
      match goal with |- context [setOpts F ?u (map (init F) (topts F t1))] => set (tt1 := setOpts F u (map (init F) (topts F t1))) end. change (tinOut F tt1) with (tinOut F t1). change (tgrad F tt1) with (tgrad F t1). rewrite V1, V2, B1, B3. split; [apply Nat.add_1_r|]. split; [exact B2|]. split; [apply Nat.add_1_r|]. split; [exact B4|].
      assert (OS : forall a i, nth_error ls i = Some a -> forall l, hget F h1 a = Ok l -> K i l). { intros a i Ea l El. destruct (D i a Ea) as (l' & El' & Kl). rewrite El in El'. injection El'; intros <-. auto. }
      change (topts F tt1) with (map (init F) (topts F t1)). unfold optsOk. change (topts F tt1) with (map (init F) (topts F t1)). change (tpw F tt1) with (tpw F t1). change (tpb F tt1) with (tpb F t1). rewrite A14.
      assert (CK : forall a, In a (tpw F t1) \/ In a (tpb F t1) -> create_optimizer (cOpt F c0) = Some kd). { intros a Ha. apply A13. rewrite A14. intro Q0. apply (f_equal (@length _)) in Q0. rewrite repeat_length in Q0. cbn in Q0. destruct Ha as [Ha|Ha]; [destruct (tpw F t1) | destruct (tpb F t1)]; cbn in *; try contradiction; lia. }
      set (o0 := set_params F (newOpt F kd) (cLr F c0) (cDecay F c0) (cMom F c0)) in *.
      split; [|split; [|split]].
      * intros j a i Ea Ei. exists (init F o0). assert (j < length (tpw F t1))%nat by (apply nth_error_Some; congruence). split; [rewrite nth_error_map, nth_error_repeat by lia; reflexivity|]. apply O_init. assert (Ha : In a (tpw F t1)) by (eapply nth_error_In; eauto). pose proof (CK a (or_introl Ha)) as Hkd.
        rewrite A5 in Ha. apply filter_In in Ha. destruct Ha as [_ Ha]. destruct (hget F h1 a) as [l|] eqn:El; [|discriminate]. destruct (O_start i l kd (OS a i Ei l El) Hkd) as [S1 _]. auto.
      * intros j a i Ea Ei. exists (init F o0). assert (j < length (tpb F t1))%nat by (apply nth_error_Some; congruence). split; [rewrite nth_error_map, nth_error_repeat by lia; reflexivity|]. apply O_init. assert (Ha : In a (tpb F t1)) by (eapply nth_error_In; eauto). pose proof (CK a (or_intror Ha)) as Hkd.
        rewrite A6 in Ha. apply filter_In in Ha. destruct Ha as [_ Ha]. destruct (hget F h1 a) as [l|] eqn:El; [|discriminate]. destruct (O_start i l kd (OS a i Ei l El) Hkd) as [_ S1]. auto.
      * intros a Ha. rewrite A5 in Ha. apply filter_In in Ha. apply Ha.
      * intros a Ha. rewrite A6 in Ha. apply filter_In in Ha. apply Ha.
    + change (mrows (mgen N k X)) with N. match goal with |- (0 < tadj F (setOpts F (setAdj F ?u ?v) ?w))%nat => change (0 < v)%nat end. destruct (Nat.ltb_spec N (cBatch F c0)); [exact HN|]. destruct (Nat.eqb_spec (cBatch F c0) 0); cbn [orb]; [exact HN|lia].
    + split; [reflexivity|]. split; intros v [].
  - intros ep h1 tr t1 h2 t2 h3 t3 l a Je E1 E2. change (mrows (mgen N k X)) with N in E2. eapply epoch_rule; eauto.
  - intros ep h1 t1 (D & _). split; [reflexivity|]. intros i a Ea. destruct (D i a Ea) as (l & El & Kl). exists l. auto.
  - destruct Al as [Al1 Al2]. exists h', n', t', calls. auto 10.
Qed.
End B32.
