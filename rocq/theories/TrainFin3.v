(* TrainFin3.v - fit on a dense layer followed by an output layer keeps the weights and the losses finite *)
From Coq Require Import String List Arith ZArith Reals Lra Lia Bool Permutation.
From Flocq Require Import Core IEEE754.BinarySingleNaN.
From Verif Require Import Base Scalar Mat SpecMat MatFacts MatLoops MatProofs B32Int Act Loss Optim SpecOpt OptProofs LayMat LayImg Layer LayProofs1 Net NetTrain NetProofs1 NetProofs2 TrainProofs1 TrainProofs2 SpecFit FitLay1 FitNet1 FitNet2 FitNet3 FitRun MatProps SpecRound SpecNaN B32Kit NaNAct SpecSoft SoftProofs3 SpecStay OptFin1 OptFin2 SpecTrainFin TrainFin1 TrainFin2.
Import ListNotations.
Local Open Scope R_scope.
Local Opaque b32_add b32_sub b32_mul b32_div b32_sqrt b32_of_Z Bopp Babs.

Section B32.
Variables (lm : libm -> b32 -> b32) (pw : b32 -> b32 -> b32) (jk : b32).
Notation F := (B32Ops lm pw jk).
Hypothesis Std : stdLibm lm pw.
Hypothesis LU : logUnit lm.
Variable kd : kind F.
Hypothesis Hkd : outputs F kd.
Variables (a1 a2 k m : nat) (c0 : settings F) (v0 : option (mat F * mat F)).
Hypothesis Ha : a1 <> a2.
Hypothesis Hk : (Z.of_nat k < 2 ^ 16)%Z.
Hypothesis Hm : (0 < m)%nat.
Hypothesis Hre : cReg F c0 = None.
Notation lo := (cLoss F c0).
Notation dense := (dense lm pw jk a1 k m).
Notation top := (top lm pw jk kd a2).
Notation trn := (trn lm pw jk a1 k m c0 v0).

Lemma truth_sub : forall kk N n c T p, truthFor kk N c T -> (forall i, (i < n)%nat -> (p i < N)%nat) -> truthFor kk n c (fun i j => T (p i) j).
Proof. intros kk N n c T p H Hp. destruct kk; cbn [truthFor] in *; auto. destruct H as [A B]. split; auto. Qed.

(** * setting the mode of the layers, evaluating *)
Lemma mode_parts : forall h b cl tr h' n', dense h -> top h -> netSetTrain F h (mkNet [a1; a2] cl tr) b = Ok (h', n') -> dense h' /\ top h' /\ n' = mkNet [a1; a2] cl b.
Proof.
  intros h b cl tr h' n' (l & i & o & W & bb & El & Kl & Fl & Ww & Wb & HW & Hb) (l' & El' & Kl' & Fl') E. unfold netSetTrain in E. cbn [nlay nclass forL] in E. rewrite El in E. cbn [bind] in E. rewrite (hset_ok _ _ _ _ _ El) in E. cbn [bind] in E.
  set (h1 := upd h a1 (Some (setTrain l b))) in *. assert (E1 : hget F h1 a1 = Ok (setTrain l b)) by (eapply look1; eauto). assert (E1' : hget F h1 a2 = Ok l') by (unfold h1; rewrite (look2 _ _ _ _ _ _ _ _ El); auto).
  rewrite E1' in E. cbn [bind] in E. rewrite (hset_ok _ _ _ _ _ E1') in E. cbn [bind] in E. injection E; intros; subst h' n'. split; [|split; auto].
  - exists (setTrain l b), i, o, W, bb. split; [rewrite (look2 _ _ _ _ _ _ _ _ E1'); auto|]. exact (conj Kl (conj Fl (conj Ww (conj Wb (conj HW Hb))))).
  - exists (setTrain l' b). split; [eapply look1; eauto|]. exact (conj Kl' Fl').
Qed.
Lemma predict_keeps : forall rs h cl tr x o h' o', dense h -> top h -> predict F rs h (mkNet [a1; a2] cl tr) x o = Ok (h', o') -> dense h' /\ top h'.
Proof.
  intros rs h cl tr x o h' o' (l & i & q & W & bb & El & Kl & D) (l' & El' & Kl' & Fl') E. unfold predict in E. cbn [nlay length] in E. unfold forN in E. cbn [seq forL] in E. unfold fwdLayer in E at 1. cbn [nlay rget nth_error bind] in E. rewrite El in E. cbn [bind] in E. unfold layForward at 1 in E. rewrite Kl in E.
  destruct (fwdDense F (lw l) (lb l) x) as [z|]; [|discriminate]. cbn [bind] in E. rewrite (hset_ok _ _ _ _ _ El) in E. cbn [bind] in E.
  set (h1 := upd h a1 (Some l)) in *. assert (E1 : hget F h1 a1 = Ok l) by (eapply look1; eauto). assert (E1' : hget F h1 a2 = Ok l') by (unfold h1; rewrite (look2 _ _ _ _ _ _ _ _ El); auto).
  unfold fwdLayer in E at 1. cbn [nlay rget nth_error bind] in E. rewrite E1' in E. cbn [bind] in E.
  assert (K : forall z' l2, layForward F (rs 1%nat) l' z z = Ok (l2, z') -> l2 = l'). { intros z' l2 Q. unfold layForward in Q. rewrite Kl' in Q. destruct Hkd as [-> | ->]; cbn in Q; apply bind_inv in Q; destruct Q as (? & _ & Q); injection Q; auto. }
  destruct (layForward F (rs 1%nat) l' z z) as [[l2 z']|] eqn:E2; [|discriminate]. specialize (K _ _ eq_refl). subst l2. cbn [bind] in E. rewrite (hset_ok _ _ _ _ _ E1') in E. cbn [bind] in E. injection E; intros; subst h' o'. split.
  - exists l, i, q, W, bb. split; [rewrite (look2 _ _ _ _ _ _ _ _ E1'); auto|]. auto.
  - exists l'. split; [eapply look1; eauto|]. auto.
Qed.
Lemma predict_prob : forall rs h cl tr q X o h' o', dense h -> top h -> (forall i j, within 10 (X i j)) -> predict F rs h (mkNet [a1; a2] cl tr) (mgen q k X) o = Ok (h', o') -> exists P, o' = mgen q m P /\ forall i j, (i < q)%nat -> (j < m)%nat -> prob (P i j).
Proof.
  intros rs h cl tr q X o h' o' (l & i & oo & W & bb & El & Kl & Fl & Ww & Wb & HW & Hb) (l' & El' & Kl' & Fl') HX E. unfold predict in E. cbn [nlay length] in E. unfold forN in E. cbn [seq forL] in E. unfold fwdLayer in E at 1. cbn [nlay rget nth_error bind] in E. rewrite El in E. cbn [bind] in E. unfold layForward at 1 in E. rewrite Kl, Ww, Wb in E.
  rewrite (fwdDense_gen F) in E. cbn [bind] in E. rewrite (hset_ok _ _ _ _ _ El) in E. cbn [bind] in E.
  set (h1 := upd h a1 (Some l)) in *. assert (E1' : hget F h1 a2 = Ok l') by (unfold h1; rewrite (look2 _ _ _ _ _ _ _ _ El); auto).
  set (Z := fun i j => fadd F (fsum F k (fun l : nat => fmul F (X i l) (W l j))) (bb 0%nat j)) in *. assert (HZ : forall i j, fin (Z i j)) by (intros; apply dense_fin; auto).
  unfold fwdLayer in E at 1. cbn [nlay rget nth_error bind] in E. rewrite E1' in E. cbn [bind] in E. destruct (out_fwd lm pw jk Std kd Hkd (rs 1%nat) l' q m Z (mgen q m Z) Kl' Hm ltac:(apply mwf_gen) HZ) as (P & EP & HP).
  change (@mgen b32) with (@mgen (Scalar.T F)) in E, EP. rewrite EP in E. cbn [bind] in E. rewrite (hset_ok _ _ _ _ _ E1') in E. cbn [bind] in E. injection E; intros; subst o'. exists P. split; auto.
Qed.
Lemma accuracy_keeps : forall rs h cl tr (t : trainer F) x y h' l a, dense h -> top h -> lossAccuracy F (absFloat F) rs h (mkNet [a1; a2] cl tr) t x y = Ok (h', l, a) -> dense h' /\ top h'.
Proof.
  intros rs h cl tr t x y h' l a D T0 E. unfold lossAccuracy in E. cbv zeta in E. destruct ((_ =? 0)%nat || _); [injection E; intros; subst; auto|]. destruct (cValBatch F (tc F t) =? 0)%nat; [discriminate|].
  apply bind_inv in E. destruct E as ([[[[h1 o1] m1] l1] g1] & E1 & E2). injection E2; intros; subst. apply (forN_postI _ (fun _ '(h, _, _, _, _) => dense h /\ top h)) in E1; auto.
  intros i [[[[h2 o2] m2] l2] g2] [[[[h3 o3] m3] l3] g3] Hi [D2 T2] E3. binp E3. injection E3; intros; subst. eapply predict_keeps; [exact D2 | exact T2|]. match goal with H : predict _ _ _ _ _ _ = _ |- _ => exact H end.
Qed.
Lemma add_sum : forall b s z, (Z.of_nat (b + 1) < 2 ^ 24)%Z -> rg 0 (INR b * p2 30) s -> nn 30 z -> rg 0 (INR (b + 1) * p2 30) (b32_add s z).
Proof.
  intros b s z Hb [A B] [C D]. pose proof (N_lt (b + 1) 30 Hb ltac:(lia)). pose proof (fmt_N (b + 1) 30 Hb ltac:(lia)). rewrite plus_INR in *. change (INR 1) with 1 in *. pose proof max_pos. apply rg_add; auto; try lra. apply fmt_0.
Qed.
Lemma ceil_le : forall n b, (0 < b)%nat -> (ceilDiv n b <= n)%nat.
Proof. intros n b H. unfold ceilDiv. apply Nat.lt_succ_r. apply Nat.div_lt_upper_bound; nia. Qed.
Lemma ceil_pos : forall n b, (0 < n)%nat -> (0 < b)%nat -> (0 < ceilDiv n b)%nat.
Proof. intros n b H Hb. unfold ceilDiv. apply Nat.div_str_pos. lia. Qed.
Lemma small_54 : forall b N, (b <= N)%nat -> (Z.of_nat N < 2 ^ 24)%Z -> INR b * p2 30 <= p2 54.
Proof.
  intros b N H HN. assert (INR b <= p2 24) by (rewrite INR_IZR_INZ; unfold p2; change (bpow radix2 24) with (IZR (2 ^ 24)); apply IZR_le; lia). pose proof (p2_pos 30). replace (p2 54) with (p2 24 * p2 30) by (rewrite p2_mul; reflexivity). nra.
Qed.
Lemma accuracy_rg : forall rs h cl tr (t : trainer F) N X Y h' l a, dense h -> top h -> tc F t = c0 -> (Z.of_nat N < 2 ^ 24)%Z -> (forall i j, within 10 (X i j)) -> truthFor lo N m Y ->
  lossAccuracy F (absFloat F) rs h (mkNet [a1; a2] cl tr) t (mgen N k X) (mgen N (truthCols lo m) Y) = Ok (h', l, a) -> nn 54 l.
Proof.
  intros rs h cl tr t N X Y h' l a D T0 Tc HN HX HT E. unfold lossAccuracy in E. cbv zeta in E. change (mrows (mgen N k X)) with N in E. cbn [nlay length Nat.eqb orb] in E. destruct (Nat.eqb_spec N 0); [injection E; intros _ <- _; apply zero_nn|]. rewrite Tc in E. set (vb := cValBatch F c0) in *. destruct (Nat.eqb_spec vb 0) as [|Hvb]; [discriminate|].
  apply bind_inv in E. destruct E as ([[[[h1 o1] m1] l1] g1] & E1 & E2). injection E2; intros _ <- _. clear E2.
  assert (I : dense h1 /\ top h1 /\ mwf m1 /\ rg 0 (INR (ceilDiv N vb) * p2 30) l1).
  { apply (forN_postI _ (fun b '(h, _, ml, l, _) => dense h /\ top h /\ mwf ml /\ rg 0 (INR b * p2 30) l)) in E1; auto.
    - split; auto. split; auto. split; [reflexivity|]. change (INR 0) with 0. rewrite Rmult_0_l. split; [reflexivity|]. change (val (f0 F)) with 0. lra.
    - intros b [[[[h2 o2] m2] l2] g2] [[[[h3 o3] m3] l3] g3] Hi (D2 & T2 & W2 & S2) E3. pose proof (ceil_lt N vb b ltac:(lia) Hi) as Lb. set (s := (b * vb)%nat) in *. set (e := Nat.min (s + vb) N) in *. assert (He : (s < e <= N)%nat) by (unfold e; lia).
      rewrite !(viewRow_gen F) in E3 by lia. cbn [bind] in E3. destruct (predict F (rs b) h2 _ _ o2) as [[h4 o4]|] eqn:E4; [|discriminate]. cbn [bind] in E3.
      destruct (predict_keeps _ _ _ _ _ _ _ _ D2 T2 E4) as [D4 T4]. destruct (predict_prob _ _ _ _ _ _ _ _ _ D2 T2 (fun i j => HX (s + i)%nat j) E4) as (P & -> & HP).
      assert (HT' : truthFor lo (e - s) m (fun i j => Y (s + i)%nat j)) by (apply truth_sub with N; auto; intros; lia).
      destruct (ce_finite lm pw jk lo (absFloat F) (tbal F t) (e - s) m P _ m2 (mempty F) LU HT' HP W2 eq_refl) as (L & G & EL & _ & HL & _). change (@mgen b32) with (@mgen (Scalar.T F)) in E3, EL. rewrite EL in E3. cbn [bind] in E3. rewrite mmean_gen in E3. cbn [bind] in E3. binp E3. binp E3. injection E3; intros; subst h3 o3 m3 l3 g3.
      split; auto. split; auto. split; [apply mwf_gen|]. rewrite <- (Nat.add_1_r b). pose proof (ceil_le N vb ltac:(lia)). apply add_sum; [lia | exact S2|]. cbn [fdiv B32Ops]. rewrite Nat.mul_1_r. apply (mean_nn lm pw jk) with (e - s)%nat; try lia. apply sum_nn; try lia. intros i Hi0. apply HL. change (i / 1 < e - s)%nat. rewrite Nat.div_1_r. auto. }
  destruct I as (_ & _ & _ & A & B). split; auto. pose proof (small_54 (ceilDiv N vb) N (ceil_le N vb ltac:(lia)) HN). lra.
Qed.

(** * one epoch *)
Lemma batches_parts : forall rs h cl tr t N X Y h' t' t0, dense h -> top h -> trn t -> (0 < N)%nat -> (Z.of_nat N < 2 ^ 24)%Z -> (0 < tadj F t)%nat -> (forall i j, within 10 (X i j)) -> truthFor lo N m Y -> t = setOnline F t0 (f0 F) 0 ->
  trainOneEpoch F (absFloat F) rs h (mkNet [a1; a2] cl tr) t (mgen N k X) (mgen N (truthCols lo m) Y) = Ok (h', t') ->
  dense h' /\ top h' /\ trn t' /\ th F t' = th F t0 /\ tadj F t' = tadj F t0 /\ nn 30 (b32_div (tonl F t') (fofN F N)).
Proof.
  intros rs h cl tr t N X Y h' t' t0 D T0 Tr HN HN' Had HX HT Et E. unfold trainOneEpoch in E. cbv zeta in E. change (mrows (mgen N k X)) with N in E. rewrite (proj2 (Nat.eqb_neq N 0)) in E by lia. set (adj := tadj F t) in *. rewrite (proj2 (Nat.eqb_neq adj 0)) in E by lia.
  assert (I : dense h' /\ top h' /\ trn t' /\ th F t' = th F t0 /\ tadj F t' = tadj F t0 /\ rg 0 (INR (ceilDiv N adj) * p2 30) (tonl F t')).
  { apply (forN_postI _ (fun b '(h, t') => dense h /\ top h /\ trn t' /\ th F t' = th F t0 /\ tadj F t' = tadj F t0 /\ rg 0 (INR b * p2 30) (tonl F t'))) in E; auto.
    - do 3 (split; [auto|]). subst t. do 2 (split; [reflexivity|]). change (INR 0) with 0. rewrite Rmult_0_l. split; [reflexivity|]. change (tonl F _) with (B754_zero false : b32). change (val (B754_zero false)) with 0. lra.
    - intros b [h2 t2] [h3 t3] Hi (D2 & T2 & Tr2 & H2 & A2 & S2) E3. pose proof (ceil_lt N adj b Had Hi) as Lb. set (s := (b * adj)%nat) in *. set (e := Nat.min (s + adj) N) in *. assert (He : (s < e <= N)%nat) by (unfold e; lia).
      rewrite !(viewRow_gen F) in E3 by lia. cbn [bind] in E3. assert (HT' : truthFor lo (e - s) m (fun i j => Y (s + i)%nat j)) by (apply truth_sub with N; auto; intros; lia).
      destruct (batch_parts lm pw jk Std LU kd Hkd a1 a2 k m c0 v0 Ha Hk Hm Hre (rs b) cl tr h2 t2 h3 t3 (e - s) (fun i j => X (s + i)%nat j) _ D2 T2 Tr2 ltac:(lia) ltac:(lia) (fun i j => HX (s + i)%nat j) HT' E3) as (D3 & T3 & Tr3 & H3 & A3 & z & Hz & Ez).
      do 3 (split; [auto|]). split; [congruence|]. split; [congruence|]. rewrite Ez, <- (Nat.add_1_r b). pose proof (ceil_le N adj Had). apply add_sum; auto. lia. }
  destruct I as (I1 & I2 & I3 & I4 & I5 & I6). do 5 (split; [auto|]). apply (mean_nn lm pw jk) with (ceilDiv N adj); auto; try lia. split; [apply ceil_pos; auto | apply ceil_le; auto].
Qed.

Definition hist (e : nat) (t : trainer F) : Prop := length (hTL F (th F t)) = e /\ (forall x, In x (hTL F (th F t)) -> nn 30 x) /\ forall x, In x (hVL F (th F t)) -> nn 54 x.
Definition J (e : nat) (h : heap F) (t : trainer F) : Prop := dense h /\ top h /\ trn t /\ (0 < tadj F t)%nat /\ hist e t.

Variables (R0 : fitRnd F) (cl : bool) (N : nat) (X Y : nat -> nat -> b32).
Hypothesis HN : (0 < N)%nat.
Hypothesis HN' : (Z.of_nat N < 2 ^ 24)%Z.
Hypothesis HX : forall i j, within 10 (X i j).
Hypothesis HT : truthFor lo N m Y.
Hypothesis Hv : forall xv yv, v0 = Some (xv, yv) -> exists Nv Xv Yv, xv = mgen Nv k Xv /\ yv = mgen Nv (truthCols lo m) Yv /\ (Z.of_nat Nv < 2 ^ 24)%Z /\ (forall i j, within 10 (Xv i j)) /\ truthFor lo Nv m Yv.
Lemma step_parts : forall e h1 tr t1 h2 t2 h3 t3 l a, J e h1 t1 -> epochTrain F (absFloat F) R0 e h1 (mkNet [a1; a2] cl tr) t1 (mgen N k X) (mgen N (truthCols lo m) Y) = Ok (h2, mkNet [a1; a2] cl false, t2) ->
  epochStats F (absFloat F) R0 e h2 (mkNet [a1; a2] cl false) t2 N = Ok (h3, t3, l, a) -> J (S e) h3 t3.
Proof.
  intros e h1 tr t1 h2 t2 h3 t3 l a (D & T1 & Tr & Ad & H) E1 E2.
  assert (K : dense h2 /\ top h2 /\ trn t2 /\ th F t2 = th F t1 /\ tadj F t2 = tadj F t1 /\ nn 30 (b32_div (tonl F t2) (fofN F N))).
  { unfold epochTrain in E1. cbv zeta in E1. set (t0 := setOnline F t1 (f0 F) 0) in *. assert (Tr0 : trn t0) by exact Tr. change (mrows (mgen N k X)) with N in E1.
    match type of E1 with bind ?a _ = _ => assert (exists X' Y', (forall i j, within 10 (X' i j)) /\ truthFor lo N m Y' /\ a = Ok (mgen N k X', mgen N (truthCols lo m) Y')) as (X' & Y' & HX' & HT' & EP) end.
    { destruct (tadj F t0 <? N)%nat; [|exists X, Y; auto]. destruct (randPerm_perm (oShuffle F R0 e) N) as (v & Ev & Pv). assert (Lv : length v = N) by (rewrite <- (Permutation_length Pv); apply seq_length).
      assert (In_v : forall x, In x v -> (x < N)%nat). { intros x Hx. apply (Permutation_in x (Permutation_sym Pv)) in Hx. apply in_seq in Hx. lia. }
      exists (fun i j => X (nth i v O) j), (fun i j => Y (nth i v O) j). split; [auto|]. split; [apply truth_sub with N; auto; intros i Hi; apply In_v, nth_In; lia|]. rewrite Ev. cbn [bind].
      change (@mgen b32) with (@mgen (Scalar.T F)). rewrite !(applyRowPermutation_gen F) by (solve [auto | reflexivity]). reflexivity. }
    change (@mgen b32) with (@mgen (Scalar.T F)) in E1, EP. rewrite EP in E1. cbn [bind] in E1. destruct (netSetTrain F h1 _ true) as [[h4 n4]|] eqn:E4; [|discriminate]. cbn [bind] in E1. destruct (mode_parts _ _ _ _ _ _ D T1 E4) as (D4 & T4 & ->).
    destruct (trainOneEpoch F (absFloat F) _ h4 _ t0 _ _) as [[h5 t5]|] eqn:E5; [|discriminate]. cbn [bind] in E1. destruct (batches_parts _ _ _ _ _ _ _ _ _ _ t1 D4 T4 Tr0 HN HN' Ad HX' HT' eq_refl E5) as (D5 & T5 & Tr5 & H5 & A5 & L5).
    destruct (netSetTrain F h5 _ false) as [[h6 n6]|] eqn:E6; [|discriminate]. cbn [bind] in E1. destruct (mode_parts _ _ _ _ _ _ D5 T5 E6) as (D6 & T6 & ->). injection E1; intros; subst. auto 10. }
  clear E1. destruct K as (D2 & T2 & Tr2 & H2 & A2 & L2). unfold epochStats in E2. cbv zeta in E2. change (fdiv F (tonl F t2) (fofN F N)) with (b32_div (tonl F t2) (fofN F N)) in E2.
  assert (Q : forall H', hTL F H' = hTL F (th F t2) ++ [b32_div (tonl F t2) (fofN F N)] -> (hVL F H' = hVL F (th F t2) \/ exists v, nn 54 v /\ hVL F H' = hVL F (th F t2) ++ [v]) -> forall h', dense h' -> top h' -> J (S e) h' (setHist F t2 H')).
  { intros H' EH EV h' D' T'. split; auto. split; auto. split; [exact Tr2|]. split; [change (tadj F (setHist F t2 H')) with (tadj F t2); lia|]. destruct H as (HE & HL & HV). unfold hist. change (th F (setHist F t2 H')) with H'. rewrite EH, H2. split; [rewrite app_length; cbn [length]; lia|]. split.
    - intros x Hx. apply in_app_or in Hx. destruct Hx as [Hx|[<-|[]]]; auto.
    - rewrite H2 in EV. destruct EV as [->|(v & Hv0 & ->)]; auto. intros x Hx. apply in_app_or in Hx. destruct Hx as [Hx|[<-|[]]]; auto. }
  assert (Tv : tval F t2 = v0 /\ tc F t2 = c0) by (destruct Tr2 as (?&?&?&?&?&?&?&?&?&?&?&?&?&?&A&B&?); auto). destruct Tv as [Tv Tc]. destruct (tval F t2) as [[xv yv]|].
  - apply bind_inv in E2. destruct E2 as ([[h4 l4] a4] & E4 & E2). injection E2; intros; subst h3 t3 l a. destruct (accuracy_keeps _ _ _ _ _ _ _ _ _ _ D2 T2 E4) as [D4 T4]. destruct (Hv xv yv (eq_sym Tv)) as (Nv & Xv & Yv & -> & -> & B1 & B2 & B3).
    eapply accuracy_rg in E4; eauto. apply Q; auto; destruct cl; try reflexivity; right; eexists; split; eauto.
  - injection E2; intros; subst h3 t3 l a. apply Q; auto; destruct cl; auto.
Qed.
End B32.
