(* RegrFin3.v - instances: losses of bounded slope without clipping, squared errors with clipping; squared errors without clipping diverge *)
From Coq Require Import String List Arith ZArith Reals Lra Lia Bool.
From Flocq Require Import Core IEEE754.BinarySingleNaN.
From Verif Require Import Base Scalar Mat SpecMat MatFacts MatProofs B32Int Act Loss Optim Regul LayMat LayImg Layer Net NetTrain NetProofs1 NetProofs2 SpecFit FitNet3 SpecRound SpecNaN B32Kit SpecSoft SpecStay OptFin1 OptFin2 SpecTrainFin TrainFin4 SpecMlp MlpFin1 MlpFin3 SpecRegr RegrFin2.
Import ListNotations.
Local Open Scope R_scope.
Local Opaque b32_add b32_sub b32_mul b32_div b32_sqrt b32_of_Z Bopp Babs.

Section B32.
Variables (lm : libm -> b32 -> b32) (pw : b32 -> b32 -> b32) (jk : b32).
Notation F := (B32Ops lm pw jk).
Lemma robust_measured : forall k, robust k -> measured k /\ (gradTo k 53 <= 1)%Z /\ (lossTo k 53 <= 77)%Z /\ (gradTo k 33 <= 1)%Z /\ (lossTo k 33 <= 57)%Z.
Proof. intros k H. unfold robust, measured in *. cbn [In] in *. repeat destruct H as [<-|H]; try contradiction; cbn [gradTo lossTo]; repeat split; try lia; tauto. Qed.
Ltac p11 := change (2 ^ 11)%Z with (Z.of_nat (2 ^ 11)); lia.

(* one dense layer *)
Definition linBudget : budget := mkBudget (fun i => match i with O => 10 | _ => 52 end)%Z (fun _ => 31)%Z (fun _ => 1)%Z (fun _ => 12)%Z.
Theorem linear_robust : forall (R0 : fitRnd F) h n t k m x y a l p q, stdLibm lm pw -> robust (cLoss F (tc F t)) ->
  trainable h n t k m -> nlay n = [a] -> hget F h a = Ok l -> lk l = KDense p q ->
  (k < 2 ^ 11)%nat -> (m <= 2 ^ 11)%nat -> (forall v, In v (mdata (lw l)) \/ In v (mdata (lb l)) -> within 31 v) ->
  create_optimizer (cOpt F (tc F t)) = Some OSGD -> slow 6 (cLr F (tc F t)) -> within 0 (cMom F (tc F t)) -> cReg F (tc F t) = None ->
  ttrain F t = Some (x, y) -> (0 < mrows x)%nat -> pairsUpTo 10 52 (x, y) -> (forall v, tval F t = Some v -> pairsUpTo 10 52 v) ->
  exists h' n' t' calls a' l', fit F (absFloat F) R0 h n t = Ok (h', n', t', calls) /\
    length (hTL F (th F t')) = Z.to_nat (cEpochs F (tc F t)) /\ (forall v, In v (hTL F (th F t')) -> upTo 77 v) /\ (forall v, In v (hVL F (th F t')) -> upTo 101 v) /\
    nlay n' = [a'] /\ hget F h' a' = Ok l' /\ forall v, In v (mdata (lw l')) \/ In v (mdata (lb l')) -> within 31 v.
Proof.
  intros R0 h n t k m x y a l p q Std Hro Ht En El Kl Hk Hm Hw Hok Hl Hmo Eg Hx Hpos Sd Sv. destruct (robust_measured _ Hro) as (M1 & M2 & M3 & _).
  assert (Sh : mrows (lw l) = k /\ mcols (lw l) = m). { destruct Ht as (_ & St & _). rewrite En in St. cbn [stack] in St. destruct St as (q1 & j1 & Q1 & F1 & Q2). rewrite El in Q1. injection Q1; intros <-. destruct F1 as (_ & _ & _ & _ & _ & F1). rewrite Kl in F1. destruct F1 as ((_ & A & B) & _). subst m. auto. }
  destruct Sh as [S1 S2].
  destruct (regr_finite lm pw jk R0 h n t k m x y linBudget 6 OSGD) as (h' & n' & t' & calls & Ef & H1 & H2 & H3 & H4 & H5); auto; [rewrite En; simpl; lia | | rewrite En; exact Sd | rewrite En; exact Sv |].
  - rewrite En. split; [change (2 ^ 24)%Z with (2 ^ 11 * 2 ^ 13)%Z; change (2 ^ 11)%Z with (Z.of_nat (2 ^ 11)); lia|]. split; [|cbn [length eX eG linBudget]; split; [lia|]; split; [exact M2 | change (52 + 1)%Z with 53%Z; lia]].
    intros [|i] b l0 Eb El0; cbn in Eb; try (destruct i; discriminate Eb). injection Eb; intros <-. rewrite El in El0. injection El0; intros <-.
    unfold affordable. cbn [eX eG eW eR linBudget]. rewrite Kl, Eg. do 3 (split; [lia|]). exists 11%Z, 11%Z. do 2 (split; [lia|]). rewrite S1, S2. split; [p11|]. split; [p11|]. split; [lia|]. split; [lia|]. split; [lia|]. split; [lia|]. split; [cbn [regTo]; lia|]. split; [unfold room; lia|]. split; auto.
  - rewrite En in H2, H3, H4. cbn [length eX linBudget] in H2, H3. change (52 + 1)%Z with 53%Z in *. destruct (nlay n') as [|b1 [|]] eqn:En'; try discriminate H4. destruct (H5 0%nat a l) as (c1 & m1 & Q1 & Q2 & _ & Q3); [rewrite En; reflexivity | auto|]. cbn in Q1. injection Q1; intros <-.
    exists h', n', t', calls, b1, m1. split; auto. split; auto. split; [intros v Hv; destruct (H2 v Hv) as [A B]; split; auto; pose proof (p2_le (lossTo (cLoss F (tc F t)) 53) 77 M3); lra|]. split; [intros v Hv; destruct (H3 v Hv) as [A B]; split; auto; pose proof (p2_le (lossTo (cLoss F (tc F t)) 53 + 24) 101 ltac:(lia)); lra|]. split; auto. split; auto. exact (Q3 _ _ Kl).
Qed.

(* Dense, a bounded activation, Dense *)
Definition hidBudget : budget := mkBudget
  (fun i => match i with O => 10 | 1%nat => 89 | 2%nat => 0 | _ => 32 end)%Z (fun i => match i with O => 62 | _ => 21 end)%Z
  (fun i => match i with 3%nat => 1 | _ => 32 end)%Z (fun i => match i with O => 43 | _ => 2 end)%Z.
Definition sqBudget : budget := mkBudget
  (fun i => match i with O => 10 | 1%nat => 31 | 2%nat => 0 | _ => 21 end)%Z (fun _ => 10)%Z
  (fun i => match i with 3%nat => 22 | _ => 43 end)%Z (fun _ => (-9))%Z.
Lemma three_shapes : forall (h : heap F) n (t : trainer F) k m a1 a2 a3 l1 l2 l3 i1 o1 i3 o3 a, trainable h n t k m -> nlay n = [a1; a2; a3] -> hget F h a1 = Ok l1 -> hget F h a2 = Ok l2 -> hget F h a3 = Ok l3 ->
  lk l1 = KDense i1 o1 -> lk l2 = KAct (Some a) -> lk l3 = KDense i3 o3 -> mrows (lw l1) = k /\ mcols (lw l1) = mrows (lw l3) /\ mcols (lw l3) = m.
Proof.
  intros h n t k m a1 a2 a3 l1 l2 l3 i1 o1 i3 o3 a Ht En E1 E2 E3 K1 K2 K3. destruct Ht as (_ & St & _). rewrite En in St. cbn [stack] in St. destruct St as (q1 & j1 & Q1 & F1 & q2 & j2 & Q2 & F2 & q3 & j3 & Q3 & F3 & Q4). rewrite E1 in Q1. rewrite E2 in Q2. rewrite E3 in Q3. injection Q1; intros <-. injection Q2; intros <-. injection Q3; intros <-.
  destruct F1 as (_ & _ & _ & _ & _ & F1). destruct F2 as (_ & _ & _ & _ & _ & F2). destruct F3 as (_ & _ & _ & _ & _ & F3). rewrite K1 in F1. rewrite K2 in F2. rewrite K3 in F3. destruct F1 as ((_ & A & B) & _). destruct F2 as (C & _). destruct F3 as ((_ & D & G) & _). subst. repeat split; congruence.
Qed.
Lemma three_out : forall (b : budget) (R0 : fitRnd F) h n t a1 a2 a3 l1 l3 i1 o1 i3 o3 e w1 w3 h' n' t' calls, nlay n = [a1; a2; a3] -> hget F h a1 = Ok l1 -> hget F h a3 = Ok l3 -> lk l1 = KDense i1 o1 -> lk l3 = KDense i3 o3 -> eW b 0 = w1 -> eW b 2 = w3 -> (lossTo (cLoss F (tc F t)) (eX b (length (nlay n)) + 1) <= e)%Z ->
  fit F (absFloat F) R0 h n t = Ok (h', n', t', calls) -> length (hTL F (th F t')) = Z.to_nat (cEpochs F (tc F t)) ->
  (forall v, In v (hTL F (th F t')) -> upTo (lossTo (cLoss F (tc F t)) (eX b (length (nlay n)) + 1)) v) -> (forall v, In v (hVL F (th F t')) -> upTo (lossTo (cLoss F (tc F t)) (eX b (length (nlay n)) + 1) + 24) v) ->
  length (nlay n') = length (nlay n) ->
  (forall i a l, nth_error (nlay n) i = Some a -> hget F h a = Ok l -> exists a' l', nth_error (nlay n') i = Some a' /\ hget F h' a' = Ok l' /\ lk l' = lk l /\
      forall p q, lk l = KDense p q -> forall w, In w (mdata (lw l')) \/ In w (mdata (lb l')) -> within (eW b i) w) ->
  exists h' n' t' calls a1' a2' a3' l1' l3', fit F (absFloat F) R0 h n t = Ok (h', n', t', calls) /\
    length (hTL F (th F t')) = Z.to_nat (cEpochs F (tc F t)) /\ (forall v, In v (hTL F (th F t')) -> upTo e v) /\ (forall v, In v (hVL F (th F t')) -> upTo (e + 24) v) /\
    nlay n' = [a1'; a2'; a3'] /\ hget F h' a1' = Ok l1' /\ hget F h' a3' = Ok l3' /\
    (forall v, In v (mdata (lw l1')) \/ In v (mdata (lb l1')) -> within w1 v) /\ (forall v, In v (mdata (lw l3')) \/ In v (mdata (lb l3')) -> within w3 v).
Proof.
  intros b R0 h n t a1 a2 a3 l1 l3 i1 o1 i3 o3 e w1 w3 h' n' t' calls En E1 E3 K1 K3 <- <- He Ef H1 H2 H3 H4 H5.
  rewrite En in H4. destruct (nlay n') as [|b1 [|b2 [|b3 [|]]]] eqn:En'; try discriminate H4.
  destruct (H5 0%nat a1 l1) as (c1 & m1 & Q1 & Q2 & _ & Q3); [rewrite En; reflexivity | auto|]. destruct (H5 2%nat a3 l3) as (c3 & m3 & S1 & S2 & _ & S3); [rewrite En; reflexivity | auto|]. cbn in Q1, S1. injection Q1; intros <-. injection S1; intros <-.
  exists h', n', t', calls, b1, b2, b3, m1, m3. split; auto. split; auto. split; [intros v Hv; destruct (H2 v Hv) as [A B]; split; auto; pose proof (p2_le _ e He); lra|].
  split; [intros v Hv; destruct (H3 v Hv) as [A B]; split; auto; match type of B with _ <= _ <= p2 ?z => pose proof (p2_le z (e + 24) ltac:(lia)) end; lra|]. do 3 (split; [auto|]). split; [exact (Q3 _ _ K1) | exact (S3 _ _ K3)].
Qed.
Theorem hidden_robust : forall (R0 : fitRnd F) h n t k m x y a1 a2 a3 l1 l2 l3 i1 o1 i3 o3 a, stdLibm lm pw -> robust (cLoss F (tc F t)) ->
  trainable h n t k m -> nlay n = [a1; a2; a3] -> hget F h a1 = Ok l1 -> hget F h a2 = Ok l2 -> hget F h a3 = Ok l3 ->
  lk l1 = KDense i1 o1 -> lk l2 = KAct (Some a) -> flat a -> lk l3 = KDense i3 o3 ->
  (k < 2 ^ 16)%nat -> (mcols (lw l1) < 2 ^ 11)%nat -> (m <= 2 ^ 10)%nat ->
  (forall v, In v (mdata (lw l1)) \/ In v (mdata (lb l1)) -> within 62 v) -> (forall v, In v (mdata (lw l3)) \/ In v (mdata (lb l3)) -> within 21 v) ->
  create_optimizer (cOpt F (tc F t)) = Some OSGD -> slow 6 (cLr F (tc F t)) -> within 0 (cMom F (tc F t)) -> cReg F (tc F t) = None ->
  ttrain F t = Some (x, y) -> (0 < mrows x)%nat -> pairsUpTo 10 32 (x, y) -> (forall v, tval F t = Some v -> pairsUpTo 10 32 v) ->
  exists h' n' t' calls a1' a2' a3' l1' l3', fit F (absFloat F) R0 h n t = Ok (h', n', t', calls) /\
    length (hTL F (th F t')) = Z.to_nat (cEpochs F (tc F t)) /\ (forall v, In v (hTL F (th F t')) -> upTo 57 v) /\ (forall v, In v (hVL F (th F t')) -> upTo 81 v) /\
    nlay n' = [a1'; a2'; a3'] /\ hget F h' a1' = Ok l1' /\ hget F h' a3' = Ok l3' /\
    (forall v, In v (mdata (lw l1')) \/ In v (mdata (lb l1')) -> within 62 v) /\ (forall v, In v (mdata (lw l3')) \/ In v (mdata (lb l3')) -> within 21 v).
Proof.
  intros R0 h n t k m x y a1 a2 a3 l1 l2 l3 i1 o1 i3 o3 a Std Hro Ht En E1 E2 E3 K1 K2 Ha K3 R1 R3 C3 W1 W3 Hok Hl Hmo Eg Hx Hpos Sd Sv. destruct (robust_measured _ Hro) as (M1 & _ & _ & M2 & M3).
  destruct (three_shapes _ _ _ _ _ _ _ _ _ _ _ _ _ _ _ _ Ht En E1 E2 E3 K1 K2 K3) as (S1 & S2 & S3).
  destruct (regr_finite lm pw jk R0 h n t k m x y hidBudget 6 OSGD) as (h' & n' & t' & calls & Ef & H1 & H2 & H3 & H4 & H5); auto; [rewrite En; simpl; lia | | rewrite En; exact Sd | rewrite En; exact Sv |].
  - rewrite En. split; [assert (Z.of_nat m <= 2 ^ 10)%Z by (change (2 ^ 10)%Z with (Z.of_nat (2 ^ 10)); lia); change (2 ^ 24)%Z with 16777216%Z; change (2 ^ 10)%Z with 1024%Z in *; lia|]. split; [|cbn [length eX eG hidBudget]; split; [lia|]; split; [exact M2 | change (32 + 1)%Z with 33%Z; lia]].
    intros [|[|[|i]]] b l Eb El; cbn in Eb; try (destruct i; discriminate Eb); injection Eb; intros <-; [rewrite E1 in El | rewrite E2 in El | rewrite E3 in El]; injection El; intros <-.
    + unfold affordable. cbn [eX eG eW eR hidBudget]. rewrite K1, Eg, S1. do 3 (split; [lia|]). exists 16%Z, 11%Z. do 2 (split; [lia|]). split; [change (2 ^ 16)%Z with (Z.of_nat (2 ^ 16)); lia|]. split; [p11|]. split; [lia|]. split; [lia|]. split; [lia|]. split; [lia|]. split; [cbn [regTo]; lia|]. split; [unfold room; lia|]. split; auto.
    + unfold affordable. cbn [eX eG eW eR hidBudget]. rewrite K2. do 3 (split; [lia|]). split; [auto | lia].
    + unfold affordable. cbn [eX eG eW eR hidBudget]. rewrite K3, Eg, <- S2, S3. do 3 (split; [lia|]). exists 11%Z, 10%Z. do 2 (split; [lia|]). split; [p11|]. split; [change (2 ^ 10)%Z with (Z.of_nat (2 ^ 10)); lia|]. split; [lia|]. split; [lia|]. split; [lia|]. split; [lia|]. split; [cbn [regTo]; lia|]. split; [unfold room; lia|]. split; auto.
  - apply (three_out hidBudget R0 h n t a1 a2 a3 l1 l3 i1 o1 i3 o3 57 62 21 h' n' t' calls); auto. rewrite En. exact M3.
Qed.
Theorem hidden_clipped : forall (R0 : fitRnd F) h n t k m x y a1 a2 a3 l1 l2 l3 i1 o1 i3 o3 a g, stdLibm lm pw -> cLoss F (tc F t) = LMeanSquaredError \/ cLoss F (tc F t) = LL2 ->
  trainable h n t k m -> nlay n = [a1; a2; a3] -> hget F h a1 = Ok l1 -> hget F h a2 = Ok l2 -> hget F h a3 = Ok l3 ->
  lk l1 = KDense i1 o1 -> lk l2 = KAct (Some a) -> flat a -> lk l3 = KDense i3 o3 ->
  (k < 2 ^ 11)%nat -> (mcols (lw l1) < 2 ^ 11)%nat -> (m <= 2 ^ 11)%nat ->
  (forall v, In v (mdata (lw l1)) \/ In v (mdata (lb l1)) -> within 10 v) -> (forall v, In v (mdata (lw l3)) \/ In v (mdata (lb l3)) -> within 10 v) ->
  create_optimizer (cOpt F (tc F t)) = Some OSGD -> slow 6 (cLr F (tc F t)) -> within 0 (cMom F (tc F t)) ->
  cReg F (tc F t) = Some g -> rkind F g = RClip -> fin (rparam F g) -> 0 <= val (rparam F g) <= p2 (-9) ->
  ttrain F t = Some (x, y) -> (0 < mrows x)%nat -> pairsUpTo 10 21 (x, y) -> (forall v, tval F t = Some v -> pairsUpTo 10 21 v) ->
  exists h' n' t' calls a1' a2' a3' l1' l3', fit F (absFloat F) R0 h n t = Ok (h', n', t', calls) /\
    length (hTL F (th F t')) = Z.to_nat (cEpochs F (tc F t)) /\ (forall v, In v (hTL F (th F t')) -> upTo 68 v) /\ (forall v, In v (hVL F (th F t')) -> upTo 92 v) /\
    nlay n' = [a1'; a2'; a3'] /\ hget F h' a1' = Ok l1' /\ hget F h' a3' = Ok l3' /\
    (forall v, In v (mdata (lw l1')) \/ In v (mdata (lb l1')) -> within 10 v) /\ (forall v, In v (mdata (lw l3')) \/ In v (mdata (lb l3')) -> within 10 v).
Proof.
  intros R0 h n t k m x y a1 a2 a3 l1 l2 l3 i1 o1 i3 o3 a g Std Hlo Ht En E1 E2 E3 K1 K2 Ha K3 R1 R3 C3 W1 W3 Hok Hl Hmo Eg Kg Fg Vg Hx Hpos Sd Sv.
  assert (M : measured (cLoss F (tc F t)) /\ gradTo (cLoss F (tc F t)) 22 = 22%Z /\ (lossTo (cLoss F (tc F t)) 22 <= 68)%Z) by (unfold measured; cbn [In]; destruct Hlo as [-> | ->]; cbn [gradTo lossTo]; repeat split; try lia; tauto). destruct M as (M1 & M2 & M3).
  destruct (three_shapes _ _ _ _ _ _ _ _ _ _ _ _ _ _ _ _ Ht En E1 E2 E3 K1 K2 K3) as (S1 & S2 & S3).
  destruct (regr_finite lm pw jk R0 h n t k m x y sqBudget 6 OSGD) as (h' & n' & t' & calls & Ef & H1 & H2 & H3 & H4 & H5); auto; [rewrite En; simpl; lia | | rewrite En; exact Sd | rewrite En; exact Sv |].
  - rewrite En. split; [change (2 ^ 24)%Z with (2 ^ 11 * 2 ^ 13)%Z; change (2 ^ 11)%Z with (Z.of_nat (2 ^ 11)); lia|]. split; [|cbn [length eX eG sqBudget]; change (21 + 1)%Z with 22%Z; lia].
    intros [|[|[|i]]] b l Eb El; cbn in Eb; try (destruct i; discriminate Eb); injection Eb; intros <-; [rewrite E1 in El | rewrite E2 in El | rewrite E3 in El]; injection El; intros <-.
    + unfold affordable. cbn [eX eG eW eR sqBudget]. rewrite K1, Eg, S1. do 3 (split; [lia|]). exists 11%Z, 11%Z. do 2 (split; [lia|]). split; [p11|]. split; [p11|]. split; [lia|]. split; [lia|]. split; [lia|]. split; [lia|]. split; [cbn [regTo]; rewrite Kg; auto|]. split; [unfold room; lia|]. split; auto.
    + unfold affordable. cbn [eX eG eW eR sqBudget]. rewrite K2. do 3 (split; [lia|]). split; [auto | lia].
    + unfold affordable. cbn [eX eG eW eR sqBudget]. rewrite K3, Eg, <- S2, S3. do 3 (split; [lia|]). exists 11%Z, 11%Z. do 2 (split; [lia|]). split; [p11|]. split; [p11|]. split; [lia|]. split; [lia|]. split; [lia|]. split; [lia|]. split; [cbn [regTo]; rewrite Kg; auto|]. split; [unfold room; lia|]. split; auto.
  - apply (three_out sqBudget R0 h n t a1 a2 a3 l1 l3 i1 o1 i3 o3 68 10 10 h' n' t' calls); auto. rewrite En. exact M3.
Qed.
End B32.
(* squared errors, no clipping: one sample, Dense(1,1) *)
Section Steep.
Variables (lm : libm -> b32 -> b32) (pw : b32 -> b32 -> b32) (jk : b32).
Notation F := (B32Ops lm pw jk).
Definition steepDense : layer F := setWB (layBase F (KDense 1 1) "GlorotUniform" "Zeros") (mgen 1 1 (fun _ _ => b32_of_Z 1)) (mgen 1 1 (fun _ _ => (B754_zero false : b32))).
Definition steepX : mat F := mgen 1 1 (fun _ _ => b32_of_Z 1000).
Definition steepY : mat F := mgen 1 1 (fun _ _ => (B754_zero false : b32)).
Definition lineNet : net := mkNet [0%nat] false false.
(* e epochs of SGD with the default rate *)
Definition steepTr (k : lossKind) (e : Z) : trainer F := let t := trNew F in
  setSettings F (withData t (steepX, steepY)) (mkSet F 2 128 false e (-1) (-1) false "SGD" (b32_of_Z (-1)) (b32_of_Z (-1)) (b32_of_Z (-1)) k None).
Lemma steep_overflow : forall R0 : fitRnd F, exists h' n' t' calls l', fit F (absFloat F) R0 [Some steepDense] lineNet (steepTr LMeanSquaredError 20) = Ok (h', n', t', calls) /\
  hget F h' 0 = Ok l' /\ map (fun x : b32 => is_finite x) (mdata (lw l')) = [false].
Proof.
  intro R0. assert (E : match fit F (absFloat F) R0 [Some steepDense] lineNet (steepTr LMeanSquaredError 20) with Ok (h', _, _, _) => match hget F h' 0 with Ok l => map (fun x : b32 => is_finite x) (mdata (lw l)) | Err _ => [] end | Err _ => [] end = [false]) by (vm_compute; reflexivity).
  destruct (fit F (absFloat F) R0 _ _ _) as [[[[h' n'] t'] calls]|e]; [|discriminate E]. destruct (hget F h' 0) as [l'|] eqn:El; [|discriminate E]. exists h', n', t', calls, l'. auto.
Qed.
Lemma steep_trainable : forall k e, In k [LMeanSquaredError; LL2; LMeanAbsoluteError; LL1; LMeanCubicError; LL3; LHuber; LPseudoHuber] -> trainable [Some steepDense] lineNet (steepTr k e) 1 1.
Proof.
  intros k e Hk. unfold trainable. split. { repeat (constructor; [simpl; lia|]). constructor. }
  split. { exists steepDense, 1%nat. split; [reflexivity|]. split; [repeat split; auto | reflexivity]. }
  split; [intros i a l E G; destruct i; discriminate E|]. split; [discriminate|]. split; [reflexivity|].
  split; [cbn [In] in Hk; repeat destruct Hk as [<-|Hk]; try contradiction; left; reflexivity|].
  split; [cbn; lia|]. split; [constructor|]. split; [constructor|]. split; [eexists; split; [reflexivity|]; split; [apply mwf_gen|]; split; [apply mwf_gen|]; repeat split; cbn [In] in Hk; repeat destruct Hk as [<-|Hk]; try contradiction; try reflexivity; auto|]. intros d E. discriminate E.
Qed.
Lemma steep_small : forall z w, (10 <= z)%Z -> pairsUpTo z w (steepX, steepY).
Proof.
  intros z w Hz. split; [change (1 < 2 ^ 24)%Z; lia|]. cbn [fst snd]. split; intros x Hx; destruct (cell_of F _ _ _ _ Hx) as (i & j & Hi & Hj & ->).
  - apply w_Z; [lia|]. assert (H8 : p2 10 = 1024) by reflexivity. pose proof (p2_le 10 z Hz). rewrite Rabs_pos_eq by lra. lra.
  - apply w_zero.
Qed.
Lemma steep_par : forall z v, (0 <= z)%Z -> In v (mdata (lw steepDense)) \/ In v (mdata (lb steepDense)) -> within z v.
Proof.
  intros z v Hz [Hx|Hx]; destruct (cell_of F _ _ _ _ Hx) as (i & j & Hi & Hj & ->).
  - apply w_Z; [lia|]. assert (H8 : p2 0 = 1) by reflexivity. pose proof (p2_le 0 z Hz). rewrite Rabs_pos_eq by lra. lra.
  - apply w_zero.
Qed.
End Steep.
(* Dense(2,2), an activation, Dense(2,2); three samples, trained by SGD in batches of two *)
Section Demo.
Variables (lm : libm -> b32 -> b32) (pw : b32 -> b32 -> b32) (jk : b32).
Notation F := (B32Ops lm pw jk).
Definition regrTr (k : lossKind) (g : option (regul F)) : trainer F := let t := trNew F in
  setSettings F (withData t (demoX lm pw jk 3, demoY lm pw jk 3)) (mkSet F 2 128 true 50 (-1) (-1) false "SGD" (b32_of_Z (-1)) (b32_of_Z (-1)) (b32_of_Z (-1)) k g).
Definition regrHeap (a : actKind) : heap F := [Some (demoDense lm pw jk); Some (layBase F (KAct (Some a)) "" ""); Some (demoDense lm pw jk)].
Definition regrNet : net := mkNet [0%nat; 1%nat; 2%nat] false false.
Lemma regr_trainable : forall a k g, In k [LMeanSquaredError; LL2; LMeanAbsoluteError; LL1; LMeanCubicError; LL3; LHuber; LPseudoHuber] -> trainable (regrHeap a) regrNet (regrTr k g) 2 2.
Proof.
  intros a k g Hk. unfold trainable. split. { repeat (constructor; [simpl; lia|]). constructor. }
  split. { exists (demoDense lm pw jk), 2%nat. split; [reflexivity|]. split; [repeat split; auto|]. exists (layBase F (KAct (Some a)) "" ""), 2%nat. split; [reflexivity|]. split; [repeat split; auto; discriminate|]. exists (demoDense lm pw jk), 2%nat. split; [reflexivity|]. split; [repeat split; auto | reflexivity]. }
  split; [intros i b l E G; destruct i as [|[|i]]; try (destruct i; discriminate E); injection E; intros <-; injection G; intros <-; reflexivity|]. split; [discriminate|]. split; [reflexivity|].
  split; [cbn [In] in Hk; repeat destruct Hk as [<-|Hk]; try contradiction; left; reflexivity|].
  split; [cbn; lia|]. split; [constructor|]. split; [constructor|]. split; [eexists; split; [reflexivity|]; split; [apply mwf_gen|]; split; [apply mwf_gen|]; repeat split; cbn [In] in Hk; repeat destruct Hk as [<-|Hk]; try contradiction; try reflexivity; auto|]. intros d E. discriminate E.
Qed.
Lemma regr_small : forall w, (0 <= w)%Z -> pairsUpTo 10 w (demoX lm pw jk 3, demoY lm pw jk 3).
Proof.
  intros w Hw. destruct (demo_small lm pw jk 3 (le_n 3)) as (A & B & _). split; auto. split; auto. cbn [snd]. intros x Hx. unfold demoY in Hx. destruct (cell_of F _ _ _ _ Hx) as (i & j & Hi & Hj & ->). destruct (i =? j)%nat; [|apply w_zero].
  apply w_Z; [lia|]. pose proof (p2_le 0 w Hw). rewrite Rabs_pos_eq by lra. change (p2 0) with 1 in H. lra.
Qed.
End Demo.
