(* MlpFin3.v - instances: gradient clipping, up to five dense layers; one hidden layer without clipping *)
From Coq Require Import String List Arith ZArith Reals Lra Lia Bool.
From Flocq Require Import Core IEEE754.BinarySingleNaN.
From Verif Require Import Base Scalar Mat SpecMat MatFacts MatProofs B32Int Act Loss Optim Regul LayMat LayImg Layer Net NetTrain NetProofs1 NetProofs2 SpecFit FitNet3 SpecRound SpecNaN B32Kit SpecSoft SpecStay OptFin1 OptFin2 SpecTrainFin TrainFin4 SpecMlp MlpFin1 MlpFin2.
Import ListNotations.
Local Open Scope R_scope.
Local Opaque b32_add b32_sub b32_mul b32_div b32_sqrt b32_of_Z Bopp Babs.

Section B32.
Variables (lm : libm -> b32 -> b32) (pw : b32 -> b32 -> b32) (jk : b32).
Notation F := (B32Ops lm pw jk).
Notation denses := (denses F).

Lemma denses_app : forall h a b, denses h (a ++ b) = (denses h a + denses h b)%nat.
Proof. intros h a b. induction a as [|x a IH]; [reflexivity|]. cbn [app SpecMlp.denses]. destruct (hget F h x) as [l|]; [destruct (lk l)|]; rewrite IH; reflexivity. Qed.
Lemma firstn_next : forall A (v : list A) i x, nth_error v i = Some x -> firstn (S i) v = firstn i v ++ [x].
Proof. intros A v. induction v as [|y v IH]; intros [|i] x E; try discriminate; cbn in *; [injection E; intros <-; reflexivity|]. f_equal. apply (IH i x E). Qed.
Lemma denses_le : forall h ls i, (denses h (firstn i ls) <= denses h ls)%nat.
Proof. intros h ls i. rewrite <- (firstn_skipn i ls) at 2. rewrite denses_app. lia. Qed.

(* parameters within 2^w, 2^(w+11) more at each dense layer *)
Definition clipBudget (w : Z) (h : heap F) (ls : list nat) : budget :=
  mkBudget (fun i => 10 + Z.of_nat (denses h (firstn i ls)) * (w + 11))%Z (fun _ => w) (fun i => 1 + Z.of_nat (denses h ls - denses h (firstn i ls)) * (w + 11))%Z (fun _ => (-9)%Z).
Theorem clipped_finite : forall (R0 : fitRnd F) h n t k m x y w ok g, stdLibm lm pw -> logUnit lm ->
  trainable h n t k m -> (2 <= length (nlay n))%nat -> create_optimizer (cOpt F (tc F t)) = Some ok -> (ok = OSGD /\ w = 10%Z \/ ok = OMomentum /\ w = 35%Z) -> slow 6 (cLr F (tc F t)) -> within 0 (cMom F (tc F t)) ->
  cReg F (tc F t) = Some g -> rkind F g = RClip -> fin (rparam F g) -> 0 <= val (rparam F g) <= p2 (-9) ->
  plainNet F (within w) h (nlay n) -> (Z.of_nat (denses h (nlay n)) * (w + 11) <= 113)%Z ->
  ttrain F t = Some (x, y) -> (0 < mrows x)%nat -> smallData (cLoss F (tc F t)) (x, y) -> (forall v, tval F t = Some v -> smallData (cLoss F (tc F t)) v) ->
  exists h' n' t' calls, fit F (absFloat F) R0 h n t = Ok (h', n', t', calls) /\
    length (hTL F (th F t')) = Z.to_nat (cEpochs F (tc F t)) /\ (forall v, In v (hTL F (th F t')) -> upTo 30 v) /\ (forall v, In v (hVL F (th F t')) -> upTo 54 v) /\
    length (nlay n') = length (nlay n) /\
    forall i a l, nth_error (nlay n) i = Some a -> hget F h a = Ok l -> exists a' l', nth_error (nlay n') i = Some a' /\ hget F h' a' = Ok l' /\ lk l' = lk l /\
      forall p q, lk l = KDense p q -> forall v, In v (mdata (lw l')) \/ In v (mdata (lb l')) -> within w v.
Proof.
  intros R0 h n t k m x y w ok g Std LU Ht H2 Hok Hk Hl Hm Eg Kg Fg Vg Pn Cn Hx Hpos Sd Sv.
  apply (mlp_finite lm pw jk R0 h n t k m x y (clipBudget w h (nlay n)) 6 ok); auto; [destruct Hk as [[-> _]|[-> _]]; auto|].
  intros i a l Ea El. specialize (Pn i a l Ea El). pose proof (firstn_next _ _ _ _ Ea) as Fn. pose proof (denses_le h (nlay n) i) as L1. pose proof (denses_le h (nlay n) (S i)) as L2. set (C := denses h (nlay n)) in *. set (ci := denses h (firstn i (nlay n))) in *.
  assert (Hw : (10 <= w)%Z) by (destruct Hk as [[_ ->]|[_ ->]]; lia).
  assert (HX : forall c, (c <= C)%nat -> (0 <= 10 + Z.of_nat c * (w + 11) <= 126)%Z) by (intros; nia).
  assert (HG : forall c, (c <= C)%nat -> (0 <= Z.of_nat c * (w + 11) <= 113)%Z) by (intros; nia).
  destruct (S i =? length (nlay n))%nat eqn:Q.
  - split; [exact Pn|]. cbn [eX eG clipBudget]. fold C ci. specialize (HX ci L1). specialize (HG (C - ci)%nat ltac:(lia)). lia.
  - assert (Sc : denses h (firstn (S i) (nlay n)) = (ci + denses h [a])%nat) by (rewrite Fn; apply denses_app). cbn [SpecMlp.denses] in Sc. rewrite El in Sc. unfold affordable. cbn [eX eG eW eR clipBudget]. fold C ci. rewrite Sc in *.
    assert (B1 : (0 <= 10 + Z.of_nat ci * (w + 11) <= 126)%Z) by auto.
    destruct (lk l) as [p q| | | | | | | | |o| | | | | | | | | | | | | | | | | | | | | | | |] eqn:Kl; try contradiction.
    + destruct Pn as (P1 & P2 & P3 & P4). split; auto. split; [apply HX; lia|]. pose proof (HG (C - (ci + 1))%nat ltac:(lia)). assert (Z.of_nat (C - (ci + 1)) * (w + 11) + (w + 11) <= 113)%Z by nia. split; [lia|]. exists 11%Z, 11%Z.
      split; [lia|]. split; [lia|]. split; [change (2 ^ 11)%Z with (Z.of_nat (2 ^ 11)); lia|]. split; [change (2 ^ 11)%Z with (Z.of_nat (2 ^ 11)); lia|]. split; [lia|]. split; [nia|]. split; [intros _; assert (Z.of_nat (C - ci) = Z.of_nat (C - (ci + 1)) + 1)%Z by lia; nia|].
      split; [assert (Z.of_nat ci + Z.of_nat (C - (ci + 1)) + 1 = Z.of_nat C)%Z by lia; nia|]. split; [rewrite Eg; cbn [regTo]; rewrite Kg; auto|]. split; [|split; auto]. destruct Hk as [[-> ->]|[-> ->]]; unfold room; lia.
    + destruct o as [o|]; [|contradiction]. rewrite Nat.add_0_r. split; auto. split; auto. pose proof (HG (C - ci)%nat ltac:(lia)). split; [lia|]. split; [|lia]. destruct Pn as [Pn|Pn]; [left; exact Pn | right; split; [exact Pn | lia]].
Qed.

(* Dense, a bounded activation, Dense, outputs: no clipping needed *)
Definition hiddenBudget : budget := mkBudget
  (fun i => match i with O => 10 | 1%nat => 89 | 2%nat => 0 | _ => 32 end)%Z (fun i => match i with O => 62 | _ => 21 end)%Z
  (fun i => match i with 3%nat => 1 | _ => 32 end)%Z (fun i => match i with O => 43 | _ => 2 end)%Z.
Theorem hidden_finite : forall (R0 : fitRnd F) h n t k m x y a1 a2 a3 a4 l1 l2 l3 l4 i1 o1 i3 o3 a, stdLibm lm pw -> logUnit lm ->
  trainable h n t k m -> nlay n = [a1; a2; a3; a4] -> hget F h a1 = Ok l1 -> hget F h a2 = Ok l2 -> hget F h a3 = Ok l3 -> hget F h a4 = Ok l4 ->
  lk l1 = KDense i1 o1 -> lk l2 = KAct (Some a) -> flat a -> lk l3 = KDense i3 o3 -> outputs F (lk l4) ->
  (mrows (lw l1) < 2 ^ 16)%nat -> (mrows (lw l3) < 2 ^ 11)%nat -> (mcols (lw l3) <= 2 ^ 10)%nat ->
  (forall v, In v (mdata (lw l1)) \/ In v (mdata (lb l1)) -> within 62 v) -> (forall v, In v (mdata (lw l3)) \/ In v (mdata (lb l3)) -> within 21 v) ->
  create_optimizer (cOpt F (tc F t)) = Some OSGD -> slow 6 (cLr F (tc F t)) -> within 0 (cMom F (tc F t)) -> cReg F (tc F t) = None ->
  ttrain F t = Some (x, y) -> (0 < mrows x)%nat -> smallData (cLoss F (tc F t)) (x, y) -> (forall v, tval F t = Some v -> smallData (cLoss F (tc F t)) v) ->
  exists h' n' t' calls a1' a2' a3' a4' l1' l3', fit F (absFloat F) R0 h n t = Ok (h', n', t', calls) /\
    length (hTL F (th F t')) = Z.to_nat (cEpochs F (tc F t)) /\ (forall v, In v (hTL F (th F t')) -> upTo 30 v) /\ (forall v, In v (hVL F (th F t')) -> upTo 54 v) /\
    nlay n' = [a1'; a2'; a3'; a4'] /\ hget F h' a1' = Ok l1' /\ hget F h' a3' = Ok l3' /\
    (forall v, In v (mdata (lw l1')) \/ In v (mdata (lb l1')) -> within 62 v) /\ (forall v, In v (mdata (lw l3')) \/ In v (mdata (lb l3')) -> within 21 v).
Proof.
  intros R0 h n t k m x y a1 a2 a3 a4 l1 l2 l3 l4 i1 o1 i3 o3 a Std LU Ht En E1 E2 E3 E4 K1 K2 Ha K3 Ho R1 R3 C3 W1 W3 Hok Hl Hm Eg Hx Hpos Sd Sv.
  assert (C1 : mcols (lw l1) = mrows (lw l3)).
  { destruct Ht as (_ & St & _). rewrite En in St. cbn [stack] in St. destruct St as (q1 & j1 & Q1 & F1 & q2 & j2 & Q2 & F2 & q3 & j3 & Q3 & F3 & _). rewrite E1 in Q1. rewrite E2 in Q2. rewrite E3 in Q3. injection Q1; intros <-. injection Q2; intros <-. injection Q3; intros <-.
    destruct F1 as (_ & _ & _ & _ & _ & F1). destruct F2 as (_ & _ & _ & _ & _ & F2). destruct F3 as (_ & _ & _ & _ & _ & F3). rewrite K1 in F1. rewrite K2 in F2. rewrite K3 in F3. destruct F1 as ((_ & _ & A) & _). destruct F2 as (B & _). destruct F3 as ((_ & D & _) & _). congruence. }
  destruct (mlp_finite lm pw jk R0 h n t k m x y hiddenBudget 6 OSGD) as (h' & n' & t' & calls & Ef & H1 & H2 & H3 & H4 & H5); auto; [rewrite En; simpl; lia| |].
  - rewrite En. intros [|[|[|[|i]]]] b l Eb El; cbn in Eb; try (destruct i; discriminate Eb); injection Eb; intros <-; cbn [length Nat.eqb]; [rewrite E1 in El | rewrite E2 in El | rewrite E3 in El | rewrite E4 in El]; injection El; intros <-.
    + unfold affordable. cbn [eX eG eW eR hiddenBudget]. rewrite K1, Eg. do 3 (split; [lia|]). exists 16%Z, 11%Z. do 2 (split; [lia|]). split; [change (2 ^ 16)%Z with (Z.of_nat (2 ^ 16)); lia|]. split; [change (2 ^ 11)%Z with (Z.of_nat (2 ^ 11)); lia|]. split; [lia|]. split; [lia|]. split; [lia|]. split; [lia|]. split; [cbn [regTo]; lia|]. split; [unfold room; lia|]. split; auto.
    + unfold affordable. cbn [eX eG eW eR hiddenBudget]. rewrite K2. do 3 (split; [lia|]). split; [auto | lia].
    + unfold affordable. cbn [eX eG eW eR hiddenBudget]. rewrite K3, Eg. do 3 (split; [lia|]). exists 11%Z, 10%Z. do 2 (split; [lia|]). split; [change (2 ^ 11)%Z with (Z.of_nat (2 ^ 11)); lia|]. split; [change (2 ^ 10)%Z with (Z.of_nat (2 ^ 10)); lia|]. split; [lia|]. split; [lia|]. split; [lia|]. split; [lia|]. split; [cbn [regTo]; lia|]. split; [unfold room; lia|]. split; auto.
    + split; auto. cbn [eX eG hiddenBudget]. lia.
  - rewrite En in H4. destruct (nlay n') as [|b1 [|b2 [|b3 [|b4 [|]]]]] eqn:En'; try discriminate H4.
    destruct (H5 0%nat a1 l1) as (c1 & m1 & Q1 & Q2 & _ & Q3); [rewrite En; reflexivity | auto|]. destruct (H5 2%nat a3 l3) as (c3 & m3 & S1 & S2 & _ & S3); [rewrite En; reflexivity | auto|]. cbn in Q1, S1. injection Q1; intros <-. injection S1; intros <-.
    exists h', n', t', calls, b1, b2, b3, b4, m1, m3. do 7 (split; [auto|]). split; [exact (Q3 _ _ K1) | exact (S3 _ _ K3)].
Qed.
End B32.


(* two dense layers of finite weights: the outputs for a row of ones are infinite *)
Section Big.
Variables (lm : libm -> b32 -> b32) (pw : b32 -> b32 -> b32) (jk : b32).
Notation F := (B32Ops lm pw jk).
Definition bigDense : layer F := setWB (layBase F (KDense 2 2) "GlorotUniform" "Zeros") (mgen 2 2 (fun _ _ => b32_of_Z (2 ^ 64))) (mgen 1 2 (fun _ _ => (B754_zero false : b32))).
Lemma big_overflow : forall rs : nat -> rnd F, exists h' o, predict F rs [Some bigDense; Some bigDense] (mkNet [0%nat; 1%nat] true false) (mgen 1 2 (fun _ _ => b32_of_Z 1)) (mempty F) = Ok (h', o) /\
  forallb (fun x : b32 => is_finite x) (mdata (lw bigDense)) = true /\ map (fun x : b32 => is_finite x) (mdata o) = [false; false].
Proof.
  intro rs. assert (E : match predict F rs [Some bigDense; Some bigDense] (mkNet [0%nat; 1%nat] true false) (mgen 1 2 (fun _ _ => b32_of_Z 1)) (mempty F) with Ok (_, o) => map (fun x : b32 => is_finite x) (mdata o) | Err _ => [] end = [false; false]) by (vm_compute; reflexivity).
  destruct (predict F rs _ _ _ _) as [[h' o]|e]; [|discriminate E]. exists h', o. split; [reflexivity|]. split; [vm_compute; reflexivity | exact E].
Qed.
End Big.
(* Dense(2,2), an activation, Dense(2,2), Softmax; three samples, trained by SGD in batches of two *)
Section Demo.
Variables (lm : libm -> b32 -> b32) (pw : b32 -> b32 -> b32) (jk : b32).
Notation F := (B32Ops lm pw jk).
Definition mlpTr (g : option (regul F)) : trainer F := let t := trNew F in
  setSettings F (withData t (demoX lm pw jk 3, demoY lm pw jk 3)) (mkSet F 2 128 true 50 (-1) (-1) false "SGD" (b32_of_Z (-1)) (b32_of_Z (-1)) (b32_of_Z (-1)) LCategoricalCrossEntropy g).
Definition mlpHeap (a : actKind) : heap F := [Some (demoDense lm pw jk); Some (layBase F (KAct (Some a)) "" ""); Some (demoDense lm pw jk); Some (layBase F KSoftmax "" "")].
Definition mlpNet : net := mkNet [0%nat; 1%nat; 2%nat; 3%nat] true false.
(* the default limit, 0.001 *)
Definition clip0 : regul F := set_parameter F (newReg F RClip) (b32_of_Z (-1)).

Lemma mlp_trainable : forall a g, trainable (mlpHeap a) mlpNet (mlpTr g) 2 2.
Proof.
  intros a g. unfold trainable. split. { repeat (constructor; [simpl; lia|]). constructor. }
  split. { exists (demoDense lm pw jk), 2%nat. split; [reflexivity|]. split; [repeat split; auto|]. exists (layBase F (KAct (Some a)) "" ""), 2%nat. split; [reflexivity|]. split; [repeat split; auto; discriminate|]. exists (demoDense lm pw jk), 2%nat. split; [reflexivity|]. split; [repeat split; auto|]. exists (layBase F KSoftmax "" ""), 2%nat. split; [reflexivity|]. split; [repeat split; auto | reflexivity]. }
  split; [intros i b l E G; destruct i as [|[|[|i]]]; try (destruct i; discriminate E); injection E; intros <-; injection G; intros <-; reflexivity|]. split; [discriminate|]. split; [reflexivity|]. split; [left; reflexivity|].
  split; [cbn; lia|]. split; [constructor|]. split; [constructor|]. split; [eexists; split; [reflexivity|]; split; [apply mwf_gen|]; split; [apply mwf_gen|]; repeat split|]. intros d E. discriminate E.
Qed.
Lemma demo_small : forall r, (r <= 3)%nat -> smallData LCategoricalCrossEntropy (demoX lm pw jk r, demoY lm pw jk r).
Proof.
  intros r Hr. split; [change (Z.of_nat r < 2 ^ 24)%Z; lia|]. cbn [fst snd]. split.
  - unfold demoX. intros x Hx. destruct (cell_of F _ _ _ _ Hx) as (i & j & Hi & Hj & ->). apply w_Z; [lia|]. assert (H8 : p2 3 = 8) by reflexivity. pose proof (p2_le 3 10 ltac:(lia)). rewrite Rabs_pos_eq by (apply IZR_le; lia). apply Rle_trans with 8; [apply IZR_le; lia | lra].
  - unfold demoY. intros x Hx. destruct (cell_of F _ _ _ _ Hx) as (i & j & Hi & Hj & ->). destruct (ofZ_val 1 ltac:(lia)) as [A B]. destruct (i =? j)%nat; split; [exact A | rewrite B; lra | reflexivity | change (val (B754_zero false)) with 0; lra].
Qed.
Lemma demo_par : forall z v, (3 <= z)%Z -> In v (mdata (lw (demoDense lm pw jk))) \/ In v (mdata (lb (demoDense lm pw jk))) -> within z v.
Proof.
  intros z v Hz [Hx|Hx].
  - destruct (cell_of F _ _ _ _ Hx) as (i & j & Hi & Hj & ->). apply w_Z; [lia|]. assert (H8 : p2 3 = 8) by reflexivity. pose proof (p2_le 3 z Hz). rewrite Rabs_pos_eq by (apply IZR_le; lia). apply Rle_trans with 8; [apply IZR_le; lia | lra].
  - destruct (cell_of F _ _ _ _ Hx) as (i & j & Hi & Hj & ->). apply w_zero.
Qed.
Lemma demo_slow : slow 6 (b32_of_Z (-1)) /\ within 0 (b32_of_Z (-1)).
Proof. destruct (ofZ_val (-1) ltac:(lia)) as [A B]. split; [split; [lia|]; right; split; [exact A|]; split; [exact B | lia]|]. split; [exact A|]. rewrite B, Rabs_left by lra. change (p2 0) with 1. lra. Qed.
Lemma demo_clip : fin (rparam F clip0) /\ 0 <= val (rparam F clip0) <= p2 (-9).
Proof. assert (E : p2 (-9) = / 512) by (unfold p2; simpl; lra). pose proof max_big. destruct (lit_rg lm pw jk 1 1000 0 (p2 (-9))) as [A B]; try lia; try lra; [apply fmt_0 | apply fmt_p2; lia|]. cbn [rparam clip0 set_parameter newReg rkind]. destruct (ofZ_val (-1) ltac:(lia)) as [C D]. destruct (dflt_cases lm pw jk (b32_of_Z (-1)) (flit F 1 1000)) as [->|[_ N]]; [split; auto|]. exfalso. apply N; auto. Qed.
Lemma demo_plain : forall a w, flat a \/ shrinking a -> (3 <= w)%Z -> plainNet F (within w) (mlpHeap a) (nlay mlpNet).
Proof.
  intros a w Ha Hw [|[|[|[|i]]]] b l Eb El; cbn in Eb; try (destruct i; discriminate Eb); injection Eb; intros <-; injection El; intros <-; cbn [length nlay mlpNet Nat.eqb].
  - split; [cbn; lia|]. split; [cbn; lia|]. split; intros x Hx; eapply demo_par; eauto.
  - exact Ha.
  - split; [cbn; lia|]. split; [cbn; lia|]. split; intros x Hx; eapply demo_par; eauto.
  - left. reflexivity.
Qed.
End Demo.
