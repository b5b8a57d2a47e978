(* AccProofs3.v - data sets of any size with a chosen number of right answers; too many samples for single precision *)
From Coq Require Import String List Arith ZArith Reals Lra Lia Bool.
From Flocq Require Import Core IEEE754.BinarySingleNaN.
From Verif Require Import Base Scalar Mat SpecMat SpecData MatFacts MatLoops MatProofs Act Loss Optim LayMat LayImg Layer Net NetTrain SpecNet SpecTrain NetRow NetProofs1 NetProofs2 NetProofs4 TrainProofs1 TrainProofs12 SpecFit FitNet1 FitNet2 FitNet3 FitRun SpecRound SpecNaN RoundProofs1 B32Int B32Kit OptFin1 TrainFin1 TrainFin4 LibmRound NaNAct SpecAcc AccProofs1 AccProofs2.
Import ListNotations.
Local Open Scope nat_scope.

Section B32.
Variables (lm : libm -> b32 -> b32) (pw : b32 -> b32 -> b32) (jk : b32).
Notation F := (B32Ops lm pw jk).

(* one Relu layer on two columns; every sample is (0, 1), the first g samples are in class 1, the others in class 0 *)
Definition bit (b : bool) : b32 := if b then b32_of_Z 1 else B754_zero false.
Definition accX (N : nat) : mat F := mgen N 2 (fun _ j => bit (j =? 1)).
Definition accY (g N : nat) : mat F := mgen N 2 (fun i j => bit (Bool.eqb (i <? g) (j =? 1))).
Definition accHeap : heap F := [Some (layBase F (KAct (Some ARelu)) "" "")].
Definition accNet : net := mkNet [0] true false.
Definition accTr : trainer F := trNew F.

Lemma bit_relu : forall b, act_apply F ARelu (bit b) = bit b. Proof.
  intro b. unfold act_apply. change (flt F (f0 F) (bit b)) with (b32_lt (B754_zero false) (bit b)). destruct b.
  - assert (E : b32_lt (B754_zero false) (bit true) = true) by (vm_compute; reflexivity). rewrite E. reflexivity.
  - assert (E : b32_lt (B754_zero false) (bit false) = false) by (vm_compute; reflexivity). rewrite E. reflexivity.
Qed.
Lemma count_below : forall g N, g <= N -> count N (fun i => i <? g) = g.
Proof.
  intros g N H. assert (A : forall M, count M (fun i => i <? g) = Nat.min M g). { induction M as [|M IH]; [reflexivity|]. cbn [count]. rewrite IH. destruct (Nat.ltb_spec M g); lia. } rewrite A. lia.
Qed.
Lemma acc_right : forall i g (o : nat -> F), (forall j, o j = bit (j =? 1)) -> correct F 2 2 o (fun j => bit (Bool.eqb (i <? g) (j =? 1))) = (i <? g).
Proof.
  intros i g o Ho. unfold correct. cbn [Nat.eqb]. unfold argOf. rewrite !argmax_gen by lia. assert (E : forall f f' : nat -> F, (forall j, f j = f' j) -> argmaxPure F 2 f = argmaxPure F 2 f') by (intros f f' H; unfold argmaxPure; rewrite (H 0); f_equal; cbn; rewrite !H; reflexivity).
  rewrite (E _ _ Ho). destruct (i <? g); vm_compute; reflexivity.
Qed.
(* evaluating the network on these data *)
Theorem acc_eval : forall rr g N, 0 < N -> g <= N -> detNet F accHeap accNet 2 2 /\
  (forall i rs out, mwf out -> exists h1 (o : nat -> F), predict F rs accHeap accNet (mgen 1 2 (fun _ j => bit (j =? 1))) out = Ok (h1, mgen 1 2 (fun _ => o)) /\ correct F 2 2 o (fun j => bit (Bool.eqb (i <? g) (j =? 1))) = (i <? g)) /\
  exists h' l, lossAccuracy F (absFloat F) rr accHeap accNet accTr (accX N) (accY g N) = Ok (h', l, pct F g N).
Proof.
  intros rr g N HN Hg. assert (D : detNet F accHeap accNet 2 2).
  { split; [discriminate|]. split; [constructor; [intros []|constructor]|]. exists (layBase F (KAct (Some ARelu)) "" ""), 2. split; [reflexivity|]. split; [|reflexivity]. cbn. split; [reflexivity|discriminate]. }
  set (gg := fun (x : nat -> F) (j : nat) => act_apply F ARelu (x j)).
  assert (C : chainRow F accHeap (nlay accNet) 2 2 gg).
  { exists (layBase F (KAct (Some ARelu)) "" ""), 2, (fun x => x). split; [reflexivity|]. split; [cbn; split; [reflexivity|discriminate]|]. split; [reflexivity|]. split; reflexivity. }
  destruct D as (D1 & D2 & D3). split; [split; auto|]. split.
  - intros i rs out Ho. destruct (predict_row F rs accHeap accNet 2 2 gg 1 (fun _ j => bit (j =? 1)) out D1 D2 C Ho) as (h1 & P & _). exists h1, (gg (fun j => bit (j =? 1))). split; [exact P|]. apply acc_right. intro j. apply bit_relu.
  - destruct (accuracy_fits F rr accHeap accNet (fun _ => 2) accTr (accX N) (accY g N)) as (h' & l & a & E & _); auto.
    + intros [|i] b Eb; cbn in Eb; [injection Eb as <-|destruct i; discriminate]. eexists. split; [reflexivity|]. repeat split; auto; discriminate.
    + cbn; lia.
    + split; [apply mwf_gen|]. split; [apply mwf_gen|]. repeat split.
    + exists h', l. unfold accX, accY in E |- *. destruct (lossAcc_count F (absFloat F) _ _ _ _ _ _ _ _ _ _ _ _ _ _ D1 D2 C HN E) as (_ & Q). rewrite E. rewrite Q. replace (count N _) with g; [reflexivity|]. rewrite <- (count_below g N Hg) at 1.
      clear. induction N as [|N IH]; [reflexivity|]. cbn [count]. rewrite IH. f_equal. rewrite acc_right; [reflexivity|]. intro j. apply bit_relu.
Qed.
End B32.

(* all answers right, yet less than 100 percent; and more than 100 percent *)
Notation BF := (B32Ops exactLm exactPw (B754_zero false)).
Definition evaluated (g N : nat) (a : b32) : Prop := forall rr, exists h' l, lossAccuracy BF (absFloat BF) rr (accHeap _ _ _) accNet (accTr _ _ _) (accX exactLm exactPw (B754_zero false) N) (accY exactLm exactPw (B754_zero false) g N) = Ok (h', l, a).
Lemma ofNZ : forall z, (0 <= z)%Z -> fofN BF (Z.to_nat z) = b32_of_Z z. Proof. intros z H. unfold fofN. cbn [fofZ B32Ops]. rewrite Z2Nat.id; auto. Qed.
Lemma pctZ : forall g N, (0 <= g)%Z -> (0 <= N)%Z -> pct BF (Z.to_nat g) (Z.to_nat N) = b32_div (b32_mul (b32_of_Z 100) (b32_of_Z g)) (b32_of_Z N).
Proof. intros g N Hg HN. unfold pct. rewrite !ofNZ by auto. reflexivity. Qed.
Lemma evaluatedZ : forall g N, (0 <= g <= N)%Z -> (0 < N)%Z -> evaluated (Z.to_nat g) (Z.to_nat N) (b32_div (b32_mul (b32_of_Z 100) (b32_of_Z g)) (b32_of_Z N)).
Proof. intros g N Hg HN rr. rewrite <- pctZ by lia. apply acc_eval; lia. Qed.
Theorem below_hundred : exists a, evaluated (S maxExact) (S maxExact) a /\ fin a /\ (val a < 100)%R.
Proof.
  exists (b32_div (b32_mul (b32_of_Z 100) (b32_of_Z 671089)) (b32_of_Z 671089)). split; [replace (S maxExact) with (Z.to_nat 671089) by (unfold maxExact; lia); apply evaluatedZ; lia|].
  destruct (ofZ_val 100 ltac:(lia)) as [A1 A2]. assert (Fi : fin (b32_div (b32_mul (b32_of_Z 100) (b32_of_Z 671089)) (b32_of_Z 671089))) by closed. split; [exact Fi|]. rewrite <- A2. apply lt_val; [first [exact Fi|exact A1] | first [exact A1|exact Fi] | closed].
Qed.
Theorem above_hundred : exists N a, evaluated N N a /\ fin a /\ (100 < val a)%R.
Proof.
  exists (Z.to_nat 671091), (b32_div (b32_mul (b32_of_Z 100) (b32_of_Z 671091)) (b32_of_Z 671091)). split; [apply evaluatedZ; lia|].
  destruct (ofZ_val 100 ltac:(lia)) as [A1 A2]. assert (Fi : fin (b32_div (b32_mul (b32_of_Z 100) (b32_of_Z 671091)) (b32_of_Z 671091))) by closed. split; [exact Fi|]. rewrite <- A2. apply lt_val; [first [exact Fi|exact A1] | first [exact A1|exact Fi] | closed].
Qed.
(* one more right answer, the same accuracy *)
Theorem no_progress : exists g N a b, (S g <= N)%nat /\ evaluated g N a /\ evaluated (S g) N b /\ flt BF a b = false.
Proof.
  exists (Z.to_nat 9998067), (Z.to_nat 10000000), (b32_div (b32_mul (b32_of_Z 100) (b32_of_Z 9998067)) (b32_of_Z 10000000)), (b32_div (b32_mul (b32_of_Z 100) (b32_of_Z 9998068)) (b32_of_Z 10000000)).
  split; [lia|]. split; [apply evaluatedZ; lia|]. split; [replace (S (Z.to_nat 9998067)) with (Z.to_nat 9998068) by lia; apply evaluatedZ; lia|]. cbn [flt B32Ops]. closed.
Qed.
(* fit runs on three samples *)
Theorem acc_trained : forall (lm : libm -> b32 -> b32) (pw : b32 -> b32 -> b32) (jk : b32) R, exists h' n' t' calls, fit (B32Ops lm pw jk) (absFloat (B32Ops lm pw jk)) R (demoHeap lm pw jk) demoNet (demoTr lm pw jk 3 true) = Ok (h', n', t', calls).
Proof. intros lm pw jk R. destruct (fit_completes _ R _ _ _ _ _ (demo_trainable lm pw jk 3 true)) as (h' & n' & t' & calls & E & _). eauto. Qed.
