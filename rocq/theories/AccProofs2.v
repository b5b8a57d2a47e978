(* AccProofs2.v - the accuracy in percent in single precision *)
From Coq Require Import String List Arith ZArith Reals Lra Lia Bool.
From Flocq Require Import Core IEEE754.BinarySingleNaN.
From Verif Require Import Base Scalar Mat SpecMat SpecData MatFacts MatLoops MatProofs Act Loss Optim LayMat LayImg Layer Net NetTrain SpecNet SpecTrain NetRow NetProofs1 NetProofs2 NetProofs4 TrainProofs1 TrainProofs12 SpecFit FitNet1 FitNet2 FitNet3 FitRun SpecRound SpecNaN RoundProofs1 B32Int B32Kit OptFin1 TrainFin1 SpecAcc AccProofs1.
Import ListNotations.
Local Open Scope R_scope.
Local Opaque b32_add b32_sub b32_mul b32_div b32_sqrt b32_of_Z Bopp Babs.

Lemma div_rnd : forall x y : b32, fin x -> val y <> 0 -> Rabs (rnd32 (val x / val y)) < max32 -> fin (b32_div x y) /\ val (b32_div x y) = rnd32 (val x / val y).
Proof.
  intros x y Hx Hy H. pose proof (Bdiv_correct 24 128 prec32_gt_0 prec32_lt mode_NE x y Hy) as C. unfold val in *. change (bpow radix2 128) with max32 in C. rewrite (Rlt_bool_true _ _ H) in C. destruct C as (C1 & C2 & _).
  Local Transparent b32_div. unfold b32_div, fin. Local Opaque b32_div. split; [rewrite C2; exact Hx|exact C1].
Qed.
Lemma mul_rnd : forall x y : b32, fin x -> fin y -> Rabs (rnd32 (val x * val y)) < max32 -> fin (b32_mul x y) /\ val (b32_mul x y) = rnd32 (val x * val y).
Proof.
  intros x y Hx Hy H. pose proof (Bmult_correct 24 128 prec32_gt_0 prec32_lt mode_NE x y) as C. unfold val in *. change (bpow radix2 128) with max32 in C. rewrite (Rlt_bool_true _ _ H) in C. destruct C as (C1 & C2 & _).
  Local Transparent b32_mul. unfold b32_mul, fin. Local Opaque b32_mul. split; [rewrite C2; unfold fin in *; rewrite Hx, Hy; reflexivity|exact C1].
Qed.
Lemma abs_le2 : forall a b, Rabs a <= b -> - b <= a <= b. Proof. intros a b H. apply Rabs_le_inv. exact H. Qed.
Lemma u_val : u32 = / 16777216. Proof. unfold u32. simpl. lra. Qed.
Lemma eta_small : 0 < eta32 < / 1000000000.
Proof. split; [apply eta_pos|]. unfold eta32. apply Rlt_le_trans with (bpow radix2 (-30)); [apply bpow_lt; lia|]. simpl. lra. Qed.
Lemma percent_in : forall g N, (0 < N)%nat -> (g <= N)%nat -> 0 <= percent g N <= 100.
Proof.
  intros g N HN Hg. unfold percent. assert (0 < INR N) by (apply lt_0_INR; auto). assert (INR g <= INR N) by (apply le_INR; auto). pose proof (pos_INR g).
  split; [apply Rmult_le_pos; [lra|left; apply Rinv_0_lt_compat; auto]|]. apply Rmult_le_reg_r with (INR N); auto. unfold Rdiv. rewrite Rmult_assoc, Rinv_l by lra. lra.
Qed.
Lemma maxE : forall N, (N <= maxExact)%nat -> (Z.of_nat N <= 671088)%Z. Proof. unfold maxExact. lia. Qed.
Local Opaque maxExact.
Lemma fmt_100 : fmt 100. Proof. apply (fmt_Z 100). lia. Qed.

Section B32.
Variables (lm : libm -> b32 -> b32) (pw : b32 -> b32 -> b32) (jk : b32).
Notation F := (B32Ops lm pw jk).

(* up to maxExact samples *)
Lemma pct_val : forall g N, (0 < N <= maxExact)%nat -> (g <= N)%nat -> fin (pct F g N) /\ val (pct F g N) = rnd32 (percent g N).
Proof.
  intros g N HN Hg. pose proof (maxE N (proj2 HN)) as HZ.
  destruct (ofN_val lm pw jk N ltac:(lia)) as [A1 A2]. destruct (ofN_val lm pw jk g ltac:(lia)) as [B1 B2]. destruct (ofN_val lm pw jk 100 ltac:(lia)) as [C1 C2]. replace (INR 100) with 100 in C2 by (rewrite INR_IZR_INZ; reflexivity).
  assert (PN : 0 < INR N) by (apply lt_0_INR; lia). unfold pct. cbn [fdiv fmul B32Ops].
  assert (E : 100 * INR g = IZR (25 * Z.of_nat g) * p2 2) by (rewrite mult_IZR, <- INR_IZR_INZ; change (p2 2) with 4; lra).
  assert (Fm : fmt (100 * INR g)) by (rewrite E; apply fmt_dy; lia).
  assert (M : rg (100 * INR g) (100 * INR g) (b32_mul (fofN F 100) (fofN F g))).
  { pose proof (pos_INR g). assert (INR g <= 671088) by (rewrite INR_IZR_INZ; apply IZR_le; lia). pose proof max_big. assert (100 * INR g < max32). { unfold max32. apply Rle_lt_trans with (bpow radix2 30); [simpl; lra|apply bpow_lt; lia]. } apply rg_mul; auto; try lra. rewrite C2, B2. lra. }
  destruct M as [M1 M2]. assert (V : val (b32_mul (fofN F 100) (fofN F g)) = 100 * INR g) by lra. assert (Q : val (b32_mul (fofN F 100) (fofN F g)) / val (fofN F N) = percent g N) by (rewrite V, A2; reflexivity). rewrite <- Q. apply div_rnd; auto; [rewrite A2; lra|]. rewrite Q.
  pose proof (percent_in g N ltac:(lia) Hg) as P. apply Rle_lt_trans with 100; [|pose proof max_big; lra]. rewrite Rabs_pos_eq by (apply rnd_ge; [apply fmt_0|lra]). apply rnd_le; [apply fmt_100|lra].
Qed.
Lemma pct_range : forall g N, (0 < N <= maxExact)%nat -> (g <= N)%nat -> fin (pct F g N) /\ 0 <= val (pct F g N) <= 100 /\ Rabs (val (pct F g N) - percent g N) <= / 160000.
Proof.
  intros g N HN Hg. destruct (pct_val g N HN Hg) as [A B]. pose proof (percent_in g N ltac:(lia) Hg) as P. split; auto. rewrite B. split; [split; [apply rnd_ge; [apply fmt_0|lra]|apply rnd_le; [apply fmt_100|lra]]|].
  pose proof (round_err (percent g N)) as E. rewrite (Rabs_pos_eq (percent g N)) in E by lra. rewrite u_val in E. pose proof eta_small. lra.
Qed.
Lemma pct_lt : forall g g' N, (0 < N <= maxExact)%nat -> (g < g')%nat -> (g' <= N)%nat -> val (pct F g N) < val (pct F g' N).
Proof.
  intros g g' N HN Hg Hg'. destruct (pct_range g N HN ltac:(lia)) as (_ & _ & A). destruct (pct_range g' N HN Hg') as (_ & _ & B). apply abs_le2 in A. apply abs_le2 in B.
  assert (PN : 0 < INR N) by (apply lt_0_INR; lia). assert (D : percent g N + 100 / INR N <= percent g' N).
  { unfold percent. apply Rmult_le_reg_r with (INR N); auto. assert (INR (g + 1) <= INR g') by (apply le_INR; lia). rewrite plus_INR in H. simpl INR in H. field_simplify; lra. }
  assert (INR N <= 671088). { rewrite INR_IZR_INZ. apply IZR_le. apply maxE. tauto. }
  assert (/ 6711 < 100 / INR N). { apply Rmult_lt_reg_r with (INR N); auto. unfold Rdiv. rewrite Rmult_assoc, Rinv_l by lra. lra. } lra.
Qed.
Lemma pct_order : forall g g' N, (0 < N <= maxExact)%nat -> (g <= N)%nat -> (g' <= N)%nat -> (flt F (pct F g N) (pct F g' N) = true <-> (g < g')%nat).
Proof.
  intros g g' N HN Hg Hg'. destruct (pct_range g N HN Hg) as (A & _). destruct (pct_range g' N HN Hg') as (B & _). cbn [flt B32Ops]. split; intro H.
  - apply lt_val in H; auto. destruct (Nat.lt_trichotomy g g') as [?|[->|L]]; auto; [lra|]. pose proof (pct_lt g' g N HN L Hg). lra.
  - pose proof (pct_lt g g' N HN H Hg'). destruct (b32_lt (pct F g N) (pct F g' N)) eqn:E; auto. apply nlt_val in E; auto. lra.
Qed.
Lemma pct_full : forall g N, (0 < N <= maxExact)%nat -> (g <= N)%nat -> (val (pct F g N) = 100 <-> g = N) /\ (val (pct F g N) = 0 <-> g = 0%nat).
Proof.
  intros g N HN Hg. assert (PN : 0 < INR N) by (apply lt_0_INR; lia).
  assert (E1 : val (pct F N N) = 100). { destruct (pct_val N N HN (le_n _)) as [_ ->]. replace (percent N N) with 100 by (unfold percent; field; lra). apply round_generic; [apply valid_rnd_round_mode|apply fmt_100]. }
  assert (E0 : val (pct F 0 N) = 0). { destruct (pct_val 0 N HN ltac:(lia)) as [_ ->]. replace (percent 0 N) with 0 by (unfold percent; simpl INR; field; lra). apply round_0. apply valid_rnd_round_mode. }
  split; split; intro H; try (subst; auto).
  - destruct (Nat.eq_dec g N); auto. pose proof (pct_lt g N N HN ltac:(lia) (le_n _)). lra.
  - destruct (Nat.eq_dec g 0); auto. pose proof (pct_lt 0 g N HN ltac:(lia) Hg). lra.
Qed.

(* up to 2^24 samples *)
Lemma pct_near : forall g N, (0 < N)%nat -> (Z.of_nat N < 2 ^ 24)%Z -> (g <= N)%nat -> fin (pct F g N) /\ 0 <= val (pct F g N) /\ Rabs (val (pct F g N) - percent g N) <= / 80000.
Proof.
  intros g N HN HZ Hg. destruct (ofN_val lm pw jk N HZ) as [A1 A2]. destruct (ofN_val lm pw jk g ltac:(lia)) as [B1 B2]. destruct (ofN_val lm pw jk 100 ltac:(lia)) as [C1 C2]. replace (INR 100) with 100 in C2 by (rewrite INR_IZR_INZ; reflexivity).
  assert (PN : 1 <= INR N) by (change 1 with (INR 1); apply le_INR; lia). assert (Pg : 0 <= INR g <= INR N) by (split; [apply pos_INR|apply le_INR; auto]). assert (PZ : INR N <= 16777216) by (rewrite INR_IZR_INZ; apply IZR_le; lia).
  assert (Big : 10000000000 < max32). { unfold max32. apply Rlt_le_trans with (bpow radix2 40); [simpl; lra|apply bpow_le; lia]. }
  unfold pct. cbn [fdiv fmul B32Ops]. pose proof (round_err (100 * INR g)) as E1. rewrite (Rabs_pos_eq (100 * INR g)) in E1 by lra. set (r := rnd32 (100 * INR g)) in *. assert (R0 : 0 <= r) by (apply rnd_ge; [apply fmt_0|lra]). rewrite u_val in E1. pose proof eta_small as Et. apply abs_le2 in E1.
  destruct (mul_rnd (fofN F 100) (fofN F g) C1 B1) as [M1 M2]. { rewrite C2, B2. fold r. rewrite Rabs_pos_eq by auto. lra. } rewrite C2, B2 in M2. fold r in M2.
  assert (IN : 0 < / INR N <= 1) by (split; [apply Rinv_0_lt_compat; lra|rewrite <- Rinv_1; apply Rinv_le_contravar; lra]).
  assert (Q0 : 0 <= r / INR N) by (apply Rmult_le_pos; lra). pose proof (percent_in g N HN Hg) as P.
  assert (Q1 : Rabs (r / INR N - percent g N) <= percent g N * / 16777216 + eta32).
  { unfold percent in *. replace (r / INR N - 100 * INR g / INR N) with ((r - 100 * INR g) * / INR N) by (field; lra). replace (100 * INR g / INR N * / 16777216) with ((100 * INR g * / 16777216) * / INR N) by (field; lra). rewrite Rabs_mult, (Rabs_pos_eq (/ INR N)) by lra.
    assert (Rabs (r - 100 * INR g) <= 100 * INR g * / 16777216 + eta32) by (apply Rabs_le; lra). apply Rle_trans with ((100 * INR g * / 16777216 + eta32) * / INR N); [apply Rmult_le_compat_r; lra|]. nra. }
  pose proof (round_err (r / INR N)) as E2. rewrite (Rabs_pos_eq (r / INR N)) in E2 by lra. rewrite u_val in E2. apply abs_le2 in Q1. apply abs_le2 in E2.
  destruct (div_rnd (b32_mul (fofN F 100) (fofN F g)) (fofN F N) M1) as [D1 D2]; [rewrite A2; lra| |].
  - rewrite M2, A2. rewrite Rabs_pos_eq by (apply rnd_ge; [apply fmt_0|lra]). lra.
  - split; auto. rewrite D2, M2, A2. split; [apply rnd_ge; [apply fmt_0|lra]|]. apply Rabs_le. lra.
Qed.

(** * compute_loss_accuracy and fit *)
Theorem eval_exact : forall cabs rs h n t k m N q x y h' l a, detNet F h n k m -> (0 < N <= maxExact)%nat -> lossAccuracy F cabs rs h n t (mgen N k x) (mgen N q y) = Ok (h', l, a) ->
  exists Y : nat -> nat -> F,
    (forall i rs' out, (i < N)%nat -> mwf out -> exists h1, predict F rs' h n (mgen 1 k (fun _ => x i)) out = Ok (h1, mgen 1 m (fun _ => Y i))) /\
    let right i := correct F m q (Y i) (y i) in
    fin a /\ 0 <= val a <= 100 /\ Rabs (val a - percent (count N right) N) <= / 160000 /\
    (val a = 100 <-> forall i, (i < N)%nat -> right i = true) /\ (val a = 0 <-> forall i, (i < N)%nat -> right i = false).
Proof.
  intros cabs rs h n t k m N q x y h' l a D HN E. destruct (accuracy_counts F cabs rs h n t k m N q x y h' l a D ltac:(lia) E) as (Y & HY & ->). exists Y. split; auto. cbv zeta.
  set (p := fun i => correct F m q (Y i) (y i)) in *. assert (C : forall M, (count M p <= M)%nat /\ (count M p = M <-> forall i, (i < M)%nat -> p i = true) /\ (count M p = 0%nat <-> forall i, (i < M)%nat -> p i = false)).
  { clear. induction M as [|M (I1 & I2 & I3)]; [repeat split; intros; simpl in *; try lia; auto|]. simpl count. destruct (p M) eqn:E.
    - split; [lia|]. split; split; intro H.
      + intros i Hi. destruct (Nat.eq_dec i M); [subst; auto|]. apply I2; [lia|lia].
      + assert (count M p = M); [|lia]. apply I2. intros; apply H; lia.
      + lia.
      + rewrite H in E by lia. discriminate.
    - split; [lia|]. split; split; intro H.
      + lia.
      + rewrite H in E by lia. discriminate.
      + intros i Hi. destruct (Nat.eq_dec i M); [subst; auto|]. apply I3; [lia|lia].
      + assert (count M p = 0%nat); [|lia]. apply I3. intros; apply H; lia. }
  destruct (C N) as (C1 & C2 & C3). change (fdiv F (fmul F (fofN F 100) (fofN F (count N p))) (fofN F N)) with (pct F (count N p) N). destruct (pct_range _ _ HN C1) as (A1 & A2 & A3). destruct (pct_full _ _ HN C1) as (B1 & B2).
  split; auto. split; auto. split; auto. split; [rewrite B1; exact C2|rewrite B2; exact C3].
Qed.
(* two evaluations on as many samples *)
Theorem eval_order : forall cabs rs1 rs2 h1 h2 n1 n2 t1 t2 k1 k2 m1 m2 N q1 q2 x1 x2 y1 y2 h1' h2' l1 l2 a1 a2, detNet F h1 n1 k1 m1 -> detNet F h2 n2 k2 m2 -> (0 < N <= maxExact)%nat ->
  lossAccuracy F cabs rs1 h1 n1 t1 (mgen N k1 x1) (mgen N q1 y1) = Ok (h1', l1, a1) -> lossAccuracy F cabs rs2 h2 n2 t2 (mgen N k2 x2) (mgen N q2 y2) = Ok (h2', l2, a2) ->
  exists Y1 Y2 : nat -> nat -> F,
    (forall i rs' out, (i < N)%nat -> mwf out -> exists h, predict F rs' h1 n1 (mgen 1 k1 (fun _ => x1 i)) out = Ok (h, mgen 1 m1 (fun _ => Y1 i))) /\
    (forall i rs' out, (i < N)%nat -> mwf out -> exists h, predict F rs' h2 n2 (mgen 1 k2 (fun _ => x2 i)) out = Ok (h, mgen 1 m2 (fun _ => Y2 i))) /\
    (flt F a1 a2 = true <-> (count N (fun i => correct F m1 q1 (Y1 i) (y1 i)) < count N (fun i => correct F m2 q2 (Y2 i) (y2 i)))%nat).
Proof.
  intros cabs rs1 rs2 h1 h2 n1 n2 t1 t2 k1 k2 m1 m2 N q1 q2 x1 x2 y1 y2 h1' h2' l1 l2 a1 a2 D1 D2 HN E1 E2.
  destruct (accuracy_counts F cabs _ _ _ _ _ _ _ _ _ _ _ _ _ D1 (proj1 HN) E1) as (Y1 & HY1 & ->). destruct (accuracy_counts F cabs _ _ _ _ _ _ _ _ _ _ _ _ _ D2 (proj1 HN) E2) as (Y2 & HY2 & ->). exists Y1, Y2. split; auto. split; auto.
  assert (L : forall p, (count N p <= N)%nat) by (intro p; clear; induction N as [|N IH]; cbn [count]; [lia|destruct (p N); lia]). apply pct_order; auto.
Qed.
Theorem fit_exact : forall cabs R h n t mS mT h' n' t' calls, fit F cabs R h n t = Ok (h', n', t', calls) -> nlay n <> [] -> ttrain F t = Some (mS, mT) -> (0 < mrows mS <= maxExact)%nat ->
  (forall xv yv, tval F t = Some (xv, yv) -> (mrows xv <= maxExact)%nat) ->
  forall a, In a (hTA F (th F t') ++ hVA F (th F t')) -> fin a /\ 0 <= val a <= 100.
Proof.
  intros cabs R h n t mS mT h' n' t' calls E Hn Ht HN Hv a Ha. destruct (fit_pct F cabs _ _ _ _ _ _ _ _ _ _ E Hn Ht (proj1 HN)) as [A B].
  assert (Q : forall M, (M <= maxExact)%nat -> isPct F M a -> fin a /\ 0 <= val a <= 100). { intros M HM [->|(P & g & Hg & ->)]; [split; [reflexivity|change (val (f0 F)) with 0; lra]|]. destruct (pct_range g M ltac:(lia) Hg) as (X1 & X2 & _). auto. }
  apply in_app_or in Ha. destruct Ha as [Ha|Ha]; [rewrite Forall_forall in A; apply (Q (mrows mS)); [lia|auto]|]. destruct (B a Ha) as (xv & yv & V & P). apply (Q (mrows xv)); eauto.
Qed.
Theorem fit_near : forall cabs R h n t mS mT h' n' t' calls, fit F cabs R h n t = Ok (h', n', t', calls) -> nlay n <> [] -> ttrain F t = Some (mS, mT) -> (0 < mrows mS)%nat -> (Z.of_nat (mrows mS) < 2 ^ 24)%Z ->
  (forall xv yv, tval F t = Some (xv, yv) -> (Z.of_nat (mrows xv) < 2 ^ 24)%Z) ->
  forall a, In a (hTA F (th F t') ++ hVA F (th F t')) -> fin a /\ 0 <= val a <= 100 + / 80000.
Proof.
  intros cabs R h n t mS mT h' n' t' calls E Hn Ht H0 HN Hv a Ha. destruct (fit_pct F cabs _ _ _ _ _ _ _ _ _ _ E Hn Ht H0) as [A B].
  assert (Q : forall M, (Z.of_nat M < 2 ^ 24)%Z -> isPct F M a -> fin a /\ 0 <= val a <= 100 + / 80000).
  { intros M HM [->|(P & g & Hg & ->)]; [split; [reflexivity|change (val (f0 F)) with 0; lra]|]. destruct (pct_near g M P HM Hg) as (X1 & X2 & X3). pose proof (percent_in g M P Hg). apply abs_le2 in X3. split; auto. lra. }
  apply in_app_or in Ha. destruct Ha as [Ha|Ha]; [rewrite Forall_forall in A; apply (Q (mrows mS)); auto|]. destruct (B a Ha) as (xv & yv & V & P). apply (Q (mrows xv)); eauto.
Qed.
End B32.
