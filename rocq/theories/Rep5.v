(* Rep5.v - real arithmetic; concrete runs; where repeating the samples matters *)
From Coq Require Import String List Arith Bool Lia ZArith QArith Reals Lra Permutation.
From Flocq Require Import IEEE754.BinarySingleNaN.
From Verif Require Import Base Scalar Mat SpecMat MatFacts MatProofs Loss Optim Regul Act LayMat LayImg Layer Net NetTrain SpecNet SpecFit SpecRepeat Order1 Rep1 Rep2 Rep4 NetProofs4 TrainProofs14.
Import ListNotations.
Local Open Scope nat_scope.

(** * real arithmetic *)
Ltac onR := match goal with |- @eq _ ?a ?b => change (@eq R a b) end.
Section Real.
Variable jk : R.
Notation F := (ROps jk).
Lemma csum_rep : forall r n s c f, times r n s -> csum F (r * n) (fun i => c (s i)) (fun i => f (s i)) = (INR r * csum F n c f)%R.
Proof.
  intros r n s c f T. unfold csum. set (g := fun (v : F) i => if c i then fadd F v (f i) else v). set (w := fun i => (if c i then f i else 0)%R).
  assert (G : forall v i, g v i = (v + w i)%R) by (intros v i; unfold g, w; destruct (c i); cbn; lra).
  assert (P : forall l l', Permutation l l' -> forall v, fold_left g l v = fold_left g l' v). { intros l l' P. induction P; intro v; simpl; auto; [|rewrite IHP1; auto]. f_equal. rewrite !G. lra. }
  assert (Q : forall l v, fold_left (fun v i => if c (s i) then fadd F v (f (s i)) else v) l v = fold_left g (map s l) v) by (induction l; intro v; simpl; auto).
  assert (A : forall k i v, fold_left g (repeat i k) v = (v + INR k * w i)%R). { induction k as [|k IH]; intros i v; [cbn; lra|]. cbn [repeat fold_left]. rewrite IH, G, S_INR. lra. }
  assert (B : forall l v u, u = (INR r * v)%R -> fold_left g (flat_map (fun j => repeat j r) l) u = (INR r * fold_left g l v)%R).
  { induction l as [|a l IH]; intros v u E; simpl; auto. rewrite fold_left_app. apply IH. rewrite A, G, E. lra. }
  rewrite Q, (P _ _ (times_perm r n s T)). apply B. cbn. lra.
Qed.
Lemma of_mul : forall r n, fofN F (r * n) = (INR r * INR n)%R.
Proof. intros. unfold fofN. cbn [fofZ ROps]. rewrite <- INR_IZR_INZ. apply mult_INR. Qed.
Lemma of_nat : forall n, fofN F n = INR n.
Proof. intro n. unfold fofN. cbn [fofZ ROps]. rewrite <- INR_IZR_INZ. auto. Qed.
Lemma rep_div : forall r, repDiv F r.
Proof.
  intros r n s c f T. rewrite (csum_rep r n s c f T), of_mul, of_nat. cbn [fdiv ROps]. destruct T as (Hr & _). assert (INR r <> 0)%R by (apply not_0_INR; lia).
  destruct n as [|n]; [unfold csum; cbn; unfold Rdiv; onR; ring|]. assert (INR (S n) <> 0)%R by (apply not_0_INR; lia). onR. field. auto.
Qed.
Lemma rep_mul : forall r, repMul F r.
Proof.
  intros r n s c f T. rewrite (csum_rep r n s c f T), of_mul, of_nat. cbn [fmul f1 fdiv ROps]. destruct T as (Hr & _). assert (INR r <> 0)%R by (apply not_0_INR; lia).
  destruct n as [|n]; [unfold csum; cbn; unfold Rdiv; onR; ring|]. assert (INR (S n) <> 0)%R by (apply not_0_INR; lia). onR. field. auto.
Qed.
(* the recorded training loss: divided by r, except for the losses that add the samples up *)
Definition recLoss (r : nat) (sums : bool) (x : R) : R := if sums then x else (x / INR r)%R.
Lemma rec_mean : forall r, 0 < r -> phiMean F r (recLoss r).
Proof.
  intros r Hr n a Hn. rewrite of_mul, of_nat. cbn. assert (INR r <> 0)%R by (apply not_0_INR; lia). assert (INR n <> 0)%R by (apply not_0_INR; lia). onR. field. auto.
Qed.
Lemma rec_sum : forall r, phiSum F r (recLoss r).
Proof.
  intros r n m s f Hn T. rewrite of_mul, !of_nat. cbn [fdiv fadd f0 ROps recLoss].
  assert (E : fsum F m (fun q => fsum F (r * n) (fun i => f (s i) q)) = (INR r * fsum F m (fun q => fsum F n (fun i => f i q)))%R).
  { unfold fsum at 1 3. assert (G : forall l v u, u = (INR r * v)%R -> fold_left (fun a q => fadd F a (fsum F (r * n) (fun i => f (s i) q))) l u = (INR r * fold_left (fun a q => fadd F a (fsum F n (fun i => f i q))) l v)%R).
    { induction l as [|q l IH]; intros v u E; simpl; auto. apply IH. rewrite (fsum_csum F (r * n)), (csum_rep r n s (fun _ => true) (fun i => f i q) T), <- fsum_csum, E. cbn [fadd ROps]. lra. }
    apply G. cbn. lra. }
  rewrite E. destruct T as (Hr & _). assert (INR r <> 0)%R by (apply not_0_INR; lia). assert (INR n <> 0)%R by (apply not_0_INR; lia). unfold Rdiv. rewrite Rinv_mult.
  rewrite !Rplus_0_l. set (A := fsum F m _). transitivity (A * / INR m * / INR n * (INR r * / INR r))%R; [onR; ring|]. rewrite Rinv_r by auto. onR. ring.
Qed.
Lemma rep_pct : forall r, 0 < r -> repPct F r.
Proof.
  intros r Hr g n Hn. rewrite !of_mul, !of_nat. cbn [fmul fdiv ROps]. assert (INR r <> 0)%R by (apply not_0_INR; lia). assert (INR n <> 0)%R by (apply not_0_INR; lia). onR. field. auto.
Qed.
Theorem real_repeat : forall r (s : nat -> nat) Rd h n t k m x x' y y', trainable h n t k m -> meanNet F h (nlay n) -> ttrain F t = Some (x, y) -> times r (mrows x) s -> repeated F r s x x' -> repeated F r s y y' -> oneBatchR F t r (mrows x) ->
  exists h' n' t1 t2 calls calls2, fit F (absFloat F) Rd h n t = Ok (h', n', t1, calls) /\ fit F (absFloat F) Rd h n (withData t (x', y')) = Ok (h', n', t2, calls2) /\ sameState F t1 t2 /\
    (0 < length (nlay n) -> curves F (fun l => if sumLoss (cLoss F (tc F t)) then l else (l / INR r)%R) (th F t1) (th F t2)) /\ Forall2 (curves F (fun l => if sumLoss (cLoss F (tc F t)) then l else (l / INR r)%R)) calls calls2.
Proof.
  intros r s Rd h n t k m x x' y y' H1 H2 H3 H4. pose proof H4 as (Hr & _). revert H1 H2 H3 H4.
  exact (fit_repeat F r s (recLoss r) (rep_div r) (rep_mul r) (rec_mean r Hr) (rec_sum r) (rep_pct r Hr) Rd h n t k m x x' y y').
Qed.
End Real.

(** * r copies of the data, one after the other *)
Lemma times_copies : forall r n, 0 < r -> 0 < n -> times r n (fun i => i mod n).
Proof.
  intros r n Hr Hn. split; auto. split; [intros; apply Nat.mod_upper_bound; lia|]. intros j Hj. clear Hr. induction r as [|r IH]; auto. replace (S r * n) with (r * n + n) by lia. rewrite seq_app, filter_app, app_length, IH. cbn [Nat.add].
  assert (E : forall k, k <= n -> length (filter (fun i => i mod n =? j) (seq (r * n) k)) = if j <? k then 1 else 0).
  { induction k as [|k IHk]; intro Hk; auto. rewrite seq_S, filter_app, app_length, IHk by lia. cbn [filter]. rewrite blocks_mod by lia.
    destruct (Nat.ltb_spec j k), (Nat.ltb_spec j (S k)), (Nat.eqb_spec k j); simpl; lia. }
  rewrite E by auto. rewrite (proj2 (Nat.ltb_lt _ _) Hj). lia.
Qed.

(** * one Dense layer, two samples *)
Section Case.
Variable F : FOps.
Definition repX (n : nat) : mat F := mgen n 1 (fun i _ => fofN F (i mod 2)).
Definition repY (n : nat) (y : nat -> F) : mat F := mgen n 1 (fun i _ => y (i mod 2)).
Definition repHeap : heap F := [Some (setWB (layBase F (KDense 1 1) "GlorotUniform" "Zeros") (mgen 1 1 (fun _ _ => fofN F 0)) (mgen 1 1 (fun _ _ => fofN F 0)))].
Definition repGain : heap F := [Some (setW (layBase F KGain "" "") (mgen 1 1 (fun _ _ => fofN F 1)))].
Definition repNet : net := mkNet [0] false false.
Definition repTr (loss : lossKind) (batch epochs : nat) (lr : F) (n : nat) (y : nat -> F) : trainer F :=
  setSettings F (withData (trNew F) (repX n, repY n y)) (mkSet F batch 128 false (Z.of_nat epochs) (-1) (-1) false "SGD" lr (fofN F 0) (fofN F 0) loss None).
Lemma rep_repeated : forall r y, 0 < r -> repeated F r (fun i => i mod 2) (repX 2) (repX (r * 2)) /\ repeated F r (fun i => i mod 2) (repY 2 y) (repY (r * 2) y).
Proof.
  intros r y Hr. split; (split; [apply mwf_gen|]; split; [apply mwf_gen|]; split; [reflexivity|]; split; [reflexivity|]; intros i j Hi Hj; cbn [repX repY mgen mrows mcols] in Hi, Hj; unfold repX, repY; assert (i mod 2 < 2) by (apply Nat.mod_upper_bound; lia); rewrite !mget2_gen by auto; rewrite Nat.mod_mod by lia; reflexivity).
Qed.
Lemma rep_trainable : forall loss b e lr y, loss = LMeanSquaredError \/ loss = LL2 -> trainable repHeap repNet (repTr loss b e lr 2 y) 1 1.
Proof.
  intros loss b e lr y Hl. unfold trainable. split; [constructor; [intros []|constructor]|]. split. { eexists. exists 1. split; [reflexivity|]. split; [repeat split; auto | reflexivity]. }
  split; [intros i a l E; destruct i; discriminate E|]. split; [discriminate|]. split; [reflexivity|]. split; [left; reflexivity|]. split; [cbn; lia|]. split; [constructor|]. split; [constructor|].
  split; [|intros d E; discriminate E]. eexists. split; [reflexivity|]. split; [apply mwf_gen|]. split; [apply mwf_gen|]. destruct Hl as [-> | ->]; repeat split.
Qed.
Lemma rep_mean : meanNet F repHeap (nlay repNet).
Proof. intros a l [<-|[]] E. injection E as <-. exact I. Qed.
End Case.

(* the theorem applies: any number of epochs over the reals, the two samples presented three times *)
Theorem rep_case : forall jk Rd y e, let F := ROps jk in exists h' n' t1 t2 calls calls2,
  fit F (absFloat F) Rd (repHeap F) repNet (repTr F LMeanSquaredError 0 e (1 / 10)%R 2 y) = Ok (h', n', t1, calls) /\
  fit F (absFloat F) Rd (repHeap F) repNet (repTr F LMeanSquaredError 0 e (1 / 10)%R 6 y) = Ok (h', n', t2, calls2) /\ hTL F (th F t2) = map (fun l => (l / 3)%R) (hTL F (th F t1)).
Proof.
  intros jk Rd y e F. assert (R3 : 0 < 3) by lia. destruct (rep_repeated F 3 y R3) as [A B].
  destruct (real_repeat jk 3 (fun i => i mod 2) Rd _ _ _ 1 1 _ _ _ _ (rep_trainable F LMeanSquaredError 0 e (1 / 10)%R y (or_introl eq_refl)) (rep_mean F) eq_refl (times_copies 3 2 R3 (Nat.lt_0_succ _)) A B) as (h' & n' & t1 & t2 & c1 & c2 & E1 & E2 & _ & C & _).
  { split; [cbn; lia|]. split; [left; reflexivity|left; reflexivity]. }
  exists h', n', t1, t2, c1, c2. split; [exact E1|]. split; [exact E2|]. destruct (C (Nat.lt_0_succ _)) as (C1 & _). cbn [sumLoss cLoss tc repTr setSettings] in C1. replace (INR 3) with 3%R in C1 by (simpl; lra). exact C1.
Qed.

(* the runs computed with rationals: weight, bias, recorded training losses *)
Definition repRun (h : heap QOps) (loss : lossKind) (batch : nat) (n : nat) : option (list (option (list Q * list Q)) * list Q) :=
  match fit QOps Ok noFR h repNet (repTr QOps loss batch 2 (1 # 10) n (fun i => inject_Z (Z.of_nat (i + 1)))) with Ok (h', n', t, _) => Some (map (wbAt h') (nlay n'), hTL QOps (th QOps t)) | Err _ => None end.
Lemma rep_run_case : repRun (repHeap QOps) LMeanSquaredError 0 2 = Some ([Some ([3 # 16], [7 # 25])], [5 # 4; 757 # 800])%Q /\ repRun (repHeap QOps) LMeanSquaredError 0 6 = Some ([Some ([3 # 16], [7 # 25])], [5 # 12; 757 # 2400])%Q /\
  repRun (repHeap QOps) LL2 0 2 = Some ([Some ([3 # 16], [7 # 25])], [5 # 2; 757 # 400])%Q /\ repRun (repHeap QOps) LL2 0 6 = Some ([Some ([3 # 16], [7 # 25])], [5 # 2; 757 # 400])%Q.
Proof. vm_compute. auto. Qed.
(* with batches of two samples, six samples are three steps *)
Lemma rep_batches : repRun (repHeap QOps) LMeanSquaredError 2 2 = Some ([Some ([3 # 16], [7 # 25])], [5 # 4; 757 # 800])%Q /\
  repRun (repHeap QOps) LMeanSquaredError 2 6 = Some ([Some ([28286447 # 64000000], [41446903 # 64000000])], [1864313 # 1920000; 2078639027441 # 4915200000000])%Q.
Proof. vm_compute. auto. Qed.
(* the gradient of Gain is a sum over the samples: three copies make the steps three times as long *)
Lemma rep_gain : repRun (repGain QOps) LMeanSquaredError 0 2 = Some ([Some ([119 # 100], [])], [1 # 2; 181 # 400])%Q /\ repRun (repGain QOps) LMeanSquaredError 0 6 = Some ([Some ([151 # 100], [])], [1 # 6; 149 # 1200])%Q.
Proof. vm_compute. auto. Qed.

(* single precision: the sum over the samples may overflow when they are presented twice *)
Section Single.
Variables (lm : libm -> b32 -> b32) (pw : b32 -> b32 -> b32) (jk : b32).
Notation F := (B32Ops lm pw jk).
Definition hugeY (i : nat) : F := match i with 0 => b32_of_Z (2 ^ 127) | _ => b32_of_Z 0 end.
Definition biasFin (r : res (heap F * net * trainer F * list (hist F))) : option bool :=
  match r with Ok (h, n, _, _) => match nlay n with [a] => match hget F h a with Ok l => match mdata (lb l) with [b] => Some (is_finite b) | _ => None end | _ => None end | _ => None end | _ => None end.
Theorem single_repeat : forall Rd : fitRnd F, exists r s h n t x x' y y' k m, trainable h n t k m /\ meanNet F h (nlay n) /\ ttrain F t = Some (x, y) /\ times r (mrows x) s /\ repeated F r s x x' /\ repeated F r s y y' /\ oneBatchR F t r (mrows x) /\
  biasFin (fit F (absFloat F) Rd h n t) = Some true /\ biasFin (fit F (absFloat F) Rd h n (withData t (x', y'))) = Some false.
Proof.
  intro Rd. exists 2, (fun i => i mod 2), (repHeap F), repNet, (repTr F LMeanSquaredError 0 1 (b32_of_Z 1 : F) 2 hugeY), (repX F 2), (repX F 4), (repY F 2 hugeY), (repY F 4 hugeY), 1, 1.
  assert (R2 : 0 < 2) by lia. destruct (rep_repeated F 2 hugeY R2) as [A B]. split; [apply rep_trainable; auto|]. split; [apply rep_mean|]. split; [reflexivity|]. split; [exact (times_copies 2 2 R2 R2)|]. split; [exact A|]. split; [exact B|].
  split; [split; [cbn; lia|]; split; left; reflexivity|]. vm_compute. auto.
Qed.
End Single.
