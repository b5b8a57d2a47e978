(* TrainProofs11.v - class weights *)
From Coq Require Import String List Arith Bool Lia ZArith Reals Lra.
From Flocq Require Import Core IEEE754.BinarySingleNaN.
From Verif Require Import Base Scalar B32Facts Mat SpecMat SpecReal RSum SpecData MatFacts MatProofs MatLoops MatProofs2 MatProps Loss LossProofs LossProofs2 B32Int Metrics MetricsProofs Optim Regul LayMat Layer Net NetTrain SpecTrain.
Import ListNotations.
Local Open Scope nat_scope.

Lemma fold_ext_in : forall A I (f g : A -> I -> A) l a, (forall x i, In i l -> f x i = g x i) -> fold_left f l a = fold_left g l a.
Proof. intros A I f g l. induction l as [|i l IH]; intros a H; [reflexivity|]. cbn. rewrite H by (left; auto). apply IH. intros; apply H; right; auto. Qed.
Section Count.
Variable F : FOps.
Lemma labelCount_gen : forall n N (lab : nat -> nat -> F) (r : nat -> nat), (forall i, i < N -> toIdx F (lab i 0) = Ok (r i) /\ r i < n) ->
  labelCount F n (mgen N 1 lab) = Ok (mgen n 1 (fun a _ => tally F (count N (fun i => r i =? a)))).
Proof.
  intros n N lab r Hr. unfold labelCount. rewrite msetZero_gen by reflexivity. cbn [bind]. change (mrows (mgen N 1 lab)) with N.
  rewrite (@forN_sim _ _ (mgen n 1)) with (step := fun i q => upd2 q (r i) 0 (addOne F (q (r i) 0))).
  2:{ intros i q Hi. destruct (Hr i Hi) as (E & L). rewrite mget1_col by auto. cbn [bind]. rewrite E. cbn [bind].
      rewrite mget2_gen by auto. cbn [bind]. rewrite mset2_gen by auto. reflexivity. }
  apply Ok_eq, mgen_ext. intros a b Ha Hb. assert (b = 0) by lia. subst b.
  rewrite (@fold_point2 nat F (fun i q => upd2 q (r i) 0 (addOne F (q (r i) 0))) (fun i v => if r i =? a then addOne F v else v)).
  - apply fold_count.
  - intros i S _. unfold upd2. rewrite (Nat.eqb_sym a). destruct (Nat.eqb_spec (r i) a); cbn [andb Nat.eqb]; subst; auto.
Qed.
Definition weightsOf (K : nat) (cnt : nat -> F) : mat F :=
  mgen K 1 (fun a _ => fdiv F (f1 F) (fmul F (cnt a) (fdiv F (fofN F K) (fsum F K cnt)))).
Lemma weights_end : forall K (cnt : nat -> F), (s <- msum F (mgen K 1 (fun a _ => cnt a)) ;; c <- mscale F (mgen K 1 (fun a _ => cnt a)) (fdiv F (fofN F (mrows (mgen K 1 (fun a _ => cnt a)))) s) ;;
  mapLoop (fun x => fdiv F (f1 F) x) c) = Ok (weightsOf K cnt).
Proof.
  intros K cnt. rewrite msum_gen. cbn [bind]. rewrite Nat.mul_1_r. unfold mscale. rewrite mapLoop_gen. cbn [bind]. rewrite mapLoop_gen. unfold weightsOf.
  apply Ok_eq, mgen_ext. intros i j Hi Hj. cbv beta. change (mrows (mgen K 1 (fun a (_ : nat) => cnt a))) with K.
  assert (X : fsum F K (fun k => cnt (k / 1)) = fsum F K cnt). { unfold fsum. apply fold_ext_in. intros. rewrite Nat.div_1_r. reflexivity. }
  rewrite X. reflexivity.
Qed.
(* truths in categories: the class of a row is its argmax *)
Lemma classWeight_cat : forall N K (y : nat -> nat -> F) (r : nat -> nat), K <> 1 -> 0 < K ->
  (forall i, i < N -> argmax F (mgen 1 K (fun _ => y i)) = Ok (r i)) -> (forall k, k < K -> toIdx F (fofN F k) = Ok k) ->
  classWeight F (mgen N K y) = Ok (weightsOf K (fun a => tally F (count N (fun i => r i =? a)))).
Proof.
  intros N K y r HK K0 Hr Hi. unfold classWeight. change (mcols (mgen N K y)) with K. destruct (Nat.eqb_spec K 1); [congruence|]. cbn [negb].
  rewrite rowsArgmax_gen by (auto; reflexivity). cbn [bind].
  assert (Q : forall i, i < N -> argmaxPure F K (y i) = r i). { intros i H. specialize (Hr i H). rewrite argmax_gen in Hr by auto. inversion Hr. reflexivity. }
  assert (G : labelCount F K (mgen N 1 (fun i _ => fofN F (argmaxPure F K (y i)))) = Ok (mgen K 1 (fun a _ => tally F (count N (fun i => r i =? a))))).
  { apply labelCount_gen. intros i H. pose proof (argmaxPure_range F K (y i) K0). rewrite Q in * by auto. split; auto. }
  rewrite G. cbn [bind]. apply weights_end.
Qed.
End Count.

Local Open Scope R_scope.
Lemma rsum_count : forall N K r, (forall i, (i < N)%nat -> (r i < K)%nat) -> rsum K (fun a => INR (count N (fun i => (r i =? a)%nat))) = INR N.
Proof.
  intros N K r H. rewrite (rsum_ext K _ (fun a => INR (count N (fun i => true && (r i =? a)%nat)))) by (intros; reflexivity).
  rewrite count_split by auto. f_equal. apply count_all; auto.
Qed.
Lemma weight_val : forall jk N K r a, (0 < N)%nat -> (0 < K)%nat -> (forall i, (i < N)%nat -> (r i < K)%nat) ->
  (0 < count N (fun i => (r i =? a)%nat))%nat ->
  fdiv (ROps jk) 1 (fmul (ROps jk) (tally (ROps jk) (count N (fun i => (r i =? a)%nat))) (fdiv (ROps jk) (fofN (ROps jk) K) (fsum (ROps jk) K (fun a => tally (ROps jk) (count N (fun i => (r i =? a)%nat)))))) =
  INR N / (INR K * INR (count N (fun i => (r i =? a)%nat))).
Proof.
  intros jk N K r a HN HK Hr Hc. rewrite tally_R, fofN_R, fsum_R. rewrite (rsum_ext K _ (fun a => INR (count N (fun i => (r i =? a)%nat)))) by (intros; apply tally_R).
  rewrite rsum_count by auto. cbn [ROps fdiv fmul T]. apply lt_0_INR in HN, HK, Hc. field. lra.
Qed.
Lemma weights_balanced : forall jk N K r, (0 < N)%nat -> (0 < K)%nat -> (forall i, (i < N)%nat -> (r i < K)%nat) ->
  exists w : nat -> R, weightsOf (ROps jk) K (fun a => tally (ROps jk) (count N (fun i => (r i =? a)%nat))) = mgen K 1 (fun a _ => w a) /\
  (forall a, (a < K)%nat -> (0 < count N (fun i => (r i =? a)%nat))%nat -> 0 < w a /\ w a * INR (count N (fun i => (r i =? a)%nat)) = INR N / INR K) /\
  ((forall a, (a < K)%nat -> (0 < count N (fun i => (r i =? a)%nat))%nat) -> rsum N (fun i => w (r i)) = INR N).
Proof.
  intros jk N K r HN HK Hr.
  set (w := fun a => fdiv (ROps jk) 1 (fmul (ROps jk) (tally (ROps jk) (count N (fun i => (r i =? a)%nat))) (fdiv (ROps jk) (fofN (ROps jk) K) (fsum (ROps jk) K (fun a => tally (ROps jk) (count N (fun i => (r i =? a)%nat))))))).
  assert (W : forall a, (0 < count N (fun i => (r i =? a)%nat))%nat -> w a = INR N / (INR K * INR (count N (fun i => (r i =? a)%nat)))).
  { intros a Hc. apply weight_val; auto. }
  assert (PN := lt_0_INR _ HN). assert (PK := lt_0_INR _ HK).
  exists w. split; [reflexivity|].
  assert (B : forall a, (a < K)%nat -> (0 < count N (fun i => (r i =? a)%nat))%nat -> 0 < w a /\ w a * INR (count N (fun i => (r i =? a)%nat)) = INR N / INR K).
  { intros a Ha Hc. rewrite W by auto. assert (PC := lt_0_INR _ Hc). split; [|field; lra].
    apply Rdiv_lt_0_compat; [lra|]. apply Rmult_lt_0_compat; lra. }
  split; [exact B|]. intros All.
  assert (E : rsum N (fun i => w (r i)) = rsum K (fun a => w a * INR (count N (fun i => (r i =? a)%nat)))).
  { rewrite (rsum_ext K _ (fun a => rsum N (fun i => if (r i =? a)%nat then w a else 0))).
    - rewrite rsum_swap. apply rsum_ext. intros i Hi.
      rewrite (rsum_ext K _ (fun a => if (a =? r i)%nat then w a else 0)) by (intros; rewrite Nat.eqb_sym; reflexivity). rewrite rsum_delta by auto. reflexivity.
    - intros a Ha. rewrite count_INR, <- rsum_scal. apply rsum_ext. intros i Hi. destruct (r i =? a)%nat; ring. }
  rewrite E. rewrite (rsum_ext K _ (fun _ => INR N / INR K)) by (intros; apply B; auto). rewrite rsum_const. field. lra.
Qed.
(* truths as one column of labels *)
Theorem class_weights_labels : forall jk N (r : nat -> nat), (0 < N)%nat -> exists K (w : nat -> R),
  classWeight (ROps jk) (mgen N 1 (fun i _ => INR (r i))) = Ok (mgen K 1 (fun a _ => w a)) /\
  (forall i, (i < N)%nat -> (r i < K)%nat) /\ (exists i, (i < N)%nat /\ K = S (r i)) /\
  (forall a, (a < K)%nat -> (0 < count N (fun i => (r i =? a)%nat))%nat -> 0 < w a /\ w a * INR (count N (fun i => (r i =? a)%nat)) = INR N / INR K) /\
  ((forall a, (a < K)%nat -> (0 < count N (fun i => (r i =? a)%nat))%nat) -> rsum N (fun i => w (r i)) = INR N).
Proof.
  intros jk N r HN. destruct (max_fold jk N (fun i => INR (r i)) HN) as (i & Hi & E & M).
  assert (L : forall i', (i' < N)%nat -> (r i' < S (r i))%nat). { intros i' Hi'. specialize (M i' Hi'). apply INR_le in M. lia. }
  destruct (weights_balanced jk N (S (r i)) r HN ltac:(lia) L) as (w & Ew & Bw & Sw). exists (S (r i)), w. split; [|split; [auto|split; [exists i; auto|split; auto]]].
  unfold classWeight. change (mcols (mgen N 1 (fun i _ => INR (r i)))) with 1%nat. cbn [Nat.eqb negb].
  assert (C : (x <- mmaxCoeff (ROps jk) (mgen N 1 (fun i _ => INR (r i))) ;; z <- toInt (ROps jk) x ;;
    (if (z + 1 <? 0)%Z then Err EAssert else labelCount (ROps jk) (Z.to_nat (z + 1)) (mgen N 1 (fun i _ => INR (r i))))) =
    Ok (mgen (S (r i)) 1 (fun a _ => tally (ROps jk) (count N (fun i => (r i =? a)%nat))))).
  { eapply eq_trans; [exact (f_equal (fun x => x <- x ;; z <- toInt (ROps jk) x ;; (if (z + 1 <? 0)%Z then Err EAssert else labelCount (ROps jk) (Z.to_nat (z + 1)) (mgen N 1 (fun i _ => INR (r i))))) E)|].
    cbn [bind]. rewrite toInt_INR. cbn [bind]. destruct (Z.ltb_spec (Z.of_nat (r i) + 1) 0); [lia|]. replace (Z.to_nat (Z.of_nat (r i) + 1)) with (S (r i)) by lia.
    apply labelCount_gen. intros k Hk. split; [apply toIdx_INR|auto]. }
  eapply eq_trans; [exact (f_equal (fun c => c <- c ;; s <- msum (ROps jk) c ;; c <- mscale (ROps jk) c (fdiv (ROps jk) (fofN (ROps jk) (mrows c)) s) ;; mapLoop (fun x => fdiv (ROps jk) (f1 (ROps jk)) x) c) C)|].
  cbn [bind]. eapply eq_trans; [apply (weights_end (ROps jk))|]. f_equal. exact Ew.
Qed.
(* truths in categories *)
Theorem class_weights_categories : forall jk N K (y : nat -> nat -> R) (r : nat -> nat), (0 < N)%nat -> (1 < K)%nat ->
  (forall i, (i < N)%nat -> argmax (ROps jk) (mgen 1 K (fun _ => y i)) = Ok (r i)) -> exists w : nat -> R,
  classWeight (ROps jk) (mgen N K y) = Ok (mgen K 1 (fun a _ => w a)) /\
  (forall a, (a < K)%nat -> (0 < count N (fun i => (r i =? a)%nat))%nat -> 0 < w a /\ w a * INR (count N (fun i => (r i =? a)%nat)) = INR N / INR K) /\
  ((forall a, (a < K)%nat -> (0 < count N (fun i => (r i =? a)%nat))%nat) -> rsum N (fun i => w (r i)) = INR N).
Proof.
  intros jk N K y r HN HK Hr.
  assert (L : forall i, (i < N)%nat -> (r i < K)%nat).
  { intros i Hi. specialize (Hr i Hi). rewrite (argmax_gen (ROps jk)) in Hr by lia. inversion Hr. apply argmaxPure_range. lia. }
  destruct (weights_balanced jk N K r HN ltac:(lia) L) as (w & Ew & Bw & Sw). exists w. split; [|split; auto].
  rewrite <- Ew. apply (classWeight_cat (ROps jk)); try lia; auto. intros k Hk. rewrite fofN_R. apply toIdx_INR.
Qed.
(* in floats, a class without samples gets an infinite weight *)
Theorem absent_class_refuted : forall lm pw jk, exists (y : nat -> nat -> b32) w,
  classWeight (B32Ops lm pw jk) (mgen 2 3 y) = Ok w /\ match mget1 w 1 with Ok v => is_finite v = false /\ is_nan v = false | Err _ => False end.
Proof.
  intros lm pw jk. set (F := B32Ops lm pw jk).
  exists (fun i j => if (j =? 2 * i)%nat then b32_of_Z 1 else b32_of_Z 0). eexists. split.
  - apply (classWeight_cat F 2 3 _ (fun i => (2 * i)%nat)); [lia|lia| |].
    + intros i Hi. rewrite (argmax_gen F) by lia. destruct i as [|[|i]]; [vm_compute; reflexivity..|lia].
    + intros k Hk. destruct k as [|[|[|k]]]; [vm_compute; reflexivity..|lia].
  - unfold weightsOf. rewrite mget1_col by lia. vm_compute. auto.
Qed.
