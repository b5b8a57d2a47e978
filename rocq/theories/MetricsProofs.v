(* MetricsProofs.v - the confusion matrix counts *)
From Coq Require Import List Arith Lia Bool ZArith Reals Lra QArith.
From Flocq Require Import Core IEEE754.BinarySingleNaN.
From Verif Require Import Base Scalar B32Facts Mat SpecMat SpecReal RSum SpecData MatFacts MatProofs MatLoops Loss SpecLoss LossProofs LossProofs2 MatProofs2 B32Int Metrics.
Import ListNotations.
Local Open Scope nat_scope.

Lemma count_ext : forall n p q, (forall i, i < n -> p i = q i) -> count n p = count n q.
Proof. induction n; intros; simpl; auto. rewrite (IHn p q), H by auto. reflexivity. Qed.
Lemma count_le : forall n p, count n p <= n.
Proof. induction n; intros; simpl; auto. specialize (IHn p). destruct (p n); lia. Qed.
Lemma count_all : forall n p, (forall i, i < n -> p i = true) -> count n p = n.
Proof. induction n; intros; simpl; auto. rewrite IHn, H by auto. lia. Qed.
Lemma count_none : forall n p, (forall i, i < n -> p i = false) -> count n p = 0.
Proof. induction n; intros; simpl; auto. rewrite IHn, H by auto. lia. Qed.
Lemma count_pos : forall n p i, i < n -> p i = true -> 0 < count n p.
Proof.
  induction n; intros p i Hi H; [lia|]. simpl. destruct (Nat.eq_dec i n) as [->|]; [rewrite H; lia|]. specialize (IHn p i). assert (0 < count n p) by (apply IHn; auto; lia). lia.
Qed.
Lemma count_INR : forall n (p : nat -> bool), INR (count n p) = rsum n (fun i => if p i then 1%R else 0%R).
Proof. induction n; intros; simpl; auto. rewrite plus_INR, IHn. destruct (p n); simpl; lra. Qed.

(* how the loop adds one to a cell per matching sample *)
Lemma fold_count : forall A (step : A -> A) n (p : nat -> bool) v, fold_left (fun v i => if p i then step v else v) (seq 0 n) v = Nat.iter (count n p) step v.
Proof.
  intros A step n p. induction n as [|n IH]; intros v; auto. rewrite seq_S, fold_left_app, IH. simpl. destruct (p n).
  - replace (count n p + 1) with (S (count n p)) by lia. reflexivity.
  - rewrite Nat.add_0_r. reflexivity.
Qed.

(* the label used for a prediction that rounds to z *)
Definition clampLabel (n : nat) (z : Z) : nat := Z.to_nat (Z.max (Z.min z (Z.of_nat n - 1)) 0).
Lemma clampLabel_lt : forall n z, 0 < n -> clampLabel n z < n.
Proof. intros. unfold clampLabel. lia. Qed.
Lemma clampLabel_id : forall n t, t < n -> clampLabel n (Z.of_nat t) = t.
Proof. intros. unfold clampLabel. lia. Qed.

Section Count.
Variable F : FOps.
Definition addOne (v : F) : F := fadd F v (f1 F).
Definition tally (k : nat) : F := Nat.iter k addOne (f0 F).

Lemma msum_gen : forall r c f, msum F (mgen r c f) = Ok (fsum F (r * c) (fun k => f (k / c) (k mod c))).
Proof. intros. rewrite mgen_flat. apply msum_flat. Qed.

Lemma met_conf : forall N nb (ref test : nat -> nat -> F) (r : nat -> nat) (z : nat -> Z) p c,
  0 < nb -> 0 < c ->
  (forall i, i < N -> ftoZ F (ref (i / c) (i mod c)) = Some (Z.of_nat (r i)) /\ r i < nb) ->
  (forall i, i < N -> ftoZ F (flm F Lround (test (i / c) (i mod c))) = Some (z i)) ->
  forN N (fun i m =>
    t <- mget1 (mgen N c test) i ;; p <- predLabel F nb t ;;
    rr <- mget1 (mgen N c ref) i ;; k <- toIdx F rr ;;
    v <- mget2 m k p ;; mset2 m k p (fadd F v (f1 F))) (mgen nb nb p) =
  Ok (mgen nb nb (fun a b => Nat.iter (count N (fun i => (r i =? a) && (clampLabel nb (z i) =? b))) addOne (p a b))).
Proof.
  intros N nb ref test r z p c Hnb Hc Hr Hz.
  rewrite (@forN_sim _ _ (mgen nb nb)) with (step := fun i q => upd2 q (r i) (clampLabel nb (z i)) (addOne (q (r i) (clampLabel nb (z i))))).
  2:{ intros i q Hi. destruct (Hr i Hi) as (E & L). pose proof (clampLabel_lt nb (z i) Hnb).
      assert (i < N * c) by nia.
      rewrite mget1_gen by auto. cbn [bind]. unfold predLabel, toInt. rewrite (Hz i Hi). cbn [bind]. fold (clampLabel nb (z i)).
      rewrite mget1_gen by auto. cbn [bind]. unfold toIdx, toInt. rewrite E. cbn [bind].
      destruct (Z.ltb_spec (Z.of_nat (r i)) 0); [lia|]. rewrite Nat2Z.id. cbn [bind].
      rewrite mget2_gen by auto. cbn [bind]. rewrite mset2_gen by auto. reflexivity. }
  apply Ok_eq, mgen_ext. intros a b Ha Hb.
  rewrite (@fold_point2 nat F (fun i q => upd2 q (r i) (clampLabel nb (z i)) (addOne (q (r i) (clampLabel nb (z i)))))
    (fun i v => if (r i =? a) && (clampLabel nb (z i) =? b) then addOne v else v)).
  - apply fold_count.
  - intros i S _. unfold upd2. rewrite (Nat.eqb_sym a), (Nat.eqb_sym b).
    destruct (Nat.eqb_spec (r i) a), (Nat.eqb_spec (clampLabel nb (z i)) b); simpl; subst; auto.
Qed.

Lemma met_counts : forall m N c nb (ref test : nat -> nat -> F) (r : nat -> nat) (z : nat -> Z),
  mwf (mConf m) -> 0 < nb -> 0 < c ->
  (forall i, i < N -> ftoZ F (ref (i / c) (i mod c)) = Some (Z.of_nat (r i)) /\ r i < nb) ->
  (forall i, i < N -> ftoZ F (flm F Lround (test (i / c) (i mod c))) = Some (z i)) ->
  exists acc bal norm, metCompute F m (mgen N c ref) (mgen N c test) nb = Ok (mkMet acc bal (mgen nb nb (fun a b =>
     tally (count N (fun i => (r i =? a) && (clampLabel nb (z i) =? b))))) (mgen nb nb norm)) /\
  let conf a b := tally (count N (fun i => (r i =? a) && (clampLabel nb (z i) =? b))) in
  let total := fsum F (nb * nb) (fun k => conf (k / nb) (k mod nb)) in
  acc = fmul F (fdiv F (fsum F nb (fun a => conf a a)) total) (fofZ F 100) /\
  (forall a b, norm a b = fmul F (fdiv F (conf a b) (fsum F nb (conf a))) (fofZ F 100)) /\
  bal = fdiv F (fsum F nb (fun a => norm a a)) (fofN F nb).
Proof.
  intros m N c nb ref test r z W Hnb Hc Hr Hz. unfold metCompute. change (mrows (mgen N c ref)) with N. change (mrows (mgen N c test)) with N.
  rewrite Nat.eqb_refl. cbn [assert_ bind]. unfold nbClass. destruct (Nat.eqb_spec nb 0); [lia|]. cbn [bind].
  rewrite msetZero_gen by auto. cbn [bind]. rewrite (@met_conf N nb ref test r z _ c) by auto. cbn [bind].
  cbv beta. match goal with |- context [mtrace F (mgen nb nb ?g)] => set (cf := g) end.
  rewrite mtrace_gen by auto. cbn [bind]. rewrite msum_gen. cbn [bind].
  unfold rowWiseSum. rewrite rowWise_gen. cbn [bind]. rewrite rowWiseDivide_gen. cbn [bind]. unfold mscale. rewrite mapLoop_gen. cbn [bind].
  rewrite mtrace_gen by auto. cbn [bind].
  eexists. eexists. eexists. split; [reflexivity|]. cbv zeta. split; [reflexivity|]. split; [intros; reflexivity|]. reflexivity.
Qed.
End Count.

Local Open Scope R_scope.
Lemma tally_R : forall jk k, tally (ROps jk) k = INR k.
Proof.
  intros. unfold tally. induction k as [|k IH]; [reflexivity|]. rewrite iter_S, IH, S_INR. reflexivity.
Qed.

(* every sample with p i < m falls in exactly one class *)
Lemma count_split : forall N m (q : nat -> bool) p, (forall i, (i < N)%nat -> (p i < m)%nat) ->
  rsum m (fun b => INR (count N (fun i => q i && (p i =? b)%nat))) = INR (count N q).
Proof.
  intros N m q p H. rewrite count_INR. rewrite (rsum_ext m _ (fun b => rsum N (fun i => if q i && (p i =? b)%nat then 1 else 0))) by (intros; apply count_INR).
  rewrite rsum_swap. apply rsum_ext. intros i Hi. destruct (q i); simpl.
  - rewrite (rsum_ext m _ (fun b => if (b =? p i)%nat then 1 else 0)) by (intros; rewrite Nat.eqb_sym; reflexivity). apply (rsum_delta m (p i) (fun _ => 1)). auto.
  - apply rsum_0.
Qed.
Lemma count_diag : forall N m r p, (forall i, (i < N)%nat -> (r i < m)%nat) ->
  rsum m (fun a => INR (count N (fun i => (r i =? a)%nat && (p i =? a)%nat))) = INR (count N (fun i => (p i =? r i)%nat)).
Proof.
  intros N m r p H. rewrite count_INR. rewrite (rsum_ext m _ (fun b => rsum N (fun i => if (r i =? b)%nat && (p i =? b)%nat then 1 else 0))) by (intros; apply count_INR).
  rewrite rsum_swap. apply rsum_ext. intros i Hi.
  rewrite (rsum_ext m _ (fun b => if (b =? r i)%nat then (if (p i =? b)%nat then 1 else 0) else 0)) by (intros; rewrite (Nat.eqb_sym i0); destruct (r i =? i0)%nat; reflexivity).
  apply (rsum_delta m (r i) (fun b => if (p i =? b)%nat then 1 else 0)). auto.
Qed.

Lemma Rround_INR : forall k, Rround (INR k) = INR k.
Proof.
  intros. unfold Rround. pose proof (pos_INR k). destruct (Rlt_dec (INR k) 0); [lra|]. rewrite INR_IZR_INZ. f_equal.
  pose proof (MatProofs2.Int_part_bounds (IZR (Z.of_nat k) + / 2)) as [A B].
  assert (IZR (Int_part (IZR (Z.of_nat k) + / 2)) < IZR (Z.of_nat k + 1)) by (rewrite plus_IZR; lra).
  assert (IZR (Z.of_nat k) < IZR (Int_part (IZR (Z.of_nat k) + / 2) + 1)) by (rewrite plus_IZR; lra).
  apply lt_IZR in H0. apply lt_IZR in H1. lia.
Qed.

(* r i: the true class of sample i; p i: the predicted label, rounded and brought into 0 .. nb-1 *)
Definition labelOf (nb : nat) (x : R) : nat := clampLabel nb (Rtrunc (Rround x)).
Lemma labelOf_id : forall nb t, (t < nb)%nat -> labelOf nb (INR t) = t.
Proof. intros. unfold labelOf. rewrite Rround_INR, Rtrunc_INR. apply clampLabel_id; auto. Qed.
Lemma labelOf_lt : forall nb x, (0 < nb)%nat -> (labelOf nb x < nb)%nat.
Proof. intros. apply clampLabel_lt; auto. Qed.

Lemma met_real : forall jk m N nb (r : nat -> nat) (test : nat -> R), mwf (mConf m) -> (0 < nb)%nat -> (forall i, (i < N)%nat -> (r i < nb)%nat) ->
  exists acc bal (norm : nat -> nat -> R),
  metCompute (ROps jk) m (mgen N 1 (fun i _ => INR (r i))) (mgen N 1 (fun i _ => test i)) nb =
    Ok (@mkMet (ROps jk) acc bal (mgen nb nb (fun a b => INR (count N (fun i => (r i =? a)%nat && (labelOf nb (test i) =? b)%nat)))) (mgen nb nb norm)) /\
  acc = INR (count N (fun i => (labelOf nb (test i) =? r i)%nat)) / INR N * 100 /\
  (forall a b, norm a b = INR (count N (fun i => (r i =? a)%nat && (labelOf nb (test i) =? b)%nat)) / INR (count N (fun i => (r i =? a)%nat)) * 100) /\
  bal = rsum nb (fun a => norm a a) / INR nb.
Proof.
  intros jk m N nb r test W Hnb Hr.
  destruct (@met_counts (ROps jk) m N 1 nb (fun i _ => INR (r i)) (fun i _ => test i) r (fun i => Rtrunc (Rround (test i))) W Hnb) as (acc & bal & norm & E & A & B & C).
  - lia.
  - intros i Hi. rewrite Nat.div_1_r. cbn [ROps ftoZ]. rewrite Rtrunc_INR. split; auto.
  - intros i Hi. rewrite Nat.div_1_r. reflexivity.
  - exists acc, bal, norm. set (p := fun i => labelOf nb (test i)).
    assert (P : forall i, (i < N)%nat -> (p i < nb)%nat) by (intros; apply labelOf_lt; auto).
    assert (TA : forall a b, tally (ROps jk) (count N (fun i => (r i =? a)%nat && (clampLabel nb (Rtrunc (Rround (test i))) =? b)%nat)) =
                INR (count N (fun i => (r i =? a)%nat && (p i =? b)%nat))) by (intros; rewrite tally_R; reflexivity).
    split.
    { eapply eq_trans; [exact E|]. apply Ok_eq. f_equal. apply mgen_ext. intros a b _ _. apply TA. }
    split.
    { rewrite A. rewrite !fsum_R. cbn [ROps fmul fdiv fofZ T]. f_equal. f_equal.
      - rewrite (rsum_ext nb _ (fun a => INR (count N (fun i => (r i =? a)%nat && (p i =? a)%nat)))) by (intros; apply TA). apply count_diag; auto.
      - rewrite rsum_flat. rewrite (rsum_ext nb _ (fun a => INR (count N (fun i => (r i =? a)%nat)))).
        2:{ intros a Ha. rewrite <- (count_split N nb (fun i => (r i =? a)%nat) p P). apply rsum_ext. intros b Hb. rewrite idx_div, idx_mod by auto. apply TA. }
        transitivity (INR (count N (fun _ => true))); [|f_equal; apply count_all; auto].
        rewrite <- (count_split N nb (fun _ => true) r Hr). reflexivity. }
    split.
    { intros a b. rewrite B, fsum_R. cbn [ROps fmul fdiv fofZ T]. f_equal. f_equal.
      - apply TA.
      - rewrite <- (count_split N nb (fun i => (r i =? a)%nat) p P). apply rsum_ext. intros; apply TA. }
    rewrite C, fsum_R, fofN_R. reflexivity.
Qed.

(* the recall of class a in percent *)
Definition recall (N : nat) (r p : nat -> nat) (a : nat) : R :=
  INR (count N (fun i => (r i =? a)%nat && (p i =? a)%nat)) / INR (count N (fun i => (r i =? a)%nat)) * 100.

Lemma count_imp : forall N (p q : nat -> bool), (forall i, (i < N)%nat -> p i = true -> q i = true) -> (count N p <= count N q)%nat.
Proof.
  induction N; intros p q H; simpl; auto. specialize (IHN p q). assert (count N p <= count N q)%nat by (apply IHN; intros; apply H; auto).
  destruct (p N) eqn:E; [rewrite (H N) by auto; lia | lia].
Qed.

Lemma met_rates : forall jk m N nb (r : nat -> nat) (test : nat -> R), mwf (mConf m) -> (0 < nb)%nat -> (0 < N)%nat -> (forall i, (i < N)%nat -> (r i < nb)%nat) ->
  exists acc bal conf (norm : nat -> nat -> R),
  metCompute (ROps jk) m (mgen N 1 (fun i _ => INR (r i))) (mgen N 1 (fun i _ => test i)) nb = Ok (@mkMet (ROps jk) acc bal conf (mgen nb nb norm)) /\
  0 <= acc <= 100 /\
  (forall a, (a < nb)%nat -> (exists i, (i < N)%nat /\ r i = a) -> rsum nb (norm a) = 100) /\
  ((forall a, (a < nb)%nat -> exists i, (i < N)%nat /\ r i = a) ->
     bal = rsum nb (recall N r (fun i => labelOf nb (test i))) / INR nb /\ 0 <= bal <= 100).
Proof.
  intros jk m N nb r test W Hnb HN Hr. destruct (met_real jk m N nb r test W Hnb Hr) as (acc & bal & norm & E & A & B & C).
  eexists. eexists. eexists. eexists. split; [exact E|]. assert (NN : 0 < INR N) by (apply lt_0_INR; auto).
  assert (Pos : forall a, (exists i, (i < N)%nat /\ r i = a) -> 0 < INR (count N (fun i => (r i =? a)%nat))).
  { intros a (i & Hi & Ei). apply lt_0_INR. apply (count_pos N _ i Hi). apply Nat.eqb_eq; auto. }
  split; [|split].
  - rewrite A. pose proof (count_le N (fun i => (labelOf nb (test i) =? r i)%nat)) as L. apply le_INR in L. pose proof (pos_INR (count N (fun i => (labelOf nb (test i) =? r i)%nat))).
    assert (0 <= INR (count N (fun i => (labelOf nb (test i) =? r i)%nat)) / INR N <= 1); [|lra]. split.
    + apply Rmult_le_pos; [lra|]. left. apply Rinv_0_lt_compat; auto.
    + apply (Rmult_le_reg_r (INR N)); auto. unfold Rdiv. rewrite Rmult_assoc, Rinv_l by lra. lra.
  - intros a Ha Hx. specialize (Pos a Hx). rewrite (rsum_ext nb (norm a) (fun b => INR (count N (fun i => (r i =? a)%nat && (labelOf nb (test i) =? b)%nat)) * (/ INR (count N (fun i => (r i =? a)%nat)) * 100))).
    2:{ intros b Hb. rewrite B. unfold Rdiv. ring. }
    rewrite rsum_scal_r, count_split by (intros; apply labelOf_lt; auto). field. lra.
  - intros Hall. assert (Eb : bal = rsum nb (recall N r (fun i => labelOf nb (test i))) / INR nb).
    { rewrite C. f_equal. apply rsum_ext. intros a Ha. rewrite B. reflexivity. }
    split; [exact Eb|]. rewrite Eb.
    assert (R : forall a, (a < nb)%nat -> 0 <= recall N r (fun i => labelOf nb (test i)) a <= 100).
    { intros a Ha. specialize (Pos a (Hall a Ha)). unfold recall. set (u := INR _). set (v := INR (count N (fun i : nat => (r i =? a)%nat))) in *.
      assert (u <= v) by (apply le_INR, count_imp; intros i _ K; cbv beta in *; apply andb_prop in K; exact (proj1 K)). assert (0 <= u) by apply pos_INR.
      assert (0 <= u / v <= 1); [|lra]. split.
      - apply Rmult_le_pos; [lra|]. left. apply Rinv_0_lt_compat; auto.
      - apply (Rmult_le_reg_r v); auto. unfold Rdiv. rewrite Rmult_assoc, Rinv_l by lra. lra. }
    assert (P1 : 0 < INR nb) by (apply lt_0_INR; auto).
    assert (0 <= rsum nb (recall N r (fun i => labelOf nb (test i))) <= INR nb * 100).
    { split. apply rsum_nonneg; intros; apply R; auto. rewrite <- rsum_const. apply rsum_le. intros; apply R; auto. }
    split.
    + apply Rmult_le_pos; [lra|]. left. apply Rinv_0_lt_compat; auto.
    + apply (Rmult_le_reg_r (INR nb)); auto. unfold Rdiv. rewrite Rmult_assoc, Rinv_l by lra. lra.
Qed.

(* the number of classes is guessed from the references: 1 + the largest *)
Lemma max_fold : forall jk n (f : nat -> R), (0 < n)%nat -> exists i, (i < n)%nat /\ mmaxCoeff (ROps jk) (mgen n 1 (fun i _ => f i)) = Ok (f i) /\ forall i', (i' < n)%nat -> f i' <= f i.
Proof.
  intros jk n f Hn. unfold mmaxCoeff. unfold msize. change (mrows (mgen n 1 (fun i _ => f i))) with n. change (mcols (mgen n 1 (fun i _ => f i))) with 1%nat.
  rewrite Nat.mul_1_r. destruct (Nat.eqb_spec n 0); [lia|]. rewrite rget_mgen by lia. cbn [bind].
  assert (G : forall k, (k < n)%nat -> exists i, (i < n)%nat /\ forL (seq 1 k) (fun i d => x <- rget (mdata (mgen n 1 (fun i _ => f i))) i ;; Ok (if Rltb d x then x else d)) (f 0%nat) = Ok (f i) /\ forall i', (i' <= k)%nat -> f i' <= f i).
  { induction k as [|k IH]; intros Hk.
    - exists 0%nat. split; [lia|]. split; [reflexivity|]. intros i' Hi'. replace i' with 0%nat by lia. lra.
    - destruct IH as (i & Hi & E & M); [lia|]. rewrite seq_S, forL_app, E. cbn [bind forL]. replace (1 + k)%nat with (S k) by lia.
      rewrite rget_mgen by lia. cbn [bind]. rewrite Nat.div_1_r. unfold Rltb. destruct (Rlt_dec (f i) (f (S k))) as [L|L].
      + exists (S k). split; [lia|]. split; [reflexivity|]. intros i' Hi'. destruct (Nat.eq_dec i' (S k)) as [->|]; [lra|]. assert (f i' <= f i) by (apply M; lia). lra.
      + exists i. split; [lia|]. split; [reflexivity|]. intros i' Hi'. destruct (Nat.eq_dec i' (S k)) as [->|]; [lra|]. apply M; lia. }
  destruct (G (n - 1)%nat) as (i & Hi & E & M); [lia|]. exists i. split; auto. split; [exact E|]. intros; apply M; lia.
Qed.

Lemma met_guess : forall jk m N (r : nat -> nat) (test : nat -> R), (0 < N)%nat -> exists i, (i < N)%nat /\ (forall i', (i' < N)%nat -> (r i' <= r i)%nat) /\
  metCompute (ROps jk) m (mgen N 1 (fun i _ => INR (r i))) (mgen N 1 (fun i _ => test i)) 0 =
  metCompute (ROps jk) m (mgen N 1 (fun i _ => INR (r i))) (mgen N 1 (fun i _ => test i)) (S (r i)).
Proof.
  intros jk m N r test HN. destruct (max_fold jk N (fun i => INR (r i)) HN) as (i & Hi & E & M). exists i. split; auto. split.
  - intros i' Hi'. apply INR_le. auto.
  - assert (K : nbClass (ROps jk) (mgen N 1 (fun i _ => INR (r i))) 0 = nbClass (ROps jk) (mgen N 1 (fun i _ => INR (r i))) (S (r i))).
    { unfold nbClass at 1. simpl Nat.eqb. cbv iota. eapply eq_trans; [exact (f_equal (fun x => x <- x ;; z <- toInt (ROps jk) x ;; if (z + 1 <? 0)%Z then Err EAssert else Ok (Z.to_nat (z + 1))) E)|].
      cbn [bind]. rewrite toInt_INR. cbn [bind]. destruct (Z.ltb_spec (Z.of_nat (r i) + 1) 0); [lia|]. unfold nbClass. simpl. f_equal. lia. }
    unfold metCompute. rewrite K. reflexivity.
Qed.

(** * what goes wrong *)
(* a prediction outside the classes is brought back to the nearest class and can count as correct *)
Lemma met_out_of_range_refuted : forall jk, exists (r : nat) (t : R) acc bal conf norm, t <> INR r /\ (2 <= t) /\ (r < 2)%nat /\
  metCompute (ROps jk) (metNew _) (mgen 1 1 (fun _ _ => INR r)) (mgen 1 1 (fun _ _ => t)) 2 = Ok (@mkMet (ROps jk) acc bal conf norm) /\ acc = 100.
Proof.
  intros jk. destruct (met_real jk (metNew _) 1 2 (fun _ => 1%nat) (fun _ => INR 7)) as (acc & bal & norm & E & A & _); [reflexivity|lia|lia|].
  exists 1%nat, (INR 7), acc, bal. eexists. eexists. split; [intros K; apply INR_eq in K; discriminate|]. split; [simpl; lra|]. split; [lia|]. split; [exact E|].
  rewrite A. unfold labelOf. rewrite Rround_INR, Rtrunc_INR. change (clampLabel 2 (Z.of_nat 7)) with 1%nat. simpl. lra.
Qed.

(* in floats a class without samples makes the normalised matrix and the balanced accuracy NaN *)
Definition lm0 (f : libm) (x : b32) : b32 := x.
Lemma met_absent_refuted : forall pw jk, exists (ref test : nat -> nat -> b32) m,
  metCompute (B32Ops lm0 pw jk) (metNew _) (mgen 2 1 ref) (mgen 2 1 test) 3 = Ok m /\
  (forall i, (i < 2)%nat -> ref i 0%nat = test i 0%nat) /\ b32_isnan (mBal m) = true.
Proof.
  intros pw jk. exists (fun i _ => b32_of_Z (2 * Z.of_nat i)), (fun i _ => b32_of_Z (2 * Z.of_nat i)).
  destruct (@met_counts (B32Ops lm0 pw jk) (metNew _) 2 1 3 (fun i _ => b32_of_Z (2 * Z.of_nat i)) (fun i _ => b32_of_Z (2 * Z.of_nat i)) (fun i => (2 * i)%nat) (fun i => (2 * Z.of_nat i)%Z)) as (acc & bal & norm & E & A & B & C).
  - reflexivity. - lia. - lia.
  - intros i Hi. destruct i as [|[|i]]; [split; [vm_compute; reflexivity|lia]..|lia].
  - intros i Hi. destruct i as [|[|i]]; [vm_compute; reflexivity..|lia].
  - eexists. split; [exact E|]. split; [auto|]. cbn [mBal]. rewrite C. unfold fsum. cbn [seq fold_left]. rewrite !B. vm_compute. reflexivity.
Qed.

(* float counts: exact up to 2^24 samples per cell, stuck beyond *)
Lemma met_float_counts : forall lm pw jk m N c nb (ref test : nat -> nat -> b32) (r : nat -> nat) (z : nat -> Z),
  mwf (mConf m) -> (0 < nb)%nat -> (0 < c)%nat ->
  (forall i, (i < N)%nat -> b32_toZ (ref (i / c) (i mod c))%nat = Some (Z.of_nat (r i)) /\ (r i < nb)%nat) ->
  (forall i, (i < N)%nat -> b32_toZ (lm Lround (test (i / c) (i mod c))%nat) = Some (z i)) ->
  exists acc bal norm, metCompute (B32Ops lm pw jk) m (mgen N c ref) (mgen N c test) nb =
   Ok (@mkMet (B32Ops lm pw jk) acc bal (mgen nb nb (fun a b => b32_of_Z (Z.min (Z.of_nat (count N (fun i => (r i =? a)%nat && (clampLabel nb (z i) =? b)%nat))) (2 ^ 24)))) norm).
Proof.
  intros lm pw jk m N c nb ref test r z W Hnb Hc Hr Hz.
  destruct (@met_counts (B32Ops lm pw jk) m N c nb ref test r z W Hnb Hc Hr Hz) as (acc & bal & norm & E & _).
  exists acc, bal. eexists. eapply eq_trans; [exact E|]. apply Ok_eq. f_equal. apply mgen_ext. intros a b _ _. set (k := count _ _).
  unfold tally, addOne. cbn [B32Ops fadd f0 f1 T]. destruct (Z_le_gt_dec (Z.of_nat k) (2 ^ 24)).
  - rewrite Z.min_l by auto. apply b32_count; auto.
  - rewrite Z.min_r by lia. apply b32_count_stuck. lia.
Qed.
