(* ScalerProofs.v - closed forms and properties of the two scalers *)
From Coq Require Import List Arith Lia Bool ZArith Reals Lra.
From Flocq Require Import IEEE754.BinarySingleNaN.
From Verif Require Import Base Scalar B32Facts Mat SpecMat SpecReal RSum SpecData MatFacts MatProofs MatLoops MatProofs2 Scaler.
Import ListNotations.
Local Open Scope nat_scope.

(* two one-row matrices filled together, column by column *)
Lemma pair_rows : forall A B S (mk : mat A -> mat B -> S) k (body : nat -> S -> res S) (h : nat -> A -> B -> A * B) p q,
  (forall j p q, j < k -> body j (mk (mgen 1 k (fun _ => p)) (mgen 1 k (fun _ => q))) =
     Ok (mk (mgen 1 k (fun _ => fupd p j (fst (h j (p j) (q j))))) (mgen 1 k (fun _ => fupd q j (snd (h j (p j) (q j))))))) ->
  forN k body (mk (mgen 1 k (fun _ => p)) (mgen 1 k (fun _ => q))) =
  Ok (mk (mgen 1 k (fun _ j => fst (h j (p j) (q j)))) (mgen 1 k (fun _ j => snd (h j (p j) (q j))))).
Proof.
  intros A B S mk k body h p q H.
  pose (emb := fun d : nat -> A * B => mk (mgen 1 k (fun _ j => fst (d j))) (mgen 1 k (fun _ j => snd (d j)))).
  assert (E : forN k body (emb (fun j => (p j, q j))) = Ok (emb (fold_left (fun d j => fupd d j (h j (fst (d j)) (snd (d j)))) (seq 0 k) (fun j => (p j, q j))))).
  { apply (forN_sim emb (n := k)) with (step := (fun j d => fupd d j (h j (fst (d j)) (snd (d j))))).
    intros j d Hj. unfold emb at 1.
    rewrite (H j (fun j => fst (d j)) (fun j => snd (d j)) Hj). unfold emb. apply Ok_eq. f_equal; apply mgen_ext; intros i b _ _; unfold fupd; destruct (j =? b); auto. }
  unfold emb in E at 1. simpl in E.
  eapply eq_trans; [exact E|]. unfold emb. apply Ok_eq. f_equal; apply mgen_ext; intros i j Hi Hj;
  rewrite (@fold_point nat (A * B) nat (fun x d => fupd d x (h x (fst (d x)) (snd (d x)))) (fun x v => if x =? j then h x (fst v) (snd v) else v));
  try (intros x d _; unfold fupd; destruct (Nat.eqb_spec x j); subst; auto);
  rewrite (fold_hit0 (fun x v => h x (fst v) (snd v))) by auto; reflexivity.
Qed.

Definition colMin (F : FOps) n (a : nat -> nat -> F) j := fold_left (fun v i => stdmin F v (a i j)) (seq 0 n) (a 0 j).
Definition colMax (F : FOps) n (a : nat -> nat -> F) j := fold_left (fun v i => stdmax F v (a i j)) (seq 0 n) (a 0 j).

Lemma mmFit_gen : forall (F : FOps) n k a, 0 < n -> mmFit F (mgen n k a) =
  Ok (mkMM (mgen 1 k (fun _ j => if feq F (colMin F n a j) (colMax F n a j) then f0 F else colMin F n a j))
           (mgen 1 k (fun _ j => if feq F (colMin F n a j) (colMax F n a j) then f1 F else colMax F n a j))).
Proof.
  intros F n k a Hn. unfold mmFit, colWiseMin, colWiseMax. rewrite !colWiseSel_gen by auto. cbn [bind].
  change (mcols (mgen n k a)) with k.
  etransitivity.
  - apply (@pair_rows F F (mmScaler F) mkMM k _ (fun _ x y => if feq F x y then (f0 F, f1 F) else (x, y))
             (fun j => colMin F n a j) (fun j => colMax F n a j)).
    intros j p q Hj. cbn [mmMin mmMax]. rewrite !mget1_row by auto. cbn [bind].
    destruct (feq F (p j) (q j)).
    + rewrite !mset1_row by auto. cbn [bind]. apply Ok_eq. f_equal; apply mgen_ext; intros i b Hi Hb; unfold upd2, fupd;
      replace i with 0 by lia; cbn [Nat.eqb andb fst snd]; rewrite (Nat.eqb_sym j b); reflexivity.
    + apply Ok_eq. f_equal; apply mgen_ext; intros i b Hi Hb; unfold fupd; cbn [fst snd]; destruct (Nat.eqb_spec j b); subst; auto.
  - apply Ok_eq. f_equal; apply mgen_ext; intros i j _ _; destruct (feq F (colMin F n a j) (colMax F n a j)); reflexivity.
Qed.

Lemma mmTransform_gen : forall (F : FOps) n k lo hi x, mmTransform F (mkMM (mgen 1 k lo) (mgen 1 k hi)) (mgen n k x) =
  Ok (mgen n k (fun i j => fdiv F (fsub F (x i j) (lo 0 j)) (fsub F (hi 0 j) (lo 0 j)))).
Proof.
  intros. unfold mmTransform. change (mrows (mgen n k x)) with n.
  rewrite (@forN_sim _ _ (mgen n k)) with (step := fun i p => fold_left (fun (q : nat -> nat -> F) j => upd2 q i j (fdiv F (fsub F (q i j) (lo 0 j)) (fsub F (hi 0 j) (lo 0 j)))) (seq 0 k) p).
  2:{ intros i p Hi. change (mcols (mgen n k p)) with k. apply (forN_sim (mgen n k)). intros j q Hj.
      rewrite mget2_gen by auto. cbn [bind mmMin mmMax]. rewrite !mget1_row by auto. cbn [bind]. rewrite mset2_gen by auto. reflexivity. }
  apply Ok_eq, mgen_ext. intros i j Hi Hj. rewrite (@fill_point2 F (fun i j x => fdiv F (fsub F x (lo 0 j)) (fsub F (hi 0 j) (lo 0 j)))) by auto. reflexivity.
Qed.

Lemma mm_ready : forall (F : FOps) n k a n' x, 0 < n -> exists s y,
  mmFit F (mgen n k a) = Ok s /\ mmTransform F s (mgen n' k x) = Ok (mgen n' k y).
Proof. intros. eexists. eexists. split; [apply mmFit_gen; auto|]. apply mmTransform_gen. Qed.

Lemma mm_wrong_width : forall (F : FOps) n k lo hi x n', 0 < n' -> k < n ->
  mmTransform F (mkMM (mgen 1 k lo) (mgen 1 k hi)) (mgen n' n x) = Err EAssert.
Proof.
  intros F n k lo hi x n' Hn Hk. unfold mmTransform. change (mrows (mgen n' n x)) with n'. destruct n' as [|n']; [lia|].
  unfold forN at 1. simpl seq. simpl forL at 1. change (mcols (mgen (S n') n x)) with n.
  assert (E : forN n (fun j m => x <- mget2 m 0 j ;; a <- mget1 (mgen 1 k lo) j ;; b <- mget1 (mgen 1 k hi) j ;;
     a' <- mget1 (mgen 1 k lo) j ;; mset2 m 0 j (fdiv F (fsub F x a) (fsub F b a'))) (mgen (S n') n x) = Err EAssert).
  { unfold forN. replace n with (k + S (n - k - 1)) at 1 by lia. rewrite seq_app. simpl Nat.add. rewrite forL_app.
    rewrite (@forL_sim nat _ _ (mgen (S n') n)) with (step := fun j q => upd2 q 0 j (fdiv F (fsub F (q 0 j) (lo 0 j)) (fsub F (hi 0 j) (lo 0 j)))).
    2:{ intros j q Hj. apply in_seq in Hj. rewrite mget2_gen by lia. cbn [bind]. rewrite !mget1_row by lia. cbn [bind]. rewrite mset2_gen by lia. reflexivity. }
    cbn [bind]. simpl seq. cbn [forL]. rewrite mget2_gen by lia. cbn [bind].
    unfold mget1 at 1. unfold msize. simpl mrows. simpl mcols. replace (k <? 1 * k) with false by (symmetry; apply Nat.ltb_ge; lia). reflexivity. }
  cbn [mmMin mmMax]. rewrite E. reflexivity.
Qed.

(** * over the reals *)
Local Open Scope R_scope.
Lemma Reqb_iff : forall x y, Reqb x y = true <-> x = y.
Proof. intros. unfold Reqb. destruct (Req_EM_T x y); split; intros; auto; discriminate. Qed.

Lemma mm_real : forall jk n k (a : nat -> nat -> R), (0 < n)%nat -> exists s lo hi,
  mmFit (ROps jk) (mgen n k a) = Ok s /\
  (forall j, (j < k)%nat -> (forall i, (i < n)%nat -> lo j <= a i j <= hi j) /\
                            (exists i, (i < n)%nat /\ a i j = lo j) /\ (exists i, (i < n)%nat /\ a i j = hi j)) /\
  (forall n' x, exists y : nat -> nat -> R, mmTransform (ROps jk) s (mgen n' k x) = Ok (mgen n' k y) /\
     forall i j, (i < n')%nat -> (j < k)%nat ->
       (lo j < hi j -> y i j = (x i j - lo j) / (hi j - lo j)) /\ (lo j = hi j -> y i j = x i j)).
Proof.
  intros jk n k a Hn. exists (@mkMM (ROps jk) (mgen 1 k (fun _ j => if Reqb (colMin (ROps jk) n a j) (colMax (ROps jk) n a j) then 0 else colMin (ROps jk) n a j))
           (mgen 1 k (fun _ j => if Reqb (colMin (ROps jk) n a j) (colMax (ROps jk) n a j) then 1 else colMax (ROps jk) n a j))).
  exists (colMin (ROps jk) n a), (colMax (ROps jk) n a). split; [apply (mmFit_gen (ROps jk) n k a Hn)|]. split.
  - intros j Hj. destruct (fold_min_R jk n (fun i => a i j) Hn) as (m1 & i1 & I1 & E1).
    destruct (fold_max_R jk n (fun i => a i j) Hn) as (m2 & i2 & I2 & E2).
    split; [intros i Hi; split; [apply m1|apply m2]; auto|]. split; [exists i1|exists i2]; split; auto.
  - intros n' x. eexists. split; [apply mmTransform_gen|]. intros i j Hi Hj. cbv beta. cbn [ROps fdiv fsub T].
    set (u := colMin (ROps jk) n a j). set (v := colMax (ROps jk) n a j). unfold Reqb. destruct (Req_EM_T u v) as [E|E]; split; intros H.
    + simpl in *. lra.
    + field.
    + reflexivity.
    + simpl in *. lra.
Qed.

Lemma mm_range : forall jk n k (a : nat -> nat -> R), (0 < n)%nat -> exists s (y : nat -> nat -> R),
  mmFit (ROps jk) (mgen n k a) = Ok s /\ mmTransform (ROps jk) s (mgen n k a) = Ok (mgen n k y) /\
  forall j, (j < k)%nat -> (exists i i', (i < n)%nat /\ (i' < n)%nat /\ a i j <> a i' j) ->
    (forall i, (i < n)%nat -> 0 <= y i j <= 1) /\
    (forall i, (i < n)%nat -> (forall i', (i' < n)%nat -> a i j <= a i' j) -> y i j = 0) /\
    (forall i, (i < n)%nat -> (forall i', (i' < n)%nat -> a i' j <= a i j) -> y i j = 1).
Proof.
  intros jk n k a Hn. destruct (mm_real jk n k a Hn) as (s & lo & hi & E & HB & HT). destruct (HT n a) as (y & EY & HY).
  exists s, y. split; [exact E|]. split; [exact EY|]. intros j Hj (i1 & i2 & I1 & I2 & Hne).
  destruct (HB j Hj) as (B & (il & Il & El) & (ih & Ih & Eh)).
  assert (L : lo j < hi j). { pose proof (B i1 I1). pose proof (B i2 I2). destruct (Rtotal_order (a i1 j) (a i2 j)) as [|[|]]; lra. }
  assert (D : / (hi j - lo j) > 0) by (apply Rinv_0_lt_compat; lra).
  split; [|split].
  - intros i Hi. rewrite (proj1 (HY i j Hi Hj) L). pose proof (B i Hi). split.
    + apply Rmult_le_pos; lra.
    + apply (Rmult_le_reg_r (hi j - lo j)); [lra|]. unfold Rdiv. rewrite Rmult_assoc, Rinv_l by lra. lra.
  - intros i Hi Hm. rewrite (proj1 (HY i j Hi Hj) L). pose proof (B i Hi). pose proof (Hm il Il). replace (a i j) with (lo j) by lra. unfold Rdiv. ring.
  - intros i Hi Hm. rewrite (proj1 (HY i j Hi Hj) L). pose proof (B i Hi). pose proof (Hm ih Ih). replace (a i j) with (hi j) by lra. field. lra.
Qed.

Lemma mm_order : forall jk n k (a : nat -> nat -> R) n' x, (0 < n)%nat -> exists s (y : nat -> nat -> R),
  mmFit (ROps jk) (mgen n k a) = Ok s /\ mmTransform (ROps jk) s (mgen n' k x) = Ok (mgen n' k y) /\
  forall i i' j, (i < n')%nat -> (i' < n')%nat -> (j < k)%nat -> (x i j < x i' j <-> y i j < y i' j).
Proof.
  intros jk n k a n' x Hn. destruct (mm_real jk n k a Hn) as (s & lo & hi & E & HB & HT). destruct (HT n' x) as (y & EY & HY).
  exists s, y. split; [exact E|]. split; [exact EY|]. intros i i' j Hi Hi' Hj.
  destruct (HB j Hj) as (B & (il & Il & El) & _). pose proof (B il Il).
  destruct (Req_dec (lo j) (hi j)) as [Eq|Ne].
  - rewrite (proj2 (HY i j Hi Hj) Eq), (proj2 (HY i' j Hi' Hj) Eq). tauto.
  - assert (L : lo j < hi j) by lra. rewrite (proj1 (HY i j Hi Hj) L), (proj1 (HY i' j Hi' Hj) L).
    assert (D : / (hi j - lo j) > 0) by (apply Rinv_0_lt_compat; lra). split; intros H'.
    + apply Rmult_lt_compat_r; lra.
    + apply (Rmult_lt_reg_r (/ (hi j - lo j))) in H'; lra.
Qed.

(* a constant column is left as it is, wherever it lies *)
Lemma mm_constant : forall jk n k (a : nat -> nat -> R), (0 < n)%nat -> exists s (y : nat -> nat -> R),
  mmFit (ROps jk) (mgen n k a) = Ok s /\ mmTransform (ROps jk) s (mgen n k a) = Ok (mgen n k y) /\
  forall j, (j < k)%nat -> (forall i i', (i < n)%nat -> (i' < n)%nat -> a i j = a i' j) -> forall i, (i < n)%nat -> y i j = a i j.
Proof.
  intros jk n k a Hn. destruct (mm_real jk n k a Hn) as (s & lo & hi & E & HB & HT). destruct (HT n a) as (y & EY & HY).
  exists s, y. split; [exact E|]. split; [exact EY|]. intros j Hj Hc i Hi.
  destruct (HB j Hj) as (B & (il & Il & El) & (ih & Ih & Eh)). apply (HY i j Hi Hj). rewrite <- El, <- Eh. auto.
Qed.

Lemma mm_refuted : forall jk, exists (a : nat -> nat -> R) s (y : nat -> nat -> R),
  mmFit (ROps jk) (mgen 2 1 a) = Ok s /\ mmTransform (ROps jk) s (mgen 2 1 a) = Ok (mgen 2 1 y) /\ ~ (0 <= y 0%nat 0%nat <= 1).
Proof.
  intros jk. exists (fun _ _ => 5). destruct (mm_constant jk 2 1 (fun _ _ => 5)) as (s & y & E & T & H); [lia|].
  exists s, y. split; [exact E|]. split; [exact T|]. rewrite (H 0%nat); [lra|lia| |lia]. intros; reflexivity.
Qed.

(* single precision: the range of finite data can overflow, and the maximum is then mapped to NaN *)
Lemma mm_float_refuted : forall lm pw jk, exists (a : nat -> nat -> b32) s (y : nat -> nat -> b32),
  (forall i, is_finite (a i 0%nat) = true) /\
  mmFit (B32Ops lm pw jk) (mgen 2 1 a) = Ok s /\ mmTransform (B32Ops lm pw jk) s (mgen 2 1 a) = Ok (mgen 2 1 y) /\ b32_isnan (y 1%nat 0%nat) = true.
Proof.
  intros lm pw jk. exists (fun i _ => if Nat.eqb i 0 then b32_of_Z (- 2 ^ 127) else b32_of_Z (2 ^ 127)).
  eexists. eexists. split; [|split; [|split]].
  - intros i. destruct (Nat.eqb i 0); vm_compute; reflexivity.
  - apply mmFit_gen. lia.
  - apply mmTransform_gen.
  - vm_compute. reflexivity.
Qed.

(** * standard scaler *)
Lemma mresize_row : forall (F : FOps) m k, mwf m -> exists p, mresize F m 1 k = mgen 1 k (fun _ => p).
Proof.
  intros F m k H. destruct (mresize_gen F m 1 k H) as (f & E). exists (f 0%nat). rewrite E. apply mgen_ext.
  intros i j Hi _. replace i with 0%nat by lia. reflexivity.
Qed.

Lemma stdFit_gen : forall (F : FOps) s n k a, mwf (stMean s) -> mwf (stStd s) ->
  stdFit F s (mgen n k a) =
  let N := fofN F n in let S j := fsum F n (fun i => a i j) in let Q j := fsum F n (fun i => fmul F (a i j) (a i j)) in
  let var j := fsub F (fdiv F (Q j) N) (fdiv F (fmul F (S j) (S j)) (fmul F N N)) in
  Ok (mkStd (mgen 1 k (fun _ j => fdiv F (S j) N)) (mgen 1 k (fun _ j => if negb (feq F (var j) (f0 F)) then flm F Lsqrt (var j) else f1 F))).
Proof.
  intros F s n k a W1 W2. cbv zeta. unfold stdFit, colWiseSum, colWiseSumSq. rewrite !colWise_gen. cbn [bind].
  change (mcols (mgen n k a)) with k. change (mrows (mgen n k a)) with n.
  destruct (mresize_row F (stMean s) k W1) as (p & Ep). destruct (mresize_row F (stStd s) k W2) as (q & Eq). rewrite Ep, Eq.
  eapply eq_trans.
  - apply (@pair_rows F F (stdScaler F) mkStd k _ (fun j _ _ =>
      (fdiv F (fsum F n (fun i => a i j)) (fofN F n),
       if negb (feq F (fsub F (fdiv F (fsum F n (fun i => fmul F (a i j) (a i j))) (fofN F n)) (fdiv F (fmul F (fsum F n (fun i => a i j)) (fsum F n (fun i => a i j))) (fmul F (fofN F n) (fofN F n)))) (f0 F))
       then flm F Lsqrt (fsub F (fdiv F (fsum F n (fun i => fmul F (a i j) (a i j))) (fofN F n)) (fdiv F (fmul F (fsum F n (fun i => a i j)) (fsum F n (fun i => a i j))) (fmul F (fofN F n) (fofN F n)))) else f1 F)) p q).
    intros j p' q' Hj. cbn [stMean stStd]. rewrite !mget1_row by auto. cbn [bind]. rewrite !mset1_row by auto. cbn [bind].
    apply Ok_eq. f_equal; apply mgen_ext; intros i b Hi Hb; unfold upd2, fupd;
    replace i with 0%nat by lia; cbn [Nat.eqb andb fst snd]; rewrite (Nat.eqb_sym j b); reflexivity.
  - reflexivity.
Qed.

Lemma stdTransform_gen : forall (F : FOps) n k me sd x, stdTransform F (mkStd (mgen 1 k me) (mgen 1 k sd)) (mgen n k x) =
  Ok (mgen n k (fun i j => fdiv F (fsub F (x i j) (me 0 j)%nat) (sd 0 j)%nat)).
Proof.
  intros. unfold stdTransform. change (mrows (mgen n k x)) with n.
  rewrite (@forN_sim _ _ (mgen n k)) with (step := fun i p => fold_left (fun (q : nat -> nat -> F) j => upd2 q i j (fdiv F (fsub F (q i j) (me 0 j)%nat) (sd 0 j)%nat)) (seq 0 k) p).
  2:{ intros i p Hi. change (mcols (mgen n k p)) with k. apply (forN_sim (mgen n k)). intros j q Hj.
      rewrite mget2_gen by auto. cbn [bind stMean stStd]. rewrite !mget2_gen by (auto; lia). cbn [bind]. rewrite mset2_gen by auto. reflexivity. }
  apply Ok_eq, mgen_ext. intros i j Hi Hj. rewrite (@fill_point2 F (fun i j x => fdiv F (fsub F x (me 0 j)%nat) (sd 0 j)%nat)) by auto. reflexivity.
Qed.

Lemma variance_alt : forall n f, (0 < n)%nat ->
  variance n f = rsum n (fun i => f i * f i) / INR n - rsum n f * rsum n f / (INR n * INR n).
Proof.
  intros n f Hn. assert (N : INR n <> 0) by (apply not_0_INR; lia). unfold variance.
  set (m := mean n f).
  rewrite (rsum_ext n _ (fun i => (f i * f i - (2 * m) * f i) + m * m)) by (intros; ring).
  rewrite rsum_plus, rsum_minus, rsum_scal, rsum_const. unfold m, mean. field. auto.
Qed.

Lemma variance_nonneg : forall n f, (0 < n)%nat -> 0 <= variance n f.
Proof.
  intros n f Hn. unfold variance. apply Rmult_le_pos. apply rsum_nonneg; intros; apply Rle_0_sqr.
  left. apply Rinv_0_lt_compat. apply lt_0_INR; auto.
Qed.

Lemma variance_zero : forall n f, (0 < n)%nat -> variance n f = 0 -> forall i, (i < n)%nat -> f i = mean n f.
Proof.
  intros n f Hn H i Hi. assert (N : INR n <> 0) by (apply not_0_INR; lia). unfold variance in H.
  assert (Z : rsum n (fun i => (f i - mean n f) * (f i - mean n f)) = 0).
  { replace (rsum n _) with (rsum n (fun i => (f i - mean n f) * (f i - mean n f)) / INR n * INR n) by (field; auto). rewrite H. ring. }
  pose proof (rsum_zero_inv n _ (fun i _ => Rle_0_sqr (f i - mean n f)) Z i Hi) as K. apply Rsqr_0_uniq in K. lra.
Qed.

Lemma variance_const : forall n f, (0 < n)%nat -> (forall i i', (i < n)%nat -> (i' < n)%nat -> f i = f i') -> variance n f = 0 /\ mean n f = f 0%nat.
Proof.
  intros n f Hn H. assert (N : INR n <> 0) by (apply not_0_INR; lia).
  assert (M : mean n f = f 0%nat). { unfold mean. rewrite (rsum_ext n f (fun _ => f 0%nat)) by (intros; apply H; auto). rewrite rsum_const. field. auto. }
  split; auto. unfold variance. rewrite M, rsum_zero; [field; auto|]. intros i Hi. rewrite (H i 0%nat) by auto. ring.
Qed.

Lemma std_real : forall jk s n k (a : nat -> nat -> R), (0 < n)%nat -> mwf (stMean s) -> mwf (stStd s) -> exists s' (d : nat -> R),
  stdFit (ROps jk) s (mgen n k a) = Ok s' /\
  (forall j, d j = if Req_EM_T (variance n (fun i => a i j)) 0 then 1 else sqrt (variance n (fun i => a i j))) /\
  forall n' (x : nat -> nat -> R), stdTransform (ROps jk) s' (mgen n' k x) = Ok (mgen n' k (fun i j => (x i j - mean n (fun i => a i j)) / d j)).
Proof.
  intros jk s n k a Hn W1 W2.
  exists (@mkStd (ROps jk) (mgen 1 k (fun _ j => mean n (fun i => a i j))) (mgen 1 k (fun _ j => if Req_EM_T (variance n (fun i => a i j)) 0 then 1 else sqrt (variance n (fun i => a i j))))).
  eexists. split; [|split; [intros; reflexivity|intros; apply stdTransform_gen]].
  eapply eq_trans; [apply stdFit_gen; auto|]. cbv zeta. apply Ok_eq. f_equal; apply mgen_ext; intros i j _ _.
  - rewrite fsum_R, fofN_R. reflexivity.
  - rewrite !fsum_R, fofN_R. cbn [ROps feq fsub fdiv fmul f0 f1 flm T]. rewrite <- (variance_alt n (fun i => a i j) Hn).
    unfold Reqb. destruct (Req_EM_T (variance n (fun i => a i j)) 0); reflexivity.
Qed.

Lemma std_normalises : forall jk s n k (a : nat -> nat -> R), (0 < n)%nat -> mwf (stMean s) -> mwf (stStd s) -> exists s' (y : nat -> nat -> R),
  stdFit (ROps jk) s (mgen n k a) = Ok s' /\ stdTransform (ROps jk) s' (mgen n k a) = Ok (mgen n k y) /\
  forall j, (j < k)%nat ->
    mean n (fun i => y i j) = 0 /\
    ((exists i i', (i < n)%nat /\ (i' < n)%nat /\ a i j <> a i' j) -> variance n (fun i => y i j) = 1) /\
    ((forall i i', (i < n)%nat -> (i' < n)%nat -> a i j = a i' j) -> forall i, (i < n)%nat -> y i j = 0).
Proof.
  intros jk s n k a Hn W1 W2. destruct (std_real jk s n k a Hn W1 W2) as (s' & d & E & D & HT).
  exists s', (fun i j => (a i j - mean n (fun i => a i j)) / d j). split; [exact E|]. split; [apply HT|].
  intros j Hj. assert (N : INR n <> 0) by (apply not_0_INR; lia). set (v := variance n (fun i => a i j)) in *. set (m := mean n (fun i => a i j)) in *.
  assert (DN : d j <> 0). { rewrite D. destruct (Req_EM_T (variance n (fun i => a i j)) 0) as [e|e]; [lra|]. intros K. apply sqrt_eq_0 in K; [fold v in e; fold v in K; lra|]. apply variance_nonneg; auto. }
  assert (MZ : mean n (fun i => (a i j - m) / d j) = 0).
  { unfold mean at 1. rewrite rsum_div, rsum_minus, rsum_const. unfold m, mean. field. auto. }
  split; [exact MZ|]. split.
  - intros (i1 & i2 & I1 & I2 & Hne). unfold variance. rewrite MZ.
    rewrite (rsum_ext n _ (fun i => (a i j - m) * (a i j - m) / (d j * d j))) by (intros; field; auto).
    rewrite rsum_div. rewrite D. destruct (Req_EM_T (variance n (fun i => a i j)) 0) as [e|e].
    + exfalso. apply Hne. rewrite (variance_zero n (fun i => a i j) Hn e i1 I1), (variance_zero n (fun i => a i j) Hn e i2 I2). reflexivity.
    + rewrite sqrt_sqrt by (apply variance_nonneg; auto). unfold variance at 1. fold m.
      assert (e' : rsum n (fun i => (a i j - m) * (a i j - m)) <> 0).
      { intros K. apply e. unfold variance. fold m. rewrite K. field. auto. }
      field. auto.
  - intros Hc i Hi. destruct (variance_const n (fun i => a i j) Hn Hc) as (_ & M). fold m in M. rewrite M, (Hc i 0%nat) by auto. field. auto.
Qed.

(* Single precision: the variance of a constant column can come out negative, its square root is NaN.
   Here the column holds 1833 five times. *)
Lemma std_float_refuted : forall lm pw jk, exists (a : nat -> nat -> b32) s (y : nat -> nat -> b32),
  (forall i, a i 0%nat = b32_of_Z 1833) /\
  stdFit (B32Ops lm pw jk) (stdNew _) (mgen 5 1 a) = Ok s /\ stdTransform (B32Ops lm pw jk) s (mgen 5 1 a) = Ok (mgen 5 1 y) /\
  forall i, (i < 5)%nat -> b32_isnan (y i 0%nat) = true.
Proof.
  intros lm pw jk. exists (fun _ _ => b32_of_Z 1833). eexists. eexists. split; [reflexivity|]. split; [|split].
  - apply stdFit_gen; reflexivity.
  - apply stdTransform_gen.
  - intros i Hi. vm_compute. reflexivity.
Qed.

(* without samples the mean is 0/0 *)
Lemma std_empty_refuted : forall lm pw jk (a : nat -> nat -> b32), exists s, stdFit (B32Ops lm pw jk) (stdNew _) (mgen 0 1 a) = Ok s /\
  match mget1 (stMean s) 0 with Ok v => b32_isnan v | Err _ => false end = true.
Proof.
  intros lm pw jk a. eexists. split; [apply stdFit_gen; reflexivity|]. vm_compute. reflexivity.
Qed.
