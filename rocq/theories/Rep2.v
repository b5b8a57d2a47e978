(* Rep2.v - losses and statistics of a batch in which each sample occurs r times *)
From Coq Require Import String List Arith Bool Lia ZArith Permutation.
From Verif Require Import Base Scalar Mat SpecMat MatFacts MatProofs MatLoops Loss Optim Regul LayMat Layer Net NetTrain LayKit LayProofs1 LossProofs SoftProofs2 OptProofs SpecOpt NetProofs1 NetProofs2
  SpecFit FitLay1 FitLay2 FitLay3 FitNet1 FitNet2 SpecRepeat Order1 Order2 Rep1.
Import ListNotations.
Local Open Scope nat_scope.

Section Any.
Variable F : FOps.
Notation M := (mat F).
Notation cabs := (absFloat F).
Variables (r : nat) (s : nat -> nat) (phi : bool -> F -> F).
Notation rel := (rel F r s).
Notation clsOf := (clsOf F).
Hypothesis HD : repDiv F r.
(* the recorded training loss: phi true for losses that are sums over the samples, phi false for means *)
Definition phiMean : Prop := forall n a, 0 < n -> fdiv F (fadd F (f0 F) a) (fofN F (r * n)) = phi false (fdiv F (fadd F (f0 F) a) (fofN F n)).
Definition phiSum : Prop := forall n m s (f : nat -> nat -> F), 0 < n -> times r n s ->
  fdiv F (fadd F (f0 F) (fdiv F (fsum F m (fun q => fsum F (r * n) (fun i => f (s i) q))) (fofN F m))) (fofN F (r * n)) = phi true (fdiv F (fadd F (f0 F) (fdiv F (fsum F m (fun q => fsum F n (fun i => f i q))) (fofN F m))) (fofN F n)).
Hypothesis HP1 : phiMean.
Hypothesis HP2 : phiSum.

Ltac dm := repeat match goal with |- context [mrows (mgen ?r ?c ?f)] => change (mrows (mgen r c f)) with r | |- context [mcols (mgen ?r ?c ?f)] => change (mcols (mgen r c f)) with c | |- context [msize (mgen ?r ?c ?f)] => change (msize (mgen r c f)) with (r * c) end.

Lemma gradient_rel : forall k b n m q o o' y y' out out', times r n s -> bon F b = false -> rel n m o o' -> rel n q y y' -> truthOk k m y -> mwf out -> mwf out' ->
  exists g g', compute_gradient F k b o y out = Ok g /\ compute_gradient F k b o' y' out' = Ok g' /\ rel n m g g'.
Proof.
  intros k b n m q o o' y y' out out' R Hb (O & -> & ->) (Y & -> & ->) Ty Wo Wo'.
  assert (Reg : q = m -> exists g g', (assert_ (mcols (mgen n q Y) =? mcols (mgen n m O));;; assert_ (mrows (mgen n q Y) =? mrows (mgen n m O));;; (d <- msubM F (mgen n m O) (mgen n q Y) ;; g <- mapLoop (regGrad F k (mcols (mgen n m O))) d ;; balanceIf F b (mgen n q Y) g)) = Ok g /\
     (assert_ (mcols (mgen (r * n) q (fun i => Y (s i))) =? mcols (mgen (r * n) m (fun i => O (s i))));;; assert_ (mrows (mgen (r * n) q (fun i => Y (s i))) =? mrows (mgen (r * n) m (fun i => O (s i))));;;
       (d <- msubM F (mgen (r * n) m (fun i => O (s i))) (mgen (r * n) q (fun i => Y (s i))) ;; g <- mapLoop (regGrad F k (mcols (mgen (r * n) m (fun i => O (s i))))) d ;; balanceIf F b (mgen (r * n) q (fun i => Y (s i))) g)) = Ok g' /\ rel n m g g').
  { intros ->. dm. rewrite !Nat.eqb_refl. cbn [assert_ bind]. rewrite !msubM_gen. cbn [bind]. rewrite !(@mapLoop_gen F). cbn [bind]. unfold balanceIf. rewrite Hb. do 2 eexists. split; [reflexivity|]. split; [reflexivity|]. eexists. split; reflexivity. }
  destruct k; try (apply Reg; exact Ty); clear Reg.
  - simpl in Ty. change (mcols (mgen n q Y)) with q in Ty. subst q. rewrite !cceg_F by auto. do 2 eexists. split; [reflexivity|]. split; [reflexivity|]. eexists. split; reflexivity.
  - pose proof Ty as [Cy _]. change (mcols (mgen n q Y)) with q in Cy. subst q. pose proof (sparse_cls F n m Y Ty) as C.
    rewrite (sceg_F F cabs b n m O Y (clsOf Y)) by auto. rewrite (sceg_F F cabs b (r * n) m (fun i => O (s i)) (fun i => Y (s i)) (fun i => clsOf Y (s i))).
    2:{ intros i Hi. apply C. apply R. auto. }
    do 2 eexists. split; [reflexivity|]. split; [reflexivity|]. eexists. split; reflexivity.
  - destruct Ty as [Cy Hm]. change (mcols (mgen n q Y)) with q in Cy. subst q m. rewrite !bceg_F by auto. do 2 eexists. split; [reflexivity|]. split; [reflexivity|]. eexists. split; reflexivity.
Qed.
Lemma loss_rel : forall k b n m q o o' y y' out out', 0 < n -> times r n s -> bon F b = false -> rel n m o o' -> rel n q y y' -> truthOk k m y -> mwf out -> mwf out' ->
  exists l l' x x', compute F cabs k b o y out = Ok l /\ compute F cabs k b o' y' out' = Ok l' /\ mmean F l = Ok x /\ mmean F l' = Ok x' /\
    fdiv F (fadd F (f0 F) x') (fofN F (r * n)) = phi (sumLoss k) (fdiv F (fadd F (f0 F) x) (fofN F n)).
Proof.
  intros k b n m q o o' y y' out out' Pn R Hb (O & -> & ->) (Y & -> & ->) Ty Wo Wo'.
  assert (Reg : q = m -> k <> LCategoricalCrossEntropy -> k <> LSparseCategoricalCrossEntropy -> k <> LBinaryCrossEntropy ->
     exists l l' x x', (assert_ (mcols (mgen n q Y) =? mcols (mgen n m O));;; assert_ (mrows (mgen n q Y) =? mrows (mgen n m O));;; (d <- msubM F (mgen n m O) (mgen n q Y) ;; e <- mapLoopR F (regElem F cabs k) d ;; l <- regReduce F k e ;; balanceIf F b (mgen n q Y) l)) = Ok l /\
     (assert_ (mcols (mgen (r * n) q (fun i => Y (s i))) =? mcols (mgen (r * n) m (fun i => O (s i))));;; assert_ (mrows (mgen (r * n) q (fun i => Y (s i))) =? mrows (mgen (r * n) m (fun i => O (s i))));;;
       (d <- msubM F (mgen (r * n) m (fun i => O (s i))) (mgen (r * n) q (fun i => Y (s i))) ;; e <- mapLoopR F (regElem F cabs k) d ;; l <- regReduce F k e ;; balanceIf F b (mgen (r * n) q (fun i => Y (s i))) l)) = Ok l' /\
     mmean F l = Ok x /\ mmean F l' = Ok x' /\ fdiv F (fadd F (f0 F) x') (fofN F (r * n)) = phi (sumLoss k) (fdiv F (fadd F (f0 F) x) (fofN F n))).
  { intros -> N1 N2 N3. dm. rewrite !Nat.eqb_refl. cbn [assert_ bind]. rewrite !msubM_gen. cbn [bind].
    assert (exists g, forall x, regElem F cabs k x = Ok (g x)) as [g Eg]. { destruct k; try congruence; unfold regElem, absFloat; cbn [bind]; eexists; intro; reflexivity. }
    rewrite !(mapLoopR_gen F _ g) by auto. cbn [bind].
    assert (Er : forall p a, regReduce F k (mgen p m a) = Ok (mgen 1 m (fun _ j => if sumLoss k then fsum F p (fun i => a i j) else fdiv F (fsum F p (fun i => a i j)) (fofN F p)))).
    { intros p a. unfold regReduce, colWiseSum, colWiseMean. destruct k; rewrite colWise_gen; reflexivity. }
    rewrite !Er. cbn [bind]. unfold balanceIf. rewrite Hb. do 4 eexists. split; [reflexivity|]. split; [reflexivity|]. rewrite !mmean_gen. split; [reflexivity|]. split; [reflexivity|]. rewrite Nat.mul_1_l.
    destruct (sumLoss k).
    - apply (HP2 n m s (fun i q => g (fsub F (O i (q mod m)) (Y i (q mod m)))) Pn R).
    - rewrite <- (HP1 n _ Pn). do 3 f_equal. apply fsum_ext. intros p Hp. apply (divS F r s HD n (fun i => g (fsub F (O i (p mod m)) (Y i (p mod m)))) R). }
  destruct k; try (apply Reg; [exact Ty|discriminate|discriminate|discriminate]); clear Reg; cbn [sumLoss].
  - simpl in Ty. change (mcols (mgen n q Y)) with q in Ty. subst q. rewrite !cce_F by auto. do 4 eexists. split; [reflexivity|]. split; [reflexivity|]. rewrite !mean_col. split; [reflexivity|]. split; [reflexivity|]. rewrite <- (HP1 n _ Pn). do 2 f_equal.
    apply (divS F r s HD n (fun i => fsum F m (fun j => ceF F (O i j) (Y i j))) R).
  - pose proof Ty as [Cy _]. change (mcols (mgen n q Y)) with q in Cy. subst q. pose proof (sparse_cls F n m Y Ty) as C.
    rewrite (sce_F F cabs b n m O Y (clsOf Y)) by auto. rewrite (sce_F F cabs b (r * n) m (fun i => O (s i)) (fun i => Y (s i)) (fun i => clsOf Y (s i))).
    3:{ intros i Hi. apply C. apply R. auto. } 2:auto.
    do 4 eexists. split; [reflexivity|]. split; [reflexivity|]. rewrite !mean_col. split; [reflexivity|]. split; [reflexivity|]. rewrite <- (HP1 n _ Pn). do 2 f_equal.
    apply (divS F r s HD n (fun i => fopp F (flm F Llog (floorEps F (O i (clsOf Y i))))) R).
  - destruct Ty as [Cy Hm]. change (mcols (mgen n q Y)) with q in Cy. subst q m. rewrite !bce_F by auto. do 4 eexists. split; [reflexivity|]. split; [reflexivity|]. rewrite !mean_col. split; [reflexivity|]. split; [reflexivity|]. rewrite <- (HP1 n _ Pn). do 2 f_equal.
    apply (divS F r s HD n (fun i => bceF F (O i 0) (Y i 0)) R).
Qed.

(** * number of good answers *)
Lemma count_copies_filter : forall (f : nat -> bool) l, length (filter f (flat_map (fun j => repeat j r) l)) = r * length (filter f l).
Proof.
  intros f. assert (A : forall j k, length (filter f (repeat j k)) = if f j then k else 0). { intros j. induction k as [|k IH]; simpl; [destruct (f j); auto|]. destruct (f j); simpl; auto. }
  induction l as [|a l IH]; simpl; [lia|]. rewrite filter_app, app_length, IH, A. destruct (f a); simpl; lia.
Qed.
Lemma good_rel : forall n m q o o' y y', times r n s -> 0 < m -> rel n m o o' -> rel n q y y' -> q = m \/ q = 1 -> exists g, countGood F n o y 0 = Ok g /\ countGood F (r * n) o' y' 0 = Ok (r * g).
Proof.
  intros n m q o o' y y' R Hm (O & -> & ->) (Y & -> & ->) Hq.
  assert (exists f : (nat -> F) -> (nat -> F) -> bool, forall p O' Y' i, i < p -> goodRow F (mgen p m O') (mgen p q Y') i = Ok (f (O' i) (Y' i))) as [f Ef].
  { unfold goodRow. dm. destruct (Nat.eqb_spec q 1) as [E1|N1]; cbn [negb].
    - destruct (Nat.eqb_spec m 1) as [E2|N2]; cbn [negb].
      + exists (fun a b => feq F (flm F Lround (a 0)) (b 0)). intros p O' Y' i Hi. change (mcols (mgen p q Y')) with q. change (mcols (mgen p m O')) with m. rewrite E1, E2. cbn [Nat.eqb negb]. rewrite !mget1_col by auto. reflexivity.
      + exists (fun a b => feq F (fofN F (argmaxPure F m a)) (b 0)). intros p O' Y' i Hi. change (mcols (mgen p q Y')) with q. change (mcols (mgen p m O')) with m. rewrite E1. cbn [Nat.eqb negb]. rewrite (proj2 (Nat.eqb_neq m 1)) by auto. cbn [negb].
        rewrite mrow_gen by auto. cbn [bind]. rewrite argmax_gen by auto. cbn [bind]. rewrite mget1_col by auto. reflexivity.
    - exists (fun a b => argmaxPure F m a =? argmaxPure F q b). intros p O' Y' i Hi. change (mcols (mgen p q Y')) with q. rewrite (proj2 (Nat.eqb_neq q 1)) by auto. cbn [negb]. rewrite !mrow_gen by auto. cbn [bind]. rewrite !argmax_gen by lia. reflexivity. }
  assert (C : forall p O' Y', countGood F p (mgen p m O') (mgen p q Y') 0 = Ok (length (filter (fun i => f (O' i) (Y' i)) (seq 0 p)))).
  { intros p O' Y'. unfold countGood. rewrite (forN_fold nat) with (step := fun i g => g + (if f (O' i) (Y' i) then 1 else 0)).
    - rewrite count_fold. reflexivity.
    - intros i v Hi. rewrite Ef by auto. reflexivity. }
  rewrite !C. eexists. split; [reflexivity|]. f_equal. rewrite (count_map s (fun i => f (O i) (Y i))). rewrite (count_perm _ _ _ (times_perm r n s R)). apply count_copies_filter.
Qed.
Lemma online_rel : forall n (t t' : trainer F) nb m q o o' y y', 0 < nb -> times r nb s -> 0 < m -> bon F (tbal F t) = false -> rel nb m o o' -> rel nb q y y' -> truthOk (cLoss F (tc F t)) m y ->
  tc F t' = tc F t -> tbal F t' = tbal F t -> tonl F t = f0 F -> tonl F t' = f0 F -> tgood F t = 0 -> tgood F t' = 0 ->
  exists a a' b, onlineStats F cabs n t o y = Ok (setOnline F t a b) /\ onlineStats F cabs n t' o' y' = Ok (setOnline F t' a' (r * b)) /\
    fdiv F a' (fofN F (r * nb)) = phi (sumLoss (cLoss F (tc F t))) (fdiv F a (fofN F nb)).
Proof.
  intros n t t' nb m q o o' y y' Pn R Hm Hb Ho Hy Ty E1 E2 E3 E3' E4 E4'. unfold onlineStats. rewrite E1, E2, E3, E3', E4, E4'.
  destruct (loss_rel _ _ nb m q o o' y y' (mempty F) (mempty F) Pn R Hb Ho Hy Ty eq_refl eq_refl) as (l & l' & x & x' & -> & -> & Ml & Ml' & Ph). cbn [bind]. rewrite Ml, Ml'. cbn [bind].
  destruct (nclass n); cbn [negb]; [|exists (fadd F (f0 F) x), (fadd F (f0 F) x'), 0; rewrite Nat.mul_0_r; auto].
  assert (Cy : q = m \/ q = 1). { destruct Hy as (Y & -> & _). exact (truth_cols F _ _ _ Ty). }
  destruct (good_rel nb m q o o' y y' R Hm Ho Hy Cy) as (gd & C1 & C2). cbn [setOnline tgood tonl] in *.
  destruct Ho as (O & -> & ->). destruct Hy as (Y & -> & ->). dm.
  replace (if m =? 1 then assert_ (q =? 1) else if q =? 1 then Ok tt else assert_ (q =? m)) with (Ok tt : res unit).
  2:{ destruct (Nat.eqb_spec m 1) as [->|N]; [destruct Cy as [->| ->]; reflexivity|]. destruct (Nat.eqb_spec q 1); auto. destruct Cy as [->|]; [rewrite Nat.eqb_refl; reflexivity|congruence]. }
  cbn [bind]. rewrite C1, C2. cbn [bind]. exists (fadd F (f0 F) x), (fadd F (f0 F) x'), gd. auto.
Qed.
End Any.
