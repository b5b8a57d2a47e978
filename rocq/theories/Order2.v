(* Order2.v - losses, statistics and one training batch with its samples in another order *)
From Coq Require Import String List Arith Bool Lia ZArith Permutation.
From Verif Require Import Base Scalar Mat SpecMat MatFacts MatProofs MatLoops Loss Optim Regul LayMat Layer Net NetTrain LayKit LayProofs1 LossProofs SoftProofs2 OptProofs SpecOpt NetProofs1 NetProofs2
  SpecFit FitLay1 FitLay2 FitLay3 FitNet1 FitNet2 SpecOrder Order1.
Import ListNotations.
Local Open Scope nat_scope.

Section Any.
Variable F : FOps.
Notation M := (mat F).
Notation cabs := (absFloat F).
Variable s : nat -> nat.
Hypothesis HS : symSum F.
Notation rel := (rel F s).

Definition clsOf (T : nat -> nat -> F) (i : nat) : nat := match toIdx F (T i 0) with Ok c => c | Err _ => 0 end.
Lemma sparse_cls : forall n m (T : nat -> nat -> F), truthOk LSparseCategoricalCrossEntropy m (mgen n 1 T) -> forall i, i < n -> toInt F (T i 0) = Ok (Z.of_nat (clsOf T i)) /\ clsOf T i < m.
Proof.
  intros n m T [_ H] i Hi. destruct (H (T i 0)) as (c & E & Lc).
  { unfold mgen. cbn [mdata]. apply in_flat_map. exists i. split; [apply in_seq; lia|]. simpl. auto. }
  unfold clsOf. rewrite E. split; auto. unfold toIdx in E. destruct (toInt F (T i 0)) as [z|]; cbn [bind] in E; [|discriminate]. destruct (Z.ltb_spec z 0); [discriminate|]. injection E as <-. rewrite Z2Nat.id by lia. auto.
Qed.
Ltac dm := repeat match goal with |- context [mrows (mgen ?r ?c ?f)] => change (mrows (mgen r c f)) with r | |- context [mcols (mgen ?r ?c ?f)] => change (mcols (mgen r c f)) with c | |- context [msize (mgen ?r ?c ?f)] => change (msize (mgen r c f)) with (r * c) end.

Lemma gradient_rel : forall k b n m q o o' y y' out out', reorder n s -> bon F b = false -> rel n m o o' -> rel n q y y' -> truthOk k m y -> mwf out -> mwf out' ->
  exists g g', compute_gradient F k b o y out = Ok g /\ compute_gradient F k b o' y' out' = Ok g' /\ rel n m g g'.
Proof.
  intros k b n m q o o' y y' out out' R Hb (O & -> & ->) (Y & -> & ->) Ty Wo Wo'.
  assert (Reg : q = m -> exists g g', (assert_ (mcols (mgen n q Y) =? mcols (mgen n m O));;; assert_ (mrows (mgen n q Y) =? mrows (mgen n m O));;; (d <- msubM F (mgen n m O) (mgen n q Y) ;; g <- mapLoop (regGrad F k (mcols (mgen n m O))) d ;; balanceIf F b (mgen n q Y) g)) = Ok g /\
     (assert_ (mcols (mgen n q (fun i => Y (s i))) =? mcols (mgen n m (fun i => O (s i))));;; assert_ (mrows (mgen n q (fun i => Y (s i))) =? mrows (mgen n m (fun i => O (s i))));;;
       (d <- msubM F (mgen n m (fun i => O (s i))) (mgen n q (fun i => Y (s i))) ;; g <- mapLoop (regGrad F k (mcols (mgen n m (fun i => O (s i))))) d ;; balanceIf F b (mgen n q (fun i => Y (s i))) g)) = Ok g' /\ rel n m g g').
  { intros ->. dm. rewrite !Nat.eqb_refl. cbn [assert_ bind]. rewrite !msubM_gen. cbn [bind]. rewrite !(@mapLoop_gen F). cbn [bind]. unfold balanceIf. rewrite Hb. do 2 eexists. split; [reflexivity|]. split; [reflexivity|]. eexists. split; reflexivity. }
  destruct k; try (apply Reg; exact Ty); clear Reg.
  - simpl in Ty. change (mcols (mgen n q Y)) with q in Ty. subst q. rewrite !cceg_F by auto. do 2 eexists. split; [reflexivity|]. split; [reflexivity|]. eexists. split; reflexivity.
  - pose proof Ty as [Cy _]. change (mcols (mgen n q Y)) with q in Cy. subst q. pose proof (sparse_cls n m Y Ty) as C.
    rewrite (sceg_F F cabs b n m O Y (clsOf Y)) by auto. rewrite (sceg_F F cabs b n m (fun i => O (s i)) (fun i => Y (s i)) (fun i => clsOf Y (s i))).
    2:{ intros i Hi. apply C. apply R. auto. }
    do 2 eexists. split; [reflexivity|]. split; [reflexivity|]. eexists. split; reflexivity.
  - destruct Ty as [Cy Hm]. change (mcols (mgen n q Y)) with q in Cy. subst q m. rewrite !bceg_F by auto. do 2 eexists. split; [reflexivity|]. split; [reflexivity|]. eexists. split; reflexivity.
Qed.
Lemma mean_col : forall n (f : nat -> F), mmean F (mgen n 1 (fun i _ => f i)) = Ok (fdiv F (fsum F n f) (fofN F n)).
Proof. intros. rewrite mmean_gen, Nat.mul_1_r. do 2 f_equal. apply fsum_ext. intros. rewrite Nat.div_1_r. auto. Qed.
Lemma loss_rel : forall k b n m q o o' y y' out out', reorder n s -> bon F b = false -> rel n m o o' -> rel n q y y' -> truthOk k m y -> mwf out -> mwf out' ->
  exists l l' x, compute F cabs k b o y out = Ok l /\ compute F cabs k b o' y' out' = Ok l' /\ mmean F l = Ok x /\ mmean F l' = Ok x.
Proof.
  intros k b n m q o o' y y' out out' R Hb (O & -> & ->) (Y & -> & ->) Ty Wo Wo'.
  assert (Reg : q = m -> k <> LCategoricalCrossEntropy -> k <> LSparseCategoricalCrossEntropy -> k <> LBinaryCrossEntropy ->
     exists l, (assert_ (mcols (mgen n q Y) =? mcols (mgen n m O));;; assert_ (mrows (mgen n q Y) =? mrows (mgen n m O));;; (d <- msubM F (mgen n m O) (mgen n q Y) ;; e <- mapLoopR F (regElem F cabs k) d ;; l <- regReduce F k e ;; balanceIf F b (mgen n q Y) l)) = Ok (mgen 1 m l) /\
     (assert_ (mcols (mgen n q (fun i => Y (s i))) =? mcols (mgen n m (fun i => O (s i))));;; assert_ (mrows (mgen n q (fun i => Y (s i))) =? mrows (mgen n m (fun i => O (s i))));;;
       (d <- msubM F (mgen n m (fun i => O (s i))) (mgen n q (fun i => Y (s i))) ;; e <- mapLoopR F (regElem F cabs k) d ;; l <- regReduce F k e ;; balanceIf F b (mgen n q (fun i => Y (s i))) l)) = Ok (mgen 1 m l)).
  { intros -> N1 N2 N3. dm. rewrite !Nat.eqb_refl. cbn [assert_ bind]. rewrite !msubM_gen. cbn [bind].
    assert (exists g, forall x, regElem F cabs k x = Ok (g x)) as [g Eg]. { destruct k; try congruence; unfold regElem, absFloat; cbn [bind]; eexists; intro; reflexivity. }
    rewrite !(mapLoopR_gen F _ g) by auto. cbn [bind].
    assert (exists ps tm, forall a, regReduce F k (mgen n m a) = Ok (mgen 1 m (fun _ j => ps (fsum F n (fun i => tm (a i j)))))) as (ps & tm & Er). { unfold regReduce, colWiseSum, colWiseMean. destruct k; first [exists (fun v => fdiv F v (fofN F n)), (fun v => v); intro a; rewrite colWise_gen; reflexivity|exists (fun v => v), (fun v => v); intro a; rewrite colWise_gen; reflexivity]. }
    rewrite !Er. cbn [bind]. unfold balanceIf. rewrite Hb. eexists. split; [reflexivity|]. f_equal. apply mgen_ext. intros i j _ _. f_equal. apply (sumS F s HS n (fun i => tm (g (fsub F (O i j) (Y i j)))) R). }
  assert (Reg' : q = m -> k <> LCategoricalCrossEntropy -> k <> LSparseCategoricalCrossEntropy -> k <> LBinaryCrossEntropy -> exists l l' x, 
     (assert_ (mcols (mgen n q Y) =? mcols (mgen n m O));;; assert_ (mrows (mgen n q Y) =? mrows (mgen n m O));;; (d <- msubM F (mgen n m O) (mgen n q Y) ;; e <- mapLoopR F (regElem F cabs k) d ;; l <- regReduce F k e ;; balanceIf F b (mgen n q Y) l)) = Ok l /\
     (assert_ (mcols (mgen n q (fun i => Y (s i))) =? mcols (mgen n m (fun i => O (s i))));;; assert_ (mrows (mgen n q (fun i => Y (s i))) =? mrows (mgen n m (fun i => O (s i))));;;
       (d <- msubM F (mgen n m (fun i => O (s i))) (mgen n q (fun i => Y (s i))) ;; e <- mapLoopR F (regElem F cabs k) d ;; l <- regReduce F k e ;; balanceIf F b (mgen n q (fun i => Y (s i))) l)) = Ok l' /\ mmean F l = Ok x /\ mmean F l' = Ok x).
  { intros E N1 N2 N3. destruct (Reg E N1 N2 N3) as (l & E1 & E2). exists (mgen 1 m l), (mgen 1 m l). eexists. split; [exact E1|]. split; [exact E2|]. rewrite mmean_gen. auto. }
  destruct k; try (apply Reg'; [exact Ty|discriminate|discriminate|discriminate]); clear Reg Reg'.
  - simpl in Ty. change (mcols (mgen n q Y)) with q in Ty. subst q. rewrite !cce_F by auto. do 3 eexists. split; [reflexivity|]. split; [reflexivity|]. rewrite !mean_col. split; [reflexivity|]. do 2 f_equal.
    apply (sumS F s HS n (fun i => fsum F m (fun j => ceF F (O i j) (Y i j))) R).
  - pose proof Ty as [Cy _]. change (mcols (mgen n q Y)) with q in Cy. subst q. pose proof (sparse_cls n m Y Ty) as C.
    rewrite (sce_F F cabs b n m O Y (clsOf Y)) by auto. rewrite (sce_F F cabs b n m (fun i => O (s i)) (fun i => Y (s i)) (fun i => clsOf Y (s i))).
    3:{ intros i Hi. apply C. apply R. auto. } 2:auto.
    do 3 eexists. split; [reflexivity|]. split; [reflexivity|]. rewrite !mean_col. split; [reflexivity|]. do 2 f_equal.
    apply (sumS F s HS n (fun i => fopp F (flm F Llog (floorEps F (O i (clsOf Y i))))) R).
  - destruct Ty as [Cy Hm]. change (mcols (mgen n q Y)) with q in Cy. subst q m. rewrite !bce_F by auto. do 3 eexists. split; [reflexivity|]. split; [reflexivity|]. rewrite !mean_col. split; [reflexivity|]. do 2 f_equal.
    apply (sumS F s HS n (fun i => bceF F (O i 0) (Y i 0)) R).
Qed.

(** * number of good answers *)
Lemma count_fold : forall n (f : nat -> bool) g, fold_left (fun v i => v + (if f i then 1 else 0)) (seq 0 n) g = g + length (filter f (seq 0 n)).
Proof.
  intros n f. generalize (seq 0 n). induction l as [|a l IH]; intro g; simpl; [lia|]. rewrite IH. destruct (f a); simpl; lia.
Qed.
Lemma count_map : forall (f : nat -> bool) l, length (filter (fun i => f (s i)) l) = length (filter f (map s l)).
Proof. intros f. induction l as [|a l IH]; simpl; auto. destruct (f (s a)); simpl; auto. Qed.
Lemma count_perm : forall (f : nat -> bool) l l', Permutation l l' -> length (filter f l) = length (filter f l').
Proof. intros f l l' H. induction H; simpl; auto; try congruence; try (destruct (f x)); try (destruct (f y)); simpl; auto. Qed.
Lemma good_rel : forall n m q o o' y y' g, reorder n s -> 0 < m -> rel n m o o' -> rel n q y y' -> q = m \/ q = 1 -> exists r, countGood F n o y g = Ok r /\ countGood F n o' y' g = Ok r.
Proof.
  intros n m q o o' y y' g R Hm (O & -> & ->) (Y & -> & ->) Hq.
  assert (exists f : (nat -> F) -> (nat -> F) -> bool, forall O' Y' i, i < n -> goodRow F (mgen n m O') (mgen n q Y') i = Ok (f (O' i) (Y' i))) as [f Ef].
  { unfold goodRow. dm. destruct (Nat.eqb_spec q 1) as [E1|N1]; cbn [negb].
    - destruct (Nat.eqb_spec m 1) as [E2|N2]; cbn [negb].
      + exists (fun a b => feq F (flm F Lround (a 0)) (b 0)). intros O' Y' i Hi. change (mcols (mgen n q Y')) with q. change (mcols (mgen n m O')) with m. rewrite E1, E2. cbn [Nat.eqb negb]. rewrite !mget1_col by auto. reflexivity.
      + exists (fun a b => feq F (fofN F (argmaxPure F m a)) (b 0)). intros O' Y' i Hi. change (mcols (mgen n q Y')) with q. change (mcols (mgen n m O')) with m. rewrite E1. cbn [Nat.eqb negb]. rewrite (proj2 (Nat.eqb_neq m 1)) by auto. cbn [negb].
        rewrite mrow_gen by auto. cbn [bind]. rewrite argmax_gen by auto. cbn [bind]. rewrite mget1_col by auto. reflexivity.
    - exists (fun a b => argmaxPure F m a =? argmaxPure F q b). intros O' Y' i Hi. change (mcols (mgen n q Y')) with q. rewrite (proj2 (Nat.eqb_neq q 1)) by auto. cbn [negb]. rewrite !mrow_gen by auto. cbn [bind]. rewrite !argmax_gen by lia. reflexivity. }
  assert (C : forall O' Y', countGood F n (mgen n m O') (mgen n q Y') g = Ok (g + length (filter (fun i => f (O' i) (Y' i)) (seq 0 n)))).
  { intros O' Y'. unfold countGood. rewrite (forN_fold nat) with (step := fun i g => g + (if f (O' i) (Y' i) then 1 else 0)).
    - rewrite count_fold. reflexivity.
    - intros i v Hi. rewrite Ef by auto. reflexivity. }
  rewrite !C. eexists. split; [reflexivity|]. do 2 f_equal. rewrite (count_map (fun i => f (O i) (Y i))). apply count_perm. apply reorder_perm. auto.
Qed.
Lemma online_rel : forall n (t t' : trainer F) nb m q o o' y y', reorder nb s -> 0 < m -> bon F (tbal F t) = false -> rel nb m o o' -> rel nb q y y' -> truthOk (cLoss F (tc F t)) m y ->
  tc F t' = tc F t -> tbal F t' = tbal F t -> tonl F t' = tonl F t -> tgood F t' = tgood F t ->
  exists a b, onlineStats F cabs n t o y = Ok (setOnline F t a b) /\ onlineStats F cabs n t' o' y' = Ok (setOnline F t' a b).
Proof.
  intros n t t' nb m q o o' y y' R Hm Hb Ho Hy Ty E1 E2 E3 E4. unfold onlineStats. rewrite E1, E2, E3, E4.
  destruct (loss_rel _ _ nb m q o o' y y' (mempty F) (mempty F) R Hb Ho Hy Ty eq_refl eq_refl) as (l & l' & x & -> & -> & Ml & Ml'). cbn [bind]. rewrite Ml, Ml'. cbn [bind].
  destruct (nclass n); cbn [negb]; [|do 2 eexists; split; reflexivity].
  assert (Cy : q = m \/ q = 1). { destruct Hy as (Y & -> & _). exact (truth_cols F _ _ _ Ty). }
  destruct (good_rel nb m q o o' y y' (tgood F t) R Hm Ho Hy Cy) as (r & C1 & C2). cbn [setOnline tgood tonl] in *.
  destruct Ho as (O & -> & ->). destruct Hy as (Y & -> & ->). dm.
  replace (if m =? 1 then assert_ (q =? 1) else if q =? 1 then Ok tt else assert_ (q =? m)) with (Ok tt : res unit).
  2:{ destruct (Nat.eqb_spec m 1) as [->|N]; [destruct Cy as [->| ->]; reflexivity|]. destruct (Nat.eqb_spec q 1); auto. destruct Cy as [->|]; [rewrite Nat.eqb_refl; reflexivity|congruence]. }
  cbn [bind]. rewrite C1, C2. cbn [bind]. do 2 eexists. split; reflexivity.
Qed.
End Any.
