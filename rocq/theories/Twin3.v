(* Twin3.v - a hidden layer of equal units computes what a single unit computes *)
From Coq Require Import String List Arith Bool Lia ZArith Reals Lra.
From Verif Require Import Base Scalar Mat SpecMat SpecReal RSum MatFacts MatProofs Act LayMat Layer Net SpecNet NetRow NetProofs1 LayProofs2 SpecFixed Fixed4 TrainProofs14 SpecTwin Sym1 Sym2.
Import ListNotations.
Local Open Scope nat_scope.

Section S.
Variable jk : R.
Notation F := (ROps jk).
Section B.
Variables (h h' : heap F) (k0 q p0 : nat) (l0 l1 l2 l0' l2' : layer F) (a : actKind) (b0 b1 b2 na nb' nc nd na1 nb1 nc1 nd1 : nat) (W B V : nat -> nat -> R).
Hypothesis Hq : 0 < q.
Hypothesis K0 : lk l0 = KDense na nb'.
Hypothesis K1 : lk l1 = KAct (Some a).
Hypothesis K2 : lk l2 = KDense nc nd.
Hypothesis K0' : lk l0' = KDense na1 nb1.
Hypothesis K2' : lk l2' = KDense nc1 nd1.
Hypothesis G0 : hget F h b0 = Ok l0.
Hypothesis G1 : hget F h b1 = Ok l1.
Hypothesis G2 : hget F h b2 = Ok l2.
Hypothesis G0' : hget F h' b0 = Ok l0'.
Hypothesis G2' : hget F h' b2 = Ok l2'.
Hypothesis EW : lw l0 = @mgen R k0 q W.
Hypothesis EB : lb l0 = @mgen R 1 q B.
Hypothesis EV : lw l2 = @mgen R q p0 V.
Hypothesis TW : forall u v, u < q -> v < q -> (forall i, i < k0 -> W i u = W i v) /\ B 0 u = B 0 v /\ (forall j, j < p0 -> V u j = V v j).
Hypothesis EW' : lw l0' = @mgen R k0 1 (fun i _ => W i 0).
Hypothesis EB' : lb l0' = @mgen R 1 1 (fun i _ => B i 0).
Hypothesis EV' : lw l2' = @mgen R 1 p0 (fun _ j => (INR q * V 0%nat j)%R).
Hypothesis E3 : lb l2' = lb l2.
Lemma block1 : forall x j, j < p0 -> rowFun F l2' 1 (rowFun F l1 1 (rowFun F l0' k0 x)) j = rowFun F l2 q (rowFun F l1 q (rowFun F l0 k0 x)) j.
Proof.
  intros x j Hj. rewrite (row_dense jk l2' _ _ _ _ _ K2'), (row_dense jk l2 _ _ _ _ _ K2), E3. f_equal.
  set (z := act_apply F a (rsum k0 (fun p => (x p * W p O)%R) + B O O)%R).
  transitivity (INR q * (z * V O j))%R.
  - cbn [rsum]. rewrite (row_act jk l1 _ _ _ _ K1), (row_dense jk l0' _ _ _ _ _ K0'), EW', EB', EV'. unfold cell. rewrite !cellD_gen. rewrite (proj2 (Nat.ltb_lt _ _) Hj). cbn [andb Nat.ltb Nat.leb].
    rewrite (rsum_ext k0 _ (fun p => (x p * W p O)%R)). 2:{ intros p Hp. rewrite cellD_gen, (proj2 (Nat.ltb_lt _ _) Hp). reflexivity. } fold z. generalize z. intro t. change (T F) with R in t. ring.
  - rewrite <- rsum_const. apply rsum_ext. intros u Hu. destruct (TW O u Hq Hu) as (T1 & T2 & T3). rewrite (row_act jk l1 _ _ _ _ K1), (row_dense jk l0 _ _ _ _ _ K0), EW, EB, EV. unfold cell. rewrite !cellD_gen. rewrite (proj2 (Nat.ltb_lt _ _) Hu), (proj2 (Nat.ltb_lt _ _) Hj). cbn [andb Nat.ltb Nat.leb].
    rewrite <- T3, <- T2 by auto. unfold z. f_equal. f_equal. f_equal. apply rsum_ext. intros p Hp. rewrite cellD_gen, (proj2 (Nat.ltb_lt _ _) Hp), (proj2 (Nat.ltb_lt _ _) Hu), <- T1 by auto. reflexivity.
Qed.
Lemma one_chain : forall J ls k m g, NoDup ls -> nth_error ls J = Some b0 -> nth_error ls (J + 1) = Some b1 -> nth_error ls (J + 2) = Some b2 ->
  (forall i x, nth_error ls i = Some x -> i <> J -> i <> J + 2 -> hget F h' x = hget F h x) -> chainRow F h ls k m g ->
  exists g', chainRow F h' ls k m g' /\ forall x j, j < m -> g' x j = g x j.
Proof.
  induction J as [|J IH]; intros ls k m g Hd N0 N1 N2 Hsame C.
  - destruct ls as [|x0 [|x1 [|x2 r]]]; try discriminate. cbn in N0, N1, N2. injection N0; intros ->. injection N1; intros ->. injection N2; intros ->.
    cbn [chainRow] in C. destruct C as (y0 & d1 & g1 & A0 & D0 & -> & y1 & d2 & g2 & A1 & D1 & -> & y2 & d3 & g3 & A2 & D2 & -> & C).
    rewrite G0 in A0. rewrite G1 in A1. rewrite G2 in A2. injection A0; intros <-. injection A1; intros <-. injection A2; intros <-.
    pose proof D0 as D0'. pose proof D1 as D1'. pose proof D2 as D2'. unfold detLayer in D0', D1', D2'. rewrite K0 in D0'. rewrite K1 in D1'. rewrite K2 in D2'.
    destruct D0' as [[_ [R1 R2]] [_ [_ R3]]]. destruct D1' as [-> _]. destruct D2' as [[_ [R4 R5]] R6]. rewrite EW in R1, R2. rewrite EB in R3. rewrite EV in R4, R5. cbn [mrows mcols mgen] in *. subst k d1 d3.
    assert (Cr : chainRow F h' r p0 m g3). { apply (chainRow_frame F h); auto. intros y Hy. apply In_nth_error in Hy. destruct Hy as [i Hi]. apply (Hsame (S (S (S i)))); auto; lia. }
    exists (fun x => g3 (rowFun F l2' 1 (rowFun F l1 1 (rowFun F l0' k0 x)))). split.
    + cbn [chainRow]. exists l0', 1, (fun x => g3 (rowFun F l2' 1 (rowFun F l1 1 x))). split; [exact G0'|]. split; [unfold detLayer; rewrite K0', EW', EB'; split; apply shaped_mgen|]. split; [reflexivity|].
      exists l1, 1, (fun x => g3 (rowFun F l2' 1 x)). split; [rewrite (Hsame 1); auto; lia|]. split; [unfold detLayer; rewrite K1; split; [reflexivity|discriminate]|]. split; [reflexivity|].
      exists l2', p0, g3. split; [exact G2'|]. split; [|split; [reflexivity|exact Cr]]. unfold detLayer. rewrite K2', EV', E3. split; [apply shaped_mgen|exact R6].
    + intros x j Hj. assert (Hd3 : NoDup r) by (inversion_clear Hd; inversion_clear H0; inversion_clear H2; auto). apply (chain_local jk h r p0 m g3); auto. intros i Hi. apply block1; auto.
  - destruct ls as [|x0 r]; [discriminate|]. cbn [nth_error Nat.add] in N0, N1, N2. cbn [chainRow] in C. destruct C as (y0 & d1 & g1 & A0 & D0 & -> & C).
    inversion Hd as [|? ? Hn Hd']; subst. destruct (IH r d1 m g1) as (g' & C' & E'); auto. { intros i x Ex I1 I2. apply (Hsame (S i)); auto; lia. }
    exists (fun x => g' (rowFun F y0 k x)). split; [|intros x j Hj; apply E'; auto]. cbn [chainRow]. exists y0, d1, g'. split; [rewrite (Hsame 0); auto; lia|]. auto.
Qed.
End B.
Lemma cols_fun : forall r c (Z : nat -> nat -> R) u v, sameCols u v (@mgen R r c Z) -> u < c -> v < c -> forall i, i < r -> Z i u = Z i v.
Proof. intros r c Z u v H Hu Hv i Hi. specialize (H i Hi). rewrite !mget2_gen in H by auto. congruence. Qed.
Lemma rows_fun : forall r c (Z : nat -> nat -> R) u v, sameRows u v (@mgen R r c Z) -> u < r -> v < r -> forall i, i < c -> Z u i = Z v i.
Proof. intros r c Z u v H Hu Hv i Hi. specialize (H i Hi). rewrite !mget2_gen in H by auto. congruence. Qed.
(* q equal units predict like one unit whose outgoing weights are q times as large *)
Theorem one_unit : forall rs rs' (h h' : heap F) n k m J k0 q p0 l0 l1 l2 l0' l2' a b0 b1 b2 na nb nc nd na1 nb1 nc1 nd1 (W B V : nat -> nat -> R) N X out out',
  detNet F h n k m -> nth_error (nlay n) J = Some b0 -> nth_error (nlay n) (J + 1) = Some b1 -> nth_error (nlay n) (J + 2) = Some b2 ->
  hget F h b0 = Ok l0 -> hget F h b1 = Ok l1 -> hget F h b2 = Ok l2 -> lk l0 = KDense na nb -> lk l1 = KAct (Some a) -> lk l2 = KDense nc nd ->
  lw l0 = @mgen R k0 q W -> lb l0 = @mgen R 1 q B -> lw l2 = @mgen R q p0 V -> 0 < q ->
  (forall u v, u < q -> v < q -> sameCols u v (lw l0) /\ sameCols u v (lb l0) /\ sameRows u v (lw l2)) ->
  hget F h' b0 = Ok l0' -> hget F h' b2 = Ok l2' -> (forall i x, nth_error (nlay n) i = Some x -> i <> J -> i <> J + 2 -> hget F h' x = hget F h x) -> lk l0' = KDense na1 nb1 -> lk l2' = KDense nc1 nd1 ->
  lw l0' = @mgen R k0 1 (fun i _ => W i 0) -> lb l0' = @mgen R 1 1 (fun i _ => B i 0) -> lw l2' = @mgen R 1 p0 (fun _ j => (INR q * V 0%nat j)%R) -> lb l2' = lb l2 -> mwf out -> mwf out' ->
  exists h1 h1' o, predict F rs h n (mgen N k X) out = Ok (h1, o) /\ predict F rs' h' n (mgen N k X) out' = Ok (h1', o).
Proof.
  intros rs rs' h h' n k m J k0 q p0 l0 l1 l2 l0' l2' a b0 b1 b2 na nb nc nd na1 nb1 nc1 nd1 W B V N X out out' (Hne & Hd & Hc) N0 N1 N2 G0 G1 G2 K0 K1 K2 EW EB EV Hq TW G0' G2' Hsame K0' K2' EW' EB' EV' E3 W1 W2.
  assert (T : forall u v, u < q -> v < q -> (forall i, i < k0 -> W i u = W i v) /\ B 0 u = B 0 v /\ (forall j, j < p0 -> V u j = V v j)).
  { intros u v Hu Hv. destruct (TW u v Hu Hv) as (T1 & T2 & T3). rewrite EW in T1. rewrite EB in T2. rewrite EV in T3. split; [eapply cols_fun; eauto|]. split; [eapply cols_fun; eauto|eapply rows_fun; eauto]. }
  apply chainRow_det in Hc. destruct Hc as [g Hc].
  destruct (one_chain h h' k0 q p0 l0 l1 l2 l0' l2' a b0 b1 b2 na nb nc nd na1 nb1 nc1 nd1 W B V Hq K0 K1 K2 K0' K2' G0 G1 G2 G0' G2' EW EB EV T EW' EB' EV' E3 J (nlay n) k m g Hd N0 N1 N2 Hsame Hc) as (g' & Hc' & E).
  destruct (predict_row F rs h n k m g N X out Hne Hd Hc W1) as (h1 & E1 & _). destruct (predict_row F rs' h' n k m g' N X out' Hne Hd Hc' W2) as (h2 & E2 & _).
  exists h1, h2, (mgen N m (fun i => g (X i))). split; [exact E1|]. rewrite E2. f_equal. f_equal. apply mgen_ext. intros i j Hi Hj. apply E; auto.
Qed.
(* Dense(1,2) with weights w, w and biases b, b, then Dense(2,1) with weights v, v; and Dense(1,1) with w, b then Dense(1,1) with 2v *)
Definition oneHeap (a : actKind) (w b v : R) : heap F := [Some (syDense jk 1 1 (fun _ _ => w) (fun _ _ => b)); Some (fxAct F a); Some (syDense jk 1 1 (fun _ _ => (INR 2 * v)%R) (fun _ _ => 0%R))].
Lemma one_case : forall rs rs' a w b v N X, exists h1 h1' o, predict F rs (syHeap jk a (fun _ _ => w) (fun _ _ => b) (fun _ _ => v)) syNet (mgen N 1 X) (mempty F) = Ok (h1, o) /\
  predict F rs' (oneHeap a w b v) syNet (mgen N 1 X) (mempty F) = Ok (h1', o).
Proof.
  intros rs rs' a w b v N X.
  apply (one_unit rs rs' _ _ syNet 1 1 0 1 2 1 (syDense jk 1 2 (fun _ _ => w) (fun _ _ => b)) (fxAct F a) (syDense jk 2 1 (fun _ _ => v) (fun _ _ => 0%R)) (syDense jk 1 1 (fun _ _ => w) (fun _ _ => b)) (syDense jk 1 1 (fun _ _ => (INR 2 * v)%R) (fun _ _ => 0%R)) a 0 1 2 1 2 2 1 1 1 1 1 (fun _ _ => w) (fun _ _ => b) (fun _ _ => v)); try reflexivity.
  - split; [discriminate|]. split; [repeat constructor; cbn; intuition discriminate|]. eexists. exists 2. split; [reflexivity|]. split; [split; apply shaped_mgen|]. eexists. exists 2. split; [reflexivity|]. split; [split; [reflexivity|discriminate]|]. eexists. exists 1. split; [reflexivity|]. split; [split; apply shaped_mgen|reflexivity].
  - lia.
  - intros u u' Hu Hu'. split; [|split]; intros i Hi.
    + change (lw (syDense jk 1 2 (fun _ _ => w) (fun _ _ => b))) with (@mgen R 1 2 (fun _ _ => w)) in *. cbn [mrows mgen] in Hi. rewrite !mget2_gen by auto. reflexivity.
    + change (lb (syDense jk 1 2 (fun _ _ => w) (fun _ _ => b))) with (@mgen R 1 2 (fun _ _ => b)) in *. cbn [mrows mgen] in Hi. rewrite !mget2_gen by auto. reflexivity.
    + change (lw (syDense jk 2 1 (fun _ _ => v) (fun _ _ => 0%R))) with (@mgen R 2 1 (fun _ _ => v)) in *. cbn [mcols mgen] in Hi. rewrite !mget2_gen by auto. reflexivity.
  - intros [|[|[|i]]] x E; try lia; [injection E as <-; reflexivity|destruct i; discriminate E].
Qed.
End S.
