(* Sym1.v - the order and the scale of hidden units do not show in the predictions *)
From Coq Require Import String List Arith Bool Lia ZArith Reals Lra Permutation.
From Verif Require Import Base Scalar Mat SpecMat SpecReal RSum MatFacts MatProofs Act LayMat Layer Net SpecNet NetRow NetProofs1 LayProofs2 SpecOrder Order1 SpecSym.
Import ListNotations.
Local Open Scope nat_scope.

Lemma rsum_list : forall (f : nat -> R) n, rsum n f = fold_right (fun i v => (f i + v)%R) 0%R (seq 0 n).
Proof.
  intros f n. assert (A : forall l v, fold_right (fun i v => (f i + v)%R) v l = (fold_right (fun i v => (f i + v)%R) 0 l + v)%R) by (induction l as [|i l IH]; intro v; cbn; [lra|rewrite IH; lra]).
  induction n as [|n IH]; [reflexivity|]. rewrite seq_S, fold_right_app, A, <- IH. cbn. lra.
Qed.
Lemma rsum_reorder : forall q s (f : nat -> R), reorder q s -> rsum q (fun u => f (s u)) = rsum q f.
Proof.
  intros q s f H. rewrite !rsum_list.
  assert (A : forall l, fold_right (fun i v => (f (s i) + v)%R) 0%R l = fold_right (fun i v => (f i + v)%R) 0%R (map s l)) by (induction l as [|i l IH]; cbn; [reflexivity|rewrite IH; reflexivity]).
  rewrite A. pose proof (reorder_perm q s H) as PP. revert PP. generalize (map s (seq 0 q)) as l1, (seq 0 q) as l2. intros l1 l2 PP. induction PP as [|x l l' P IH|x y l|l l' l'' P1 IH1 P2 IH2]; cbn; [reflexivity|rewrite IH; reflexivity|lra|congruence].
Qed.

Section S.
Variable jk : R.
Notation F := (ROps jk).
Lemma chain_local : forall (h : heap F) ls k m g x x', NoDup ls -> chainRow F h ls k m g -> (forall j, j < k -> x j = x' j) -> forall j, j < m -> g x j = g x' j.
Proof.
  intros h ls k m g x x' Hd Hc Hx j Hj. destruct ls as [|a r]; [destruct Hc as [-> ->]; auto|].
  destruct (predict_row F (fun _ => mkRnd F (fun _ => f0 F) (fun _ => 0%Z)) h (mkNet (a :: r) false false) k m g 1 (fun _ => x) (mempty F)) as (h1 & E1 & _); auto; [discriminate|reflexivity|].
  destruct (predict_row F (fun _ => mkRnd F (fun _ => f0 F) (fun _ => 0%Z)) h (mkNet (a :: r) false false) k m g 1 (fun _ => x') (mempty F)) as (h2 & E2 & _); auto; [discriminate|reflexivity|].
  rewrite (mgen_ext _ 1 k (fun _ => x) (fun _ => x')) in E1 by auto. rewrite E2 in E1. assert (E : mgen 1 m (fun _ : nat => g x') = mgen 1 m (fun _ : nat => g x)) by congruence. symmetry. exact (mgen_inj _ _ _ _ _ 0 j E (Nat.lt_0_1) Hj).
Qed.
Lemma row_dense : forall (l : layer F) a b k x j, lk l = KDense a b -> rowFun F l k x j = (rsum k (fun p => x p * cell F (lw l) p j) + cell F (lb l) 0 j)%R.
Proof. intros l a b k x j E. unfold rowFun. rewrite E, fsum_R. reflexivity. Qed.
Lemma row_act : forall (l : layer F) a k x j, lk l = KAct (Some a) -> rowFun F l k x j = act_apply F a (x j).
Proof. intros l a k x j E. unfold rowFun. rewrite E. reflexivity. Qed.
Section B.
Variables (h h' : heap F) (s : nat -> nat) (c : nat -> R) (k0 q p0 : nat) (l0 l1 l2 l0' l2' : layer F) (a : actKind) (b0 b1 b2 na nb' nc nd : nat).
Hypothesis Hs : reorder q s.
Hypothesis Hc : forall u, u < q -> passes jk a (c u).
Hypothesis K0 : lk l0 = KDense na nb'.
Hypothesis K1 : lk l1 = KAct (Some a).
Hypothesis K2 : lk l2 = KDense nc nd.
Hypothesis G0 : hget F h b0 = Ok l0.
Hypothesis G1 : hget F h b1 = Ok l1.
Hypothesis G2 : hget F h b2 = Ok l2.
Hypothesis G0' : hget F h' b0 = Ok l0'.
Hypothesis G2' : hget F h' b2 = Ok l2'.
Hypothesis Hr : rewired s c k0 q p0 l0 l2 l0' l2'.
Lemma block : forall x j, j < p0 -> rowFun F l2' q (rowFun F l1 q (rowFun F l0' k0 x)) j = rowFun F l2 q (rowFun F l1 q (rowFun F l0 k0 x)) j.
Proof.
  intros x j Hj. destruct Hr as (E1 & E2 & E3 & W & B & V & EW & EB & EV & EW' & EB' & EV').
  rewrite <- E1 in K0. assert (K0' : lk l0 = KDense na nb') by congruence. assert (K2' : lk l2' = KDense nc nd) by congruence.
  rewrite (row_dense l2' _ _ _ _ _ K2'), (row_dense l2 _ _ _ _ _ K2), E3. f_equal.
  set (z := fun u => act_apply F a (rsum k0 (fun p => (x p * W p u)%R) + B O u)%R).
  transitivity (rsum q (fun u => (z (s u) * V (s u) j)%R)).
  - apply rsum_ext. intros u Hu. pose proof (proj1 Hs u Hu) as Hu'. rewrite (row_act l1 _ _ _ _ K1), (row_dense l0' _ _ _ _ _ K0), EW', EB', EV'. unfold cell. rewrite !cellD_gen. rewrite (proj2 (Nat.ltb_lt _ _) Hu), (proj2 (Nat.ltb_lt _ _) Hj). cbn [andb Nat.ltb Nat.leb].
    rewrite (rsum_ext k0 _ (fun p => (c u * (x p * W p (s u)))%R)).
    2:{ intros p Hp. rewrite cellD_gen, (proj2 (Nat.ltb_lt _ _) Hp), (proj2 (Nat.ltb_lt _ _) Hu). cbn [andb]. ring. }
    rewrite rsum_scal. destruct (Hc u Hu) as [Hne Ha]. rewrite <- Rmult_plus_distr_l, Ha. fold (z (s u)). generalize (z (s u)). intro t. generalize (V (s u) j). intro w. change (T F) with R in t. field. exact Hne.
  - rewrite (rsum_reorder q s (fun u => (z u * V u j)%R) Hs). apply rsum_ext. intros u Hu. rewrite (row_act l1 _ _ _ _ K1), (row_dense l0 _ _ _ _ _ K0'), EW, EB, EV. unfold cell. rewrite !cellD_gen. rewrite (proj2 (Nat.ltb_lt _ _) Hu), (proj2 (Nat.ltb_lt _ _) Hj). cbn [andb Nat.ltb Nat.leb].
    unfold z. f_equal. f_equal. f_equal. apply rsum_ext. intros p Hp. rewrite cellD_gen, (proj2 (Nat.ltb_lt _ _) Hp), (proj2 (Nat.ltb_lt _ _) Hu). reflexivity.
Qed.
Lemma sym_chain : forall J ls k m g, NoDup ls -> nth_error ls J = Some b0 -> nth_error ls (J + 1) = Some b1 -> nth_error ls (J + 2) = Some b2 ->
  (forall i x, nth_error ls i = Some x -> i <> J -> i <> J + 2 -> hget F h' x = hget F h x) -> chainRow F h ls k m g ->
  exists g', chainRow F h' ls k m g' /\ forall x j, j < m -> g' x j = g x j.
Proof.
  induction J as [|J IH]; intros ls k m g Hd N0 N1 N2 Hsame C.
  - destruct ls as [|x0 [|x1 [|x2 r]]]; try discriminate. cbn in N0, N1, N2. injection N0; intros ->. injection N1; intros ->. injection N2; intros ->.
    cbn [chainRow] in C. destruct C as (y0 & d1 & g1 & A0 & D0 & -> & y1 & d2 & g2 & A1 & D1 & -> & y2 & d3 & g3 & A2 & D2 & -> & C).
    rewrite G0 in A0. rewrite G1 in A1. rewrite G2 in A2. injection A0; intros <-. injection A1; intros <-. injection A2; intros <-.
    pose proof Hr as (E1 & E2 & E3 & W & B & V & EW & EB & EV & EW' & EB' & EV'). pose proof D0 as D0'. pose proof D1 as D1'. pose proof D2 as D2'. unfold detLayer in D0', D1', D2'. rewrite K0 in D0'. rewrite K1 in D1'. rewrite K2 in D2'.
    destruct D0' as [[_ [R1 R2]] [_ [_ R3]]]. destruct D1' as [-> _]. destruct D2' as [[_ [R4 R5]] [_ [R6 R7]]]. rewrite EW in R1, R2. rewrite EB in R3. rewrite EV in R4, R5. cbn [mrows mcols mgen] in *. subst k d1 d3.
    assert (Cr : chainRow F h' r p0 m g3). { apply (chainRow_frame F h); auto. intros y Hy. apply In_nth_error in Hy. destruct Hy as [i Hi]. apply (Hsame (S (S (S i)))); auto; lia. }
    exists (fun x => g3 (rowFun F l2' q (rowFun F l1 q (rowFun F l0' k0 x)))). split.
    + cbn [chainRow]. exists l0', q, (fun x => g3 (rowFun F l2' q (rowFun F l1 q x))). split; [exact G0'|]. split; [unfold detLayer; rewrite E1, K0, EW', EB'; split; apply shaped_mgen|]. split; [reflexivity|].
      exists l1, q, (fun x => g3 (rowFun F l2' q x)). split; [rewrite (Hsame 1); auto; lia|]. split; [exact D1|]. split; [reflexivity|].
      exists l2', p0, g3. split; [exact G2'|]. split; [|split; [reflexivity|exact Cr]]. unfold detLayer in *. rewrite E2, K2 in *. rewrite EV', E3. split; [apply shaped_mgen|apply D2].
    + intros x j Hj. assert (Hd3 : NoDup r) by (inversion_clear Hd; inversion_clear H0; inversion_clear H2; auto). apply (chain_local h r p0 m g3); auto. intros i Hi. apply block; auto.
  - destruct ls as [|x0 r]; [discriminate|]. cbn [nth_error Nat.add] in N0, N1, N2. cbn [chainRow] in C. destruct C as (y0 & d1 & g1 & A0 & D0 & -> & C).
    inversion Hd as [|? ? Hn Hd']; subst. destruct (IH r d1 m g1) as (g' & C' & E'); auto. { intros i x Ex I1 I2. apply (Hsame (S i)); auto; lia. }
    exists (fun x => g' (rowFun F y0 k x)). split; [|intros x j Hj; apply E'; auto]. cbn [chainRow]. exists y0, d1, g'. split; [rewrite (Hsame 0); auto; lia|]. auto.
Qed.
End B.
(* the predictions of the two networks are the same *)
Theorem same_predictions : forall rs rs' (h h' : heap F) n k m J s c k0 q p0 l0 l1 l2 l0' l2' a b0 b1 b2 na nb nc nd N X out out',
  detNet F h n k m -> nth_error (nlay n) J = Some b0 -> nth_error (nlay n) (J + 1) = Some b1 -> nth_error (nlay n) (J + 2) = Some b2 ->
  hget F h b0 = Ok l0 -> hget F h b1 = Ok l1 -> hget F h b2 = Ok l2 -> lk l0 = KDense na nb -> lk l1 = KAct (Some a) -> lk l2 = KDense nc nd ->
  hget F h' b0 = Ok l0' -> hget F h' b2 = Ok l2' -> (forall i x, nth_error (nlay n) i = Some x -> i <> J -> i <> J + 2 -> hget F h' x = hget F h x) ->
  reorder q s -> (forall u, u < q -> passes jk a (c u)) -> rewired s c k0 q p0 l0 l2 l0' l2' -> mwf out -> mwf out' ->
  exists h1 h1' o, predict F rs h n (mgen N k X) out = Ok (h1, o) /\ predict F rs' h' n (mgen N k X) out' = Ok (h1', o).
Proof.
  intros rs rs' h h' n k m J s c k0 q p0 l0 l1 l2 l0' l2' a b0 b1 b2 na nb nc nd N X out out' (Hne & Hd & Hc) N0 N1 N2 G0 G1 G2 K0 K1 K2 G0' G2' Hsame Hs Ha Hr W1 W2.
  apply chainRow_det in Hc. destruct Hc as [g Hc].
  destruct (sym_chain h h' s c k0 q p0 l0 l1 l2 l0' l2' a b0 b1 b2 na nb nc nd Hs Ha K0 K1 K2 G0 G1 G2 G0' G2' Hr J (nlay n) k m g Hd N0 N1 N2 Hsame Hc) as (g' & Hc' & E).
  destruct (predict_row F rs h n k m g N X out Hne Hd Hc W1) as (h1 & E1 & _). destruct (predict_row F rs' h' n k m g' N X out' Hne Hd Hc' W2) as (h2 & E2 & _).
  exists h1, h2, (mgen N m (fun i => g (X i))). split; [exact E1|]. rewrite E2. f_equal. f_equal. apply mgen_ext. intros i j Hi Hj. apply E; auto.
Qed.
End S.
