(* Fold1.v - layers that may be removed, split or merged without changing a prediction *)
From Coq Require Import String List Arith Bool Lia ZArith Reals Lra.
From Verif Require Import Base Scalar Mat SpecMat SpecReal RSum MatFacts MatProofs Act LayMat LayImg Layer Net SpecNet NetRow NetProofs1 LayProofs2 SpecFold.
Import ListNotations.
Local Open Scope nat_scope.

Lemma NoDup_right : forall (l l' : list nat), NoDup (l ++ l') -> NoDup l'.
Proof. induction l as [|a l IH]; intros l' H; auto. inversion H; subst. auto. Qed.
Section Any.
Variable F : FOps.
Lemma chain_local : forall (h : heap F) ls k m g x x', NoDup ls -> chainRow F h ls k m g -> (forall j, j < k -> x j = x' j) -> forall j, j < m -> g x j = g x' j.
Proof.
  intros h ls k m g x x' Hd Hc Hx j Hj. destruct ls as [|a r]; [destruct Hc as [-> ->]; auto|].
  destruct (predict_row F (fun _ => mkRnd F (fun _ => f0 F) (fun _ => 0%Z)) h (mkNet (a :: r) false false) k m g 1 (fun _ => x) (mempty F)) as (h1 & E1 & _); auto; [discriminate|reflexivity|].
  destruct (predict_row F (fun _ => mkRnd F (fun _ => f0 F) (fun _ => 0%Z)) h (mkNet (a :: r) false false) k m g 1 (fun _ => x') (mempty F)) as (h2 & E2 & _); auto; [discriminate|reflexivity|].
  rewrite (mgen_ext _ 1 k (fun _ => x) (fun _ => x')) in E1 by auto. rewrite E2 in E1. assert (E : mgen 1 m (fun _ : nat => g x') = mgen 1 m (fun _ : nat => g x)) by congruence. symmetry. exact (mgen_inj _ _ _ _ _ 0 j E (Nat.lt_0_1) Hj).
Qed.
Lemma chain_app : forall (h : heap F) l1 l2 k m g, chainRow F h (l1 ++ l2) k m g -> exists p g1 g2, chainRow F h l1 k p g1 /\ chainRow F h l2 p m g2 /\ g = (fun x => g2 (g1 x)).
Proof.
  intros h. induction l1 as [|a r IH]; intros l2 k m g C; cbn [app] in C.
  - exists k, (fun x => x), g. split; [split; reflexivity|]. split; [exact C|reflexivity].
  - cbn [chainRow] in C. destruct C as (l & p & g' & A & D & -> & C). destruct (IH l2 p m g' C) as (p' & g1 & g2 & C1 & C2 & ->).
    exists p', (fun x => g1 (rowFun F l k x)), g2. split; [cbn [chainRow]; exists l, p, g1; auto|]. split; [exact C2|reflexivity].
Qed.
Lemma app_chain : forall (h : heap F) l1 l2 k p m g1 g2, chainRow F h l1 k p g1 -> chainRow F h l2 p m g2 -> chainRow F h (l1 ++ l2) k m (fun x => g2 (g1 x)).
Proof.
  intros h. induction l1 as [|a r IH]; intros l2 k p m g1 g2 C1 C2; cbn [app].
  - destruct C1 as [-> ->]. exact C2.
  - cbn [chainRow] in C1 |- *. destruct C1 as (l & p' & g' & A & D & -> & C). exists l, p', (fun x => g2 (g' x)). split; auto. split; auto. split; [reflexivity|]. apply (IH l2 p' p m g' g2); auto.
Qed.
(* replacing consecutive layers by others that compute the same rows *)
Lemma swap_predict : forall (h : heap F) n n' pre mid mid' post k m, detNet F h n k m -> swapped n n' pre mid mid' post ->
  (forall p q g, chainRow F h mid p q g -> exists g', chainRow F h mid' p q g' /\ forall x j, j < q -> g' x j = g x j) -> detNet F h n' k m /\ samePredict h n n' k.
Proof.
  intros h n n' pre mid mid' post k m (Hne & Hd & Hc) (E1 & E2 & Hne' & Hd') Hm. apply chainRow_det in Hc. destruct Hc as [g Hc].
  assert (exists g', chainRow F h (nlay n') k m g' /\ forall x j, j < m -> g' x j = g x j) as (g' & Hc' & E).
  { pose proof Hc as C. rewrite E1 in C. apply chain_app in C. destruct C as (p & ga & gr & Ca & C & ->). apply chain_app in C. destruct C as (q & gm & gp & Cm & Cp & ->).
    destruct (Hm p q gm Cm) as (gm' & Cm' & Em). exists (fun x => gp (gm' (ga x))). split; [rewrite E2; apply (app_chain h pre (mid' ++ post) k p m ga (fun y => gp (gm' y))); auto; apply (app_chain h mid' post p q m gm' gp); auto|].
    intros x j Hj. assert (Hdp : NoDup post). { rewrite E2 in Hd'. apply NoDup_right in Hd'. apply NoDup_right in Hd'. exact Hd'. } apply (chain_local h post q m gp); auto. }
  split; [split; auto; split; auto; apply chainRow_det; eauto|]. intros rs rs' N X out out' W1 W2.
  destruct (predict_row F rs h n k m g N X out Hne Hd Hc W1) as (h1 & Q1 & _). destruct (predict_row F rs' h n' k m g' N X out' Hne' Hd' Hc' W2) as (h2 & Q2 & _).
  exists h1, h2, (mgen N m (fun i => g (X i))). split; [exact Q1|]. rewrite Q2. f_equal. f_equal. apply mgen_ext. intros i j Hi Hj. apply E; auto.
Qed.
(* a layer that does nothing at inference may be left out *)
Theorem drop_idle : forall (h : heap F) n n' pre a post l k m, detNet F h n k m -> swapped n n' pre [a] [] post -> hget F h a = Ok l -> idle (lk l) -> detNet F h n' k m /\ samePredict h n n' k.
Proof.
  intros h n n' pre a post l k m Hn Hs Ha Hi. apply (swap_predict h n n' pre [a] [] post k m Hn Hs). intros p q g (y & d & g' & A & D & -> & -> & ->). rewrite Ha in A. injection A; intros <-.
  assert (E : q = p /\ forall x j, rowFun F l p x j = x j). { unfold detLayer in D. unfold rowFun. unfold idle in Hi. destruct (lk l); try (exfalso; exact Hi); try (destruct D; split; [assumption|reflexivity]).
    match goal with o : option actKind |- _ => destruct o as [[]|] end; try (exfalso; exact Hi); destruct D; split; [assumption|reflexivity]. }
  destruct E as [-> E]. exists (fun x => x). split; [split; reflexivity|]. intros x j Hj. rewrite E. reflexivity.
Qed.
(* a Dense layer is a Dot layer followed by a Bias layer, bit for bit *)
Theorem dense_split : forall (h : heap F) n n' pre a b c post l l1 l2 i o i' o' k m, detNet F h n k m -> swapped n n' pre [a] [b; c] post -> hget F h a = Ok l -> hget F h b = Ok l1 -> hget F h c = Ok l2 ->
  lk l = KDense i o -> lk l1 = KDot i' o' -> lk l2 = KBias -> lw l1 = lw l -> lb l2 = lb l -> 0 < msize (lb l) -> detNet F h n' k m /\ samePredict h n n' k.
Proof.
  intros h n n' pre a b c post l l1 l2 i o i' o' k m Hn Hs Ha Hb Hc K0 K1 K2 E1 E2 Hz. apply (swap_predict h n n' pre [a] [b; c] post k m Hn Hs). intros p q g (y & d & g' & A & D & -> & -> & ->). rewrite Ha in A. injection A; intros <-.
  unfold detLayer in D. rewrite K0 in D. destruct D as [D1 D2]. pose proof D2 as (Q0 & Q1 & Q2). assert (Hq : 0 < q) by (unfold msize in Hz; nia).
  exists (fun x => rowFun F l2 q (rowFun F l1 p x)). split.
  - cbn [chainRow]. exists l1, q, (rowFun F l2 q). split; [exact Hb|]. split; [unfold detLayer; rewrite K1, E1; exact D1|]. split; [reflexivity|]. exists l2, q, (fun x => x). split; [exact Hc|].
    split; [unfold detLayer; rewrite K2, E2; split; [reflexivity|]; split; [exact Hq|]; split; [left; exact D2|lia]|]. split; [reflexivity|]. split; reflexivity.
  - intros x j Hj. unfold rowFun. rewrite K0, K1, K2, E1, E2. f_equal. rewrite (shaped_gen F (f0 F) _ _ _ D2). unfold cell. rewrite !cellD_gen. rewrite (proj2 (Nat.ltb_lt _ _) Hj). reflexivity.
Qed.
(* an Affine layer is a Gain layer followed by a Bias layer, bit for bit *)
Theorem affine_split : forall (h : heap F) n n' pre a b c post l l1 l2 k m, detNet F h n k m -> swapped n n' pre [a] [b; c] post -> hget F h a = Ok l -> hget F h b = Ok l1 -> hget F h c = Ok l2 ->
  lk l = KAffine -> lk l1 = KGain -> lk l2 = KBias -> lw l1 = lw l -> lb l2 = lb l -> 0 < msize (lb l) -> detNet F h n' k m /\ samePredict h n n' k.
Proof.
  intros h n n' pre a b c post l l1 l2 k m Hn Hs Ha Hb Hc K0 K1 K2 E1 E2 Hz. apply (swap_predict h n n' pre [a] [b; c] post k m Hn Hs). intros p q g (y & d & g' & A & D & -> & -> & ->). rewrite Ha in A. injection A; intros <-.
  unfold detLayer in D. rewrite K0 in D. destruct D as (-> & Hp & [[D1 D2]|(_ & _ & _ & D)]); [|lia].
  exists (fun x => rowFun F l2 p (rowFun F l1 p x)). split.
  - cbn [chainRow]. exists l1, p, (rowFun F l2 p). split; [exact Hb|]. split; [unfold detLayer; rewrite K1, E1; split; [reflexivity|]; split; [exact Hp|]; left; exact D1|]. split; [reflexivity|]. exists l2, p, (fun x => x). split; [exact Hc|].
    split; [unfold detLayer; rewrite K2, E2; split; [reflexivity|]; split; [exact Hp|]; split; [left; exact D2|lia]|]. split; [reflexivity|]. split; reflexivity.
  - intros x j Hj. unfold rowFun. rewrite K0, K1, K2, E1, E2. reflexivity.
Qed.
End Any.

Section Reals.
Variable jk : R.
Notation F := (ROps jk).
Lemma row_dense : forall (l : layer F) a b k x j, lk l = KDense a b -> rowFun F l k x j = (rsum k (fun p => x p * cell F (lw l) p j) + cell F (lb l) 0 j)%R.
Proof. intros l a b k x j E. unfold rowFun. rewrite E, fsum_R. reflexivity. Qed.
(* two Dense layers in a row are one Dense layer *)
Theorem dense_merge : forall (h : heap F) n n' pre a b c post l1 l2 l i1 o1 i2 o2 i o k m r q s (W B V C : nat -> nat -> R), detNet F h n k m -> swapped n n' pre [a; b] [c] post -> hget F h a = Ok l1 -> hget F h b = Ok l2 -> hget F h c = Ok l ->
  lk l1 = KDense i1 o1 -> lk l2 = KDense i2 o2 -> lk l = KDense i o -> lw l1 = @mgen R r q W -> lb l1 = @mgen R 1 q B -> lw l2 = @mgen R q s V -> lb l2 = @mgen R 1 s C ->
  lw l = @mgen R r s (fun p j => rsum q (fun u => W p u * V u j)%R) -> lb l = @mgen R 1 s (fun _ j => rsum q (fun u => B 0%nat u * V u j) + C 0%nat j)%R -> detNet F h n' k m /\ samePredict h n n' k.
Proof.
  intros h n n' pre a b c post l1 l2 l i1 o1 i2 o2 i o k m r q s W B V C Hn Hs Ha Hb Hc K1 K2 K0 EW EB EV EC EL ELB. apply (swap_predict F h n n' pre [a; b] [c] post k m Hn Hs).
  intros d1 d3 g (y & d2 & g' & A & D & -> & y' & d3' & g'' & A' & D' & -> & -> & ->). rewrite Ha in A. rewrite Hb in A'. injection A; intros <-. injection A'; intros <-.
  unfold detLayer in D, D'. rewrite K1 in D. rewrite K2 in D'. destruct D as [[_ [R1 R2]] _]. destruct D' as [[_ [R3 R4]] _]. rewrite EW in R1, R2. rewrite EV in R3, R4. cbn [mrows mcols mgen] in *. subst d1 d2 d3.
  exists (rowFun F l r). split.
  - cbn [chainRow]. exists l, s, (fun x => x). split; [exact Hc|]. split; [unfold detLayer; rewrite K0, EL, ELB; split; apply shaped_mgen|]. split; [reflexivity|]. split; reflexivity.
  - intros x j Hj. rewrite (row_dense l _ _ _ _ _ K0), (row_dense l2 _ _ _ _ _ K2), EL, ELB, EV, EC. unfold cell. rewrite !cellD_gen. rewrite (proj2 (Nat.ltb_lt _ _) Hj). cbn [andb Nat.ltb Nat.leb]. rewrite <- Rplus_assoc. f_equal.
    symmetry. rewrite (rsum_ext q _ (fun u => (rsum r (fun p => x p * W p u) * V u j) + B O u * V u j)%R).
    2:{ intros u Hu. cbv beta. rewrite (row_dense l1 _ _ _ _ _ K1), EW, EB. unfold cell. rewrite !cellD_gen. rewrite (proj2 (Nat.ltb_lt _ _) Hj), (proj2 (Nat.ltb_lt _ _) Hu). cbn [andb Nat.ltb Nat.leb].
        rewrite (rsum_ext r _ (fun p => (x p * W p u)%R)); [change (T F) with R in *; ring|]. intros p Hp. rewrite cellD_gen, (proj2 (Nat.ltb_lt _ _) Hp), (proj2 (Nat.ltb_lt _ _) Hu). reflexivity. }
    rewrite rsum_plus. f_equal. rewrite (rsum_ext r _ (fun p => rsum q (fun u => x p * W p u * V u j)%R)).
    2:{ intros p Hp. rewrite cellD_gen, (proj2 (Nat.ltb_lt _ _) Hp), (proj2 (Nat.ltb_lt _ _) Hj). cbn [andb]. rewrite <- rsum_scal. apply rsum_ext. intros u Hu. ring. }
    rewrite rsum_swap. apply rsum_ext. intros u Hu. rewrite <- rsum_scal_r. reflexivity.
Qed.
(* an Affine layer after a Dense layer is absorbed by it *)
Theorem affine_merge : forall (h : heap F) n n' pre a b c post l1 l2 l i1 o1 i o k m r q (W B G C : nat -> nat -> R), detNet F h n k m -> swapped n n' pre [a; b] [c] post -> hget F h a = Ok l1 -> hget F h b = Ok l2 -> hget F h c = Ok l ->
  lk l1 = KDense i1 o1 -> lk l2 = KAffine -> lk l = KDense i o -> lw l1 = @mgen R r q W -> lb l1 = @mgen R 1 q B -> lw l2 = @mgen R 1 q G -> lb l2 = @mgen R 1 q C ->
  lw l = @mgen R r q (fun p j => W p j * G 0%nat j)%R -> lb l = @mgen R 1 q (fun _ j => B 0%nat j * G 0%nat j + C 0%nat j)%R -> detNet F h n' k m /\ samePredict h n n' k.
Proof.
  intros h n n' pre a b c post l1 l2 l i1 o1 i o k m r q W B G C Hn Hs Ha Hb Hc K1 K2 K0 EW EB EV EC EL ELB. apply (swap_predict F h n n' pre [a; b] [c] post k m Hn Hs).
  intros d1 d3 g (y & d2 & g' & A & D & -> & y' & d3' & g'' & A' & D' & -> & -> & ->). rewrite Ha in A. rewrite Hb in A'. injection A; intros <-. injection A'; intros <-.
  unfold detLayer in D, D'. rewrite K1 in D. rewrite K2 in D'. destruct D as [[_ [R1 R2]] _]. destruct D' as [-> _]. rewrite EW in R1, R2. cbn [mrows mcols mgen] in *. subst d1 d2.
  exists (rowFun F l r). split.
  - cbn [chainRow]. exists l, q, (fun x => x). split; [exact Hc|]. split; [unfold detLayer; rewrite K0, EL, ELB; split; apply shaped_mgen|]. split; [reflexivity|]. split; reflexivity.
  - intros x j Hj. rewrite (row_dense l _ _ _ _ _ K0), EL, ELB. assert (E2 : rowFun F l2 q (rowFun F l1 r x) j = (rowFun F l1 r x j * G O j + C O j)%R).
    { unfold rowFun at 1. rewrite K2, EV, EC, !cellD_gen. rewrite (proj2 (Nat.ltb_lt _ _) Hj). reflexivity. }
    rewrite E2, (row_dense l1 _ _ _ _ _ K1), EW, EB. unfold cell. rewrite !cellD_gen. rewrite (proj2 (Nat.ltb_lt _ _) Hj). cbn [andb Nat.ltb Nat.leb].
    rewrite Rmult_plus_distr_r, <- Rplus_assoc. f_equal. f_equal. rewrite <- rsum_scal_r. apply rsum_ext. intros p Hp. rewrite !cellD_gen, (proj2 (Nat.ltb_lt _ _) Hp), (proj2 (Nat.ltb_lt _ _) Hj). cbn [andb]. ring.
Qed.
End Reals.
