(* TrainProofs7.v - patience and the learning rate; reboost *)
From Coq Require Import String List Arith Bool Lia ZArith Reals Lra.
From Verif Require Import Base Scalar Mat Loss Optim Regul Act LayMat LayImg LayRnn Layer Net NetTrain SpecNet SpecTrain NetProofs1 NetProofs2 TrainProofs1 TrainProofs2 TrainProofs3 TrainProofs4 TrainProofs5.
Import ListNotations.
Local Open Scope nat_scope.

Section Train.
Variable F : FOps.
Variable cabs : F -> res F.
Notation M := (mat F).
Notation kept := (kept F). Notation selHist := (selHist F). Notation hasVal := (hasVal F). Notation bestVal := (bestVal F). Notation betterThan := (betterThan F).

Lemma getLr_map : forall t t', map (olr F) (topts F t') = map (olr F) (topts F t) -> tc F t' = tc F t -> trGetLr F t' = trGetLr F t.
Proof. intros t t' H1 H2. unfold trGetLr. rewrite H2. destruct (topts F t'), (topts F t); simpl in H1; inversion H1; auto. Qed.

(* one epoch with patience, up to the reboost *)
Lemma patience_step : forall R mS mT e s s' c, epoch F cabs R mS mT e s = Ok s' -> nclass (sn F s) = c -> cPatience F (tc F (st F s)) <> (-1)%Z ->
  exists v s2, selHist c (hasVal (st F s)) (th F (st F s')) = selHist c (hasVal (st F s)) (th F (st F s)) ++ [v] /\ s' = epochReboost F s2 /\
  let b := betterThan c v (bestVal c s) in let k := if b then 0%Z else (tcur F (st F s) + 1)%Z in
  bestVal c s' = (if b then v else bestVal c s) /\
  if (cPatience F (tc F (st F s)) <? k)%Z
  then tcur F (st F s') = 0%Z /\ exists t, trGetLr F t = trGetLr F (st F s) /\ st F s2 = trSetLr F t (fdiv F (trGetLr F (st F s)) (fofN F 2))
  else tcur F (st F s') = k /\ trGetLr F (st F s2) = trGetLr F (st F s).
Proof.
  intros R mS mT e s s' c E Hc Hp. apply (epoch_split F cabs) in E. destruct E as (h1 & t1 & l & a & s2 & A1 & A2 & A3 & A4 & A5 & A6 & A7 & ->).
  destruct (reboost_facts F s2) as (C1 & C2 & C3 & C4 & C5 & C6 & C7 & C8 & C9 & C10). exists (if c then a else l), s2.
  split. { destruct A6 as (tl & ta & vl & va & B1 & B2 & B3 & B4 & B5 & B6). assert (Th : th F (st F (epochReboost F s2)) = th F t1) by (rewrite C8; apply (best_facts F cabs) in A7; tauto).
    rewrite Th. unfold SpecTrain.selHist, SpecTrain.hasVal. rewrite Hc in *. destruct c, (tval F (st F s)); subst; auto. }
  split; auto. cbv zeta. rewrite C9. unfold TrainProofs5.bestVal. rewrite C5, C6. clear C1 C2 C3 C4 C5 C6 C7 C8 C9 C10.
  apply epochBest_cases in A7. rewrite A4, A3 in A7. cbn [nclass] in A7. rewrite Hc in A7. destruct A7 as [(_ & Q & _)|(_ & b & h2 & b1 & k & Hb & Hk & A7)]; [congruence|].
  assert (Eb : betterThan c (if c then a else l) (if c then sacc F s else sloss F s) = b) by (unfold TrainProofs5.betterThan; rewrite Hb; destruct c; reflexivity). rewrite Eb. clear Eb Hb.
  assert (Ek : k = if b then 0%Z else (tcur F (st F s) + 1)%Z) by (destruct b; tauto). rewrite <- Ek. pose proof (getLr_map _ _ A5 A4) as L1. cbv zeta in A7.
  destruct A7 as [[[Q1 Q2] (h3 & n2 & E1 & ->)]|[Q ->]]; cbn [st sacc sloss tcur].
  - split; [destruct b, c; reflexivity|]. replace (cPatience F (tc F (st F s)) <? k)%Z with true by (symmetry; apply Z.ltb_lt; auto). split; [reflexivity|].
    exists (setCur F t1 0). split; [exact L1|]. rewrite L1. reflexivity.
  - split; [destruct b, c; reflexivity|]. destruct (Z.ltb_spec (cPatience F (tc F (st F s))) k); [tauto|]. split; [reflexivity|exact L1].
Qed.

(** * reboost *)
(* period N >= 0 (as stored): the counter, and the epochs after which the optimisers are re-initialised *)
Theorem reboost_period : forall R mS mT ss e N, (forall i, i < e -> epoch F cabs R mS mT i (ss i) = Ok (ss (S i))) ->
  sreb F (ss 0) = 0%Z -> cReboost F (tc F (st F (ss 0))) = Z.of_nat N -> forall i, i < e -> exists s2,
  (* s2: the state after training, evaluating and choosing the best network in epoch i *)
  (exists h1 n1 t1 h2 t2 l a, epochTrain F cabs R i (sh F (ss i)) (sn F (ss i)) (st F (ss i)) mS mT = Ok (h1, n1, t1) /\ epochStats F cabs R i h1 n1 t1 (mrows mS) = Ok (h2, t2, l, a) /\
     epochBest F R i (mkFS F h2 n1 t2 (sbest F (ss i)) (sacc F (ss i)) (sloss F (ss i)) (sreb F (ss i)) (if tcallback F t2 then scalls F (ss i) ++ [th F t2] else scalls F (ss i))) l a = Ok s2) /\
  topts F (st F (ss (S i))) = (if (S i) mod (S N) =? 0 then map (init F) (topts F (st F s2)) else topts F (st F s2)).
Proof.
  intros R mS mT ss e N H H0 HN.
  assert (G : forall i, i <= e -> sreb F (ss i) = Z.of_nat (i mod (S N))).
  { induction i as [|i IH]; intros Hi; [rewrite Nat.mod_0_l by lia; auto|].
    pose proof (H i ltac:(lia)) as E. pose proof (kept_flags _ _ _ (run_kept F cabs R mS mT ss e H (S i) ltac:(lia))) as (_ & _ & K & _).
    apply (epoch_split F cabs) in E. destruct E as (h1 & t1 & l & a & s2 & A1 & A2 & A3 & A4 & A5 & A6 & A7 & E). apply (best_facts F cabs) in A7. destruct A7 as (_ & _ & _ & B & _).
    cbn [sreb] in B. rewrite IH in B by lia. rewrite E in K |- *. destruct (reboost_facts F s2) as (_ & _ & _ & _ & _ & _ & _ & _ & _ & C). rewrite C, HN in K.
    destruct s2 as [h2 n2 t2 b2 aa ll reb calls]. cbn [st sreb] in *. unfold epochReboost. rewrite K. destruct (Z.eqb_spec (Z.of_nat N) (-1)); [lia|].
    pose proof (Nat.mod_upper_bound i (S N) ltac:(lia)) as Ub. destruct (Z.ltb_spec reb (Z.of_nat N)); cbn [sreb].
    - rewrite B. assert (Q : S i mod S N = S (i mod S N)). { symmetry. apply (Nat.mod_unique _ _ (i / S N)); [lia|]. pose proof (Nat.div_mod i (S N) ltac:(lia)). lia. } rewrite Q. lia.
    - assert (Q : S i mod S N = 0). { symmetry. apply (Nat.mod_unique _ _ (S (i / S N))); [lia|]. pose proof (Nat.div_mod i (S N) ltac:(lia)). assert (i mod S N = N) by lia. nia. } rewrite Q. reflexivity. }
  intros i Hi. pose proof (H i Hi) as E. pose proof (kept_flags _ _ _ (run_kept F cabs R mS mT ss e H (S i) ltac:(lia))) as (_ & _ & K & _).
  unfold epoch in E. apply bind_inv in E. destruct E as ([[h1 n1] t1] & E1 & E). apply bind_inv in E. destruct E as ([[[h2 t2] l] a] & E2 & E). cbv zeta in E. apply bind_inv in E. destruct E as (s2 & A7 & E).
  assert (E' : ss (S i) = epochReboost F s2) by congruence. clear E. rename E' into E. exists s2. split; [exists h1, n1, t1, h2, t2, l, a; auto|]. apply (best_facts F cabs) in A7. destruct A7 as (_ & _ & _ & B & _). clear h1 n1 t1 h2 t2 l a E1 E2.
  cbn [sreb] in B. rewrite G in B by lia. rewrite E in K |- *. destruct (reboost_facts F s2) as (_ & _ & _ & _ & _ & _ & _ & _ & _ & C). rewrite C, HN in K.
  destruct s2 as [h2 n2 t2 b2 aa ll reb calls]. cbn [st sreb] in *. unfold epochReboost. rewrite K. destruct (Z.eqb_spec (Z.of_nat N) (-1)); [lia|].
  pose proof (Nat.mod_upper_bound i (S N) ltac:(lia)) as Ub. destruct (Z.ltb_spec reb (Z.of_nat N)); cbn [st].
  - assert (Q : S i mod S N = S (i mod S N)). { symmetry. apply (Nat.mod_unique _ _ (i / S N)); [lia|]. pose proof (Nat.div_mod i (S N) ltac:(lia)). lia. } rewrite Q. reflexivity.
  - assert (Q : S i mod S N = 0). { symmetry. apply (Nat.mod_unique _ _ (S (i / S N))); [lia|]. pose proof (Nat.div_mod i (S N) ltac:(lia)). assert (i mod S N = N) by lia. nia. } rewrite Q. reflexivity.
Qed.
End Train.
