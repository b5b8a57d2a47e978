(* TrainProofs9.v - every parameter with its own optimiser and gradient; assignment of trainers *)
From Coq Require Import String List Arith Bool Lia ZArith.
From Verif Require Import Base Scalar Mat SpecMat Loss Optim Regul Act LayMat LayImg LayRnn Layer Net NetTrain SpecNet SpecTrain NetProofs1 NetProofs2 TrainProofs1 TrainProofs2 TrainProofs3 TrainProofs4.
Import ListNotations.
Local Open Scope nat_scope.

Lemma occ_filter : forall (p : nat -> bool) l a, NoDup l -> In a l -> occ a (filter p l) = if p a then 1 else 0.
Proof.
  intros p l a N I. unfold occ. destruct (p a) eqn:E.
  - assert (A : count_occ Nat.eq_dec (filter p l) a > 0). { apply count_occ_In, filter_In; auto. }
    assert (B : count_occ Nat.eq_dec (filter p l) a <= 1). { apply NoDup_count_occ, NoDup_filter; auto. } lia.
  - apply count_occ_not_In. intros J. apply filter_In in J. destruct J. congruence.
Qed.
Lemma rset_nth : forall A (l : list A) i x l', rset l i x = Ok l' -> length l' = length l /\ i < length l /\ forall j, nth_error l' j = if j =? i then Some x else nth_error l j.
Proof.
  intros A l i x l' E. unfold rset in E. destruct (i <? length l) eqn:L; [|discriminate]. inversion E; subst. apply Nat.ltb_lt in L.
  rewrite length_upd. split; [auto|split; [auto|]]. intros j. rewrite nth_error_upd. destruct (Nat.eqb_spec j i); [subst; rewrite ?Nat.eqb_refl; cbn [andb]|].
  - replace (i <? length l) with true by (symmetry; apply Nat.ltb_lt; auto). reflexivity.
  - destruct (Nat.eqb_spec i j); [congruence|reflexivity].
Qed.

Section Train.
Variable F : FOps.
Variable cabs : F -> res F.
Notation M := (mat F).

Lemma hset_nth : forall h a l h', hset F h a l = Ok h' -> length h' = length h /\ a < length h /\ forall b, nth_error h' b = if b =? a then Some (Some l) else nth_error h b.
Proof. intros h a l h' E. unfold hset in E. binp E. apply rset_nth in E. exact E. Qed.
Lemma hget_nth : forall h a l, hget F h a = Ok l <-> nth_error h a = Some (Some l).
Proof.
  intros h a l. unfold hget, rget. destruct (nth_error h a) as [[x|]|]; cbn; split; intros E; inversion E; auto.
Qed.
Lemma rget_nth : forall A (l : list A) i x, rget l i = Ok x <-> nth_error l i = Some x.
Proof. intros A l i x. unfold rget. destruct (nth_error l i); split; intros E; inversion E; auto. Qed.

(** * registration *)
Theorem registered : forall h n t h1 t1, setNet F h n t = Ok (h1, t1) -> NoDup (nlay n) ->
  (forall a, In a (tpw F t1 ++ tpb F t1) -> In a (nlay n)) /\ length (topts F t1) = length (tpw F t1) + length (tpb F t1) /\
  forall a, In a (nlay n) -> exists l, hget F h a = Ok l /\
    occ a (tpw F t1) = (if msize (lw l) =? 0 then 0 else 1) /\ occ a (tpb F t1) = (if msize (lb l) =? 0 then 0 else 1).
Proof.
  intros h n t h1 t1 E N. apply setNet_post in E.
  destruct E as (_ & A1 & A2 & A3 & A4 & A5 & _ & _ & _ & _ & _ & _ & k & _ & A6).
  split; [intros a Ha; rewrite A4, A5 in Ha; apply in_app_or in Ha; destruct Ha as [Ha|Ha]; apply filter_In in Ha; apply Ha|].
  split; [rewrite A6; apply repeat_length|].
  intros a Ha. destruct (A3 a Ha) as (l1 & E1).
  assert (Q : exists l, hget F h a = Ok l /\ lw l = lw l1 /\ lb l = lb l1).
  { destruct (nlay n) as [|b r] eqn:En; [destruct Ha|]. destruct (Nat.eq_dec b a).
    - subst b. destruct (A2 a eq_refl) as (l & B1 & B2). rewrite B2 in E1. inversion E1; subst. exists l. auto.
    - exists l1. split; auto. apply hget_nth. rewrite <- A1; [apply hget_nth; auto|]. cbn. congruence. }
  destruct Q as (l & E0 & W & B). exists l. split; auto. rewrite A4, A5, !occ_filter by auto. rewrite E1. unfold hasWeights, hasBiases. rewrite W, B.
  split; [destruct (msize (lw l1) =? 0)|destruct (msize (lb l1) =? 0)]; reflexivity.
Qed.

(** * one optimiser step per parameter *)
Notation stepOf := (stepOf F cabs).
Lemma optStep_nth : forall t k w g os w' g', optStep F cabs t k w g = Ok (os, w', g') ->
  exists o o', nth_error (topts F t) k = Some o /\ stepOf (cReg F (tc F t)) o w g o' w' /\ length os = length (topts F t) /\
  forall j, nth_error os j = if j =? k then Some o' else nth_error (topts F t) j.
Proof.
  intros t k w g os w' g' E. unfold optStep in E. binp E. inversion E; subst. apply rset_nth in Ex2. destruct Ex2 as (A & _ & B).
  exists x0, o. split; [apply rget_nth; auto|]. split; [|split; auto]. exists g'. split; auto.
  destruct (cReg F (tc F t)); [auto|inversion Ex; auto].
Qed.
Definition wInv (h : heap F) (t : trainer F) (i : nat) (p : heap F * trainer F) : Prop :=
  let '(h1, t1) := p in
  tc F t1 = tc F t /\ tpw F t1 = tpw F t /\ tpb F t1 = tpb F t /\ length (topts F t1) = length (topts F t) /\
  (forall j a, j < i -> nth_error (tpw F t) j = Some a -> exists l l1 o o', hget F h a = Ok l /\ hget F h1 a = Ok l1 /\ lb l1 = lb l /\ lgb l1 = lgb l /\
     nth_error (topts F t) j = Some o /\ stepOf (cReg F (tc F t)) o (lw l) (lgw l) o' (lw l1) /\ nth_error (topts F t1) j = Some o') /\
  (forall j, i <= j -> nth_error (topts F t1) j = nth_error (topts F t) j) /\
  (forall a, ~ In a (firstn i (tpw F t)) -> nth_error h1 a = nth_error h a).
Lemma firstn_In_nth : forall A (l : list A) i x, In x (firstn i l) -> exists j, j < i /\ nth_error l j = Some x.
Proof.
  intros A l. induction l as [|y l IH]; intros [|i] x H; cbn in H; try contradiction. destruct H as [<-|H]; [exists 0; split; [lia|auto]|].
  destruct (IH i x H) as (j & Hj & E). exists (S j). split; [lia|auto].
Qed.
Lemma firstn_S_nth : forall A (l : list A) i x, nth_error l i = Some x -> firstn (S i) l = firstn i l ++ [x].
Proof. intros A l. induction l as [|y l IH]; intros [|i] x H; cbn in *; try discriminate; [inversion H; auto|]. rewrite (IH i x H). reflexivity. Qed.
Lemma nodup_nth : forall (l : list nat) i j x, NoDup l -> nth_error l i = Some x -> nth_error l j = Some x -> i = j.
Proof. intros l i j x N A B. apply (proj1 (NoDup_nth_error l) N i j); [apply nth_error_Some; congruence|congruence]. Qed.
Lemma weights_step : forall h t i p p', NoDup (tpw F t) -> wInv h t i p -> optWeight F cabs i p = Ok p' -> wInv h t (S i) p'.
Proof.
  intros h t i [h1 t1] [h2 t2] N (C & W & B & L & D & K & U) E. unfold optWeight in E. binp E. inversion E; subst.
  rename l into os, x into a, x0 into l. apply rget_nth in Ex. rewrite W in Ex. apply optStep_nth in Ex1. destruct Ex1 as (o & o' & O1 & O2 & O3 & O4). rewrite C in O2.
  apply hset_nth in Ex2. destruct Ex2 as (_ & _ & H2).
  assert (Na : ~ In a (firstn i (tpw F t))). { intros I. apply firstn_In_nth in I. destruct I as (j & Hj & Ej). assert (j = i) by (eapply nodup_nth; eauto). lia. }
  unfold wInv. cbn [tc tpw tpb topts setOpts]. repeat split; auto; [congruence| | |].
  - intros j b Hj Eb. destruct (Nat.eq_dec j i).
    + subst j. rewrite Ex in Eb. inversion Eb; subst b. exists l, (setP l m0 m (lb l) (lgb l)), o, o'. apply hget_nth in Ex0. rewrite U in Ex0 by auto.
      split; [apply hget_nth; auto|]. split; [apply hget_nth; rewrite H2, Nat.eqb_refl; auto|]. cbn. split; auto. split; auto. rewrite <- (K i) by lia. split; auto. split; auto.
      rewrite O4, Nat.eqb_refl. auto.
    + destruct (D j b ltac:(lia) Eb) as (l0 & l1 & q & q' & A1 & A2 & A3 & A4 & A5 & A6 & A7). exists l0, l1, q, q'.
      split; auto. split. { apply hget_nth. rewrite H2. destruct (Nat.eqb_spec b a); [subst; exfalso; apply n; eapply nodup_nth; eauto|apply hget_nth; auto]. }
      repeat split; auto. rewrite O4. destruct (Nat.eqb_spec j i); [lia|auto].
  - intros j Hj. rewrite O4. destruct (Nat.eqb_spec j i); [lia|]. apply K. lia.
  - intros b Hb. rewrite (firstn_S_nth _ _ _ _ Ex) in Hb. rewrite H2. destruct (Nat.eqb_spec b a); [subst; exfalso; apply Hb, in_or_app; cbn; auto|].
    apply U. intros I. apply Hb, in_or_app. auto.
Qed.
Definition bInv (h : heap F) (t : trainer F) (i : nat) (p : heap F * trainer F) : Prop :=
  let '(h1, t1) := p in
  tc F t1 = tc F t /\ tpw F t1 = tpw F t /\ tpb F t1 = tpb F t /\ length (topts F t1) = length (topts F t) /\
  (forall j a, j < i -> nth_error (tpb F t) j = Some a -> exists l l1 o o', hget F h a = Ok l /\ hget F h1 a = Ok l1 /\ lw l1 = lw l /\ lgw l1 = lgw l /\
     nth_error (topts F t) (j + length (tpw F t)) = Some o /\ stepOf (cReg F (tc F t)) o (lb l) (lgb l) o' (lb l1) /\ nth_error (topts F t1) (j + length (tpw F t)) = Some o') /\
  (forall j, j < length (tpw F t) \/ i + length (tpw F t) <= j -> nth_error (topts F t1) j = nth_error (topts F t) j) /\
  (forall a, ~ In a (firstn i (tpb F t)) -> nth_error h1 a = nth_error h a).
Lemma biases_step : forall h t i p p', NoDup (tpb F t) -> bInv h t i p -> optBias F cabs i p = Ok p' -> bInv h t (S i) p'.
Proof.
  intros h t i [h1 t1] [h2 t2] N (C & W & B & L & D & K & U) E. unfold optBias in E. binp E. inversion E; subst.
  rename l into os, x into a, x0 into l. apply rget_nth in Ex. rewrite B in Ex. apply optStep_nth in Ex1. destruct Ex1 as (o & o' & O1 & O2 & O3 & O4). rewrite C in O2. rewrite W in *.
  apply hset_nth in Ex2. destruct Ex2 as (_ & _ & H2).
  assert (Na : ~ In a (firstn i (tpb F t))). { intros I. apply firstn_In_nth in I. destruct I as (j & Hj & Ej). assert (j = i) by (eapply nodup_nth; eauto). lia. }
  unfold bInv. cbn [tc tpw tpb topts setOpts]. repeat split; auto; [congruence| | |].
  - intros j b Hj Eb. destruct (Nat.eq_dec j i).
    + subst j. rewrite Ex in Eb. inversion Eb; subst b. exists l, (setP l (lw l) (lgw l) m0 m), o, o'. apply hget_nth in Ex0. rewrite U in Ex0 by auto.
      split; [apply hget_nth; auto|]. split; [apply hget_nth; rewrite H2, Nat.eqb_refl; auto|]. cbn. split; auto. split; auto. rewrite <- K by lia. split; auto. split; auto.
      rewrite O4, Nat.eqb_refl. auto.
    + destruct (D j b ltac:(lia) Eb) as (l0 & l1 & q & q' & A1 & A2 & A3 & A4 & A5 & A6 & A7). exists l0, l1, q, q'.
      split; auto. split. { apply hget_nth. rewrite H2. destruct (Nat.eqb_spec b a); [subst; exfalso; apply n; eapply nodup_nth; eauto|apply hget_nth; auto]. }
      repeat split; auto. rewrite O4. destruct (Nat.eqb_spec (j + length (tpw F t)) (i + length (tpw F t))); [lia|auto].
  - intros j Hj. rewrite O4. destruct (Nat.eqb_spec j (i + length (tpw F t))); [lia|]. apply K. lia.
  - intros b Hb. rewrite (firstn_S_nth _ _ _ _ Ex) in Hb. rewrite H2. destruct (Nat.eqb_spec b a); [subst; exfalso; apply Hb, in_or_app; cbn; auto|].
    apply U. intros I. apply Hb, in_or_app. auto.
Qed.
(* l is the layer before, l' after *)
Theorem optimizers_paired : forall h t h' t', optimizeAll F cabs h t = Ok (h', t') -> NoDup (tpw F t) -> NoDup (tpb F t) ->
  (forall i a, nth_error (tpw F t) i = Some a -> exists l l' o o', hget F h a = Ok l /\ hget F h' a = Ok l' /\
     nth_error (topts F t) i = Some o /\ nth_error (topts F t') i = Some o' /\ stepOf (cReg F (tc F t)) o (lw l) (lgw l) o' (lw l')) /\
  (forall i a, nth_error (tpb F t) i = Some a -> exists l l' o o', hget F h a = Ok l /\ hget F h' a = Ok l' /\
     nth_error (topts F t) (i + length (tpw F t)) = Some o /\ nth_error (topts F t') (i + length (tpw F t)) = Some o' /\ stepOf (cReg F (tc F t)) o (lb l) (lgb l) o' (lb l')) /\
  (forall a l l', hget F h a = Ok l -> hget F h' a = Ok l' -> (~ In a (tpw F t) -> lw l' = lw l) /\ (~ In a (tpb F t) -> lb l' = lb l)) /\
  (forall a, ~ In a (tpw F t) -> ~ In a (tpb F t) -> nth_error h' a = nth_error h a).
Proof.
  intros h t h' t' E Nw Nb. unfold optimizeAll in E. binp E. destruct x as [h1 t1].
  apply (forN_postI _ (wInv h t)) in Ex.
  3:{ intros i p p' _ I Eb. eapply weights_step; eauto. }
  2:{ unfold wInv. repeat split; auto. intros; lia. }
  destruct Ex as (C & W & B & L & D & K & U). rewrite firstn_all in U.
  apply (forN_postI _ (bInv h1 t1)) in E.
  3:{ intros i p p' _ I Eb. eapply biases_step; eauto. rewrite B. auto. }
  2:{ unfold bInv. repeat split; auto. intros; lia. }
  destruct E as (C' & W' & B' & L' & D' & K' & U'). rewrite W, B, C in *. rewrite firstn_all in U'.
  (* what the second loop does to a layer *)
  assert (G : forall a l1, hget F h1 a = Ok l1 -> exists l2, hget F h' a = Ok l2 /\ lw l2 = lw l1 /\ lgw l2 = lgw l1 /\ (~ In a (tpb F t) -> l2 = l1)).
  { intros a l1 H1. destruct (in_dec Nat.eq_dec a (tpb F t)) as [I|I].
    - destruct (In_nth_error _ _ I) as (j & Ej). destruct (D' j a ltac:(apply nth_error_Some; congruence) Ej) as (l & l2 & o & o' & Q1 & Q2 & Q3 & Q4 & _).
      rewrite H1 in Q1. inversion Q1; subst l. exists l2. repeat split; auto. intros; contradiction.
    - exists l1. split; [apply hget_nth; rewrite U' by auto; apply hget_nth; auto|]. auto. }
  (* and the first *)
  assert (G1 : forall a l, hget F h a = Ok l -> exists l1, hget F h1 a = Ok l1 /\ lb l1 = lb l /\ lgb l1 = lgb l /\ (~ In a (tpw F t) -> l1 = l)).
  { intros a l H1. destruct (in_dec Nat.eq_dec a (tpw F t)) as [I|I].
    - destruct (In_nth_error _ _ I) as (j & Ej). destruct (D j a ltac:(apply nth_error_Some; congruence) Ej) as (l0 & l2 & o & o' & Q1 & Q2 & Q3 & Q4 & _).
      rewrite H1 in Q1. inversion Q1; subst l0. exists l2. repeat split; auto. intros; contradiction.
    - exists l. split; [apply hget_nth; rewrite U by auto; apply hget_nth; auto|]. auto. }
  split; [|split; [|split]].
  - intros i a Ei. assert (Hi : i < length (tpw F t)) by (apply nth_error_Some; congruence). destruct (D i a Hi Ei) as (l & l1 & o & o' & Q1 & Q2 & Q3 & Q4 & Q5 & Q6 & Q7).
    destruct (G a l1 Q2) as (l2 & R1 & R2 & R3 & R4). exists l, l2, o, o'. repeat split; auto; [rewrite K' by auto; auto|rewrite R2; auto].
  - intros i a Ei. assert (Hi : i < length (tpb F t)) by (apply nth_error_Some; congruence). destruct (D' i a Hi Ei) as (l1 & l2 & o & o' & Q1 & Q2 & Q3 & Q4 & Q5 & Q6 & Q7).
    assert (X : exists l, hget F h a = Ok l /\ lb l1 = lb l /\ lgb l1 = lgb l).
    { destruct (in_dec Nat.eq_dec a (tpw F t)) as [I|I].
      - destruct (In_nth_error _ _ I) as (j & Ej). destruct (D j a ltac:(apply nth_error_Some; congruence) Ej) as (l0 & l3 & p & p' & S1 & S2 & S3 & S4 & _).
        rewrite S2 in Q1. inversion Q1; subst l3. exists l0. auto.
      - exists l1. split; auto. apply hget_nth. rewrite <- U by auto. apply hget_nth; auto. }
    destruct X as (l & X1 & X2 & X3). exists l, l2, o, o'. rewrite X2, X3 in Q6. repeat split; auto. rewrite <- K by lia. auto.
  - intros a l l' H1 H2. destruct (G1 a l H1) as (l1 & R1 & R2 & R3 & R4). destruct (G a l1 R1) as (l2 & S1 & S2 & S3 & S4). rewrite H2 in S1. inversion S1; subst l2.
    split; intros I; [rewrite S2, R4; auto|rewrite S4; auto].
  - intros a I1 I2. rewrite U', U; auto.
Qed.
End Train.
