(* TrainProofs4.v - the run of fit as a sequence of states; histories and callbacks *)
From Coq Require Import String List Arith Bool Lia ZArith.
From Verif Require Import Base Scalar Mat Loss Optim Regul Act LayMat LayImg LayRnn Layer Net NetTrain SpecNet SpecTrain NetProofs1 NetProofs2 TrainProofs1 TrainProofs2 TrainProofs3.
Import ListNotations.
Local Open Scope nat_scope.

Section Train.
Variable F : FOps.
Variable cabs : F -> res F.
Notation M := (mat F).
Notation kept := (kept F). Notation histGrow := (histGrow F).

Lemma assign_class : forall rs h n o h' n', netAssign F false rs h n o = Ok (h', n') -> nclass n' = nclass o /\ ntrain n' = false.
Proof. intros rs h n o h' n' E. unfold netAssign in E. binp E. inversion E; subst. unfold netClear in Ex. binp Ex. inversion Ex; subst. auto. Qed.

Lemma trSetLr_kept : forall t x, kept t (trSetLr F t x).
Proof. intros. repeat split; cbn; try reflexivity. apply map_length. Qed.
Lemma setCur_kept : forall t c, kept t (setCur F t c).
Proof. intros. repeat split; cbn; try reflexivity. destruct (tc F t); reflexivity. Qed.
Lemma reboost_facts : forall s, kept (st F s) (st F (epochReboost F s)) /\ sh F (epochReboost F s) = sh F s /\ sn F (epochReboost F s) = sn F s /\
  sbest F (epochReboost F s) = sbest F s /\ sacc F (epochReboost F s) = sacc F s /\ sloss F (epochReboost F s) = sloss F s /\
  scalls F (epochReboost F s) = scalls F s /\ th F (st F (epochReboost F s)) = th F (st F s) /\ tcur F (st F (epochReboost F s)) = tcur F (st F s) /\
  tc F (st F (epochReboost F s)) = tc F (st F s).
Proof.
  intros [h n t best A L reb calls]. unfold epochReboost. destruct (cReboost F (tc F t) =? -1)%Z; [|destruct (reb <? cReboost F (tc F t))%Z]; cbn; repeat split; try reflexivity;
    try (cbn; destruct (tc F t); reflexivity); try (cbn; apply map_length).
Qed.
Lemma best_facts : forall R e h n t best A L reb calls selL selA s2, epochBest F R e (mkFS F h n t best A L reb calls) selL selA = Ok s2 ->
  kept t (st F s2) /\ th F (st F s2) = th F t /\ scalls F s2 = calls /\ sreb F s2 = reb /\
  (nclass (sn F s2) = nclass n \/ cPatience F (tc F t) <> (-1)%Z /\ nclass (sn F s2) = nclass (sbest F s2)) /\
  (nclass (sbest F s2) = nclass n \/ nclass (sbest F s2) = nclass best).
Proof.
  intros R e h n t best A L reb calls selL selA s2 E. apply epochBest_cases in E. destruct E as [(_ & _ & ->)|(_ & b & h1 & b1 & c & Hb & Hc & E)].
  - cbn. split; [apply kept_refl|]. auto 6.
  - assert (B : nclass b1 = nclass n \/ nclass b1 = nclass best).
    { destruct b; destruct Hc as [Hc Hc']; [apply assign_class in Hc; tauto|destruct Hc' as [-> _]; auto]. }
    cbv zeta in E. destruct E as [[[_ Np] (h2 & n2 & E1 & ->)]|[_ ->]]; cbn [st th scalls sreb sn sbest].
    + apply assign_class in E1. split; [eapply kept_trans; [apply setCur_kept|apply trSetLr_kept]|]. repeat split; auto. right. split; auto. tauto.
    + split; [apply setCur_kept|]. repeat split; auto.
Qed.
Lemma epoch_facts : forall R mS mT e s s', epoch F cabs R mS mT e s = Ok s' ->
  kept (st F s) (st F s') /\ (exists l a, histGrow (sn F s) (st F s) (th F (st F s)) (th F (st F s')) l a) /\
  scalls F s' = (if tcallback F (st F s) then scalls F s ++ [th F (st F s')] else scalls F s) /\
  (nclass (sn F s') = nclass (sn F s) \/ cPatience F (tc F (st F s)) <> (-1)%Z /\ nclass (sn F s') = nclass (sbest F s')) /\
  (nclass (sbest F s') = nclass (sn F s) \/ nclass (sbest F s') = nclass (sbest F s)).
Proof.
  intros R mS mT e s s' E. apply epoch_split in E. destruct E as (h1 & t1 & l & a & s2 & A1 & A2 & A3 & A4 & A5 & A6 & A7 & ->).
  apply best_facts in A7. destruct A7 as (B1 & B2 & B3 & B4 & B5 & B6). destruct (reboost_facts s2) as (C1 & C2 & C3 & C4 & C5 & C6 & C7 & C8 & C9 & C10).
  rewrite C8, C7, C3, C4, B2, B3. cbn [nclass] in *. rewrite A4 in B5. split; [eapply kept_trans; [eapply kept_trans|]; eauto|]. split; [eauto|]. split; auto.
Qed.

(** * fit *)
Lemma fit_split : forall R h n t h' n' t' calls, fit F cabs R h n t = Ok (h', n', t', calls) -> nlay n <> [] ->
  exists h1 t1 mS mT ss, setNet F h n t = Ok (h1, t1) /\ ttrain F t = Some (mS, mT) /\ fitStart F cabs R h1 n t1 mS mT = Ok (ss 0) /\
    (forall i, i < Z.to_nat (cEpochs F (tc F t)) -> epoch F cabs R mS mT i (ss i) = Ok (ss (S i))) /\
    fitEnd F R (ss (Z.to_nat (cEpochs F (tc F t)))) = Ok (h', n', t', calls).
Proof.
  intros R h n t h' n' t' calls E Hne. unfold fit in E. apply bind_inv in E. destruct E as ([h1 t1] & E1 & E). pose proof E1 as P. apply setNet_post in P.
  destruct P as (_ & _ & _ & _ & _ & _ & P1 & P2 & P3 & _). rewrite P2 in E. destruct (Nat.eqb_spec (length (nlay n)) 0) as [Z|_]; [apply length_zero_iff_nil in Z; contradiction|].
  rewrite P1, P3 in E. destruct (ttrain F t) as [[mS mT]|] eqn:Ht; [|discriminate]. apply bind_inv in E. destruct E as (s0 & E2 & E). apply bind_inv in E. destruct E as (s1 & E3 & E).
  apply forN_states in E3. destruct E3 as (ss & S1 & S2 & S3). exists h1, t1, mS, mT, ss. rewrite S1, S2. auto.
Qed.
Lemma start_post : forall R h n t mS mT s, fitStart F cabs R h n t mS mT = Ok s ->
  sn F s = n /\ tc F (st F s) = tc F t /\ ttrain F (st F s) = ttrain F t /\ tval F (st F s) = tval F t /\ tcallback F (st F s) = tcallback F t /\
  tpw F (st F s) = tpw F t /\ tpb F (st F s) = tpb F t /\ tnl F (st F s) = tnl F t /\
  hTL F (th F (st F s)) = [] /\ hTA F (th F (st F s)) = [] /\ hVL F (th F (st F s)) = [] /\ hVA F (th F (st F s)) = [] /\
  tcur F (st F s) = 0%Z /\ tadj F (st F s) = (if (mrows mS <? cBatch F (tc F t)) || (cBatch F (tc F t) =? 0) then mrows mS else cBatch F (tc F t)) /\
  topts F (st F s) = map (init F) (topts F t) /\ sreb F s = 0%Z /\ scalls F s = [] /\
  (if cKeep F (tc F t) then
     exists h1 l a, (let '(x, y) := match tval F t with None => (mS, mT) | Some p => p end in lossAccuracy F cabs (oFirst F R) h n (st F s) x y) = Ok (h1, l, a) /\
       netAssign F false (oSnap0 F R) h1 netNew n = Ok (sh F s, sbest F s) /\ sacc F s = a /\ sloss F s = l
   else sh F s = h /\ sbest F s = netNew /\ sacc F s = f0 F /\ sloss F s = flit F 10000000000 1).
Proof.
  intros R h n t mS mT s E. unfold fitStart in E. apply bind_inv in E. destruct E as (t1 & E1 & E).
  assert (B : exists b, t1 = setBal F t b).
  { unfold updateClassWeight in E1. destruct (negb (nclass n) || negb (cBalancing F (tc F t))); [inversion E1; eauto|]. destruct (ttrain F t) as [[x y]|]; [|discriminate]. binp E1. inversion E1; eauto. }
  destruct B as [b ->]. cbv zeta in E. cbn [tc tval topts setOpts setAdj setHist setCur setBal] in E.
  destruct (cKeep F (tc F t)) eqn:K.
  - destruct (match tval F t with Some p => p | None => (mS, mT) end) as [x y] eqn:V. apply bind_inv in E. destruct E as ([[h1 l] a] & E2 & E).
    apply bind_inv in E. destruct E as ([h2 best] & E3 & E). inversion E; subst. cbn. repeat split; try reflexivity.
    exists h1, l, a. split; [exact E2|]. auto.
  - inversion E; subst. cbn. repeat split; reflexivity.
Qed.
Lemma end_post : forall R s h' n' t' calls, fitEnd F R s = Ok (h', n', t', calls) -> t' = st F s /\ calls = scalls F s.
Proof. intros R s h' n' t' calls E. unfold fitEnd in E. apply bind_inv in E. destruct E as ([h1 n1] & E1 & E). binp E. inversion E; auto. Qed.

(* what all states of the run have in common *)
Lemma run_kept : forall R mS mT ss e, (forall i, i < e -> epoch F cabs R mS mT i (ss i) = Ok (ss (S i))) -> forall i, i <= e -> kept (st F (ss 0)) (st F (ss i)).
Proof.
  intros R mS mT ss e H. induction i as [|i IH]; intros Hi; [apply kept_refl|]. eapply kept_trans; [apply IH; lia|]. eapply epoch_facts. apply H. lia.
Qed.
Lemma run_class : forall R mS mT ss e c, (forall i, i < e -> epoch F cabs R mS mT i (ss i) = Ok (ss (S i))) ->
  nclass (sn F (ss 0)) = c -> (nclass (sbest F (ss 0)) = c \/ cPatience F (tc F (st F (ss 0))) = (-1)%Z) -> forall i, i <= e -> nclass (sn F (ss i)) = c.
Proof.
  intros R mS mT ss e c H H0 Hp. assert (G : forall i, i <= e -> nclass (sn F (ss i)) = c /\ (nclass (sbest F (ss i)) = c \/ cPatience F (tc F (st F (ss 0))) = (-1)%Z)).
  { induction i as [|i IH]; intros Hi; [auto|]. destruct IH as [I1 I2]; [lia|]. pose proof (run_kept R mS mT ss e H i ltac:(lia)) as K. apply kept_flags in K. destruct K as (_ & K & _).
    destruct (epoch_facts _ _ _ _ _ _ (H i ltac:(lia))) as (_ & _ & _ & P1 & P2). rewrite K in P1. intuition congruence. }
  intros i Hi. apply G; auto.
Qed.

Lemma firstn_grow : forall A (X y : list A) j, (S j <= length X \/ y = []) -> firstn (S j) (X ++ y) = firstn (S j) X.
Proof. intros A X y j [H| ->]; [|rewrite app_nil_r; auto]. rewrite firstn_app. replace (S j - length X) with 0 by lia. simpl firstn at 2. apply app_nil_r. Qed.

(* the histories after i epochs; c: classification, v: validation data present, b: callback set *)
Definition histAt (c v b : bool) (i : nat) (s : fstate F) : Prop :=
  let H := th F (st F s) in
  length (hTL F H) = i /\ length (hTA F H) = (if c then i else 0) /\ length (hVL F H) = (if v then i else 0) /\ length (hVA F H) = (if v then i else 0) /\
  length (scalls F s) = (if b then i else 0) /\
  forall j, j < length (scalls F s) -> exists C, nth_error (scalls F s) j = Some C /\ hTL F C = firstn (S j) (hTL F H) /\ hTA F C = firstn (S j) (hTA F H) /\
    hVL F C = firstn (S j) (hVL F H) /\ hVA F C = firstn (S j) (hVA F H).
Lemma nil_len : forall A (l : list A), length l = 0 -> l = []. Proof. destruct l; simpl; [auto|discriminate]. Qed.
Lemma histAt_step : forall R mS mT e s s' c v b i, epoch F cabs R mS mT e s = Ok s' -> nclass (sn F s) = c ->
  v = (match tval F (st F s) with Some _ => true | None => false end) -> b = tcallback F (st F s) -> histAt c v b i s -> histAt c v b (S i) s'.
Proof.
  intros R mS mT e s s' c v b i E Hc Hv Hb (I1 & I2 & I3 & I4 & I5 & I6). apply epoch_facts in E.
  destruct E as (_ & (l & a & tl & ta & vl & va & E1 & E2 & E3 & E4 & _) & E5 & _). rewrite Hc in *.
  assert (E3' : hVL F (th F (st F s')) = hVL F (th F (st F s)) ++ (if v then [vl] else [])) by (rewrite E3, Hv; destruct (tval F (st F s)); reflexivity).
  assert (E4' : hVA F (th F (st F s')) = hVA F (th F (st F s)) ++ (if v then [va] else [])) by (rewrite E4, Hv; destruct (tval F (st F s)); reflexivity).
  clear E3 E4 Hv. unfold histAt. cbv zeta. rewrite <- Hb in E5.
  split; [rewrite E1, app_length; simpl; lia|]. split; [rewrite E2, app_length; destruct c; simpl; lia|].
  split; [rewrite E3', app_length; destruct v; simpl; lia|]. split; [rewrite E4', app_length; destruct v; simpl; lia|].
  split; [rewrite E5; destruct b; [rewrite app_length; simpl|]; lia|].
  intros j Hj. rewrite E5 in Hj. destruct b.
  - rewrite E5. rewrite app_length in Hj. simpl in Hj. destruct (Nat.eq_dec j (length (scalls F s))) as [->|Nj].
    + exists (th F (st F s')). rewrite nth_error_app2, Nat.sub_diag by lia. split; [reflexivity|]. rewrite I5.
      assert (Q : forall (X : list F), length X <= S i -> X = firstn (S i) X) by (intros; rewrite firstn_all2; auto).
      repeat split; apply Q.
      * rewrite E1, app_length; simpl; lia.
      * rewrite E2, app_length; destruct c; cbv iota in I2; simpl; lia.
      * rewrite E3', app_length; destruct v; cbv iota in I3; simpl; lia.
      * rewrite E4', app_length; destruct v; cbv iota in I4; simpl; lia.
    + destruct (I6 j) as (C & C1 & C2 & C3 & C4 & C5); [lia|]. exists C. rewrite nth_error_app1 by lia. split; auto.
      rewrite C2, C3, C4, C5, E1, E2, E3', E4'. clear E1 E2 E3' E4' E5 C2 C3 C4 C5. cbv iota in I5. rewrite !firstn_grow; auto; destruct c, v; cbv iota in I2, I3, I4 |- *; first [right; reflexivity|left; lia].
  - rewrite I5 in Hj. lia.
Qed.
Theorem fit_history : forall R h n t h' n' t' calls, fit F cabs R h n t = Ok (h', n', t', calls) -> nlay n <> [] ->
  (cKeep F (tc F t) = true \/ cPatience F (tc F t) = (-1)%Z \/ nclass n = true) ->
  let e := Z.to_nat (cEpochs F (tc F t)) in let v := match tval F t with Some _ => true | None => false end in
  length (hTL F (th F t')) = e /\ length (hTA F (th F t')) = (if nclass n then e else 0) /\
  length (hVL F (th F t')) = (if v then e else 0) /\ length (hVA F (th F t')) = (if v then e else 0) /\
  length calls = (if tcallback F t then e else 0) /\
  forall j, j < length calls -> exists C, nth_error calls j = Some C /\ hTL F C = firstn (S j) (hTL F (th F t')) /\ hTA F C = firstn (S j) (hTA F (th F t')) /\
    hVL F C = firstn (S j) (hVL F (th F t')) /\ hVA F C = firstn (S j) (hVA F (th F t')).
Proof.
  intros R h n t h' n' t' calls E Hne Hm. cbv zeta. apply fit_split in E; auto. destruct E as (h1 & t1 & mS & mT & ss & E1 & E2 & E3 & E4 & E5).
  apply setNet_post in E1. destruct E1 as (_ & _ & _ & _ & _ & _ & P1 & _ & _ & P4 & P5 & _).
  apply start_post in E3. destruct E3 as (Q1 & Q2 & Q3 & Q4 & Q5 & _ & _ & _ & Q6 & Q7 & Q8 & Q9 & _ & _ & _ & _ & Q10 & Q11).
  apply end_post in E5. destruct E5 as [-> ->]. set (e := Z.to_nat (cEpochs F (tc F t))) in *.
  assert (Hcl : forall i, i <= e -> nclass (sn F (ss i)) = nclass n).
  { intros i Hi. apply (run_class R mS mT ss e (nclass n) E4); auto; [rewrite Q1; auto|]. rewrite Q2, P1 in *.
    destruct (cKeep F (tc F t)) eqn:K.
    - destruct Q11 as (h2 & l & a & _ & A & _). apply assign_class in A. left; tauto.
    - destruct Q11 as (_ & -> & _). destruct Hm as [Hm|[Hm|Hm]]; [discriminate|auto|rewrite Hm; auto]. }
  assert (G : forall i, i <= e -> histAt (nclass n) (match tval F t with Some _ => true | None => false end) (tcallback F t) i (ss i)).
  { induction i as [|i IH]; intros Hi.
    - unfold histAt. cbv zeta. rewrite Q6, Q7, Q8, Q9, Q10. destruct (nclass n), (tval F t), (tcallback F t); simpl; repeat split; intros; lia.
    - pose proof (run_kept R mS mT ss e E4 i ltac:(lia)) as (_ & _ & _ & _ & _ & _ & _ & K1 & K2 & _).
      eapply histAt_step; [apply E4; lia|apply Hcl; lia| | |apply IH; lia].
      + rewrite K1, Q4, P4. reflexivity.
      + rewrite K2, Q5, P5. reflexivity. }
  apply (G e). auto.
Qed.
End Train.
