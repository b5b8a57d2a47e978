(* TrainProofs5.v - keep-best returns the best evaluated model *)
From Coq Require Import String List Arith Bool Lia ZArith Reals Lra.
From Verif Require Import Base Scalar Mat Loss Optim Regul Act LayMat LayImg LayRnn Layer Net NetTrain SpecNet SpecTrain NetProofs1 NetProofs2 TrainProofs1 TrainProofs2 TrainProofs3 TrainProofs4.
Import ListNotations.
Local Open Scope nat_scope.

Section Train.
Variable F : FOps.
Variable cabs : F -> res F.
Notation M := (mat F).
Notation kept := (kept F). Notation histGrow := (histGrow F).
Notation copyOf := (copyOf F). Notation fastKind := (fastKind F). Notation sameParams := (sameParams F). Notation clonesOf := (clonesOf F).

(** * copies *)
Lemma clones_copy : forall h ls h' ls', clonesOf h ls h' ls' -> copyOf h ls h' ls'.
Proof.
  intros h ls h' ls' [H1 H2]. split; auto. intros i a Ha. destruct (H2 i a Ha) as (a' & l & c & r & A & B & C & D). apply clone_params in C. destruct C as (C1 & _ & _ & C2).
  exists a', l, c. repeat split; auto. rewrite C1. apply fastKind_idem.
Qed.
Lemma sameParams_trans' : forall a b c, fastKind (lk b) = fastKind (lk a) -> sameParams a b -> sameParams b c -> sameParams a c.
Proof.
  intros a b c Hk H1 H2. unfold SpecTrain.sameParams in *. destruct (lk a), (lk b); cbn [SpecTrain.fastKind] in Hk; try discriminate; intuition congruence.
Qed.
Lemma copy_trans : forall h1 l1 h2 l2 h3 l3, copyOf h1 l1 h2 l2 -> copyOf h2 l2 h3 l3 -> copyOf h1 l1 h3 l3.
Proof.
  intros h1 l1 h2 l2 h3 l3 [A1 A2] [B1 B2]. split; [congruence|]. intros i a Ha. destruct (A2 i a Ha) as (a' & l & c & C1 & C2 & C3 & C4 & C5).
  destruct (B2 i a' C1) as (b' & l' & c' & D1 & D2 & D3 & D4 & D5). rewrite C3 in D2. inversion D2; subst. exists b', l, c'. repeat split; auto; [congruence|].
  eapply sameParams_trans'; eauto.
Qed.
Lemma hget_same : forall h h' a, nth_error h' a = nth_error h a -> hget F h' a = hget F h a.
Proof. intros h h' a H. unfold hget, rget. rewrite H. reflexivity. Qed.
Lemma copy_frame : forall h ls h1 h2 ls', copyOf h ls h1 ls' -> (forall x, In x ls' -> nth_error h2 x = nth_error h1 x) -> copyOf h ls h2 ls'.
Proof.
  intros h ls h1 h2 ls' [H1 H2] Hs. split; auto. intros i a Ha. destruct (H2 i a Ha) as (a' & l & c & A & B & C & D & E). exists a', l, c. repeat split; auto.
  rewrite (hget_same h1 h2); auto. apply Hs. eapply nth_error_In; eauto.
Qed.
Lemma copy_frame_l : forall h0 h ls h1 ls', copyOf h ls h1 ls' -> (forall x, In x ls -> nth_error h0 x = nth_error h x) -> copyOf h0 ls h1 ls'.
Proof.
  intros h0 h ls h1 ls' [H1 H2] Hs. split; auto. intros i a Ha. destruct (H2 i a Ha) as (a' & l & c & A & B & C & D & E). exists a', l, c. repeat split; auto.
  rewrite (hget_same h h0); auto. apply Hs. eapply nth_error_In; eauto.
Qed.

(* a snapshot: the target's old layers are deleted, the copies are new objects *)
Lemma snapshot : forall rs h n o h' n', netAssign F false rs h n o = Ok (h', n') -> (forall x, In x (nlay o) -> x < length h) ->
  (forall x, In x (nlay o) -> nth_error h' x = nth_error h x) /\ length h <= length h' /\
  (forall x, In x (nlay n') -> length h <= x < length h') /\ copyOf h' (nlay o) h' (nlay n') /\
  (forall x, x < length h -> ~ In x (nlay n) -> nth_error h' x = nth_error h x) /\ (forall x, In x (nlay n) -> nth_error h' x = Some None).
Proof.
  intros rs h n o h' n' E Hin. apply assign_post in E; auto. destruct E as (A1 & A2 & A3 & A4 & A5 & A6 & A7 & A8 & A9).
  split; [intros x Hx; apply A7; auto|]. split; [lia|]. split; [intros x Hx; rewrite A1 in Hx; apply in_seq in Hx; lia|]. split.
  - apply clones_copy in A9. eapply copy_frame_l; [exact A9|]. intros x Hx. apply A7; auto.
  - split; auto. intros x Hx. apply A8; auto.
Qed.

(** * one epoch with keep-best and without patience *)
Notation selHist := (selHist F). Notation hasVal := (hasVal F).
Definition bestVal (c : bool) (s : fstate F) : F := if c then sacc F s else sloss F s.
Definition betterThan (c : bool) (new old : F) : bool := if c then flt F old new else flt F new old.

Definition keepInv (n0 : net) (href : heap F) (s : fstate F) : Prop :=
  nlay (sn F s) = nlay n0 /\ nclass (sn F s) = nclass n0 /\ (forall x, In x (nlay n0) -> x < length (sh F s)) /\
  (forall x, In x (tpw F (st F s) ++ tpb F (st F s)) -> In x (nlay n0)) /\
  (forall x, In x (nlay (sbest F s)) -> x < length (sh F s) /\ ~ In x (nlay n0)) /\
  copyOf href (nlay n0) (sh F s) (nlay (sbest F s)).

Lemma keep_step : forall R mS mT e s s' n0 href, epoch F cabs R mS mT e s = Ok s' ->
  cKeep F (tc F (st F s)) = true -> cPatience F (tc F (st F s)) = (-1)%Z -> keepInv n0 href s ->
  exists v, selHist (nclass n0) (hasVal (st F s)) (th F (st F s')) = selHist (nclass n0) (hasVal (st F s)) (th F (st F s)) ++ [v] /\
  (if betterThan (nclass n0) v (bestVal (nclass n0) s)
   then bestVal (nclass n0) s' = v /\ keepInv n0 (sh F s') s'
   else bestVal (nclass n0) s' = bestVal (nclass n0) s /\ keepInv n0 href s').
Proof.
  intros R mS mT e s s' n0 href E Hk Hp (I1 & I2 & I3 & I4 & I5 & I6). pose proof (epoch_facts _ _ _ _ _ _ _ _ E) as (K & _).
  apply epoch_split in E. destruct E as (h1 & t1 & l & a & s2 & A1 & A2 & A3 & A4 & A5 & A6 & A7 & ->).
  destruct (reboost_facts F s2) as (C1 & C2 & C3 & C4 & C5 & C6 & C7 & C8 & C9 & C10).
  assert (T1 : length h1 = length (sh F s)) by apply A1.
  assert (T2 : forall x, ~ In x (nlay n0) -> nth_error h1 x = nth_error (sh F s) x).
  { intros x Hx. apply A1. left. rewrite I1. intro Q. apply in_app_iff in Q. destruct Q as [Q|Q]; auto. }
  assert (I4' : forall x, In x (tpw F (st F (epochReboost F s2)) ++ tpb F (st F (epochReboost F s2))) -> In x (nlay n0)).
  { destruct K as (_ & _ & _ & _ & K1 & K2 & _). rewrite K1, K2. auto. }
  set (v := if nclass n0 then a else l). exists v. split.
  { destruct A6 as (tl & ta & vl & va & B1 & B2 & B3 & B4 & B5 & B6). assert (Th : th F (st F (epochReboost F s2)) = th F t1) by (rewrite C8; apply best_facts in A7; tauto).
    rewrite Th. unfold SpecTrain.selHist, SpecTrain.hasVal, v. rewrite I2 in *. destruct (nclass n0), (tval F (st F s)); subst; auto. }
  apply epochBest_cases in A7. rewrite A4 in A7. destruct A7 as [(Q & _)|(_ & b & h2 & b1 & c & Hb & Hc & Q)]; [congruence|]. cbn [nclass] in *. rewrite I2 in *.
  cbv zeta in Q. destruct Q as [[[_ Q] _]|[_ ->]]; [congruence|]. cbn [sh sn sbest sacc sloss st] in *.
  assert (Eb : betterThan (nclass n0) v (bestVal (nclass n0) s) = b) by (unfold betterThan, bestVal, v; rewrite Hb; destruct (nclass n0); reflexivity).
  rewrite Eb. clear Eb Hb. destruct b.
  - destruct Hc as [Hc ->]. apply snapshot in Hc; [|cbn [nlay]; rewrite I1, T1; auto]. cbn [nlay] in Hc. rewrite I1 in Hc. destruct Hc as (D1 & D2 & D3 & D4 & D5 & D6).
    split; [unfold bestVal, v; rewrite C5, C6; destruct (nclass n0); reflexivity|].
    unfold keepInv. rewrite C2, C3, C4. cbn [nlay nclass]. split; auto. split; auto. split; [intros x Hx; apply I3 in Hx; lia|]. split; auto. split.
    + intros x Hx. pose proof (D3 x Hx). split; [lia|]. intro Q. apply I3 in Q. lia.
    + exact D4.
  - destruct Hc as (-> & -> & ->). split; [unfold bestVal; rewrite C5, C6; destruct (nclass n0); reflexivity|].
    unfold keepInv. rewrite C2, C3, C4. cbn [nlay nclass]. split; auto. split; auto. split; [intros x Hx; rewrite T1; auto|]. split; auto. split.
    + intros x Hx. rewrite T1. auto.
    + eapply copy_frame; [exact I6|]. intros x Hx. apply T2. apply I5. auto.
Qed.

(* the final assignment *)
Lemma keep_end : forall R s n0 href h' n' t' calls, fitEnd F R s = Ok (h', n', t', calls) -> cKeep F (tc F (st F s)) = true -> keepInv n0 href s -> copyOf href (nlay n0) h' (nlay n').
Proof.
  intros R s n0 href h' n' t' calls E Hk (I1 & I2 & I3 & I4 & I5 & I6). unfold fitEnd in E. rewrite Hk in E. apply bind_inv in E. destruct E as ([h1 n1] & E1 & E). binp E. inversion E; subst. clear E.
  apply snapshot in E1; [|intros x Hx; apply I5; auto]. destruct E1 as (D1 & D2 & D3 & D4 & D5 & D6). apply clear_post in Ex. destruct Ex as (_ & X1 & X2 & X3 & X4).
  eapply copy_trans; [exact I6|]. eapply copy_frame; [eapply copy_frame_l; [exact D4|]|].
  - intros x Hx. symmetry. apply D1. auto.
  - intros x Hx. apply X3. intro Q. apply I5 in Q. apply D3 in Hx. lia.
Qed.
Lemma lossAcc_len : forall rs h n t x y h' l a, lossAccuracy F cabs rs h n t x y = Ok (h', l, a) -> length h' = length h.
Proof. intros. apply lossAccuracy_touch in H. apply H. Qed.
(* the first snapshot *)
Lemma keep_start : forall R h n t mS mT s, fitStart F cabs R h n t mS mT = Ok s -> cKeep F (tc F t) = true ->
  (forall x, In x (nlay n) -> x < length h) -> (forall x, In x (tpw F t ++ tpb F t) -> In x (nlay n)) -> keepInv n (sh F s) s.
Proof.
  intros R h n t mS mT s E Hk Hl Hp. apply start_post in E. destruct E as (Q1 & Q2 & Q3 & Q4 & Q5 & Q6 & Q7 & _ & _ & _ & _ & _ & _ & _ & _ & _ & _ & Q). rewrite Hk in Q.
  destruct Q as (h1 & l & a & E1 & E2 & _). assert (L1 : length h1 = length h). { destruct (match tval F t with Some p => p | None => (mS, mT) end) as [x y]. eapply lossAcc_len; eauto. }
  apply snapshot in E2; [|intros x Hx; rewrite L1; auto]. destruct E2 as (D1 & D2 & D3 & D4 & D5 & D6).
  unfold keepInv. rewrite Q1, Q6, Q7. split; auto. split; auto. split; [intros x Hx; apply Hl in Hx; lia|]. split; auto. split; auto.
  intros x Hx. pose proof (D3 x Hx). split; [lia|]. intro Q. apply Hl in Q. lia.
Qed.
End Train.

(** * over the reals *)
Section Real.
Variable jk : R.
Notation RF := (ROps jk).
Variable cabs : RF -> res RF.

Lemma better_signed : forall c x y, betterThan RF c x y = true <-> (signed c y < signed c x)%R.
Proof. intros c x y. unfold betterThan, signed. simpl. unfold Rltb. destruct c; destruct (Rlt_dec _ _); split; intros; try discriminate; try lra; auto. Qed.

Theorem keep_best : forall Rr h n t h' n' t' calls, fit RF cabs Rr h n t = Ok (h', n', t', calls) -> nlay n <> [] ->
  cKeep RF (tc RF t) = true -> cPatience RF (tc RF t) = (-1)%Z ->
  let e := Z.to_nat (cEpochs RF (tc RF t)) in let c := nclass n in let v := hasVal RF t in
  exists h1 t1 mS mT ss l0 a0 h0 j, setNet RF h n t = Ok (h1, t1) /\ ttrain RF t = Some (mS, mT) /\ fitStart RF cabs Rr h1 n t1 mS mT = Ok (ss 0) /\
    (forall i, i < e -> epoch RF cabs Rr mS mT i (ss i) = Ok (ss (S i))) /\ t' = st RF (ss e) /\
    (forall i, i <= e -> nlay (sn RF (ss i)) = nlay n) /\
    (let '(x, y) := match tval RF t with None => (mS, mT) | Some p => p end in lossAccuracy RF cabs (oFirst RF Rr) h1 n (st RF (ss 0)) x y) = Ok (h0, l0, a0) /\
    let score i := signed c (match i with 0 => if c then a0 else l0 | S k => nth k (selHist RF c v (th RF t')) 0%R end) in
    j <= e /\ (forall i, i <= e -> (score i <= score j)%R) /\ (forall i, i < j -> (score i < score j)%R) /\
    copyOf RF (sh RF (ss j)) (nlay n) h' (nlay n').
Proof.
  intros Rr h n t h' n' t' calls E Hne Hk Hp. cbv zeta. apply fit_split in E; auto. destruct E as (h1 & t1 & mS & mT & ss & E1 & E2 & E3 & E4 & E5).
  set (e := Z.to_nat (cEpochs RF (tc RF t))) in *.
  pose proof E1 as P. apply setNet_post in P. destruct P as (P1 & P2 & P3 & P4 & P5 & P6 & P7 & P8 & P9 & P10 & P11 & _).
  pose proof E3 as Q. apply start_post in Q. destruct Q as (Q1 & Q2 & Q3 & Q4 & Q5 & Q6 & Q7 & Q8 & W1 & W2 & W3 & W4 & _ & _ & _ & _ & _ & Q9). rewrite P7, Hk in Q9. rewrite P10 in Q9.
  destruct Q9 as (h0 & l0 & a0 & Q9 & Q10 & Q11 & Q12).
  assert (K0 : keepInv RF n (sh RF (ss 0)) (ss 0)).
  { eapply keep_start; eauto; [congruence| |].
    - intros x Hx. destruct (P4 x Hx) as [l El]. eapply hget_lt; eauto.
    - intros x Hx. rewrite P5, P6 in Hx. apply in_app_iff in Hx. destruct Hx as [Hx|Hx]; apply filter_In in Hx; tauto. }
  pose proof (end_post _ _ _ _ _ _ _ E5) as [-> _].
  pose (sc := fun (m i : nat) => signed (nclass n) (match i with 0 => if nclass n then a0 else l0 | S k => nth k (selHist RF (nclass n) (hasVal RF t) (th RF (st RF (ss m)))) 0%R end)).
  assert (G : forall m, m <= e -> length (selHist RF (nclass n) (hasVal RF t) (th RF (st RF (ss m)))) = m /\
     exists j, j <= m /\ sc m j = signed (nclass n) (bestVal RF (nclass n) (ss m)) /\ (forall i, i <= m -> (sc m i <= sc m j)%R) /\ (forall i, i < j -> (sc m i < sc m j)%R) /\ keepInv RF n (sh RF (ss j)) (ss m)).
  { induction m as [|m IH]; intros Hm.
    - split; [unfold SpecTrain.selHist; rewrite W1, W2, W3, W4; destruct (nclass n), (hasVal RF t); reflexivity|]. exists 0. split; auto. split; [unfold sc, bestVal; rewrite Q11, Q12; reflexivity|].
      split; [intros i Hi; replace i with 0 by lia; lra|]. split; [intros; lia|exact K0].
    - destruct IH as (L & j & J1 & J2 & J3 & J4 & J5); [lia|]. pose proof (run_kept RF cabs Rr mS mT ss e E4 m ltac:(lia)) as K. pose proof (kept_flags _ _ _ K) as (K1 & K2 & _).
      destruct (keep_step RF cabs Rr mS mT m (ss m) (ss (S m)) n _ (E4 m ltac:(lia)) ltac:(congruence) ltac:(congruence) J5) as (vv & V1 & V2).
      assert (Hv : hasVal RF (st RF (ss m)) = hasVal RF t). { unfold SpecTrain.hasVal. destruct K as (_ & _ & _ & _ & _ & _ & _ & K & _). rewrite K, Q4, P10. reflexivity. }
      rewrite Hv in V1. split; [rewrite V1, app_length, L; simpl; lia|].
      assert (Sold : forall i, i <= m -> sc (S m) i = sc m i). { intros [|i] Hi; auto. unfold sc. rewrite V1, app_nth1 by (rewrite L; lia). reflexivity. }
      assert (Snew : sc (S m) (S m) = signed (nclass n) vv). { unfold sc. rewrite V1, app_nth2, L, Nat.sub_diag by (rewrite L; lia). reflexivity. }
      destruct (betterThan RF (nclass n) vv (bestVal RF (nclass n) (ss m))) eqn:B.
      + apply better_signed in B. destruct V2 as [V2 V3]. exists (S m). split; auto. split; [rewrite Snew, V2; auto|]. split; [|split; auto].
        * intros i Hi. destruct (Nat.eq_dec i (S m)) as [->|N]; [lra|]. rewrite Sold, Snew by lia. pose proof (J3 i ltac:(lia)). lra.
        * intros i Hi. rewrite Sold, Snew by lia. pose proof (J3 i ltac:(lia)). lra.
      + assert (B' : ~ (signed (nclass n) (bestVal RF (nclass n) (ss m)) < signed (nclass n) vv)%R) by (intro Q; apply better_signed in Q; congruence). destruct V2 as [V2 V3].
        exists j. split; [lia|]. split; [rewrite Sold, V2 by lia; auto|]. split; [|split; auto].
        * intros i Hi. rewrite (Sold j) by lia. destruct (Nat.eq_dec i (S m)) as [->|N]; [rewrite Snew; lra|]. rewrite Sold by lia. apply J3. lia.
        * intros i Hi. rewrite !Sold by lia. auto. }
  destruct (G e ltac:(lia)) as (_ & j & J1 & J2 & J3 & J4 & J5).
  exists h1, t1, mS, mT, ss, l0, a0, h0, j. split; auto. split; auto. split; auto. split; auto. split; auto. split.
  { intros i Hi. destruct (G i Hi) as (_ & j' & _ & _ & _ & _ & K). apply K. }
  split; [exact Q9|]. split; auto. split; [exact J3|]. split; [exact J4|].
  eapply keep_end; eauto. pose proof (run_kept RF cabs Rr mS mT ss e E4 e ltac:(lia)) as K. apply kept_flags in K. destruct K as [K _]. congruence.
Qed.
End Real.
