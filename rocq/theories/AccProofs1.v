(* AccProofs1.v - every accuracy that fit and compute_loss_accuracy report is the percentage of some count *)
From Coq Require Import String List Arith Bool Lia ZArith.
From Verif Require Import Base Scalar Mat SpecMat SpecData MatFacts MatLoops Loss Optim Regul Act LayMat LayImg LayRnn Layer Net NetTrain SpecNet SpecTrain NetProofs1 NetProofs2 TrainProofs1 TrainProofs2 TrainProofs3 TrainProofs4 TrainProofs6 FitRun SpecAcc.
Import ListNotations.
Local Open Scope nat_scope.

Section Train.
Variable F : FOps.
Variable cabs : F -> res F.
Notation M := (mat F).

Definition isPct (N : nat) (a : F) : Prop := a = f0 F \/ 0 < N /\ exists g, g <= N /\ a = pct F g N.

Lemma countGood_le : forall n (o y : M) g g', countGood F n o y g = Ok g' -> g' <= g + n.
Proof.
  intros n o y g g' E. unfold countGood in E. apply (forN_postI _ (fun i x => x <= g + i)) in E; [exact E|lia|].
  intros i s s1 Hi H Eb. binp Eb. injection Eb; intros; subst. destruct x; lia.
Qed.
Lemma compute_rows : forall k b (o y ml l : M), compute F cabs k b o y ml = Ok l -> mrows o = mrows y.
Proof.
  intros k b o y ml l E. assert (Q : forall A (p : bool) (x : res A) r, (assert_ p ;;; x) = Ok r -> p = true /\ x = Ok r) by (intros A [] x r; cbn; [auto|discriminate]).
  unfold compute in E. destruct k; repeat match type of E with (assert_ _ ;;; _) = _ => apply Q in E; destruct E as [? E] end;
  match goal with H : (mrows y =? mrows o) = true |- _ => apply Nat.eqb_eq in H; auto end.
Qed.
Lemma viewRow_rows : forall (x r : M) s e, viewRow F x s e = Ok r -> mrows r = e - s.
Proof. intros x r s e E. unfold viewRow in E. binp E. destruct (_ <=? _) in E; [|discriminate]. injection E; intros; subst. reflexivity. Qed.
Lemma ceil_all : forall N b, 0 < b -> Nat.min (ceilDiv N b * b) N = N.
Proof. intros N b H. unfold ceilDiv. pose proof (Nat.div_mod_eq (N + b - 1) b). pose proof (Nat.mod_upper_bound (N + b - 1) b ltac:(lia)). nia. Qed.

Lemma online_le : forall n t o y t', onlineStats F cabs n t o y = Ok t' -> tgood F t' <= tgood F t + mrows y.
Proof.
  intros n t o y t' E. unfold onlineStats in E. binp E. apply compute_rows in Ex. destruct (negb (nclass n)); [injection E; intros; subst; cbn; lia|].
  binp E. match goal with H : countGood _ _ _ _ _ = Ok _ |- _ => apply countGood_le in H; rewrite Ex in H end. injection E; intros; subst. cbn in *. lia.
Qed.
Lemma batch_le : forall rs h n t x y h' t', trainBatch F cabs rs h n t x y = Ok (h', t') -> tgood F t' <= tgood F t + mrows y.
Proof.
  intros rs h n t x y h' t' E. unfold trainBatch in E. binp E. injection E; intros; subst. apply backprop_post in Ex. destruct Ex as (_ & _ & _ & A). apply optimizeAll_post in Ex0. destruct Ex0 as (_ & _ & _ & B). apply online_le in Ex2. lia.
Qed.
Lemma oneEpoch_le : forall rs h n t x y h' t', trainOneEpoch F cabs rs h n t x y = Ok (h', t') -> tgood F t = 0 -> tgood F t' <= mrows x.
Proof.
  intros rs h n t x y h' t' E H0. unfold trainOneEpoch in E. destruct (Nat.eqb_spec (mrows x) 0); [injection E; intros; subst; lia|]. destruct (Nat.eqb_spec (tadj F t) 0); [discriminate|]. set (adj := tadj F t) in *. cbv zeta in E.
  apply (forN_postI _ (fun b p => tgood F (snd p) <= Nat.min (b * adj) (mrows x))) in E; [cbn in E; lia|cbn; lia|].
  intros b [h1 t1] [h2 t2] Hb I Eb. binp Eb. apply batch_le in Eb. apply viewRow_rows in Ex0. rewrite Ex0 in Eb. cbn [snd] in *. set (N := mrows x) in *. assert (b * adj < N) by (clear - Hb n0; unfold ceilDiv in Hb; pose proof (Nat.div_mod_eq (N + adj - 1) adj); nia). cbn. lia.
Qed.
Lemma epochTrain_le : forall R e h n t x y h' n' t', epochTrain F cabs R e h n t x y = Ok (h', n', t') -> tgood F t' <= mrows x.
Proof.
  intros R e h n t x y h' n' t' E. unfold epochTrain in E. cbv zeta in E. apply bind_inv in E. destruct E as ([x1 y1] & E1 & E). apply bind_inv in E. destruct E as ([h1 n1] & _ & E). apply bind_inv in E. destruct E as ([h2 t2] & E2 & E). binp E. injection E; intros; subst.
  apply oneEpoch_le in E2; [|reflexivity]. assert (mrows x1 = mrows x); [|lia]. destruct (_ <? _); [|injection E1; intros; subst; auto]. binp E1. injection E1; intros; subst.
  match goal with H : applyRowPermutation F _ x _ = Ok x1 |- _ => apply applyPerm_rows in H; auto end.
Qed.
Lemma eval_pct : forall rs h n t x y h' l a, lossAccuracy F cabs rs h n t x y = Ok (h', l, a) -> isPct (mrows x) a.
Proof.
  intros rs h n t x y h' l a E. unfold lossAccuracy in E. cbv zeta in E. unfold isPct. destruct (length (nlay n) =? 0); cbn [orb] in E; [injection E; intros; subst; auto|].
  destruct (Nat.eqb_spec (mrows x) 0); [injection E; intros; subst; auto|]. set (vb := cValBatch F (tc F t)) in *. destruct (Nat.eqb_spec vb 0); [discriminate|]. set (N := mrows x) in *.
  apply bind_inv in E. destruct E as ([[[[h1 o1] m1] l1] g1] & E1 & E2). apply Ok_inj in E2. injection E2; intros; subst. right. split; [lia|]. exists g1. split; [|reflexivity].
  apply (forN_postI _ (fun b p => snd p <= Nat.min (b * vb) N)) in E1; [cbn in E1; lia|cbn; lia|].
  intros b [[[[h2 o2] m2] l2] g2] [[[[h3 o3] m3] l3] g3] Hb I Eb. binp Eb. match goal with H : countGood _ _ _ _ _ = Ok _ |- _ => apply countGood_le in H end. injection Eb; intros; subst. cbn [snd] in *.
  assert (b * vb < N) by (clear - Hb n1; unfold ceilDiv in Hb; pose proof (Nat.div_mod_eq (N + vb - 1) vb); nia). cbn. lia.
Qed.
(* the history of one epoch *)
Lemma stats_pct : forall R e h n t N h' t' l a, epochStats F cabs R e h n t N = Ok (h', t', l, a) -> 0 < N -> tgood F t <= N ->
  (exists H', t' = setHist F t H' /\ (hTA F H' = hTA F (th F t) \/ exists a1, isPct N a1 /\ hTA F H' = hTA F (th F t) ++ [a1]) /\
   (hVA F H' = hVA F (th F t) \/ exists xv yv a1, tval F t = Some (xv, yv) /\ isPct (mrows xv) a1 /\ hVA F H' = hVA F (th F t) ++ [a1])).
Proof.
  intros R e h n t N h' t' l a E HN Hg. unfold epochStats in E. cbv zeta in E. assert (P : isPct N (fdiv F (fmul F (fofN F 100) (fofN F (tgood F t))) (fofN F N))) by (right; split; auto; exists (tgood F t); split; auto).
  destruct (tval F t) as [[xv yv]|] eqn:V.
  - apply bind_inv in E. destruct E as ([[h1 l1] a1] & E1 & E). apply Ok_inj in E. injection E; intros; subst. eexists. split; [reflexivity|]. apply eval_pct in E1; auto. split.
    + destruct (nclass n); cbn; [right; eexists; split; [exact P|reflexivity]|left; reflexivity].
    + right. exists xv, yv, a. split; auto. split; auto. destruct (nclass n); reflexivity.
  - apply Ok_inj in E. injection E; intros; subst. eexists. split; [reflexivity|]. split; [destruct (nclass n); cbn; [right; eexists; split; [exact P|reflexivity]|left; reflexivity]|left; destruct (nclass n); reflexivity].
Qed.
Definition accs (N : nat) (v : option (M * M)) (H : hist F) : Prop := Forall (isPct N) (hTA F H) /\ forall a, In a (hVA F H) -> exists xv yv, v = Some (xv, yv) /\ isPct (mrows xv) a.
Lemma epoch_pct : forall R mS mT e s s' v, epoch F cabs R mS mT e s = Ok s' -> 0 < mrows mS -> tval F (st F s) = v -> accs (mrows mS) v (th F (st F s)) -> accs (mrows mS) v (th F (st F s')).
Proof.
  intros R mS mT e s s' v E HN Hv [A B]. unfold epoch in E. apply bind_inv in E. destruct E as ([[h1 n1] t1] & E1 & E). apply bind_inv in E. destruct E as ([[[h2 t2] l] a] & E2 & E). cbv zeta in E. apply bind_inv in E. destruct E as (s2 & E3 & E). apply Ok_inj in E. subst s'.
  pose proof E1 as P. apply epochTrain_post in P. destruct P as (_ & Fz & ->). destruct Fz as (_ & _ & _ & _ & _ & _ & _ & Q7 & _ & Q9 & _). apply epochTrain_le in E1.
  apply stats_pct in E2; auto. destruct E2 as (H' & -> & C & D). rewrite Q7, Q9, Hv in *.
  assert (K : accs (mrows mS) v H').
  { split.
    - destruct C as [->|(a1 & P & ->)]; auto. apply Forall_app. auto.
    - intros z Hz. destruct D as [D|(xv & yv & a1 & V & P & D)]; rewrite D in Hz; auto. apply in_app_or in Hz. destruct Hz as [Hz|[<-|[]]]; eauto. }
  assert (T2 : th F (st F s2) = H').
  { unfold epochBest in E3. destruct (negb _ && _); [injection E3; intros; subst; reflexivity|]. cbv zeta in E3. apply bind_inv in E3. destruct E3 as ([[h3 b3] t3] & E4 & E3).
    assert (th F t3 = H') by (destruct (if nclass _ then _ else _); binp E4; injection E4; intros; subst; reflexivity).
    destruct (_ && _) in E3; [binp E3|]; injection E3; intros; subst; auto. }
  assert (T3 : th F (st F (epochReboost F s2)) = th F (st F s2)) by (destruct s2; unfold epochReboost; cbv zeta; destruct (_ =? _)%Z; auto; destruct (_ <? _)%Z; reflexivity).
  rewrite T3, T2. exact K.
Qed.
Theorem fit_pct : forall R h n t mS mT h' n' t' calls, fit F cabs R h n t = Ok (h', n', t', calls) -> nlay n <> [] -> ttrain F t = Some (mS, mT) -> 0 < mrows mS -> accs (mrows mS) (tval F t) (th F t').
Proof.
  intros R h n t mS mT h' n' t' calls E Hne Ht HN. apply fit_split in E; auto. destruct E as (h1 & t1 & mS' & mT' & ss & E1 & E2 & E3 & E4 & E5). rewrite Ht in E2. injection E2; intros; subst mS' mT'.
  apply setNet_post in E1. destruct E1 as (_ & _ & _ & _ & _ & _ & P1 & _ & _ & P4 & P5 & _).
  apply start_post in E3. destruct E3 as (Q1 & Q2 & Q3 & Q4 & Q5 & _ & _ & _ & Q6 & Q7 & Q8 & Q9 & _). apply end_post in E5. destruct E5 as [-> ->]. set (e := Z.to_nat (cEpochs F (tc F t))) in *.
  assert (G : forall i, i <= e -> accs (mrows mS) (tval F t) (th F (st F (ss i)))).
  { induction i as [|i IH]; intros Hi.
    - split; [rewrite Q7; constructor|rewrite Q9; contradiction].
    - pose proof (run_kept F cabs R mS mT ss e E4 i ltac:(lia)) as (_ & _ & _ & _ & _ & _ & _ & K1 & K2 & _). eapply epoch_pct; [apply E4; lia|auto| |apply IH; lia].
      rewrite K1, Q4, P4. reflexivity. }
  apply G. auto.
Qed.
End Train.
