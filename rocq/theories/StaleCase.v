(* StaleCase.v - corollaries of StaleRun.v, and recurrent layers, where buffers left by earlier calls do show *)
From Coq Require Import String List Arith Bool Lia ZArith QArith.
From Verif Require Import Base Scalar Mat SpecMat Loss Optim Regul LayMat LayImg Layer Net NetTrain NetProofs4 TrainProofs1 TrainProofs2 TrainProofs3 TrainProofs4 TrainProofs12 TrainProofs14 SpecFit FitLay1 FitNet1 FitNet3 SpecStale StaleNet StaleRun.
Import ListNotations.
Local Open Scope nat_scope.

Section Any.
Variable F : FOps.

Theorem fit_as_new : forall (R : fitRnd F) h n (t : trainer F) k m, 0 < length (nlay n) -> trainable h n t k m ->
  exists h' n' t1' t2' calls, fit F (absFloat F) R h n t = Ok (h', n', t1', calls) /\ fit F (absFloat F) R h n (asNew t) = Ok (h', n', t2', calls) /\
    th F t1' = th F t2' /\ topts F t1' = topts F t2' /\ tc F t1' = tc F t2'.
Proof.
  intros R h n t k m L T. destruct (fit_same F R h n t (asNew t) k m L T) as (h' & n' & t1' & t2' & c & E1 & E2 & (Q1 & _) & Q2 & Q3).
  - repeat split; constructor.
  - exists h', n', t1', t2', c. auto.
Qed.

Lemma fit_data : forall (R : fitRnd F) h n (t : trainer F) h' n' t' calls, fit F (absFloat F) R h n t = Ok (h', n', t', calls) -> ttrain F t' = ttrain F t /\ tval F t' = tval F t /\ tcallback F t' = tcallback F t.
Proof.
  intros R h n t h' n' t' calls E. destruct (list_eq_dec Nat.eq_dec (nlay n) []) as [Z|Z].
  - unfold fit in E. apply bind_inv in E. destruct E as ([h1 t1] & E1 & E). apply setNet_post in E1. destruct E1 as (_ & _ & _ & _ & _ & _ & P1 & P2 & P3 & P4 & P5 & _). rewrite P2, Z in E. cbn in E. inversion E. subst. auto.
  - apply fit_split in E; auto. destruct E as (h1 & t1 & mS & mT & ss & E1 & E2 & E3 & E4 & E5). apply setNet_post in E1. destruct E1 as (_ & _ & _ & _ & _ & _ & P1 & P2 & P3 & P4 & P5 & _).
    apply start_post in E3. destruct E3 as (_ & _ & Q1 & Q2 & Q3 & _).
    assert (G : forall i, i <= Z.to_nat (cEpochs F (tc F t)) -> ttrain F (st F (ss i)) = ttrain F t /\ tval F (st F (ss i)) = tval F t /\ tcallback F (st F (ss i)) = tcallback F t).
    { induction i as [|i IH]; intro Hi; [repeat split; congruence|]. destruct IH as (A1 & A2 & A3); [lia|]. pose proof (E4 i ltac:(lia)) as Ei. apply epoch_facts in Ei. destruct Ei as (K & _). destruct K as (_ & _ & _ & _ & _ & _ & K1 & K2 & K3 & _). repeat split; congruence. }
    specialize (G _ (le_n _)). unfold fitEnd in E5. apply bind_inv in E5. destruct E5 as ([h2 n2] & _ & E5). apply bind_inv in E5. destruct E5 as ([h3 n3] & _ & E5). inversion E5. subst. exact G.
Qed.

(* a trainer that has trained other networks *)
Theorem fit_after : forall (Rs : list (fitRnd F)) (R : fitRnd F) h0 n0 (t : trainer F) k0 m0, trainable h0 n0 t k0 m0 ->
  exists h1 n1 t1, fitRuns Rs h0 n0 t = Ok (h1, n1, t1) /\
    forall h n k m, 0 < length (nlay n) -> trainable h n t k m ->
      exists h' n' ta tb calls, fit F (absFloat F) R h n t1 = Ok (h', n', ta, calls) /\ fit F (absFloat F) R h n t = Ok (h', n', tb, calls) /\ th F ta = th F tb.
Proof.
  intros Rs R h0 n0 t k0 m0 T0.
  assert (G : forall Rs h0 n0 t0 k0 m0, trainable h0 n0 t0 k0 m0 -> likewise t t0 -> exists h1 n1 t1, fitRuns Rs h0 n0 t0 = Ok (h1, n1, t1) /\ likewise t t1).
  { clear. induction Rs as [|R Rs IH]; intros h0 n0 t0 k0 m0 T0 Lk; cbn [fitRuns]; [eauto 6|].
    destruct (fit_completes F R h0 n0 t0 k0 m0 T0) as (h1 & n1 & t1 & c & E & T1 & _ & _ & Ec & _). rewrite E. cbn [bind]. apply (IH h1 n1 t1 k0 m0 T1).
    destruct Lk as (A1 & A2 & A3 & A4 & _). assert (Q : ttrain F t1 = ttrain F t0 /\ tval F t1 = tval F t0 /\ tcallback F t1 = tcallback F t0) by (eapply fit_data; eauto). destruct Q as (Q1 & Q2 & Q3).
    unfold likewise. rewrite Ec, Q1, Q2, Q3. do 4 (split; [solve [auto]|]). split; apply T1. }
  assert (Lt : likewise t t) by (unfold likewise; do 4 (split; [reflexivity|]); split; apply T0).
  destruct (G Rs h0 n0 t k0 m0 T0 Lt) as (h1 & n1 & t1 & E & Lk). exists h1, n1, t1. split; auto.
  intros h n k m L T. destruct (fit_same F R h n t t1 k m L T Lk) as (h' & n' & ta & tb & c & E1 & E2 & _ & Q & _). exists h', n', tb, ta, c. auto.
Qed.
Theorem predict_stale : forall rs h n k m nb x o1 o2, NoDup (nlay n) -> 0 < length (nlay n) -> @stack F h (nlay n) k m -> shp nb k x -> mwf o1 -> mwf o2 ->
  exists h' y, predict F rs h n x o1 = Ok (h', y) /\ predict F rs h n x o2 = Ok (h', y).
Proof.
  intros rs h n k m nb x o1 o2 Hn L St Hx H1 H2. destruct (stack_dims F _ _ _ _ St) as (d & <- & <- & D).
  rewrite (predict_same F n d rs h x o1 o2 nb L D Hx H1 H2). destruct (predict_fits F n d Hn rs h x o2 nb L D Hx H2) as (h' & y & E & _). eauto.
Qed.
End Any.

(** * where earlier contents do show *)
Definition rnnHeap : heap QOps := [Some (layBase QOps (KSimpleRnn 1 1) "" "")].
Definition usedTr (x : Q) : trainer QOps := setInOut QOps (trOf (mkConf false 1 (-1) (-1) "SGD" (1#10)) 1 (Some data1) None) [mempty QOps; mlist 1 1 [x]].
Lemma predict_stale_refuted : exists rs h n x o1 o2, 0 < length (nlay n) /\ mwf x /\ mwf o1 /\ mwf o2 /\
  outOf (predict QOps rs h n x o1) = Some [5]%Q /\ outOf (predict QOps rs h n x o2) = Some [6]%Q.
Proof. exists (fun _ => noRnd), rnnHeap, reg1, (mlist 1 1 [1]%Q), (mlist 1 1 [5]%Q), (mlist 1 1 [6]%Q). vm_compute. auto 10. Qed.
Definition lossOf (r : res (heap QOps * net * trainer QOps * list (hist QOps))) : option (list Q) := match r with Ok (_, _, t, _) => Some (hTL QOps (th QOps t)) | Err _ => None end.
Lemma fit_stale_refuted : exists R h n t1 t2, 0 < length (nlay n) /\ likewise t1 t2 /\
  lossOf (fit QOps (absFloat QOps) R h n t1) = Some [25]%Q /\ lossOf (fit QOps (absFloat QOps) R h n t2) = Some [36]%Q.
Proof.
  exists noFR, rnnHeap, reg1, (usedTr 7), (usedTr 8). split; [cbn; lia|]. split; [|vm_compute; auto]. unfold likewise. do 4 (split; [reflexivity|]). split; repeat constructor.
Qed.
