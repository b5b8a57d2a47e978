(* OptProofs4.v - configuring an optimiser *)
From Coq Require Import List Arith Bool Lia ZArith Reals Lra.
From Verif Require Import Base Scalar SpecReal Mat SpecMat MatFacts MatProofs MatLoops Loss Optim SpecOpt OptProofs OptProofs3 SpecRestart.
Import ListNotations.

Section Restart.
Variable F : FOps.
(* configuring drops the history: any two objects of one class then train alike *)
Lemma restart_same : forall (o o' : opt F) lr dec mom r c (w : nat -> nat -> F) (gs : list (nat -> nat -> F)), okind F o = okind F o' -> wfOpt F o -> wfOpt F o' ->
  exists p p' w', optRun F (absFloat F) (set_params F o lr dec mom) (mgen r c w) (map (mgen r c) gs) = Ok (p, w') /\
    optRun F (absFloat F) (set_params F o' lr dec mom) (mgen r c w) (map (mgen r c) gs) = Ok (p', w').
Proof.
  intros o o' lr dec mom r c w gs K W W'. unfold set_params.
  set (x := mkOpt F (okind F o) lr dec mom (s_m F o) (s_v F o) (s_p F o) (b1p F o) (b2p F o)).
  set (x' := mkOpt F (okind F o') lr dec mom (s_m F o') (s_v F o') (s_p F o') (b1p F o') (b2p F o')).
  destruct (run_fresh F r c gs (init F x) w (fresh_init F x W)) as (p & E & _).
  destruct (run_fresh F r c gs (init F x') w (fresh_init F x' W')) as (p' & E' & _).
  exists p, p'. eexists. split; [exact E|]. rewrite E'. apply Ok_eq. f_equal. apply mgen_ext. intros i j _ _. f_equal.
  assert (I1 : forall y, okind F (init F y) = okind F y) by (intros y; unfold init; destruct (okind F y); reflexivity).
  rewrite !I1. change (okind F x) with (okind F o). change (okind F x') with (okind F o'). rewrite <- K. unfold crun0. apply crun_irrel; clear - K; unfold init, x, x'; cbn [okind olr odecay omom b1p b2p s_m s_v s_p];
    rewrite <- K; destruct (okind F o); cbn; intros H; first [discriminate H | reflexivity | split; reflexivity].
Qed.
(* so does changing the learning rate, and it keeps decay and momentum *)
Lemma rate_restart : forall (o o' : opt F) lr r c (w : nat -> nat -> F) (gs : list (nat -> nat -> F)), okind F o = okind F o' -> wfOpt F o -> wfOpt F o' ->
  odecay F o = odecay F o' -> omom F o = omom F o' ->
  exists p p' w', optRun F (absFloat F) (set_learningrate F o lr) (mgen r c w) (map (mgen r c) gs) = Ok (p, w') /\
    optRun F (absFloat F) (set_learningrate F o' lr) (mgen r c w) (map (mgen r c) gs) = Ok (p', w').
Proof.
  intros o o' lr r c w gs K W W' Hd Hm. destruct (restart_same o o' lr (odecay F o) (omom F o) r c w gs K W W') as (p & p' & w' & E & E').
  exists p, p', w'. split; [exact E|]. rewrite Hd, Hm in E'. exact E'.
Qed.
End Restart.

Local Open Scope R_scope.
Section Real.
Variable jk : R.
Notation F := (ROps jk).
Lemma dflt_R : forall x d : R, dflt F x d = orDefault x d.
Proof.
  intros. unfold dflt, orDefault, minus1. cbn. replace (- (1)) with (-1) by lra. unfold Reqb. destruct (Req_EM_T x (-1)); reflexivity.
Qed.
Lemma default_params : forall k (o : opt F), okind F o = k -> let '(lr, dec, mom) := optDefaults k in
  set_params F o (-1) (-1) (-1) = set_params F o lr dec mom /\ olr F (set_params F o (-1) (-1) (-1)) = lr /\ odecay F (set_params F o (-1) (-1) (-1)) = dec /\ omom F (set_params F o (-1) (-1) (-1)) = mom.
Proof.
  assert (D : forall d, orDefault (-1) d = d) by (intros; unfold orDefault; destruct (Req_EM_T (-1) (-1)); congruence).
  assert (N : forall d, d <> -1 -> forall e, orDefault d e = d) by (intros d Hd e; unfold orDefault; destruct (Req_EM_T d (-1)); congruence).
  intros k o Hk. unfold set_params, init. cbn [okind olr odecay omom s_m s_v s_p b1p b2p]. rewrite Hk. destruct k; cbn [optDefaults defaultLR okind olr odecay omom];
    rewrite ?dflt_R, ?D; cbn; rewrite ?N by lra; repeat split; try reflexivity; try lra; repeat f_equal; lra.
Qed.
Lemma given_params : forall k (o : opt F) lr dec mom, okind F o = k -> lr <> -1 -> dec <> -1 -> mom <> -1 ->
  olr F (set_params F o lr dec mom) = lr /\ odecay F (set_params F o lr dec mom) = dec /\ omom F (set_params F o lr dec mom) = mom.
Proof.
  assert (N : forall d, d <> -1 -> forall e, orDefault d e = d) by (intros d Hd e; unfold orDefault; destruct (Req_EM_T d (-1)); congruence).
  intros k o lr dec mom Hk H1 H2 H3. unfold set_params, init. cbn [okind olr odecay omom s_m s_v s_p b1p b2p]. rewrite Hk. destruct k; cbn [defaultLR okind olr odecay omom];
    rewrite ?dflt_R, ?N by auto; auto.
Qed.
Lemma unset_rate : forall k, olr F (newOpt F k) = unsetRate k /\ odecay F (newOpt F k) = -1 /\ omom F (newOpt F k) = -1.
Proof. intros k. destruct k; cbn; repeat split; lra. Qed.
(* a new optimiser that is not configured goes up the gradient *)
Lemma unset_ascends : forall r c (w g : nat -> nat -> R), exists o', optimize F (absFloat F) (newOpt F OSGD) (mgen r c w) (mgen r c g) = Ok (o', mgen r c (fun i j => w i j + g i j)).
Proof.
  intros r c w g. exists (newOpt F OSGD). unfold optimize. cbn [okind newOpt]. change (mrows (mgen r c w)) with r. change (mrows (mgen r c g)) with r. change (mcols (mgen r c w)) with c. change (mcols (mgen r c g)) with c.
  unfold assert_. rewrite !Nat.eqb_refl. cbn [bind]. unfold mscale. rewrite (@mapLoop_gen F). cbn [bind]. rewrite (msubM_gen F). cbn [bind]. apply Ok_eq. f_equal. apply mgen_ext. intros. cbn. ring.
Qed.
Lemma unset_refuted : exists w g w' : R, 0 < g /\ w < w' /\ exists o', optimize F (absFloat F) (newOpt F OSGD) (mgen 1 1 (fun _ _ => w)) (mgen 1 1 (fun _ _ => g)) = Ok (o', mgen 1 1 (fun _ _ => w')).
Proof. exists 0, 1, (0 + 1). split; [lra|]. split; [lra|]. exact (unset_ascends 1 1 (fun _ _ => 0) (fun _ _ => 1)). Qed.
End Real.
