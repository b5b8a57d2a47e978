(* OptProofs3.v - Adam-type optimisers, cloning, registries *)
From Coq Require Import List Arith Bool ZArith Lia Reals Lra Psatz String.
From Verif Require Import Base Scalar Mat SpecMat SpecReal RSum MatFacts MatProofs MatLoops Loss LossProofs Optim OptProofs SpecOpt OptProofs2.
Import ListNotations.
Local Open Scope R_scope.

Section R.
Variable jk : R.
Notation RF := (ROps jk).

Lemma iter1 : forall k n, (k = OAdam \/ k = OAdamW \/ k = ONadam \/ k = OAdamax) -> iterN n (next1 RF k) (b10 k) = (9/10) ^ (S n).
Proof.
  intros k n H. induction n.
  - destruct H as [->|[->|[->| ->]]]; simpl; lra.
  - rewrite iterN_S, IHn. destruct H as [->|[->|[->| ->]]]; unfold next1, beta1; simpl; ring.
Qed.
Lemma iter2 : forall k n, (k = OAdam \/ k = OAdamW \/ k = ONadam) -> iterN n (next2 RF k) (b20 k) = (999/1000) ^ (S n).
Proof.
  intros k n H. induction n.
  - destruct H as [->|[->| ->]]; simpl; lra.
  - rewrite iterN_S, IHn. destruct H as [->|[->| ->]]; unfold next2, beta2; simpl; ring.
Qed.

Lemma pow_lt1 : forall b n, 0 <= b < 1 -> b ^ (S n) < 1.
Proof.
  intros b n H. induction n; [simpl; lra|]. change (b ^ S (S n)) with (b * b ^ S n).
  assert (0 <= b ^ S n) by (apply pow_le; lra). nra.
Qed.

Lemma stdmax_R : forall a b, stdmax RF a b = Rmax a b.
Proof.
  intros. unfold stdmax. simpl. unfold Rltb. destruct (Rlt_dec a b).
  - rewrite Rmax_right; lra.
  - rewrite Rmax_left; lra.
Qed.
Lemma floor8_R : forall x, floor8 RF x = Rmax x (1/100000000).
Proof. intros. unfold floor8. rewrite stdmax_R. reflexivity. Qed.

Definition unitStep (g : R) : R := g / Rmax (Rabs g) (1/100000000).

Lemma unitStep_le : forall g, Rabs (unitStep g) <= 1.
Proof.
  intros. unfold unitStep, Rdiv. rewrite Rabs_mult, Rabs_inv. rewrite (Rabs_pos_eq (Rmax _ _)).
  2:{ apply Rle_trans with (Rabs g); [apply Rabs_pos|apply Rmax_l]. }
  assert (0 < Rmax (Rabs g) (1/100000000)) by (eapply Rlt_le_trans; [|apply Rmax_r]; lra).
  apply Rmult_le_reg_r with (Rmax (Rabs g) (1/100000000)); auto.
  rewrite Rmult_assoc, Rinv_l by lra. rewrite Rmult_1_r, Rmult_1_l. apply Rmax_l.
Qed.

Lemma sqrt_sq_abs : forall g, sqrt (g * g) = Rabs g.
Proof. intros. replace (g * g) with (Rsqr g) by reflexivity. apply sqrt_Rsqr_abs. Qed.

(* moments under a constant gradient *)
Lemma adam_const : forall k lr dec mom w g n, k = OAdam \/ k = OAdamW ->
  cm _ (fst (rseq jk k lr dec mom w (fun _ => g) n)) = (1 - (9/10)^n) * g /\
  cv _ (fst (rseq jk k lr dec mom w (fun _ => g) n)) = (1 - (999/1000)^n) * (g * g).
Proof.
  intros k lr dec mom w g n H. induction n as [|n (IH1 & IH2)].
  - destruct H; subst; simpl; split; ring.
  - rewrite rseq_S. destruct H; subst k; cbn [cstep fst cm cv]; unfold mix; rewrite IH1, IH2; unfold oneMinus, beta1, beta2, sqr; simpl; split; field.
Qed.

Lemma adam_update : forall k lr dec mom w g n, k = OAdam \/ k = OAdamW ->
  let p := rseq jk k lr dec mom w (fun _ => g) n in
  snd (rseq jk k lr dec mom w (fun _ => g) (S n)) =
  snd p - lr0 k lr * unitStep g - (match k with OAdamW => snd p * (1/1000000) | _ => 0 end).
Proof.
  intros k lr dec mom w g n H p. unfold p. rewrite rseq_S.
  pose proof (adam_const k lr dec mom w g (S n) H) as [E1 E2]. rewrite rseq_S in E1, E2.
  pose proof (pow_lt1 (9/10) n ltac:(lra)) as P1. pose proof (pow_lt1 (999/1000) n ltac:(lra)) as P2.
  pose proof (iter1 k n ltac:(tauto)) as I1. pose proof (iter2 k n ltac:(tauto)) as I2.
  assert (S1 : sqrt ((1 - (999/1000)^S n) * (g * g) * (1 / (1 - (999/1000)^S n))) = Rabs g).
  { rewrite <- sqrt_sq_abs. f_equal. field. lra. }
  destruct H; subst k; cbn [cstep fst snd cm cv] in *; rewrite I1, I2 in *; rewrite floor8_R; unfold oneMinus;
  cbn [fsub fmul fdiv fadd flm f1 ROps Rlibm]; rewrite E1, E2, S1; unfold lambda_regul, unitStep; cbn [flit ROps];
  assert (0 < Rmax (Rabs g) (1/100000000)) by (eapply Rlt_le_trans; [|apply Rmax_r]; lra);
  field; split; lra.
Qed.

Lemma adam_constant_gradient : forall lr dec mom r c n (g w : nat -> nat -> R), exists o m v,
  train jk OAdam lr dec mom r c n (fun _ => g) w =
    Ok (o, mgen r c (fun i j => w i j - INR n * (orDefault lr (1/1000) * (g i j / Rmax (Rabs (g i j)) (1/100000000))))) /\
  (n <> O -> s_m RF o = mgen r c m /\ s_v RF o = mgen r c v) /\
  forall i j, (i < r)%nat -> (j < c)%nat -> n <> O ->
    m i j / (1 - (9/10) ^ n) = g i j /\ v i j / (1 - (999/1000) ^ n) = g i j * g i j.
Proof.
  intros. destruct (train_ok jk OAdam lr dec mom r c n (fun _ => g) w) as (o & E & S & K).
  exists o, (fun i j => cm _ (fst (rseq jk OAdam lr dec mom (w i j) (fun _ => g i j) n))),
    (fun i j => cv _ (fst (rseq jk OAdam lr dec mom (w i j) (fun _ => g i j) n))).
  split; [|split].
  - eapply eq_trans; [exact E|]. apply Ok_eq. f_equal. apply mgen_ext. intros i j _ _. cbv beta. clear E S.
    induction n as [|n IH]; [simpl; ring|].
    pose proof (adam_update OAdam lr dec mom (w i j) (g i j) n ltac:(auto)) as U. cbv zeta in U. rewrite U, IH, S_INR.
    unfold lr0, unitStep. ring.
  - intros Hn. specialize (S Hn). unfold stored in S. rewrite K in S. exact S.
  - intros i j Hi Hj Hn. pose proof (adam_const OAdam lr dec mom (w i j) (g i j) n ltac:(auto)) as [E1 E2].
    rewrite E1, E2. destruct n; [congruence|].
    pose proof (pow_lt1 (9/10) n ltac:(lra)). pose proof (pow_lt1 (999/1000) n ltac:(lra)). split; field; lra.
Qed.

(* the second moment *)
Lemma second_nonneg : forall k lr dec mom w g n, hasSecond k -> (k = ORMSProp -> 0 <= orDefault dec (99/100) <= 1) ->
  0 <= cv _ (fst (rseq jk k lr dec mom w g n)).
Proof.
  intros k lr dec mom w g n H D. induction n as [|n IH].
  - destruct k; simpl in *; try tauto; lra.
  - rewrite rseq_S. assert (0 <= g n * g n) by nra.
    destruct k; simpl in H; try tauto; cbn [cstep fst cv]; unfold mix, sqr, oneMinus, beta2; cbn [fadd fmul fsub f1 flit ROps]; try nra.
    + specialize (D eq_refl). cbn [dec0]. nra.
    + rewrite stdmax_R. eapply Rle_trans; [|apply Rmax_r]. apply Rabs_pos.
Qed.

Lemma second_moment_nonneg : forall k lr dec mom r c n g w, hasSecond k -> (k = ORMSProp -> 0 <= orDefault dec (99/100) <= 1) ->
  n <> O -> exists o w' v, train jk k lr dec mom r c n g w = Ok (o, w') /\ s_v RF o = mgen r c v /\
  forall i j, (i < r)%nat -> (j < c)%nat -> 0 <= v i j.
Proof.
  intros k lr dec mom r c n g w H D Hn. destruct (train_ok jk k lr dec mom r c n g w) as (o & E & S & K).
  exists o. eexists. exists (fun i j => cv _ (fst (rseq jk k lr dec mom (w i j) (fun t => g t i j) n))).
  split; [exact E|]. split.
  - specialize (S Hn). unfold stored in S. rewrite K in S. destruct k; simpl in H; try tauto; try apply S.
  - intros. apply second_nonneg; auto.
Qed.

(* the first step *)
Lemma first_step : forall k lr dec mom r c g w, k = OAdam \/ k = OAdamax \/ k = OAdagrad -> 0 <= orDefault lr (1/1000) ->
  exists w', trained jk k lr dec mom r c 1 g w w' /\ forall i j, (i < r)%nat -> (j < c)%nat ->
  Rabs (w' i j - w i j) <= orDefault lr (1/1000).
Proof.
  intros k lr dec mom r c g w H L. eexists. split; [apply trained_rseq; intros; reflexivity|].
  intros i j Hi Hj. cbv beta.
  enough (E : snd (rseq jk k lr dec mom (w i j) (fun t => g t i j) 1) - w i j = - (orDefault lr (1/1000) * unitStep (g O i j))).
  { rewrite E, Rabs_Ropp, Rabs_mult, (Rabs_pos_eq (orDefault lr _)) by auto. pose proof (unitStep_le (g O i j)). nra. }
  destruct H as [->|[->| ->]].
  - pose proof (adam_update OAdam lr dec mom (w i j) (g O i j) 0 ltac:(auto)) as U. cbv zeta in U.
    transitivity (snd (rseq jk OAdam lr dec mom (w i j) (fun _ => g O i j) 1) - w i j); [reflexivity|].
    rewrite U. simpl. ring.
  - assert (0 < Rmax (Rabs (g O i j)) (1/100000000)) by (eapply Rlt_le_trans; [|apply Rmax_r]; lra).
    rewrite rseq_S. cbn [cstep snd]. rewrite floor8_R, stdmax_R. unfold mix, oneMinus, beta1, beta2, unitStep. simpl.
    rewrite !Rmult_0_l, (Rmax_right 0 (Rabs (g O i j))) by apply Rabs_pos. field. lra.
  - assert (0 < Rmax (Rabs (g O i j)) (1/100000000)) by (eapply Rlt_le_trans; [|apply Rmax_r]; lra).
    rewrite rseq_S. cbn [cstep snd]. rewrite floor8_R. unfold sqr, unitStep. simpl.
    rewrite Rplus_0_l, sqrt_sq_abs. field. lra.
Qed.

(* Adagrad never moves a coordinate by more than the learning rate *)
Lemma adagrad_step : forall lr dec mom r c n g w, 0 <= orDefault lr (1/1000) -> exists w1 w2,
  trained jk OAdagrad lr dec mom r c n g w w1 /\ trained jk OAdagrad lr dec mom r c (S n) g w w2 /\
  forall i j, (i < r)%nat -> (j < c)%nat -> Rabs (w2 i j - w1 i j) <= orDefault lr (1/1000).
Proof.
  intros lr dec mom r c n g w L. eexists. eexists. split; [|split]; [apply trained_rseq; intros; reflexivity| apply trained_rseq; intros; reflexivity|].
  intros i j Hi Hj. cbv beta. rewrite rseq_S.
  pose proof (second_nonneg OAdagrad lr dec mom (w i j) (fun t => g t i j) n I ltac:(discriminate)) as V.
  set (s := rseq jk OAdagrad lr dec mom (w i j) (fun t => g t i j) n) in *. cbn [cstep snd]. rewrite floor8_R. unfold sqr. simpl.
  set (x := g n i j). set (d := Rmax (sqrt (cv RF (fst s) + x * x)) (1 / 100000000)).
  assert (D : 0 < d) by (unfold d; eapply Rlt_le_trans; [|apply Rmax_r]; lra).
  assert (X : Rabs x <= d).
  { unfold d. eapply Rle_trans; [|apply Rmax_l]. rewrite <- sqrt_sq_abs. apply sqrt_le_1; nra. }
  fold (orDefault lr (1/1000)).
  replace (snd s + x / d * - orDefault lr (1 / 1000) - snd s) with (- (orDefault lr (1/1000) * (x / d))) by (field; lra).
  rewrite Rabs_Ropp, Rabs_mult, (Rabs_pos_eq (orDefault lr _)) by auto.
  enough (Rabs (x / d) <= 1) by nra.
  unfold Rdiv. rewrite Rabs_mult, Rabs_inv, (Rabs_pos_eq d) by lra.
  apply Rmult_le_reg_r with d; auto. rewrite Rmult_assoc, Rinv_l by lra. lra.
Qed.

(* denominators never decrease *)
Lemma denominators_grow : forall k lr dec mom r c n g w, k = OAdagrad \/ k = OAmsgrad -> n <> O ->
  let den (o : opt RF) := match k with OAdagrad => s_v RF o | _ => s_p RF o end in
  exists o1 w1 d1 o2 w2 d2,
  train jk k lr dec mom r c n g w = Ok (o1, w1) /\ train jk k lr dec mom r c (S n) g w = Ok (o2, w2) /\
  den o1 = mgen r c d1 /\ den o2 = mgen r c d2 /\
  forall i j, (i < r)%nat -> (j < c)%nat -> d1 i j <= d2 i j.
Proof.
  intros k lr dec mom r c n g w H Hn den.
  destruct (train_ok jk k lr dec mom r c n g w) as (o1 & E1 & S1 & K1).
  destruct (train_ok jk k lr dec mom r c (S n) g w) as (o2 & E2 & S2 & K2).
  specialize (S1 Hn). specialize (S2 ltac:(discriminate)). unfold stored in S1, S2. rewrite K1 in S1. rewrite K2 in S2.
  destruct H; subst k.
  - exists o1. eexists. eexists. exists o2. eexists. eexists. split; [exact E1|]. split; [exact E2|].
    split; [exact S1|]. split; [exact S2|].
    intros i j Hi Hj. cbv beta. rewrite rseq_S. cbn [cstep fst cv]. unfold sqr. simpl. nra.
  - exists o1. eexists. eexists. exists o2. eexists. eexists. split; [exact E1|]. split; [exact E2|].
    split; [exact (proj2 (proj2 S1))|]. split; [exact (proj2 (proj2 S2))|].
    intros i j Hi Hj. cbv beta. rewrite rseq_S. cbn [cstep fst cp]. rewrite stdmax_R. apply Rmax_r.
Qed.

(* AdamW, Nadam, Amsgrad and RMSProp do not have a first step bounded by the learning rate *)
Lemma first_step_refuted : exists g w w' : R, forall r c, let m (x : R) := (fun _ _ : nat => x) in
  trained jk ONadam 1 (-1) (-1) r c 1 (fun _ => m g) (m w) (m w') /\ Rabs (w' - w) > 34 * 1.
Proof.
  exists 1, 0, (- (109/100 / sqrt (1/1000))). intros r c m. split.
  - apply trained_rseq. intros i j _ _. rewrite rseq_S. cbn [cstep snd]. rewrite floor8_R. unfold mix, oneMinus, beta1, beta2, sqr, m. simpl.
    unfold orDefault. destruct (Req_EM_T 1 (-1)); [lra|].
    replace (0 * (999 / 1000) + 1 * 1 * (1 - 999 / 1000)) with (1/1000) by field.
    assert (S0 : (1/100) <= sqrt (1/1000)).
    { rewrite <- (sqrt_square (1/100)) by lra. apply sqrt_le_1; lra. }
    rewrite Rmax_left by lra. field. lra.
  - assert (S0 : 0 < sqrt (1/1000)) by (apply sqrt_lt_R0; lra).
    assert (S1 : sqrt (1/1000) < (32/1000)).
    { rewrite <- (sqrt_square (32/1000)) by lra. apply sqrt_lt_1; lra. }
    rewrite Rminus_0_r, Rabs_Ropp, Rabs_pos_eq.
    2:{ apply Rlt_le. apply Rdiv_lt_0_compat; lra. }
    apply Rlt_gt. rewrite Rmult_1_r. apply Rmult_lt_reg_r with (sqrt (1/1000)); auto.
    unfold Rdiv at 2. rewrite Rmult_assoc, Rinv_l by lra. lra.
Qed.
End R.

(** C34: cloning *)
Section Clone.
Variable F : FOps.

Definition usesDec k := match k with ORMSProp => true | _ => false end.
Definition usesMom k := match k with OMomentum | OMomentumNg | ONesterov => true | _ => false end.
Definition usesB k := match k with OAdam | OAdamW | ONadam | OAdamax => true | _ => false end.
Definition usesLr k := match k with ONone | ORPROPm | OiRPROPm => false | _ => true end.

Lemma crun_irrel : forall k gs lr dec mom b1 b2 lr' dec' mom' b1' b2' s (w : F),
  (usesLr k = true -> lr = lr') -> (usesDec k = true -> dec = dec') -> (usesMom k = true -> mom = mom') ->
  (usesB k = true -> b1 = b1' /\ b2 = b2') ->
  crun F k lr dec mom b1 b2 s w gs = crun F k lr' dec' mom' b1' b2' s w gs.
Proof.
  induction gs as [|g gs IH]; intros lr dec mom b1 b2 lr' dec' mom' b1' b2' s w HL HD HM HB; [reflexivity|].
  cbn [crun].
  assert (E : cstep F k lr dec mom b1 b2 s w g = cstep F k lr' dec' mom' b1' b2' s w g).
  { destruct k; simpl in HL, HD, HM, HB; try rewrite (HL eq_refl); try rewrite (HD eq_refl); try rewrite (HM eq_refl);
    try (destruct (HB eq_refl); subst); reflexivity. }
  rewrite E. apply IH; auto. intros H. destruct (HB H); subst; auto.
Qed.

Lemma clone_same : forall (o : opt F) r c (w : nat -> nat -> F) (gs : list (nat -> nat -> F)),
  okind F o <> OiRPROPm -> wfOpt F o ->
  opt_name (okind F (clone F o)) = opt_name (okind F o) /\
  exists o1 o2 w',
  optRun F (absFloat F) (init F o) (mgen r c w) (map (mgen r c) gs) = Ok (o1, w') /\
  optRun F (absFloat F) (init F (clone F o)) (mgen r c w) (map (mgen r c) gs) = Ok (o2, w').
Proof.
  intros o r c w gs K W.
  assert (Kc : okind F (clone F o) = okind F o) by (unfold clone; destruct (okind F o); reflexivity || congruence).
  split; [rewrite Kc; auto|].
  assert (Wc : wfOpt F (clone F o)) by (unfold clone; destruct (okind F o); repeat split; reflexivity).
  destruct (run_fresh F r c gs (init F o) w (fresh_init F o W)) as (o1 & E1 & _).
  destruct (run_fresh F r c gs (init F (clone F o)) w (fresh_init F _ Wc)) as (o2 & E2 & _).
  exists o1, o2. eexists. split; [exact E1|]. rewrite E2. apply Ok_eq. f_equal. apply mgen_ext. intros i j _ _. f_equal.
  assert (I1 : forall x, okind F (init F x) = okind F x) by (intros x; unfold init; destruct (okind F x); reflexivity).
  rewrite !I1, Kc. unfold crun0. apply crun_irrel; clear - K Kc; unfold init; rewrite Kc; unfold clone; clear Kc;
    destruct o as [k0 lr dec mom sm sv sp p q]; cbn [okind olr odecay omom b1p b2p] in *; destruct k0; cbn; intros H;
    first [discriminate H | reflexivity | split; reflexivity | exfalso; apply K; reflexivity].
Qed.
End Clone.

Lemma irprop_clone_refuted : forall jk : R, exists o : opt (ROps jk), exists g1 g2 : R,
  let M (x : R) : mat (ROps jk) := mgen 1 1 (fun _ _ => x) in
  create_optimizer "iRPROP-" = Some (okind _ o) /\
  opt_name (okind _ (clone _ o)) <> opt_name (okind _ o) /\
  exists o1 o2 w1 w2,
  optRun (ROps jk) (absFloat (ROps jk)) (init _ o) (M 0) [M g1; M g2] = Ok (o1, M w1) /\
  optRun (ROps jk) (absFloat (ROps jk)) (init _ (clone _ o)) (M 0) [M g1; M g2] = Ok (o2, M w2) /\ w1 <> w2.
Proof.
  intros jk. exists (newOpt (ROps jk) OiRPROPm), 1, (-1). intros M. split; [reflexivity|]. split; [discriminate|].
  destruct (run_fresh (ROps jk) 1 1 [fun _ _ => 1; fun _ _ => -1] (init (ROps jk) (newOpt (ROps jk) OiRPROPm)) (fun _ _ => 0)
    (fresh_init _ _ (wf_new _ _))) as (o1 & E1 & _).
  destruct (run_fresh (ROps jk) 1 1 [fun _ _ => 1; fun _ _ => -1] (init (ROps jk) (clone (ROps jk) (newOpt (ROps jk) OiRPROPm))) (fun _ _ => 0)
    (fresh_init _ _ (wf_new _ _))) as (o2 & E2 & _).
  exists o1, o2. eexists. eexists. split; [exact E1|]. split; [exact E2|].
  cbn -[Rlt_dec IZR]. unfold muUpdate, rpropMove, half. cbn -[Rlt_dec IZR]. unfold Rltb.
  repeat match goal with |- context [Rlt_dec ?a ?b] => destruct (Rlt_dec a b); try lra end.
Qed.

Local Open Scope string_scope.
(** registries *)
Lemma opt_registry : forall s, In s list_optimizers_available -> exists k, create_optimizer s = Some k /\ opt_name k = s.
Proof. intros s H. simpl in H. decompose [or] H; subst; try contradiction; eexists; split; reflexivity. Qed.
Lemma opt_registry_complete : forall k, In (opt_name k) list_optimizers_available /\ create_optimizer (opt_name k) = Some k.
Proof. destruct k; split; simpl; tauto || reflexivity. Qed.
Lemma opt_registry_unknown : forall s, ~ In s list_optimizers_available -> create_optimizer s = None.
Proof.
  intros s H. simpl in H. unfold create_optimizer.
  repeat match goal with |- context [if (s =? ?x)%string then _ else _] => destruct (String.eqb_spec s x); [subst; exfalso; apply H; tauto|] end.
  reflexivity.
Qed.
