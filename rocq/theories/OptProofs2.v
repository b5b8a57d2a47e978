(* OptProofs2.v - closed forms and invariants of the optimisers over the reals *)
From Coq Require Import List Arith Bool ZArith Lia Reals Lra Psatz.
From Verif Require Import Base Scalar Mat SpecMat SpecReal RSum MatFacts MatProofs MatLoops Loss LossProofs Optim OptProofs SpecOpt.
Import ListNotations.
Local Open Scope R_scope.

(* n-fold iteration *)
Fixpoint iterN {A} (n : nat) (f : A -> A) (x : A) : A := match n with O => x | S n => iterN n f (f x) end.
Lemma iterN_S : forall A n (f : A -> A) x, iterN (S n) f x = f (iterN n f x).
Proof. induction n; intros; simpl; auto. rewrite <- IHn. reflexivity. Qed.

Section Seq.
Variable F : FOps.
Lemma crun_snoc : forall k lr dec mom gs b1 b2 s w g,
  crun F k lr dec mom b1 b2 s w (gs ++ [g]) =
  cstep F k lr dec mom (iterN (length gs) (next1 F k) b1) (iterN (length gs) (next2 F k) b2)
    (fst (crun F k lr dec mom b1 b2 s w gs)) (snd (crun F k lr dec mom b1 b2 s w gs)) g.
Proof.
  induction gs as [|h gs IH]; intros; cbn [app crun length iterN fst snd].
  - symmetry; apply surjective_pairing.
  - rewrite IH. reflexivity.
Qed.
Definition cseq k lr dec mom b1 b2 (w : F) (g : nat -> F) (n : nat) : cst F * F :=
  crun F k lr dec mom b1 b2 (cinit F k (g O)) w (map g (seq 0 n)).
Lemma cseq_S : forall k lr dec mom b1 b2 w g n,
  cseq k lr dec mom b1 b2 w g (S n) =
  cstep F k lr dec mom (iterN n (next1 F k) b1) (iterN n (next2 F k) b2)
    (fst (cseq k lr dec mom b1 b2 w g n)) (snd (cseq k lr dec mom b1 b2 w g n)) (g n).
Proof.
  intros. unfold cseq. rewrite seq_S, map_app. cbn [map]. rewrite crun_snoc, map_length, seq_length. reflexivity.
Qed.
Lemma cseq_0 : forall k lr dec mom b1 b2 w g, cseq k lr dec mom b1 b2 w g 0 = (cinit F k (g O), w).
Proof. reflexivity. Qed.
End Seq.

Section R.
Variable jk : R.
Notation RF := (ROps jk).

(* hyper-parameters after set_params *)
Definition lr0 (k : optKind) (lr : R) : R :=
  match k with
  | ONone | ORPROPm | OiRPROPm => lr
  | OStep | OMomentumNg => orDefault lr (1/10)
  | OSGD | OMomentum | ONesterov | ORMSProp | OAmsgrad => orDefault lr (1/100)
  | OAdagrad | OAdam | OAdamW | OAdamax => orDefault lr (1/1000)
  | ONadam => orDefault lr (2/1000)
  end.
Definition dec0 k (d : R) : R := match k with ORMSProp => orDefault d (99/100) | _ => d end.
Definition mom0 k (d : R) : R := match k with OMomentum | OMomentumNg | ONesterov => orDefault d (9/10) | _ => d end.
Definition b10 k : R := match k with OAdam | OAdamW | ONadam | OAdamax => 9/10 | _ => 0 end.
Definition b20 k : R := match k with OAdam | OAdamW | ONadam | OAdamax => 999/1000 | _ => 0 end.

Lemma dflt_R : forall x d, dflt RF x d = orDefault x d.
Proof.
  intros. unfold dflt, orDefault, minus1. simpl. unfold Reqb. replace (- (1)) with (-1) by lra. destruct (Req_EM_T x (-1)); auto.
Qed.

Definition rseq k lr dec mom (w : R) (g : nat -> R) n : cst RF * R :=
  cseq RF k (lr0 k lr) (dec0 k dec) (mom0 k mom) (b10 k) (b20 k) w g n.

Lemma train_ok : forall k lr dec mom r c n g w, exists o',
  train jk k lr dec mom r c n g w = Ok (o', mgen r c (fun i j => snd (rseq k lr dec mom (w i j) (fun t => g t i j) n))) /\
  (n <> O -> stored RF r c o' (fun i j => fst (rseq k lr dec mom (w i j) (fun t => g t i j) n))) /\ okind RF o' = k.
Proof.
  intros. unfold train.
  destruct (run_fresh RF r c (map g (seq 0 n)) (set_params RF (newOpt RF k) lr dec mom) w (fresh_set_params RF _ _ _ _))
    as (o' & E & S & K & _).
  assert (H : forall i j, snd (crun0 RF (okind RF (set_params RF (newOpt RF k) lr dec mom)) (olr RF (set_params RF (newOpt RF k) lr dec mom))
    (odecay RF (set_params RF (newOpt RF k) lr dec mom)) (omom RF (set_params RF (newOpt RF k) lr dec mom))
    (b1p RF (set_params RF (newOpt RF k) lr dec mom)) (b2p RF (set_params RF (newOpt RF k) lr dec mom)) (w i j)
    (map (fun g => g i j) (map g (seq 0 n)))) = snd (rseq k lr dec mom (w i j) (fun t => g t i j) n) /\
    (n <> O -> fst (crun0 RF (okind RF (set_params RF (newOpt RF k) lr dec mom)) (olr RF (set_params RF (newOpt RF k) lr dec mom))
    (odecay RF (set_params RF (newOpt RF k) lr dec mom)) (omom RF (set_params RF (newOpt RF k) lr dec mom))
    (b1p RF (set_params RF (newOpt RF k) lr dec mom)) (b2p RF (set_params RF (newOpt RF k) lr dec mom)) (w i j)
    (map (fun g => g i j) (map g (seq 0 n)))) = fst (rseq k lr dec mom (w i j) (fun t => g t i j) n))).
  { intros i j. rewrite map_map. unfold rseq, cseq, crun0.
    replace (okind RF (set_params RF (newOpt RF k) lr dec mom)) with k by (destruct k; reflexivity).
    replace (olr RF (set_params RF (newOpt RF k) lr dec mom)) with (lr0 k lr) by (destruct k; cbn; rewrite ?dflt_R; reflexivity).
    replace (odecay RF (set_params RF (newOpt RF k) lr dec mom)) with (dec0 k dec) by (destruct k; cbn; rewrite ?dflt_R; reflexivity).
    replace (omom RF (set_params RF (newOpt RF k) lr dec mom)) with (mom0 k mom) by (destruct k; cbn; rewrite ?dflt_R; reflexivity).
    replace (b1p RF (set_params RF (newOpt RF k) lr dec mom)) with (b10 k) by (destruct k; reflexivity).
    replace (b2p RF (set_params RF (newOpt RF k) lr dec mom)) with (b20 k) by (destruct k; reflexivity).
    destruct n; [split; [reflexivity|congruence]|]. cbn [seq map hd]. auto. }
  exists o'. rewrite (map_map g (mgen r c)) in E. repeat split.
  - eapply eq_trans; [exact E|]. apply Ok_eq. f_equal. apply mgen_ext. intros i j _ _. exact (proj1 (H i j)).
  - intros Hn. specialize (S ltac:(destruct n; [congruence|discriminate])). unfold stored in S |- *.
    assert (E1 : forall i j, fst (rseq k lr dec mom (w i j) (fun t => g t i j) n) = _) by (intros i j; symmetry; apply (proj2 (H i j) Hn)).
    destruct (okind RF o'); auto; repeat match goal with H : _ /\ _ |- _ => destruct H end; repeat split;
    match goal with H : ?x = _ |- ?x = _ => rewrite H; apply mgen_ext; intros; rewrite E1; reflexivity end.
  - rewrite K. destruct k; reflexivity.
Qed.

Lemma trained_rseq : forall k lr dec mom r c n g w w',
  (forall i j, (i < r)%nat -> (j < c)%nat -> w' i j = snd (rseq k lr dec mom (w i j) (fun t => g t i j) n)) ->
  trained jk k lr dec mom r c n g w w'.
Proof.
  intros k lr dec mom r c n g w w' H. destruct (train_ok k lr dec mom r c n g w) as (o' & E & _).
  exists o'. rewrite E. apply Ok_eq. f_equal. apply mgen_ext. intros. symmetry. auto.
Qed.

Lemma rseq_S : forall k lr dec mom w g n, rseq k lr dec mom w g (S n) =
  cstep RF k (lr0 k lr) (dec0 k dec) (mom0 k mom) (iterN n (next1 RF k) (b10 k)) (iterN n (next2 RF k) (b20 k))
    (fst (rseq k lr dec mom w g n)) (snd (rseq k lr dec mom w g n)) (g n).
Proof. intros. apply (cseq_S RF). Qed.

(** C31 *)
Lemma none_closed : forall lr dec mom r c n g w, trained jk ONone lr dec mom r c n g w w.
Proof.
  intros. apply trained_rseq. intros i j _ _. induction n; [reflexivity|]. rewrite rseq_S. exact IHn.
Qed.

Lemma sgd_closed : forall lr dec mom r c n g w,
  trained jk OSGD lr dec mom r c n g w (fun i j => w i j - orDefault lr (1/100) * rsum n (fun t => g t i j)).
Proof.
  intros. apply trained_rseq. intros i j _ _. induction n.
  - simpl. ring.
  - rewrite rseq_S. cbn [cstep snd fsub fmul RF ROps rsum]. rewrite <- IHn. simpl. ring.
Qed.

Lemma step_closed : forall lr dec mom r c n g w,
  trained jk OStep lr dec mom r c n g w (fun i j => w i j - orDefault lr (1/10) * rsum n (fun t => sgn (g t i j))).
Proof.
  intros. apply trained_rseq. intros i j _ _. induction n.
  - simpl. ring.
  - rewrite rseq_S. cbn [cstep snd fsub fmul ROps rsum]. rewrite <- IHn. simpl. unfold sgn, Rsign. ring.
Qed.

Lemma momentum_closed : forall lr dec mom r c n g w,
  trained jk OMomentum lr dec mom r c n g w (fun i j => w i j -
    rsum n (fun t => rsum (S t) (fun s => orDefault mom (9/10) ^ (t - s) * (orDefault lr (1/100) * g s i j)))).
Proof.
  intros. apply trained_rseq. intros i j _ _. set (mu := orDefault mom (9/10)). set (l := orDefault lr (1/100)).
  enough (H : cv _ (fst (rseq OMomentum lr dec mom (w i j) (fun t => g t i j) n)) = rsum n (fun s => mu ^ (n - 1 - s) * (l * g s i j)) /\
    snd (rseq OMomentum lr dec mom (w i j) (fun t => g t i j) n) =
    w i j - rsum n (fun t => rsum (S t) (fun s => mu ^ (t - s) * (l * g s i j)))) by (symmetry; apply H).
  induction n as [|n IH].
  - simpl. split; ring.
  - rewrite rseq_S. destruct IH as (IH1 & IH2).
    assert (V : cv _ (fst (cstep RF OMomentum (lr0 OMomentum lr) (dec0 OMomentum dec) (mom0 OMomentum mom)
      (iterN n (next1 RF OMomentum) (b10 OMomentum)) (iterN n (next2 RF OMomentum) (b20 OMomentum))
      (fst (rseq OMomentum lr dec mom (w i j) (fun t => g t i j) n))
      (snd (rseq OMomentum lr dec mom (w i j) (fun t => g t i j) n)) (g n i j))) =
      rsum (S n) (fun s => mu ^ (n - s) * (l * g s i j))).
    { cbn [cstep fst cv]. rewrite IH1. cbn [rsum]. replace (n - n)%nat with O by lia.
      cbn [fadd fmul ROps lr0 mom0]. fold mu l. rewrite pow_O, Rmult_1_l.
      rewrite (Rmult_comm (rsum _ _) mu), <- rsum_scal, (Rmult_comm (g n i j)). f_equal.
      apply rsum_ext. intros s Hs. rewrite <- Rmult_assoc. f_equal. rewrite (tech_pow_Rmult mu). f_equal. lia. }
    split.
    + eapply eq_trans; [exact V|]. apply rsum_ext. intros. f_equal. f_equal. lia.
    + replace (rsum (S n) (fun t => rsum (S t) (fun s => mu ^ (t - s) * (l * g s i j)))) with
        (rsum n (fun t => rsum (S t) (fun s => mu ^ (t - s) * (l * g s i j))) + rsum (S n) (fun s => mu ^ (n - s) * (l * g s i j))) by reflexivity.
      rewrite <- V. cbn [cstep fst snd cv fsub ROps]. rewrite IH2. simpl. ring.
Qed.

Lemma nesterov_closed : forall lr dec mom r c g w, exists theta v : nat -> nat -> nat -> R,
  (forall i j, theta O i j = w i j /\ v O i j = 0) /\
  (forall n i j, v (S n) i j = orDefault mom (9/10) * v n i j - orDefault lr (1/100) * g n i j /\
                 theta (S n) i j = theta n i j + v (S n) i j) /\
  forall n, trained jk ONesterov lr dec mom r c n g w (fun i j => theta n i j + orDefault mom (9/10) * v n i j).
Proof.
  intros. set (sq := fun n i j => rseq ONesterov lr dec mom (w i j) (fun t => g t i j) n).
  exists (fun n i j => snd (sq n i j) - orDefault mom (9/10) * cv _ (fst (sq n i j))), (fun n i j => cv _ (fst (sq n i j))).
  assert (HS : forall n i j, sq (S n) i j = _) by (intros; apply rseq_S).
  repeat split.
  - simpl. ring.
  - rewrite HS. simpl. fold (sq n i j). ring.
  - rewrite HS. simpl. fold (sq n i j). ring.
  - intros n. apply trained_rseq. intros. fold (sq n i j). ring.
Qed.

Lemma momentumNg_closed : forall lr dec mom r c g w, exists v : nat -> nat -> nat -> R,
  (forall i j, v O i j = g O i j) /\
  (forall n i j, v (S n) i j = orDefault mom (9/10) * v n i j + (1 - orDefault mom (9/10)) * g n i j) /\
  forall n, trained jk OMomentumNg lr dec mom r c n g w
    (fun i j => w i j - orDefault lr (1/10) * rsum n (fun t => v (S t) i j)).
Proof.
  intros. set (sq := fun n i j => rseq OMomentumNg lr dec mom (w i j) (fun t => g t i j) n).
  exists (fun n i j => cv _ (fst (sq n i j))).
  assert (HS : forall n i j, sq (S n) i j = _) by (intros; apply rseq_S).
  repeat split.
  - intros. rewrite HS. simpl. fold (sq n i j). unfold mix, oneMinus. simpl. ring.
  - intros n. apply trained_rseq. intros i j _ _. fold (sq n i j). induction n as [|n IH]; [simpl; ring|].
    cbn [rsum]. rewrite HS at 2. fold (sq n i j). cbn [cstep snd fsub fmul ROps]. rewrite <- IH. rewrite HS. fold (sq n i j). simpl. ring.
Qed.

(** C32 *)
Lemma muUpdate_range : forall f mu, 1/1000000 <= mu <= 50 -> 1/1000000 <= muUpdate RF f mu <= 50.
Proof.
  intros f mu H. unfold muUpdate, half. simpl. unfold Rltb.
  repeat match goal with |- context [Rlt_dec ?a ?b] => destruct (Rlt_dec a b) end; lra.
Qed.
Lemma rpropMove_dist : forall w g u, 0 <= u <= 50 -> Rabs (rpropMove RF w g u - w) <= 50.
Proof.
  intros. unfold rpropMove. simpl. unfold Rltb.
  repeat match goal with |- context [Rlt_dec ?a ?b] => destruct (Rlt_dec a b) end;
  apply Rabs_le; lra.
Qed.

Lemma rprop_mu : forall k lr dec mom w g n, k = ORPROPm \/ k = OiRPROPm ->
  1/1000000 <= cv _ (fst (rseq k lr dec mom w g n)) <= 50.
Proof.
  intros k lr dec mom w g n H. induction n as [|n IH].
  - destruct H; subst; simpl; lra.
  - rewrite rseq_S. destruct H; subst; cbn [cstep fst cv]; apply muUpdate_range; auto.
Qed.

Lemma rprop_bounds : forall k lr dec mom r c n g w, k = ORPROPm \/ k = OiRPROPm -> exists o w1 w2 mu,
  train jk k lr dec mom r c n g w = Ok (o, mgen r c w1) /\
  (exists o2, train jk k lr dec mom r c (S n) g w = Ok (o2, mgen r c w2) /\ s_v RF o2 = mgen r c mu) /\
  forall i j, (i < r)%nat -> (j < c)%nat ->
  1/1000000 <= mu i j <= 50 /\
  (w2 i j = w1 i j \/ (0 < g n i j /\ w2 i j = w1 i j - mu i j) \/ (g n i j < 0 /\ w2 i j = w1 i j + mu i j)) /\
  Rabs (w2 i j - w1 i j) <= 50.
Proof.
  intros k lr dec mom r c n g w H.
  destruct (train_ok k lr dec mom r c n g w) as (o & E & _). destruct (train_ok k lr dec mom r c (S n) g w) as (o2 & E2 & S2 & K2).
  exists o. eexists. eexists. exists (fun i j => cv _ (fst (rseq k lr dec mom (w i j) (fun t => g t i j) (S n)))).
  split; [exact E|]. split.
  { exists o2. split; [exact E2|]. specialize (S2 ltac:(discriminate)). unfold stored in S2. rewrite K2 in S2.
    destruct H; subst k; apply S2. }
  intros i j Hi Hj. pose proof (rprop_mu k lr dec mom (w i j) (fun t => g t i j) (S n) H) as B. split; [exact B|].
  rewrite rseq_S in *. set (s := rseq k lr dec mom (w i j) (fun t => g t i j) n) in *.
  destruct H; subst k; cbn [cstep fst snd cv] in *.
  - split; [|apply rpropMove_dist; lra].
    unfold rpropMove. simpl. unfold Rltb.
    repeat match goal with |- context [Rlt_dec ?a ?b] => destruct (Rlt_dec a b) end; auto.
  - split; [|apply rpropMove_dist; lra].
    unfold rpropMove. simpl. unfold Rltb.
    destruct (Rlt_dec (g n i j * cp _ (fst s)) 0); repeat match goal with |- context [Rlt_dec ?a ?b] => destruct (Rlt_dec a b) end; auto; lra.
Qed.
End R.
