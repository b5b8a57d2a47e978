(* MetaProofs3.v - the meta-optimiser under any schedule: reported accuracies *)
From Coq Require Import String List Arith Bool Lia ZArith Reals Lra.
From Verif Require Import Base Scalar Mat Loss Optim Regul Act LayMat LayImg LayRnn Layer Net NetTrain SpecNet SpecTrain NetProofs1 TrainProofs1 TrainProofs2 Meta SpecMeta.
Import ListNotations.
Local Open Scope nat_scope.

(* cases of a step of thread i: p is its place before the step *)
Ltac mcases E p Hp Li := unfold mstep in E; apply bind_inv in E; destruct E as (p & ?Ep & E); unfold rget in Ep;
  match type of Ep with (match ?x with _ => _ end) = _ => destruct x as [?p0|] eqn:Hp; [|discriminate Ep] end; injection Ep as Ep; subst p;
  match type of Hp with nth_error ?l ?i = _ => assert (Li : (i <? length l) = true) by (apply Nat.ltb_lt, nth_error_Some; rewrite Hp; discriminate) end;
  unfold rset in E; cbv zeta in E; rewrite Li in E.

(* like binp, but computes through Ok *)
Ltac binm E := repeat (cbn [bind] in E; match type of E with
  | bind _ _ = Ok _ => let x := fresh "x" in let Ex := fresh "Ex" in apply bind_inv in E; destruct E as (x & Ex & E)
  | (let (_, _) := ?p in _) = Ok _ => destruct p
  end); cbn [bind] in E.

Section Steps.
Variable F : FOps.
Variable cabs : F -> res F.
Notation threads := (gThreads F).

Lemma mstep_threads : forall m net0 ds i s s', mstep F cabs m net0 ds i s = Ok s' -> i < length (threads s) /\ exists p q, nth_error (threads s) i = Some p /\ threads s' = upd (threads s) i q.
Proof.
  intros m net0 ds i s s' E. mcases E p Hp Li. split; [apply Nat.ltb_lt; auto|]. exists p0.
  assert (Id : threads s = upd (threads s) i p0).
  { apply list_ext. intro k. rewrite nth_error_upd, Li. destruct (Nat.eqb_spec i k); [subst; auto|reflexivity]. }
  destruct p0 as [| |n t|v n t|v n t|n t|[|a accs] n|a accs n|a accs n|]; try (destruct (mCb F m); [|discriminate E]); binm E; try (destruct (length (mOv F m) =? 0); binm E);
    try (injection E as <-; cbn [gThreads]; eexists; split; reflexivity).
  all: injection E as <-; exists (PDone F); split; [reflexivity|exact Id].
Qed.
Lemma mstep_len : forall m net0 ds i s s', mstep F cabs m net0 ds i s = Ok s' -> length (threads s') = length (threads s).
Proof. intros m net0 ds i s s' E. apply mstep_threads in E. destruct E as (_ & p & q & _ & ->). apply length_upd. Qed.
Lemma mrun_len : forall m net0 ds sched s s', mrun F cabs m net0 ds sched s = Ok s' -> length (threads s') = length (threads s).
Proof.
  intros m net0 ds. unfold mrun. induction sched as [|i r IH]; intros s s' E; simpl in E; [inversion E; auto|]. apply bind_inv in E. destruct E as (s1 & E1 & E).
  apply IH in E. apply mstep_len in E1. congruence.
Qed.
(* with one thread new_epoch is never disturbed *)
Lemma single_undisturbed : forall m net0 ds sched s s', mrun F cabs m net0 ds sched (mstart F 1 s) = Ok s' -> undisturbed F cabs m net0 ds sched (mstart F 1 s).
Proof.
  intros m net0 ds sched s s' E pre i post s1 j p a -> E1 Hp _. unfold mrun in *. rewrite forL_app in E. rewrite E1 in E. cbn [bind] in E. simpl in E. apply bind_inv in E. destruct E as (s2 & E2 & _).
  apply mstep_threads in E2. destruct E2 as (L & _). assert (N : length (threads s1) = 1) by (apply (mrun_len m net0 ds pre (mstart F 1 s)); exact E1). assert (j < length (threads s1)) by (apply nth_error_Some; congruence). lia.
Qed.
Lemma undisturbed_tail : forall m net0 ds i r s s1, undisturbed F cabs m net0 ds (i :: r) s -> mstep F cabs m net0 ds i s = Ok s1 -> undisturbed F cabs m net0 ds r s1.
Proof.
  intros m net0 ds i r s s1 U E pre k post s2 j p a -> E2 Hp Ha. eapply (U (i :: pre) k post s2 j p a); eauto. unfold mrun. simpl. rewrite E. exact E2.
Qed.
End Steps.

Section Best.
Variable jk : R.
Notation F := (ROps jk).
Variable cabs : F -> res F.
Notation threads := (gThreads F).
Local Open Scope R_scope.

Lemma m1 : minus1 F = -1. Proof. unfold minus1. cbn. lra. Qed.
Lemma fltR : forall x y : F, flt F x y = true <-> x < y.
Proof. intros x y. cbn. unfold Rltb. destruct (Rlt_dec x y); split; auto; discriminate. Qed.
Lemma fltR' : forall x y : F, flt F x y = false <-> y <= x.
Proof. intros x y. cbn. unfold Rltb. destruct (Rlt_dec x y); split; intro H; auto; try discriminate; lra. Qed.

Definition pending (s : mst F) (a : F) : Prop := exists i p, nth_error (threads s) i = Some p /\ inNewEpoch F p = Some a.
Lemma pending_other : forall (ps : list (pc F)) i q j p a, nth_error ps j = Some p -> inNewEpoch F p = Some a -> i <> j -> exists k p', nth_error (upd ps i q) k = Some p' /\ inNewEpoch F p' = Some a.
Proof. intros ps i q j p a Hp Ha D. exists j, p. split; auto. rewrite nth_error_upd. destruct (Nat.eqb_spec i j); [contradiction|exact Hp]. Qed.

(** * any schedule *)
Definition bestInv (E0 R0 : list F) (s : mst F) : Prop := exists es rs, gEpochs F s = E0 ++ es /\ gReports F s = R0 ++ rs /\
  (forall r, In r rs -> In r es) /\ (forall a, pending s a -> In a es) /\
  (gBest F s = -1 \/ In (gBest F s) rs \/ pending s (gBest F s)) /\
  (forall a, In a es -> -1 < a -> exists r, a <= r /\ (In r rs \/ pending s r)).

Lemma best_step : forall m net0 ds i s s' E0 R0, mstep F cabs m net0 ds i s = Ok s' -> bestInv E0 R0 s -> bestInv E0 R0 s'.
Proof.
  intros m net0 ds i s s' E0 R0 E I. destruct I as (es & rs & I1 & I2 & I3 & I4 & I5 & I6).
  mcases E p Hp Li.
  assert (Same : forall q h b T rn, inNewEpoch F p0 = None -> inNewEpoch F q = None -> b = gBest F s ->
     bestInv E0 R0 (mkMS F h b T (upd (threads s) i q) rn (gEpochs F s) (gReports F s))).
  { intros q h b T rn N0 Nq ->. 
    assert (P : forall a, pending (mkMS F h (gBest F s) T (upd (threads s) i q) rn (gEpochs F s) (gReports F s)) a <-> pending s a).
    { intro a. unfold pending. cbn [gThreads]. split; intros (j & k & Hj & Hk).
      - rewrite nth_error_upd, Li in Hj. destruct (Nat.eqb_spec i j); cbn [andb] in Hj; [inversion Hj; subst; congruence|eauto].
      - eapply pending_other; eauto. intros ->. congruence. }
    exists es, rs. cbn [gEpochs gReports gBest]. repeat split; auto.
    - intros a Ha. apply I4, P, Ha.
    - destruct I5 as [D|[D|D]]; auto. right; right. apply P. auto.
    - intros a Ha Hm. destruct (I6 a Ha Hm) as (r & R1 & [R2|R2]); exists r; split; auto. right. apply P. auto. }
  destruct p0 as [| |n t|v n t|v n t|n t|[|a accs] n|a accs n|a accs n|].
  - binm E. inversion E; subst. apply Same; auto.
  - binm E. inversion E; subst. apply Same; auto.
  - binm E. destruct (length (mOv F m) =? 0)%nat; binm E; inversion E; subst; apply Same; auto.
  - binm E. inversion E; subst. apply Same; auto.
  - binm E. inversion E; subst. apply Same; auto.
  - binm E. inversion E; subst. apply Same; auto.
  - binm E. inversion E; subst. apply Same; auto.
  - cbn [bind] in E. destruct (flt F (gBest F s) a) eqn:Lt; inversion E; subst; clear E Same.
    + assert (Pa : pending (mkMS F (gHeap F s) (gBest F s) (gTrain F s) (upd (threads s) i (PWrite F a accs n)) (gRuns F s) (gEpochs F s ++ [a]) (gReports F s)) a).
      { exists i, (PWrite F a accs n). cbn [gThreads]. rewrite nth_error_upd, Nat.eqb_refl, Li. auto. }
      assert (P : forall b, pending s b -> pending (mkMS F (gHeap F s) (gBest F s) (gTrain F s) (upd (threads s) i (PWrite F a accs n)) (gRuns F s) (gEpochs F s ++ [a]) (gReports F s)) b).
      { intros b (j & k & Hj & Hk). unfold pending; cbn [gThreads]. eapply pending_other; eauto. intros ->. rewrite Hp in Hj. inversion Hj; subst. discriminate. }
      exists (es ++ [a]), rs. cbn [gEpochs gReports gBest]. split; [rewrite I1; symmetry; apply app_assoc|]. split; [exact I2|]. split; [intros r Hr; apply in_or_app; auto|]. split; [|split].
      * intros b (j & k & Hj & Hk). cbn [gThreads] in Hj. rewrite nth_error_upd, Li in Hj. apply in_or_app. destruct (Nat.eqb_spec i j); cbn [andb] in Hj.
        -- inversion Hj; subst. inversion Hk; subst. right. left. auto.
        -- left. apply I4. exists j, k. auto.
      * destruct I5 as [D|[D|D]]; auto.
      * intros b Hb Hm. apply in_app_iff in Hb. destruct Hb as [Hb|[<-|[]]]; [|exists a; split; [apply Rle_refl|auto]].
        destruct (I6 b Hb Hm) as (r & R1 & [R2|R2]); exists r; split; auto.
    + apply fltR' in Lt.
      assert (P : forall b, pending (mkMS F (gHeap F s) (gBest F s) (gTrain F s) (upd (threads s) i (PEpochs F accs n)) (gRuns F s) (gEpochs F s ++ [a]) (gReports F s)) b <-> pending s b).
      { intro b. unfold pending; cbn [gThreads]. split; intros (j & k & Hj & Hk).
        - rewrite nth_error_upd, Li in Hj. destruct (Nat.eqb_spec i j); cbn [andb] in Hj; [inversion Hj; subst; discriminate|eauto].
        - eapply pending_other; eauto. intros ->. rewrite Hp in Hj. inversion Hj; subst. discriminate. }
      exists (es ++ [a]), rs. cbn [gEpochs gReports gBest]. split; [rewrite I1; symmetry; apply app_assoc|]. split; [exact I2|]. split; [intros r Hr; apply in_or_app; auto|]. split; [|split].
      * intros b Hb. apply in_or_app. left. apply I4, P, Hb.
      * destruct I5 as [D|[D|D]]; auto. right; right. apply P. auto.
      * intros b Hb Hm. apply in_app_iff in Hb. destruct Hb as [Hb|[<-|[]]].
        -- destruct (I6 b Hb Hm) as (r & R1 & [R2|R2]); exists r; split; auto. right. apply P. auto.
        -- exists (gBest F s). split; auto. destruct I5 as [D|[D|D]]; [exfalso; apply (Rlt_irrefl (-1)); eapply Rlt_le_trans; [exact Hm|]; rewrite <- D; exact Lt|auto|right; apply P; auto].
  - cbn [bind] in E. inversion E; subst; clear E Same.
    assert (P : forall b, pending (mkMS F (gHeap F s) a (gTrain F s) (upd (threads s) i (PCall F a accs n)) (gRuns F s) (gEpochs F s) (gReports F s)) b <-> pending s b).
    { intro b. unfold pending; cbn [gThreads]. split; intros (j & k & Hj & Hk).
      - rewrite nth_error_upd, Li in Hj. destruct (Nat.eqb_spec i j); cbn [andb] in Hj; [inversion Hj; subst; inversion Hk; subst|eauto]. exists j, (PWrite F b accs n). auto.
      - destruct (Nat.eq_dec i j) as [->|D].
        + rewrite Hp in Hj. inversion Hj; subst. inversion Hk; subst. exists j, (PCall F b accs n). rewrite nth_error_upd, Nat.eqb_refl, Li. auto.
        + eapply pending_other; eauto. }
    exists es, rs. cbn [gEpochs gReports gBest]. repeat split; auto.
    + intros b Hb. apply I4, P, Hb.
    + right. right. apply P. exists i, (PWrite F a accs n). auto.
    + intros b Hb Hm. destruct (I6 b Hb Hm) as (r & R1 & [R2|R2]); exists r; split; auto. right. apply P. auto.
  - destruct (mCb F m); [|discriminate]. cbn [bind] in E. inversion E; subst; clear E Same.
    assert (Ia : In a es) by (apply I4; exists i, (PCall F a accs n); auto).
    assert (P : forall b, pending s b -> b = a \/ pending (mkMS F (gHeap F s) (gBest F s) (gTrain F s) (upd (threads s) i (PEpochs F accs n)) (gRuns F s) (gEpochs F s) (gReports F s ++ [a])) b).
    { intros b (j & k & Hj & Hk). destruct (Nat.eq_dec i j) as [->|D].
      - rewrite Hp in Hj. inversion Hj; subst. inversion Hk. auto.
      - right. unfold pending; cbn [gThreads]. eapply pending_other; eauto. }
    exists es, (rs ++ [a]). cbn [gEpochs gReports gBest]. split; [exact I1|]. split; [rewrite I2; symmetry; apply app_assoc|]. split; [|split; [|split]].
    + intros r Hr. apply in_app_iff in Hr. destruct Hr as [Hr|[<-|[]]]; auto.
    + intros b (j & k & Hj & Hk). cbn [gThreads] in Hj. rewrite nth_error_upd, Li in Hj. destruct (Nat.eqb_spec i j); cbn [andb] in Hj; [inversion Hj; subst; discriminate|]. apply I4. exists j, k. auto.
    + destruct I5 as [D|[D|D]]; auto; [right; left; apply in_or_app; auto|]. destruct (P _ D) as [->|Q]; [right; left; apply in_or_app; right; left; auto|auto].
    + intros b Hb Hm. destruct (I6 b Hb Hm) as (r & R1 & [R2|R2]); exists r; split; auto; [left; apply in_or_app; auto|]. destruct (P _ R2) as [->|Q]; [left; apply in_or_app; right; left; auto|auto].
  - inversion E; subst. exists es, rs. repeat (split; [assumption|]). assumption.
Qed.
Lemma none_pending : forall s a, forallb (isDone F) (threads s) = true -> ~ pending s a.
Proof. intros s a D (i & p & Hp & Ha). rewrite forallb_forall in D. apply nth_error_In in Hp. apply D in Hp. destruct p; discriminate. Qed.
Lemma start_none : forall nt s a, ~ pending (mstart F nt s) a.
Proof. intros nt s a (i & p & Hp & Ha). cbn in Hp. apply nth_error_In, repeat_spec in Hp. subst. discriminate. Qed.

(* under any schedule: everything reported was measured, and no accuracy above -1 exceeds all the reported ones *)
Theorem best_reported : forall m nt net0 ds sched s s', restart F cabs m nt net0 ds sched s = Ok s' -> exists es rs,
  gEpochs F s' = gEpochs F s ++ es /\ gReports F s' = gReports F s ++ rs /\ (forall r, In r rs -> In r es) /\
  (forall a, In a es -> -1 < a -> exists r, In r rs /\ a <= r) /\ (gBest F s' = -1 \/ In (gBest F s') rs).
Proof.
  intros m nt net0 ds sched s s' E. unfold restart in E. apply bind_inv in E. destruct E as (s1 & E1 & E). destruct (forallb (isDone F) (threads s1)) eqn:D; inversion E; subst. clear E.
  assert (I : bestInv (gEpochs F s) (gReports F s) s').
  { assert (I0 : bestInv (gEpochs F s) (gReports F s) (mstart F nt s)).
    { exists [], []. cbn [mstart gEpochs gReports gBest]. rewrite !app_nil_r. split; [auto|]. split; [auto|]. split; [intros a []|]. split; [|split].
      - intros a Ha. exfalso. eapply start_none; eauto.
      - left. apply m1.
      - intros a []. }
    revert E1 I0. unfold mrun. generalize (mstart F nt s) as u. induction sched as [|i r IH]; intros u E1 I0; simpl in E1; [inversion E1; subst; auto|].
    apply bind_inv in E1. destruct E1 as (u1 & E1 & E2). eapply IH; eauto. eapply best_step; eauto. }
  destruct I as (es & rs & I1 & I2 & I3 & I4 & I5 & I6). exists es, rs. repeat split; auto.
  - intros a Ha Hm. destruct (I6 a Ha Hm) as (r & R1 & [R2|R2]); [exists r; auto|exfalso; eapply none_pending; eauto].
  - destruct I5 as [Q|[Q|Q]]; auto. exfalso. eapply none_pending; eauto.
Qed.

(** * schedules that do not cut new_epoch *)
Fixpoint increasingR (l : list R) : Prop := match l with [] => True | x :: r => Forall (fun y => x < y) r /\ increasingR r end.
Definition largestR (m b : R) (l : list R) : Prop := (m = b \/ In m l) /\ b <= m /\ Forall (fun y => y <= m) l.
Lemma increasing_of : forall l, increasingR l -> increasing F l.
Proof. induction l as [|x l IH]; intro H; cbn in *; [exact H|]. destruct H as [A B]. split; [|auto]. eapply Forall_impl; [|exact A]. intros y Hy. apply fltR. exact Hy. Qed.
Lemma largest_of : forall m b l, largestR m b l -> largest F m b l.
Proof. intros m b l (A & B & C). split; [exact A|]. split; [apply fltR'; exact B|]. eapply Forall_impl; [|exact C]. intros y Hy. apply fltR'. exact Hy. Qed.
Lemma increasing_snoc : forall l (x : R), increasingR l -> Forall (fun y => y < x) l -> increasingR (l ++ [x]).
Proof.
  induction l as [|a l IH]; intros x H1 H2; cbn in *; [split; auto|]. inversion H2; subst. destruct H1 as [G1 G2]. split; auto.
  apply Forall_app. split; auto.
Qed.
Lemma largest_snoc : forall m b l x, largestR m b l -> x <= m -> largestR m b (l ++ [x]).
Proof. intros m b l x (A & B & C) H. split; [destruct A; [auto|right; apply in_or_app; auto]|]. split; auto. apply Forall_app. split; auto. Qed.
Lemma largest_new : forall m b l x, largestR m b l -> m < x -> largestR x b (l ++ [x]).
Proof.
  intros m b l x (A & B & C) H. split; [right; apply in_or_app; right; left; auto|]. split; [lra|]. apply Forall_app. split; [|constructor; [lra|constructor]].
  eapply Forall_impl; [|exact C]. cbn. intros; lra.
Qed.

Inductive quiet (es rs : list F) (s : mst F) : Prop :=
| Idle : (forall a, ~ pending s a) -> largestR (gBest F s) (-1) es -> Forall (fun r => r <= gBest F s) rs -> (gBest F s = -1 /\ rs = []) \/ (exists rs', rs = rs' ++ [gBest F s]) -> quiet es rs s
| Writing : forall j a accs n es', nth_error (threads s) j = Some (PWrite F a accs n) -> (forall k p b, nth_error (threads s) k = Some p -> inNewEpoch F p = Some b -> k = j) ->
    es = es' ++ [a] -> largestR (gBest F s) (-1) es' -> Forall (fun r => r <= gBest F s) rs -> gBest F s < a -> quiet es rs s
| Calling : forall j a accs n, nth_error (threads s) j = Some (PCall F a accs n) -> (forall k p b, nth_error (threads s) k = Some p -> inNewEpoch F p = Some b -> k = j) ->
    gBest F s = a -> largestR a (-1) es -> Forall (fun r => r < a) rs -> quiet es rs s.
Definition orderInv (E0 R0 : list F) (s : mst F) : Prop := exists es rs, gEpochs F s = E0 ++ es /\ gReports F s = R0 ++ rs /\ increasingR rs /\ quiet es rs s.

Lemma order_step : forall m net0 ds i s s' E0 R0, mstep F cabs m net0 ds i s = Ok s' -> (forall j p a, nth_error (threads s) j = Some p -> inNewEpoch F p = Some a -> i = j) ->
  orderInv E0 R0 s -> orderInv E0 R0 s'.
Proof.
  intros m net0 ds i s s' E0 R0 E U (es & rs & I1 & I2 & I3 & Q). 
  mcases E p Hp Li.
  assert (Up : forall q j k, nth_error (upd (threads s) i q) j = Some k -> (j = i /\ k = q) \/ (j <> i /\ nth_error (threads s) j = Some k)).
  { intros q j k Hk. rewrite nth_error_upd, Li in Hk. destruct (Nat.eqb_spec i j); cbn [andb] in Hk; [left; inversion Hk; auto|right; split; auto]. }
  assert (Own : forall q, nth_error (upd (threads s) i q) i = Some q) by (intro q; rewrite nth_error_upd, Nat.eqb_refl, Li; reflexivity).
  assert (Id : inNewEpoch F p0 = None -> (forall a, ~ pending s a) /\ largestR (gBest F s) (-1) es /\ Forall (fun r => r <= gBest F s) rs /\ ((gBest F s = -1 /\ rs = []) \/ (exists rs', rs = rs' ++ [gBest F s]))).
  { intro N. destruct Q as [A B C D|j a accs n es' A B C D G H|j a accs n A B C D G]; auto; exfalso; assert (i = j) by (eapply U; [exact A|reflexivity]); subst; rewrite Hp in A; inversion A; subst; discriminate. }
  assert (Same : forall q h T rn, inNewEpoch F p0 = None -> inNewEpoch F q = None -> orderInv E0 R0 (mkMS F h (gBest F s) T (upd (threads s) i q) rn (gEpochs F s) (gReports F s))).
  { intros q h T rn N0 Nq. destruct (Id N0) as (A & B & C & D). exists es, rs. cbn [gEpochs gReports]. split; auto. split; auto. split; auto. apply Idle; cbn [gBest]; auto.
    intros a (j & k & Hj & Hk). cbn [gThreads] in Hj. destruct (Up _ _ _ Hj) as [[-> ->]|[D1 Hj']]; [congruence|]. apply (A a). exists j, k. auto. }
  destruct p0 as [| |n t|v n t|v n t|n t|[|a accs] n|a accs n|a accs n|].
  - binm E. inversion E; subst. apply Same; auto.
  - binm E. inversion E; subst. apply Same; auto.
  - binm E. destruct (length (mOv F m) =? 0)%nat; binm E; inversion E; subst; apply Same; auto.
  - binm E. inversion E; subst. apply Same; auto.
  - binm E. inversion E; subst. apply Same; auto.
  - binm E. inversion E; subst. apply Same; auto.
  - binm E. inversion E; subst. apply Same; auto.
  - destruct (Id eq_refl) as (A & B & C & D). cbn [bind] in E. destruct (flt F (gBest F s) a) eqn:Lt; inversion E; subst; clear E; exists (es ++ [a]), rs; cbn [gEpochs gReports]; (split; [rewrite I1; symmetry; apply app_assoc|]); (split; [exact I2|]); split; auto.
    + apply fltR in Lt. eapply (Writing _ _ _ i a accs n es); cbn [gThreads gBest]; auto.
      intros k p b Hk Hb. destruct (Up _ _ _ Hk) as [[-> ->]|[D1 Hk']]; auto. exfalso. apply (A b). exists k, p. auto.
    + apply fltR' in Lt. apply Idle; cbn [gBest]; auto; [|apply largest_snoc; auto].
      intros b (j & k & Hj & Hk). cbn [gThreads] in Hj. destruct (Up _ _ _ Hj) as [[-> ->]|[D1 Hj']]; [discriminate|]. apply (A b). exists j, k. auto.
  - cbn [bind] in E. inversion E; subst; clear E. exists es, rs. cbn [gEpochs gReports]. split; auto. split; auto. split; auto.
    destruct Q as [A B C D|j a' accs' n' es' A B C D G H|j a' accs' n' A B C D G].
    + exfalso. apply (A a). exists i, (PWrite F a accs n). auto.
    + assert (i = j) by (eapply U; [exact A|reflexivity]). subst j. rewrite Hp in A. inversion A; subst a' accs' n'. clear A.
      eapply (Calling _ _ _ i a accs n); cbn [gThreads gBest]; auto.
      * intros k p b Hk Hb. destruct (Up _ _ _ Hk) as [[-> ->]|[D1 Hk']]; auto. eapply B; eauto.
      * subst es. eapply largest_new; eauto.
      * eapply Forall_impl; [|exact G]. cbn beta. intros r Hr. eapply Rle_lt_trans; [exact Hr|exact H].
    + assert (i = j) by (eapply U; [exact A|reflexivity]). subst j. rewrite Hp in A. discriminate.
  - destruct (mCb F m); [|discriminate]. cbn [bind] in E. inversion E; subst; clear E. exists es, (rs ++ [a]). cbn [gEpochs gReports]. split; [exact I1|]. split; [rewrite I2; symmetry; apply app_assoc|].
    destruct Q as [A B C D|j a' accs' n' es' A B C D G H|j a' accs' n' A B C D G].
    + exfalso. apply (A a). exists i, (PCall F a accs n). auto.
    + assert (i = j) by (eapply U; [exact A|reflexivity]). subst j. rewrite Hp in A. discriminate.
    + assert (i = j) by (eapply U; [exact A|reflexivity]). subst j. rewrite Hp in A. inversion A; subst a' accs' n'. clear A. split; [apply increasing_snoc; auto|].
      apply Idle; cbn [gBest].
      * intros b (k & p & Hk & Hb). cbn [gThreads] in Hk. destruct (Up _ _ _ Hk) as [[-> ->]|[D1 Hk']]; [discriminate|]. apply D1. eapply B; eauto.
      * exact D.
      * apply Forall_app. split; [|constructor; [apply Rle_refl|constructor]]. eapply Forall_impl; [|exact G]. cbn beta. intros r Hr. left. exact Hr.
      * right. exists rs. reflexivity.
  - inversion E; subst. exists es, rs. repeat (split; [assumption|]). assumption.
Qed.
(* the reported accuracies increase, and the last one is the largest of all *)
Theorem best_ordered : forall m nt net0 ds sched s s', restart F cabs m nt net0 ds sched s = Ok s' -> undisturbed F cabs m net0 ds sched (mstart F nt s) -> exists es rs,
  gEpochs F s' = gEpochs F s ++ es /\ gReports F s' = gReports F s ++ rs /\ increasing F rs /\ largest F (gBest F s') (-1) es /\
  ((gBest F s' = -1 /\ rs = []) \/ exists rs', rs = rs' ++ [gBest F s']).
Proof.
  intros m nt net0 ds sched s s' E U. unfold restart in E. apply bind_inv in E. destruct E as (s1 & E1 & E). destruct (forallb (isDone F) (threads s1)) eqn:D; inversion E; subst. clear E.
  assert (I : orderInv (gEpochs F s) (gReports F s) s').
  { assert (I0 : orderInv (gEpochs F s) (gReports F s) (mstart F nt s)).
    { exists [], []. cbn [mstart gEpochs gReports]. rewrite !app_nil_r. split; auto. split; auto. split; [exact I|]. apply Idle; cbn [mstart gBest].
      - apply start_none.
      - rewrite m1. split; [left; reflexivity|split; [apply Rle_refl|constructor]].
      - constructor.
      - left. split; [apply m1|reflexivity]. }
    revert E1 U I0. unfold mrun. generalize (mstart F nt s) as u. induction sched as [|i r IH]; intros u E1 U I0; simpl in E1; [inversion E1; subst; auto|].
    apply bind_inv in E1. destruct E1 as (u1 & E1 & E2). apply (IH u1); auto; [eapply undisturbed_tail; eauto|]. eapply order_step; eauto.
    intros j p a Hj Ha. eapply (U [] i r u j p a); eauto. }
  destruct I as (es & rs & I1 & I2 & I3 & Q). exists es, rs. split; [exact I1|]. split; [exact I2|]. split; [apply increasing_of; exact I3|].
  destruct Q as [A B C G|j a accs n es' A _ _ _ _ _|j a accs n A _ _ _ _]; [split; [apply largest_of; exact B|exact G]| |]; exfalso; apply (none_pending s' a D); eexists; eexists; (split; [exact A|reflexivity]).
Qed.
Theorem best_ordered_single : forall m net0 ds sched s s', restart F cabs m 1 net0 ds sched s = Ok s' -> exists es rs,
  gEpochs F s' = gEpochs F s ++ es /\ gReports F s' = gReports F s ++ rs /\ increasing F rs /\ largest F (gBest F s') (-1) es /\
  ((gBest F s' = -1 /\ rs = []) \/ exists rs', rs = rs' ++ [gBest F s']).
Proof.
  intros m net0 ds sched s s' E. eapply best_ordered; eauto. unfold restart in E. apply bind_inv in E. destruct E as (s1 & E1 & _). eapply single_undisturbed; eauto.
Qed.
End Best.
