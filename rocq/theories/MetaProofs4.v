(* MetaProofs4.v - the meta-optimiser: which settings the threads train with, which layers they train, races, missing callback *)
From Coq Require Import String List Arith Bool Lia ZArith Reals Lra.
From Verif Require Import Base Scalar Mat Loss Optim Regul Act LayMat LayImg LayRnn Layer Net NetTrain SpecNet SpecTrain ActMono RegulProofs NetProofs1 NetProofs2 TrainProofs1 TrainProofs2 TrainProofs3 Meta SpecMeta MetaProofs1 MetaProofs2 MetaProofs3.
Import ListNotations.
Local Open Scope nat_scope.

Section Trainer.
Variable F : FOps.
Notation threads := (gThreads F).

Lemma trainsAs_refl : forall t, trainsAs F t t (cOpt F (tc F t)) (cLr F (tc F t)).
Proof. intro t. unfold trainsAs. cbv zeta. repeat split. Qed.
Lemma trainsAs_trans : forall a b c o l o' l', trainsAs F a b o l -> trainsAs F b c o' l' -> trainsAs F a c o' l'.
Proof. unfold trainsAs. cbv zeta. intros. intuition congruence. Qed.
(* the trainer of a thread after NetTrain::operator= *)
Lemma assign_trains : forall a b t, trAssign F a b = Ok t -> trainsAs F b t (cOpt F (tc F b)) (cLr F (tc F b)).
Proof.
  intros a b t E. unfold trAssign, mkLoss in E. rewrite (proj2 (losses_complete (cLoss F (tc F b)))) in E. cbn [bind] in E.
  apply bind_inv in E. destruct E as (rg & Er & E). injection E as <-. unfold trainsAs. cbn. repeat (split; [reflexivity|]). split; [|split; reflexivity].
  unfold mkRegularizer, trGetReg, trGetRegParam in *. cbn. destruct (cReg F (tc F b)) as [r|]; [|cbn in Er; injection Er as <-; reflexivity].
  replace (reg_name (Regul.rkind F r) =? "")%string with false in Er by (destruct (Regul.rkind F r); reflexivity).
  rewrite (proj2 (reg_registry_complete (Regul.rkind F r))) in Er. injection Er as <-. unfold set_parameter. reflexivity.
Qed.
Lemma setOpt_trains : forall t s, trainsAs F t (trSetOpt F t s) s (cLr F (tc F t)).
Proof. intros t s. unfold trainsAs, trSetOpt, trGetReg. cbn. repeat split. Qed.
Lemma setLr_trains : forall t l, trainsAs F t (trSetLr F t l) (cOpt F (tc F t)) l.
Proof. intros t l. unfold trainsAs, trSetLr, setLr, trGetReg. cbn. repeat split. Qed.

(** * any schedule *)
Variable cabs : F -> res F.
Definition trainerOf (p : pc F) : option (trainer F) := match p with PVary _ t | PSetOpt _ _ t | PSetLr _ _ t | PTrain _ t => Some t | _ => None end.
Definition varOf (p : pc F) : option (optVar F) := match p with PSetOpt v _ _ | PSetLr v _ _ => Some v | _ => None end.
Definition mayTrain (m : meta F) (u t : trainer F) : Prop := exists o l, mayUse F m u o l /\ trainsAs F u t o l.
Definition trainInv (m : meta F) (u : trainer F) (s : mst F) : Prop :=
  mayTrain m u (gTrain F s) /\ (forall i p t, nth_error (threads s) i = Some p -> trainerOf p = Some t -> mayTrain m u t) /\
  (forall i p v, nth_error (threads s) i = Some p -> varOf p = Some v -> In v (mOv F m)) /\ (forall x, In x (gRuns F s) -> mayTrain m u (snd x)).
Lemma may_self : forall m u, mayTrain m u u.
Proof. intros m u. exists (cOpt F (tc F u)), (cLr F (tc F u)). split; [split; left; reflexivity|apply trainsAs_refl]. Qed.
Lemma may_assign : forall m u t a t', mayTrain m u t -> trAssign F a t = Ok t' -> mayTrain m u t'.
Proof.
  intros m u t a t' (o & l & M & H) E. apply assign_trains in E. exists o, l. split; [exact M|]. pose proof (trainsAs_trans _ _ _ _ _ _ _ H E) as G.
  destruct H as (H1 & H2 & _). rewrite H1, H2 in G. exact G.
Qed.
Lemma may_opt : forall m u t v, mayTrain m u t -> In v (mOv F m) -> mayTrain m u (trSetOpt F t (ovName F v)).
Proof.
  intros m u t v (o & l & [M1 M2] & H) Hv. exists (ovName F v), l. split; [split; [right; apply in_map; exact Hv|exact M2]|].
  pose proof (trainsAs_trans _ _ _ _ _ _ _ H (setOpt_trains t (ovName F v))) as G. destruct H as (H1 & H2 & _). rewrite H2 in G. exact G.
Qed.
Lemma may_lr : forall m u t v, mayTrain m u t -> In v (mOv F m) -> mayTrain m u (trSetLr F t (ovLr F v)).
Proof.
  intros m u t v (o & l & [M1 M2] & H) Hv. exists o, (ovLr F v). split; [split; [exact M1|right; apply in_map; exact Hv]|].
  pose proof (trainsAs_trans _ _ _ _ _ _ _ H (setLr_trains t (ovLr F v))) as G. destruct H as (H1 & H2 & _). rewrite H1 in G. exact G.
Qed.
Lemma upd_cases : forall A (l : list A) i q j k, (i <? length l) = true -> nth_error (upd l i q) j = Some k -> (j = i /\ k = q) \/ (j <> i /\ nth_error l j = Some k).
Proof. intros A l i q j k Li Hk. rewrite nth_error_upd, Li in Hk. destruct (Nat.eqb_spec i j); cbn [andb] in Hk; [left; inversion Hk; auto|right; split; auto]. Qed.

Lemma train_step : forall m net0 ds i s s' u, mstep F cabs m net0 ds i s = Ok s' -> trainInv m u s -> trainInv m u s' /\ (mOv F m = [] -> gTrain F s' = gTrain F s).
Proof.
  intros m net0 ds i s s' u E (I1 & I2 & I3 & I4). mcases E p Hp Li.
  assert (Go : forall h b T q rn e w, mayTrain m u T -> (mOv F m = [] -> T = gTrain F s) -> (forall t, trainerOf q = Some t -> mayTrain m u t) -> (forall v, varOf q = Some v -> In v (mOv F m)) ->
     (forall x, In x rn -> mayTrain m u (snd x)) -> trainInv m u (mkMS F h b T (upd (threads s) i q) rn e w) /\ (mOv F m = [] -> T = gTrain F s)).
  { intros h b T q rn e w G1 G2 G3 G4 G5. split; [|exact G2]. split; [exact G1|]. cbn [gThreads gRuns]. split; [|split; [|exact G5]].
    - intros j k t Hk Ht. destruct (upd_cases _ _ _ _ _ _ Li Hk) as [[-> ->]|[D Hj]]; [auto|eapply I2; eauto].
    - intros j k t Hk Ht. destruct (upd_cases _ _ _ _ _ _ Li Hk) as [[-> ->]|[D Hj]]; [auto|eapply I3; eauto]. }
  assert (Nt : forall p t, nth_error (threads s) i = Some p -> trainerOf p = Some t -> mayTrain m u t) by (intros p t A B; eapply I2; eauto).
  assert (Nv : forall p v, nth_error (threads s) i = Some p -> varOf p = Some v -> In v (mOv F m)) by (intros p t A B; eapply I3; eauto).
  destruct p0 as [| |n t|v n t|v n t|n t|[|a accs] n|a accs n|a accs n|].
  - binm E. injection E as <-. apply Go; auto; discriminate.
  - binm E. injection E as <-. apply Go; auto; [|discriminate]. cbn [trainerOf]. intros t Ht. injection Ht as <-. eapply may_assign; eauto.
  - assert (Mt : mayTrain m u t) by (eapply Nt; [exact Hp|reflexivity]). binm E. destruct (length (mOv F m) =? 0); binm E; injection E as <-; apply Go; auto; cbn [trainerOf varOf]; try discriminate; try (intros z Hz; injection Hz as <-; exact Mt).
    intros v Hv. injection Hv as <-. unfold rget in Ex0. match type of Ex0 with context [nth_error ?l ?k] => destruct (nth_error l k) as [v|] eqn:Ev end; [|discriminate]. injection Ex0 as <-. eapply nth_error_In; eauto.
  - assert (Mt : mayTrain m u t) by (eapply Nt; [exact Hp|reflexivity]). assert (Hv : In v (mOv F m)) by (eapply Nv; [exact Hp|reflexivity]).
    binm E. injection E as <-. apply Go; auto; cbn [trainerOf varOf]; try (intros z Hz; injection Hz as <-; assumption).
    + apply may_opt; auto.
    + intro N. rewrite N in Hv. destruct Hv.
  - assert (Mt : mayTrain m u t) by (eapply Nt; [exact Hp|reflexivity]). assert (Hv : In v (mOv F m)) by (eapply Nv; [exact Hp|reflexivity]).
    binm E. injection E as <-. apply Go; auto; cbn [trainerOf varOf]; try discriminate; try (intros z Hz; injection Hz as <-; assumption).
    + apply may_lr; auto.
    + intro N. rewrite N in Hv. destruct Hv.
  - assert (Mt : mayTrain m u t) by (eapply Nt; [exact Hp|reflexivity]). binm E. injection E as <-. apply Go; auto; try discriminate.
    intros x Hx. apply in_app_iff in Hx. destruct Hx as [Hx|[<-|[]]]; auto.
  - binm E. injection E as <-. apply Go; auto; discriminate.
  - binm E. injection E as <-. apply Go; auto; destruct (flt F (gBest F s) a); discriminate.
  - binm E. injection E as <-. apply Go; auto; discriminate.
  - destruct (mCb F m); [|discriminate E]. binm E. injection E as <-. apply Go; auto; discriminate.
  - injection E as <-. split; [|auto]. repeat (split; [assumption|]). assumption.
Qed.
Lemma train_run : forall m net0 ds u sched s s', mrun F cabs m net0 ds sched s = Ok s' -> trainInv m u s -> trainInv m u s' /\ (mOv F m = [] -> gTrain F s' = gTrain F s).
Proof.
  intros m net0 ds u. unfold mrun. induction sched as [|i r IH]; intros s s' E I; simpl in E; [injection E as <-; auto|]. apply bind_inv in E. destruct E as (s1 & E1 & E).
  destruct (train_step _ _ _ _ _ _ _ E1 I) as [I1 T1]. destruct (IH _ _ E I1) as [I2 T2]. split; [exact I2|]. intro N. rewrite T2, T1; auto.
Qed.
Lemma train_start : forall m u nt s, mayTrain m u (gTrain F s) -> (forall x, In x (gRuns F s) -> mayTrain m u (snd x)) -> trainInv m u (mstart F nt s).
Proof.
  intros m u nt s H1 H2. unfold trainInv, mstart. cbn [gTrain gThreads gRuns]. split; [exact H1|]. split; [|split; [|exact H2]].
  - intros i p t Hp Ht. apply nth_error_In, repeat_spec in Hp. subst. discriminate.
  - intros i p t Hp Ht. apply nth_error_In, repeat_spec in Hp. subst. discriminate.
Qed.
Lemma restart_run : forall m nt net0 ds sched s s', restart F cabs m nt net0 ds sched s = Ok s' -> mrun F cabs m net0 ds sched (mstart F nt s) = Ok s' /\ forallb (isDone F) (threads s') = true.
Proof.
  intros m nt net0 ds sched s s' E. unfold restart in E. apply bind_inv in E. destruct E as (s1 & E1 & E). destruct (forallb (isDone F) (threads s1)) eqn:D; inversion E; subst. auto.
Qed.
(* every training uses the settings of the user's trainer, with an optimiser and a learning rate of the user's trainer or of a variation *)
Theorem runs_trainers : forall m hw ds scheds h net0 u s, mfit F cabs m hw ds scheds h net0 (Some u) = Ok s ->
  (forall i t, In (i, t) (gRuns F s) -> exists o l, mayUse F m u o l /\ trainsAs F u t o l) /\ (mOv F m = [] -> gTrain F s = u).
Proof.
  intros m hw ds scheds h net0 u s E. unfold mfit in E.
  apply (forN_postI _ (fun _ s => mayTrain m u (gTrain F s) /\ (forall x, In x (gRuns F s) -> mayTrain m u (snd x)) /\ (mOv F m = [] -> gTrain F s = u))) in E.
  - destruct E as (_ & A & B). split; [|exact B]. intros i t Hi. exact (A (i, t) Hi).
  - cbn [gTrain gRuns]. split; [apply may_self|]. split; [intros x []|auto].
  - intros r s1 s2 _ (A & B & C) E1. apply restart_run in E1. destruct E1 as [E1 _]. destruct (train_run _ _ _ u _ _ _ E1 (train_start _ _ _ _ A B)) as [(I1 & I2 & I3 & I4) T].
    split; [exact I1|]. split; [exact I4|]. intro N. rewrite (T N). exact (C N).
Qed.

(** * the user's trainer afterwards *)
Definition pastOpt (p : pc F) : bool := match p with PSeed | PCopy | PVary _ _ | PSetOpt _ _ _ => false | _ => true end.
Definition pastLr (p : pc F) : bool := match p with PSetLr _ _ _ => false | _ => pastOpt p end.
Definition setInv (m : meta F) (s : mst F) : Prop :=
  (forall i p, nth_error (threads s) i = Some p -> pastOpt p = true -> In (cOpt F (tc F (gTrain F s))) (map (ovName F) (mOv F m))) /\
  (forall i p, nth_error (threads s) i = Some p -> pastLr p = true -> In (cLr F (tc F (gTrain F s))) (map (ovLr F) (mOv F m))) /\
  (forall i p v, nth_error (threads s) i = Some p -> varOf p = Some v -> In v (mOv F m)).
Lemma set_step : forall m net0 ds i s s', mstep F cabs m net0 ds i s = Ok s' -> mOv F m <> [] -> setInv m s -> setInv m s'.
Proof.
  intros m net0 ds i s s' E N (I1 & I2 & I3). mcases E p Hp Li.
  assert (Same : forall h b q rn e w, (pastOpt q = true -> pastOpt p0 = true) -> (pastLr q = true -> pastLr p0 = true) -> (forall v, varOf q = Some v -> In v (mOv F m)) ->
     setInv m (mkMS F h b (gTrain F s) (upd (threads s) i q) rn e w)).
  { intros h b q rn e w G1 G2 G3. split; [|split]; cbn [gThreads gTrain].
    - intros j k Hk Hq. destruct (upd_cases _ _ _ _ _ _ Li Hk) as [[-> ->]|[D Hj]]; [eapply I1; eauto|eapply I1; eauto].
    - intros j k Hk Hq. destruct (upd_cases _ _ _ _ _ _ Li Hk) as [[-> ->]|[D Hj]]; [eapply I2; eauto|eapply I2; eauto].
    - intros j k v Hk Hq. destruct (upd_cases _ _ _ _ _ _ Li Hk) as [[-> ->]|[D Hj]]; [auto|eapply I3; eauto]. }
  assert (Nv : forall p v, nth_error (threads s) i = Some p -> varOf p = Some v -> In v (mOv F m)) by (intros p t A B; eapply I3; eauto).
  destruct p0 as [| |n t|v n t|v n t|n t|[|a accs] n|a accs n|a accs n|].
  - binm E. injection E as <-. apply Same; auto; discriminate.
  - binm E. injection E as <-. apply Same; auto; discriminate.
  - binm E. destruct (mOv F m) as [|v0 vs] eqn:Em; [contradiction|]. cbn [length Nat.eqb] in E. rewrite <- Em in *. binm E; injection E as <-; apply Same; auto; try discriminate.
    cbn [varOf]. intros v Hv. injection Hv as <-. unfold rget in Ex0. match type of Ex0 with context [nth_error ?l ?k] => destruct (nth_error l k) as [v|] eqn:Ev end; [|discriminate]. injection Ex0 as <-. eapply nth_error_In; eauto.
  - assert (Hv : In v (mOv F m)) by (eapply Nv; [exact Hp|reflexivity]). binm E. injection E as <-. split; [|split]; cbn [gThreads gTrain].
    + intros j k _ _. cbn. apply in_map. exact Hv.
    + intros j k Hk Hq. cbn. destruct (upd_cases _ _ _ _ _ _ Li Hk) as [[-> ->]|[D Hj]]; [discriminate|eapply I2; eauto].
    + intros j k z Hk Hq. destruct (upd_cases _ _ _ _ _ _ Li Hk) as [[-> ->]|[D Hj]]; [injection Hq as <-; exact Hv|eapply I3; eauto].
  - assert (Hv : In v (mOv F m)) by (eapply Nv; [exact Hp|reflexivity]). binm E. injection E as <-. split; [|split]; cbn [gThreads gTrain].
    + intros j k Hk Hq. cbn. eapply (I1 i); [exact Hp|reflexivity].
    + intros j k _ _. cbn. apply in_map. exact Hv.
    + intros j k z Hk Hq. destruct (upd_cases _ _ _ _ _ _ Li Hk) as [[-> ->]|[D Hj]]; [discriminate|eapply I3; eauto].
  - binm E. injection E as <-. apply Same; auto; discriminate.
  - binm E. injection E as <-. apply Same; auto; discriminate.
  - binm E. injection E as <-. apply Same; auto; destruct (flt F (gBest F s) a); auto; discriminate.
  - binm E. injection E as <-. apply Same; auto; discriminate.
  - destruct (mCb F m); [|discriminate E]. binm E. injection E as <-. apply Same; auto; discriminate.
  - injection E as <-. repeat (split; [assumption|]). assumption.
Qed.
(* with optimiser variations, the user's trainer is left with one of their names and one of their learning rates *)
Theorem trainer_after : forall m nt net0 ds sched s s', restart F cabs m nt net0 ds sched s = Ok s' -> 0 < nt -> mOv F m <> [] ->
  In (cOpt F (tc F (gTrain F s'))) (map (ovName F) (mOv F m)) /\ In (cLr F (tc F (gTrain F s'))) (map (ovLr F) (mOv F m)).
Proof.
  intros m nt net0 ds sched s s' E Hn N. apply restart_run in E. destruct E as [E D].
  assert (I : setInv m s').
  { assert (I0 : setInv m (mstart F nt s)) by (split; [|split]; intros i p; cbn [gThreads mstart]; intros; match goal with H : nth_error (repeat _ _) _ = _ |- _ => apply nth_error_In, repeat_spec in H; subst; discriminate end).
    revert E I0. unfold mrun. generalize (mstart F nt s) as v. clear - N. induction sched as [|i r IH]; intros v E I0; simpl in E; [injection E as <-; auto|]. apply bind_inv in E. destruct E as (v1 & E1 & E2). eapply IH; eauto. eapply set_step; eauto. }
  assert (L : length (threads s') = nt) by (rewrite (mrun_len _ _ _ _ _ _ _ _ E); cbn; apply repeat_length).
  destruct (threads s') as [|p ps] eqn:Et; [cbn in L; lia|]. assert (P : nth_error (threads s') 0 = Some p) by (rewrite Et; reflexivity). cbn in D. apply andb_prop in D. destruct D as [D _].
  destruct I as (I1 & I2 & _). split; [apply (I1 0 p)|apply (I2 0 p)]; auto; destruct p; try discriminate; reflexivity.
Qed.

(** * one thread *)
Definition drawn (m : meta F) (d : tdraw F) : option (optVar F) := nth_error (mOv F m) (dOpt F d mod length (mOv F m)).
Definition singleInv (m : meta F) (d : tdraw F) (s0 s : mst F) : Prop := exists p, threads s = [p] /\
  let T0 := gTrain F s0 in let T := gTrain F s in let as0 t := trainsAs F T0 t (cOpt F (tc F T0)) (cLr F (tc F T0)) in
  let afterV := match drawn m d with None => T = T0 | Some v => trainsAs F T0 T (ovName F v) (ovLr F v) end in
  match p with
  | PSeed | PCopy => T = T0 /\ gRuns F s = gRuns F s0
  | PVary _ t => T = T0 /\ as0 t /\ gRuns F s = gRuns F s0
  | PSetOpt v _ t => T = T0 /\ drawn m d = Some v /\ as0 t /\ gRuns F s = gRuns F s0
  | PSetLr v _ t => trainsAs F T0 T (ovName F v) (cLr F (tc F T0)) /\ drawn m d = Some v /\ as0 t /\ gRuns F s = gRuns F s0
  | PTrain _ t => afterV /\ as0 t /\ gRuns F s = gRuns F s0
  | _ => afterV /\ exists t, as0 t /\ gRuns F s = gRuns F s0 ++ [(0, t)]
  end.
Lemma single_step : forall m net0 ds i s s' s0, mstep F cabs m net0 ds i s = Ok s' -> singleInv m (ds 0) s0 s -> singleInv m (ds 0) s0 s'.
Proof.
  intros m net0 ds i s s' s0 E (q & Hq & I). cbv zeta in I. mcases E p Hp Li. assert (i = 0) by (apply Nat.ltb_lt in Li; rewrite Hq in Li; cbn in Li; lia). subst i. rewrite Hq in Hp. cbn in Hp. injection Hp as <-.
  assert (U : forall q', upd (threads s) 0 q' = [q']) by (intro q'; rewrite Hq; reflexivity).
  destruct q as [| |n t|v n t|v n t|n t|[|a accs] n|a accs n|a accs n|].
  - binm E. injection E as <-. eexists. split; [apply U|]. exact I.
  - binm E. injection E as <-. eexists. split; [apply U|]. cbv zeta. cbn [gTrain gRuns]. destruct I as [I1 I2]. split; [exact I1|]. split; [|exact I2]. rewrite <- I1. eapply assign_trains; eauto.
  - binm E. destruct (length (mOv F m) =? 0) eqn:El; binm E; injection E as <-; eexists; (split; [apply U|]); cbv zeta; cbn [gTrain gRuns]; destruct I as (I1 & I2 & I3).
    + split; [|split; assumption]. unfold drawn. apply Nat.eqb_eq in El. destruct (mOv F m); [|discriminate]. destruct (_ mod _); exact I1.
    + split; [exact I1|]. split; [|split; assumption]. unfold drawn. unfold rget in Ex0. destruct (nth_error _ _); [injection Ex0 as <-; reflexivity|discriminate].
  - binm E. injection E as <-. eexists. split; [apply U|]. cbv zeta. cbn [gTrain gRuns]. destruct I as (I1 & I2 & I3 & I4). split; [|repeat (split; [assumption|]); assumption]. rewrite <- I1. apply setOpt_trains.
  - binm E. injection E as <-. eexists. split; [apply U|]. cbv zeta. cbn [gTrain gRuns]. destruct I as (I1 & I2 & I3 & I4). split; [|repeat (split; [assumption|]); assumption]. rewrite I2.
    pose proof (trainsAs_trans _ _ _ _ _ _ _ I1 (setLr_trains _ (ovLr F v))) as G. destruct I1 as (H1 & _). rewrite H1 in G. exact G.
  - binm E. injection E as <-. eexists. split; [apply U|]. cbv zeta. cbn [gTrain gRuns]. destruct I as (I1 & I2 & I3). split; [exact I1|]. exists t. rewrite I3. auto.
  - binm E. injection E as <-. eexists. split; [apply U|]. exact I.
  - binm E. injection E as <-. eexists. split; [apply U|]. destruct (flt F (gBest F s) a); exact I.
  - binm E. injection E as <-. eexists. split; [apply U|]. exact I.
  - destruct (mCb F m); [|discriminate E]. binm E. injection E as <-. eexists. split; [apply U|]. exact I.
  - injection E as <-. eexists. split; [exact Hq|]. exact I.
Qed.
(* one thread: it trains once, with the optimiser found in the shared trainer; its own variation is stored there afterwards *)
Theorem single_variation : forall m net0 ds sched s s', restart F cabs m 1 net0 ds sched s = Ok s' ->
  (exists t, gRuns F s' = gRuns F s ++ [(0, t)] /\ trainsAs F (gTrain F s) t (cOpt F (tc F (gTrain F s))) (cLr F (tc F (gTrain F s)))) /\
  match nth_error (mOv F m) (dOpt F (ds 0) mod length (mOv F m)) with None => gTrain F s' = gTrain F s | Some v => trainsAs F (gTrain F s) (gTrain F s') (ovName F v) (ovLr F v) end.
Proof.
  intros m net0 ds sched s s' E. apply restart_run in E. destruct E as [E D].
  assert (I : singleInv m (ds 0) s s').
  { assert (I0 : singleInv m (ds 0) s (mstart F 1 s)) by (exists (PSeed F); split; [reflexivity|cbn; auto]).
    revert E I0. unfold mrun. generalize (mstart F 1 s) as v. induction sched as [|i r IH]; intros v E I0; simpl in E; [injection E as <-; auto|]. apply bind_inv in E. destruct E as (v1 & E1 & E2). eapply IH; eauto. eapply single_step; eauto. }
  destruct I as (p & Hp & I). rewrite Hp in D. cbn in D. destruct p; try discriminate. destruct I as (I1 & t & I2 & I3). split; [exists t; auto|exact I1].
Qed.
End Trainer.
