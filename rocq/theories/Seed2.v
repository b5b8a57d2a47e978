(* Seed2.v - when a training run does not depend on the random draws *)
From Coq Require Import String List Arith Bool Lia ZArith.
From Verif Require Import Base Scalar Mat SpecMat LayMat LayImg LayRnn Layer Net MatProofs NetProofs1 NetProofs2 Loss Optim Regul NetTrain TrainProofs1 TrainProofs3 TrainProofs4 FitRun SpecSeed Seed1.
Import ListNotations.
Local Open Scope nat_scope.
Set Implicit Arguments.

Section Net.
Variable F : FOps.
Variable cabs : F -> res F.
Notation M := (mat F).
Notation layer := (layer F).

Definition all (P : layer -> Prop) (h : heap F) (ls : list nat) : Prop := forall a l, In a ls -> hget F h a = Ok l -> P l.
Definition closed (P : layer -> Prop) : Prop := forall l l', lk l' = lk l -> lbi l' = lbi l -> ltrain l' = ltrain l -> P l -> P l'.
Lemma all_set : forall P h ls a l h', all P h ls -> P l -> hset F h a l = Ok h' -> all P h' ls.
Proof.
  intros P h ls a l h' H Pl E b lb' Hb Eb. unfold hset in E. destruct (hget F h a) as [l0|] eqn:E0; [|discriminate]. pose proof (hset_ok F h a l0 l E0) as E1. unfold hset in E1. rewrite E0 in E1. cbn [bind] in E, E1.
  rewrite E1 in E. apply Ok_inj in E. subst h'. rewrite (hget_upd F) in Eb by (eapply hget_lt; eauto). destruct (Nat.eqb_spec a b); [inversion Eb; subst; auto|eauto].
Qed.
Lemma all_free : forall P h ls a h', all P h ls -> hfree F h a = Ok h' -> all P h' ls.
Proof.
  intros P h ls a h' H E b l Hb Eb. unfold hfree in E. destruct (hget F h a) as [l0|] eqn:E0; [|discriminate]. cbn [bind] in E. unfold rset in E.
  destruct (a <? length h) eqn:L; [|discriminate]. apply Ok_inj in E. subst h'. unfold hget, rget in Eb. rewrite nth_error_upd in Eb. rewrite L, andb_true_r in Eb.
  destruct (Nat.eqb_spec a b); [discriminate|]. apply (H b l Hb). unfold hget, rget. exact Eb.
Qed.
Lemma all_push : forall (P : layer -> Prop) h ls c, all P h ls -> P c -> all P (h ++ [Some c]) ls.
Proof.
  intros P h ls c H Pc b l Hb Eb. unfold hget, rget in Eb. destruct (Nat.ltb_spec b (length h)) as [L|L].
  - rewrite nth_error_app1 in Eb by auto. apply (H b l Hb). unfold hget, rget. exact Eb.
  - rewrite nth_error_app2 in Eb by auto. destruct (b - length h) as [|[|k]]; cbn in Eb; try discriminate. inversion Eb; subst; auto.
Qed.
Lemma all_In : forall P h ls i a l, all P h ls -> rget ls i = Ok a -> hget F h a = Ok l -> P l.
Proof. intros P h ls i a l H E. apply H. eapply rget_In; eauto. Qed.
Lemma all_imp : forall (P Q : layer -> Prop) h ls, (forall l, P l -> Q l) -> all P h ls -> all Q h ls.
Proof. intros P Q h ls H A a l Ha El. apply H. eapply A; eauto. Qed.

(** * forward passes *)
Definition fr (D : Prop) (l : layer) : Prop := calm F l /\ (silent F l \/ ltrain l = false \/ D).
Lemma silent_closed : closed (silent F).
Proof. intros l l' A B C H. unfold silent, calm in *. rewrite A, B. exact H. Qed.
Lemma calm_closed : closed (calm F).
Proof. intros l l' A B C H. unfold calm in *. rewrite A, B. exact H. Qed.
Lemma fr_closed : forall (D : Prop), closed (fr D).
Proof. intros D l l' A B C [H1 H2]. split; [eapply calm_closed; eauto|]. rewrite C. destruct H2 as [H2|H2]; auto. left. eapply silent_closed; eauto. Qed.

Lemma fwdLayer_keeps : forall P rs n i h x o h' o', closed P -> fwdLayer F rs n i h x o = Ok (h', o') -> forall ls, (forall a, In a (nlay n) -> In a ls) -> all P h ls -> all P h' ls.
Proof.
  intros P rs n i h x o h' o' CP E ls Hs H. unfold fwdLayer in E. binp E. inversion E; subst. pose proof (forward_obj F _ _ _ _ _ _ Ex1) as [(A1 & A2 & A3 & _) A4].
  eapply all_set; eauto. eapply CP; eauto. apply (H x0); auto. apply Hs. eapply rget_In; eauto.
Qed.
Lemma fwdLayer_seed : forall (D : Prop) rs1 rs2 n i h x o, (D -> rs1 i = rs2 i) -> all (fr D) h (nlay n) -> fwdLayer F rs1 n i h x o = fwdLayer F rs2 n i h x o.
Proof.
  intros D rs1 rs2 n i h x o HD H. unfold fwdLayer. apply bind_eq; [reflexivity|]. intros a Ea. apply bind_eq; [reflexivity|]. intros l El.
  destruct (@all_In _ _ _ _ _ _ H Ea El) as [C Hl]. apply bind_eq; [|auto].
  destruct Hl as [Hl|[Hl|Hl]]; [apply forward_seed; auto|apply forward_seed; auto|rewrite (HD Hl); reflexivity].
Qed.
Lemma predict_keeps : forall P rs h n x o h' o', closed P -> predict F rs h n x o = Ok (h', o') -> all P h (nlay n) -> all P h' (nlay n).
Proof.
  intros P rs h n x o h' o' CP E H. unfold predict in E. binp E. inversion E; subst.
  apply (forN_postI _ (fun _ p => all P (fst (fst p)) (nlay n))) in Ex; auto.
  intros i [[h1 a] b] s' _ I Eb. binp Eb. inversion Eb; subst. cbn in *. eapply fwdLayer_keeps; eauto.
Qed.
Lemma predict_seed : forall (D : Prop) rs1 rs2 h n x o, (D -> forall i, rs1 i = rs2 i) -> all (fr D) h (nlay n) -> predict F rs1 h n x o = predict F rs2 h n x o.
Proof.
  intros D rs1 rs2 h n x o HD H. unfold predict. apply bind_eq; [|auto].
  apply (@forN_eq _ (fun p => all (fr D) (fst (fst p)) (nlay n))); auto.
  - intros i [[h1 a] b] _ I. cbn in I. rewrite (@fwdLayer_seed D rs1 rs2); auto.
  - intros i [[h1 a] b] s' _ I Eb. cbn in I. binp Eb. inversion Eb; subst. cbn. eapply fwdLayer_keeps; eauto. apply fr_closed.
Qed.
Lemma lossAccuracy_keeps : forall P rs h n t x y h' l a, closed P -> lossAccuracy F cabs rs h n t x y = Ok (h', l, a) -> all P h (nlay n) -> all P h' (nlay n).
Proof.
  intros P rs h n t x y h' l a CP E H. unfold lossAccuracy in E. destruct ((length (nlay n) =? 0) || (mrows x =? 0)); [inversion E; subst; auto|].
  destruct (cValBatch F (tc F t) =? 0); [discriminate|]. binp E. inversion E; subst.
  apply (forN_postI _ (fun _ p => all P (fst (fst (fst (fst p)))) (nlay n))) in Ex; auto.
  intros i [[[[h1 o1] ml1] lo1] g1] s' _ I Eb. binp Eb. inversion Eb; subst. cbn in *. eapply predict_keeps; eauto.
Qed.
Lemma lossAccuracy_seed : forall rs1 rs2 h n t x y, all (fr False) h (nlay n) -> lossAccuracy F cabs rs1 h n t x y = lossAccuracy F cabs rs2 h n t x y.
Proof.
  intros rs1 rs2 h n t x y H. unfold lossAccuracy. destruct ((length (nlay n) =? 0) || (mrows x =? 0)); [reflexivity|].
  destruct (cValBatch F (tc F t) =? 0); [reflexivity|]. apply bind_eq; [|auto].
  apply (@forN_eq _ (fun p => all (fr False) (fst (fst (fst (fst p)))) (nlay n))); auto.
  - intros i [[[[h1 o1] ml1] lo1] g1] _ I. cbn in I. apply bind_eq; [reflexivity|]. intros x1 _. apply bind_eq; [reflexivity|]. intros y1 _.
    apply bind_eq; [apply (@predict_seed False); tauto|auto].
  - intros i [[[[h1 o1] ml1] lo1] g1] s' _ I Eb. cbn in I. binp Eb. inversion Eb; subst. cbn. eapply predict_keeps; eauto. apply fr_closed.
Qed.

(** * one batch *)
(* a property untouched by training *)
Definition obj (P : layer -> Prop) : Prop := forall l l', sameObj F l l' -> P l -> P l'.
Lemma all_touch : forall P xs h h' ls, obj P -> touch F xs h h' -> all P h ls -> all P h' ls.
Proof.
  intros P xs h h' ls OP (T1 & T2 & T3) H a l Ha El. destruct (in_dec Nat.eq_dec a xs) as [I|I].
  - destruct (nth_error h a) as [[l0|]|] eqn:E0.
    + assert (E1 : hget F h a = Ok l0) by (unfold hget, rget; rewrite E0; reflexivity). destruct (T3 a l0 I E1) as (l' & E2 & S). rewrite El in E2. apply Ok_inj in E2. subst l'.
      eapply OP; eauto.
    + unfold hget, rget in El. rewrite T2 in El by (right; auto). rewrite E0 in El. discriminate.
    + unfold hget, rget in El. destruct (nth_error h' a) eqn:E1; [|discriminate]. apply nth_error_None in E0. assert (a < length h') by (apply nth_error_Some; congruence). lia.
  - apply (H a l Ha). unfold hget, rget in *. rewrite <- (T2 a (or_introl I)). exact El.
Qed.

Lemma trainBatch_seed : forall (D : Prop) rs1 rs2 h n t x y, (D -> forall i, rs1 i = rs2 i) -> all (fr D) h (nlay n) -> trainBatch F cabs rs1 h n t x y = trainBatch F cabs rs2 h n t x y.
Proof.
  intros D rs1 rs2 h n t x y HD H. unfold trainBatch. apply bind_eq; [|auto]. unfold backprop. apply bind_eq; [reflexivity|]. intros v _. apply bind_eq; [|auto].
  apply (@forN_eq _ (fun p => all (fr D) (fst p) (nlay n))); auto.
  - intros i [h1 v1] _ I. cbn in I. unfold fwdStep. cbn [fst snd]. do 2 (apply bind_eq; [reflexivity|]; intros ? _). rewrite (@fwdLayer_seed D rs1 rs2); auto.
  - intros i [h1 v1] s' _ I Eb. cbn in I. unfold fwdStep in Eb. cbn [fst snd] in Eb. binp Eb. inversion Eb; subst. cbn. eapply fwdLayer_keeps; eauto. apply fr_closed.
Qed.

(** * copies *)
Lemma clear_keeps : forall P h n h' n' ls, netClear F h n = Ok (h', n') -> all P h ls -> all P h' ls.
Proof.
  intros P h n h' n' ls E H. unfold netClear in E. binp E. inversion E; subst.
  apply (forL_postI _ _ (fun h => all P h ls)) in Ex; auto. intros a h1 h2 _ I Ef. eapply all_free; eauto.
Qed.
Lemma assign_seed : forall rs1 rs2 h n other, all (calm F) h (nlay other) -> netAssign F false rs1 h n other = netAssign F false rs2 h n other.
Proof.
  intros rs1 rs2 h n other H. unfold netAssign. apply bind_eq; [reflexivity|]. intros [h1 n1] E1. apply bind_eq; [|auto]. cbn [fst snd].
  apply (@forN_eq _ (fun p => all (calm F) (fst p) (nlay other))).
  - cbn. eapply clear_keeps; eauto.
  - intros i [h2 ls] _ I. cbn in I. unfold pushClone. cbn [fst snd]. apply bind_eq; [reflexivity|]. intros a Ea. apply bind_eq; [reflexivity|]. intros l El.
    rewrite (@clone_seed F (rs1 i) (rs2 i)); [reflexivity|]. eapply all_In; eauto.
  - intros i [h2 ls] s' _ I Eb. cbn in I. unfold pushClone in Eb. cbn [fst snd] in Eb. binp Eb. inversion Eb; subst. cbn. apply all_push; auto.
    destruct (@clone_kind F _ _ _ Ex1 (@all_In _ _ _ _ _ _ I Ex Ex0)); auto.
Qed.
Section Fit.
Variables R1 R2 : fitRnd F.
Definition ag : Prop := sameTraining F R1 R2.
(* what holds of every object of the run, and of the network between two training phases *)
Definition Tr (l : layer) : Prop := calm F l /\ (silent F l \/ ag).
Definition Ev (l : layer) : Prop := Tr l /\ (silent F l \/ ltrain l = false).
Lemma Tr_obj : obj Tr.
Proof. intros l l' (A & _ & B & _) [H1 H2]. unfold Tr, silent, calm in *. rewrite A, B. auto. Qed.
Lemma Ev_closed : closed Ev.
Proof. intros l l' A B C H. unfold Ev, Tr, silent, calm in *. rewrite A, B, C. exact H. Qed.
Lemma Ev_Tr : forall l, Ev l -> Tr l. Proof. intros l [H _]; exact H. Qed.
Lemma Ev_fr : forall l, Ev l -> fr False l. Proof. intros l [[H _] H2]. split; auto. destruct H2; auto. Qed.
Lemma Tr_fr : forall l, Tr l -> fr ag l. Proof. intros l [H H2]. split; auto. destruct H2; auto. Qed.
Lemma Tr_calm : forall l, Tr l -> calm F l. Proof. intros l [H _]; exact H. Qed.
Lemma clone_Ev : forall r l c, layClone F r l = Ok c -> Tr l -> Ev c.
Proof.
  intros r l c E [H H2]. destruct (@clone_kind F r l c E H) as (A & B & C). split; [|right; auto]. split; auto. destruct H2; auto.
Qed.

Lemma assign_post : forall rs h n other h' n', netAssign F false rs h n other = Ok (h', n') -> all Tr h (nlay other) ->
  all Ev h' (nlay n') /\ (forall (P : layer -> Prop) ls, (forall l, Ev l -> P l) -> all P h ls -> all P h' ls).
Proof.
  intros rs h n other h' n' E H. unfold netAssign in E. apply bind_inv in E. destruct E as ([h0 n0] & Ex & E). apply bind_inv in E. destruct E as ([h1 l] & Ex0 & E). apply Ok_inj in E. injection E; intros <- <-. clear E. cbn [nlay].
  assert (G : all Tr (fst (h1, l)) (nlay other) /\ all Ev (fst (h1, l)) (snd (h1, l)) /\ forall (P : layer -> Prop) ls, (forall l, Ev l -> P l) -> all P h0 ls -> all P (fst (h1, l)) ls).
  { apply (forN_postI _ (fun _ p => all Tr (fst p) (nlay other) /\ all Ev (fst p) (snd p) /\ forall (P : layer -> Prop) ls, (forall l, Ev l -> P l) -> all P h0 ls -> all P (fst p) ls) _ _ _ _ Ex0).
    - cbn. split; [eapply clear_keeps; eauto|]. split; [|auto]. unfold netClear in Ex. binp Ex. inversion Ex; subst. intros a l0 [].
    - intros i [h2 ls] s' _ (I1 & I2 & I3) Eb. cbn [fst snd] in *. unfold pushClone in Eb. cbn [fst snd] in Eb. binp Eb. inversion Eb; subst. cbn [fst snd].
      assert (C : Ev x1) by (eapply clone_Ev; eauto; eapply all_In; eauto). split; [apply all_push; auto; apply Ev_Tr; auto|]. split; [|intros P ls' HP HA; apply all_push; auto].
      intros a l0 Ha E0. apply in_app_or in Ha. destruct Ha as [Ha|[Ha|[]]].
      + apply (@all_push Ev h2 ls x1 I2 C a l0 Ha E0).
      + subst a. unfold hget, rget in E0. rewrite nth_error_app2, Nat.sub_diag in E0 by auto. cbn in E0. inversion E0; subst; auto. }
  cbn [fst snd] in G. destruct G as (_ & G1 & G2). split; auto. intros P ls HP HA. apply G2; auto. eapply clear_keeps; eauto.
Qed.

(** * one epoch *)
Lemma train_false : forall h n h' n', netSetTrain F h n false = Ok (h', n') -> forall a l, In a (nlay n) -> hget F h' a = Ok l -> ltrain l = false.
Proof.
  intros h n h' n' E. unfold netSetTrain in E. binp E. inversion E; subst.
  assert (G : forall ls h h', forL ls (fun a h => l <- hget F h a ;; hset F h a (setTrain l false)) h = Ok h' ->
    forall done, all (fun l => ltrain l = false) h done -> all (fun l => ltrain l = false) h' (done ++ ls)).
  { clear. induction ls as [|a ls IH]; intros h h' E done H; cbn in E; [apply Ok_inj in E; subst; rewrite app_nil_r; auto|].
    binp E. binp Ex. replace (done ++ a :: ls) with ((done ++ [a]) ++ ls) by (rewrite <- app_assoc; reflexivity). apply (IH _ _ E).
    intros b l Hb El. pose proof Ex as S. rewrite (hset_ok F h a x0 _ Ex0) in S. apply Ok_inj in S. subst x.
    rewrite (hget_upd F) in El by (eapply hget_lt; eauto). destruct (Nat.eqb_spec a b) as [|Nb]; [inversion El; subst; reflexivity|].
    apply in_app_or in Hb. destruct Hb as [Hb|[Hb|[]]]; [eapply H; eauto|congruence]. }
  intros a l Ha El. apply (G _ _ _ Ex [] (fun b l Hb => match Hb with end) a l Ha El).
Qed.
Lemma shuffle_seed : forall d1 d2 v, (forall i, d1 i = d2 i) -> shuffle d1 v = shuffle d2 v.
Proof. intros d1 d2 v H. unfold shuffle. apply (@forL_eq _ _ (fun _ => True)); try (intros i s _ _; rewrite H; reflexivity); auto. Qed.

Lemma trainOneEpoch_seed : forall e h n t x y, all Tr h (nlay n) -> trainOneEpoch F cabs (oTrain F R1 e) h n t x y = trainOneEpoch F cabs (oTrain F R2 e) h n t x y.
Proof.
  intros e h n t x y H. unfold trainOneEpoch. destruct (mrows x =? 0); [reflexivity|]. destruct (tadj F t =? 0); [reflexivity|].
  apply (@forN_eq _ (fun p => all Tr (fst p) (nlay n))); auto.
  - intros b [h1 t1] _ I. cbn in I. do 2 (apply bind_eq; [reflexivity|]; intros ? _). apply (@trainBatch_seed ag); [intros A i; apply A|eapply all_imp; [apply Tr_fr|exact I]].
  - intros b [h1 t1] s' _ I Eb. cbn in I. binp Eb. destruct s' as [h2 t2]. cbn. apply trainBatch_post in Eb. destruct Eb as [Eb _]. eapply all_touch; [apply Tr_obj|exact Eb|exact I].
Qed.
Lemma epochTrain_seed : forall e h n t x y, sameShuffles F R1 R2 \/ mrows x <= tadj F t -> all Tr h (nlay n) ->
  epochTrain F cabs R1 e h n t x y = epochTrain F cabs R2 e h n t x y.
Proof.
  intros e h n t x y HS H. unfold epochTrain. cbn [tadj setOnline]. apply bind_eq.
  - destruct (Nat.ltb_spec (tadj F t) (mrows x)) as [L|L]; [|reflexivity]. destruct HS as [HS|HS]; [|lia]. apply bind_eq; [|auto]. unfold randPerm. apply shuffle_seed. intro i. apply HS.
  - intros [x1 y1] _. apply bind_eq; [reflexivity|]. intros [h1 n1] E1. apply setTrain_touch in E1. destruct E1 as [T1 ->]. apply bind_eq; [|auto].
    apply trainOneEpoch_seed. cbn [nlay]. eapply all_touch; [apply Tr_obj|exact T1|exact H].
Qed.
Lemma epochTrain_keeps : forall e h n t x y h' n' t', epochTrain F cabs R2 e h n t x y = Ok (h', n', t') -> all Tr h (nlay n) ->
  all Ev h' (nlay n') /\ (forall ls, all Tr h ls -> all Tr h' ls) /\ tadj F t' = tadj F t.
Proof.
  intros e h n t x y h' n' t' E H. pose proof (epochTrain_post F cabs _ _ _ _ _ _ _ _ _ _ E) as (T1 & Fz & ->). split; [|split].
  - unfold epochTrain in E. binp E. inversion E; subst. cbn [nlay]. pose proof (setTrain_touch F _ _ _ _ _ Ex0) as [_ Z]. subst n0.
    intros a l Ha El. split; [exact (@all_touch Tr _ _ _ _ Tr_obj T1 H a l Ha El)|right; eapply train_false; eauto].
  - intros ls Hl. eapply all_touch; [apply Tr_obj|exact T1|exact Hl].
  - apply Fz.
Qed.

Definition good (adj : nat) (s : fstate F) : Prop := all Ev (sh F s) (nlay (sn F s)) /\ all Tr (sh F s) (nlay (sbest F s)) /\ tadj F (st F s) = adj.
Lemma stats_keeps : forall e h n t nS h' t' l a, epochStats F cabs R2 e h n t nS = Ok (h', t', l, a) -> all Ev h (nlay n) -> all Ev h' (nlay n) /\ (forall ls, all Tr h ls -> all Tr h' ls) /\ tadj F t' = tadj F t.
Proof.
  intros e h n t nS h' t' l a E H. unfold epochStats in E. destruct (tval F t) as [[x y]|].
  - binp E. inversion E; subst. split; [eapply lossAccuracy_keeps; eauto; apply Ev_closed|]. split; [|reflexivity]. intros ls Hl. eapply all_touch; [apply Tr_obj|eapply lossAccuracy_touch; eauto|exact Hl].
  - inversion E; subst. auto.
Qed.
Lemma stats_seed : forall e h n t nS, all Ev h (nlay n) -> epochStats F cabs R1 e h n t nS = epochStats F cabs R2 e h n t nS.
Proof.
  intros e h n t nS H. unfold epochStats. destruct (tval F t) as [[x y]|]; [|reflexivity]. apply bind_eq; [|auto]. apply lossAccuracy_seed. eapply all_imp; [apply Ev_fr|exact H].
Qed.
Lemma best_seed : forall adj e s l a, good adj s -> epochBest F R1 e s l a = epochBest F R2 e s l a.
Proof.
  intros adj e [h n t best A L reb calls] l a (G1 & G2 & G3). cbn in G1, G2, G3. unfold epochBest. destruct (negb (cKeep F (tc F t)) && (cPatience F (tc F t) =? -1)%Z); [reflexivity|].
  apply bind_eq.
  - destruct (if nclass n then flt F A a else flt F l L); [|reflexivity]. apply bind_eq; [|auto]. apply assign_seed. eapply all_imp; [|exact G1]. intros; apply Tr_calm, Ev_Tr; auto.
  - intros [[h1 b1] t1] E1. destruct ((cPatience F (tc F t1) <? tcur F t1)%Z && negb (cPatience F (tc F t1) =? -1)%Z); [|reflexivity]. apply bind_eq; [|auto]. apply assign_seed.
    apply (@all_imp Tr); [apply Tr_calm|]. destruct (if nclass n then flt F A a else flt F l L); [|inversion E1; subst; auto].
    binp E1. inversion E1; subst. apply assign_post in Ex; [|eapply all_imp; [apply Ev_Tr|exact G1]]. eapply all_imp; [apply Ev_Tr|exact (proj1 Ex)].
Qed.
Lemma best_keeps : forall adj e s l a s', epochBest F R2 e s l a = Ok s' -> good adj s -> good adj s'.
Proof.
  intros adj e [h n t best A L reb calls] l a s' E (G1 & G2 & G3). cbn in G1, G2, G3. unfold epochBest in E. destruct (negb (cKeep F (tc F t)) && (cPatience F (tc F t) =? -1)%Z); [apply Ok_inj in E; subst s'; split; [|split]; auto|].
  apply bind_inv in E. destruct E as ([[h1 b1] t1] & E1 & E).
  assert (G : all Ev h1 (nlay n) /\ all Tr h1 (nlay b1) /\ tadj F t1 = adj).
  { destruct (if nclass n then flt F A a else flt F l L); [|inversion E1; subst; auto]. binp E1. inversion E1; subst.
    apply assign_post in Ex; [|eapply all_imp; [apply Ev_Tr|exact G1]]. destruct Ex as [X1 X2]. split; [apply (X2 Ev); auto|]. split; [|auto]. eapply all_imp; [apply Ev_Tr|exact X1]. }
  destruct G as (H1 & H2 & H3). destruct ((cPatience F (tc F t1) <? tcur F t1)%Z && negb (cPatience F (tc F t1) =? -1)%Z); [|apply Ok_inj in E; subst s'; split; [|split]; auto].
  binp E. inversion E; subst. apply assign_post in Ex; [|exact H2]. destruct Ex as [X1 X2]. split; [exact X1|]. split; [|exact H3]. apply (X2 Tr); auto. apply Ev_Tr.
Qed.
Lemma epoch_seed : forall adj mS mT e s, sameShuffles F R1 R2 \/ mrows mS <= adj -> good adj s -> epoch F cabs R1 mS mT e s = epoch F cabs R2 mS mT e s.
Proof.
  intros adj mS mT e s HS (G1 & G2 & G3). unfold epoch. apply bind_eq; [apply epochTrain_seed; [rewrite G3; exact HS|eapply all_imp; [apply Ev_Tr|exact G1]]|].
  intros [[h n] t] E1. apply epochTrain_keeps in E1; [|eapply all_imp; [apply Ev_Tr|exact G1]]. destruct E1 as (A1 & A2 & A3). apply bind_eq; [apply stats_seed; exact A1|].
  intros [[[h2 t2] l] a] E2. apply stats_keeps in E2; [|exact A1]. destruct E2 as (B1 & B2 & B3). apply bind_eq; [|auto]. apply (@best_seed adj). split; [exact B1|]. split; [apply B2, A2, G2|]. cbn. congruence.
Qed.
Lemma epoch_keeps : forall adj mS mT e s s', epoch F cabs R2 mS mT e s = Ok s' -> good adj s -> good adj s'.
Proof.
  intros adj mS mT e s s' E (G1 & G2 & G3). unfold epoch in E. binp E. apply Ok_inj in E. subst s'.
  apply epochTrain_keeps in Ex; [|eapply all_imp; [apply Ev_Tr|exact G1]]. destruct Ex as (A1 & A2 & A3).
  apply stats_keeps in Ex0; [|exact A1]. destruct Ex0 as (B1 & B2 & B3).
  apply best_keeps with (adj := adj) in Ex1; [|split; [exact B1|split; [apply B2, A2, G2|cbn; congruence]]].
  destruct x as [h3 n3 t3 b3 A L reb calls]. destruct Ex1 as (C1 & C2 & C3). cbn in C1, C2, C3. unfold epochReboost. destruct (cReboost F (tc F t3) =? -1)%Z; [(split; [|split]; auto)|].
  destruct (reb <? cReboost F (tc F t3))%Z; (split; [|split]; auto).
Qed.

Theorem fit_seed : forall h n t, sameShuffles F R1 R2 \/ oneBatch F t -> all Ev h (nlay n) -> fit F cabs R1 h n t = fit F cabs R2 h n t.
Proof.
  intros h n t HS H. unfold fit. apply bind_eq; [reflexivity|]. intros [h1 t1] E1. pose proof E1 as P. apply setNet_post in P. destruct P as (P0 & P1 & P2 & _ & _ & _ & P3 & P4 & P5 & P6 & _).
  assert (H1 : all Ev h1 (nlay n)).
  { intros a l Ha El. destruct (nlay n) as [|a0 ls] eqn:En; [contradiction|]. destruct (Nat.eq_dec a a0) as [->|Na].
    - destruct (P2 a0 eq_refl) as (l0 & L0 & L1). rewrite El in L1. apply Ok_inj in L1. subst l. eapply Ev_closed; [| | |apply (H a0 l0); auto with datatypes]; reflexivity.
    - apply (H a l Ha). unfold hget, rget in *. rewrite <- (P1 a); [exact El|cbn; congruence]. }
  destruct (tnl F t1 =? 0); [reflexivity|]. rewrite P5. destruct (ttrain F t) as [[mS mT]|] eqn:Et; [|reflexivity].
  assert (ES : fitStart F cabs R1 h1 n t1 mS mT = fitStart F cabs R2 h1 n t1 mS mT).
  { unfold fitStart. apply bind_eq; [reflexivity|]. intros t2 _. match goal with |- (if ?c then _ else _) = _ => destruct c; [|reflexivity] end.
    match goal with |- (let '(_, _) := ?p in _) = _ => destruct p as [x y] end. apply bind_eq; [apply lossAccuracy_seed; eapply all_imp; [apply Ev_fr|exact H1]|].
    intros [[h2 l] a] E2. apply bind_eq; [|auto]. apply assign_seed. apply (@all_imp Ev); [intros; apply Tr_calm, Ev_Tr; auto|]. eapply lossAccuracy_keeps; eauto. apply Ev_closed. }
  rewrite ES. apply bind_eq; [reflexivity|]. intros s0 E0.
  set (adj := if (mrows mS <? cBatch F (tc F t1)) || (cBatch F (tc F t1) =? 0) then mrows mS else cBatch F (tc F t1)).
  assert (G0 : good adj s0).
  { pose proof (start_post F cabs _ _ _ _ _ _ _ E0) as Q. destruct Q as (Q1 & Q2 & _ & _ & _ & _ & _ & _ & _ & _ & _ & _ & _ & Q3 & _). unfold good. rewrite Q1, Q3. fold adj.
    clear Q1 Q2 Q3. unfold fitStart in E0. binp E0. match type of E0 with (if ?c then _ else _) = _ => destruct c end; [|inversion E0; subst; cbn; split; [auto|split; [intros a l []|auto]]].
    match type of E0 with (let '(_, _) := ?p in _) = _ => destruct p as [xx yy] end. binp E0. inversion E0; subst. cbn [sh sbest sn].
    assert (V : all Ev h0 (nlay n)) by (eapply lossAccuracy_keeps; eauto; apply Ev_closed).
    apply assign_post in Ex1; [|eapply all_imp; [apply Ev_Tr|exact V]]. destruct Ex1 as [X1 X2]. split; [apply (X2 Ev); auto|]. split; [|auto]. eapply all_imp; [apply Ev_Tr|exact X1]. }
  assert (HS' : sameShuffles F R1 R2 \/ mrows mS <= adj).
  { destruct HS as [HS|(x & y & E & HS)]; [auto|]. right. rewrite Et in E. inversion E; subst x y. unfold adj. rewrite P3. destruct (Nat.ltb_spec (mrows mS) (cBatch F (tc F t))); cbn; [lia|].
    destruct (Nat.eqb_spec (cBatch F (tc F t)) 0); cbn; lia. }
  assert (EL : forall k, forN k (epoch F cabs R1 mS mT) s0 = forN k (epoch F cabs R2 mS mT) s0).
  { intro k. apply (@forN_eq _ (good adj)); auto; [intros; eapply epoch_seed; eauto|intros; eapply epoch_keeps; eauto]. }
  rewrite EL. apply bind_eq; [reflexivity|]. intros s1 E2.
  assert (G1 : good adj s1) by (apply (forN_postI _ (fun _ => good adj)) in E2; auto; intros; eapply epoch_keeps; eauto).
  unfold fitEnd. apply bind_eq; [|auto]. destruct (cKeep F (tc F (st F s1))); [|reflexivity]. apply assign_seed. eapply all_imp; [apply Tr_calm|apply G1].
Qed.
End Fit.
End Net.

Section Claims.
Variable F : FOps.
Variable cabs : F -> res F.
Theorem seed_silent : forall R1 R2 h n t, allLayers F (silent F) h n -> sameShuffles F R1 R2 -> fit F cabs R1 h n t = fit F cabs R2 h n t.
Proof.
  intros R1 R2 h n t H HS. apply fit_seed; auto. intros a l Ha El. pose proof (H a l Ha El) as S. split; [|auto]. split; [apply S|auto].
Qed.
Theorem seed_one_batch : forall R1 R2 h n t, allLayers F (silent F) h n -> oneBatch F t -> fit F cabs R1 h n t = fit F cabs R2 h n t.
Proof.
  intros R1 R2 h n t H HS. apply fit_seed; auto. intros a l Ha El. pose proof (H a l Ha El) as S. split; [|auto]. split; [apply S|auto].
Qed.
Theorem seed_calm : forall R1 R2 h n t, allLayers F (fun l => calm F l /\ (silent F l \/ ltrain l = false)) h n -> sameTraining F R1 R2 -> sameShuffles F R1 R2 \/ oneBatch F t ->
  fit F cabs R1 h n t = fit F cabs R2 h n t.
Proof.
  intros R1 R2 h n t H HT HS. apply fit_seed; auto. intros a l Ha El. pose proof (H a l Ha El) as [S1 S2]. split; [|auto]. split; [exact S1|right; exact HT].
Qed.
Theorem seed_predict : forall rs1 rs2 h n x o, allLayers F (fun l => calm F l /\ (silent F l \/ ltrain l = false)) h n -> predict F rs1 h n x o = predict F rs2 h n x o.
Proof.
  intros rs1 rs2 h n x o H. apply (@predict_seed F False); [contradiction|]. intros a l Ha El. destruct (H a l Ha El) as [S1 [S2|S2]]; split; auto.
Qed.
End Claims.
