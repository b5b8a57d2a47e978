(* MetaProofs5.v - the meta-optimiser: runs with one thread, layer variations, missing callback, races; the layer factory *)
From Coq Require Import String List Arith Bool Lia ZArith Reals Lra.
From Verif Require Import Base Scalar Mat Loss Optim Regul Act LayMat LayImg LayRnn Layer Net NetTrain SpecNet SpecTrain ActMono NetProofs1 NetProofs2 TrainProofs1 TrainProofs2 TrainProofs3 JsonSave Meta SpecMeta MetaProofs1 MetaProofs2 MetaProofs3 MetaProofs4.
Import ListNotations.
Local Open Scope nat_scope.

Section Single.
Variable F : FOps.
Variable cabs : F -> res F.
(* one thread: the variation drawn in a repetition is the one the next repetition trains with; the first one trains with the user's *)
Theorem single_runs : forall m hw ds scheds h net0 u s, mfit F cabs m hw ds scheds h net0 (Some u) = Ok s -> nbThreads F m hw = 1 ->
  length (gRuns F s) = mRepeat F m /\ forall r i t, nth_error (gRuns F s) r = Some (i, t) -> i = 0 /\ usesAt F m ds u t r.
Proof.
  intros m hw ds scheds h net0 u s E H1. unfold mfit in E. rewrite H1 in E.
  apply (forN_postI _ (fun k s => length (gRuns F s) = k /\ usesAt F m ds u (gTrain F s) k /\ forall r i t, nth_error (gRuns F s) r = Some (i, t) -> i = 0 /\ usesAt F m ds u t r)) in E.
  - destruct E as (A & _ & B). auto.
  - cbn [gRuns gTrain]. split; [reflexivity|]. split; [apply trainsAs_refl|]. intros [|r] i t Hr; discriminate.
  - intros k s1 s2 _ (A & B & C) E1. apply single_variation in E1. destruct E1 as ((t0 & R & H0) & H2).
    assert (Tr : forall t o l, trainsAs F (gTrain F s1) t o l -> trainsAs F u t o l).
    { intros t o l Ht. destruct k as [|q]; cbn in B; [|destruct (nth_error (mOv F m) _)]; eapply trainsAs_trans; eauto. }
    split; [rewrite R, app_length, A; cbn; lia|]. split.
    + unfold usesAt. destruct (nth_error (mOv F m) (dOpt F (ds k 0) mod length (mOv F m))) eqn:Ed; [apply Tr; exact H2|]. rewrite H2. destruct k as [|q]; [exact B|]. unfold usesAt in B.
      destruct (nth_error (mOv F m) (dOpt F (ds q 0) mod length (mOv F m))) eqn:Eq; [|exact B]. exfalso. apply nth_error_None in Ed. assert (length (mOv F m) <> 0) by (intro Z0; destruct (mOv F m); [destruct (_ mod _); discriminate|discriminate]).
      pose proof (Nat.mod_upper_bound (dOpt F (ds (S q) 0)) _ H). lia.
    + intros r i t Hr. rewrite R in Hr. destruct (lt_dec r (length (gRuns F s1))) as [L|G]; [rewrite nth_error_app1 in Hr by lia; auto|].
      rewrite nth_error_app2 in Hr by lia. destruct (r - length (gRuns F s1)) as [|z] eqn:Ez; [|destruct z; discriminate]. cbn in Hr. injection Hr as <- <-. split; [reflexivity|]. assert (r = k) by lia. subst r.
      destruct k as [|q]; cbn in B |- *; [eapply trainsAs_trans; [exact B|]; destruct B as (B1 & B2 & _); rewrite <- B1, <- B2; exact H0|].
      destruct (nth_error (mOv F m) _); (eapply trainsAs_trans; [exact B|]; destruct B as (B1 & B2 & _); rewrite <- B1, <- B2; exact H0).
Qed.

(** * no better-solution callback *)
Lemma nocb_step : forall m net0 ds i s s', mstep F cabs m net0 ds i s = Ok s' -> mCb F m = false -> gReports F s' = gReports F s.
Proof.
  intros m net0 ds i s s' E N. mcases E p Hp Li. destruct p0 as [| |n t|v n t|v n t|n t|[|a accs] n|a accs n|a accs n|]; try (rewrite N in E; discriminate E); binm E; try (destruct (length (mOv F m) =? 0); binm E); injection E as <-; reflexivity.
Qed.
Lemma nocb_run : forall m net0 ds sched s s', mrun F cabs m net0 ds sched s = Ok s' -> mCb F m = false -> gReports F s' = gReports F s.
Proof.
  intros m net0 ds. unfold mrun. induction sched as [|i r IH]; intros s s' E N; simpl in E; [injection E as <-; auto|]. apply bind_inv in E. destruct E as (s1 & E1 & E). rewrite (IH _ _ E N). eapply nocb_step; eauto.
Qed.

(** * races *)
Lemma race_one : forall m net0 ds sched s s' l, mrun F cabs m net0 ds sched (mstart F 1 s) = Ok s' -> ~ race F m s' l.
Proof.
  intros m net0 ds sched s s' l E (i & j & p & q & b & c & D & Hi & Hj & _). apply mrun_len in E. cbn in E.
  assert (i < length (gThreads F s')) by (apply nth_error_Some; congruence). assert (j < length (gThreads F s')) by (apply nth_error_Some; congruence). lia.
Qed.

Lemma mrun_app : forall m net0 ds a b s s', mrun F cabs m net0 ds (a ++ b) s = Ok s' -> exists s1, mrun F cabs m net0 ds a s = Ok s1 /\ mrun F cabs m net0 ds b s1 = Ok s'.
Proof. intros m net0 ds a b s s' E. unfold mrun in *. rewrite forL_app in E. apply bind_inv in E. exact E. Qed.
Lemma two_start : forall m net0 ds nt s s', mrun F cabs m net0 ds [0; 0] (mstart F nt s) = Ok s' -> 2 <= nt ->
  exists h n t ps, netAssign F false (dCopy F (ds 0)) (gHeap F s) netNew net0 = Ok (h, n) /\ trAssign F (trNew F) (gTrain F s) = Ok t /\
    s' = mkMS F h (minus1 F) (gTrain F s) (PVary F n t :: PSeed F :: ps) (gRuns F s) (gEpochs F s) (gReports F s).
Proof.
  intros m net0 ds nt s s' E Hn. destruct nt as [|[|nt]]; [lia|lia|]. unfold mrun, mstart in E. cbn [repeat] in E. revert E. generalize (repeat (PSeed F) nt) as ps. intros ps E.
  cbn [forL] in E. unfold mstep at 1 in E. cbn [rget nth_error gThreads bind rset length Nat.ltb Nat.leb upd gHeap gBest gTrain gRuns gEpochs gReports] in E.
  unfold mstep at 1 in E. cbn [rget nth_error gThreads bind rset length Nat.ltb Nat.leb upd gHeap gBest gTrain gRuns gEpochs gReports] in E.
  destruct (netAssign F false (dCopy F (ds 0)) (gHeap F s) netNew net0) as [[h n]|]; [|discriminate E]. cbn [bind] in E.
  destruct (trAssign F (trNew F) (gTrain F s)) as [t|]; [|discriminate E]. cbn [bind] in E. injection E as <-. exists h, n, t, ps. auto.
Qed.
(* two threads or more: the random engine is used without synchronisation as soon as thread 0 has made its copies *)
Theorem race_random : forall m net0 ds nt s s', mrun F cabs m net0 ds [0; 0] (mstart F nt s) = Ok s' -> 2 <= nt -> nlay net0 <> [] \/ mOv F m <> [] -> (forall x, In x (nlay net0) -> x < length (gHeap F s)) ->
  race F m s' LRandom.
Proof.
  intros m net0 ds nt s s' E Hn Hd Hl. apply two_start in E; auto. destruct E as (h & n & t & ps & Ea & _ & ->). apply assign_post in Ea; auto. destruct Ea as (S1 & _).
  exists 0, 1, (PVary F n t), (PSeed F), true, true. cbn [gThreads nth_error]. split; [auto|]. split; [reflexivity|]. split; [reflexivity|]. cbn [accesses Nat.eqb]. split; [|split; [left; reflexivity|auto]].
  rewrite S1, seq_length. destruct Hd as [Hd|Hd].
  - destruct (nlay net0); [contradiction|]. cbn. left. reflexivity.
  - destruct (mOv F m); [contradiction|]. cbn [length Nat.eqb]. rewrite andb_false_r. left. reflexivity.
Qed.
(* and so is the user's trainer, when there are optimiser variations *)
Theorem race_trainer : forall m net0 ds nt s s', mrun F cabs m net0 ds [0; 0; 0; 1] (mstart F nt s) = Ok s' -> 2 <= nt -> mOv F m <> [] -> race F m s' LTrain.
Proof.
  intros m net0 ds nt s s' E Hn Hv. apply (mrun_app m net0 ds [0; 0] [0; 1]) in E. destruct E as (s1 & E1 & E). apply two_start in E1; auto. destruct E1 as (h & n & t & ps & _ & _ & ->).
  unfold mrun in E. cbn [forL] in E. unfold mstep at 1 in E. cbn [rget nth_error gThreads bind rset length Nat.ltb Nat.leb upd gHeap gBest gTrain gRuns gEpochs gReports] in E.
  destruct (applyLayers F m (ds 0) h n) as [[h1 n1]|]; [|discriminate E]. cbn [bind] in E. destruct (mOv F m) as [|v0 vs] eqn:Em; [contradiction|]. cbn [length Nat.eqb] in E.
  destruct (rget (v0 :: vs) _) as [v|]; [|discriminate E]. cbn [bind rset length Nat.ltb Nat.leb upd] in E.
  unfold mstep at 1 in E. cbn [rget nth_error gThreads bind rset length Nat.ltb Nat.leb upd gHeap gBest gTrain gRuns gEpochs gReports] in E. injection E as <-.
  exists 0, 1, (PSetOpt F v n1 t), (PCopy F), true, false. cbn [gThreads nth_error accesses]. split; [auto|]. split; [reflexivity|]. split; [reflexivity|]. split; [left; reflexivity|]. split; [left; reflexivity|auto].
Qed.
(* and so is _fBestAccuracy *)
Theorem race_best : forall m net0 ds s s' i j a accs n b accs' n', nth_error (gThreads F s) i = Some (PEpochs F (a :: accs) n) -> nth_error (gThreads F s) j = Some (PEpochs F (b :: accs') n') -> i <> j ->
  flt F (gBest F s) a = true -> mstep F cabs m net0 ds i s = Ok s' -> race F m s' LBest.
Proof.
  intros m net0 ds s s' i j a accs n b accs' n' Hi Hj D Lt E. mcases E p Hp Li. injection Hi as ->. cbn [bind] in E. rewrite Lt in E. injection E as <-.
  exists i, j, (PWrite F a accs n), (PEpochs F (b :: accs') n'), true, false. cbn [gThreads]. split; [exact D|]. split; [rewrite nth_error_upd, Nat.eqb_refl, Li; reflexivity|].
  split; [rewrite nth_error_upd; destruct (Nat.eqb_spec i j); [contradiction|exact Hj]|]. cbn. auto.
Qed.

(** * layer variations *)
Definition madeOf (p : pc F) : option net := match p with PVary n _ | PSetOpt _ n _ | PSetLr _ n _ | PTrain n _ => Some n | _ => None end.
Lemma variant_frame : forall m h0 net0 h ls h', variant F m h0 net0 h ls -> (forall x, In x ls -> nth_error h' x = nth_error h x) -> variant F m h0 net0 h' ls.
Proof.
  intros m h0 net0 h ls h' [A B] H. split; [exact A|]. intros i a Ha. destruct (B i a Ha) as (a' & c & H1 & H2 & H3). exists a', c. split; [exact H1|]. split; [|exact H3].
  unfold hget, rget in *. rewrite H by (eapply nth_error_In; eauto). exact H2.
Qed.
Lemma apply_variant : forall m d h0 net0 h n h' n', applyLayers F m d h n = Ok (h', n') -> (forall x, In x (nlay n) -> x < length h) -> NoDup (nlay n) -> variant F m h0 net0 h (nlay n) ->
  variant F m h0 net0 h' (nlay n') /\ NoDup (nlay n').
Proof.
  intros m d h0 net0 h n h' n' E Hl Hd Hv. unfold applyLayers in E.
  apply (forN_postI _ (fun _ s => (forall x, In x (nlay (snd s)) -> x < length (fst s)) /\ NoDup (nlay (snd s)) /\ variant F m h0 net0 (fst s) (nlay (snd s)))) in E; [cbn [fst snd] in E; tauto|cbn [fst snd]; auto|].
  intros i [h1 n1] [h2 n2] _ (I1 & I2 & I3) Eb. cbn [fst snd] in *. destruct (_ =? 0) eqn:Ek; [injection Eb as <- <-; auto|]. apply bind_inv in Eb. destruct Eb as (v & Ev & Eb). apply bind_inv in Eb. destruct Eb as (l & El & Eb).
  apply replace_own in Eb; [|auto]. destruct Eb as (O & old & lo & E1 & E2 & -> & E3 & _). split; [eapply ownStep_lt; eauto|]. rewrite E3.
  assert (Li : (i <? length (nlay n1)) = true) by (apply Nat.ltb_lt, nth_error_Some; congruence).
  assert (Nn : ~ In (length h1) (nlay n1)) by (intro Q; apply I1 in Q; lia).
  split.
  - apply NoDup_nth_error. intros j k Hj Hk. rewrite length_upd in Hj. rewrite !nth_error_upd, Li in Hk.
    destruct (Nat.eqb_spec i j), (Nat.eqb_spec i k); cbn [andb] in Hk; subst; auto.
    + exfalso. apply Nn. symmetry in Hk. eapply nth_error_In; eauto.
    + exfalso. apply Nn. eapply nth_error_In; eauto.
    + apply (proj1 (NoDup_nth_error _) I2); auto.
  - destruct I3 as [A B]. split; [rewrite length_upd; exact A|]. intros j a Ha. destruct (Nat.eq_dec i j) as [<-|D].
    + exists (length h1), l. split; [rewrite nth_error_upd, Nat.eqb_refl, Li; reflexivity|]. split.
      * unfold hget, rget. rewrite nth_error_upd. destruct (Nat.eqb_spec old (length h1)); [exfalso; apply Nn; subst; eapply nth_error_In; eauto|]. cbn [andb]. rewrite nth_error_app2 by lia. rewrite Nat.sub_diag. reflexivity.
      * right. unfold rget in Ev. destruct (nth_error (varsOf F m i) _) as [v0|] eqn:Hv0; [|discriminate]. injection Ev as <-. apply nth_error_In in Hv0. apply filter_In in Hv0. destruct Hv0 as [V1 V2]. exists v0, (dNew F d i).
        split; [exact V1|]. split; [apply Z.eqb_eq; exact V2|exact El].
    + destruct (B j a Ha) as (a' & c & H1 & H2 & H3). exists a', c. split; [rewrite nth_error_upd; destruct (Nat.eqb_spec i j); [contradiction|exact H1]|]. split; [|exact H3].
      assert (a' <> old) by (intros ->; apply D; apply (proj1 (NoDup_nth_error _) I2); [apply Nat.ltb_lt; exact Li|congruence]).
      unfold hget, rget in *. rewrite nth_error_upd. destruct (Nat.eqb_spec old a'); [congruence|]. cbn [andb]. rewrite nth_error_app1 by (apply I1; eapply nth_error_In; eauto). exact H2.
Qed.
Definition varInv (m : meta F) (h0 : heap F) (net0 : net) (s : mst F) : Prop := sepInv F h0 s /\
  forall i p n, nth_error (gThreads F s) i = Some p -> madeOf p = Some n -> NoDup (nlay n) /\ variant F m h0 net0 (gHeap F s) (nlay n).
Lemma made_layers : forall p n, madeOf p = Some n -> layersOf F p = nlay n.
Proof. destruct p; intros n0 H; try discriminate H; injection H as <-; reflexivity. Qed.
Lemma var_step : forall m net0 ds i s s' h0, mstep F cabs m net0 ds i s = Ok s' -> (forall x, In x (nlay net0) -> x < length h0) -> varInv m h0 net0 s -> varInv m h0 net0 s'.
Proof.
  intros m net0 ds i s s' h0 E H0 [S V].
  assert (S' : sepInv F h0 s') by (apply (mrun_sep F cabs m net0 ds h0 [i] s s'); auto; unfold mrun; cbn [forL]; rewrite E; reflexivity).
  assert (S0 := S). destruct S0 as (Q1 & Q2 & Q3 & Q4 & Q5).
  pose proof E as E0. apply mstep_own in E0; [|intros x Hx; apply H0 in Hx; lia|intros p x Hp Hx; apply (Q3 i p); auto].
  split; [exact S'|]. destruct E0 as [->|(p & q & h' & b & t & r & e & w & Hp & O & Hs)]; [exact V|].
  assert (Li : (i <? length (gThreads F s)) = true) by (apply Nat.ltb_lt, nth_error_Some; congruence).
  assert (Own : forall n, madeOf q = Some n -> NoDup (nlay n) /\ variant F m h0 net0 h' (nlay n)).
  { intros n Hn. revert E. subst s'. intro E. mcases E pp Hpp Lii. injection Hp as ->. rename Hpp into Hp. clear Lii.
    assert (Uq : forall q', upd (gThreads F s) i q' = upd (gThreads F s) i q -> q' = q).
    { intros q' Eq. assert (G : nth_error (upd (gThreads F s) i q') i = nth_error (upd (gThreads F s) i q) i) by (rewrite Eq; reflexivity). rewrite !nth_error_upd, Nat.eqb_refl, Li in G. injection G as G. exact G. }
    destruct p as [| |n1 t1|v n1 t1|v n1 t1|n1 t1|[|a accs] n1|a accs n1|a accs n1|].
    - binm E. injection E; intros. match goal with H : upd _ _ ?q' = upd _ _ q |- _ => apply Uq in H; subst q end. discriminate.
    - binm E. injection E; intros. match goal with H : upd _ _ ?q' = upd _ _ q |- _ => apply Uq in H; subst q end. injection Hn as ->. subst h'.
      apply assign_post in Ex; [|intros y Hy; apply H0 in Hy; lia]. destruct Ex as (A1 & A2 & A3 & A4 & A5 & A6 & A7 & A8 & [A9 A10]). split; [rewrite A1; apply seq_NoDup|].
      split; [exact A9|]. intros j a Ha. destruct (A10 j a Ha) as (a' & l & c & rr & B1 & B2 & B3 & B4). exists a', c. split; [exact B1|]. split; [exact B4|]. left. exists l. apply clone_params in B3. destruct B3 as (C1 & _ & _ & C2).
      split; [|split; assumption]. unfold hget, rget in *. rewrite Q2 in B2 by (apply H0; eapply nth_error_In; eauto). exact B2.
    - destruct (V i _ n1 Hp eq_refl) as [V1 V2]. binm E. apply (apply_variant m (ds i) h0 net0) in Ex; [|intros y Hy; apply (Q3 i _ y Hp); exact Hy|exact V1|exact V2]. destruct Ex as [X1 X2].
      destruct (length (mOv F m) =? 0); binm E; injection E; intros; (match goal with H : upd _ _ ?q' = upd _ _ q |- _ => apply Uq in H; subst q end); injection Hn as <-; subst h'; auto.
    - binm E. injection E; intros. match goal with H : upd _ _ ?q' = upd _ _ q |- _ => apply Uq in H; subst q end. injection Hn as ->. subst h'. apply (V i _ n Hp eq_refl).
    - binm E. injection E; intros. match goal with H : upd _ _ ?q' = upd _ _ q |- _ => apply Uq in H; subst q end. injection Hn as ->. subst h'. apply (V i _ n Hp eq_refl).
    - binm E. injection E; intros. match goal with H : upd _ _ ?q' = upd _ _ q |- _ => apply Uq in H; subst q end. discriminate.
    - binm E. injection E; intros. match goal with H : upd _ _ ?q' = upd _ _ q |- _ => apply Uq in H; subst q end. discriminate.
    - binm E. injection E; intros. match goal with H : upd _ _ ?q' = upd _ _ q |- _ => apply Uq in H; subst q end. destruct (flt F (gBest F s) a); discriminate.
    - binm E. injection E; intros. match goal with H : upd _ _ ?q' = upd _ _ q |- _ => apply Uq in H; subst q end. discriminate.
    - destruct (mCb F m); [|discriminate E]. binm E. injection E; intros. match goal with H : upd _ _ ?q' = upd _ _ q |- _ => apply Uq in H; subst q end. discriminate.
    - exfalso. injection E as Es. assert (G : nth_error (gThreads F s) i = nth_error (upd (gThreads F s) i q) i) by (rewrite Es at 1; reflexivity). rewrite nth_error_upd, Nat.eqb_refl, Li, Hp in G. cbn in G. injection G as <-. discriminate. }
  subst s'. intros j k n Hk Hn. cbn [gThreads gHeap] in *. destruct (upd_cases _ _ _ _ _ _ Li Hk) as [[-> ->]|[D Hj]]; [apply Own; exact Hn|]. destruct (V j k n Hj Hn) as [V1 V2]. split; [exact V1|].
  eapply variant_frame; [exact V2|]. intros x Hx. rewrite <- (made_layers _ _ Hn) in Hx. destruct O as (_ & O2 & _). apply O2; [apply (Q3 j k); auto|]. intro Q. apply D. symmetry. eapply Q4; eauto.
Qed.
(* when a thread starts its training, layer by layer its network is a copy of the reference network or one of the variations of that layer *)
Theorem trained_variant : forall m nt net0 ds sched h t s i n u, (forall x, In x (nlay net0) -> x < length h) ->
  mrun F cabs m net0 ds sched (mstart F nt (mkMS F h (minus1 F) t [] [] [] [])) = Ok s -> nth_error (gThreads F s) i = Some (PTrain F n u) -> variant F m h net0 (gHeap F s) (nlay n).
Proof.
  intros m nt net0 ds sched h t s i n u H0 E Hi.
  assert (I : varInv m h net0 s).
  { assert (I0 : varInv m h net0 (mstart F nt (mkMS F h (minus1 F) t [] [] [] []))).
    { split; [apply start_sep; cbn; auto; intros y L1 L2; cbn in *; lia|]. intros j p n1 Hp Hn. cbn in Hp. apply nth_error_In, repeat_spec in Hp. subst. discriminate. }
    revert E I0. unfold mrun. match goal with |- forL _ _ ?v = _ -> _ => generalize v as v0 end. clear - H0. induction sched as [|k r IH]; intros v0 E I0; simpl in E; [injection E as <-; auto|].
    apply bind_inv in E. destruct E as (v1 & E1 & E2). eapply IH; eauto. eapply var_step; eauto. }
  destruct I as [_ V]. apply (V i _ n Hi eq_refl).
Qed.

(** * the layer factory *)
Lemma notNull_get : forall s, notNull (get_activation s) = true -> In s list_activations_available.
Proof. intros s H. destruct (in_dec string_dec s list_activations_available) as [I|N]; [exact I|]. rewrite (activations_unknown _ N) in H. discriminate. Qed.
End Single.
