(* GradProofs7.v - the first step of the optimisers; one training batch lowers the loss *)
From Coq Require Import String List Arith Bool Lia Reals Lra ZArith QArith Psatz.
From Coquelicot Require Import Coquelicot.
From Verif Require Import Base Scalar Mat SpecMat SpecReal RSum MatFacts MatLoops MatProofs RDeriv Loss SpecLoss LossProofs LossProofs2 Optim SpecOpt OptProofs OptProofs2 OptProofs3 Regul Act SpecAct LayMat LayImg SpecLayer LayGrad LayCurve Layer Net NetProofs1 NetTrain TrainProofs1 SpecGrad SpecDescent GradProofs1 GradProofs2 GradProofs3 GradProofs4 GradProofs5 GradProofs6.
Import ListNotations.
Local Open Scope R_scope.

Section First.
Variable jk : R.
Notation F := (ROps jk).

Definition phi (k : optKind) (dec mom g : R) : R := - snd (cstep F k 1 (dec0 k dec) (mom0 k mom) (b10 k) (b20 k) (cinit F k g) 0 g).

Lemma cstep_linear : forall k dec mom lr w g, descends k dec mom ->
  snd (cstep F k lr (dec0 k dec) (mom0 k mom) (b10 k) (b20 k) (cinit F k g) w g) = w - lr * phi k dec mom g.
Proof.
  intros k dec mom lr w g H. unfold phi. destruct k; try contradiction; cbn [cstep snd cinit cm cv cp]; unfold mix, sqr; cbn [fadd fsub fmul fdiv fopp flm ROps f0 f1]; unfold Rdiv; match goal with |- @eq _ ?a ?b => change (@eq R a b) end; ring.
Qed.
Lemma floor_pos : forall x, 0 < floor8 F x.
Proof. intros. rewrite floor8_R. eapply Rlt_le_trans; [|apply Rmax_r]. lra. Qed.
Lemma pos_quot : forall c g D, 0 < c -> 0 < D -> g <> 0 -> 0 < (c * g) / D * g.
Proof.
  intros c g D Hc HD Hg. replace (c * g / D * g) with (c * (g * g) * / D) by (unfold Rdiv; ring).
  assert (0 < g * g) by nra. apply Rmult_lt_0_compat; [apply Rmult_lt_0_compat; auto|apply Rinv_0_lt_compat; auto].
Qed.
Lemma phi_descends : forall k dec mom g, descends k dec mom -> g <> 0 -> 0 < phi k dec mom g * g.
Proof.
  intros k dec mom g H Hg. assert (G2 : 0 < g * g) by nra.
  unfold phi; destruct k; try contradiction; cbn [cstep snd cinit cm cv cp]; unfold mix, sqr, oneMinus, beta1, beta2; cbn [fadd fsub fmul fdiv fopp fsign flm ROps f0 f1 dec0 mom0 b10 b20 flit].
  - unfold Rsign. destruct (Rlt_dec g 0); nra.
  - nra.
  - replace (- (0 - (0 * orDefault mom (9 / 10) + g * 1)) * g) with (g * g) by ring. exact G2.
  - replace (- (0 - (g * orDefault mom (9 / 10) + g * (1 - orDefault mom (9 / 10))) * 1) * g) with (g * g) by ring. exact G2.
  - simpl in H. assert (0 < 1 + orDefault mom (9/10)). { unfold orDefault. destruct (Req_EM_T mom (-1)); lra. }
    set (M := orDefault mom (9/10)) in *.
    replace (- (0 + (- 0 * M + (0 * M - g * 1) * (1 + M))) * g) with ((1 + M) * (g * g)) by ring. apply Rmult_lt_0_compat; auto.
  - set (D := floor8 F _). assert (HD : 0 < D) by apply floor_pos.
    replace (- (0 + g / D * - (1)) * g) with ((1 * g) / D * g) by (unfold Rdiv; ring). apply pos_quot; auto; lra.
  - set (D := floor8 F _). assert (HD : 0 < D) by apply floor_pos.
    replace (- (0 + g / D * - (1)) * g) with ((1 * g) / D * g) by (unfold Rdiv; ring). apply pos_quot; auto; lra.
  - set (D := floor8 F _). assert (HD : 0 < D) by apply floor_pos.
    match goal with |- 0 < ?x => replace x with ((1 * g) / D * g) by (field; lra) end. apply pos_quot; auto; lra.
  - set (D := floor8 F _). assert (HD : 0 < D) by apply floor_pos.
    match goal with |- 0 < ?x => replace x with ((1/10 * g) / D * g) by (field; lra) end. apply pos_quot; auto; lra.
  - set (D := floor8 F _). assert (HD : 0 < D) by apply floor_pos.
    match goal with |- 0 < ?x => replace x with ((109/100 * g) / D * g) by (field; lra) end. apply pos_quot; auto; lra.
  - set (D := floor8 F _). assert (HD : 0 < D) by apply floor_pos.
    match goal with |- 0 < ?x => replace x with ((1 * g) / D * g) by (field; lra) end. apply pos_quot; auto; lra.
Qed.
Lemma phi_nonneg : forall k dec mom g, descends k dec mom -> 0 <= phi k dec mom g * g.
Proof. intros k dec mom g H. destruct (Req_dec g 0) as [->|N]; [lra|]. apply Rlt_le. apply phi_descends; auto. Qed.

Lemma lr0_pos : forall k lr, 0 < lr -> lr0 k lr = lr.
Proof. intros k lr H. unfold lr0, orDefault. destruct (Req_EM_T lr (-1)); [lra|]. destruct k; reflexivity. Qed.
Lemma first_move : forall k dec mom lr r c (w g : nat -> nat -> R), descends k dec mom -> 0 < lr -> exists o',
  optimize F (absFloat F) (set_params F (newOpt F k) lr dec mom) (mgen r c w) (mgen r c g) = Ok (o', mgen r c (fun i j => w i j - lr * phi k dec mom (g i j))).
Proof.
  intros k dec mom lr r c w g Hk Hlr. destruct (train_ok jk k lr dec mom r c 1 (fun _ => g) w) as (o' & E & _). exists o'.
  unfold train, optRun in E. cbn [seq map forL] in E. apply bind_inv in E. destruct E as ([o1 w1] & E1 & E2). inversion E2; subst. refine (eq_trans E1 _). apply f_equal. apply f_equal2; [reflexivity|].
  apply mgen_ext. intros i j _ _. unfold rseq, cseq. cbn [seq map crun snd]. rewrite lr0_pos by auto. apply cstep_linear. exact Hk.
Qed.
End First.

(** what the optimisers do to the parameters: the parameters listed are moved once, everything else stays *)
Section Loop.
Variable F : FOps.
Variable cabs : F -> res F.
Variable o0 : opt F.
Variables pw pb : list nat.
Hypothesis Npw : NoDup pw.
Hypothesis Npb : NoDup pb.

Definition rest (l l1 : layer F) : Prop := lk l1 = lk l /\ ltrain l1 = ltrain l /\ lbi l1 = lbi l /\ lmem l1 = lmem l /\ lgw l1 = lgw l /\ lgb l1 = lgb l.
Definition moved (ps : list nat) (a : nat) (w g w' : mat F) : Prop := (In a ps -> exists o', optimize F cabs o0 w g = Ok (o', w')) /\ (~ In a ps -> w' = w).
Lemma in_firstn_S : forall (ps : list nat) i a, nth_error ps i = Some a -> firstn (S i) ps = (firstn i ps ++ [a])%list.
Proof. induction ps as [|x r IH]; intros [|i] a H; simpl in *; try discriminate; [inversion H; reflexivity|]. rewrite (IH i a H). reflexivity. Qed.
Lemma notin_firstn : forall (ps : list nat) i a, NoDup ps -> nth_error ps i = Some a -> ~ In a (firstn i ps).
Proof.
  intros ps i a N H I. rewrite <- (firstn_skipn (S i) ps), (in_firstn_S ps i a H), <- app_assoc in N. simpl in N. apply NoDup_remove_2 in N. apply N. apply in_or_app. auto.
Qed.
Lemma moved_step : forall ps i a c w g w1 w2, NoDup ps -> nth_error ps i = Some a -> moved (firstn i ps) c w g w1 ->
  (c = a -> exists o', optimize F cabs o0 w g = Ok (o', w2)) -> (c <> a -> w2 = w1) -> moved (firstn (S i) ps) c w g w2.
Proof.
  intros ps i a c w g w1 w2 N H (M1 & M2) A B. rewrite (in_firstn_S _ _ _ H). destruct (Nat.eq_dec c a) as [->|Ne].
  - split; [auto|]. intros Q. exfalso. apply Q. apply in_or_app. simpl. auto.
  - rewrite (B Ne). split.
    + intros Q. apply in_app_or in Q. destruct Q as [Q|[Q|[]]]; [auto|congruence].
    + intros Q. apply M2. intro I. apply Q. apply in_or_app. auto.
Qed.

Definition inv (h : heap F) (i j : nat) (p : heap F * trainer F) : Prop :=
  tpw F (snd p) = pw /\ tpb F (snd p) = pb /\ cReg F (tc F (snd p)) = None /\ tnl F (snd p) = tnl F (snd p) /\
  (forall q, (i + j <= q < List.length pw + List.length pb)%nat -> nth_error (topts F (snd p)) q = Some o0) /\
  forall a l, hget F h a = Ok l -> exists l1, hget F (fst p) a = Ok l1 /\ rest l l1 /\ moved (firstn i pw) a (lw l) (lgw l) (lw l1) /\ moved (firstn j pb) a (lb l) (lgb l) (lb l1).

Lemma optStep_moves : forall t q w g os w' g', cReg F (tc F t) = None -> nth_error (topts F t) q = Some o0 -> optStep F cabs t q w g = Ok (os, w', g') ->
  g' = g /\ (exists o', optimize F cabs o0 w g = Ok (o', w')) /\ forall q', q' <> q -> nth_error os q' = nth_error (topts F t) q'.
Proof.
  intros t q w g os w' g' R E H. unfold optStep in H. rewrite R in H. cbn [bind] in H. rewrite (rget_ok _ _ _ _ E) in H. cbn [bind] in H. binp H. inversion H; subst.
  split; [reflexivity|]. split; [eauto|]. intros q' Hq. unfold rset in Ex0. destruct (q <? List.length (topts F t)); inversion Ex0; subst. apply nth_upd_ne. auto.
Qed.
Lemma rget_nth : forall A (v : list A) i x, rget v i = Ok x -> nth_error v i = Some x.
Proof. intros A v i x H. unfold rget in H. destruct (nth_error v i); inversion H; reflexivity. Qed.

Lemma optimizeAll_moves : forall (h : heap F) t h' t', tpw F t = pw -> tpb F t = pb -> cReg F (tc F t) = None -> topts F t = repeat o0 (List.length pw + List.length pb) ->
  optimizeAll F cabs h t = Ok (h', t') ->
  forall a l, hget F h a = Ok l -> exists l1, hget F h' a = Ok l1 /\ rest l l1 /\ moved pw a (lw l) (lgw l) (lw l1) /\ moved pb a (lb l) (lgb l) (lb l1).
Proof.
  intros h t h' t' P1 P2 P3 P4 H. unfold optimizeAll in H. apply bind_inv in H. destruct H as (p1 & E1 & E2).
  assert (I0 : inv h 0 0 (h, t)).
  { unfold inv. cbn [fst snd]. do 4 (split; [auto|]). split.
    - intros q Hq. rewrite P4. apply nth_error_repeat. lia.
    - intros a l Ha. exists l. split; [exact Ha|]. split; [unfold rest; auto 10|]. split; (split; [intros []|auto]). }
  assert (I1 : inv h (List.length pw) 0 p1).
  { rewrite P1 in E1. refine (forN_postI _ (fun i p => inv h i 0 p) _ _ _ _ E1 I0 _).
    intros i [ha ta] [hb tb] Hi (A1 & A2 & A3 & A4 & A5 & A6) H. cbn [fst snd] in *. unfold optWeight in H. rewrite A1 in H. binp H. inversion H; subst hb tb. clear H.
    match goal with H : rget pw i = Ok ?z |- _ => apply rget_nth in H; rename H into Ea; rename z into a0 end.
    match goal with H : hget F ha a0 = Ok ?z |- _ => rename H into El; rename z into l0 end.
    match goal with H : optStep _ _ _ _ _ _ = Ok _ |- _ => destruct (optStep_moves _ _ _ _ _ _ _ A3 (A5 i ltac:(lia)) H) as (-> & M1 & M2) end.
    match goal with H : hset _ _ _ _ = Ok _ |- _ => rewrite (hset_ok F _ _ _ _ El) in H; injection H as Hs; symmetry in Hs; subst end.
    pose proof (hget_lt F _ _ _ El) as Lt.
    unfold inv. cbn [fst snd setOpts tpw tpb tc topts tnl]. do 4 (split; [auto|]). split.
    - intros q Hq. rewrite M2 by lia. apply A5. lia.
    - intros c lc Hc. destruct (A6 c lc Hc) as (l1 & B1 & B2 & B3 & B4). rewrite (hget_upd F) by auto. destruct (Nat.eqb_spec a0 c) as [->|Ne].
      + rewrite El in B1. inversion B1; subst l1. eexists. split; [reflexivity|]. destruct B2 as (C1 & C2 & C3 & C4 & C5 & C6). split; [unfold rest; auto 10|]. cbn [lw lb setP].
        split; [|exact B4]. eapply moved_step; eauto. intros _. destruct B3 as [_ B3]. rewrite <- (B3 (notin_firstn _ _ _ Npw Ea)), <- C5. exact M1. intros Q; congruence.
      + exists l1. split; [exact B1|]. split; [exact B2|]. split; [|exact B4]. eapply moved_step; eauto. intros Q; congruence. }
  destruct p1 as [h1 t1]. destruct (I1) as (Q1 & Q2 & _). cbn [snd] in Q1, Q2. rewrite P2 in E2.
  assert (I2 : inv h (List.length pw) (List.length pb) (h', t')).
  { refine (forN_postI _ (fun j p => inv h (List.length pw) j p) _ _ _ _ E2 I1 _).
    intros i [ha ta] [hb tb] Hi (A1 & A2 & A3 & A4 & A5 & A6) H. cbn [fst snd] in *. unfold optBias in H. rewrite A2, A1 in H. binp H. inversion H; subst hb tb. clear H.
    match goal with H : rget pb i = Ok ?z |- _ => apply rget_nth in H; rename H into Ea; rename z into a0 end.
    match goal with H : hget F ha a0 = Ok ?z |- _ => rename H into El; rename z into l0 end.
    match goal with H : optStep _ _ _ _ _ _ = Ok _ |- _ => destruct (optStep_moves _ _ _ _ _ _ _ A3 (A5 (i + List.length pw)%nat ltac:(lia)) H) as (-> & M1 & M2) end.
    match goal with H : hset _ _ _ _ = Ok _ |- _ => rewrite (hset_ok F _ _ _ _ El) in H; injection H as Hs; symmetry in Hs; subst end.
    pose proof (hget_lt F _ _ _ El) as Lt.
    unfold inv. cbn [fst snd setOpts tpw tpb tc topts tnl]. do 4 (split; [auto|]). split.
    - intros q Hq. rewrite M2 by lia. apply A5. lia.
    - intros c lc Hc. destruct (A6 c lc Hc) as (l1 & B1 & B2 & B3 & B4). rewrite (hget_upd F) by auto. destruct (Nat.eqb_spec a0 c) as [->|Ne].
      + rewrite El in B1. inversion B1; subst l1. eexists. split; [reflexivity|]. destruct B2 as (C1 & C2 & C3 & C4 & C5 & C6). split; [unfold rest; auto 10|]. cbn [lw lb setP].
        split; [exact B3|]. eapply moved_step; eauto. intros _. destruct B4 as [_ B4]. rewrite <- (B4 (notin_firstn _ _ _ Npb Ea)), <- C6. exact M1. intros Q; congruence.
      + exists l1. split; [exact B1|]. split; [exact B2|]. split; [exact B3|]. eapply moved_step; eauto. intros Q; congruence. }
  destruct I2 as (_ & _ & _ & _ & _ & I2). cbn [fst] in I2. intros a l Ha. destruct (I2 a l Ha) as (l1 & B1 & B2 & B3 & B4). rewrite !firstn_all in B3, B4. eauto.
Qed.
End Loop.
