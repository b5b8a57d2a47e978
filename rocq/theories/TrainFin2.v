(* TrainFin2.v - one batch of training of a dense layer followed by an output layer keeps the weights bounded *)
From Coq Require Import String List Arith ZArith Reals Lra Lia Bool.
From Flocq Require Import Core IEEE754.BinarySingleNaN.
From Verif Require Import Base Scalar Mat SpecMat MatFacts MatLoops MatProofs B32Int Act Loss Optim SpecOpt OptProofs LayMat LayImg Layer LayProofs1 Net NetTrain NetProofs1 NetProofs2 TrainProofs1 SpecFit FitLay1 FitNet1 FitNet2 FitNet3 FitRun SpecRound SpecNaN B32Kit NaNAct SpecSoft SoftProofs3 SpecStay OptFin1 OptFin2 SpecTrainFin TrainFin1.
Import ListNotations.
Local Open Scope R_scope.
Local Opaque b32_add b32_sub b32_mul b32_div b32_sqrt b32_of_Z Bopp Babs.

(* the entries outside a matrix do not matter *)
Lemma total : forall (Q : b32 -> Prop) r c (f : nat -> nat -> b32), Q (B754_zero false) -> (forall i j, (i < r)%nat -> (j < c)%nat -> Q (f i j)) -> exists g, mgen r c f = mgen r c g /\ forall i j, Q (g i j).
Proof.
  intros Q r c f Hz H. exists (fun i j => if (i <? r)%nat && (j <? c)%nat then f i j else B754_zero false). split.
  - apply mgen_ext. intros i j Hi Hj. rewrite (proj2 (Nat.ltb_lt i r) Hi), (proj2 (Nat.ltb_lt j c) Hj). reflexivity.
  - intros i j. destruct (Nat.ltb_spec i r), (Nat.ltb_spec j c); cbn [andb]; auto.
Qed.

Section B32.
Variables (lm : libm -> b32 -> b32) (pw : b32 -> b32 -> b32) (jk : b32).
Notation F := (B32Ops lm pw jk).

Ltac tof E := change (@mgen b32) with (@mgen (Scalar.T F)) in E.
(** * optimisers *)
Definition okOpt (r c : nat) (o : opt F) : Prop := wfOpt F o /\ within 0 (olr F o) /\ fraction (odecay F o) /\ (okind F o = ORMSProp -> rg 0 1 (odecay F o)) /\ within 0 (omom F o) /\
  (fresh F o /\ (forall g, within 40 g -> bounded lm pw jk (okind F o) (b1p F o) (b2p F o) (cinit F (okind F o) g)) \/
   exists st, stored F r c o st /\ forall i j, bounded lm pw jk (okind F o) (b1p F o) (b2p F o) (st i j)).
Lemma opt_stay : forall r c o (W G : nat -> nat -> b32), okOpt r c o -> (forall i j, within 100 (W i j)) -> (forall i j, within 40 (G i j)) ->
  exists o' W', optimize F (absFloat F) o (mgen r c W) (mgen r c G) = Ok (o', mgen r c W') /\ okOpt r c o' /\ forall i j, within 100 (W' i j).
Proof.
  intros r c o W G (Wo & Hl & Hd & Hd' & Hm & Hs) HW HG.
  assert (exists st, loaded F r c o G st /\ forall i j, bounded lm pw jk (okind F o) (b1p F o) (b2p F o) (st i j)) as (st & L & B).
  { destruct Hs as [[Fr B]|(st & S & B)]; [exists (fun i j => cinit F (okind F o) (G i j)); split; [apply fresh_loaded; auto | auto] | exists st; split; [apply stored_loaded; auto | auto]]. }
  destruct (optimize_step F r c o st W G L) as (o' & E & S & K & E1 & E2 & E3 & E4 & E5). cbv zeta in E, S. exists o'. eexists. split; [exact E|].
  pose proof (fun i j => step_stay lm pw jk (okind F o) (olr F o) (odecay F o) (omom F o) (b1p F o) (b2p F o) (st i j) (W i j) (G i j) Hl Hd' Hm (B i j) (HW i j) (HG i j)) as Q.
  split; [|intros i j; apply Q]. split; [eapply optimize_wf; eauto|]. unfold okOpt. rewrite K, E1, E2, E3, E4, E5. do 4 (split; [auto|]). right. eexists. split; [exact S|]. intros i j. apply Q.
Qed.
Lemma unit_fraction : forall x, rg 0 1 x -> fraction x. Proof. intros x [A B]. split; auto. Qed.
Lemma init_stay : forall r c o, wfOpt F o -> within 0 (olr F o) -> fraction (odecay F o) -> within 0 (omom F o) -> (forall g, within 40 g -> bounded lm pw jk (okind F o) (beta1 F) (beta2 F) (cinit F (okind F o) g)) -> okOpt r c (init F o).
Proof.
  intros r c o Wo Hl Hd Hm HB. pose proof (fresh_init F o Wo) as Fr. split; [destruct Fr as (A & B & C & _); split; auto|].
  assert (GL : within 0 (olr F (init F o))).
  { assert (G : forall n d, (0 <= n <= Zpos d)%Z -> (Zpos d <= 2 ^ 24)%Z -> within 0 (dflt F (olr F o) (flit F n d))) by (intros n d A B; destruct (dflt_cases lm pw jk (olr F o) (flit F n d)) as [->|[-> _]]; auto; apply rg_w0, lit_w0; auto).
    unfold init. destruct (okind F o); cbn [olr defaultLR]; auto; apply G; lia. }
  assert (GD : fraction (odecay F (init F o)) /\ (okind F (init F o) = ORMSProp -> rg 0 1 (odecay F (init F o)))).
  { unfold init. destruct (okind F o) eqn:K; cbn [odecay okind]; (split; [|intro Q; try discriminate Q]); auto.
    - destruct (dflt_cases lm pw jk (odecay F o) (flit F 99 100)) as [->|[-> _]]; auto. apply unit_fraction, lit_w0; lia.
    - destruct (dflt_cases lm pw jk (odecay F o) (flit F 99 100)) as [->|[-> N]]; [apply lit_w0; lia|]. destruct Hd as [A [B|B]]; [split; auto | destruct (N A B)]. }
  assert (GM : within 0 (omom F (init F o))).
  { assert (G : within 0 (dflt F (omom F o) (flit F 9 10))) by (destruct (dflt_cases lm pw jk (omom F o) (flit F 9 10)) as [->|[-> _]]; auto; apply rg_w0, lit_w0; lia). unfold init. destruct (okind F o); cbn [omom]; auto. }
  destruct GD as [GD1 GD2]. do 4 (split; [auto|]). left. split; auto. intros g Hg. specialize (HB g Hg). unfold init. destruct (okind F o) eqn:K; cbn [okind b1p b2p]; rewrite ?K in *; cbn [bounded] in *; auto.
Qed.
Lemma start_bounded : forall k g, within 40 g -> bounded lm pw jk k (beta1 F) (beta2 F) (cinit F k g).
Proof.
  intros k g Hg. pose proof zero_nn as Z0. pose proof zero_w as Z1. pose proof max_big. assert (B1 : rg 0 (29 / 32) (beta1 F)) by (eapply rg_w; [exact (b1_rg lm pw jk) | lra | lra]). pose proof (b2_rg lm pw jk) as B2.
  assert (L : rg 0 (p2 6) (flit F 125 10000)) by (apply lit_rg; try lia; [apply fmt_0 | apply fmt_p2; lia | lra | apply p2_lt_max; lia | unfold p2; simpl; lra]).
  assert (G6 : within 66 g) by (apply within_w with 40%Z; auto; lia). destruct k; cbn [bounded cinit cv cm cp f0 B32Ops]; auto.
Qed.
Lemma init_ok : forall r c o, okOpt r c o -> okOpt r c (init F o).
Proof. intros r c o (Wo & Hl & Hd & _ & Hm & _). apply init_stay; auto. apply start_bounded. Qed.
Lemma new_ok : forall r c k lr dec mom, within 0 lr -> fraction dec -> within 0 mom -> okOpt r c (set_params F (newOpt F k) lr dec mom).
Proof. intros. unfold set_params. apply init_stay; auto. - exact (wf_new F k). - apply start_bounded. Qed.

(** * the network *)
Hypothesis S : stdLibm lm pw.
Hypothesis LU : logUnit lm.
Variable kd : kind F.
Hypothesis Hkd : outputs F kd.
Variables (a1 a2 k m : nat) (c0 : settings F) (v0 : option (mat F * mat F)).
Hypothesis Ha : a1 <> a2.
Hypothesis Hk : (Z.of_nat k < 2 ^ 16)%Z.
Hypothesis Hm : (0 < m)%nat.
Hypothesis Hre : cReg F c0 = None.
Notation lo := (cLoss F c0).
Definition dense (h : heap F) : Prop := exists l i o W b, hget F h a1 = Ok l /\ lk l = KDense i o /\ lfirst l = true /\ lw l = mgen k m W /\ lb l = mgen 1 m b /\ (forall i j, within 100 (W i j)) /\ forall i j, within 100 (b i j).
Definition top (h : heap F) : Prop := exists l, hget F h a2 = Ok l /\ lk l = kd /\ lfirst l = false.
Definition trn (t : trainer F) : Prop := exists o1 o2 i0 i1 i2 g0 g1 g2, topts F t = [o1; o2] /\ okOpt k m o1 /\ okOpt 1 m o2 /\
  tpw F t = [a1] /\ tpb F t = [a1] /\ tnl F t = 2%nat /\ tc F t = c0 /\ tval F t = v0 /\ tinOut F t = [i0; i1; i2] /\ tgrad F t = [g0; g1; g2] /\ mwf i2 /\ mwf g1 /\ mwf g2.

Lemma look1 : forall h a l x, hget F h a = Ok l -> hget F (upd h a (Some x)) a = Ok x.
Proof. intros h a l x H. rewrite hget_upd by (eapply hget_lt; eauto). rewrite Nat.eqb_refl. reflexivity. Qed.
Lemma look2 : forall h a b l x, hget F h a = Ok l -> a <> b -> hget F (upd h a (Some x)) b = hget F h b.
Proof. intros h a b l x H N. rewrite hget_upd by (eapply hget_lt; eauto). destruct (Nat.eqb_spec a b) as [->|]; [congruence | reflexivity]. Qed.
Lemma top_upd : forall h l l', hget F h a1 = Ok l -> top h -> top (upd h a1 (Some l')).
Proof. intros h l l' H (q & A & B). exists q. split; auto. rewrite (look2 _ _ _ _ _ H); auto. Qed.
Lemma dense_upd : forall h l l', hget F h a2 = Ok l -> dense h -> dense (upd h a2 (Some l')).
Proof. intros h l l' H (q & i & o & W & b & A & B). exists q, i, o, W, b. split; auto. rewrite (look2 _ _ _ _ _ H); auto. Qed.

Lemma stats_parts : forall n (t t' : trainer F) q P Y, onlineStats F (absFloat F) n t (mgen q m P) (mgen q (truthCols lo m) Y) = Ok t' -> tc F t = c0 -> (0 < q)%nat -> (Z.of_nat q < 2 ^ 24)%Z -> truthFor lo q m Y -> (forall i j, (i < q)%nat -> (j < m)%nat -> prob (P i j)) ->
  exists s g, nn 30 s /\ t' = setOnline F t (b32_add (tonl F t) s) g.
Proof.
  intros n t t' q P Y E Tc Hq Hq' HT HP. unfold onlineStats in E. rewrite Tc in E.
  destruct (ce_finite lm pw jk lo (absFloat F) (tbal F t) q m P Y (mempty F) (mempty F) LU HT HP eq_refl eq_refl) as (L & G & E1 & _ & HL & _). tof E1. tof E. rewrite E1 in E. cbn [bind] in E. rewrite mmean_gen in E. cbn [bind] in E. cbv zeta in E.
  match type of E with context [fadd F (tonl F t) ?z] => set (s := z) in E end.
  assert (Hs : nn 30 s). { unfold s. cbn [fdiv B32Ops]. rewrite Nat.mul_1_r. apply mean_nn with q; auto; try lia. apply sum_nn; auto; try lia. intros i Hi. replace (i / 1)%nat with i by (symmetry; apply Nat.div_1_r). replace (i mod 1)%nat with O by (symmetry; apply Nat.mod_1_r). apply HL. auto. }
  exists s. destruct (negb _); [injection E; intros; subst t'; eexists; split; eauto|]. binp E. binp E. injection E; intros; subst t'. eexists. split; eauto.
Qed.

Lemma batch_parts : forall rs cl tr h t h' t' q X Y, dense h -> top h -> trn t -> (0 < q)%nat -> (Z.of_nat q < 2 ^ 24)%Z -> (forall i j, within 10 (X i j)) -> truthFor lo q m Y ->
  trainBatch F (absFloat F) rs h (mkNet [a1; a2] cl tr) t (mgen q k X) (mgen q (truthCols lo m) Y) = Ok (h', t') ->
  dense h' /\ top h' /\ trn t' /\ th F t' = th F t /\ tadj F t' = tadj F t /\ exists s, nn 30 s /\ tonl F t' = b32_add (tonl F t) s.
Proof.
  intros rs cl tr h t h' t' q X Y (l & i & o & W & b & El & Kl & Fl & Ww & Wb & HW & Hb) (l' & El' & Kl' & Fl') (o1 & o2 & i0 & i1 & i2 & g0 & g1 & g2 & Eo & O1 & O2 & Pw & Pb & Nl & Tc & Tv & Ti & Tg & W2 & V1 & V2) Hq Hq' HX HT E.
  unfold trainBatch, backprop in E. rewrite Ti, Nl in E. cbn [rset length Nat.ltb Nat.leb bind upd] in E. unfold forN in E. cbn [seq forL] in E. unfold fwdStep at 1 in E. cbn [fst snd rget nth_error bind Nat.add] in E.
  unfold fwdLayer in E at 1. cbn [nlay rget nth_error bind] in E. rewrite El in E. cbn [bind] in E. unfold layForward at 1 in E. rewrite Kl, Ww, Wb in E. rewrite (fwdDense_gen F) in E. cbn [bind] in E. rewrite (hset_ok _ _ _ _ _ El) in E. cbn [bind rset length Nat.ltb Nat.leb upd] in E.
  set (h1 := upd h a1 (Some l)) in *. assert (E1 : hget F h1 a1 = Ok l) by (eapply look1; eauto). assert (E1' : hget F h1 a2 = Ok l') by (unfold h1; rewrite (look2 _ _ _ _ _ El); auto).
  set (Z := fun i j => fadd F (fsum F k (fun l : nat => fmul F (X i l) (W l j))) (b 0%nat j)) in *. assert (HZ : forall i j, fin (Z i j)) by (intros; apply dense_fin; auto).
  unfold fwdStep at 1 in E. cbn [fst snd rget nth_error bind Nat.add] in E. unfold fwdLayer in E at 1. cbn [nlay rget nth_error bind] in E. rewrite E1' in E. cbn [bind] in E.
  destruct (out_fwd lm pw jk S kd Hkd (rs 1%nat) l' q m Z i2 Kl' Hm W2 HZ) as (P & EP & HP). tof EP. tof E. rewrite EP in E. cbn [bind] in E. rewrite (hset_ok _ _ _ _ _ E1') in E. cbn [bind rset length Nat.ltb Nat.leb upd] in E.
  set (h2 := upd h1 a2 (Some l')) in *. assert (E2 : hget F h2 a1 = Ok l) by (unfold h2; rewrite (look2 _ _ _ _ _ E1'); auto). assert (E2' : hget F h2 a2 = Ok l') by (eapply look1; eauto).
  cbn [setInOut tnl] in E. rewrite Nl in E. cbn [rget nth_error bind] in E. match type of E with context [setInOut F t ?v] => set (t1 := setInOut F t v) in * end. change (tgrad F t1) with (tgrad F t) in E. change (tc F t1) with (tc F t) in E. change (tbal F t1) with (tbal F t) in E. rewrite Tg, Tc in E. cbn [rget nth_error bind] in E.
  destruct (ce_finite lm pw jk lo (absFloat F) (tbal F t) q m P Y (mempty F) g2 LU HT HP eq_refl V2) as (L & G & _ & EG & _ & HG). tof EG. tof E. rewrite EG in E. cbn [bind rset length Nat.ltb Nat.leb upd rev app seq forL] in E.
  unfold bwdStep at 1 in E. cbn [fst snd rget nth_error bind Nat.add nlay] in E. rewrite E2' in E. cbn [bind] in E.
  destruct (out_bwd lm pw jk S kd Hkd l' q m Z G g1 Kl' Fl' Hm V1 HZ HG) as (D0 & ED & HD0). tof ED. tof E. rewrite ED in E. cbn [bind] in E. rewrite (hset_ok _ _ _ _ _ E2') in E. cbn [bind rset length Nat.ltb Nat.leb upd] in E.
  destruct (total (within 27) q m D0 (zero_w 27) HD0) as (D & QD & HD). tof QD. tof E. rewrite QD in E.
  set (h3 := upd h2 a2 (Some l')) in *. assert (E3 : hget F h3 a1 = Ok l) by (unfold h3; rewrite (look2 _ _ _ _ _ E2'); auto). assert (E3' : hget F h3 a2 = Ok l') by (eapply look1; eauto).
  unfold bwdStep at 1 in E. cbn [fst snd rget nth_error bind Nat.add nlay] in E. rewrite E3 in E. cbn [bind] in E. unfold layBackward at 1 in E. rewrite Kl, Fl, Ww in E. rewrite (bwdDense_gen F) in E. cbn [bind] in E. rewrite (hset_ok _ _ _ _ _ E3) in E. cbn [bind rset length Nat.ltb Nat.leb upd] in E.
  match type of E with context [setGWB l (mgen k m ?u) (mgen 1 m ?v)] => set (GW := u) in *; set (GB := v) in * end.
  assert (HGW : forall i j, within 40 (GW i j)) by (intros; apply grad_w; auto). assert (HGB : forall i j, within 40 (GB i j)) by (intros; apply grad_b; auto). clearbody GW GB.
  set (l2 := setGWB l (mgen k m GW) (mgen 1 m GB)) in *. set (h4 := upd h3 a1 (Some l2)) in *. assert (E4 : hget F h4 a1 = Ok l2) by (eapply look1; eauto). assert (E4' : hget F h4 a2 = Ok l') by (unfold h4; rewrite (look2 _ _ _ _ _ E3); auto).
  unfold optimizeAll in E. match type of E with context [setGrad F t1 ?v] => set (t2 := setGrad F t1 v) in * end.
  change (tpw F t2) with (tpw F t) in E. rewrite Pw in E. cbn [length] in E. unfold forN in E. cbn [seq forL] in E. unfold optWeight at 1 in E. change (tpw F t2) with (tpw F t) in E. rewrite Pw in E. cbn [rget nth_error bind] in E. rewrite E4 in E. cbn [bind] in E. unfold optStep at 1 in E.
  change (tc F t2) with (tc F t) in E. rewrite Tc, Hre in E. cbn [bind] in E. change (topts F t2) with (topts F t) in E. rewrite Eo in E. cbn [rget nth_error bind] in E.
  assert (L2w : lw l2 = mgen k m W) by exact Ww. assert (L2b : lb l2 = mgen 1 m b) by exact Wb. change (lgw l2) with (mgen k m GW) in E. rewrite L2w in E. destruct (opt_stay k m o1 W GW O1 HW HGW) as (o1' & W' & EO1 & O1' & HW'). tof EO1. tof E. rewrite EO1 in E. cbn [bind rset length Nat.ltb Nat.leb upd] in E. rewrite (hset_ok _ _ _ _ _ E4) in E. cbn [bind] in E.
  match type of E with context [upd h4 a1 (Some ?u)] => set (l3 := u) in * end. set (h5 := upd h4 a1 (Some l3)) in *. match type of E with context [setOpts F t2 ?v] => set (t3 := setOpts F t2 v) in * end.
  assert (E5 : hget F h5 a1 = Ok l3) by (eapply look1; eauto). assert (E5' : hget F h5 a2 = Ok l') by (unfold h5; rewrite (look2 _ _ _ _ _ E4); auto).
  change (tpb F t2) with (tpb F t) in E. rewrite Pb in E. cbn [length] in E. cbn [seq forL] in E. unfold optBias at 1 in E. change (tpb F t3) with (tpb F t) in E. rewrite Pb in E. cbn [rget nth_error bind] in E. rewrite E5 in E. cbn [bind] in E. unfold optStep at 1 in E.
  change (tc F t3) with (tc F t) in E. rewrite Tc, Hre in E. cbn [bind] in E. change (tpw F t3) with (tpw F t) in E. rewrite Pw in E. change (topts F t3) with [o1'; o2] in E. cbn [length Nat.add rget nth_error bind] in E.
  change (lb l3) with (lb l2) in E. change (lgb l3) with (mgen 1 m GB) in E. rewrite L2b in E. destruct (opt_stay 1 m o2 b GB O2 Hb HGB) as (o2' & b' & EO2 & O2' & Hb'). tof EO2. tof E. rewrite EO2 in E. cbn [bind rset length Nat.ltb Nat.leb upd] in E. rewrite (hset_ok _ _ _ _ _ E5) in E. cbn [bind] in E.
  match type of E with context [upd h5 a1 (Some ?u)] => set (l4 := u) in * end. set (h6 := upd h5 a1 (Some l4)) in *. match type of E with context [setOpts F t3 ?v] => set (t4 := setOpts F t3 v) in * end.
  assert (E6 : hget F h6 a1 = Ok l4) by (eapply look1; eauto). assert (E6' : hget F h6 a2 = Ok l') by (unfold h6; rewrite (look2 _ _ _ _ _ E5); auto).
  change (tnl F t4) with (tnl F t) in E. rewrite Nl in E. change (tinOut F t4) with [mgen q k X; mgen q m Z; mgen q m P] in E. cbn [rget nth_error bind] in E.
  destruct (onlineStats F (absFloat F) _ t4 (mgen q m P) _) as [t5|] eqn:ES; [|discriminate]. cbn [bind] in E. injection E; intros <- <-.
  destruct (stats_parts _ _ _ _ _ _ ES) as (s & g & Hs & ->); auto.
  split. { exists l4, i, o, W', b'. split; [exact E6|]. split; [exact Kl|]. split; [exact Fl|]. split; [reflexivity|]. split; [reflexivity|]. auto. }
  split. { exists l'. auto. }
  split. { exists o1', o2', (mgen q k X), (mgen q m Z), (mgen q m P). do 3 eexists. split; [reflexivity|]. do 2 (split; [assumption|]). do 5 (split; [assumption|]). split; [reflexivity|]. split; [reflexivity|]. do 2 (split; [apply mwf_gen|]). apply mwf_gen. }
  split; [reflexivity|]. split; [reflexivity|]. exists s. auto.
Qed.
End B32.
