(* GradProofs4.v - what is left of the gradients after the optimisers; a counter-example; concrete networks *)
From Coq Require Import String List Arith Bool Lia Reals Lra ZArith QArith.
From Coquelicot Require Import Coquelicot.
From Verif Require Import Base Scalar Mat SpecMat SpecReal RSum MatFacts MatProofs RDeriv Loss SpecLoss LossProofs LossProofs2 Optim Regul Act SpecAct LayMat LayImg LayRnn SpecLayer LayGrad LayCurve LayProofs1 LayProofs2 LayProofs3 Layer Net NetProofs1 NetTrain TrainProofs1 SpecGrad GradProofs1 GradProofs2 GradProofs3.
Import ListNotations.
Local Open Scope R_scope.

(** the optimisers leave the gradients alone when there is no regulariser *)
Section Keep.
Variable F : FOps.
Variable cabs : F -> res F.
Definition sameGrads (h h' : heap F) : Prop := forall a l, hget F h a = Ok l -> exists l', hget F h' a = Ok l' /\ lgw l' = lgw l /\ lgb l' = lgb l.
Lemma sameGrads_refl : forall h, sameGrads h h.
Proof. intros h a l H. eauto. Qed.
Lemma sameGrads_trans : forall a b c, sameGrads a b -> sameGrads b c -> sameGrads a c.
Proof. intros a b c H1 H2 x l H. destruct (H1 x l H) as (l1 & E1 & A1 & B1). destruct (H2 x l1 E1) as (l2 & E2 & A2 & B2). exists l2. rewrite A2, B2. auto. Qed.
Lemma sameGrads_set : forall h a l l' h', hget F h a = Ok l -> lgw l' = lgw l -> lgb l' = lgb l -> hset F h a l' = Ok h' -> sameGrads h h'.
Proof.
  intros h a l l' h' Hl E1 E2 Hs b x Hx. pose proof (hget_lt F _ _ _ Hl) as La. rewrite (hset_ok F _ _ _ _ Hl) in Hs. injection Hs as Hs. symmetry in Hs. subst h'.
  rewrite (hget_upd F) by auto. destruct (Nat.eqb_spec a b); [|eauto]. subst b. rewrite Hl in Hx. inversion Hx; subst. eauto.
Qed.
Lemma optStep_noReg : forall t k w g os w' g', cReg F (tc F t) = None -> optStep F cabs t k w g = Ok (os, w', g') -> g' = g.
Proof. intros t k w g os w' g' E H. unfold optStep in H. rewrite E in H. cbn [bind] in H. binp H. inversion H. reflexivity. Qed.
Lemma optimizeAll_grads : forall h t h' t', cReg F (tc F t) = None -> optimizeAll F cabs h t = Ok (h', t') -> sameGrads h h' /\ tnl F t' = tnl F t.
Proof.
  intros h t h' t' E H. unfold optimizeAll in H. apply bind_inv in H. destruct H as ([h1 t1] & E1 & E2).
  set (I := fun (_ : nat) (p : heap F * trainer F) => sameGrads h (fst p) /\ cReg F (tc F (snd p)) = None /\ tnl F (snd p) = tnl F t).
  assert (I1 : I 0%nat (h1, t1)).
  { refine (forN_postI _ (fun _ p => I 0%nat p) _ _ _ _ E1 _ _).
    - repeat split; auto. apply sameGrads_refl.
    - intros k [ha ta] [hb tb] _ (A & B & C) H. cbn [fst snd] in *. unfold optWeight in H. binp H. inversion H; subst. unfold I. cbn [fst snd setOpts tc tnl]. split; [|auto].
      apply optStep_noReg in Ex1; auto. subst. eapply sameGrads_trans; [exact A|]. eapply sameGrads_set; [exact Ex0| | |exact Ex2]; reflexivity. }
  assert (I2 : I 0%nat (h', t')).
  { refine (forN_postI _ (fun _ p => I 0%nat p) _ _ _ _ E2 _ _).
    - exact I1.
    - intros k [ha ta] [hb tb] _ (A & B & C) H. cbn [fst snd] in *. unfold optBias in H. binp H. inversion H; subst. unfold I. cbn [fst snd setOpts tc tnl]. split; [|auto].
      apply optStep_noReg in Ex1; auto. subst. eapply sameGrads_trans; [exact A|]. eapply sameGrads_set; [exact Ex0| | |exact Ex2]; reflexivity. }
  destruct I2 as (A & _ & B). auto.
Qed.
Lemma backprop_settings : forall rs h nt t x y h' t', backprop F rs h nt t x y = Ok (h', t') -> tc F t' = tc F t.
Proof. intros rs h nt t x y h' t' H. unfold backprop in H. binp H. inversion H. reflexivity. Qed.
Lemma trainBatch_grads : forall rs h nt t x y h2 t2, cReg F (tc F t) = None -> trainBatch F cabs rs h nt t x y = Ok (h2, t2) ->
  exists h1 t1, backprop F rs h nt t x y = Ok (h1, t1) /\ sameGrads h1 h2.
Proof.
  intros rs h nt t x y h2 t2 E H. unfold trainBatch in H. apply bind_inv in H. destruct H as ([h1 t1] & E1 & H). exists h1, t1. split; [exact E1|].
  apply bind_inv in H. destruct H as ([h3 t3] & E3 & H). binp H. inversion H; subst.
  apply optimizeAll_grads in E3; [|rewrite (backprop_settings _ _ _ _ _ _ _ _ E1); exact E]. tauto.
Qed.
End Keep.

Section Batch.
Variable jk : R.
Notation F := (ROps jk).

(* same statement for a whole training batch that succeeds *)
Theorem batch_gradients : forall kind n m, (0 < n)%nat -> (0 < m)%nat -> exists kappa, 0 < kappa /\
  forall cabs rs (h : heap F) nt t ks k X T Z h' t',
    nlay nt <> [] -> NoDup (nlay nt) -> stack jk rs 0 h (nlay nt) n ks X Z -> hd_error ks = Some k -> last ks 0%nat = m ->
    readyTrainer jk t nt kind -> smoothLoss kind n m Z T -> cReg F (tc F t) = None ->
    trainBatch F cabs rs h nt t (mgen n k X) (mgen n m T) = Ok (h', t') ->
    forall p a l kp, nth_error (nlay nt) p = Some a -> hget F h a = Ok l -> nth_error ks p = Some kp ->
    exists l' rw cw W rb cb b, hget F h' a = Ok l' /\ lw l = mgen rw cw W /\ lb l = mgen rb cb b /\
      (forall s, weightScale jk l n kp = Some s -> exists gw, lgw l' = mgen rw cw gw /\
         gradOf rw cw (kappa * scaleProd jk h (skipn (S p) (nlay nt)) * s)
           (fun W' => batchLoss jk rs kind (withW jk h a (mgen rw cw W')) nt (mgen n k X) (mgen n m T)) W gw) /\
      (forall s, biasScale jk l n kp = Some s -> exists gb, lgb l' = mgen rb cb gb /\
         gradOf rb cb (kappa * scaleProd jk h (skipn (S p) (nlay nt)) * s)
           (fun b' => batchLoss jk rs kind (withB jk h a (mgen rb cb b')) nt (mgen n k X) (mgen n m T)) b gb).
Proof.
  intros kind n m Hn Hm. destruct (backprop_gradients jk kind n m Hn Hm) as (kappa & Hk & H). exists kappa. split; [exact Hk|].
  intros cabs rs h nt t ks k X T Z h' t' A1 A2 A3 A4 A5 A6 A7 A8 E p a l kp B1 B2 B3.
  destruct (trainBatch_grads F cabs _ _ _ _ _ _ _ _ A8 E) as (h1 & t1 & E1 & SG).
  destruct (H rs h nt t ks k X T Z A1 A2 A3 A4 A5 A6 A7) as (h1' & t1' & E1' & Q). rewrite E1' in E1. injection E1 as Ea Eb. subst h1' t1'.
  destruct (Q p a l kp B1 B2 B3) as (l1 & rw & cw & W & rb & cb & b & C1 & C2 & C3 & C4 & C5 & C6 & C7).
  destruct (SG a l1 C1) as (l' & D1 & D2 & D3). exists l', rw, cw, W, rb, cb, b. rewrite D2, D3. auto 10.
Qed.

(** set_net prepares the trainer *)
Lemma vresize_mwf : forall v q, List.Forall mwf v -> List.Forall mwf (vresize F v q) /\ List.length (vresize F v q) = q.
Proof.
  intros v q H. unfold vresize. split.
  - apply List.Forall_app. split.
    + apply List.Forall_forall. intros x Hx. rewrite List.Forall_forall in H. apply H. rewrite <- (firstn_skipn q v). apply in_or_app. auto.
    + apply List.Forall_forall. intros x Hx. apply repeat_spec in Hx. subst. reflexivity.
  - rewrite app_length, firstn_length, repeat_length. lia.
Qed.
Theorem setNet_ready : forall (h : heap F) nt t h' t' kind, setNet F h nt t = Ok (h', t') -> List.Forall mwf (tinOut F t) -> List.Forall mwf (tgrad F t) ->
  cLoss F (tc F t) = kind -> tbal F t = noBalance F -> readyTrainer jk t' nt kind.
Proof.
  intros h nt t h' t' kind H A B C D. unfold setNet in H. binp H. inversion H; subst. unfold readyTrainer. cbn [tnl tinOut tgrad tc tbal].
  destruct (vresize_mwf (tinOut F t) (List.length (nlay nt) + 1) A) as [A1 A2]. destruct (vresize_mwf (tgrad F t) (List.length (nlay nt) + 1) B) as [B1 B2].
  rewrite A2, B2. repeat split; auto; lia.
Qed.

Ltac cbl := cbn [lk lw lgw lb lgb ltrain lfirst lmem lns lwi lbi lrnn setW setB setP setWB setGW setGB setGWB setMem setNs setFirst layBase].
(** a network of one LayerGain with two inputs: stored gradient 0, derivatives 2 and 2 *)
Definition gainLay : layer F := setW (setFirst (layBase F KGain "" "") true) (mgen 1 2 (fun _ _ => 1)).
Definition gainX (i j : nat) : R := match j with O => 1 | _ => -1 end.
Definition zeroT (i j : nat) : R := 0.
Definition rs0 : nat -> rnd F := fun _ => mkRnd F (fun _ => 0) (fun _ => 0%Z).
Definition tr1 (nl : nat) : trainer F := mkTr F (tc F (trNew F)) (noBalance F) 0 0 [] (repeat (mempty F) (S nl)) (repeat (mempty F) (S nl)) nl [] [] (th F (trNew F)) 0 0 None None false.
Definition net1 (ls : list nat) : net := mkNet ls false true.
Lemma tr1_ready : forall ls, readyTrainer jk (tr1 (List.length ls)) (net1 ls) LMeanSquaredError.
Proof.
  intros ls. unfold readyTrainer, tr1. cbn [tnl tinOut tgrad tc tbal nlay net1]. rewrite repeat_length. repeat split; auto; apply List.Forall_forall; intros x Hx; apply repeat_spec in Hx; subst; reflexivity.
Qed.
Lemma gain_stack : stack jk rs0 0 [Some gainLay] [0%nat] 1 [2; 2]%nat gainX gainX.
Proof.
  simpl. exists gainLay, gainLay, gainX. split; [reflexivity|]. split; [|split; [auto|split; [|auto]]].
  - unfold differentiable. repeat split; auto.
  - unfold layForward. cbl. refine (eq_trans (bindE _ _ _ _ _ (fwdGain_gen F 1 2 (fun _ _ => 1) gainX (Nat.lt_0_succ 1))) _).
    apply f_equal. apply f_equal2; [reflexivity|]. apply mgen_ext. intros. apply Rmult_1_r.
Qed.

Lemma one_layer : forall rs (l lf l2 : layer F) (x y o g gi : mat F) kind, cLoss F (tc F (tr1 1)) = kind ->
  layForward F (rs 0%nat) l x (mempty F) = Ok (lf, o) -> compute_gradient F kind (noBalance F) o y (mempty F) = Ok g -> layBackward F lf x g (mempty F) = Ok (l2, gi) ->
  backprop F rs [Some l] (net1 [0%nat]) (tr1 1) x y = Ok ([Some l2], setGrad F (setInOut F (tr1 1) [x; o]) [gi; g]).
Proof.
  intros rs l lf l2 x y o g gi kind Hk E1 E2 E3. subst kind. unfold backprop, forN, rset, fwdStep, bwdStep, fwdLayer, hset, rset, hget, rget. cbn [tnl tr1 tinOut tgrad tc tbal repeat List.length Nat.ltb Nat.leb bind upd seq forL fst snd nlay net1 nth_error Nat.add rev app setInOut].
  rewrite E1. cbn [bind Nat.ltb Nat.leb List.length upd nth_error tgrad tc tbal repeat fst snd]. refine (eq_trans (bindE _ _ _ _ _ E2) _).
  cbn [bind Nat.ltb Nat.leb List.length upd nth_error tgrad tc tbal repeat fst snd]. rewrite E3. reflexivity.
Qed.

(* no constant makes the stored gradient a gradient *)
Theorem gain_net_refuted : exists rs (h : heap F) nt t X T Z h' t' l' gw,
  stack jk rs 0 h (nlay nt) 1 [2; 2]%nat X Z /\ readyTrainer jk t nt LMeanSquaredError /\
  backprop F rs h nt t (mgen 1 2 X) (mgen 1 2 T) = Ok (h', t') /\ hget F h' 0 = Ok l' /\ lgw l' = mgen 1 2 gw /\
  forall c, ~ gradOf 1 2 c (fun W' => batchLoss jk rs LMeanSquaredError (withW jk h 0 (mgen 1 2 W')) nt (mgen 1 2 X) (mgen 1 2 T)) (fun _ _ => 1) gw.
Proof.
  set (Z := fun i j : nat => gainX i j * 1). set (G := regG jk LMeanSquaredError 2 Z zeroT).
  set (l1 := setGW (setW gainLay (mgen 1 2 (fun _ _ => 1) : mat F)) (mgen 1 2 (gainGrad 1 2 gainX G) : mat F)).
  exists rs0, [Some gainLay], (net1 [0%nat]), (tr1 1), gainX, zeroT, gainX, [Some l1],
    (setGrad F (setInOut F (tr1 1) [mgen 1 2 gainX : mat F; mgen 1 2 Z : mat F]) [mempty F; mgen 1 2 G : mat F]), l1, (gainGrad 1 2 gainX G).
  split; [exact gain_stack|]. split; [exact (tr1_ready [0%nat])|]. split; [|split; [reflexivity|split; [reflexivity|]]].
  - eapply one_layer with (kind := LMeanSquaredError).
    + reflexivity.
    + unfold layForward. cbl. exact (bindE _ _ _ _ _ (fwdGain_gen F 1 2 (fun _ _ => 1) gainX (Nat.lt_0_succ 1))).
    + exact (reg_gradient_value jk LMeanSquaredError 1 2 Z zeroT (mempty F) Logic.I).
    + unfold layBackward. cbl. exact (bindE _ _ _ _ _ (bwdGain_R jk true 1 2 (fun _ _ => 1) gainX G (mempty F))).
  - intros c Hc. specialize (Hc 0%nat 0%nat (Nat.lt_0_succ 0) (Nat.lt_0_succ 1)). unfold isPartial in Hc.
    assert (GG : gainGrad 1 2 gainX G 0%nat 0%nat = 0). { unfold gainGrad. cbn [rsum]. unfold gainX at 1 2. unfold Rdiv. ring. }
    rewrite GG, Rmult_0_r in Hc.
    set (W := fun _ _ : nat => 1) in *.
    destruct (rowmul_curve 1 2 (fun _ => gainX) (fun x => upd2 W 0 0 x) 1 (fun _ _ => 0) (delta 0 0) (lossG jk LMeanSquaredError 2 Z zeroT) (dcurve_const _ _ _ _) (dcurve_cell _ _ W 0 0)) as (dY & D1 & D2).
    assert (YT : (fun i j : nat => gainX i j * upd2 W 0 0 1 0%nat j) = Z). { change 1 with (W 0%nat 0%nat). rewrite upd2_same. reflexivity. }
    pose proof (smooth_curve jk LMeanSquaredError 1 2 zeroT (fun x i j => gainX i j * upd2 W 0 0 x 0%nat j) 1 dY (Nat.lt_0_succ 0) (Nat.lt_0_succ 1) Logic.I D1) as S.
    cbv beta in S. rewrite YT, D2 in S.
    assert (EQ : is_derive (fun x => batchLoss jk rs0 LMeanSquaredError (withW jk [Some gainLay] 0 (mgen 1 2 (upd2 W 0 0 x))) (net1 [0%nat]) (mgen 1 2 gainX) (mgen 1 2 zeroT)) 1 2).
    { eapply is_derive_ext; [|eapply is_derive_eq; [exact S|]].
      - intros x. symmetry. unfold batchLoss, withW. cbn [hget rget nth_error bind upd]. unfold predict, forN. cbn [seq List.length nlay net1 forL]. unfold fwdLayer. cbn [rget nth_error bind nlay net1 hget].
        unfold layForward. cbl. rewrite (bindE _ _ _ _ _ (bindE _ _ _ _ _ (fwdGain_gen F 1 2 (upd2 W 0 0 x) gainX (Nat.lt_0_succ 1)))). reflexivity.
      - rewrite dot_zero. unfold dot. cbn [rsum]. unfold lossScale, gradScale, lossG, regG, regGrad, delta, Z, zeroT, gainX. cbn [Nat.eqb andb]. rewrite !fofN_R. cbn [INR fdiv ROps]. field. }
    apply is_derive_unique in EQ. apply is_derive_unique in Hc. assert (0 = 2) by (rewrite <- Hc; exact EQ). lra.
Qed.
End Batch.

(** a concrete network: Dense (w = 2, b = 1), Relu, Dense (w = -1, b = 1); inputs 1 and -2, targets 0 and 2 *)
Section Concrete.
Variable F : FOps.
Definition dense11 (w b : F) : layer F := setWB (layBase F (KDense 1 1) "" "") (mkMat 1 1 [w]) (mkMat 1 1 [b]).
Definition sampleNet : heap F := [Some (setFirst (dense11 (fofZ F 2) (f1 F)) true); Some (layBase F (KAct (Some ARelu)) "" ""); Some (dense11 (fopp F (f1 F)) (f1 F))].
Definition sampleX (i j : nat) : F := match i with O => f1 F | _ => fopp F (fofZ F 2) end.
Definition sampleT (i j : nat) : F := match i with O => f0 F | _ => fofZ F 2 end.
End Concrete.
Lemma sample_stack : forall jk, stack jk (rs0 jk) 0 (sampleNet (ROps jk)) [0; 1; 2]%nat 2 [1; 1; 1; 1]%nat (sampleX (ROps jk)) (fun i j => match i with O => -2 | _ => 1 end).
Proof.
  intros jk. set (F := ROps jk).
  exists (setFirst (dense11 F 2 1) true), (setFirst (dense11 F 2 1) true), (fun i j => match i with O => 3 | _ => -3 end).
  split; [reflexivity|]. split; [|split; [auto|split]].
  - unfold differentiable. repeat split; auto.
  - refine (eq_trans (y := Ok (setFirst (dense11 F 2 1) true, mkMat 2 1 [0 + 1 * 2 + 1; 0 + - (2) * 2 + 1])) eq_refl _).
    replace (0 + 1 * 2 + 1) with 3 by ring. replace (0 + - (2) * 2 + 1) with (-3) by ring. reflexivity.
  - exists (layBase F (KAct (Some ARelu)) "" ""), (layBase F (KAct (Some ARelu)) "" ""), (fun i j => match i with O => 3 | _ => 0 end).
    split; [reflexivity|]. split; [|split; [auto|split]].
    + refine (conj eq_refl (conj eq_refl (conj eq_refl (conj eq_refl (conj _ _))))).

      * unfold odd_derivative; simpl; intuition discriminate.
      * unfold cells. intros i j _ _. cbv beta. intros [H|[]]. destruct i; simpl in H; lra.
    + unfold layForward. cbn [lk layBase]. refine (bindE _ _ _ _ _ (eq_trans (fwdAct_gen F ARelu 2 1 (fun i _ => match i with O => 3 | _ => -3 end) (mempty F) eq_refl) _)).
      apply f_equal. apply (mgen_ext R). intros [|i] j _ _; cbn; unfold Rltb; destruct (Rlt_dec _ _); lra.
    + exists (dense11 F (- (1)) 1), (dense11 F (- (1)) 1), (fun i j => match i with O => -2 | _ => 1 end).
      split; [reflexivity|]. split; [|split; [auto|split]].
      * unfold differentiable. repeat split; auto.
      * refine (eq_trans (y := Ok (dense11 F (-(1)) 1, mkMat 2 1 [0 + 3 * - (1) + 1; 0 + 0 * - (1) + 1])) eq_refl _).
        replace (0 + 3 * - (1) + 1) with (-2) by ring. replace (0 + 0 * - (1) + 1) with 1 by ring. reflexivity.
      * simpl. auto.
Qed.
Lemma sample_gradients : option_map (map (fun o => match o with Some l => (mdata (lgw l), mdata (lgb l)) | None => ([], []) end))
    (match backprop QOps (fun _ => mkRnd QOps (fun _ => 0%Q) (fun _ => 0%Z)) (sampleNet QOps) (mkNet [0; 1; 2]%nat false true)
       (mkTr QOps (tc QOps (trNew QOps)) (noBalance QOps) 0 0 [] (repeat (mempty QOps) 4) (repeat (mempty QOps) 4) 3 [] [] (th QOps (trNew QOps)) 0%Q 0 None None false)
       (mgen 2 1 (sampleX QOps)) (mgen 2 1 (sampleT QOps)) with Ok (h, _) => Some h | Err _ => None end)
  = Some [([1], [1]); ([], []); ([-3], [-3 # 2])]%Q.
Proof. vm_compute. reflexivity. Qed.
