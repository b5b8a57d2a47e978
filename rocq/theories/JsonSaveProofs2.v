(* JsonSaveProofs2.v - does the saved file determine the network? *)
From Coq Require Import Decimal DecimalString DecimalFacts DecimalZ DecimalPos String List Arith Bool Ascii Lia ZArith.
From Verif Require Import Base Scalar Mat SpecMat Act LayMat LayImg LayRnn Loss Optim Regul Layer Net NetTrain SpecText SpecJson SpecSave Json JsonProofs JsonSave JsonSaveProofs JsonUniq.
Import ListNotations.
Local Open Scope nat_scope.

Lemma lit_inj : forall a b, lit a = lit b -> a = b.
Proof. intros a b H. rewrite <- (string_of_list_ascii_of_string a), <- (string_of_list_ascii_of_string b). unfold lit in H. rewrite H. reflexivity. Qed.
Lemma showInt_inj : forall a b, showInt a = showInt b -> a = b.
Proof.
  intros a b H. apply lit_inj in H. apply (f_equal NilZero.int_of_string) in H.
  assert (N : forall z, Z.to_int z <> Pos Nil /\ Z.to_int z <> Neg Nil) by (intros [|p|p]; cbn [Z.to_int]; split; try discriminate; intro E; injection E as E; apply (Unsigned.to_uint_nonnil p); auto).
  rewrite !NilZero.isi in H by apply N. injection H as H. rewrite <- (DecimalZ.of_to a), <- (DecimalZ.of_to b), H. reflexivity.
Qed.
Lemma showNat_inj : forall a b, showInt (Z.of_nat a) = showInt (Z.of_nat b) -> a = b.
Proof. intros a b H. apply showInt_inj in H. lia. Qed.
Definition className (s : string) : bool := existsb (String.eqb s)
  ["Dense"; "Dot"; "Bias"; "Gain"; "Affine"; "GlobalGain"; "GlobalBias"; "GlobalAffine"; "ChannelBias"; "GatedActivation"; "CRelu"; "PRelu"; "RRelu"; "PELU"; "TERELU"; "Dropout"; "GaussianDropout"; "GaussianNoise"; "UniformNoise"; "Softmax"; "Softmin";
   "TimeDistributedBias"; "TimeDistributedDot"; "TimeDistributedDense"; "MaxPool2D"; "GlobalMaxPool2D"; "AveragePooling2D"; "GlobalAveragePooling2D"; "ZeroPadding2D"; "RandomFlip"; "Convolution2D"; "RNN"]%string.
Lemma act_not_class : forall a, className (act_name a) = false.
Proof. intros []; reflexivity. Qed.
Lemma act_name_inj : forall a b, act_name a = act_name b -> a = b.
Proof. intros a b H. assert (E : forall k, get_activation (act_name k) = Some k) by (intros []; reflexivity). pose proof (E a) as Ea. rewrite H, E in Ea. congruence. Qed.

Section Same.
Variable F : FOps.
Variable showF : F -> text.
Hypothesis show_inj : forall x y, showF x = showF y -> x = y.
Notation meaning := (meaning Z F showInt showF).
(* same class and constructor arguments (the convolution's choice of algorithm aside) *)
Definition sameKind (k k' : kind F) : Prop := match k, k' with KConv v _, KConv v' _ => v = v' | _, _ => k = k' end.
Notation fields := (fields F showF).
Lemma nums_inj : forall xs ys, map (fun x => JNum (showF x)) xs = map (fun x => JNum (showF x)) ys -> xs = ys.
Proof. induction xs as [|x xs IH]; intros [|y ys] H; try discriminate; auto. cbn in H. injection H as H1 H2. f_equal; auto. Qed.
Lemma type_same : forall k k' : kind F, savedFully k = true -> typeOf F k = typeOf F k' ->
  match k, k' with
  | KDense _ _, KDense _ _ | KDot _ _, KDot _ _ | KChannelBias _ _ _, KChannelBias _ _ _ | KRRelu _ _, KRRelu _ _ | KDropout _, KDropout _ | KGaussianNoise _, KGaussianNoise _ | KUniformNoise _, KUniformNoise _
  | KTDBias _, KTDBias _ | KTDDot _ _, KTDDot _ _ | KTDDense _ _, KTDDense _ _ | KMaxPool _, KMaxPool _ | KGlobalMaxPool _ _ _, KGlobalMaxPool _ _ _ | KConv _ _, KConv _ _ => True
  | _, _ => k = k'
  end.
Proof.
  intros k k' S H.
  assert (C : forall k : kind F, (exists a, k = KAct (Some a)) \/ className (typeOf F k) = true \/ k = KAct None).
  { intro k0. destruct k0 as [| | | | | | | | |[a|]| | | | | | | | | | | | | | | | | | | | | | | |]; try (right; left; reflexivity); eauto. }
  assert (N : forall k : kind F, typeOf F k = ""%string -> k = KAct None).
  { intros k0 E. destruct (C k0) as [(a & ->)|[Ck|Ck]]; auto; exfalso; [destruct a; discriminate E|rewrite E in Ck; discriminate Ck]. }
  destruct (C k) as [(a & ->)|[Ck|Ck]]; [| |subst k; symmetry in H; apply N in H; subst k'; reflexivity].
  - destruct (C k') as [(a' & ->)|[Ck'|Ck']]; [|rewrite <- H in Ck'; cbn [typeOf] in Ck'; rewrite act_not_class in Ck'; discriminate|subst k'; exfalso; destruct a; discriminate H]. cbn [typeOf] in H. apply act_name_inj in H. subst. reflexivity.
  - destruct (C k') as [(a' & ->)|[Ck'|Ck']]; [rewrite H in Ck; cbn [typeOf] in Ck; rewrite act_not_class in Ck; discriminate| |subst k'; exfalso; cbn [typeOf] in H; rewrite H in Ck; discriminate Ck].
    destruct k as [| | | | | | | | |[a|]| | | | | | | | | | | | | | | | | | | | | | | |]; cbn [savedFully] in S; try discriminate S; try (exfalso; cbn [typeOf] in Ck; rewrite act_not_class in Ck; discriminate); try discriminate Ck;
      destruct k' as [| | | | | | | | |[a'|]| | | | | | | | | | | | | | | | | | | | | | | |]; try exact I; try reflexivity; try discriminate H; try discriminate Ck'; try (exfalso; cbn [typeOf] in Ck'; rewrite act_not_class in Ck'; discriminate).
Qed.
Theorem same_layer : forall l l', savedFully (lk l) = true -> fields l = fields l' ->
  sameKind (lk l) (lk l') /\ hasWeights l = hasWeights l' /\ hasBiases l = hasBiases l' /\ (hasWeights l = true -> mdata (lw l) = mdata (lw l') /\ lwi l = lwi l') /\ (hasBiases l = true -> mdata (lb l) = mdata (lb l') /\ lbi l = lbi l').
Proof.
  intros l l' S H. unfold JsonSaveProofs.fields in H.
  destruct (saveKind F (Ok tt) (lk l)) as [c|e] eqn:E; [|destruct (lk l); discriminate]. destruct (saveKind F (Ok tt) (lk l')) as [c'|e] eqn:E'; [|destruct (lk l'); discriminate].
  unfold leaves in H. cbn [map leaf SpecJson.meaning] in H. injection H as Ht H. apply lit_inj in Ht. pose proof (type_same _ _ S Ht) as K.
  rewrite !map_app in H.
  assert (P : (hasWeights l = hasWeights l' /\ hasBiases l = hasBiases l') /\ (hasWeights l = true -> mdata (lw l) = mdata (lw l') /\ lwi l = lwi l') /\ (hasBiases l = true -> mdata (lb l) = mdata (lb l') /\ lbi l = lbi l') /\
    map (fun c => meaning (leaf F c)) c = map (fun c => meaning (leaf F c)) c').
  { assert (N : forall k cs, saveKind F (Ok tt) k = Ok cs -> match map (fun c => meaning (leaf F c)) cs with [] => True | (k0, _) :: _ => k0 <> lit "WeightInitializer" /\ k0 <> lit "BiasInitializer" end).
    { intros k cs Ek. destruct k; cbn [saveKind bind] in Ek; injection Ek as <-; cbn; auto; split; discriminate. }
    pose proof (N _ _ E) as Nc. pose proof (N _ _ E') as Nc'.
    set (w := map (fun c => meaning (leaf F c)) c) in *. set (w' := map (fun c => meaning (leaf F c)) c') in *. clearbody w w'.
    destruct (hasWeights l), (hasWeights l'), (hasBiases l), (hasBiases l'); cbn [map app leaf SpecJson.meaning] in H;
      try (exfalso; destruct w as [|[k0 v0] w]; [discriminate H|]; injection H as H0 _; destruct Nc as [Nc1 Nc2]; first [apply Nc1; exact H0|apply Nc2; exact H0]);
      try (exfalso; destruct w' as [|[k0 v0] w']; [discriminate H|]; injection H as H0 _; destruct Nc' as [Nc1 Nc2]; first [apply Nc1; symmetry; exact H0|apply Nc2; symmetry; exact H0]);
      try (exfalso; discriminate H).
    - injection H as A1 A2 A3 A4 A5. apply lit_inj in A1, A3. apply nums_inj in A2, A4. auto 10.
    - injection H as A1 A2 H. exfalso. destruct w' as [|[k0 v0] w']; [discriminate H|]. injection H as H0 _. apply Nc'. symmetry. exact H0.
    - injection H as A1 A2 H. exfalso. destruct w as [|[k0 v0] w]; [discriminate H|]. injection H as H0 _. apply Nc. exact H0.
    - injection H as A1 A2 A5. apply lit_inj in A1. apply nums_inj in A2. split; auto. split; auto. split; auto. discriminate.
    - injection H as A1 A2 A5. apply lit_inj in A1. apply nums_inj in A2. split; auto. split; [discriminate|]. split; auto.
    - split; auto. split; [discriminate|]. split; [discriminate|auto]. }
  destruct P as ((P1 & P2) & P3 & P4 & P5). split; [|auto].
  destruct (lk l), (lk l'); try exact K; try discriminate K; cbn [saveKind bind] in E, E'; injection E as <-; injection E' as <-; cbn [map leaf addI SpecJson.meaning] in P5; unfold sameKind;
    try (injection P5; intros; repeat match goal with Q : showInt _ = showInt _ |- _ => apply showNat_inj in Q | Q : showF _ = showF _ |- _ => apply show_inj in Q end; subst; reflexivity).
  - destruct p, p0. injection P5. intros. repeat match goal with Q : showInt _ = showInt _ |- _ => apply showNat_inj in Q end. cbn in *. subst. reflexivity.
  - destruct v, v0. injection P5. intros. repeat match goal with Q : showInt _ = showInt _ |- _ => apply showNat_inj in Q end. cbn in *. subst. reflexivity.
Qed.

Lemma loss_name_inj : forall a b, loss_name a = loss_name b -> a = b.
Proof. intros a b; destruct a; destruct b; intro H; try reflexivity; discriminate H. Qed.
Lemma reg_name_inj : forall a b, reg_name a = reg_name b -> a = b.
Proof. intros a b; destruct a; destruct b; intro H; try reflexivity; discriminate H. Qed.
(* the settings of two trainers agree *)
Definition sameSettings (t t' : trainer F) : Prop :=
  let c := tc F t in let c' := tc F t' in
  cOpt F c = cOpt F c' /\ trGetLr F t = trGetLr F t' /\ cEpochs F c = cEpochs F c' /\ cDecay F c = cDecay F c' /\ cMom F c = cMom F c' /\ cPatience F c = cPatience F c' /\
  cBatch F c = cBatch F c' /\ cLoss F c = cLoss F c' /\ cKeep F c = cKeep F c' /\ cReboost F c = cReboost F c' /\ cBalancing F c = cBalancing F c' /\
  match cReg F c, cReg F c' with Some r, Some r' => rkind F r = rkind F r' /\ rparam F r = rparam F r' | None, None => True | _, _ => False end.
Lemma same_settings : forall t t', map (fun c => meaning (leaf F c)) (saveTrain F t) = map (fun c => meaning (leaf F c)) (saveTrain F t') -> sameSettings t t'.
Proof.
  intros t t' H. unfold saveTrain in H. cbv zeta in H. rewrite !map_app in H. cbn [map leaf addI SpecJson.meaning app] in H.
  injection H as A1 A2 A3 A4 A5 A6 A7 A8 A9 A10 A11 A12. apply lit_inj in A1, A8. apply show_inj in A2, A4, A5. apply showInt_inj in A3, A6, A10. apply showNat_inj in A7. apply loss_name_inj in A8.
  unfold sameSettings. cbv zeta. repeat (split; [assumption|]). split; [destruct (cKeep F (tc F t)), (cKeep F (tc F t')); auto; discriminate|]. split; [assumption|].
  split; [destruct (cBalancing F (tc F t)), (cBalancing F (tc F t')); auto; discriminate|].
  unfold trGetReg, trGetRegParam in A12.
  assert (N : forall r : regul F, (reg_name (rkind F r) =? "")%string = false) by (intro r; destruct (rkind F r); reflexivity).
  destruct (cReg F (tc F t)) as [r|], (cReg F (tc F t')) as [r'|]; rewrite ?N in A12; cbn in A12; try discriminate A12; auto.
  injection A12 as B1 B2. apply lit_inj, reg_name_inj in B1. apply show_inj in B2. auto.
Qed.
Definition sameLayer (l l' : layer F) : Prop :=
  sameKind (lk l) (lk l') /\ hasWeights l = hasWeights l' /\ hasBiases l = hasBiases l' /\ (hasWeights l = true -> mdata (lw l) = mdata (lw l') /\ lwi l = lwi l') /\ (hasBiases l = true -> mdata (lb l) = mdata (lb l') /\ lbi l = lbi l').
Theorem same_file : forall dc h n t ls h' n' t' ls' f, layersOf F h n ls -> Forall (layerOk F dc showF) ls -> trainerOk F showF t -> layersOf F h' n' ls' -> Forall (layerOk F dc showF) ls' -> trainerOk F showF t' ->
  save F dc showF h n t = Ok f -> save F dc showF h' n' t' = Ok f ->
  nclass n = nclass n' /\ sameSettings t t' /\ Forall2 (fun l l' => savedFully (lk l) = true -> sameLayer l l') ls ls'.
Proof.
  intros dc h n t ls h' n' t' ls' f Hl Ho Ht Hl' Ho' Ht' E E'.
  destruct (saved_file_full F dc showF h n t ls Hl Ho Ht) as (x & ms & opt & Eo & Es & J & Lm & _ & M1 & M2 & M3 & A). rewrite E in Es. injection Es as <-.
  destruct (saved_file_full F dc showF h' n' t' ls' Hl' Ho' Ht') as (x' & ms' & opt' & Eo' & Es' & J' & Lm' & _ & M1' & M2' & M3' & A'). rewrite E' in Es'. injection Es' as <-.
  pose proof (json_uniq _ _ _ J J') as Q. injection Q as <-.
  split; [rewrite M1 in M1'; destruct (nclass n), (nclass n'); auto; discriminate M1'|].
  split; [rewrite M2 in M2'; injection M2' as M2'; subst opt opt'; apply same_settings; auto|].
  do 12 (destruct A as (_ & A)). do 12 (destruct A' as (_ & A')).
  assert (L : length ls = length ls') by lia.
  assert (G : forall i l l', nth_error ls i = Some l -> nth_error ls' i = Some l' -> savedFully (lk l) = true -> sameLayer l l').
  { intros i l l' Hi Hi' S. destruct (A i l Hi) as (B & _). destruct (A' i l' Hi') as (B' & _). rewrite B in B'. injection B' as B'. apply same_layer; auto. }
  clear - L G. revert ls' L G. induction ls as [|l ls IH]; intros [|l' ls'] L G; try discriminate; constructor.
  - apply (G 0); reflexivity.
  - apply IH; [auto|]. intros i. apply (G (S i)).
Qed.
End Same.

(** * networks the file does not tell apart *)
Definition oneNet : net := mkNet [0] true false.
Definition gated (a1 a2 : actKind) : heap ZOps := [Some (layBase ZOps (KGated (Some a1) (Some a2)) "" "")].
Definition noRand : nat -> rnd ZOps := fun _ => mkRnd ZOps (fun _ => 0%Z) (fun _ => 0%Z).
Lemma gated_refuted : exists h h' n x y y', (forall t, save ZOps (Ok tt) showInt h n t = save ZOps (Ok tt) showInt h' n t) /\
  predict ZOps noRand h n x (mempty ZOps) = Ok (h, y) /\ predict ZOps noRand h' n x (mempty ZOps) = Ok (h', y') /\ y <> y'.
Proof.
  exists (gated ARelu AIdentity), (gated AIdentity AIdentity), oneNet, (mkMat 1 2 [(-2)%Z; 3%Z]), (mkMat 1 1 [0%Z]), (mkMat 1 1 [(-6)%Z]).
  split; [intro t; reflexivity|]. split; [vm_compute; reflexivity|]. split; [vm_compute; reflexivity|]. discriminate.
Qed.
Lemma pool_refuted : exists h h' n x y y', (forall t, save ZOps (Ok tt) showInt h n t = save ZOps (Ok tt) showInt h' n t) /\
  predict ZOps noRand h n x (mempty ZOps) = Ok (h, y) /\ predict ZOps noRand h' n x (mempty ZOps) = Ok (h', y') /\ y <> y'.
Proof.
  exists [Some (layBase ZOps (KZeroPad 1 1 1 1) "" "")], [Some (layBase ZOps (KZeroPad 1 1 1 2) "" "")], oneNet, (mkMat 1 1 [3%Z]). eexists. eexists.
  split; [intro t; reflexivity|]. split; [vm_compute; reflexivity|]. split; [vm_compute; reflexivity|]. discriminate.
Qed.
(* the matrices of a SimpleRNN are not in the file *)
Lemma rnn_refuted : exists (h h' : heap ZOps) l l' n, hget ZOps h 0 = Ok l /\ hget ZOps h' 0 = Ok l' /\ wX (lrnn l) <> wX (lrnn l') /\ nlay n = [0] /\
  forall t, save ZOps (Ok tt) showInt h n t = save ZOps (Ok tt) showInt h' n t.
Proof.
  set (L := fun w => setRnn (layBase ZOps (KSimpleRnn 1 1) "" "") (@mkRnn ZOps (mkMat 1 1 [1%Z]) (mkMat 1 1 [w]) (mkMat 1 1 [0%Z]) (mempty ZOps) [])).
  exists [Some (L 1%Z)], [Some (L 2%Z)], (L 1%Z), (L 2%Z), oneNet. split; [reflexivity|]. split; [reflexivity|]. split; [discriminate|]. split; reflexivity.
Qed.
(* a Dot layer is read through a pointer to the unrelated class LayerDense *)
Lemma dot_refuted : forall (F : FOps) e showF h n ls t, layersOf F h n ls -> Exists (fun l => isDot (lk l) = true) ls -> save F (Err e) showF h n t = Err e.
Proof.
  intros F e showF h n ls t Hl Hd. unfold save, saveCalls, layersOf in *.
  enough (E : forall s acc, forL (combine (seq s (length (nlay n))) (nlay n)) (fun '(i, a) acc => l <- hget F h a ;; c <- saveLayer F (Err e) i l ;; Ok (acc ++ c)) acc = Err e) by (rewrite E; reflexivity).
  induction Hl as [|a l as_ ls Ha Hl IH]; [inversion Hd|]. intros s acc. cbn [length seq combine forL]. rewrite Ha. cbn [bind]. unfold saveLayer at 1.
  inversion Hd; subst.
  - destruct (lk l); try discriminate. reflexivity.
  - destruct (saveKind F (Err e) (lk l)) as [c|e'] eqn:Ek; cbn [bind]; [apply IH; auto|]. destruct (lk l); cbn [saveKind bind] in Ek; congruence.
Qed.
