(* Zero2.v - a learning rate of zero, and the optimiser "None": fit leaves the parameters alone *)
From Coq Require Import String List Arith Bool Lia ZArith QArith Reals Lra.
From Verif Require Import Base Scalar Mat SpecMat SpecReal RSum MatFacts MatLoops MatProofs Act Loss Optim SpecOpt OptProofs Regul LayMat LayImg Layer Net NetTrain SpecNet SpecTrain NetProofs1
  TrainProofs1 TrainProofs14 SpecFit FitLay1 FitLay2 FitNet1 FitNet2 SpecResume SpecFixed Fixed1 Fixed4 NetProofs4 SpecZero Zero1.
Import ListNotations.
Local Open Scope R_scope.

Section Reals.
Variable jk : R.
Notation F := (ROps jk).
(* the part of the state that is added to the weights without being multiplied by the learning rate *)
Definition vel0 (k : optKind) (s : cst F) : Prop := match k with OMomentum | ONesterov => cv F s = 0 | _ => True end.
Ltac onR := match goal with |- @eq _ ?a ?b => change (@eq R a b) end.
Lemma zero_cstep0 : forall k dec mom b1 b2 s (w g : R), scaled k -> vel0 k s -> snd (cstep F k (0 : R) dec mom b1 b2 s w g) = w /\ vel0 k (fst (cstep F k (0 : R) dec mom b1 b2 s w g)).
Proof.
  intros k dec mom b1 b2 [m v p] w g (N1 & N2 & N3) V. destruct k; try congruence; unfold vel0 in *; cbn [cstep fst snd cm cv cp] in *; try subst v; unfold mix, sqr; cbn [cm cv cp fmul fadd fsub fopp fdiv f0 f1 ROps];
    (split; [unfold Rdiv; try (onR; ring); auto | auto; try (onR; ring)]).
Qed.
Definition frozen (r c : nat) (o : opt F) : Prop := scaled (okind F o) /\ wfOpt F o /\ olr F o = 0 /\ (fresh F o \/ exists st, stored F r c o st /\ forall i j, vel0 (okind F o) (st i j)).
Lemma frozen_step : forall r c o (W G : nat -> nat -> F) o' w', frozen r c o -> optimize F (absFloat F) o (mgen r c W) (mgen r c G) = Ok (o', w') -> w' = mgen r c W /\ frozen r c o'.
Proof.
  intros r c o W G o' w' (Rs & Wo & Z & H) E.
  assert (exists st, loaded F r c o G st /\ forall i j, vel0 (okind F o) (st i j)) as (st & L & V).
  { destruct H as [H|(st & H & V)]; [|exists st; split; auto; apply stored_loaded; auto]. eexists. split; [apply fresh_loaded; exact H|]. intros i j. unfold vel0. destruct (okind F o); cbn [cinit cm cv cp f0 ROps]; auto. }
  destruct (optimize_step F r c o st W G L) as (o1 & E1 & S1 & K1 & K2 & _). cbv zeta in E1, S1. rewrite E1 in E. injection E; intros <- <-. rewrite Z in *.
  assert (Q : forall i j, snd (cstep F (okind F o) (0 : R) (odecay F o) (omom F o) (b1p F o) (b2p F o) (st i j) (W i j) (G i j)) = W i j /\ vel0 (okind F o) (fst (cstep F (okind F o) (0 : R) (odecay F o) (omom F o) (b1p F o) (b2p F o) (st i j) (W i j) (G i j)))) by (intros; apply zero_cstep0; auto).
  split; [apply mgen_ext; intros; apply Q|]. split; [rewrite K1; auto|]. split; [eapply optimize_wf; eauto|]. split; [exact K2|]. right. eexists. split; [exact S1|]. intros. rewrite K1. apply Q.
Qed.
Lemma dflt0 : forall d, dflt F (0 : R) d = 0.
Proof. intro d. unfold dflt, minus1. cbn [feq fopp f1 ROps]. unfold Reqb. destruct (Req_EM_T _ _); auto. lra. Qed.
Lemma init_lr : forall o, olr F o = 0 -> olr F (init F o) = 0.
Proof.
  intros o H. assert (Q : (match defaultLR F (okind F o) with Some d => dflt F (olr F o) d | None => olr F o end) = 0). { rewrite H. destruct (defaultLR F (okind F o)); auto. apply dflt0. }
  unfold init. cbv zeta. destruct (okind F o); exact Q.
Qed.
Lemma frozen_init : forall r c o, frozen r c o -> frozen r c (init F o).
Proof. intros r c o (Rs & Wo & Z & _). split; [rewrite init_kind; auto|]. destruct (opt_init F r c o Wo) as [A _]. split; auto. split; [apply init_lr; auto|]. left. apply fresh_init; auto. Qed.
Lemma frozen_new : forall r c k dec mom, scaled k -> frozen r c (set_params F (newOpt F k) (0 : R) dec mom).
Proof.
  intros r c k dec mom H. unfold set_params. apply frozen_init. split; [exact H|]. split; [exact (wf_new F k)|]. split; [reflexivity|]. left. pose proof (wf_new F k) as (A & B & C). split; [exact A|]. split; [exact B|]. split; [exact C|]. cbn [okind newOpt s_m s_v s_p]. destruct k; auto.
Qed.
Theorem zero_rate : forall (R0 : fitRnd F) h n (t : trainer F) k m x y,
  trainable h n t k m -> nlay n <> [] -> allPassive h n -> allSized F h n -> ttrain F t = Some (x, y) -> (0 < mrows x)%nat ->
  cLr F (tc F t) = 0 -> (forall kd, create_optimizer (cOpt F (tc F t)) = Some kd -> scaled kd) ->
  exists h' n' t' calls, fit F (absFloat F) R0 h n t = Ok (h', n', t', calls) /\ copyOf F h (nlay n) h' (nlay n').
Proof.
  intros R0 h n t k m x y Ht Hn Hp Hs Hx HN Z Hk. eapply (keeps_all F frozen frozen_step frozen_init); eauto.
  intros r c kd E. rewrite Z. apply frozen_new. auto.
Qed.
End Reals.

Local Open Scope nat_scope.
(* "None": in any arithmetic, whatever the learning rate *)
Theorem none_opt : forall (F : FOps) (R0 : fitRnd F) h n (t : trainer F) k m x y,
  trainable h n t k m -> nlay n <> [] -> allPassive h n -> allSized F h n -> ttrain F t = Some (x, y) -> 0 < mrows x ->
  cOpt F (tc F t) = "None"%string ->
  exists h' n' t' calls, fit F (absFloat F) R0 h n t = Ok (h', n', t', calls) /\ copyOf F h (nlay n) h' (nlay n').
Proof.
  intros F R0 h n t k m x y Ht Hn Hp Hs Hx HN Ho. eapply (keeps_all F (fun _ _ o => okind F o = ONone)); eauto.
  - intros r c o W G o' w' E E1. unfold optimize in E1. rewrite E in E1. injection E1; intros <- <-. auto.
  - intros r c o E. unfold init. rewrite E. reflexivity.
  - intros r c kd E. rewrite Ho in E. injection E as <-. reflexivity.
Qed.

(** * concrete cases *)
Lemma fx_passive : forall (F : FOps) a, allPassive (fxHeap F a) fxNet.
Proof. intros F a c l [<-|[<-|[]]] E; injection E as <-; exact I. Qed.
Lemma zero_case : forall jk (R0 : fitRnd (ROps jk)) a opt kd kp b e lo N Y, create_optimizer opt = Some kd -> scaled kd -> smoothLoss lo -> 0 < N ->
  exists h' n' t' calls, fit (ROps jk) (absFloat (ROps jk)) R0 (fxHeap (ROps jk) a) fxNet (fxTr (ROps jk) opt kp b e 0%R lo N Y) = Ok (h', n', t', calls) /\
  copyOf (ROps jk) (fxHeap (ROps jk) a) [0; 1] h' (nlay n').
Proof.
  intros jk R0 a opt kd kp b e lo N Y Eo Hr Hl HN. eapply (zero_rate jk R0 (fxHeap (ROps jk) a) fxNet); [apply fx_trainable; auto; congruence | discriminate | apply fx_passive | apply fx_sized | reflexivity | exact HN | reflexivity |].
  intros kd' E. cbn [fxTr tc setSettings cOpt] in E. rewrite Eo in E. injection E as <-. exact Hr.
Qed.
Lemma none_case : forall (F : FOps) (R0 : fitRnd F) a kp b e lr lo N Y, smoothLoss lo -> 0 < N ->
  exists h' n' t' calls, fit F (absFloat F) R0 (fxHeap F a) fxNet (fxTr F "None" kp b e lr lo N Y) = Ok (h', n', t', calls) /\ copyOf F (fxHeap F a) [0; 1] h' (nlay n').
Proof.
  intros F R0 a kp b e lr lo N Y Hl HN. eapply (none_opt F R0 (fxHeap F a) fxNet); [apply fx_trainable; auto; discriminate | discriminate | apply fx_passive | apply fx_sized | reflexivity | exact HN | reflexivity].
Qed.
(* the same data with a learning rate that is not zero moves the weights, and so do these at zero *)
Definition zTr (opt : string) (lr : QOps) : trainer QOps := fxTr QOps opt false 2 2 lr LMeanSquaredError 3 (fun _ _ => 0%Q).
Lemma run_case : forall opt, In opt ["None"; "Step"; "SGD"; "Momentum"; "MomentumNg"; "Nesterov"; "RMSProp"; "Adagrad"; "Adam"; "Amsgrad"; "Nadam"; "Adamax"]%string ->
  match around (fxHeap QOps ARelu) fxNet (zTr opt 0%Q) with Some (w0, w1, _) => w0 = w1 | None => False end.
Proof. intros opt H. repeat (destruct H as [<-|H]; [vm_compute; reflexivity|]). destruct H. Qed.
Lemma moves_case : movesAway (fxHeap QOps ARelu) fxNet (zTr "SGD" (1 # 10)%Q).
Proof. do 3 eexists. split; [vm_compute; reflexivity|]. discriminate. Qed.
(* the resilient optimisers and AdamW do not need a learning rate to move *)
Definition zeroMoves (kd : optKind) : Prop := exists h n t k m, trainable h n t k m /\ nlay n <> [] /\ allPassive h n /\ allSized QOps h n /\ create_optimizer (cOpt QOps (tc QOps t)) = Some kd /\
  cLr QOps (tc QOps t) = 0%Q /\ movesAway h n t.
Theorem others_refuted : zeroMoves ORPROPm /\ zeroMoves OiRPROPm /\ zeroMoves OAdamW.
Proof.
  split; [|split].
  - exists (fxHeap QOps ARelu), fxNet, (zTr "RPROP-" 0%Q), 1, 1. split; [apply fx_trainable; [exact I|discriminate]|]. split; [discriminate|]. split; [apply fx_passive|]. split; [apply fx_sized|]. do 2 (split; [reflexivity|]). do 3 eexists. split; [vm_compute; reflexivity|]. discriminate.
  - exists (fxHeap QOps ARelu), fxNet, (zTr "iRPROP-" 0%Q), 1, 1. split; [apply fx_trainable; [exact I|discriminate]|]. split; [discriminate|]. split; [apply fx_passive|]. split; [apply fx_sized|]. do 2 (split; [reflexivity|]). do 3 eexists. split; [vm_compute; reflexivity|]. discriminate.
  - exists (fxHeap QOps ARelu), fxNet, (zTr "AdamW" 0%Q), 1, 1. split; [apply fx_trainable; [exact I|discriminate]|]. split; [discriminate|]. split; [apply fx_passive|]. split; [apply fx_sized|]. do 2 (split; [reflexivity|]). do 3 eexists. split; [vm_compute; reflexivity|]. discriminate.
Qed.
(* set_params takes -1 for "default": a learning rate of -1 is not frozen but is the default one *)
Lemma minus_one : movesAway (fxHeap QOps ARelu) fxNet (zTr "SGD" (-1)%Q) /\ exists w0 w1 w2 c c', around (fxHeap QOps ARelu) fxNet (zTr "SGD" (-1)%Q) = Some (w0, w1, c) /\ around (fxHeap QOps ARelu) fxNet (zTr "SGD" (1 # 100)%Q) = Some (w0, w2, c') /\ w1 = w2.
Proof. split; [do 3 eexists; split; [vm_compute; reflexivity|]; discriminate|]. do 5 eexists. split; [vm_compute; reflexivity|]. split; [vm_compute; reflexivity|]. reflexivity. Qed.
(* LayerPELU raises its parameters below 0.1 to 0.1 in its backward pass, without any optimiser *)
Definition zPelu : layer QOps := setP (layBase QOps KPELU "GlorotUniform" "Zeros") (mgen 2 1 (fun i _ => if i =? 0 then 1 # 20 else 1)%Q) (mgen 2 1 (fun _ _ => 0%Q)) (mempty QOps) (mempty QOps).
Theorem pelu_refuted : exists h n t k m, trainable h n t k m /\ nlay n <> [] /\ allSized QOps h n /\ cOpt QOps (tc QOps t) = "None"%string /\ cLr QOps (tc QOps t) = 0%Q /\ movesAway h n t.
Proof.
  exists [Some zPelu], (mkNet [0] false false), (zTr "None" 0%Q), 1, 1. split.
  { split; [constructor; [intros []|constructor]|]. split. { eexists. exists 1. split; [reflexivity|]. split; [|reflexivity]. split; [auto|]. split; [auto|]. do 3 (split; [reflexivity|]). cbn. split; auto. split; [|split; reflexivity]. right. repeat split. }
    split. { intros [|[|i]] c l E El; try discriminate E; injection E as <-; injection El as <-; reflexivity. }
    split; [discriminate|]. split; [reflexivity|]. split; [left; reflexivity|]. split; [cbn; lia|]. split; [constructor|]. split; [constructor|].
    split; [|intros d E; discriminate E]. eexists. split; [reflexivity|]. split; [apply mwf_gen|]. split; [apply mwf_gen|]. split; [reflexivity|]. split; reflexivity. }
  split; [discriminate|]. split. { intros c l [<-|[]] E; injection E as <-. discriminate. }
  do 2 (split; [reflexivity|]). do 3 eexists. split; [vm_compute; reflexivity|]. discriminate.
Qed.
