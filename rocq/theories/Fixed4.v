(* Fixed4.v - a network that reproduces its data: concrete runs, and where training moves the weights away *)
From Coq Require Import String List Arith Bool Lia ZArith QArith Reals.
From Verif Require Import Base Scalar Mat SpecMat MatFacts MatProofs Act Loss Optim LayMat LayImg Layer Net NetTrain SpecNet NetRow NetProofs1 SpecTrain SpecFit SpecResume SpecFixed Fixed3 NetProofs4 TrainProofs14 LayProofs2.
Import ListNotations.
Local Open Scope nat_scope.

Section Case.
Variable F : FOps.
(* samples x = 1 .. N, one column *)
Definition fxX (N : nat) : mat F := mgen N 1 (fun i _ => fofN F (S i)).
Definition fxTr (opt : string) (kp : bool) (b : nat) (e : nat) (lr : F) (lo : lossKind) (N : nat) (Y : nat -> nat -> F) : trainer F :=
  setSettings F (withData (trNew F) (fxX N, mgen N 1 Y)) (mkSet F b 128 kp (Z.of_nat e) (-1) (-1) false opt lr (minus1 F) (minus1 F) lo None).
(* LayerDense(1,1) with weight 2 and bias 1 followed by an activation *)
Definition fxDense : layer F := setWB (layBase F (KDense 1 1) "GlorotUniform" "Zeros") (mgen 1 1 (fun _ _ => fofN F 2)) (mgen 1 1 (fun _ _ => fofN F 1)).
Definition fxAct (a : actKind) : layer F := layBase F (KAct (Some a)) "GlorotUniform" "Zeros".
Definition fxHeap (a : actKind) : heap F := [Some fxDense; Some (fxAct a)].
Definition fxNet : net := mkNet [0; 1] false false.
Definition fxRow (a : actKind) (i _ : nat) : F := act_apply F a (fadd F (fsum F 1 (fun _ => fmul F (fofN F (S i)) (fofN F 2))) (fofN F 1)).
Lemma fx_trainable : forall a opt kp b e lr lo N Y, smoothLoss lo -> create_optimizer opt <> None -> trainable (fxHeap a) fxNet (fxTr opt kp b e lr lo N Y) 1 1.
Proof.
  intros a opt kp b e lr lo N Y Hl Ho. unfold trainable. split; [constructor; [intros [E|[]]; discriminate E|constructor; [intros []|constructor]]|].
  split. { eexists. exists 1. split; [reflexivity|]. split; [repeat split; auto|]. eexists. exists 1. split; [reflexivity|]. split; [|reflexivity]. split; [auto|]. split; [auto|]. do 3 (split; [reflexivity|]). cbn. split; auto. split; [discriminate|]. repeat split. }
  split. { intros [|[|i]] c l E El; try discriminate E; injection E as <-; injection El as <-; reflexivity. }
  split; [exact Ho|]. split; [reflexivity|]. split; [left; reflexivity|]. split; [cbn; lia|]. split; [constructor|]. split; [constructor|].
  split; [|intros d E; discriminate E]. eexists. split; [reflexivity|]. split; [apply mwf_gen|]. split; [apply mwf_gen|]. split; [reflexivity|]. split; [reflexivity|]. destruct lo; cbn in Hl; try contradiction; reflexivity.
Qed.
Lemma fx_sized : forall a, allSized F (fxHeap a) fxNet.
Proof. intros a c l [<-|[<-|[]]] E; injection E as <-; exact I. Qed.
Lemma fx_plain : forall a, allPlain (fxHeap a) fxNet.
Proof. intros a c l [<-|[<-|[]]] E; injection E as <-; exact I. Qed.
Lemma fx_chain : forall a, exists g, chainRow F (fxHeap a) [0; 1] 1 1 g /\ forall x, g x 0 = act_apply F a (fadd F (fsum F 1 (fun p => fmul F (x p) (fofN F 2))) (fofN F 1)).
Proof.
  intro a. exists (fun x => rowFun F (fxAct a) 1 (rowFun F fxDense 1 x)). split.
  - exists fxDense, 1, (fun y => rowFun F (fxAct a) 1 y). split; [reflexivity|]. split; [split; (split; [apply mwf_gen|split; reflexivity])|]. split; [reflexivity|]. exists (fxAct a), 1, (fun z => z). split; [reflexivity|]. split; [split; [reflexivity|discriminate]|]. split; [reflexivity|]. split; reflexivity.
  - intro x. reflexivity.
Qed.
Lemma fx_predict : forall a N rs out, mwf out -> exists h1, predict F rs (fxHeap a) fxNet (fxX N) out = Ok (h1, mgen N 1 (fxRow a)).
Proof.
  intros a N rs out Ho. destruct (fx_chain a) as (g & C & E). destruct (predict_row F rs (fxHeap a) fxNet 1 1 g N (fun i _ => fofN F (S i)) out) as (h1 & P & _); auto; [discriminate | constructor; [intros [Q|[]]; discriminate Q|constructor; [intros []|constructor]]|].
  exists h1. unfold fxX. rewrite P. f_equal. f_equal. apply mgen_ext. intros i j Hi Hj. replace j with 0 by lia. rewrite E. reflexivity.
Qed.
End Case.
(* the theorem applies: a Dense layer and any activation, N samples, any batch size, number of epochs, learning rate, loss and optimiser it allows *)
Lemma fixed_case : forall jk (R0 : fitRnd (ROps jk)) a opt kd kp b e lr lo N, create_optimizer opt = Some kd -> rests kd -> smoothLoss lo -> 0 < N ->
  exists h' n' t' calls, fit (ROps jk) (absFloat (ROps jk)) R0 (fxHeap (ROps jk) a) fxNet (fxTr (ROps jk) opt kp b e lr lo N (fxRow (ROps jk) a)) = Ok (h', n', t', calls) /\
  copyOf (ROps jk) (fxHeap (ROps jk) a) [0; 1] h' (nlay n') /\ forall x, In x (hTL (ROps jk) (th (ROps jk) t')) -> x = 0%R.
Proof.
  intros jk R0 a opt kd kp b e lr lo N Eo Hr Hl HN. destruct (fx_predict (ROps jk) a N (fun _ => oFirst _ R0 0 0) (mempty (ROps jk)) eq_refl) as (h1 & Ep).
  eapply (fixed_point jk R0 (fxHeap (ROps jk) a) fxNet _ 1 1 N (fun i _ => fofN (ROps jk) (S i)) (fxRow (ROps jk) a)) with (out := mempty (ROps jk)); [apply fx_trainable; auto; congruence | discriminate | apply fx_plain | apply fx_sized | exact Hl | reflexivity | | reflexivity | exact HN | reflexivity | exact Ep].
  intros kd' E. cbn [fxTr tc setSettings cOpt] in E. rewrite Eo in E. injection E as <-. exact Hr.
Qed.

(** * computed runs *)
(* the weights before and after fit, and the recorded training losses *)
Definition around (h : heap QOps) (n : net) (t : trainer QOps) : option (list (option (list Q * list Q)) * list (option (list Q * list Q)) * list Q) :=
  match fit QOps (absFloat QOps) noFR h n t with Ok (h', n', t', _) => Some (map (wbAt h) (nlay n), map (wbAt h') (nlay n'), map Qred (hTL QOps (th QOps t'))) | Err _ => None end.
Lemma still_case : forall opt, In opt ["SGD"; "Momentum"; "RMSProp"; "RPROP-"; "iRPROP-"]%string ->
  around (fxHeap QOps ARelu) fxNet (fxTr QOps opt true 2 3 (1 # 10)%Q LMeanSquaredError 5 (fxRow QOps ARelu)) = Some ([Some ([2], [1]); Some ([], [])], [Some ([2], [1]); Some ([], [])], [0; 0; 0])%Q.
Proof. intros opt H. repeat (destruct H as [<-|H]; [vm_compute; reflexivity|]). destruct H. Qed.

(** * where it fails *)
(* training changes the weights of a network that reproduces its data *)
Definition movesAway (h : heap QOps) (n : net) (t : trainer QOps) : Prop := exists w0 w1 c, around h n t = Some (w0, w1, c) /\ w0 <> w1.
Lemma fx_reproduces : forall a opt kp b e lr lo N, 0 < N -> reproduces (fxHeap QOps a) fxNet (fxTr QOps opt kp b e lr lo N (fxRow QOps a)).
Proof.
  intros a opt kp b e lr lo N H. destruct (fx_predict QOps a N (fun _ => noRnd) (mempty QOps) eq_refl) as (h1 & P). exists (fxX QOps N), (mgen N 1 (fxRow QOps a)), (fun _ => noRnd), h1. auto.
Qed.
(* AdamW: the weight decay acts all the same *)
Theorem adamw_refuted : exists h n t k m, trainable h n t k m /\ nlay n <> [] /\ allPlain h n /\ allSized QOps h n /\ smoothLoss (cLoss QOps (tc QOps t)) /\ cReg QOps (tc QOps t) = None /\
  create_optimizer (cOpt QOps (tc QOps t)) = Some OAdamW /\ reproduces h n t /\ movesAway h n t.
Proof.
  exists (fxHeap QOps ARelu), fxNet, (fxTr QOps "AdamW" false 2 1 (1 # 10)%Q LMeanSquaredError 5 (fxRow QOps ARelu)), 1, 1. split; [apply fx_trainable; [exact I|discriminate]|]. split; [discriminate|]. split; [apply fx_plain|]. split; [apply fx_sized|]. do 3 (split; [reflexivity || exact I|]).
  split; [apply fx_reproduces; lia|].
  do 3 eexists. split; [vm_compute; reflexivity|]. discriminate.
Qed.
(* Step: the sign of a zero gradient is +1 *)
Theorem step_refuted : exists h n t k m, trainable h n t k m /\ nlay n <> [] /\ allPlain h n /\ allSized QOps h n /\ smoothLoss (cLoss QOps (tc QOps t)) /\ cReg QOps (tc QOps t) = None /\
  create_optimizer (cOpt QOps (tc QOps t)) = Some OStep /\ reproduces h n t /\ movesAway h n t.
Proof.
  exists (fxHeap QOps ARelu), fxNet, (fxTr QOps "Step" false 2 1 (1 # 10)%Q LMeanSquaredError 5 (fxRow QOps ARelu)), 1, 1. split; [apply fx_trainable; [exact I|discriminate]|]. split; [discriminate|]. split; [apply fx_plain|]. split; [apply fx_sized|]. do 3 (split; [reflexivity || exact I|]).
  split; [apply fx_reproduces; lia|].
  do 3 eexists. split; [vm_compute; reflexivity|]. discriminate.
Qed.
(* MeanAbsoluteError and L1: so is the sign of a zero error *)
Lemma fx_trainable' : forall a opt kp b e lr lo N Y, lo = LMeanAbsoluteError \/ lo = LL1 -> create_optimizer opt <> None -> trainable (fxHeap QOps a) fxNet (fxTr QOps opt kp b e lr lo N Y) 1 1.
Proof. intros a opt kp b e lr lo N Y [-> | ->] Ho; exact (fx_trainable QOps a opt kp b e lr LMeanSquaredError N Y I Ho). Qed.
Theorem absolute_refuted : forall lo, lo = LMeanAbsoluteError \/ lo = LL1 -> exists h n t k m, trainable h n t k m /\ nlay n <> [] /\ allPlain h n /\ allSized QOps h n /\ cLoss QOps (tc QOps t) = lo /\ cReg QOps (tc QOps t) = None /\
  create_optimizer (cOpt QOps (tc QOps t)) = Some OSGD /\ reproduces h n t /\ movesAway h n t.
Proof.
  intros lo Hl. exists (fxHeap QOps ARelu), fxNet, (fxTr QOps "SGD" false 2 1 (1 # 10)%Q lo 5 (fxRow QOps ARelu)), 1, 1. split; [apply fx_trainable'; [exact Hl|discriminate]|]. split; [discriminate|]. split; [apply fx_plain|]. split; [apply fx_sized|]. do 3 (split; [reflexivity || exact I|]).
  split; [apply fx_reproduces; lia|].
  destruct Hl as [-> | ->]; do 3 eexists; (split; [vm_compute; reflexivity|]); discriminate.
Qed.
(* PELU and TERELU: the gradient of their parameters does not depend on the error *)
Definition lone (k : kind QOps) (w : mat QOps) : heap QOps := [Some (setGW (layWith k w (mempty QOps)) w)].
Lemma lone_reproduces : forall k w opt kp b e lr lo, detLayer QOps (setGW (layWith k w (mempty QOps)) w) 1 1 -> rowFun QOps (setGW (layWith k w (mempty QOps)) w) 1 (fun _ => fofN QOps 1) 0 = 1%Q ->
  reproduces (lone k w) (mkNet [0] false false) (fxTr QOps opt kp b e lr lo 1 (fun _ _ => 1%Q)).
Proof.
  intros k w opt kp b e lr lo D E. set (l := setGW (layWith k w (mempty QOps)) w) in *.
  destruct (predict_row QOps (fun _ => noRnd) (lone k w) (mkNet [0] false false) 1 1 (fun x => rowFun QOps l 1 x) 1 (fun i _ => fofN QOps (S i)) (mempty QOps)) as (h1 & P & _); [discriminate | constructor; [intros []|constructor] | | reflexivity |].
  { exists l, 1, (fun z => z). split; [reflexivity|]. split; [exact D|]. split; [reflexivity|]. split; reflexivity. }
  exists (fxX QOps 1), (mgen 1 1 (fun _ _ => 1%Q)), (fun _ => noRnd), h1. split; [reflexivity|]. split; [cbn; lia|]. unfold fxX. rewrite P. f_equal. f_equal. apply mgen_ext. intros i j Hi Hj. replace i with 0 by lia. replace j with 0 by lia. exact E.
Qed.
Theorem learned_refuted : forall kd, kd = KPELU \/ kd = KTERELU -> exists h n t k m, trainable h n t k m /\ (exists l, nlay n = [0] /\ hget QOps h 0 = Ok l /\ lk l = kd) /\ allSized QOps h n /\ smoothLoss (cLoss QOps (tc QOps t)) /\ cReg QOps (tc QOps t) = None /\
  create_optimizer (cOpt QOps (tc QOps t)) = Some OSGD /\ reproduces h n t /\ movesAway h n t.
Proof.
  intros kd Hk. exists (lone kd (match kd with KPELU => mgen 2 1 (fun _ _ => 1%Q) | _ => mgen 1 1 (fun _ _ => 1%Q) end)), (mkNet [0] false false), (fxTr QOps "SGD" false 1 1 (1 # 10)%Q LMeanSquaredError 1 (fun _ _ => 1%Q)), 1, 1.
  split. { destruct (fx_trainable QOps ARelu "SGD" false 1 1 (1 # 10)%Q LMeanSquaredError 1 (fun _ _ => 1%Q) I) as (_ & _ & _ & A); [discriminate|]. split; [constructor; [intros []|constructor]|]. split; [|split; [intros i c l E; destruct i; discriminate E|exact A]].
    eexists. exists 1. split; [reflexivity|]. split; [|reflexivity]. split; [auto|]. split; [auto|]. split; [destruct Hk as [-> | ->]; reflexivity|]. do 2 (split; [reflexivity|]).
    destruct Hk as [-> | ->]; (split; [reflexivity|]); (split; [right; split; (split; [reflexivity|split; reflexivity])|split; reflexivity]). }
  split. { eexists. split; [reflexivity|]. split; reflexivity. }
  split. { intros c l [<-|[]] E. injection E as <-. destruct Hk as [-> | ->]; cbn; lia. }
  do 3 (split; [reflexivity || exact I|]).
  split. { destruct Hk as [-> | ->].
    - apply (lone_reproduces KPELU (mgen 2 1 (fun _ _ => 1%Q))); [|vm_compute; reflexivity]. split; [reflexivity|]. split; [lia|]. left. split; [apply mwf_gen|split; reflexivity].
    - apply (lone_reproduces KTERELU (mgen 1 1 (fun _ _ => 1%Q))); [|vm_compute; reflexivity]. split; [reflexivity|]. split; [lia|]. left. split; [apply mwf_gen|split; reflexivity]. }
  destruct Hk as [-> | ->]; do 3 eexists; (split; [vm_compute; reflexivity|]); discriminate.
Qed.
