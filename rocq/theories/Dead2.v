(* Dead2.v - units that never react: Relu, concrete runs, and where the unit is moved all the same *)
From Coq Require Import String List Arith Bool Lia ZArith QArith Reals Lra.
From Verif Require Import Base Scalar Mat SpecMat SpecReal RSum MatFacts MatProofs Act Loss Optim Regul LayMat LayImg Layer Net NetTrain SpecNet SpecTrain SpecFit SpecResume SpecFixed SpecZero SpecDead Dead1 Fixed4 Zero2 TrainProofs14 NetProofs4 LayProofs2.
Import ListNotations.
Local Open Scope nat_scope.

Lemma dead_flat : forall jk k N X w b, deadUnit k N X w b -> flatUnit jk ARelu k N X w b.
Proof. intros jk k N X w b H s Hs. specialize (H s Hs). unfold act_deriv. cbn [flt f0 f1 ROps]. unfold Rltb. destruct (Rlt_dec _ _); [lra|reflexivity]. Qed.
(* Relu: a unit inactive on every training sample is inactive on them after training, with the same weights *)
Theorem dead_stays : forall jk u (R0 : fitRnd (ROps jk)) h n (t : trainer (ROps jk)) k mo N q (X W B : nat -> nat -> R) y b0 b1 rest l0 l1,
  trainable h n t k mo -> allPassive h n -> allSized (ROps jk) h n -> ttrain (ROps jk) t = Some (@mgen R N k X, y) -> 0 < N -> cReg (ROps jk) (tc (ROps jk) t) = None ->
  (forall kd, create_optimizer (cOpt (ROps jk) (tc (ROps jk) t)) = Some kd -> rests kd) ->
  nlay n = b0 :: b1 :: rest -> hget (ROps jk) h b0 = Ok l0 -> lk l0 = KDense k q -> lw l0 = @mgen R k q W -> lb l0 = @mgen R 1 q B ->
  hget (ROps jk) h b1 = Ok l1 -> lk l1 = KAct (Some ARelu) -> u < q -> deadUnit k N X (fun p => W p u) (B 0 u) ->
  exists h' n' t' calls b l W' B', fit (ROps jk) (absFloat (ROps jk)) R0 h n t = Ok (h', n', t', calls) /\ nth_error (nlay n') 0 = Some b /\ hget (ROps jk) h' b = Ok l /\
  lk l = KDense k q /\ lw l = @mgen R k q W' /\ lb l = @mgen R 1 q B' /\ (forall p, p < k -> W' p u = W p u) /\ B' 0 u = B 0 u /\ deadUnit k N X (fun p => W' p u) (B' 0 u).
Proof.
  intros jk u R0 h n t k mo N q X W B y b0 b1 rest l0 l1 Ht Pl Sz Hx HN Hreg Hrest Hls H0 K0 EW EB H1 K1 Hu Fl.
  destruct (unit_kept jk u R0 h n t k mo N q X W B y ARelu b0 b1 rest l0 l1) as (h' & n' & t' & calls & b & l & W' & B' & Q1 & Q2 & Q3 & Q4 & Q5 & Q6 & Q7 & Q8); auto; [apply dead_flat; auto|].
  exists h', n', t', calls, b, l, W', B'. do 8 (split; auto). intros s Hs. rewrite Q8. rewrite (rsum_ext k _ (fun p => X s p * W p u)%R); [auto|]. intros p Hp. rewrite Q7; auto.
Qed.

(** * concrete networks: Dense(1,2), Relu, Dense(2,1) *)
Section Case.
Variable F : FOps.
Definition two (a b : F) (_ j : nat) : F := if j =? 0 then a else b.
Definition dd1 : layer F := setWB (layBase F (KDense 1 2) "GlorotUniform" "Zeros") (mgen 1 2 (two (fopp F (f1 F)) (f1 F))) (mgen 1 2 (two (f0 F) (f0 F))).
Definition dd3 : layer F := setWB (layBase F (KDense 2 1) "GlorotUniform" "Zeros") (mgen 2 1 (fun _ _ => f1 F)) (mgen 1 1 (fun _ _ => f0 F)).
Definition ddHeap (l2 : layer F) : heap F := [Some dd1; Some l2; Some dd3].
Definition ddNet : net := mkNet [0; 1; 2] false false.
Definition ddTr (opt : string) (lr : F) (b e N : nat) (rg : option (regul F)) (Y : nat -> nat -> F) : trainer F :=
  setSettings F (withData (trNew F) (fxX F N, mgen N 1 Y)) (mkSet F b 128 false (Z.of_nat e) (-1) (-1) false opt lr (minus1 F) (minus1 F) LMeanSquaredError rg).
Lemma dd_trainable : forall a opt lr b e N rg Y, create_optimizer opt <> None -> trainable (ddHeap (fxAct F a)) ddNet (ddTr opt lr b e N rg Y) 1 1.
Proof.
  intros a opt lr b e N rg Y Ho. unfold trainable. split; [repeat constructor; cbn; intuition discriminate|].
  split. { eexists. exists 2. split; [reflexivity|]. split; [repeat split; auto|]. eexists. exists 2. split; [reflexivity|]. split; [split; [auto|]; split; [auto|]; do 3 (split; [reflexivity|]); cbn; split; auto; split; [discriminate|]; repeat split|]. eexists. exists 1. split; [reflexivity|]. split; [|reflexivity]. repeat split; auto. }
  split. { intros [|[|[|i]]] c l E El; try discriminate E; injection E as <-; injection El as <-; reflexivity. }
  split; [exact Ho|]. split; [reflexivity|]. split; [left; reflexivity|]. split; [cbn; lia|]. split; [constructor|]. split; [constructor|].
  split; [|intros d E; discriminate E]. eexists. split; [reflexivity|]. split; [apply mwf_gen|]. split; [apply mwf_gen|]. split; [reflexivity|]. split; reflexivity.
Qed.
Lemma dd_passive : forall a, allPassive (ddHeap (fxAct F a)) ddNet.
Proof. intros a c l [<-|[<-|[<-|[]]]] E; injection E as <-; exact I. Qed.
Lemma dd_sized : forall a, allSized F (ddHeap (fxAct F a)) ddNet.
Proof. intros a c l [<-|[<-|[<-|[]]]] E; injection E as <-; exact I. Qed.
End Case.
(* unit 0 has weight -1 and the samples are 1 .. N: it never reacts, and its weight is -1 and its bias 0 after any training *)
Lemma dead_case : forall jk (R0 : fitRnd (ROps jk)) opt kd lr b e N Y, create_optimizer opt = Some kd -> rests kd -> 0 < N ->
  exists h' n' t' calls b0 l W' B', fit (ROps jk) (absFloat (ROps jk)) R0 (ddHeap (ROps jk) (fxAct (ROps jk) ARelu)) ddNet (ddTr (ROps jk) opt lr b e N None Y) = Ok (h', n', t', calls) /\ nth_error (nlay n') 0 = Some b0 /\ hget (ROps jk) h' b0 = Ok l /\
  lw l = @mgen R 1 2 W' /\ lb l = @mgen R 1 2 B' /\ W' 0 0 = (-1)%R /\ B' 0 0 = 0%R.
Proof.
  intros jk R0 opt kd lr b e N Y Eo Hr HN.
  destruct (dead_stays jk 0 R0 (ddHeap (ROps jk) (fxAct (ROps jk) ARelu)) ddNet (ddTr (ROps jk) opt lr b e N None Y) 1 1 N 2 (fun i _ => fofN (ROps jk) (S i)) (two (ROps jk) (fopp (ROps jk) (f1 (ROps jk))) (f1 (ROps jk))) (two (ROps jk) (f0 (ROps jk)) (f0 (ROps jk))) (mgen N 1 Y) 0 1 [2] (dd1 (ROps jk)) (fxAct (ROps jk) ARelu))
    as (h' & n' & t' & calls & b0 & l & W' & B' & Q1 & Q2 & Q3 & Q4 & Q5 & Q6 & Q7 & Q8 & _); try reflexivity; auto.
  - apply dd_trainable. congruence.
  - apply dd_passive.
  - apply dd_sized.
  - intros kd' E. cbn [ddTr tc setSettings cOpt] in E. rewrite Eo in E. injection E as <-. exact Hr.
  - intros s Hs. cbn [rsum two Nat.eqb fopp f1 f0 ROps]. rewrite fofN_R. pose proof (pos_INR (S s)). lra.
  - exists h', n', t', calls, b0, l, W', B'. do 5 (split; auto). split; [rewrite Q7 by lia|rewrite Q8]; reflexivity.
Qed.

(** * computed runs *)
Definition ddRun (opt : string) (rg : option (regul QOps)) (a : actKind) := around (ddHeap QOps (fxAct QOps a)) ddNet (ddTr QOps opt (1 # 100)%Q 4 1 3 rg (fun _ _ => 0%Q)).
(* weight and bias of unit 0 and weight of unit 1 of the first layer, before and after *)
Definition units (r : option (list (option (list QArith_base.Q * list QArith_base.Q)) * list (option (list QArith_base.Q * list QArith_base.Q)) * list QArith_base.Q)) : option (QArith_base.Q * QArith_base.Q * QArith_base.Q * (QArith_base.Q * QArith_base.Q * QArith_base.Q)) :=
  match r with Some (Some ([a0; a1], [c0; _]) :: _, Some ([a2; a3], [c2; _]) :: _, _) => Some (a0, c0, a1, (a2, c2, a3)) | _ => None end.
(* nothing happens to the dead unit, the other one learns *)
Lemma dead_run : forall opt, In opt ["SGD"; "Momentum"; "RPROP-"; "iRPROP-"; "Nesterov"]%string ->
  match units (ddRun opt None ARelu) with Some (w, b, v, (w', b', v')) => w = w' /\ b = b' /\ v <> v' | None => False end.
Proof. intros opt H. repeat (destruct H as [<-|H]; [vm_compute; repeat split; try discriminate|]). destruct H. Qed.
Definition revived (opt : string) (rg : option (regul QOps)) (a : actKind) : Prop := match units (ddRun opt rg a) with Some (w, b, v, (w', b', v')) => w <> w' | None => False end.
(* a penalty, AdamW and Step move the dead unit; so does an activation with a slope on the negative side *)
Theorem moved_refuted : revived "SGD" (Some (mkReg QOps RL2 (1 # 10)%Q)) ARelu /\ revived "AdamW" None ARelu /\ revived "Step" None ARelu /\ revived "SGD" None ALeakyRelu.
Proof. split; [|split; [|split]]; vm_compute; discriminate. Qed.

(** * deeper layers *)
(* Dense(1,1) Relu Dense(1,2) Relu Dense(2,1): unit 0 of the third layer is 1/2 minus the output of the second *)
Definition dpHeap : heap QOps := [Some (setWB (layBase QOps (KDense 1 1) "GlorotUniform" "Zeros") (mgen 1 1 (fun _ _ => 1%Q)) (mgen 1 1 (fun _ _ => 0%Q))); Some (fxAct QOps ARelu);
  Some (setWB (layBase QOps (KDense 1 2) "GlorotUniform" "Zeros") (mgen 1 2 (two QOps (-1)%Q 1%Q)) (mgen 1 2 (two QOps (1 # 2)%Q 0%Q))); Some (fxAct QOps ARelu); Some (dd3 QOps)].
Definition dpNet : net := mkNet [0; 1; 2; 3; 4] false false.
Definition dpTr : trainer QOps := ddTr QOps "SGD" (1 # 2)%Q 1 4 1 None (fun _ _ => (9 # 20)%Q).
(* it never reacts on the training data, and yet fit changes its weight: the layer below moved first *)
Theorem deeper_refuted : match predict QOps (fun _ => noRnd) dpHeap (mkNet [0; 1; 2; 3] false false) (fxX QOps 1) (mempty QOps) with Ok (_, o) => o = mgen 1 2 (two QOps 0%Q 1%Q) | Err _ => False end /\
  trainable dpHeap dpNet dpTr 1 1 /\ cReg QOps (tc QOps dpTr) = None /\ create_optimizer (cOpt QOps (tc QOps dpTr)) = Some OSGD /\
  match around dpHeap dpNet dpTr with Some ([_; _; Some ([w; _], _); _; _], [_; _; Some ([w'; _], _); _; _], _) => w <> w' | _ => False end.
Proof.
  split; [vm_compute; reflexivity|]. split; [|split; [reflexivity|split; [reflexivity|vm_compute; discriminate]]].
  unfold trainable. split; [repeat constructor; cbn; intuition discriminate|].
  split. { eexists. exists 1. split; [reflexivity|]. split; [repeat split; auto|]. eexists. exists 1. split; [reflexivity|]. split; [split; [auto|]; split; [auto|]; do 3 (split; [reflexivity|]); cbn; split; auto; split; [discriminate|]; repeat split|].
    eexists. exists 2. split; [reflexivity|]. split; [repeat split; auto|]. eexists. exists 2. split; [reflexivity|]. split; [split; [auto|]; split; [auto|]; do 3 (split; [reflexivity|]); cbn; split; auto; split; [discriminate|]; repeat split|]. eexists. exists 1. split; [reflexivity|]. split; [|reflexivity]. repeat split; auto. }
  split. { intros [|[|[|[|[|i]]]]] c l E El; try discriminate E; injection E as <-; injection El as <-; reflexivity. }
  split; [discriminate|]. split; [reflexivity|]. split; [left; reflexivity|]. split; [cbn; lia|]. split; [constructor|]. split; [constructor|].
  split; [|intros d E; discriminate E]. eexists. split; [reflexivity|]. split; [apply mwf_gen|]. split; [apply mwf_gen|]. split; [reflexivity|]. split; reflexivity.
Qed.
