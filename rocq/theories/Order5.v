(* Order5.v - real arithmetic; concrete runs; where the order of the samples matters *)
From Coq Require Import String List Arith Bool Lia ZArith QArith Reals Lra Permutation.
From Flocq Require Import IEEE754.BinarySingleNaN.
From Verif Require Import Base Scalar Mat SpecMat MatFacts MatProofs Loss Optim Regul Act LayMat LayImg Layer Net NetTrain SpecNet SpecFit SpecOrder Order1 Order4 NetProofs4 TrainProofs14.
Import ListNotations.
Local Open Scope nat_scope.

(* addends that may be exchanged *)
Lemma comm_sym : forall F : FOps, (forall v a b : F, fadd F (fadd F v a) b = fadd F (fadd F v b) a) -> symSum F.
Proof.
  intros F H n c f s R. unfold csum. set (g := fun (v : F) i => if c i then fadd F v (f i) else v).
  assert (P : forall l l', Permutation l l' -> forall v, fold_left g l v = fold_left g l' v).
  { intros l l' P. induction P; intro v; simpl; auto; [|rewrite IHP1; auto]. f_equal. unfold g. destruct (c x), (c y); auto. }
  assert (Q : forall l v, fold_left (fun v i => if c (s i) then fadd F v (f (s i)) else v) l v = fold_left g (map s l) v) by (induction l; intro v; simpl; auto).
  rewrite Q. apply P. apply reorder_perm. auto.
Qed.
Theorem any_order : forall F : FOps, (forall v a b : F, fadd F (fadd F v a) b = fadd F (fadd F v b) a) ->
  forall (s : nat -> nat) Rd h n t k m x x' y y', trainable h n t k m -> rowWise F h (nlay n) -> ttrain F t = Some (x, y) -> reorder (mrows x) s -> reordered F s x x' -> reordered F s y y' -> oneBatch F t (mrows x) ->
  exists h' n' t1 t2 calls, fit F (absFloat F) Rd h n t = Ok (h', n', t1, calls) /\ fit F (absFloat F) Rd h n (withData t (x', y')) = Ok (h', n', t2, calls) /\ sameTrainer F t1 t2.
Proof. intros F H s. apply fit_order. apply comm_sym. exact H. Qed.
Lemma symSum_R : forall jk, symSum (ROps jk).
Proof. intro jk. apply comm_sym. intros. cbn. lra. Qed.
Theorem real_order : forall jk (s : nat -> nat) Rd h n t k m x x' y y', trainable h n t k m -> rowWise (ROps jk) h (nlay n) -> ttrain (ROps jk) t = Some (x, y) -> reorder (mrows x) s -> reordered (ROps jk) s x x' -> reordered (ROps jk) s y y' -> oneBatch (ROps jk) t (mrows x) ->
  exists h' n' t1 t2 calls, fit (ROps jk) (absFloat (ROps jk)) Rd h n t = Ok (h', n', t1, calls) /\ fit (ROps jk) (absFloat (ROps jk)) Rd h n (withData t (x', y')) = Ok (h', n', t2, calls) /\ sameTrainer (ROps jk) t1 t2.
Proof. intros jk s. apply fit_order. apply symSum_R. Qed.

(** * one Dense layer, three samples *)
Section Case.
Variable F : FOps.
Definition ordX (s : nat -> nat) : mat F := mgen 3 1 (fun i _ => fofN F (s i)).
Definition ordY (s : nat -> nat) (y : nat -> F) : mat F := mgen 3 1 (fun i _ => y (s i)).
Definition ordHeap : heap F := [Some (setWB (layBase F (KDense 1 1) "GlorotUniform" "Zeros") (mgen 1 1 (fun _ _ => fofN F 0)) (mgen 1 1 (fun _ _ => fofN F 0)))].
Definition ordNet : net := mkNet [0] false false.
Definition ordTr (keep : bool) (batch epochs : nat) (lr : F) (s : nat -> nat) (y : nat -> F) : trainer F :=
  setSettings F (withData (trNew F) (ordX s, ordY s y)) (mkSet F batch 128 keep (Z.of_nat epochs) (-1) (-1) false "SGD" lr (fofN F 0) (fofN F 0) LMeanSquaredError None).
Definition swap12 (i : nat) : nat := match i with 1 => 2 | 2 => 1 | _ => i end.
Lemma swap_reorder : reorder 3 swap12.
Proof. split; [intros [|[|[|]]] H; cbn; lia|]. intros [|[|[|]]] [|[|[|]]]; cbn; lia. Qed.
Lemma ord_reordered : forall y, reordered F swap12 (ordX (fun i => i)) (ordX swap12) /\ reordered F swap12 (ordY (fun i => i) y) (ordY swap12 y).
Proof.
  intro y. split; (split; [apply mwf_gen|]; split; [apply mwf_gen|]; split; [reflexivity|]; split; [reflexivity|]; intros i j Hi Hj; cbn [ordX ordY mgen mrows mcols] in Hi, Hj; destruct swap_reorder as [B _]; unfold ordX, ordY; rewrite !mget2_gen by auto; reflexivity).
Qed.
Lemma ord_trainable : forall kp b e lr y, trainable ordHeap ordNet (ordTr kp b e lr (fun i => i) y) 1 1.
Proof.
  intros kp b e lr y. unfold trainable. split; [constructor; [intros []|constructor]|]. split. { eexists. exists 1. split; [reflexivity|]. split; [repeat split; auto | reflexivity]. }
  split; [intros i a l E; destruct i; discriminate E|]. split; [discriminate|]. split; [reflexivity|]. split; [left; reflexivity|]. split; [cbn; lia|]. split; [constructor|]. split; [constructor|].
  split; [|intros d E; discriminate E]. eexists. split; [reflexivity|]. split; [apply mwf_gen|]. split; [apply mwf_gen|]. repeat split.
Qed.
Lemma ord_rows : rowWise F ordHeap (nlay ordNet).
Proof. intros a l [<-|[]] E. injection E as <-. exact I. Qed.
Lemma ord_batch : forall kp e lr y, oneBatch F (ordTr kp 0 e lr (fun i => i) y) 3.
Proof. intros. split; [left; reflexivity|]. right. right. cbn. lia. Qed.
End Case.

(* the theorem applies: two epochs over the reals, samples 1 and 2 exchanged *)
Theorem real_case : forall jk Rd y, exists h' n' t1 t2 calls, fit (ROps jk) (absFloat (ROps jk)) Rd (ordHeap (ROps jk)) ordNet (ordTr (ROps jk) true 0 2 (1 / 10)%R (fun i => i) y) = Ok (h', n', t1, calls) /\
  fit (ROps jk) (absFloat (ROps jk)) Rd (ordHeap (ROps jk)) ordNet (ordTr (ROps jk) true 0 2 (1 / 10)%R swap12 y) = Ok (h', n', t2, calls) /\ sameTrainer (ROps jk) t1 t2.
Proof.
  intros jk Rd y. destruct (ord_reordered (ROps jk) y) as [A B].
  exact (real_order jk swap12 Rd _ _ _ 1 1 _ _ _ _ (ord_trainable (ROps jk) true 0 2 (1 / 10)%R y) (ord_rows (ROps jk)) eq_refl swap_reorder A B (ord_batch (ROps jk) true 2 (1 / 10)%R y)).
Qed.

(* the same runs computed with rationals; with batches of one sample the order matters *)
Definition ordWB (batch : nat) (s : nat -> nat) : option (list (option (list Q * list Q))) :=
  match fit QOps Ok noFR (ordHeap QOps) ordNet (ordTr QOps true batch 2 (1 # 10) s (fun i => inject_Z (Z.of_nat (i * i + 1)))) with Ok (h', n', _, _) => Some (map (wbAt h') (nlay n')) | Err _ => None end.
Lemma run_case_q : ordWB 0 (fun i => i) = Some [Some ([53 # 75], [7 # 15])%Q] /\ ordWB 0 swap12 = Some [Some ([53 # 75], [7 # 15])%Q].
Proof. vm_compute. auto. Qed.
Lemma batches_matter : ordWB 1 (fun i => i) = Some [Some ([294563 # 200000], [161733 # 200000])%Q] /\ ordWB 1 swap12 = Some [Some ([23432 # 15625], [30237 # 31250])%Q].
Proof. vm_compute. auto. Qed.

(* single precision: the targets 2^27, 1, -2^27 in two orders give two different biases after one epoch *)
Section Single.
Variables (lm : libm -> b32 -> b32) (pw : b32 -> b32 -> b32) (jk : b32).
Notation F := (B32Ops lm pw jk).
Definition bigY (i : nat) : F := match i with 0 => b32_of_Z (2 ^ 27) | 1 => b32_of_Z 1 | _ => b32_of_Z (- 2 ^ 27) end.
Definition isZero (x : b32) : bool := match x with B754_zero _ => true | _ => false end.
Definition biasZero (r : res (heap F * net * trainer F * list (hist F))) : option bool :=
  match r with Ok (h, n, _, _) => match nlay n with [a] => match hget F h a with Ok l => match mdata (lb l) with [b] => Some (isZero b) | _ => None end | _ => None end | _ => None end | _ => None end.
Theorem single_order : forall Rd : fitRnd F, exists s h n t x x' y y' k m, trainable h n t k m /\ rowWise F h (nlay n) /\ ttrain F t = Some (x, y) /\ reorder (mrows x) s /\ reordered F s x x' /\ reordered F s y y' /\ oneBatch F t (mrows x) /\
  biasZero (fit F (absFloat F) Rd h n t) = Some true /\ biasZero (fit F (absFloat F) Rd h n (withData t (x', y'))) = Some false.
Proof.
  intro Rd. exists swap12, (ordHeap F), ordNet, (ordTr F false 0 1 (b32_of_Z 1 : F) (fun i => i) bigY), (ordX F (fun i => i)), (ordX F swap12), (ordY F (fun i => i) bigY), (ordY F swap12 bigY), 1, 1.
  destruct (ord_reordered F bigY) as [A B]. split; [apply ord_trainable|]. split; [apply ord_rows|]. split; [reflexivity|]. split; [exact swap_reorder|]. split; [exact A|]. split; [exact B|]. split; [apply ord_batch|]. vm_compute. auto.
Qed.
End Single.
