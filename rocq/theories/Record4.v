(* Record4.v - the recorded statistics: concrete runs, and what the recorded training statistics are not *)
From Coq Require Import String List Arith Bool Lia ZArith QArith.
From Verif Require Import Base Scalar Mat SpecMat MatFacts MatProofs Act Loss Optim LayMat LayImg Layer Net NetTrain SpecNet NetRow NetProofs1 SpecTrain SpecFit SpecResume SpecFixed Fixed4 SpecRecord Record3 NetProofs4 TrainProofs14.
Import ListNotations.
Local Open Scope nat_scope.

Section Case.
Variable F : FOps.
(* the network of Fixed4.v (2x + 1 followed by an activation) as a regression or as a classification network, N samples and V validation samples *)
Definition rcNet (c : bool) : net := mkNet [0; 1] c false.
Definition rcTr (opt : string) (b vb : nat) (e : nat) (lr : F) (lo : lossKind) (N V : nat) (Y Z : nat -> nat -> F) : trainer F :=
  let t := fxTr F opt false b e lr lo N Y in
  let t := withValBatch vb t in
  mkTr F (tc F t) (tbal F t) (tadj F t) (tcur F t) (topts F t) (tinOut F t) (tgrad F t) (tnl F t) (tpw F t) (tpb F t) (th F t) (tonl F t) (tgood F t) (ttrain F t)
    (if V =? 0 then None else Some (fxX F V, mgen V 1 Z)) (tcallback F t).
Lemma rc_trainable : forall a c opt b vb e lr lo N V Y Z, smoothLoss lo -> create_optimizer opt <> None -> 0 < vb -> trainable (fxHeap F a) (rcNet c) (rcTr opt b vb e lr lo N V Y Z) 1 1.
Proof.
  intros a c opt b vb e lr lo N V Y Z Hl Ho Hv. destruct (fx_trainable F a opt false b e lr lo N Y Hl Ho) as (A1 & A2 & A3 & A4 & A5 & A6 & A7 & A8 & A9 & A10 & A11).
  split; [exact A1|]. split; [exact A2|]. split; [exact A3|]. split; [exact A4|]. split; [exact A5|]. split; [left; reflexivity|]. split; [exact Hv|]. split; [exact A8|]. split; [exact A9|]. split; [exact A10|].
  intros d E. cbn [rcTr tval] in E. destruct (V =? 0); [discriminate E|]. injection E as <-. split; [apply mwf_gen|]. split; [apply mwf_gen|]. split; [reflexivity|]. split; [reflexivity|]. destruct lo; cbn in Hl; try contradiction; reflexivity.
Qed.
Lemma rc_even : forall a c, allEven (fxHeap F a) (rcNet c).
Proof. intros a c b l [<-|[<-|[]]] E; injection E as <-; exact I. Qed.
Lemma rc_sized : forall a c, allSized F (fxHeap F a) (rcNet c).
Proof. intros a c. exact (fx_sized F a). Qed.
(* the theorem applies: any activation, optimiser, learning rate, smooth loss, number of samples, epochs, regression or classification, in any arithmetic *)
Lemma record_case : forall a c opt vb e lr lo N V Y Z R, smoothLoss lo -> create_optimizer opt <> None -> 0 < vb -> 0 < N ->
  exists h1 n1 t1 c1 h2 n2 t2 c2, let t := rcTr opt 0 vb 0 lr lo N V Y Z in
    fit F (absFloat F) R (fxHeap F a) (rcNet c) (withEpochs F e t) = Ok (h1, n1, t1, c1) /\ fit F (absFloat F) R (fxHeap F a) (rcNet c) (withEpochs F (S e) t) = Ok (h2, n2, t2, c2) /\
    forall rs, exists hq l acc, lossAccuracy F (absFloat F) rs h1 n1 (withValBatch N t1) (fxX F N) (mgen N 1 Y) = Ok (hq, l, acc) /\ hTL F (th F t2) = hTL F (th F t1) ++ [fdiv F l (fofN F N)] /\ hTA F (th F t2) = hTA F (th F t1) ++ (if c then [acc] else []).
Proof.
  intros a c opt vb e lr lo N V Y Z R Hl Ho Hv HN.
  destruct (one_more_epoch F (fxHeap F a) (rcNet c) (rcTr opt 0 vb 0 lr lo N V Y Z) 1 1 (fxX F N) (mgen N 1 Y) (rc_trainable a c opt 0 vb 0 lr lo N V Y Z Hl Ho Hv)) with (R := R) (e := e) as (h1 & n1 & t1 & c1 & h2 & n2 & t2 & c2 & E1 & E2 & A & _);
    [discriminate | apply rc_even | apply rc_sized | reflexivity | reflexivity |].
  exists h1, n1, t1, c1, h2, n2, t2, c2. split; [exact E1|]. split; [exact E2|]. intro rs. apply A; [exact HN | left; reflexivity | apply le_n].
Qed.
End Case.

(** * computed runs *)
(* the recorded training losses and accuracies, the recorded validation losses and accuracies, then the loss and accuracy of the network that fit leaves, on the training data and on the validation data *)
Definition qpair (r : res (heap QOps * Q * Q)) : option (Q * Q) := match r with Ok (_, l, a) => Some (Qred l, Qred a) | Err _ => None end.
Definition records (h : heap QOps) (n : net) (t : trainer QOps) : option ((list Q * list Q) * (list Q * list Q) * option (Q * Q) * option (Q * Q)) :=
  match fit QOps (absFloat QOps) noFR h n t with
  | Ok (h', n', t', _) =>
      let H := th QOps t' in
      let eval d := match d with Some (x, y) => qpair (lossAccuracy QOps (absFloat QOps) (fun _ _ => noRnd) h' n' (withValBatch 128 t') x y) | None => None end in
      Some ((map Qred (hTL QOps H), map Qred (hTA QOps H)), (map Qred (hVL QOps H), map Qred (hVA QOps H)), eval (ttrain QOps t'), eval (tval QOps t'))
  | Err _ => None
  end.
Definition upTo (c : bool) (opt : string) (b vb e : nat) (lr : Q) (N V : nat) := records (fxHeap QOps ARelu) (rcNet c) (rcTr QOps opt b vb e lr LMeanSquaredError N V (fun i _ => fofN QOps (S i)) (fun i _ => fofN QOps (S i))).
(* after 0, 1 and 2 epochs on two samples: each training entry is half of the loss before its epoch, each validation entry is the loss after it *)
Lemma three_runs : upTo true "SGD" 0 128 0 (1 # 100) 2 2 = Some (([], []), ([], []), Some (13 # 2, 0), Some (13 # 2, 0))%Q /\
  upTo true "SGD" 0 128 1 (1 # 100) 2 2 = Some (([13 # 4], [0]), ([48501 # 8000], [0]), Some (48501 # 8000, 0), Some (48501 # 8000, 0))%Q /\
  upTo true "SGD" 0 128 2 (1 # 100) 2 2 = Some (([13 # 4; 48501 # 16000], [0; 0]), ([48501 # 8000; 18095083857 # 3200000000], [0; 0]), Some (18095083857 # 3200000000, 0), Some (18095083857 # 3200000000, 0))%Q.
Proof. repeat split; vm_compute; reflexivity. Qed.

(** * what fails *)
(* the last training entries are not those of the network that fit leaves: one sample, one epoch, recorded 4 and 0%, the network left has loss 0 and 100% *)
Theorem training_refuted : exists h n t k m tl ta l a v e, trainable h n t k m /\ nlay n <> [] /\ allEven h n /\ allSized QOps h n /\ cKeep QOps (tc QOps t) = false /\ cBatch QOps (tc QOps t) = 0 /\
  records h n t = Some (([tl], [ta]), v, Some (l, a), e) /\ ~ (tl == l)%Q /\ ~ (ta == a)%Q.
Proof.
  exists (fxHeap QOps ARelu), (rcNet true), (rcTr QOps "SGD" 0 128 1 (1 # 2)%Q LMeanSquaredError 1 1 (fun i _ => fofN QOps (S i)) (fun i _ => fofN QOps (S i))), 1, 1. do 6 eexists.
  split; [apply rc_trainable; [exact I|discriminate|lia]|]. split; [discriminate|]. split; [apply rc_even|]. split; [apply rc_sized|]. do 2 (split; [reflexivity|]). split; [vm_compute; reflexivity|]. split; discriminate.
Qed.
(* nor is the training loss a mean over the samples: with a zero learning rate the network stays the same, two samples, recorded 13/4, mean loss 13/2 *)
Theorem mean_refuted : exists h n t k m tl ta l a v e, trainable h n t k m /\ nlay n <> [] /\ allEven h n /\ allSized QOps h n /\ cKeep QOps (tc QOps t) = false /\ cBatch QOps (tc QOps t) = 0 /\ cLr QOps (tc QOps t) = 0%Q /\
  records h n t = Some (([tl], ta), v, Some (l, a), e) /\ ~ (tl == l)%Q.
Proof.
  exists (fxHeap QOps ARelu), (rcNet false), (rcTr QOps "SGD" 0 128 1 0%Q LMeanSquaredError 2 0 (fun i _ => fofN QOps (S i)) (fun i _ => fofN QOps (S i))), 1, 1. do 6 eexists.
  split; [apply rc_trainable; [exact I|discriminate|lia]|]. split; [discriminate|]. split; [apply rc_even|]. split; [apply rc_sized|]. do 3 (split; [reflexivity|]). split; [vm_compute; reflexivity|]. discriminate.
Qed.
(* with batches of one sample the sum of the batch means divided by the number of samples is the mean *)
Lemma batches_of_one : upTo false "SGD" 1 128 1 0 2 0 = Some (([13 # 2], []), ([], []), Some (13 # 2, 0), None)%Q.
Proof. vm_compute. reflexivity. Qed.
