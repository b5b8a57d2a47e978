(* TrainProofs14.v - concrete training runs over the rationals *)
From Coq Require Import String List Arith Bool Lia ZArith QArith.
From Verif Require Import Base Scalar Mat SpecMat Loss Optim Regul Act LayMat LayImg LayRnn Layer Net NetTrain SpecNet SpecTrain NetProofs4 TrainProofs12.
Import ListNotations.
Local Open Scope nat_scope.

(* no random numbers, identity shuffles *)
Definition noFR : fitRnd QOps :=
  mkFR QOps (fun _ _ => noRnd) (fun _ => noRnd) (fun _ _ => 0) (fun _ _ _ => noRnd) (fun _ _ _ => noRnd) (fun _ _ => noRnd) (fun _ _ => noRnd) (fun _ => noRnd).
Record conf := mkConf { kKeep : bool; kEpochs : Z; kReboost : Z; kPatience : Z; kOpt : string; kLr : Q }.
Definition trOf (c : conf) (batch : nat) (tr va : option (mat QOps * mat QOps)) : trainer QOps :=
  let t := trNew QOps in
  mkTr QOps (mkSet QOps batch 128 (kKeep c) (kEpochs c) (kReboost c) (kPatience c) false (kOpt c) (kLr c) (-1)%Q (-1)%Q LMeanSquaredError None)
    (tbal QOps t) 0 0 [] [] [] 0 [] [] (th QOps t) 0%Q 0 tr va true.
Definition runFit (c : conf) (batch : nat) (h : heap QOps) (n : net) (tr : mat QOps * mat QOps) (va : option (mat QOps * mat QOps)) :=
  fit QOps Ok noFR h n (trOf c batch (Some tr) va).
Definition wbAt (h : heap QOps) (a : nat) : option (list Q * list Q) :=
  match hget QOps h a with Ok l => Some (map Qred (mdata (lw l)), map Qred (mdata (lb l))) | Err _ => None end.

Definition reg1 : net := mkNet [0] false false.     (* one layer, regression *)
Definition cls1 : net := mkNet [0] true false.      (* one layer, classification *)
(* x = 1, 2; y = 2, 4 *)
Definition data2 : mat QOps * mat QOps := (mlist 2 1 [1; 2]%Q, mlist 2 1 [2; 4]%Q).
Definition data1 : mat QOps * mat QOps := (mlist 1 1 [1]%Q, mlist 1 1 [2]%Q).


(** * an ordinary run: two epochs of SGD, keep-best, validation data *)
Lemma run_case : match runFit (mkConf true 2 (-1) (-1) "SGD" (1#10)) 1 oneHeap reg1 data2 (Some data2) with
  | Ok (h, n, t, c) => map (wbAt h) (nlay n) = [Some ([2027 # 1250], [417 # 1250])%Q] /\
      map Qred (hTL QOps (th QOps t)) = [52 # 25; 12149 # 31250]%Q /\ map Qred (hVL QOps (th QOps t)) = [274 # 625; 282977 # 3125000]%Q /\ List.length c = 2
  | Err _ => False end.
Proof. vm_compute. auto. Qed.
(* zero epochs, keep-best *)
Lemma zero_case : match runFit (mkConf true 0 (-1) (-1) "SGD" (1#10)) 1 oneHeap reg1 data2 (Some data2) with
  | Ok (h, n, t, c) => map (wbAt h) (nlay n) = [Some ([1], [0])%Q] /\ c = []
  | Err _ => False end.
Proof. vm_compute. auto. Qed.
(* patience 0, keep-best, three epochs without improvement on a net without parameters: the learning rate goes 1/10, 1/20, 1/40, 1/80 *)
Definition reluHeap : heap QOps := [Some (layWith (KAct (Some ARelu)) (mempty QOps) (mempty QOps))].
Lemma patience_case : match runFit (mkConf true 3 (-1) 0 "SGD" (1#10)) 1 reluHeap reg1 data2 (Some data2) with
  | Ok (h, n, t, c) => Qred (trGetLr QOps t) = (1#80)%Q /\ List.length (nlay n) = 1 /\ List.length c = 3
  | Err _ => False end.
Proof. vm_compute. auto. Qed.

(** * C19: a regression run with validation data records validation accuracies *)
Lemma history_refuted : exists R h n t, nclass n = false /\ tval QOps t <> None /\
  match fit QOps Ok R h n t with Ok (h', n', t', c) => List.length (hVA QOps (th QOps t')) = 2 | Err _ => False end.
Proof.
  exists noFR, oneHeap, reg1, (trOf (mkConf true 2 (-1) (-1) "SGD" (1#10)) 1 (Some data2) (Some data2)).
  split; [reflexivity|]. split; [discriminate|]. vm_compute. reflexivity.
Qed.

(** * C20: keep-best, regression, no validation data: the network returned has a larger loss than the initial one *)
Definition lossFrom (h : heap QOps) (n : net) (t : trainer QOps) (x y : mat QOps) : res Q :=
  ' (_, l, _) <- lossAccuracy QOps Ok (fun _ _ => noRnd) h n t x y ;; Ok l.
Lemma keep_best_refuted : exists R h n t x y, nclass n = false /\ cKeep QOps (tc QOps t) = true /\ cPatience QOps (tc QOps t) = (-1)%Z /\
  ttrain QOps t = Some (x, y) /\ tval QOps t = None /\
  match fit QOps Ok R h n t with
  | Ok (h', n', t', c) => match lossFrom h n t x y, lossFrom h' n' t' x y with Ok l, Ok l' => (100 * l < l')%Q | _, _ => False end
  | Err _ => False end.
Proof.
  exists noFR, oneHeap, reg1, (trOf (mkConf true 1 (-1) (-1) "SGD" 10) 2 (Some data2) None), (fst data2), (snd data2).
  do 5 (split; [reflexivity|]). vm_compute. reflexivity.
Qed.

(** * C21: a layer sized by its first pass, and a recurrent one, after zero epochs with keep-best *)
Lemma zero_epochs_lazy_refuted : exists R h n t, cEpochs QOps (tc QOps t) = 0%Z /\ map (wbAt h) (nlay n) = [Some ([], [])] /\
  match fit QOps Ok R h n t with Ok (h', n', t', c) => map (wbAt h') (nlay n') = [Some ([1%Q], [])] | Err _ => False end.
Proof.
  exists noFR, [Some (layWith KGain (mempty QOps) (mempty QOps))], reg1, (trOf (mkConf true 0 (-1) (-1) "SGD" (1#10)) 1 (Some data2) None).
  split; [reflexivity|]. split; [reflexivity|]. vm_compute. reflexivity.
Qed.
Definition rnnAt (h : heap QOps) (a : nat) : option (list Q * list Q * list Q) :=
  match hget QOps h a with Ok l => Some (mdata (wH (lrnn l)), mdata (wX (lrnn l)), mdata (bH (lrnn l))) | Err _ => None end.
Lemma zero_epochs_rnn_refuted : exists R h n t, cEpochs QOps (tc QOps t) = 0%Z /\
  match fit QOps Ok R h n t with Ok (h', n', t', c) => map (rnnAt h') (nlay n') <> map (rnnAt h) (nlay n) | Err _ => False end.
Proof.
  exists noFR, rnnHeap, reg1, (trOf (mkConf true 0 (-1) (-1) "SGD" (1#10)) 1 (Some (mlist 1 2 [1; 2]%Q, mlist 1 1 [2]%Q)) None).
  split; [reflexivity|]. vm_compute. discriminate.
Qed.

(** * C22: patience 0, two epochs, no improvement: the optimiser reads a freed layer *)
Lemma patience_refuted : exists R h n t, cKeep QOps (tc QOps t) = true /\ cPatience QOps (tc QOps t) = 0%Z /\ cEpochs QOps (tc QOps t) = 2%Z /\
  fit QOps Ok R h n t = Err EFree.
Proof.
  exists noFR, oneHeap, reg1, (trOf (mkConf true 2 (-1) 0 "SGD" 10) 2 (Some data1) None).
  do 3 (split; [reflexivity|]). vm_compute. reflexivity.
Qed.

(** * C23: patience 0, keep-best off: after one epoch without improvement the network has no layers *)
Lemma layers_lost_refuted : exists R h n t, cKeep QOps (tc QOps t) = false /\ cPatience QOps (tc QOps t) = 0%Z /\ nlay n <> [] /\
  match fit QOps Ok R h n t with Ok (h', n', t', c) => nlay n' = [] | Err _ => False end.
Proof.
  exists noFR, oneHeap, cls1, (trOf (mkConf false 1 (-1) 0 "SGD" 10) 2 (Some data1) None).
  split; [reflexivity|]. split; [reflexivity|]. split; [discriminate|]. vm_compute. reflexivity.
Qed.

(** * C25: Dense, Relu, Gain, Dense: the gain, created by the first forward pass, is not trained; the others are *)
Definition data22 : mat QOps * mat QOps := (mlist 2 2 [1; 2; 2; 1]%Q, mlist 2 1 [1; 0]%Q).
Lemma lazy_untrained_refuted : exists R h n t, NoDup (nlay n) /\
  match fit QOps Ok R h n t with
  | Ok (h', n', t', c) => nlay n' = nlay n /\ ~ In 2 (tpw QOps t') /\ wbAt h' 2 = Some ([1; 1]%Q, []) /\ wbAt h' 0 <> wbAt h 0 /\ wbAt h' 3 <> wbAt h 3
  | Err _ => False end.
Proof.
  exists noFR, exHeap, (mkNet [0; 1; 2; 3] false false), (trOf (mkConf false 1 (-1) (-1) "SGD" (1#100)) 1 (Some data22) None).
  split; [repeat constructor; cbn; lia|]. vm_compute. repeat split; try discriminate. intros [X|[X|[]]]; discriminate.
Qed.
(* SimpleRNN: its three parameters are never registered *)
Lemma rnn_untrained_refuted : exists h n t, map (rnnAt h) (nlay n) = [Some ([1], [1], [0])%Q] /\
  match setNet QOps h n t with Ok (h1, t1) => tpw QOps t1 = [] /\ tpb QOps t1 = [] /\ topts QOps t1 = [] | Err _ => False end.
Proof.
  exists rnnHeap, reg1, (trOf (mkConf true 0 (-1) (-1) "SGD" (1#10)) 1 (Some data1) None).
  split; [reflexivity|]. vm_compute. auto.
Qed.

(** * C26: Momentum, N = 1: after the first epoch the optimisers keep their state; they lose it after the second *)
Definition vOf (t : trainer QOps) : list nat := map (fun o => List.length (mdata (s_v QOps o))) (topts QOps t).
Lemma reboost_refuted : exists R h n t1 t2, cReboost QOps (tc QOps t1) = 1%Z /\ cReboost QOps (tc QOps t2) = 1%Z /\
  match fit QOps Ok R h n t1, fit QOps Ok R h n t2 with
  | Ok (_, _, t1', c1), Ok (_, _, t2', c2) => List.length c1 = 1 /\ vOf t1' = [1; 1] /\ List.length c2 = 2 /\ vOf t2' = [0; 0] | _, _ => False end.
Proof.
  exists noFR, oneHeap, cls1, (trOf (mkConf false 1 1 (-1) "Momentum" (1#10)) 2 (Some data1) None), (trOf (mkConf false 2 1 (-1) "Momentum" (1#10)) 2 (Some data1) None).
  split; [reflexivity|]. split; [reflexivity|]. vm_compute. auto.
Qed.
