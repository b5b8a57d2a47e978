(* P_Train.v - property theorems about training: batches, histories, keep-best, patience, reboost, accuracy, class weights (C18 - C29) *)
From Coq Require Import String List Arith Bool ZArith QArith Reals Permutation Lia.
From Flocq Require Import Core IEEE754.BinarySingleNaN.
From Verif Require Import Base Scalar B32Facts SpecReal Mat SpecMat SpecLayer SpecData MatFacts RSum Loss Optim Regul Act LayMat LayImg LayRnn Layer Net NetTrain SpecNet SpecTrain
  NetProofs4 TrainProofs4 TrainProofs5 TrainProofs6 TrainProofs7 TrainProofs8 TrainProofs9 TrainProofs10 TrainProofs11 TrainProofs12 TrainProofs13 TrainProofs14.
Import ListNotations.
Local Open Scope nat_scope.

(** The models of fit, epoch, epochTrain, lossAccuracy ... are in NetTrain.v; SpecTrain.v has the vocabulary.  A run is the sequence of states
    ss 0, ss 1 ... ss e: ss 0 after the initialisation (fitStart), ss (i+1) after epoch i. *)

(** C18.  One epoch: the shuffled sample numbers v are cut into batches, and each batch is trained with its own truths.
    The second theorem: the batch size of a run is the configured one, or the whole set when that is 0 or larger than it. *)
Theorem C18_batches : forall (F : FOps) (cabs : F -> res F), forall R e h n t ns k q s u, 0 < ns -> 0 < tadj F t -> exists v bs,
  Permutation (seq 0 ns) v /\ (ns <= tadj F t -> v = seq 0 ns) /\ cutInto (tadj F t) v bs /\
  epochTrain F cabs R e h n t (mgen ns k s) (mgen ns q u) =
   (' (h1, n1) <- netSetTrain F h n true ;;
    ' (h2, t2) <- forN (length bs) (fun b '(h, t) => trainBatch F cabs (oTrain F R e b) h n1 t (rowsAt F k s (nth b bs [])) (rowsAt F q u (nth b bs []))) (h1, setOnline F t (f0 F) 0) ;;
    ' (h3, n3) <- netSetTrain F h2 n1 false ;; Ok (h3, n3, t2)).
Proof. exact epoch_batches. Qed.
Print Assumptions C18_batches.

Theorem C18_batch_size : forall (F : FOps) (cabs : F -> res F), forall R h n t mS mT ss e, fitStart F cabs R h n t mS mT = Ok (ss 0) ->
  (forall i, i < e -> epoch F cabs R mS mT i (ss i) = Ok (ss (S i))) ->
  forall i, i <= e -> tadj F (st F (ss i)) = runBatch (cBatch F (tc F t)) (mrows mS).
Proof. exact run_batch_size. Qed.
Print Assumptions C18_batch_size.

Example C18_cut : cutInto 2 [4; 0; 3; 1; 2] [[4; 0]; [3; 1]; [2]].
Proof. split; [reflexivity|]. split; [intros x [<-|[<-|[<-|[]]]]; split; try discriminate; cbn; lia|]. intros [|[|i]] H; cbn in H |- *; lia. Qed.
Example C18_sizes : runBatch 2 5 = 2 /\ runBatch 0 5 = 5 /\ runBatch 9 5 = 5. Proof. auto. Qed.

(** C19 *)
Theorem C19_histories_partial : forall (F : FOps) (cabs : F -> res F), forall R h n t h' n' t' calls, fit F cabs R h n t = Ok (h', n', t', calls) -> nlay n <> [] ->
  (cKeep F (tc F t) = true \/ cPatience F (tc F t) = (-1)%Z \/ nclass n = true) ->
  let e := Z.to_nat (cEpochs F (tc F t)) in let v := match tval F t with Some _ => true | None => false end in
  length (hTL F (th F t')) = e /\ length (hTA F (th F t')) = (if nclass n then e else 0) /\
  length (hVL F (th F t')) = (if v then e else 0) /\ length (hVA F (th F t')) = (if v then e else 0) /\
  length calls = (if tcallback F t then e else 0) /\
  forall j, j < length calls -> exists C, nth_error calls j = Some C /\ hTL F C = firstn (S j) (hTL F (th F t')) /\ hTA F C = firstn (S j) (hTA F (th F t')) /\
    hVL F C = firstn (S j) (hVL F (th F t')) /\ hVA F C = firstn (S j) (hVA F (th F t')).
Proof. exact fit_history. Qed.
Print Assumptions C19_histories_partial.

Theorem C19_validation_accuracy_refuted : exists R h n t, nclass n = false /\ tval QOps t <> None /\
  match fit QOps Ok R h n t with Ok (h', n', t', c) => List.length (hVA QOps (th QOps t')) = 2 | Err _ => False end.
Proof. exact history_refuted. Qed.
Print Assumptions C19_validation_accuracy_refuted.

Example C19_case : match runFit (mkConf true 2 (-1) (-1) "SGD" (1#10)) 1 oneHeap reg1 data2 (Some data2) with
  | Ok (h, n, t, c) => map (wbAt h) (nlay n) = [Some ([2027 # 1250], [417 # 1250])%Q] /\
      map Qred (hTL QOps (th QOps t)) = [52 # 25; 12149 # 31250]%Q /\ map Qred (hVL QOps (th QOps t)) = [274 # 625; 282977 # 3125000]%Q /\ List.length c = 2
  | Err _ => False end.
Proof. exact run_case. Qed.

(** C20.  Scores are those the trainer measures.  Without validation data the measured training loss is not that of the network kept. *)
Theorem C20_best_measured_partial : forall (jk : R) (cabs : ROps jk -> res (ROps jk)), forall Rr h n t h' n' t' calls, fit (ROps jk) cabs Rr h n t = Ok (h', n', t', calls) -> nlay n <> [] ->
  cKeep (ROps jk) (tc (ROps jk) t) = true -> cPatience (ROps jk) (tc (ROps jk) t) = (-1)%Z ->
  let e := Z.to_nat (cEpochs (ROps jk) (tc (ROps jk) t)) in let c := nclass n in let v := hasVal (ROps jk) t in
  exists h1 t1 mS mT ss l0 a0 h0 j, setNet (ROps jk) h n t = Ok (h1, t1) /\ ttrain (ROps jk) t = Some (mS, mT) /\ fitStart (ROps jk) cabs Rr h1 n t1 mS mT = Ok (ss 0) /\
    (forall i, i < e -> epoch (ROps jk) cabs Rr mS mT i (ss i) = Ok (ss (S i))) /\ t' = st (ROps jk) (ss e) /\
    (forall i, i <= e -> nlay (sn (ROps jk) (ss i)) = nlay n) /\
    (let '(x, y) := match tval (ROps jk) t with None => (mS, mT) | Some p => p end in lossAccuracy (ROps jk) cabs (oFirst (ROps jk) Rr) h1 n (st (ROps jk) (ss 0)) x y) = Ok (h0, l0, a0) /\
    let score i := signed c (match i with 0 => if c then a0 else l0 | S k => nth k (selHist (ROps jk) c v (th (ROps jk) t')) 0%R end) in
    j <= e /\ (forall i, i <= e -> (score i <= score j)%R) /\ (forall i, i < j -> (score i < score j)%R) /\
    copyOf (ROps jk) (sh (ROps jk) (ss j)) (nlay n) h' (nlay n').
Proof. exact keep_best. Qed.
Print Assumptions C20_best_measured_partial.

Theorem C20_regression_refuted : exists R h n t x y, nclass n = false /\ cKeep QOps (tc QOps t) = true /\ cPatience QOps (tc QOps t) = (-1)%Z /\
  ttrain QOps t = Some (x, y) /\ tval QOps t = None /\
  match fit QOps Ok R h n t with
  | Ok (h', n', t', c) => match lossFrom h n t x y, lossFrom h' n' t' x y with Ok l, Ok l' => (100 * l < l')%Q | _, _ => False end
  | Err _ => False end.
Proof. exact keep_best_refuted. Qed.
Print Assumptions C20_regression_refuted.


(** C21.  sized: a forward pass neither creates nor redraws the parameters of the layer. *)
Theorem C21_unchanged_partial : forall (F : FOps) (cabs : F -> res F), forall R h n t h' n' t' calls, fit F cabs R h n t = Ok (h', n', t', calls) -> (cEpochs F (tc F t) <= 0)%Z ->
  (cKeep F (tc F t) = false \/ (forall a l, In a (nlay n) -> hget F h a = Ok l -> sized F l)) -> copyOf F h (nlay n) h' (nlay n').
Proof. exact zero_epochs. Qed.
Print Assumptions C21_unchanged_partial.

Theorem C21_lazy_refuted : exists R h n t, cEpochs QOps (tc QOps t) = 0%Z /\ map (wbAt h) (nlay n) = [Some ([], [])] /\
  match fit QOps Ok R h n t with Ok (h', n', t', c) => map (wbAt h') (nlay n') = [Some ([1%Q], [])] | Err _ => False end.
Proof. exact zero_epochs_lazy_refuted. Qed.
Print Assumptions C21_lazy_refuted.

Theorem C21_recurrent_refuted : exists R h n t, cEpochs QOps (tc QOps t) = 0%Z /\
  match fit QOps Ok R h n t with Ok (h', n', t', c) => map (rnnAt h') (nlay n') <> map (rnnAt h) (nlay n) | Err _ => False end.
Proof. exact zero_epochs_rnn_refuted. Qed.
Print Assumptions C21_recurrent_refuted.

Example C21_case : match runFit (mkConf true 0 (-1) (-1) "SGD" (1#10)) 1 oneHeap reg1 data2 (Some data2) with
  | Ok (h, n, t, c) => map (wbAt h) (nlay n) = [Some ([1], [0])%Q] /\ c = []
  | Err _ => False end.
Proof. exact zero_case. Qed.

(** C22.  Without patience everything the optimisers touch is live.  A roll-back frees all of it, and the next epoch does not end well. *)
Theorem C22_live_partial : forall (F : FOps) (cabs : F -> res F), forall R h n t h' n' t' calls, fit F cabs R h n t = Ok (h', n', t', calls) -> nlay n <> [] -> cPatience F (tc F t) = (-1)%Z ->
  exists h1 t1 mS mT ss, setNet F h n t = Ok (h1, t1) /\ ttrain F t = Some (mS, mT) /\ fitStart F cabs R h1 n t1 mS mT = Ok (ss 0) /\
  (forall i, i < Z.to_nat (cEpochs F (tc F t)) -> epoch F cabs R mS mT i (ss i) = Ok (ss (S i))) /\
  forall i x, i <= Z.to_nat (cEpochs F (tc F t)) -> In x (tpw F (st F (ss i)) ++ tpb F (st F (ss i))) -> In x (nlay (sn F (ss i))) /\ exists l, hget F (sh F (ss i)) x = Ok l.
Proof. exact registered_live. Qed.
Print Assumptions C22_live_partial.

Theorem C22_rollback_frees : forall (F : FOps) (cabs : F -> res F), forall R mS mT e s s', epoch F cabs R mS mT e s = Ok s' ->
  (forall x, In x (tpw F (st F s) ++ tpb F (st F s)) -> In x (nlay (sn F s))) ->
  (forall x, In x (nlay (sn F s) ++ nlay (sbest F s)) -> x < length (sh F s)) ->
  nlay (sn F s') <> nlay (sn F s) ->
  forall x, In x (tpw F (st F s') ++ tpb F (st F s')) -> hget F (sh F s') x = Err EFree.
Proof. exact rollback_dangles. Qed.
Print Assumptions C22_rollback_frees.

Theorem C22_freed_is_used : forall (F : FOps) (cabs : F -> res F), forall R mS mT e s x, 0 < mrows mS -> In x (tpw F (st F s) ++ tpb F (st F s)) -> nth_error (sh F s) x = Some None ->
  forall s', epoch F cabs R mS mT e s <> Ok s'.
Proof. exact dangling_used. Qed.
Print Assumptions C22_freed_is_used.

Theorem C22_patience_refuted : exists R h n t, cKeep QOps (tc QOps t) = true /\ cPatience QOps (tc QOps t) = 0%Z /\ cEpochs QOps (tc QOps t) = 2%Z /\
  fit QOps Ok R h n t = Err EFree.
Proof. exact patience_refuted. Qed.
Print Assumptions C22_patience_refuted.


(** C23 *)
Theorem C23_layers_partial : forall (F : FOps) (cabs : F -> res F), forall R h n t h' n' t' calls, fit F cabs R h n t = Ok (h', n', t', calls) ->
  (cKeep F (tc F t) = true \/ cPatience F (tc F t) = (-1)%Z) -> sameKindsAt F h (nlay n) h' (nlay n').
Proof. exact fit_keeps_layers. Qed.
Print Assumptions C23_layers_partial.

Theorem C23_no_layers_left_refuted : exists R h n t, cKeep QOps (tc QOps t) = false /\ cPatience QOps (tc QOps t) = 0%Z /\ nlay n <> [] /\
  match fit QOps Ok R h n t with Ok (h', n', t', c) => nlay n' = [] | Err _ => False end.
Proof. exact layers_lost_refuted. Qed.
Print Assumptions C23_no_layers_left_refuted.


(** C25.  tpw, tpb: the layers whose weight, bias is registered. *)
Theorem C25_registered_partial : forall (F : FOps), forall h n t h1 t1, setNet F h n t = Ok (h1, t1) -> NoDup (nlay n) ->
  (forall a, In a (tpw F t1 ++ tpb F t1) -> In a (nlay n)) /\ length (topts F t1) = length (tpw F t1) + length (tpb F t1) /\
  forall a, In a (nlay n) -> exists l, hget F h a = Ok l /\
    occ a (tpw F t1) = (if msize (lw l) =? 0 then 0 else 1) /\ occ a (tpb F t1) = (if msize (lb l) =? 0 then 0 else 1).
Proof. exact registered. Qed.
Print Assumptions C25_registered_partial.

Theorem C25_paired : forall (F : FOps) (cabs : F -> res F), forall h t h' t', optimizeAll F cabs h t = Ok (h', t') -> NoDup (tpw F t) -> NoDup (tpb F t) ->
  (forall i a, nth_error (tpw F t) i = Some a -> exists l l' o o', hget F h a = Ok l /\ hget F h' a = Ok l' /\
     nth_error (topts F t) i = Some o /\ nth_error (topts F t') i = Some o' /\ stepOf F cabs (cReg F (tc F t)) o (lw l) (lgw l) o' (lw l')) /\
  (forall i a, nth_error (tpb F t) i = Some a -> exists l l' o o', hget F h a = Ok l /\ hget F h' a = Ok l' /\
     nth_error (topts F t) (i + length (tpw F t)) = Some o /\ nth_error (topts F t') (i + length (tpw F t)) = Some o' /\ stepOf F cabs (cReg F (tc F t)) o (lb l) (lgb l) o' (lb l')) /\
  (forall a l l', hget F h a = Ok l -> hget F h' a = Ok l' -> (~ In a (tpw F t) -> lw l' = lw l) /\ (~ In a (tpb F t) -> lb l' = lb l)) /\
  (forall a, ~ In a (tpw F t) -> ~ In a (tpb F t) -> nth_error h' a = nth_error h a).
Proof. exact optimizers_paired. Qed.
Print Assumptions C25_paired.

Theorem C25_lazy_refuted : exists R h n t, NoDup (nlay n) /\
  match fit QOps Ok R h n t with
  | Ok (h', n', t', c) => nlay n' = nlay n /\ ~ In 2 (tpw QOps t') /\ wbAt h' 2 = Some ([1; 1]%Q, []) /\ wbAt h' 0 <> wbAt h 0 /\ wbAt h' 3 <> wbAt h 3
  | Err _ => False end.
Proof. exact lazy_untrained_refuted. Qed.
Print Assumptions C25_lazy_refuted.

Theorem C25_rnn_refuted : exists h n t, map (rnnAt h) (nlay n) = [Some ([1], [1], [0])%Q] /\
  match setNet QOps h n t with Ok (h1, t1) => tpw QOps t1 = [] /\ tpb QOps t1 = [] /\ topts QOps t1 = [] | Err _ => False end.
Proof. exact rnn_untrained_refuted. Qed.
Print Assumptions C25_rnn_refuted.

Example C25_case : match setNet QOps exHeap exNet (trNew QOps) with Ok (_, t) => tpw QOps t = [0; 3] /\ tpb QOps t = [0; 3] /\ List.length (topts QOps t) = 4 | Err _ => False end.
Proof. vm_compute. auto. Qed.

(** C26.  The period is N + 1. *)
Theorem C26_period_partial : forall (F : FOps) (cabs : F -> res F), forall R mS mT ss e N, (forall i, i < e -> epoch F cabs R mS mT i (ss i) = Ok (ss (S i))) ->
  sreb F (ss 0) = 0%Z -> cReboost F (tc F (st F (ss 0))) = Z.of_nat N -> forall i, i < e -> exists s2,
  (* s2: the state after training, evaluating and choosing the best network in epoch i *)
  (exists h1 n1 t1 h2 t2 l a, epochTrain F cabs R i (sh F (ss i)) (sn F (ss i)) (st F (ss i)) mS mT = Ok (h1, n1, t1) /\ epochStats F cabs R i h1 n1 t1 (mrows mS) = Ok (h2, t2, l, a) /\
     epochBest F R i (mkFS F h2 n1 t2 (sbest F (ss i)) (sacc F (ss i)) (sloss F (ss i)) (sreb F (ss i)) (if tcallback F t2 then scalls F (ss i) ++ [th F t2] else scalls F (ss i))) l a = Ok s2) /\
  topts F (st F (ss (S i))) = (if (S i) mod (S N) =? 0 then map (init F) (topts F (st F s2)) else topts F (st F s2)).
Proof. exact reboost_period. Qed.
Print Assumptions C26_period_partial.

Theorem C26_period_refuted : exists R h n t1 t2, cReboost QOps (tc QOps t1) = 1%Z /\ cReboost QOps (tc QOps t2) = 1%Z /\
  match fit QOps Ok R h n t1, fit QOps Ok R h n t2 with
  | Ok (_, _, t1', c1), Ok (_, _, t2', c2) => List.length c1 = 1 /\ vOf t1' = [1; 1] /\ List.length c2 = 2 /\ vOf t2' = [0; 0] | _, _ => False end.
Proof. exact reboost_refuted. Qed.
Print Assumptions C26_period_refuted.


(** C27 *)
Theorem C27_accuracy : forall (F : FOps) (cabs : F -> res F), forall rs h n t k m N q x y h' l a, detNet F h n k m -> 0 < N ->
  lossAccuracy F cabs rs h n t (mgen N k x) (mgen N q y) = Ok (h', l, a) ->
  exists Y : nat -> nat -> F,
    (forall i rs' out, i < N -> mwf out -> exists h1, predict F rs' h n (mgen 1 k (fun _ => x i)) out = Ok (h1, mgen 1 m (fun _ => Y i))) /\
    a = fdiv F (fmul F (fofN F 100) (fofN F (count N (fun i => correct F m q (Y i) (y i))))) (fofN F N).
Proof. exact accuracy_counts. Qed.
Print Assumptions C27_accuracy.

Theorem C27_any_batch_size : forall (F : FOps) (cabs : F -> res F), forall rs rs' h n t t' k m N q x y h1 h2 l1 l2 a1 a2, detNet F h n k m -> 0 < N ->
  lossAccuracy F cabs rs h n t (mgen N k x) (mgen N q y) = Ok (h1, l1, a1) -> lossAccuracy F cabs rs' h n t' (mgen N k x) (mgen N q y) = Ok (h2, l2, a2) -> a1 = a2.
Proof. exact accuracy_batch_free. Qed.
Print Assumptions C27_any_batch_size.

Theorem C27_range : forall jk cabs rs h n t k m N q x y h' l a, detNet (ROps jk) h n k m -> 0 < N ->
  lossAccuracy (ROps jk) cabs rs h n t (mgen N k x) (mgen N q y) = Ok (h', l, a) -> (0 <= a <= 100)%R.
Proof. exact accuracy_range. Qed.
Print Assumptions C27_range.

Theorem C27_loss_refuted : exists h n x y h1 h2 l1 l2 a1 a2, detNet QOps h n 1 1 /\
  lossAccuracy QOps Ok (fun _ _ => noRnd) h n (trVB 1) x y = Ok (h1, l1, a1) /\
  lossAccuracy QOps Ok (fun _ _ => noRnd) h n (trVB 2) x y = Ok (h2, l2, a2) /\ (l1 == 2 * l2)%Q /\ ~ (l1 == l2)%Q.
Proof. exact loss_batch_refuted. Qed.
Print Assumptions C27_loss_refuted.


(** C28 *)
Theorem C28_labels_partial : (forall jk N (r : nat -> nat), (0 < N)%nat -> exists K (w : nat -> R),
  classWeight (ROps jk) (mgen N 1 (fun i _ => INR (r i))) = Ok (mgen K 1 (fun a _ => w a)) /\
  (forall i, (i < N)%nat -> (r i < K)%nat) /\ (exists i, (i < N)%nat /\ K = S (r i)) /\
  (forall a, (a < K)%nat -> (0 < count N (fun i => (r i =? a)%nat))%nat -> 0 < w a /\ w a * INR (count N (fun i => (r i =? a)%nat)) = INR N / INR K) /\
  ((forall a, (a < K)%nat -> (0 < count N (fun i => (r i =? a)%nat))%nat) -> rsum N (fun i => w (r i)) = INR N))%R.
Proof. exact class_weights_labels. Qed.
Print Assumptions C28_labels_partial.

Theorem C28_categories_partial : (forall jk N K (y : nat -> nat -> R) (r : nat -> nat), (0 < N)%nat -> (1 < K)%nat ->
  (forall i, (i < N)%nat -> argmax (ROps jk) (mgen 1 K (fun _ => y i)) = Ok (r i)) -> exists w : nat -> R,
  classWeight (ROps jk) (mgen N K y) = Ok (mgen K 1 (fun a _ => w a)) /\
  (forall a, (a < K)%nat -> (0 < count N (fun i => (r i =? a)%nat))%nat -> 0 < w a /\ w a * INR (count N (fun i => (r i =? a)%nat)) = INR N / INR K) /\
  ((forall a, (a < K)%nat -> (0 < count N (fun i => (r i =? a)%nat))%nat) -> rsum N (fun i => w (r i)) = INR N))%R.
Proof. exact class_weights_categories. Qed.
Print Assumptions C28_categories_partial.

Theorem C28_absent_class_refuted : forall lm pw jk, exists (y : nat -> nat -> b32) w,
  classWeight (B32Ops lm pw jk) (mgen 2 3 y) = Ok w /\ match mget1 w 1 with Ok v => is_finite v = false /\ is_nan v = false | Err _ => False end.
Proof. exact absent_class_refuted. Qed.
Print Assumptions C28_absent_class_refuted.


(** C29 *)
Theorem C29_assign_partial : forall F : FOps, forall a b : trainer F,
  (forall r, cReg F (tc F b) = Some r -> set_parameter F (newReg F (Regul.rkind F r)) (rparam F r) = r) ->
  (forall o os, topts F b = o :: os -> clonesRate (okind F o) = true) ->
  exists a', trAssign F a b = Ok a' /\ gettersOf F a' = withValBatch F (gettersOf F b) (cValBatch F (tc F a)).
Proof. exact trainer_assign. Qed.
Print Assumptions C29_assign_partial.

Theorem C29_validation_batch_refuted : exists a b a' : trainer QOps, trAssign QOps a b = Ok a' /\
  gValBatch QOps (gettersOf QOps b) = 16 /\ gValBatch QOps (gettersOf QOps a') = 128.
Proof. exact assign_valbatch_refuted. Qed.
Print Assumptions C29_validation_batch_refuted.

Theorem C29_rate_refuted : exists h n a b a' h1, setNet QOps h n trRprop = Ok (h1, b) /\ trAssign QOps a b = Ok a' /\
  gLr QOps (gettersOf QOps b) <> gLr QOps (gettersOf QOps a').
Proof. exact assign_rate_refuted. Qed.
Print Assumptions C29_rate_refuted.

