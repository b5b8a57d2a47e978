(* NetTrain.v - model of src/NetTrain.cpp.
   The network is passed explicitly instead of through _pNet.  Training data are optional (null pointers).
   The pointers _pWeights/_pGradWeights (_pBiases/_pGradBiases) always point to members of one layer, so the model keeps
   the address of that layer.  The epoch callback is an observer: the model lists what it could read.
   Batch sizes are naturals (negative ones are outside the model); epochs, patience and reboost are integers. *)
From Coq Require Import List Arith Bool ZArith String.
From Verif Require Import Base Scalar Mat Loss Optim Regul LayMat Layer Net.
Import ListNotations.
Local Open Scope nat_scope.

Section Model.
Variable F : FOps.
Variable cabs : F -> res F.   (* the overload of ::abs, see Loss.v *)
Notation M := (mat F).

(* the hyper-parameters *)
Record settings := mkSet {
  cBatch : nat; cValBatch : nat; cKeep : bool; cEpochs : Z; cReboost : Z; cPatience : Z; cBalancing : bool;
  cOpt : string; cLr : F; cDecay : F; cMom : F; cLoss : lossKind; cReg : option (regul F) }.
(* the results *)
Record hist := mkHist {
  hTL : list F; hTA : list F; hVL : list F; hVA : list F;     (* _trainLoss _trainAccuracy _validationLoss _validationAccuracy *)
  fTL : F; fTA : F; fVL : F; fVA : F }.                       (* _fTrainLoss _fTrainAccuracy _fValidationLoss _fValidationAccuracy *)
Record trainer := mkTr {
  tc : settings; tbal : balance F;
  tadj : nat;                                   (* _iBatchSizeAdjusted *)
  tcur : Z;                                     (* _iCurrentPatience *)
  topts : list (opt F); tinOut : list M; tgrad : list M; tnl : nat;
  tpw : list nat; tpb : list nat;
  th : hist; tonl : F; tgood : nat;             (* _fOnlineLoss, _iOnlineAccuracyGood *)
  ttrain : option (M * M); tval : option (M * M); tcallback : bool }.

(* NetTrain.cpp:26-64 *)
Definition trNew : trainer :=
  mkTr (mkSet 32 128 true 100 (-1) (-1) false "Adam" (minus1 F) (minus1 F) (minus1 F) LMeanSquaredError None)
       (noBalance F) 0 0 [] [] [] 0 [] [] (mkHist [] [] [] [] (f0 F) (f0 F) (f0 F) (f0 F)) (f0 F) 0 None None false.

Definition setSettings t c := mkTr c (tbal t) (tadj t) (tcur t) (topts t) (tinOut t) (tgrad t) (tnl t) (tpw t) (tpb t) (th t) (tonl t) (tgood t) (ttrain t) (tval t) (tcallback t).
Definition setBal t b := mkTr (tc t) b (tadj t) (tcur t) (topts t) (tinOut t) (tgrad t) (tnl t) (tpw t) (tpb t) (th t) (tonl t) (tgood t) (ttrain t) (tval t) (tcallback t).
Definition setAdj t x := mkTr (tc t) (tbal t) x (tcur t) (topts t) (tinOut t) (tgrad t) (tnl t) (tpw t) (tpb t) (th t) (tonl t) (tgood t) (ttrain t) (tval t) (tcallback t).
Definition setCur t x := mkTr (tc t) (tbal t) (tadj t) x (topts t) (tinOut t) (tgrad t) (tnl t) (tpw t) (tpb t) (th t) (tonl t) (tgood t) (ttrain t) (tval t) (tcallback t).
Definition setOpts t x := mkTr (tc t) (tbal t) (tadj t) (tcur t) x (tinOut t) (tgrad t) (tnl t) (tpw t) (tpb t) (th t) (tonl t) (tgood t) (ttrain t) (tval t) (tcallback t).
Definition setInOut t x := mkTr (tc t) (tbal t) (tadj t) (tcur t) (topts t) x (tgrad t) (tnl t) (tpw t) (tpb t) (th t) (tonl t) (tgood t) (ttrain t) (tval t) (tcallback t).
Definition setGrad t x := mkTr (tc t) (tbal t) (tadj t) (tcur t) (topts t) (tinOut t) x (tnl t) (tpw t) (tpb t) (th t) (tonl t) (tgood t) (ttrain t) (tval t) (tcallback t).
Definition setHist t x := mkTr (tc t) (tbal t) (tadj t) (tcur t) (topts t) (tinOut t) (tgrad t) (tnl t) (tpw t) (tpb t) x (tonl t) (tgood t) (ttrain t) (tval t) (tcallback t).
Definition setOnline t x y := mkTr (tc t) (tbal t) (tadj t) (tcur t) (topts t) (tinOut t) (tgrad t) (tnl t) (tpw t) (tpb t) (th t) x y (ttrain t) (tval t) (tcallback t).
Definition setLr c x := mkSet (cBatch c) (cValBatch c) (cKeep c) (cEpochs c) (cReboost c) (cPatience c) (cBalancing c) (cOpt c) x (cDecay c) (cMom c) (cLoss c) (cReg c).

(** * Getters and setters with some logic *)
(* NetTrain.cpp:202-208 set_learningrate *)
Definition trSetLr (t : trainer) (lr : F) : trainer :=
  setOpts (setSettings t (setLr (tc t) lr)) (map (fun o => set_learningrate F o lr) (topts t)).
(* 209-215 get_learningrate *)
Definition trGetLr (t : trainer) : F := match topts t with o :: _ => olr F o | [] => cLr (tc t) end.
(* 177-187 set_regularizer: the new _pRegularizer *)
Definition mkRegularizer (s : string) (p : F) : res (option (regul F)) :=
  if (s =? "")%string then Ok None else
  match create_regularizer s with Some k => Ok (Some (set_parameter F (newReg F k) p)) | None => Err ENull end.
(* 188-200 get_regularizer, get_regularizer_parameter *)
Definition trGetReg (t : trainer) : string := match cReg (tc t) with Some r => reg_name (rkind F r) | None => "" end.
Definition trGetRegParam (t : trainer) : F := match cReg (tc t) with Some r => rparam F r | None => minus1 F end.
(* 267-272 set_loss *)
Definition mkLoss (s : string) : res lossKind := match create_loss s with Some k => Ok k | None => Err EAssert end.

(** * operator= (85-138) *)
(* [a] is assigned from [b]; the validation batch size keeps its own value (96); the loss object is a new one (99) *)
Definition trAssign (a b : trainer) : res trainer :=
  k <- mkLoss (loss_name (cLoss (tc b))) ;;
  rg <- mkRegularizer (trGetReg b) (trGetRegParam b) ;;
  Ok (mkTr (mkSet (cBatch (tc b)) (cValBatch (tc a)) (cKeep (tc b)) (cEpochs (tc b)) (cReboost (tc b)) (cPatience (tc b)) (cBalancing (tc b))
             (cOpt (tc b)) (cLr (tc b)) (cDecay (tc b)) (cMom (tc b)) k rg)
           (noBalance F) 0 (tcur b) (map (clone F) (topts b)) (tinOut b) (tgrad b) (tnl b) (tpw a) (tpb a)
           (th b) (tonl b) (tgood b) (ttrain b) (tval b) (tcallback b)).

(** * set_net (140-160), collect_all_weights_biases (594-621) *)
Definition collect (h : heap F) (n : net) (has : layer F -> bool) : res (list nat) :=
  forN (List.length (nlay n)) (fun i p =>
    a <- rget (nlay n) i ;; l <- hget F h a ;; Ok (if has l then p ++ [a] else p)) [].
(* vector::resize: keeps the first elements, appends empty matrices *)
Definition vresize (v : list M) (n : nat) : list M := firstn n v ++ repeat (mempty F) (n - List.length v).
Definition setNet (h : heap F) (n : net) (t : trainer) : res (heap F * trainer) :=
  let nl := List.length (nlay n) in
  h <- (match nlay n with a :: _ => l <- hget F h a ;; hset F h a (setFirst l true) | [] => Ok h end) ;;
  pw <- collect h n hasWeights ;; pb <- collect h n hasBiases ;;
  os <- forN (List.length pw + List.length pb) (fun _ os =>
    match create_optimizer (cOpt (tc t)) with
    | Some k => Ok (os ++ [set_params F (newOpt F k) (cLr (tc t)) (cDecay (tc t)) (cMom (tc t))])
    | None => Err ENull
    end) [] ;;
  Ok (h, mkTr (tc t) (tbal t) (tadj t) (tcur t) os (vresize (tinOut t) (nl + 1)) (vresize (tgrad t) (nl + 1)) nl pw pb
              (th t) (tonl t) (tgood t) (ttrain t) (tval t) (tcallback t)).

(** * update_class_weight (700-740) *)
Definition labelCount (n : nat) (labels : M) : res M :=
  z <- msetZero F (mempty F) n 1 ;;
  forN (mrows labels) (fun i w => x <- mget1 labels i ;; k <- toIdx F x ;; v <- mget2 w k 0 ;; mset2 w k 0 (fadd F v (f1 F))) z.
Definition classWeight (mTruth : M) : res M :=
  c <- (if negb (mcols mTruth =? 1) then cat <- rowsArgmax F mTruth (mempty F) ;; labelCount (mcols mTruth) cat
        else x <- mmaxCoeff F mTruth ;; z <- toInt F x ;;
             if (z + 1 <? 0)%Z then Err EAssert else labelCount (Z.to_nat (z + 1)) mTruth) ;;
  s <- msum F c ;; c <- mscale F c (fdiv F (fofN F (mrows c)) s) ;;
  mapLoop (fun x => fdiv F (f1 F) x) c.
Definition updateClassWeight (n : net) (t : trainer) : res trainer :=
  if negb (nclass n) || negb (cBalancing (tc t)) then Ok (setBal t (set_class_balancing F (mempty F))) else
  match ttrain t with
  | None => Err ENull
  | Some (_, y) => w <- classWeight y ;; Ok (setBal t (set_class_balancing F w))
  end.

(** * Statistics *)
(* the comparison of prediction i with truth i: 351-373, 631-656 *)
Definition goodRow (o y : M) (i : nat) : res bool :=
  if negb (mcols y =? 1) then r <- mrow F o i ;; p <- argmax F r ;; s <- mrow F y i ;; q <- argmax F s ;; Ok (p =? q)
  else if negb (mcols o =? 1) then r <- mrow F o i ;; p <- argmax F r ;; x <- mget1 y i ;; Ok (feq F (fofN F p) x)
  else z <- mget1 o i ;; x <- mget1 y i ;; Ok (feq F (flm F Lround z) x).
Definition countGood (n : nat) (o y : M) (g : nat) : res nat :=
  forN n (fun i g => b <- goodRow o y i ;; Ok (g + (if b : bool then 1 else 0))) g.
(* number of turns of for (s = 0; s < n; s += b) *)
Definition ceilDiv (n b : nat) : nat := (n + b - 1) / b.

(* compute_loss_accuracy (322-381) with a non-null pfAccuracy: (loss, accuracy); rs b i: draws of batch b, layer i *)
Definition lossAccuracy (rs : nat -> nat -> rnd F) (h : heap F) (n : net) (t : trainer) (mS mT : M) : res (heap F * F * F) :=
  let nS := mrows mS in let vb := cValBatch (tc t) in
  if (List.length (nlay n) =? 0) || (nS =? 0) then Ok (h, f0 F, f0 F) else
  if vb =? 0 then Err EFuel else
  ' (h, _, _, loss, good) <- forN (ceilDiv nS vb) (fun b '(h, o, ml, loss, good) =>
    let s := b * vb in let e := Nat.min (s + vb) nS in
    x <- viewRow F mS s e ;; y <- viewRow F mT s e ;;
    ' (h, o) <- predict F (rs b) h n x o ;;
    ml <- compute F cabs (cLoss (tc t)) (tbal t) o y ml ;; m <- mmean F ml ;;
    (if negb (mcols y =? 1) then assert_ (mcols o =? mcols y) else Ok tt) ;;;
    g <- countGood (e - s) o y good ;;
    Ok (h, o, ml, fadd F loss m, g)) (h, mempty F, mempty F, f0 F, 0) ;;
  Ok (h, loss, fdiv F (fmul F (fofN F 100) (fofN F good)) (fofN F nS)).

(* add_online_statistics (623-658) *)
Definition onlineStats (n : net) (t : trainer) (o y : M) : res trainer :=
  ml <- compute F cabs (cLoss (tc t)) (tbal t) o y (mempty F) ;; m <- mmean F ml ;;
  let t := setOnline t (fadd F (tonl t) m) (tgood t) in
  if negb (nclass n) then Ok t else
  (if mcols o =? 1 then assert_ (mcols y =? 1)
   else if mcols y =? 1 then Ok tt else assert_ (mcols y =? mcols o)) ;;;
  g <- countGood (mrows o) o y (tgood t) ;; Ok (setOnline t (tonl t) g).

(** * train_batch (556-592) *)
Definition fwdStep (rs : nat -> rnd F) (n : net) (i : nat) (p : heap F * list M) : res (heap F * list M) :=
  x <- rget (snd p) i ;; out <- rget (snd p) (i + 1) ;;
  ' (h, o) <- fwdLayer F rs n i (fst p) x out ;; v <- rset (snd p) (i + 1) o ;; Ok (h, v).
Definition bwdStep (n : net) (inOut : list M) (i : nat) (p : heap F * list M) : res (heap F * list M) :=
  x <- rget inOut i ;; g <- rget (snd p) (i + 1) ;; gin <- rget (snd p) i ;;
  a <- rget (nlay n) i ;; l <- hget F (fst p) a ;; ' (l, gi) <- layBackward F l x g gin ;;
  h <- hset F (fst p) a l ;; v <- rset (snd p) i gi ;; Ok (h, v).
(* regularise then optimise one parameter *)
Definition optStep (t : trainer) (k : nat) (w g : M) : res (list (opt F) * M * M) :=
  g <- (match cReg (tc t) with Some r => reg_apply F r w g | None => Ok g end) ;;
  o <- rget (topts t) k ;; ' (o, w) <- optimize F cabs o w g ;; os <- rset (topts t) k o ;; Ok (os, w, g).
Definition optWeight (i : nat) (p : heap F * trainer) : res (heap F * trainer) :=
  let '(h, t) := p in
  a <- rget (tpw t) i ;; l <- hget F h a ;;
  ' (os, w, g) <- optStep t i (lw l) (lgw l) ;;
  h <- hset F h a (setP l w g (lb l) (lgb l)) ;; Ok (h, setOpts t os).
Definition optBias (i : nat) (p : heap F * trainer) : res (heap F * trainer) :=
  let '(h, t) := p in
  a <- rget (tpb t) i ;; l <- hget F h a ;;
  ' (os, b, g) <- optStep t (i + List.length (tpw t)) (lb l) (lgb l) ;;
  h <- hset F h a (setP l (lw l) (lgw l) b g) ;; Ok (h, setOpts t os).
(* forward and backward passes, before the optimisers *)
Definition backprop (rs : nat -> rnd F) (h : heap F) (n : net) (t : trainer) (mS mT : M) : res (heap F * trainer) :=
  v <- rset (tinOut t) 0 mS ;;
  ' (h, v) <- forN (tnl t) (fwdStep rs n) (h, v) ;;
  let t := setInOut t v in
  o <- rget v (tnl t) ;; gl <- rget (tgrad t) (tnl t) ;;
  gl <- compute_gradient F (cLoss (tc t)) (tbal t) o mT gl ;; gs <- rset (tgrad t) (tnl t) gl ;;
  ' (h, gs) <- forL (rev (seq 0 (tnl t))) (bwdStep n v) (h, gs) ;;
  Ok (h, setGrad t gs).
Definition optimizeAll (h : heap F) (t : trainer) : res (heap F * trainer) :=
  p <- forN (List.length (tpw t)) optWeight (h, t) ;; forN (List.length (tpb t)) optBias p.
Definition trainBatch (rs : nat -> rnd F) (h : heap F) (n : net) (t : trainer) (mS mT : M) : res (heap F * trainer) :=
  ' (h, t) <- backprop rs h n t mS mT ;;
  ' (h, t) <- optimizeAll h t ;;
  o <- rget (tinOut t) (tnl t) ;; t <- onlineStats n t o mT ;; Ok (h, t).

(* train_one_epoch (742-759); batch b starts at b*adj *)
Definition trainOneEpoch (rs : nat -> nat -> rnd F) (h : heap F) (n : net) (t : trainer) (mS mT : M) : res (heap F * trainer) :=
  let nS := mrows mS in let adj := tadj t in
  if nS =? 0 then Ok (h, t) else
  if adj =? 0 then Err EFuel else
  forN (ceilDiv nS adj) (fun b '(h, t) =>
    let s := b * adj in let e := Nat.min (s + adj) nS in
    x <- viewRow F mS s e ;; y <- viewRow F mT s e ;; trainBatch (rs b) h n t x y) (h, t).

(** * fit (395-554) *)
(* all random draws of one run *)
Record fitRnd := mkFR {
  oFirst : nat -> nat -> rnd F;               (* evaluation before training: batch, layer *)
  oSnap0 : nat -> rnd F;                      (* first snapshot: layer *)
  oShuffle : nat -> nat -> nat;               (* epoch, draw *)
  oTrain : nat -> nat -> nat -> rnd F;        (* epoch, batch, layer *)
  oVal : nat -> nat -> nat -> rnd F;
  oSnap : nat -> nat -> rnd F;                (* snapshot after an epoch: epoch, layer *)
  oRoll : nat -> nat -> rnd F;                (* roll-back *)
  oLast : nat -> rnd F }.                     (* final assignment *)

Record fstate := mkFS {
  sh : heap F; sn : net; st : trainer; sbest : net; sacc : F; sloss : F; sreb : Z; scalls : list hist }.

(* 396-441: up to the epoch loop *)
Definition fitStart (R : fitRnd) (h : heap F) (n : net) (t : trainer) (mS mT : M) : res fstate :=
  t <- updateClassWeight n t ;;
  let big := flit F 10000000000 1 in
  let t := setHist (setCur t 0) (mkHist [] [] [] [] big (f0 F) big (f0 F)) in
  let nS := mrows mS in
  let t := setAdj t (if (nS <? cBatch (tc t)) || (cBatch (tc t) =? 0) then nS else cBatch (tc t)) in
  let t := setOpts t (map (init F) (topts t)) in
  if cKeep (tc t) then
    let '(x, y) := match tval t with None => (mS, mT) | Some p => p end in
    ' (h, l, a) <- lossAccuracy (oFirst R) h n t x y ;;
    ' (h, best) <- netAssign F false (oSnap0 R) h netNew n ;;
    Ok (mkFS h n t best a l 0 [])
  else Ok (mkFS h n t netNew (f0 F) big 0 []).

(* 444-464: shuffle and train *)
Definition epochTrain (R : fitRnd) (e : nat) (h : heap F) (n : net) (t : trainer) (mS mT : M) : res (heap F * net * trainer) :=
  let nS := mrows mS in
  let t := setOnline t (f0 F) 0 in
  ' (x, y) <- (if tadj t <? nS then
                 v <- randPerm (oShuffle R e) nS ;;
                 x <- applyRowPermutation F v mS (mempty F) ;; y <- applyRowPermutation F v mT (mempty F) ;; Ok (x, y)
               else Ok (mS, mT)) ;;
  ' (h, n) <- netSetTrain F h n true ;;
  ' (h, t) <- trainOneEpoch (oTrain R e) h n t x y ;;
  ' (h, n) <- netSetTrain F h n false ;;
  Ok (h, n, t).

(* 466-492: statistics of the epoch, selected loss and accuracy *)
Definition epochStats (R : fitRnd) (e : nat) (h : heap F) (n : net) (t : trainer) (nS : nat) : res (heap F * trainer * F * F) :=
  let tl := fdiv F (tonl t) (fofN F nS) in
  let H := th t in
  let H := mkHist (hTL H ++ [tl]) (hTA H) (hVL H) (hVA H) tl (fTA H) (fVL H) (fVA H) in
  let ta := fdiv F (fmul F (fofN F 100) (fofN F (tgood t))) (fofN F nS) in
  let H := if nclass n then mkHist (hTL H) (hTA H ++ [ta]) (hVL H) (hVA H) (fTL H) ta (fVL H) (fVA H) else H in
  match tval t with
  | None => Ok (h, setHist t H, fTL H, fTA H)
  | Some (x, y) =>
      ' (h, l, a) <- lossAccuracy (oVal R e) h n (setHist t H) x y ;;
      Ok (h, setHist t (mkHist (hTL H) (hTA H) (hVL H ++ [l]) (hVA H ++ [a]) (fTL H) (fTA H) l a), l, a)
  end.

(* 498-536: keep the best, patience *)
Definition epochBest (R : fitRnd) (e : nat) (s : fstate) (selL selA : F) : res fstate :=
  let '(mkFS h n t best A L reb calls) := s in
  if negb (cKeep (tc t)) && (cPatience (tc t) =? -1)%Z then Ok s else
  let better := if nclass n then flt F A selA else flt F selL L in
  ' (h, best, t) <- (if better then ' (h, best) <- netAssign F false (oSnap R e) h best n ;; Ok (h, best, setCur t 0)
                     else Ok (h, best, setCur t (tcur t + 1)%Z)) ;;
  let A := if better && nclass n then selA else A in
  let L := if better && negb (nclass n) then selL else L in
  if (cPatience (tc t) <? tcur t)%Z && negb (cPatience (tc t) =? -1)%Z then
    let t := setCur t 0 in
    let t := trSetLr t (fdiv F (trGetLr t) (fofN F 2)) in
    ' (h, n) <- netAssign F false (oRoll R e) h n best ;;
    Ok (mkFS h n t best A L reb calls)
  else Ok (mkFS h n t best A L reb calls).

(* 538-548 reboost *)
Definition epochReboost (s : fstate) : fstate :=
  let '(mkFS h n t best A L reb calls) := s in
  let N := cReboost (tc t) in
  if (N =? -1)%Z then s else
  if (reb <? N)%Z then mkFS h n t best A L (reb + 1)%Z calls
  else mkFS h n (setOpts t (map (init F) (topts t))) best A L 0%Z calls.

Definition epoch (R : fitRnd) (mS mT : M) (e : nat) (s : fstate) : res fstate :=
  ' (h, n, t) <- epochTrain R e (sh s) (sn s) (st s) mS mT ;;
  ' (h, t, l, a) <- epochStats R e h n t (mrows mS) ;;
  let calls := if tcallback t then scalls s ++ [th t] else scalls s in
  s <- epochBest R e (mkFS h n t (sbest s) (sacc s) (sloss s) (sreb s) calls) l a ;;
  Ok (epochReboost s).

(* 550-553; leaving the function destroys bestNet *)
Definition fitEnd (R : fitRnd) (s : fstate) : res (heap F * net * trainer * list hist) :=
  ' (h, n) <- (if cKeep (tc (st s)) then netAssign F false (oLast R) (sh s) (sn s) (sbest s) else Ok (sh s, sn s)) ;;
  ' (h, _) <- netClear F h (sbest s) ;;
  Ok (h, n, st s, scalls s).

(* the result: heap, network, trainer, and what the callback saw at each call *)
Definition fit (R : fitRnd) (h : heap F) (n : net) (t : trainer) : res (heap F * net * trainer * list hist) :=
  ' (h, t) <- setNet h n t ;;
  if tnl t =? 0 then Ok (h, n, t, []) else
  match ttrain t with
  | None => Err ENull
  | Some (mS, mT) =>
      s <- fitStart R h n t mS mT ;;
      s <- forN (Z.to_nat (cEpochs (tc t))) (epoch R mS mT) s ;;
      fitEnd R s
  end.
End Model.
