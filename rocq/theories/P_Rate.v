(* P_Rate.v - property theorems about the learning rate and patience (C24) *)
From Coq Require Import String List Arith Bool ZArith QArith Reals Lia.
From Flocq Require Import Core IEEE754.BinarySingleNaN.
From Verif Require Import Base Scalar Mat Loss Optim Regul Act LayMat LayImg LayRnn Layer Net NetTrain SpecNet SpecTrain SpecRound SpecNaN TrainProofs14 LrRule2.
Import ListNotations.
Local Open Scope R_scope.

(** C24.  imp i: epoch i improved on all scores before it; stagnation counts the roll-backs. *)
Theorem C24_halving : forall (jk : R) (cabs : ROps jk -> res (ROps jk)), forall Rr h n t h' n' t' calls, fit (ROps jk) cabs Rr h n t = Ok (h', n', t', calls) -> nlay n <> [] ->
  (0 <= cPatience (ROps jk) (tc (ROps jk) t))%Z -> (cKeep (ROps jk) (tc (ROps jk) t) = true \/ nclass n = true \/ nlay n' <> []) ->
  let e := Z.to_nat (cEpochs (ROps jk) (tc (ROps jk) t)) in let c := nclass n in let v := hasVal (ROps jk) t in
  exists h1 t1 mS mT ss imp base, setNet (ROps jk) h n t = Ok (h1, t1) /\ ttrain (ROps jk) t = Some (mS, mT) /\ fitStart (ROps jk) cabs Rr h1 n t1 mS mT = Ok (ss O) /\
    (forall i, (i < e)%nat -> epoch (ROps jk) cabs Rr mS mT i (ss i) = Ok (ss (S i))) /\ t' = st (ROps jk) (ss e) /\
    base = (if c then sacc (ROps jk) (ss O) else sloss (ROps jk) (ss O)) /\
    let score i := signed c (nth i (selHist (ROps jk) c v (th (ROps jk) t')) 0) in
    length (selHist (ROps jk) c v (th (ROps jk) t')) = e /\
    (forall i, (i < e)%nat -> (imp i = true <-> signed c base < score i /\ forall k, (k < i)%nat -> score k < score i)) /\
    (0 < trGetLr (ROps jk) (st (ROps jk) (ss O)) -> forall i, (i <= e)%nat ->
       trGetLr (ROps jk) (st (ROps jk) (ss i)) = trGetLr (ROps jk) (st (ROps jk) (ss O)) / 2 ^ snd (stagnation (cPatience (ROps jk) (tc (ROps jk) t)) imp i)).
Proof. exact lr_real. Qed.
Print Assumptions C24_halving.

(* in single precision: exact down to 2^-126, never increasing, 0 at the end; a score that is not a number never improves *)
Theorem C24_halving_float : forall (lm : libm -> b32 -> b32) (pw : b32 -> b32 -> b32) (jk : b32) (cabs : B32Ops lm pw jk -> res (B32Ops lm pw jk)), forall Rr h n t h' n' t' calls, fit (B32Ops lm pw jk) cabs Rr h n t = Ok (h', n', t', calls) -> nlay n <> [] ->
  (0 <= cPatience (B32Ops lm pw jk) (tc (B32Ops lm pw jk) t))%Z -> (cKeep (B32Ops lm pw jk) (tc (B32Ops lm pw jk) t) = true \/ nclass n = true \/ nlay n' <> []) ->
  let e := Z.to_nat (cEpochs (B32Ops lm pw jk) (tc (B32Ops lm pw jk) t)) in let c := nclass n in let v := hasVal (B32Ops lm pw jk) t in
  exists h1 t1 mS mT ss imp base, setNet (B32Ops lm pw jk) h n t = Ok (h1, t1) /\ ttrain (B32Ops lm pw jk) t = Some (mS, mT) /\ fitStart (B32Ops lm pw jk) cabs Rr h1 n t1 mS mT = Ok (ss O) /\
    (forall i, (i < e)%nat -> epoch (B32Ops lm pw jk) cabs Rr mS mT i (ss i) = Ok (ss (S i))) /\ t' = st (B32Ops lm pw jk) (ss e) /\
    base = (if c then sacc (B32Ops lm pw jk) (ss O) else sloss (B32Ops lm pw jk) (ss O)) /\
    let score i := nth i (selHist (B32Ops lm pw jk) c v (th (B32Ops lm pw jk) t')) (f0 (B32Ops lm pw jk)) in let better (x y : b32) := if c then b32_lt y x else b32_lt x y in
    length (selHist (B32Ops lm pw jk) c v (th (B32Ops lm pw jk) t')) = e /\
    (forall i, (i < e)%nat -> (imp i = true <-> better (score i) base = true /\ forall k, (k < i)%nat -> imp k = true -> better (score i) (score k) = true)) /\
    let rate i : b32 := trGetLr (B32Ops lm pw jk) (st (B32Ops lm pw jk) (ss i)) in let rolls i := snd (stagnation (cPatience (B32Ops lm pw jk) (tc (B32Ops lm pw jk) t)) imp i) in
    (fin (rate O) -> 0 < val (rate O) ->
      (forall i, (i <= e)%nat -> fin (rate i) /\ 0 <= val (rate i) <= val (rate O)) /\ (forall i, (i < e)%nat -> val (rate (S i)) <= val (rate i)) /\
      (forall i, (i <= e)%nat -> p2 (-126) * 2 ^ rolls i <= val (rate O) -> val (rate i) = val (rate O) / 2 ^ rolls i) /\
      forall i, (i <= e)%nat -> (278 <= rolls i)%nat -> val (rate i) = 0).
Proof. exact lr_float. Qed.
Print Assumptions C24_halving_float.

Example C24_case : match runFit (mkConf true 3 (-1) 0 "SGD"%string (1#10)) 1%nat reluHeap reg1 data2 (Some data2) with
  | Ok (h, n, t, c) => Qred (trGetLr QOps t) = (1#80)%Q /\ List.length (nlay n) = 1%nat /\ List.length c = 3%nat
  | Err _ => False end.
Proof. exact patience_case. Qed.
(* a regression, without keep-best *)
Example C24_plain_case : match runFit (mkConf false 4 (-1) 0 "SGD"%string (1#10)) 1%nat reluHeap reg1 data2 (Some data2) with
  | Ok (h, n, t, c) => Qred (trGetLr QOps t) = (1#80)%Q /\ List.length (nlay n) = 1%nat /\ List.length c = 4%nat
  | Err _ => False end.
Proof. vm_compute. auto. Qed.
Example C24_stagnation : map (fun i => snd (stagnation 1 (fun k => k =? 2)%nat i)) [0; 1; 2; 3; 4; 5; 6]%nat = [0; 0; 1; 1; 1; 2; 2]%nat.
Proof. reflexivity. Qed.
