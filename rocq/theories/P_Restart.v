(* P_Restart.v - property theorems about configuring an optimiser (C87) *)
From Coq Require Import List Arith Bool ZArith QArith Reals.
From Verif Require Import Base Scalar SpecReal Mat SpecMat Loss Optim SpecOpt SpecRestart OptProofs4.
Import ListNotations.

(** C87.  The clause "a created optimiser can be used at once" is false: it keeps the learning rate -1 and climbs the gradient. *)
Theorem C87_unset_refuted : forall jk : R, (exists w g w' : R, 0 < g /\ w < w' /\ exists o', optimize (ROps jk) (absFloat (ROps jk)) (newOpt (ROps jk) OSGD) (mgen 1 1 (fun _ _ => w)) (mgen 1 1 (fun _ _ => g)) = Ok (o', mgen 1 1 (fun _ _ => w')))%R.
Proof. exact unset_refuted. Qed.
Print Assumptions C87_unset_refuted.

Theorem C87_unset_actual : forall jk : R, (forall r c (w g : nat -> nat -> R), exists o', optimize (ROps jk) (absFloat (ROps jk)) (newOpt (ROps jk) OSGD) (mgen r c w) (mgen r c g) = Ok (o', mgen r c (fun i j => w i j + g i j)))%R.
Proof. exact unset_ascends. Qed.
Print Assumptions C87_unset_actual.

Theorem C87_unset_parameters : forall jk : R, (forall k, olr (ROps jk) (newOpt (ROps jk) k) = unsetRate k /\ odecay (ROps jk) (newOpt (ROps jk) k) = -1 /\ omom (ROps jk) (newOpt (ROps jk) k) = -1)%R.
Proof. exact unset_rate. Qed.
Print Assumptions C87_unset_parameters.

(* set_params drops the history of the object, in every arithmetic *)
Theorem C87_restart : forall F : FOps, forall (o o' : opt F) lr dec mom r c (w : nat -> nat -> F) (gs : list (nat -> nat -> F)), okind F o = okind F o' -> wfOpt F o -> wfOpt F o' ->
  exists p p' w', optRun F (absFloat F) (set_params F o lr dec mom) (mgen r c w) (map (mgen r c) gs) = Ok (p, w') /\
    optRun F (absFloat F) (set_params F o' lr dec mom) (mgen r c w) (map (mgen r c) gs) = Ok (p', w').
Proof. exact restart_same. Qed.
Print Assumptions C87_restart.

Theorem C87_learning_rate_restart : forall F : FOps, forall (o o' : opt F) lr r c (w : nat -> nat -> F) (gs : list (nat -> nat -> F)), okind F o = okind F o' -> wfOpt F o -> wfOpt F o' ->
  odecay F o = odecay F o' -> omom F o = omom F o' ->
  exists p p' w', optRun F (absFloat F) (set_learningrate F o lr) (mgen r c w) (map (mgen r c) gs) = Ok (p, w') /\
    optRun F (absFloat F) (set_learningrate F o' lr) (mgen r c w) (map (mgen r c) gs) = Ok (p', w').
Proof. exact rate_restart. Qed.
Print Assumptions C87_learning_rate_restart.

(* -1 stands for the default; other values are kept *)
Theorem C87_defaults : forall jk : R, (forall k (o : opt (ROps jk)), okind (ROps jk) o = k -> let '(lr, dec, mom) := optDefaults k in
  set_params (ROps jk) o (-1) (-1) (-1) = set_params (ROps jk) o lr dec mom /\ olr (ROps jk) (set_params (ROps jk) o (-1) (-1) (-1)) = lr /\ odecay (ROps jk) (set_params (ROps jk) o (-1) (-1) (-1)) = dec /\ omom (ROps jk) (set_params (ROps jk) o (-1) (-1) (-1)) = mom)%R.
Proof. exact default_params. Qed.
Print Assumptions C87_defaults.

Theorem C87_given : forall jk : R, (forall k (o : opt (ROps jk)) lr dec mom, okind (ROps jk) o = k -> lr <> -1 -> dec <> -1 -> mom <> -1 ->
  olr (ROps jk) (set_params (ROps jk) o lr dec mom) = lr /\ odecay (ROps jk) (set_params (ROps jk) o lr dec mom) = dec /\ omom (ROps jk) (set_params (ROps jk) o lr dec mom) = mom)%R.
Proof. exact given_params. Qed.
Print Assumptions C87_given.


Example C87_case : (* an object that has already moved, configured again, and a new one *)
  match optRun QOps (absFloat QOps) (set_params QOps (newOpt QOps OMomentum) (1#2) (-1) (1#4))%Q (mkMat 1 1 [0%Q]) [mkMat 1 1 [8%Q]] with
  | Ok (o, w) => match optRun QOps (absFloat QOps) (set_params QOps o (1#2) (-1) (1#4))%Q w [mkMat 1 1 [8%Q]], optRun QOps (absFloat QOps) o w [mkMat 1 1 [8%Q]] with
     | Ok (_, w1), Ok (_, w2) => Some (map Qred (mdata w), map Qred (mdata w1), map Qred (mdata w2)) | _, _ => None end
  | Err _ => None end = Some ([-4], [-8], [-9])%Q.
Proof. vm_compute. reflexivity. Qed.
