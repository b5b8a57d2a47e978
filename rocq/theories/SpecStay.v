(* SpecStay.v - specification vocabulary: floats of bounded magnitude *)
From Coq Require Import List ZArith Reals.
From Flocq Require Import Core IEEE754.BinarySingleNaN.
From Verif Require Import Base Scalar Mat SpecMat Loss Optim SpecRound SpecNaN.
Import ListNotations.
Local Open Scope R_scope.

(* a finite float of magnitude at most 2^z *)
Definition within (z : Z) (x : b32) : Prop := fin x /\ Rabs (val x) <= p2 z.
(* a rate between 0 and 1, or the -1 that selects the default *)
Definition fraction (x : b32) : Prop := fin x /\ (0 <= val x <= 1 \/ val x = -1).
(* the classes that divide by the root of an average of squared gradients *)
Definition adaptive (k : optKind) : Prop := k = OAdagrad \/ k = ORMSProp \/ k = OAdam \/ k = OAmsgrad \/ k = ONadam.

(* the weight after n equal gradients 2^127, from 0 *)
Definition huge : b32 := b32_of_Z (2 ^ 127).
Definition afterN (k : optKind) (lr mom : b32) (n : nat) : res (list b32) :=
  let F := B32Ops (fun _ x => x) (fun x _ => x) (B754_zero false : b32) in
  ' (_, m) <- optRun F (absFloat F) (set_params F (newOpt F k) lr (b32_of_Z (-1)) mom) (mgen 1 1 (fun _ _ => (B754_zero false : b32))) (repeat (mgen 1 1 (fun _ _ => huge)) n) ;; Ok (mdata m).
