(* SpecOpt.v - specification vocabulary for the optimisers *)
From Coq Require Import Reals List.
From Verif Require Import Base Scalar Mat SpecMat Loss Optim.
Import ListNotations.
Local Open Scope R_scope.

(* "-1" selects the default value of a hyper-parameter *)
Definition orDefault (x d : R) : R := if Req_EM_T x (-1) then d else x.

(* an optimiser of the given kind, configured with set_params, is given n gradients g 0 .. g (n-1) for an r x c weight matrix w *)
Definition train (j : R) (k : optKind) (lr decay mom : R) (r c n : nat) (g : nat -> nat -> nat -> R) (w : nat -> nat -> R) :
  res (opt (ROps j) * mat (ROps j)) :=
  optRun (ROps j) (absFloat (ROps j)) (set_params (ROps j) (newOpt (ROps j) k) lr decay mom)
    (mgen r c w) (map (fun t => mgen r c (g t)) (seq 0 n)).
(* the same, weights only *)
Definition trained (j : R) (k : optKind) (lr decay mom : R) (r c n : nat) (g : nat -> nat -> nat -> R) (w w' : nat -> nat -> R) : Prop :=
  exists o', train j k lr decay mom r c n g w = Ok (o', mgen r c w').

(* sign of a gradient entry as the code reads it: a zero counts as positive *)
Definition sgn (x : R) : R := if Rlt_dec x 0 then -1 else 1.

(* the classes with a second-moment (or squared-gradient) matrix *)
Definition hasSecond (k : optKind) : Prop :=
  match k with OAdagrad | ORMSProp | OAdam | OAdamW | OAmsgrad | ONadam | OAdamax => True | _ => False end.

(* the matrices held by the object are well formed *)
Definition wfOpt (F : FOps) (o : opt F) : Prop := mwf (s_m F o) /\ mwf (s_v F o) /\ mwf (s_p F o).
