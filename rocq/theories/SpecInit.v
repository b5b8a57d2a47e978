(* SpecInit.v - what constructors should leave in the parameters; independent of the model's initialisers *)
From Coq Require Import String List Arith Bool Reals.
From Verif Require Import Base Scalar Mat SpecMat LayMat LayImg LayRnn Layer.
Import ListNotations.
Local Open Scope string_scope.
Local Open Scope nat_scope.

Section Init.
Variable F : FOps.
(* Keras initialisers: value of a cell of an nI x nO matrix given a draw x (uniform in [-1,1], or normal with the
   standard deviation of the initialiser) *)
Definition uniformScale (num den : nat) : F := flm F Lsqrt (fdiv F (fofN F num) (fofN F den)).
Definition initTable (nI nO : nat) (x : F) : list (string * F) :=
  [ ("Zeros", f0 F); ("Ones", f1 F); ("Uniform", x);
    ("Normal", x); ("GlorotNormal", x); ("HeNormal", x); ("LecunNormal", x);
    ("GlorotUniform", fmul F x (uniformScale 6 (nI + nO)));
    ("HeUniform", fmul F x (uniformScale 6 nI));
    ("LecunUniform", fmul F x (uniformScale 3 nI)) ].
Fixpoint lookup (l : list (string * F)) (s : string) : option F :=
  match l with [] => None | (k, v) :: r => if String.eqb s k then Some v else lookup r s end.
Definition initCell (name : string) (nI nO : nat) (x : F) : option F := lookup (initTable nI nO x) name.

(* the matrix an initialiser leaves: draws taken in row order from g; untouched for an unknown name *)
Definition initTo (name : string) (g : nat -> F) (old : mat F) (nI nO : nat) (m : mat F) : Prop :=
  (forall x, initCell name nI nO x = None) /\ m = old \/
  exists f, m = mgen nI nO f /\ forall i j, i < nI -> j < nO -> initCell name nI nO (g (i * nO + j)) = Some (f i j).

(* documented shapes of the weights (biases) made by the named initialisers *)
Definition weightShape (k : kind F) : option (nat * nat) :=
  match k with KDense nI nO | KDot nI nO => if (nI =? 0) || (nO =? 0) then None else Some (nI, nO) | KTDDot fi fo | KTDDense fi fo => Some (fi, fo) | _ => None end.
Definition biasShape (k : kind F) : option (nat * nat) :=
  match k with KDense nI nO => if (nI =? 0) || (nO =? 0) then None else Some (1, nO) | KTDDense _ fo => Some (1, fo) | KTDBias fs => Some (1, fs) | KChannelBias _ _ nH => Some (1, nH) | _ => None end.
(* the other weights (biases) a constructor fills, from the draws g *)
Definition otherWeight (k : kind F) (g : nat -> F) : mat F :=
  match k with
  | KGlobalGain | KGlobalAffine => mgen 1 1 (fun _ _ => f1 F)
  | KConv v _ => let n := vkr v * vkc v * vI v in
      mgen (vO v) n (fun i j => fmul F (g (i * n + j)) (uniformScale 6 (vR v * vC v * vI v + oC v * oR v * vO v)))
  | KSimplestRnn fs => mgen fs fs (fun i j => g (i * fs + j))
  | _ => mempty F
  end.
Definition otherBias (k : kind F) : mat F := match k with KGlobalBias | KGlobalAffine => mgen 1 1 (fun _ _ => f0 F) | _ => mempty F end.
End Init.

Local Open Scope R_scope.
(* bound of the cells for draws between -1 and 1 *)
Definition initBound (name : string) (nI nO : nat) : R :=
  if (name =? "Zeros")%string then 0 else if (name =? "GlorotUniform")%string then sqrt (6 / INR (nI + nO)) else if (name =? "HeUniform")%string then sqrt (6 / INR nI)
  else if (name =? "LecunUniform")%string then sqrt (3 / INR nI) else 1.
