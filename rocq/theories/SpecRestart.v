(* SpecRestart.v - default hyper-parameters of the optimisers, independent of the model's init functions *)
From Coq Require Import Reals.
From Verif Require Import Optim.
Local Open Scope R_scope.

(* learning rate, decay and momentum that -1 stands for; -1 itself where the class has none *)
Definition optDefaults (k : optKind) : R * R * R :=
  match k with
  | ONone | ORPROPm | OiRPROPm => (-1, -1, -1)
  | OStep => (1 / 10, -1, -1) | OSGD => (1 / 100, -1, -1)
  | OMomentum | ONesterov => (1 / 100, -1, 9 / 10) | OMomentumNg => (1 / 10, -1, 9 / 10)
  | OAdagrad | OAdam | OAdamW | OAdamax => (1 / 1000, -1, -1) | OAmsgrad => (1 / 100, -1, -1) | ONadam => (2 / 1000, -1, -1)
  | ORMSProp => (1 / 100, 99 / 100, -1)
  end.
(* learning rate of an object that was created and never configured *)
Definition unsetRate (k : optKind) : R := match k with ONadam => 1 / 1000 | OAdamax => 2 / 1000 | _ => -1 end.
