(* SpecGlu.v - the gated units as functions of the two halves, as in the papers the sources cite *)
From Coq Require Import Reals.
From Coquelicot Require Import Coquelicot.
From Verif Require Import LayGlu.
Local Open Scope R_scope.
Definition sigmoid (y : R) : R := 1 / (1 + exp (- y)).
Definition gaussCdf (y : R) : R := 1 / 2 * (1 + 2 / sqrt PI * RInt (fun t => exp (- (t * t))) 0 (y / sqrt 2)).
Definition seluOf (y : R) : R := if Rlt_dec y 0 then 105070 / 100000 * (167326 / 100000 * (exp y - 1)) else 105070 / 100000 * y.
Definition gluFormula (g : glu) (x y : R) : R :=
  match g with
  | GBilinear => x * y
  | GGLU => x * sigmoid y
  | GGEGLU => x * (y * gaussCdf y)
  | GGTU => (exp x - exp (- x)) / (exp x + exp (- x)) * sigmoid y
  | GReGLU => x * Rmax 0 y
  | GSeGLU => x * seluOf y
  | GSwiGLU => x * (y * sigmoid y)
  end.
