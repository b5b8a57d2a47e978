(* SpecAct.v - vocabulary of the activation statements: where an activation is not differentiable. *)
From Coq Require Import Reals List.
From Coquelicot Require Import Coquelicot.
From Verif Require Import Scalar Act.
Import ListNotations.
Local Open Scope R_scope.

(* the points where the function has a corner or a jump; everywhere else it is differentiable *)
Definition corners (k : actKind) : list R :=
  match k with
  | AAbsolute | ABinaryStep | ABipolar | AFTS | AFTSPlus | ARelu | ALeakyRelu | ALeakyRelu256 | ANLRelu | ASelu => [0]
  | AHardELU => [0; -2]
  | AHardSigmoid => [5/2; - (5/2)]
  | AHardShrink | ASoftShrink => [1/2; - (1/2)]
  | AHardSwish => [3; -3]
  | AHardTanh | AHann => [1; -1]
  | ARelu6 | ALeakyTwiceRelu6 => [0; 6]
  | AThresholdedRelu => [1]
  | _ => []
  end.

(* the kinds for which derivation is not the derivative of apply (see the _refuted and _close theorems) *)
Definition odd_derivative (k : actKind) : Prop :=
  In k [ASQRBF; ALogit; ASineReLU; ATanhExp; AGELU; ASoftSteps].

(* the interval an activation is expected to stay in (True: nothing is claimed) *)
Definition act_range (k : actKind) (y : R) : Prop :=
  match k with
  | ASigmoid | AElliot | AComplementaryLogLog => 0 < y < 1
  | AHardSigmoid | ASmoothSigmoid | ABump | AHann | ASQRBF => 0 <= y <= 1
  | AGauss => 0 < y <= 1
  | ABinaryStep => y = 0 \/ y = 1
  | ABipolar => y = -1 \/ y = 1
  | ATanh | ABipolarSigmoid | ASoftSign => -1 < y < 1
  | AHardTanh | ASmoothTanh | ASQNL | ASin | ASinC => -1 <= y <= 1
  | ALecunTanh => - (17159 / 10000) < y < 17159 / 10000
  | AAtan => - (PI / 2) < y < PI / 2
  | ARelu | ANLRelu | AThresholdedRelu | ASmoothSoftPlus | AAbsolute | ALiSHT => 0 <= y
  | AExponential | ASoftPlus => 0 < y
  | ALogSigmoid => y < 0
  | ARelu6 => 0 <= y <= 6
  | AELU | ACELU | AISRLU | AELiSH => -1 < y
  | AHardELU => -1 <= y
  | ASelu => - (105070 / 100000 * (167326 / 100000)) < y
  | AE2RU => - (1 / 2) < y
  | AE3RU => - (1 / 3) < y
  | AFTS => - (1 / 5) <= y
  | AFTSPlus => - (1 / 4) <= y
  | AHardSwish => - (3 / 8) <= y
  | ASwish | ASiLU => - (1 / 3) <= y
  | AEswish => - (7 / 12) <= y
  | _ => True
  end.

(* the activations meant to be non-decreasing *)
Definition monotone_kinds : list actKind :=
  [AAsinh; AAtan; ABent; ABinaryStep; ABipolar; ABipolarSigmoid; ACELU; AComplementaryLogLog; ADivideBy256; AElliot;
   AELU; AExponential; AE2RU; AE3RU; AFTS; AFTSPlus; AHardELU; AHardSigmoid; AHardShrink; AHardTanh; AIdentity; AISRLU;
   ALeakyRelu; ALeakyRelu256; ALeakyTwiceRelu6; ALecunTanh; ALogSigmoid; ANLRelu; AO2RU; AO3RU; ASmoothSigmoid;
   ASmoothSoftPlus; ASmoothTanh; ARelu; ARelu6; ASelu; ASoftPlus; ASoftShrink; ASoftSign; ASoftSteps; ASQNL; ASigmoid;
   ATanh; ATanhShrink; AThresholdedRelu].
