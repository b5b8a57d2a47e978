(* Act.v - model of src/Activations.cpp: the 64 scalar activation functions and their derivatives.
   Binary operators associate as in C++; a float comparison is false when an operand is NaN.
   Simplified: the few places that compute in double (sqrt(2.f) in GELU, tanh in the derivative of Mish,
   fabs(x) compared with 1. in Hann) are computed in the one scalar type. *)
From Coq Require Import List Arith Bool ZArith String.
From Verif Require Import Base Scalar.
Import ListNotations.

Inductive actKind :=
| AAbsolute | AAsinh | AAtan | ABent | ABinaryStep | ABipolar | ABipolarSigmoid | ABump
| ACELU | AComplementaryLogLog | ADivideBy256 | AdSiLU | AELiSH | AElliot | AELU | AEswish
| AExponential | AE2RU | AE3RU | AFTS | AFTSPlus | AGauss | AGELU | AHann
| AHardELU | AHardSigmoid | AHardShrink | AHardSwish | AHardTanh | AIdentity | AISRLU | ALeakyRelu
| ALeakyRelu256 | ALeakyTwiceRelu6 | ALecunTanh | ALiSHT | ALogit | ALogSigmoid | AMish | ANLRelu
| AO2RU | AO3RU | ASmoothSigmoid | ASmoothSoftPlus | ASmoothTanh | ARelu | ARelu6 | ASelu
| ASoftPlus | ASoftShrink | ASoftSign | ASoftSteps | ASQNL | ASQRBF | ASigmoid | ASiLU
| ASinC | ASin | ASineReLU | ASwish | ATanh | ATanhExp | ATanhShrink | AThresholdedRelu.

Section Model.
Variable F : FOps.

Local Notation "a +. b" := (fadd F a b) (at level 50, left associativity).
Local Notation "a -. b" := (fsub F a b) (at level 50, left associativity).
Local Notation "a *. b" := (fmul F a b) (at level 40, left associativity).
Local Notation "a /. b" := (fdiv F a b) (at level 40, left associativity).
Local Notation "-. a" := (fopp F a) (at level 35, right associativity).
Local Notation "a <. b" := (flt F a b) (at level 70).
Local Notation "a >. b" := (flt F b a) (at level 70).
Local Notation "a <=. b" := (fle F a b) (at level 70).
Local Notation "a >=. b" := (fle F b a) (at level 70).
Local Notation "a ==. b" := (feq F a b) (at level 70).
Local Notation z0 := (f0 F).
Local Notation z1 := (f1 F).
Local Notation lit n d := (flit F n d).
Local Notation ex := (flm F Lexp).
Local Notation lg := (flm F Llog).
Local Notation sq := (flm F Lsqrt).
Local Notation th := (flm F Ltanh).
Local Notation pw := (fpow F).

Definition piLit : F := lit 314159265359 100000000000.    (* Activations.cpp:477, 497, 508: 3.14159265359f *)
Definition seluL : F := lit 105070 100000.                (* :1118 *)
Definition seluA : F := lit 167326 100000.                (* :1119 *)
Definition twoPi : F := lit 6283185307 1000000000.        (* :1216 *)
Definition invTwoPi : F := lit 159154943 1000000000.      (* :1217 *)

(* the virtual functions apply(x); the line numbers are those of Activations.cpp *)
Definition act_apply (k : actKind) (x : F) : F :=
  match k with
  | AAbsolute => fabs F x   (* :30-33 *)
  | AAsinh => flm F Lasinh x   (* :50-53 *)
  | AAtan => flm F Latan x   (* :69-72 *)
  | ABent => (sq (x *. x +. z1) -. z1) *. lit 1 2 +. x   (* :401-404 *)
  | ABinaryStep => if x >. z0 then z1 else z0   (* :421-427 *)
  | ABipolar => if x >. z0 then z1 else -. z1   (* :89-95 *)
  | ABipolarSigmoid => let s := ex x in (s -. z1) /. (s +. z1)   (* :113-117 *)
  | ABump => if fabs F x <. z1 then ex (-. z1 /. (z1 -. x *. x)) else z0   (* :134-140 *)
  | ACELU => if x >=. z0 then x else z1 *. flm F Lexpm1 (x /. z1)   (* :1102-1108 *)
  | AComplementaryLogLog => z1 -. ex (-. ex x)   (* :162-165 *)
  | ADivideBy256 => x *. lit 1 256   (* :180-183 *)
  | AdSiLU => let e := ex (-. x) in let v := z1 /. (z1 +. e) in v *. (z1 +. x *. e *. v)   (* :1288-1293 *)
  | AELiSH => let e := ex (-. x) in if x >=. z0 then x /. (z1 +. e) else (z1 /. e -. z1) /. (z1 +. e)   (* :202-209 *)
  | AElliot => lit 1 2 *. (x /. (z1 +. fabs F x)) +. lit 1 2   (* :236-239 *)
  | AELU => if x >=. z0 then x else flm F Lexpm1 x   (* :1074-1080 *)
  | AEswish => lit 7 4 *. x /. (z1 +. ex (-. x))   (* :259-262 *)
  | AExponential => ex x   (* :278-281 *)
  | AE2RU => if x >=. z0 then sq ((lit 2 1) *. (lit 2 1) *. x +. z1) -. lit 1 2 else ex (x *. (lit 2 1)) -. lit 1 2   (* :298-304 *)
  | AE3RU => if x >=. z0 then pw ((lit 3 1) *. (lit 3 1) *. x +. z1) (z1 /. (lit 3 1)) -. z1 /. (lit 3 1) else ex (x *. (lit 3 1)) -. z1 /. (lit 3 1)   (* :324-330 *)
  | AFTS => if x <. z0 then -. lit 1 5 else x /. (z1 +. ex (-. x)) -. lit 1 5   (* :351-356 *)
  | AFTSPlus => if x <. z0 then -. lit 1 4 else x /. (z1 +. ex (-. x)) -. lit 1 4   (* :377-382 *)
  | AGauss => ex (-. x *. x)   (* :444-447 *)
  | AGELU => lit 1 2 *. x *. (z1 +. flm F Lerf (x /. sq (lit 2 1)))   (* :467-472 *)
  | AHann => if fabs F x >. z1 then z0 else let c := flm F Lcos (piLit *. lit 1 2 *. x) in c *. c   (* :491-500 *)
  | AHardELU => if x >=. z0 then x else if x <=. -. (lit 2 1) then -. z1 else x *. lit 1 2   (* :523-532 *)
  | AHardSigmoid => if x >. lit 5 2 then z1 else if x <. -. lit 5 2 then z0 else lit 1 5 *. x +. lit 1 2   (* :1313-1322 *)
  | AHardShrink => if x >. lit 1 2 then x else if x <. -. lit 1 2 then x else z0   (* :557-566 *)
  | AHardSwish => if x >=. (lit 3 1) then x else if x <. -. (lit 3 1) then z0 else x *. (x +. (lit 3 1)) *. (z1 /. lit 6 1)   (* :588-597 *)
  | AHardTanh => if x >. z1 then z1 else if x <. -. z1 then -. z1 else x   (* :619-628 *)
  | AIdentity => x   (* :649-652 *)
  | AISRLU => if x >=. z0 then x else x /. sq (z1 +. z1 *. x *. x)   (* :671-677 *)
  | ALeakyRelu => if x >=. z0 then x else lit 1 100 *. x   (* :885-888 *)
  | ALeakyRelu256 => if x >=. z0 then x else x *. lit 1 256   (* :905-908 *)
  | ALeakyTwiceRelu6 => if x <. z0 then lit 1 5 *. x else if x <. lit 6 1 then x else lit 6 1 +. lit 1 5 *. (x -. lit 6 1)   (* :927-936 *)
  | ALecunTanh => lit 17159 10000 *. th (x *. lit 666666 1000000)   (* :959-962 *)
  | ALiSHT => x *. th x   (* :979-982 *)
  | ALogit => lg (x /. (z1 -. x))   (* :798-801 *)
  | ALogSigmoid => lg (z1 /. (z1 +. ex (-. x)))   (* :817-820 *)
  | AMish => let p := flm F Llog1p (ex x) in x *. th p   (* :701-705 *)
  | ANLRelu => if x >. z0 then flm F Llog1p x else z0   (* :998-1001 *)
  | AO2RU => if x >=. z0 then sq ((lit 2 1) *. (lit 2 1) *. x +. z1) -. z1 else -. sq (-. (lit 2 1) *. (lit 2 1) *. x +. z1) +. z1   (* :1021-1027 *)
  | AO3RU => if x >=. z0 then pw ((lit 3 1) *. (lit 3 1) *. x +. z1) (z1 /. (lit 3 1)) -. z1 else -. pw (-. (lit 3 1) *. (lit 3 1) *. x +. z1) (z1 /. (lit 3 1)) +. z1   (* :1047-1053 *)
  | ASmoothSigmoid => if x >. z0 then (if x >. lit 4 1 then z1 else lit 1 2 +. x *. lit 1 4 -. x *. x *. (z1 /. lit 32 1)) else (if x <. -. lit 4 1 then z0 else lit 1 2 +. x *. lit 1 4 +. x *. x *. (z1 /. lit 32 1))   (* :1408-1424 *)
  | ASmoothSoftPlus => if x <. z0 then z0 else if x >. lit 1 2 then x -. lit 1 4 else x *. x   (* :1453-1462 *)
  | ASmoothTanh => if x >. z0 then (if x >. (lit 2 1) then z1 else x -. x *. x *. lit 1 4) else (if x <. -. (lit 2 1) then -. z1 else x +. x *. x *. lit 1 4)   (* :1484-1500 *)
  | ARelu => if x >. z0 then x else z0   (* :835-838 *)
  | ARelu6 => if x >=. lit 6 1 then lit 6 1 else if x <=. z0 then z0 else x   (* :854-863 *)
  | ASelu => if x >=. z0 then seluL *. x else seluL *. seluA *. flm F Lexpm1 x   (* :1128-1134 *)
  | ASoftPlus => flm F Llog1p (ex x)   (* :1153-1156 *)
  | ASoftShrink => if x >. lit 1 2 then x -. lit 1 2 else if x <. -. lit 1 2 then x +. lit 1 2 else z0   (* :1174-1183 *)
  | ASoftSign => x /. (z1 +. fabs F x)   (* :1204-1207 *)
  | ASoftSteps => x -. flm F Lsin (x *. twoPi) *. invTwoPi   (* :1227-1231 *)
  | ASQNL => if x >=. z0 then (if x >=. (lit 2 1) then z1 else x -. x *. x *. lit 1 4) else (if x <=. -. (lit 2 1) then -. z1 else x +. x *. x *. lit 1 4)   (* :1363-1379 *)
  | ASQRBF => if fabs F x >=. (lit 2 1) then z0 else if fabs F x <=. z1 then z1 -. x *. x *. lit 1 2 else if x >=. z0 then x *. x *. lit 1 2 -. (lit 2 1) *. x +. (lit 2 1) else x *. x *. lit 1 2 +. (lit 2 1) *. x +. (lit 2 1)   (* :1529-1541 *)
  | ASigmoid => z1 /. (z1 +. ex (-. x))   (* :1247-1250 *)
  | ASiLU => x /. (z1 +. ex (-. x))   (* :1267-1270 *)
  | ASinC => if x ==. z0 then z1 else flm F Lsin x /. x   (* :745-751 *)
  | ASin => flm F Lsin x   (* :725-728 *)
  | ASineReLU => if x >. z0 then x else lit 1 100 *. (flm F Lsin x -. flm F Lcos x)   (* :772-778 *)
  | ASwish => x /. (z1 +. ex (-. x))   (* :1344-1347 *)
  | ATanh => th x   (* :1565-1568 *)
  | ATanhExp => x *. th (ex x)   (* :1585-1588 *)
  | ATanhShrink => x -. th x   (* :1604-1607 *)
  | AThresholdedRelu => if x >=. z1 then x else z0   (* :1625-1628 *)
  end.

(* the virtual functions derivation(x) *)
Definition act_deriv (k : actKind) (x : F) : F :=
  match k with
  | AAbsolute => if x >=. z0 then z1 else -. z1   (* :35-38 *)
  | AAsinh => z1 /. sq (z1 +. x *. x)   (* :55-58 *)
  | AAtan => z1 /. (z1 +. x *. x)   (* :74-77 *)
  | ABent => x /. ((lit 2 1) *. sq (x *. x +. z1)) +. z1   (* :406-409 *)
  | ABinaryStep => z0   (* :428-433 *)
  | ABipolar => z0   (* :96-101 *)
  | ABipolarSigmoid => let s := ex x in (lit 2 1) *. s /. ((s +. z1) *. (s +. z1))   (* :118-122 *)
  | ABump => if fabs F x <. z1 then let y := x *. x -. z1 in -. (lit 2 1) *. x *. ex (z1 /. y) /. (y *. y) else z0   (* :141-150 *)
  | ACELU => if x >=. z0 then z1 else ex (x /. z1)   (* :1110-1116 *)
  | AComplementaryLogLog => ex (x -. ex x)   (* :166-169 *)
  | ADivideBy256 => lit 1 256   (* :185-189 *)
  | AdSiLU => let e := ex (-. x) in let v := z1 /. (z1 +. e) in e *. v *. v *. ((lit 2 1) +. x *. ((lit 2 1) *. e *. v -. z1))   (* :1294-1301 *)
  | AELiSH => let e := ex (-. x) in let v := z1 /. (e +. z1) in if x >=. z0 then v +. x *. e *. v *. v else let p := z1 /. e in p *. v +. e *. (p -. z1) *. v *. v   (* :210-225 *)
  | AElliot => let d := z1 +. fabs F x in lit 1 2 /. (d *. d)   (* :241-245 *)
  | AELU => if x >=. z0 then z1 else flm F Lexpm1 x +. z1   (* :1082-1090 *)
  | AEswish => let s := z1 /. (z1 +. ex (-. x)) in lit 7 4 *. s *. (x +. z1 -. x *. s)   (* :263-267 *)
  | AExponential => ex x   (* :283-286 *)
  | AE2RU => if x >=. z0 then (lit 2 1) /. sq ((lit 2 1) *. (lit 2 1) *. x +. z1) else (lit 2 1) *. ex ((lit 2 1) *. x)   (* :306-312 *)
  | AE3RU => if x >=. z0 then (lit 3 1) *. pw ((lit 3 1) *. (lit 3 1) *. x +. z1) (-. (lit 2 1) /. (lit 3 1)) else (lit 3 1) *. ex ((lit 3 1) *. x)   (* :332-338 *)
  | AFTS => if x <. z0 then z0 else let s := z1 /. (z1 +. ex (-. x)) in s *. (x +. z1 -. x *. s)   (* :357-364 *)
  | AFTSPlus => if x <. z0 then z0 else let s := z1 /. (z1 +. ex (-. x)) in s *. (x +. z1 -. x *. s)   (* :383-390 *)
  | AGauss => -. (lit 2 1) *. x *. ex (-. x *. x)   (* :449-452 *)
  | AGELU => lit 1 2 *. (z1 +. flm F Lerf (x /. sq (lit 2 1))) +. x *. ex (-. x *. x *. lit 1 2) /. sq (piLit *. (lit 2 1))   (* :474-478 *)
  | AHann => if fabs F x >. z1 then z0 else -. piLit *. lit 1 2 *. flm F Lsin (piLit *. x)   (* :502-510 *)
  | AHardELU => if x >=. z0 then z1 else if x <=. -. (lit 2 1) then z0 else lit 1 2   (* :534-543 *)
  | AHardSigmoid => if x >. lit 5 2 then z0 else if x <. -. lit 5 2 then z0 else lit 1 5   (* :1323-1332 *)
  | AHardShrink => if x >. lit 1 2 then z1 else if x <. -. lit 1 2 then z1 else z0   (* :567-576 *)
  | AHardSwish => if x >=. (lit 3 1) then z1 else if x <. -. (lit 3 1) then z0 else x *. (z1 /. (lit 3 1)) +. lit 1 2   (* :598-607 *)
  | AHardTanh => if x >. z1 then z0 else if x <. -. z1 then z0 else z1   (* :629-638 *)
  | AIdentity => z1   (* :654-658 *)
  | AISRLU => if x >=. z0 then z1 else let t := z1 /. sq (z1 +. z1 *. x *. x) in t *. t *. t   (* :679-688 *)
  | ALeakyRelu => if x >=. z0 then z1 else lit 1 100   (* :890-893 *)
  | ALeakyRelu256 => if x >=. z0 then z1 else lit 1 256   (* :910-913 *)
  | ALeakyTwiceRelu6 => if x <. z0 then lit 1 5 else if x >. lit 6 1 then lit 1 5 else z1   (* :938-947 *)
  | ALecunTanh => let t := flm F Lcosh (x *. lit 666666 1000000) in (lit 17159 10000 *. lit 666666 1000000) /. (t *. t)   (* :963-967 *)
  | ALiSHT => let t := th x in x +. t *. (z1 -. x *. t)   (* :983-987 *)
  | ALogit => -. x /. (x -. z1)   (* :802-805 *)
  | ALogSigmoid => z1 /. (z1 +. ex x)   (* :821-824 *)
  | AMish => let e := ex x in let p := flm F Llog1p e in let h := z1 /. flm F Lcosh p in th p +. x *. e *. h *. h /. (e +. z1)   (* :706-713 *)
  | ANLRelu => if x >. z0 then z1 /. (z1 +. x) else z0   (* :1003-1006 *)
  | AO2RU => if x >=. z0 then (lit 2 1) /. sq ((lit 2 1) *. (lit 2 1) *. x +. z1) else (lit 2 1) /. sq (-. (lit 2 1) *. (lit 2 1) *. x +. z1)   (* :1029-1035 *)
  | AO3RU => if x >=. z0 then (lit 3 1) *. pw ((lit 3 1) *. (lit 3 1) *. x +. z1) (-. (lit 2 1) /. (lit 3 1)) else (lit 3 1) *. pw (-. (lit 3 1) *. (lit 3 1) *. x +. z1) (-. (lit 2 1) /. (lit 3 1))   (* :1055-1061 *)
  | ASmoothSigmoid => if x >. z0 then (if x >. lit 4 1 then z0 else lit 1 4 -. x *. (z1 /. lit 16 1)) else (if x <. -. lit 4 1 then z0 else lit 1 4 +. x *. (z1 /. lit 16 1))   (* :1425-1441 *)
  | ASmoothSoftPlus => if x <. z0 then z0 else if x >. lit 1 2 then z1 else x +. x   (* :1463-1472 *)
  | ASmoothTanh => if x >. z0 then (if x >. (lit 2 1) then z0 else z1 -. x *. lit 1 2) else (if x <. -. (lit 2 1) then -. z0 else z1 +. x *. lit 1 2)   (* :1501-1517 *)
  | ARelu => if x >. z0 then z1 else z0   (* :840-843 *)
  | ARelu6 => if x >=. lit 6 1 then z0 else if x <=. z0 then z0 else z1   (* :865-874 *)
  | ASelu => if x >=. z0 then seluL else seluL *. seluA *. flm F Lexpm1 x +. seluL *. seluA   (* :1136-1142 *)
  | ASoftPlus => z1 /. (z1 +. ex (-. x))   (* :1158-1161 *)
  | ASoftShrink => if x >. lit 1 2 then z1 else if x <. -. lit 1 2 then z1 else z0   (* :1184-1193 *)
  | ASoftSign => let d := z1 +. fabs F x in z1 /. (d *. d)   (* :1209-1213 *)
  | ASoftSteps => z1 -. flm F Lcos (x *. twoPi)   (* :1233-1236 *)
  | ASQNL => if x >=. z0 then (if x >=. (lit 2 1) then z0 else z1 -. x *. lit 1 2) else (if x <=. -. (lit 2 1) then z0 else z1 +. x *. lit 1 2)   (* :1380-1396 *)
  | ASQRBF => if fabs F x >=. (lit 2 1) then z0 else if fabs F x <=. z1 then z1 -. x else if x >=. z0 then x -. (lit 2 1) else x +. (lit 2 1)   (* :1542-1554 *)
  | ASigmoid => let s := z1 /. (z1 +. ex (-. x)) in s *. (z1 -. s)   (* :1251-1255 *)
  | ASiLU => let e := ex (-. x) in let v := z1 /. (z1 +. e) in v *. (z1 +. x *. e *. v)   (* :1271-1276 *)
  | ASinC => if x ==. z0 then z0 else flm F Lcos x /. x -. flm F Lsin x /. (x *. x)   (* :753-759 *)
  | ASin => flm F Lcos x   (* :730-733 *)
  | ASineReLU => if x >. z0 then z1 else lit 1 100 *. (-. flm F Lcos x +. flm F Lsin x)   (* :780-786 *)
  | ASwish => let s := z1 /. (z1 +. ex (-. x)) in s *. (x +. z1 -. x *. s)   (* :1348-1352 *)
  | ATanh => let t := th x in z1 -. t *. t   (* :1569-1573 *)
  | ATanhExp => let f := x *. th (ex x) in f -. x *. (f *. f -. z1)   (* :1589-1593 *)
  | ATanhShrink => let t := th x in t *. t   (* :1608-1612 *)
  | AThresholdedRelu => if x >=. z1 then z1 else z0   (* :1630-1633 *)
  end.
End Model.

Local Open Scope string_scope.
(* the virtual functions name() *)
Definition act_name (k : actKind) : string :=
  match k with
  | AAbsolute => "Absolute"
  | AAsinh => "Asinh"
  | AAtan => "Atan"
  | ABent => "Bent"
  | ABinaryStep => "BinaryStep"
  | ABipolar => "Bipolar"
  | ABipolarSigmoid => "BipolarSigmoid"
  | ABump => "Bump"
  | ACELU => "CELU"
  | AComplementaryLogLog => "ComplementaryLogLog"
  | ADivideBy256 => "DivideBy256"
  | AdSiLU => "dSiLU"
  | AELiSH => "ELiSH"
  | AElliot => "Elliot"
  | AELU => "ELU"
  | AEswish => "Eswish"
  | AExponential => "Exponential"
  | AE2RU => "E2RU"
  | AE3RU => "E3RU"
  | AFTS => "FTS"
  | AFTSPlus => "FTS+"
  | AGauss => "Gauss"
  | AGELU => "GELU"
  | AHann => "Hann"
  | AHardELU => "HardELU"
  | AHardSigmoid => "HardSigmoid"
  | AHardShrink => "HardShrink"
  | AHardSwish => "HardSwish"
  | AHardTanh => "HardTanh"
  | AIdentity => "Identity"
  | AISRLU => "ISRLU"
  | ALeakyRelu => "LeakyRelu"
  | ALeakyRelu256 => "LeakyRelu256"
  | ALeakyTwiceRelu6 => "LeakyTwiceRelu6"
  | ALecunTanh => "LecunTanh"
  | ALiSHT => "LiSHT"
  | ALogit => "Logit"
  | ALogSigmoid => "LogSigmoid"
  | AMish => "Mish"
  | ANLRelu => "NLRelu"
  | AO2RU => "O2RU"
  | AO3RU => "O3RU"
  | ASmoothSigmoid => "SmoothSigmoid"
  | ASmoothSoftPlus => "SmoothSoftPlus"
  | ASmoothTanh => "SmoothTanh"
  | ARelu => "Relu"
  | ARelu6 => "Relu6"
  | ASelu => "Selu"
  | ASoftPlus => "SoftPlus"
  | ASoftShrink => "SoftShrink"
  | ASoftSign => "SoftSign"
  | ASoftSteps => "SoftSteps"
  | ASQNL => "SQNL"
  | ASQRBF => "SQ-RBF"
  | ASigmoid => "Sigmoid"
  | ASiLU => "SiLU"
  | ASinC => "SinC"
  | ASin => "Sin"
  | ASineReLU => "SineReLU"
  | ASwish => "Swish"
  | ATanh => "Tanh"
  | ATanhExp => "TanhExp"
  | ATanhShrink => "TanhShrink"
  | AThresholdedRelu => "ThresholdedRelu"
  end.

(* Activations.cpp:1636-1833 get_activation: the chain of comparisons, in the order of the source *)
Definition get_activation (s : string) : option actKind :=
  if s =? "Absolute" then Some AAbsolute else
  if s =? "Asinh" then Some AAsinh else
  if s =? "Atan" then Some AAtan else
  if s =? "Bent" then Some ABent else
  if s =? "BinaryStep" then Some ABinaryStep else
  if s =? "Bipolar" then Some ABipolar else
  if s =? "BipolarSigmoid" then Some ABipolarSigmoid else
  if s =? "Bump" then Some ABump else
  if s =? "CELU" then Some ACELU else
  if s =? "ComplementaryLogLog" then Some AComplementaryLogLog else
  if s =? "DivideBy256" then Some ADivideBy256 else
  if s =? "dSiLU" then Some AdSiLU else
  if s =? "ELiSH" then Some AELiSH else
  if s =? "Elliot" then Some AElliot else
  if s =? "ELU" then Some AELU else
  if s =? "Eswish" then Some AEswish else
  if s =? "Exponential" then Some AExponential else
  if s =? "E2RU" then Some AE2RU else
  if s =? "E3RU" then Some AE3RU else
  if s =? "FTS" then Some AFTS else
  if s =? "FTS+" then Some AFTSPlus else
  if s =? "Gauss" then Some AGauss else
  if s =? "GELU" then Some AGELU else
  if s =? "Hann" then Some AHann else
  if s =? "HardELU" then Some AHardELU else
  if s =? "HardSigmoid" then Some AHardSigmoid else
  if s =? "HardShrink" then Some AHardShrink else
  if s =? "HardSwish" then Some AHardSwish else
  if s =? "HardTanh" then Some AHardTanh else
  if s =? "Identity" then Some AIdentity else
  if s =? "ISRLU" then Some AISRLU else
  if s =? "LeakyRelu" then Some ALeakyRelu else
  if s =? "LeakyRelu256" then Some ALeakyRelu256 else
  if s =? "LeakyTwiceRelu6" then Some ALeakyTwiceRelu6 else
  if s =? "LecunTanh" then Some ALecunTanh else
  if s =? "LiSHT" then Some ALiSHT else
  if s =? "Logit" then Some ALogit else
  if s =? "LogSigmoid" then Some ALogSigmoid else
  if s =? "Mish" then Some AMish else
  if s =? "NLRelu" then Some ANLRelu else
  if s =? "O2RU" then Some AO2RU else
  if s =? "O3RU" then Some AO3RU else
  if s =? "SmoothSigmoid" then Some ASmoothSigmoid else
  if s =? "SmoothSoftPlus" then Some ASmoothSoftPlus else
  if s =? "SmoothTanh" then Some ASmoothTanh else
  if s =? "Relu" then Some ARelu else
  if s =? "Relu6" then Some ARelu6 else
  if s =? "Selu" then Some ASelu else
  if s =? "SQNL" then Some ASQNL else
  if s =? "SQ-RBF" then Some ASQRBF else
  if s =? "SoftPlus" then Some ASoftPlus else
  if s =? "Sigmoid" then Some ASigmoid else
  if s =? "SiLU" then Some ASiLU else
  if s =? "Sin" then Some ASin else
  if s =? "SineReLU" then Some ASineReLU else
  if s =? "SinC" then Some ASinC else
  if s =? "Swish" then Some ASwish else
  if s =? "SoftShrink" then Some ASoftShrink else
  if s =? "SoftSign" then Some ASoftSign else
  if s =? "SoftSteps" then Some ASoftSteps else
  if s =? "Tanh" then Some ATanh else
  if s =? "TanhExp" then Some ATanhExp else
  if s =? "TanhShrink" then Some ATanhShrink else
  if s =? "ThresholdedRelu" then Some AThresholdedRelu else
  None.

(* Activations.cpp:1835-1907 list_activations_available *)
Definition list_activations_available : list string :=
  ["Absolute"; "Asinh"; "Atan"; "Bent"; "BinaryStep"; "Bipolar"; "BipolarSigmoid"; "Bump";
   "CELU"; "ComplementaryLogLog"; "DivideBy256"; "dSiLU"; "ELiSH"; "Elliot"; "ELU"; "Eswish";
   "Exponential"; "E2RU"; "E3RU"; "FTS"; "FTS+"; "Gauss"; "GELU"; "Hann";
   "HardELU"; "HardSigmoid"; "HardShrink"; "HardSwish"; "HardTanh"; "Identity"; "ISRLU"; "LeakyRelu";
   "LeakyRelu256"; "LeakyTwiceRelu6"; "LecunTanh"; "LiSHT"; "Logit"; "LogSigmoid"; "Mish"; "NLRelu";
   "O2RU"; "O3RU"; "SmoothSigmoid"; "SmoothSoftPlus"; "SmoothTanh"; "Relu"; "Relu6"; "Selu";
   "SoftPlus"; "SoftShrink"; "SoftSign"; "SoftSteps"; "SQNL"; "SQ-RBF"; "Sigmoid"; "SiLU";
   "SinC"; "Sin"; "SineReLU"; "Swish"; "Tanh"; "TanhExp"; "TanhShrink"; "ThresholdedRelu"].
