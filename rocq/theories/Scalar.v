(* Scalar.v - the arithmetic the C++ templates are instantiated with.
   FOps is a record of operations only: no laws.  A theorem over all FOps holds for IEEE floats. *)
From Coq Require Import ZArith List Reals Lra Bool QArith Qround.
From Coquelicot Require Import Coquelicot.
From Flocq Require Import IEEE754.BinarySingleNaN.
Import ListNotations.
Set Implicit Arguments.

(* the one-argument libm functions used by the sources *)
Inductive libm :=
| Lexp | Lexpm1 | Llog | Llog1p | Lsqrt | Ltanh | Lcosh | Lsin | Lcos | Latan | Lasinh | Lerf | Lround.

Record FOps := mkFOps {
  T :> Type;
  f0 : T; f1 : T;
  fadd : T -> T -> T; fsub : T -> T -> T; fmul : T -> T -> T; fdiv : T -> T -> T;
  fopp : T -> T; fabs : T -> T;
  fsign : T -> T;                 (* copysign(1, x) *)
  flt : T -> T -> bool; fle : T -> T -> bool; feq : T -> T -> bool;
  flm : libm -> T -> T;
  fpow : T -> T -> T;
  flit : Z -> positive -> T;      (* the literal num/den *)
  fofZ : Z -> T;                  (* integer to float conversion *)
  ftoZ : T -> option Z;           (* float to integer conversion; None = undefined behaviour *)
  fjunk : T                       (* content of uninitialised memory *)
}.

Definition fofN (F : FOps) (n : nat) : F := fofZ F (Z.of_nat n).

(** ordered summation 0 + f 0 + ... + f (n-1) *)
Definition fsum (F : FOps) (n : nat) (f : nat -> F) : F :=
  fold_left (fun v k => fadd F v (f k)) (seq 0 n) (f0 F).

(** * Real numbers *)
Definition Rltb (x y : R) : bool := if Rlt_dec x y then true else false.
Definition Rleb (x y : R) : bool := if Rle_dec x y then true else false.
Definition Reqb (x y : R) : bool := if Req_EM_T x y then true else false.
(* copysign(1,x): +1 on zero (the reals have no negative zero) *)
Definition Rsign (x : R) : R := if Rlt_dec x 0 then (-1)%R else 1%R.
Definition Rtanh (x : R) : R := ((exp x - exp (- x)) / (exp x + exp (- x)))%R.
Definition Rcosh (x : R) : R := ((exp x + exp (- x)) / 2)%R.
Definition Rasinh (x : R) : R := ln (x + sqrt (x * x + 1)).
Definition Rerf (x : R) : R := (2 / sqrt PI * RInt (fun t => exp (- (t * t))) 0 x)%R.
Definition Rtrunc (x : R) : Z := if Rlt_dec x 0 then (- (Int_part (- x)))%Z else Int_part x.
Definition Rround (x : R) : R := (* roundf: halves away from zero *)
  if Rlt_dec x 0 then (- IZR (Int_part (- x + / 2)))%R else IZR (Int_part (x + / 2)).
Definition Rlibm (f : libm) (x : R) : R :=
  match f with
  | Lexp => exp x | Lexpm1 => exp x - 1 | Llog => ln x | Llog1p => ln (1 + x) | Lsqrt => sqrt x
  | Ltanh => Rtanh x | Lcosh => Rcosh x | Lsin => sin x | Lcos => cos x | Latan => atan x
  | Lasinh => Rasinh x | Lerf => Rerf x | Lround => Rround x
  end%R.
(* powf; bases used by the sources are non-negative *)
Definition Rpow (x y : R) : R := if Req_EM_T x 0 then (if Req_EM_T y 0 then 1%R else 0%R) else Rpower x y.

Definition ROps (junk : R) : FOps := {|
  T := R; f0 := 0%R; f1 := 1%R;
  fadd := Rplus; fsub := Rminus; fmul := Rmult; fdiv := Rdiv;
  fopp := Ropp; fabs := Rabs; fsign := Rsign;
  flt := Rltb; fle := Rleb; feq := Reqb;
  flm := Rlibm; fpow := Rpow;
  flit := fun n d => (IZR n / IZR (Zpos d))%R;
  fofZ := IZR; ftoZ := fun x => Some (Rtrunc x);
  fjunk := junk |}.

(** * Rationals: an executable instance for examples.  The transcendental functions are stubs (identity). *)
Definition Qtrunc (q : Q) : Z := if Qle_bool 0 q then Qfloor q else (- Qfloor (- q))%Z.
Definition QOps : FOps := {|
  T := Q; f0 := 0%Q; f1 := 1%Q;
  fadd := fun a b => Qred (a + b); fsub := fun a b => Qred (a - b);
  fmul := fun a b => Qred (a * b); fdiv := fun a b => Qred (a / b);
  fopp := Qopp; fabs := Qabs.Qabs; fsign := fun q => if Qle_bool 0 q then 1%Q else (-1)%Q;
  flt := fun a b => negb (Qle_bool b a); fle := Qle_bool; feq := Qeq_bool;
  flm := fun f q => match f with Lround => inject_Z (Qfloor (q + (1#2))) | _ => q end; fpow := fun a _ => a;
  flit := fun n d => Qred (n # d);
  fofZ := inject_Z; ftoZ := fun q => Some (Qtrunc q);
  fjunk := (-77)%Q |}.

(** * Integers: the quickest executable instance for structural examples *)
Definition ZOps : FOps := {|
  T := Z; f0 := 0%Z; f1 := 1%Z;
  fadd := Z.add; fsub := Z.sub; fmul := Z.mul; fdiv := Z.div;
  fopp := Z.opp; fabs := Z.abs; fsign := fun z => if Z.ltb z 0 then (-1)%Z else 1%Z;
  flt := Z.ltb; fle := Z.leb; feq := Z.eqb;
  flm := fun _ z => z; fpow := Z.pow;
  flit := fun n d => Z.div n (Zpos d);
  fofZ := fun z => z; ftoZ := fun z => Some z;
  fjunk := (-77)%Z |}.

(** * IEEE-754 binary32 (Flocq, one NaN).  libm is a parameter: any function will do. *)
Definition b32 := binary_float 24 128.
Definition prec32_gt_0 : FLX.Prec_gt_0 24. Proof. reflexivity. Qed.
Definition prec32_lt : Prec_lt_emax 24 128. Proof. reflexivity. Qed.
Definition b32_of_Z (z : Z) : b32 := binary_normalize 24 128 prec32_gt_0 prec32_lt mode_NE z 0 false.
Definition b32_add : b32 -> b32 -> b32 := @Bplus 24 128 prec32_gt_0 prec32_lt mode_NE.
Definition b32_sub : b32 -> b32 -> b32 := @Bminus 24 128 prec32_gt_0 prec32_lt mode_NE.
Definition b32_mul : b32 -> b32 -> b32 := @Bmult 24 128 prec32_gt_0 prec32_lt mode_NE.
Definition b32_div : b32 -> b32 -> b32 := @Bdiv 24 128 prec32_gt_0 prec32_lt mode_NE.
Definition b32_sqrt : b32 -> b32 := @Bsqrt 24 128 prec32_gt_0 prec32_lt mode_NE.
Definition b32_lt (x y : b32) : bool := match Bcompare x y with Some Lt => true | _ => false end.
Definition b32_le (x y : b32) : bool := match Bcompare x y with Some Lt | Some Eq => true | _ => false end.
Definition b32_eq (x y : b32) : bool := match Bcompare x y with Some Eq => true | _ => false end.
Definition b32_toZ (x : b32) : option Z := if BinarySingleNaN.is_finite x then Some (Btrunc x) else None.

Definition B32Ops (lm : libm -> b32 -> b32) (pw : b32 -> b32 -> b32) (junk : b32) : FOps := {|
  T := b32; f0 := B754_zero false; f1 := b32_of_Z 1;
  fadd := b32_add; fsub := b32_sub; fmul := b32_mul; fdiv := b32_div;
  fopp := @Bopp 24 128; fabs := @Babs 24 128;
  fsign := fun x => if Bsign x then b32_of_Z (-1) else b32_of_Z 1;
  flt := b32_lt; fle := b32_le; feq := b32_eq;
  flm := fun f x => match f with Lsqrt => b32_sqrt x | _ => lm f x end; fpow := pw;
  flit := fun n d => b32_div (b32_of_Z n) (b32_of_Z (Zpos d));
  fofZ := b32_of_Z; ftoZ := b32_toZ;
  fjunk := junk |}.
