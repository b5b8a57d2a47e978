(* SpecNaN.v - numbers and not-a-numbers in single precision; what is assumed of the C library *)
From Coq Require Import ZArith Reals Bool List.
From Flocq Require Import Core IEEE754.BinarySingleNaN.
From Verif Require Import Base Scalar Act SpecRound.
Import ListNotations.
Local Open Scope R_scope.

(* finite or infinite *)
Definition num (x : b32) : Prop := is_nan x = false.
Definition nan (x : b32) : Prop := is_nan x = true.
(* the value, an infinity counting as 2^128, which is above every finite float *)
Definition ext (x : b32) : R :=
  match x with B754_infinity false => max32 | B754_infinity true => - max32 | _ => val x end.
(* a number in an interval *)
Definition btw (lo hi : R) (x : b32) : Prop := num x /\ lo <= ext x <= hi.
Definition inf32 (s : bool) : b32 := B754_infinity s.
Definition p2 (z : Z) : R := bpow radix2 z.

(* the float functions of the C library: coarse ranges and the special cases of C11 annex F *)
Record stdLibm (lm : libm -> b32 -> b32) (pw : b32 -> b32 -> b32) : Prop := {
  exp_num : forall x, num x -> btw 0 max32 (lm Lexp x);
  exp_neg : forall x, num x -> ext x <= 0 -> btw 0 1 (lm Lexp x);
  exp_pos : forall x, num x -> 0 <= ext x -> btw 1 max32 (lm Lexp x);
  exp_mid : forall x, num x -> Rabs (ext x) <= 32 -> btw (p2 (-47)) (p2 47) (lm Lexp x);
  exp_fin : forall x, num x -> ext x <= 64 -> btw 0 (p2 93) (lm Lexp x);
  exp_big : forall x, num x -> 89 <= ext x -> lm Lexp x = inf32 false;
  exp_inf : lm Lexp (inf32 true) = B754_zero false;
  expm1_neg : forall x, num x -> ext x <= 0 -> btw (-1) 0 (lm Lexpm1 x);
  log_num : forall x, num x -> 0 <= ext x -> num (lm Llog x);
  log_fin : forall x, fin x -> 0 < val x -> btw (- p2 7) (p2 7) (lm Llog x);
  log_neg : forall x, num x -> ext x < 0 -> nan (lm Llog x);
  log1p_num : forall x, num x -> 0 <= ext x -> btw 0 max32 (lm Llog1p x);
  log1p_fin : forall x, fin x -> 0 <= val x -> btw 0 (p2 7) (lm Llog1p x);
  log1p_inf : lm Llog1p (inf32 false) = inf32 false;
  tanh_num : forall x, num x -> btw (-1) 1 (lm Ltanh x);
  cosh_num : forall x, num x -> btw 1 max32 (lm Lcosh x);
  cosh_inf : lm Lcosh (inf32 false) = inf32 false;
  sin_fin : forall x, fin x -> btw (-1) 1 (lm Lsin x);
  sin_pos : forall x, fin x -> 0 < val x <= 1 -> 0 < ext (lm Lsin x);
  sin_inf : forall s, nan (lm Lsin (inf32 s));
  cos_fin : forall x, fin x -> btw (-1) 1 (lm Lcos x);
  cos_one : forall x, fin x -> Rabs (val x) <= 1 -> btw (/ 2) 1 (lm Lcos x);
  cos_inf : forall s, nan (lm Lcos (inf32 s));
  atan_num : forall x, num x -> btw (-2) 2 (lm Latan x);
  asinh_fin : forall x, fin x -> btw (- p2 7) (p2 7) (lm Lasinh x);
  erf_num : forall x, num x -> btw (-1) 1 (lm Lerf x);
  pow_num : forall x y, btw 1 max32 x -> fin y -> btw 0 max32 (pw x y);
  pow_mid : forall x y, btw 1 (p2 10) x -> fin y -> Rabs (val y) <= 1 -> btw 0 (p2 11) (pw x y) }.

(* functions that are not-a-number at some finite input *)
Definition nanApply : list actKind := [ABipolarSigmoid; AdSiLU; AEswish; ALogit; ASoftSteps].
Definition nanDeriv : list actKind := [ABipolarSigmoid; AdSiLU; AELiSH; AGauss; AMish; ASiLU; ASinC; ASoftSteps].
(* inputs of ordinary size; Logit is defined between 0 and 1 only, the derivative of SinC divides by x*x *)
Definition ordinary (k : actKind) (x : b32) : Prop :=
  fin x /\ Rabs (val x) <= 32 /\
  match k with ALogit => 0 < val x < 1 | ASinC => val x = 0 \/ p2 (-60) <= Rabs (val x) | _ => True end.
