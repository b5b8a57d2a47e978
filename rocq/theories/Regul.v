(* Regul.v - model of src/Regularizer.cpp *)
From Coq Require Import List Arith Bool ZArith String.
From Verif Require Import Base Scalar Mat Loss Optim.
Import ListNotations.

Inductive regKind := RNone | RL1 | RL2 | RL1L2 | RClip | RNormClip | RClipTanh.

Section Model.
Variable F : FOps.
Notation M := (mat F).

Record regul := mkReg { rkind : regKind; rparam : F }.

(* Regularizer.cpp:18-21 *)
Definition newReg (k : regKind) : regul := mkReg k (minus1 F).
(* :26-29 and the overrides at :73-79, :100-106, :129-135, :156-162, :188-194, :221-227 *)
Definition set_parameter (r : regul) (p : F) : regul :=
  mkReg (rkind r) (match rkind r with
    | RNone => p
    | RL1 | RL2 | RL1L2 | RNormClip => dflt F p (flit F 1 100)
    | RClip | RClipTanh => dflt F p (flit F 1 1000) end).

(* the virtual functions apply(w, dw): the new dw (w is a non-const reference, no class writes to it) *)
Definition reg_apply (r : regul) (w dw : M) : res M :=
  let p := rparam r in
  match rkind r with
  | RNone => Ok dw                                                                   (* :50-54 *)
  | RL1 => s <- msign F w ;; s <- mscale F s p ;; maddM F dw s                       (* :81-84 *)
  | RL2 => s <- mscale F w p ;; maddM F dw s                                         (* :108-111 *)
  | RL1L2 => s <- mscale F w p ;; a <- maddM F dw s ;;
             t <- msign F w ;; t <- mscale F t p ;; maddM F a t                      (* :137-140 *)
  | RClip => mclamp F dw (fopp F p) p                                                (* :164-168 *)
  | RNormClip => n <- mnorm F dw ;;
             if flt F p n then q <- mdivS F dw n ;; mscale F q p else Ok dw          (* :196-203 *)
  | RClipTanh => a <- mscale F dw (fdiv F (f1 F) p) ;; t <- mtanh F a ;; mscale F t p (* :229-233 *)
  end.
End Model.

Local Open Scope string_scope.
Definition reg_name (k : regKind) : string :=
  match k with RNone => "None" | RL1 => "L1" | RL2 => "L2" | RL1L2 => "L1L2" | RClip => "GradientClip"
  | RNormClip => "GradientNormClip" | RClipTanh => "GradientClipTanh" end.
(* Regularizer.cpp:236-260 create_regularizer *)
Definition create_regularizer (s : string) : option regKind :=
  if s =? "None" then Some RNone else
  if s =? "L1" then Some RL1 else
  if s =? "L2" then Some RL2 else
  if s =? "L1L2" then Some RL1L2 else
  if s =? "GradientClip" then Some RClip else
  if s =? "GradientNormClip" then Some RNormClip else
  if s =? "GradientClipTanh" then Some RClipTanh else None.
(* Regularizer.cpp:262-273 list_regularizer_available *)
Definition list_regularizer_available : list string :=
  ["None"; "L1"; "L2"; "L1L2"; "GradientClip"; "GradientNormClip"; "GradientClipTanh"].
