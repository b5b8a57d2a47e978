(* SpecClass.v - networks that always choose the same classes *)
From Coq Require Import List Arith Reals.
From Verif Require Import Base Scalar Mat SpecMat Act LayMat LayImg Layer Net.
Import ListNotations.

(* both networks predict classes, and the same ones, on every batch, into any buffers, whatever the random draws *)
Definition sameClasses {F : FOps} (h : heap F) (n n' : net) (k : nat) : Prop := forall rs rs' N X cls cls', mwf cls -> mwf cls' ->
  exists h1 h1' c, predictClasses F rs h n (mgen N k X) cls = Ok (h1, c) /\ predictClasses F rs' h n' (mgen N k X) cls' = Ok (h1', c).
(* activation functions that are strictly increasing on the whole line *)
Definition strict_kinds : list actKind :=
  [AAsinh; AAtan; ABent; ABipolarSigmoid; ACELU; AComplementaryLogLog; ADivideBy256; AElliot; AELU; AExponential; AE2RU; AE3RU; AIdentity; AISRLU;
   ALeakyRelu; ALeakyRelu256; ALeakyTwiceRelu6; ALecunTanh; ALogSigmoid; AO2RU; AO3RU; ASelu; ASoftPlus; ASoftSign; ASoftSteps; ASigmoid; ATanh; ATanhShrink].
(* final layers that keep the order of the values of a row: Softmax, a strictly increasing activation, one positive gain, one bias for all the values *)
Definition ordered {jk : R} (l : layer (ROps jk)) : Prop := match lk l with
  | KSoftmax => True | KAct (Some a) => In a strict_kinds | KGlobalBias => True | KGlobalGain => exists g : R, lw l = @mgen R 1 1 (fun _ _ => g) /\ (0 < g)%R | _ => False end.
