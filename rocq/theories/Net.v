(* Net.v - model of src/Net.cpp.  Layer objects live in a heap: the address of an object is its index, a deleted object
   is None and any further access to it is a use after free. *)
From Coq Require Import List Arith Bool ZArith.
From Verif Require Import Base Scalar Mat LayMat Layer.
Import ListNotations.
Local Open Scope nat_scope.

Section Model.
Variable F : FOps.
Notation M := (mat F).

Definition heap := list (option (layer F)).
Definition hget (h : heap) (a : nat) : res (layer F) :=
  x <- rget h a ;; match x with Some l => Ok l | None => Err EFree end.
Definition hset (h : heap) (a : nat) (l : layer F) : res heap := hget h a ;;; rset h a (Some l).
(* delete *)
Definition hfree (h : heap) (a : nat) : res heap := hget h a ;;; rset h a None.

(* Net.h:57-60: _layers (addresses), _bClassificationMode, _bTrainMode *)
Record net := mkNet { nlay : list nat; nclass : bool; ntrain : bool }.
(* Net.cpp:18-22 *)
Definition netNew : net := mkNet [] true false.

(* Net.cpp:29-36 clear *)
Definition netClear (h : heap) (n : net) : res (heap * net) :=
  h <- forL (nlay n) (fun a h => hfree h a) h ;; Ok (h, mkNet [] (nclass n) false).

(* one turn of Net.cpp:42-43: _layers.push_back(other._layers[i]->clone()) *)
Definition pushClone (rs : nat -> rnd F) (src : list nat) (i : nat) (p : heap * list nat) : res (heap * list nat) :=
  a <- rget src i ;; l <- hget (fst p) a ;; c <- layClone F (rs i) l ;;
  Ok (fst p ++ [Some c], snd p ++ [length (fst p)]).
(* Net.cpp:38-48 operator=; [self]: other is *this, so clear() has emptied it too *)
Definition netAssign (self : bool) (rs : nat -> rnd F) (h : heap) (n other : net) : res (heap * net) :=
  ' (h, n) <- netClear h n ;;
  let src := if self then n else other in
  ' (h, ls) <- forN (length (nlay src)) (pushClone rs (nlay src)) (h, nlay n) ;;
  Ok (h, mkNet ls (nclass src) (ntrain n)).

(* Net.cpp:51-54 add: takes ownership of the object at address a *)
Definition netAdd (n : net) (a : nat) : net := mkNet (nlay n ++ [a]) (nclass n) (ntrain n).
(* Net.cpp:57-63 replace *)
Definition netReplace (h : heap) (n : net) (i a : nat) : res (heap * net) :=
  assert_ (i <? length (nlay n)) ;;;
  old <- rget (nlay n) i ;; h <- hfree h old ;; ls <- rset (nlay n) i a ;; Ok (h, mkNet ls (nclass n) (ntrain n)).
Definition netSetClass (n : net) (b : bool) : net := mkNet (nlay n) b (ntrain n).

(* one turn of Net.cpp:69-73: forward of layer i *)
Definition fwdLayer (rs : nat -> rnd F) (n : net) (i : nat) (h : heap) (mIn out : M) : res (heap * M) :=
  a <- rget (nlay n) i ;; l <- hget h a ;; ' (l, o) <- layForward F (rs i) l mIn out ;; h <- hset h a l ;; Ok (h, o).
(* Net.cpp:65-74 predict; rs i are the random draws of layer i *)
Definition predict (rs : nat -> rnd F) (h : heap) (n : net) (mIn out : M) : res (heap * M) :=
  ' (h, _, o) <- forN (length (nlay n)) (fun i '(h, mTemp, mOut) =>
    ' (h, o) <- fwdLayer rs n i h mTemp mOut ;; Ok (h, o, o)) (h, mIn, out) ;;
  Ok (h, o).

(* Net.cpp:86-99 predict_classes *)
Definition predictClasses (rs : nat -> rnd F) (h : heap) (n : net) (mIn mClass : M) : res (heap * M) :=
  ' (h, o) <- predict rs h n mIn (mempty F) ;;
  c <- (if negb (mcols o =? 1) then rowsArgmax F o mClass
        else forN (mrows o) (fun i c => x <- mget2 o i 0 ;; mset2 c i 0 (flm F Lround x)) (mresize F mClass (mrows o) 1)) ;;
  Ok (h, c).

(* Net.cpp:101-107 set_train_mode *)
Definition netSetTrain (h : heap) (n : net) (b : bool) : res (heap * net) :=
  h <- forL (nlay n) (fun a h => l <- hget h a ;; hset h a (setTrain l b)) h ;;
  Ok (h, mkNet (nlay n) (nclass n) b).

(* Net.cpp:129-133 init *)
Definition netInit (rs : nat -> rnd F) (h : heap) (n : net) : res heap :=
  forN (length (nlay n)) (fun i h => a <- rget (nlay n) i ;; l <- hget h a ;; l <- layInit F (rs i) l ;; hset h a l) h.
End Model.
