(* SpecTwin.v - two units with the same parameters *)
From Coq Require Import Arith.
From Verif Require Import Base Mat.

(* columns u and v of a matrix hold the same values; rows u and v *)
Definition sameCols {A} (u v : nat) (m : mat A) : Prop := forall i, i < mrows m -> mget2 m i u = mget2 m i v.
Definition sameRows {A} (u v : nat) (m : mat A) : Prop := forall i, i < mcols m -> mget2 m u i = mget2 m v i.
