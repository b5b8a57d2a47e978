(* SpecGuard.v - an operation whose arguments are checked: it succeeds when P holds and stops at an assertion otherwise *)
From Verif Require Import Base.
Definition guarded {A} (r : res A) (P : Prop) : Prop := (P -> exists x, r = Ok x) /\ (~ P -> r = Err EAssert).
(* never leaves the memory it owns, whatever the arguments *)
Definition checked {A} (r : res A) : Prop := (exists x, r = Ok x) \/ r = Err EAssert.
