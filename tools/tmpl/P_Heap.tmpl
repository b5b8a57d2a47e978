(* P_Heap.v - property theorems about the storage of matrices: in-place product, copies and views, memory safety (C02 - C04) *)
From Coq Require Import List Arith Bool ZArith Reals.
From Verif Require Import Base Scalar Mat SpecMat MatHeap SpecHeap HeapProofs6 HeapProofs7 HeapProofs8.
Import ListNotations.
Local Open Scope nat_scope.

(** C02.  Right operands on another storage (views included): the value of m*b, and b is left as it was. *)
@thm C02_in_place_product_partial = product_in_place | forall F : FOps, | aget = aget F; arows = arows F; acols = acols F
(* missing from the full statement: operands on the same storage.  There it is false: *)
@thm C02_self_product_is_zero = self_product | forall F : FOps, | aget = aget F; arows = arows F; acols = acols F
@thm C02_self_product_is_zero_real = self_product_real
@thm C02_self_product_refuted = self_product_refuted
@thm C02_own_view_frees_refuted = view_product_refuted
Example C02_case : exists m, run ZOps (start ZOps) [OpSized ZOps 1 2; OpFill ZOps 0 3%Z; OpSized ZOps 2 1; OpFill ZOps 1 2%Z; OpPut ZOps 1 1 5%Z; OpMul ZOps 0 1] = Ok m /\
  at_ ZOps m 0 0 = Ok 21%Z /\ arun ZOps (astart ZOps) [OpSized ZOps 1 2; OpFill ZOps 0 3%Z; OpSized ZOps 2 1; OpFill ZOps 1 2%Z; OpPut ZOps 1 1 5%Z] <> None.
Proof. eexists. split; [vm_compute; reflexivity|]. split; [reflexivity|vm_compute; discriminate]. Qed.

(** C03.  Copies: *)
@thm C03_copy_independent = copy_independent | forall F : FOps, | aO = aO F
@thm C03_copy_not_shared = copy_not_shared | forall F : FOps, | aO = aO F
@thm C03_others_unaffected = untouched_keeps | forall F : FOps, | aget = aget F; arows = arows F; acols = acols F
(* views: what a view shows, what a write through it changes, what assignment does, and for how long it stays a window *)
@thm C03_view_is_window = view_is_window | forall F : FOps, | aget = aget F; arows = arows F; acols = acols F; aO = aO F
@thm C03_write_through = window_put | forall F : FOps, | aget = aget F; arows = arows F; acols = acols F; asize = asize F
@thm C03_fill_through = window_fill | forall F : FOps, | aget = aget F; arows = arows F; acols = acols F; asize = asize F
@thm C03_assign_through = window_assign | forall F : FOps, | aget = aget F; arows = arows F; acols = acols F; asize = asize F
@thm C03_assign_detaches = window_detach | forall F : FOps, | aget = aget F; arows = arows F; acols = acols F; asize = asize F
@thm C03_window_persists = window_history | forall F : FOps,
@thm C03_window_shows = window_shows | forall F : FOps, | aget = aget F; arows = arows F; acols = acols F; asize = asize F
(* assigning to a view an overlapping window of the same matrix does not copy its former value *)
@thm C03_overlap_refuted = overlap_refuted
(* a 3x1 matrix 1 2 3, a copy of it, a view of its rows 1 and 2; then the view is filled, then assigned a 1x1 matrix *)
Definition C03_prog : list (op ZOps) := [OpSized ZOps 3 1; OpPut ZOps 0 0 1%Z; OpPut ZOps 0 1 2%Z; OpPut ZOps 0 2 3%Z; OpCopy ZOps 0; OpRows ZOps 0 1 3; OpFill ZOps 2 7%Z; OpSized ZOps 1 1; OpFill ZOps 3 9%Z; OpAssign ZOps 2 3].
Example C03_case : arun ZOps (astart ZOps) C03_prog <> None /\ exists m, run ZOps (start ZOps) C03_prog = Ok m /\
  map (at_ ZOps m 0) [0; 1; 2] = [Ok 1%Z; Ok 7%Z; Ok 7%Z] /\ map (at_ ZOps m 1) [0; 1; 2] = [Ok 1%Z; Ok 2%Z; Ok 3%Z] /\ at_ ZOps m 2 0 = Ok 9%Z.
Proof. split; [vm_compute; discriminate|]. eexists. split; [vm_compute; reflexivity|]. repeat split. Qed.

(** C04.  Programs without views, any length; then programs with views (an aliasing assignment, sum or product is left out,
    as is any use of a view whose owner has changed its storage). *)
@thm C04_owners_safe = owners_safe | forall F : FOps,
@thm C04_with_views_partial = legal_programs_run | forall F : FOps, | aget = aget F; arows = arows F; acols = acols F
@thm C04_own_row_refuted = own_row_refuted
Definition C04_prog : list (op ZOps) := [OpSized ZOps 2 2; OpFill ZOps 0 1%Z; OpCopy ZOps 0; OpMul ZOps 0 1; OpResize ZOps 1 3 1; OpFill ZOps 1 0%Z; OpEmpty ZOps; OpAssign ZOps 3 1; OpAssign ZOps 3 3; OpDestroy ZOps 0; OpDestroy ZOps 3; OpDestroy ZOps 1].
Example C04_case : shapes ZOps [] C04_prog = Some [None; None; None; None] /\ exists m, run ZOps (start ZOps) C04_prog = Ok m /\ mB ZOps m = [None; None; None; None; None].
Proof. split; [reflexivity|]. eexists. split; vm_compute; reflexivity. Qed.
