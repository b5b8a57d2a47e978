(* P_Heap.v - property theorems about the storage of matrices: in-place product, copies and views, memory safety (C02 - C04) *)
From Coq Require Import List Arith Bool ZArith Reals.
From Verif Require Import Base Scalar Mat SpecMat MatHeap SpecHeap HeapProofs6 HeapProofs7 HeapProofs8.
Import ListNotations.
Local Open Scope nat_scope.

(** C02.  Right operands on another storage (views included): the value of m*b, and b is left as it was. *)
Theorem C02_in_place_product_partial : forall F : FOps, forall a m d s od os x y, reach F a m -> aget F a d = Some od -> aget F a s = Some os -> acells F a d = Some x -> acells F a s = Some y ->
  acols F od = arows F os -> ~ shares F a d s ->
  exists a' m' p, aexec F a (OpMul F d s) = Some a' /\ exec F m (OpMul F d s) = Ok m' /\ shows F m d (arows F od) (acols F od) x /\ shows F m s (arows F os) (acols F os) y /\
    mmul F (mkMat (arows F od) (acols F od) x) (mkMat (arows F os) (acols F os) y) = Ok p /\
    shows F m' d (arows F od) (acols F os) (mdata p) /\ shows F m' s (arows F os) (acols F os) y.
Proof. exact product_in_place. Qed.
Print Assumptions C02_in_place_product_partial.

(* missing from the full statement: operands on the same storage.  There it is false: *)
Theorem C02_self_product_is_zero : forall F : FOps, forall a m d od n xs, reach F a m -> aget F a d = Some od -> arows F od = n -> acols F od = n -> acells F a d = Some xs ->
  (forall x, In x xs -> fadd F (f0 F) (fmul F x (f0 F)) = f0 F) ->
  exists m', exec F m (OpMul F d d) = Ok m' /\ shows F m d n n xs /\ shows F m' d n n (repeat (f0 F) (n * n)).
Proof. exact self_product. Qed.
Print Assumptions C02_self_product_is_zero.

Theorem C02_self_product_is_zero_real : forall j a m d od n xs, reach (ROps j) a m -> aget (ROps j) a d = Some od -> arows (ROps j) od = n -> acols (ROps j) od = n -> acells (ROps j) a d = Some xs ->
  exists m', exec (ROps j) m (OpMul (ROps j) d d) = Ok m' /\ shows (ROps j) m d n n xs /\ shows (ROps j) m' d n n (repeat 0%R (n * n)).
Proof. exact self_product_real. Qed.
Print Assumptions C02_self_product_is_zero_real.

Theorem C02_self_product_refuted : exists ps : list (op ZOps), exists m m', run ZOps (start ZOps) ps = Ok m /\ shows ZOps m 0 1 1 [3%Z] /\ mmul ZOps (mkMat 1 1 [3%Z]) (mkMat 1 1 [3%Z]) = Ok (mkMat 1 1 [9%Z]) /\
  exec ZOps m (OpMul ZOps 0 0) = Ok m' /\ shows ZOps m' 0 1 1 [0%Z].
Proof. exact self_product_refuted. Qed.
Print Assumptions C02_self_product_refuted.

Theorem C02_own_view_frees_refuted : run ZOps (start ZOps) [OpSized ZOps 2 1; OpFill ZOps 0 3%Z; OpSize ZOps 0 1 2; OpMul ZOps 0 1] = Err EFree.
Proof. exact view_product_refuted. Qed.
Print Assumptions C02_own_view_frees_refuted.

Example C02_case : exists m, run ZOps (start ZOps) [OpSized ZOps 1 2; OpFill ZOps 0 3%Z; OpSized ZOps 2 1; OpFill ZOps 1 2%Z; OpPut ZOps 1 1 5%Z; OpMul ZOps 0 1] = Ok m /\
  at_ ZOps m 0 0 = Ok 21%Z /\ arun ZOps (astart ZOps) [OpSized ZOps 1 2; OpFill ZOps 0 3%Z; OpSized ZOps 2 1; OpFill ZOps 1 2%Z; OpPut ZOps 1 1 5%Z] <> None.
Proof. eexists. split; [vm_compute; reflexivity|]. split; [reflexivity|vm_compute; discriminate]. Qed.

(** C03.  Copies: *)
Theorem C03_copy_independent : forall F : FOps, forall a m v a1 qs a2, reach F a m -> aexec F a (OpCopy F v) = Some a1 -> arun F a1 qs = Some a2 ->
  let w := length (aO F a) in (forall p, In p qs -> touches F p w = false) ->
  exists r c xs m1 m2, shows F m v r c xs /\ exec F m (OpCopy F v) = Ok m1 /\ shows F m1 w r c xs /\ run F m1 qs = Ok m2 /\ shows F m2 w r c xs.
Proof. exact copy_independent. Qed.
Print Assumptions C03_copy_independent.

Theorem C03_copy_not_shared : forall F : FOps, forall a m v a1, reach F a m -> aexec F a (OpCopy F v) = Some a1 -> ~ shares F a1 (length (aO F a)) v /\ forall u, shares F a1 u (length (aO F a)) -> u = length (aO F a).
Proof. exact copy_not_shared. Qed.
Print Assumptions C03_copy_not_shared.

Theorem C03_others_unaffected : forall F : FOps, forall a m v o xs qs a', reach F a m -> aget F a v = Some o -> acells F a v = Some xs -> arun F a qs = Some a' ->
  (forall p u, In p qs -> shares F a u v -> touches F p u = false) ->
  exists m', run F m qs = Ok m' /\ shows F m v (arows F o) (acols F o) xs /\ shows F m' v (arows F o) (acols F o) xs.
Proof. exact untouched_keeps. Qed.
Print Assumptions C03_others_unaffected.

(* views: what a view shows, what a write through it changes, what assignment does, and for how long it stays a window *)
Theorem C03_view_is_window : forall F : FOps, forall a m p v o off r c a' xs, reach F a m -> aget F a v = Some o -> acells F a v = Some xs -> window F p (arows F o) (acols F o) = Some (v, off, r, c) -> aexec F a p = Some a' ->
  let w := length (aO F a) in exists m', exec F m p = Ok m' /\ isWin F a' w v off /\ shows F m' w r c (firstn (r * c) (skipn off xs)) /\ shows F m' v (arows F o) (acols F o) xs.
Proof. exact view_is_window. Qed.
Print Assumptions C03_view_is_window.

Theorem C03_write_through : forall F : FOps, forall a m w v off ow xs j x, reach F a m -> isWin F a w v off -> aget F a w = Some ow -> acells F a v = Some xs -> j < asize F ow ->
  exists a' ov m', aexec F a (OpPut F w j x) = Some a' /\ exec F m (OpPut F w j x) = Ok m' /\ aget F a v = Some ov /\ isWin F a' w v off /\
  shows F m v (arows F ov) (acols F ov) xs /\ shows F m' v (arows F ov) (acols F ov) (upd xs (off + j) x).
Proof. exact window_put. Qed.
Print Assumptions C03_write_through.

Theorem C03_fill_through : forall F : FOps, forall a m w v off ow xs x, reach F a m -> isWin F a w v off -> aget F a w = Some ow -> acells F a v = Some xs ->
  exists a' ov m', aexec F a (OpFill F w x) = Some a' /\ exec F m (OpFill F w x) = Ok m' /\ aget F a v = Some ov /\ isWin F a' w v off /\
  shows F m v (arows F ov) (acols F ov) xs /\ shows F m' v (arows F ov) (acols F ov) (splice F xs off (repeat x (asize F ow))).
Proof. exact window_fill. Qed.
Print Assumptions C03_fill_through.

Theorem C03_assign_through : forall F : FOps, forall a m w v s off ow os xs ys, reach F a m -> isWin F a w v off -> aget F a w = Some ow -> aget F a s = Some os -> w <> s -> v <> w -> acells F a v = Some xs -> acells F a s = Some ys ->
  asize F os = asize F ow -> clear_ F ow os (asize F ow) = true ->
  exists a' ov m', aexec F a (OpAssign F w s) = Some a' /\ exec F m (OpAssign F w s) = Ok m' /\ aget F a v = Some ov /\ isWin F a' w v off /\
  shows F m v (arows F ov) (acols F ov) xs /\ shows F m' v (arows F ov) (acols F ov) (splice F xs off ys) /\ shows F m' w (arows F os) (acols F os) ys.
Proof. exact window_assign. Qed.
Print Assumptions C03_assign_through.

Theorem C03_assign_detaches : forall F : FOps, forall a m w v s off ow os xs ys, reach F a m -> isWin F a w v off -> aget F a w = Some ow -> owner F ow = false -> aget F a s = Some os -> v <> w -> acells F a v = Some xs -> acells F a s = Some ys ->
  asize F os <> asize F ow ->
  exists a' ov m', aexec F a (OpAssign F w s) = Some a' /\ exec F m (OpAssign F w s) = Ok m' /\ aget F a v = Some ov /\ ~ shares F a' w v /\
  shows F m v (arows F ov) (acols F ov) xs /\ shows F m' v (arows F ov) (acols F ov) xs /\ shows F m' w (arows F os) (acols F os) ys.
Proof. exact window_detach. Qed.
Print Assumptions C03_assign_detaches.

Theorem C03_window_persists : forall F : FOps, forall ps a a' w v off, arun F a ps = Some a' -> isWin F a w v off -> (forall p, In p ps -> moves F p w = false /\ moves F p v = false) -> isWin F a' w v off.
Proof. exact window_history. Qed.
Print Assumptions C03_window_persists.

Theorem C03_window_shows : forall F : FOps, forall a m w v off xs, reach F a m -> isWin F a w v off -> acells F a v = Some xs -> exists ow, aget F a w = Some ow /\ shows F m w (arows F ow) (acols F ow) (firstn (asize F ow) (skipn off xs)).
Proof. exact window_shows. Qed.
Print Assumptions C03_window_shows.

(* assigning to a view an overlapping window of the same matrix does not copy its former value *)
Theorem C03_overlap_refuted : exists m, run ZOps (start ZOps) [OpSized ZOps 3 1; OpPut ZOps 0 0 1%Z; OpPut ZOps 0 1 2%Z; OpPut ZOps 0 2 3%Z; OpRows ZOps 0 0 2; OpRows ZOps 0 1 3; OpAssign ZOps 2 1] = Ok m /\
  shows ZOps m 0 3 1 [1; 1; 1]%Z.
Proof. exact overlap_refuted. Qed.
Print Assumptions C03_overlap_refuted.

(* a 3x1 matrix 1 2 3, a copy of it, a view of its rows 1 and 2; then the view is filled, then assigned a 1x1 matrix *)
Definition C03_prog : list (op ZOps) := [OpSized ZOps 3 1; OpPut ZOps 0 0 1%Z; OpPut ZOps 0 1 2%Z; OpPut ZOps 0 2 3%Z; OpCopy ZOps 0; OpRows ZOps 0 1 3; OpFill ZOps 2 7%Z; OpSized ZOps 1 1; OpFill ZOps 3 9%Z; OpAssign ZOps 2 3].
Example C03_case : arun ZOps (astart ZOps) C03_prog <> None /\ exists m, run ZOps (start ZOps) C03_prog = Ok m /\
  map (at_ ZOps m 0) [0; 1; 2] = [Ok 1%Z; Ok 7%Z; Ok 7%Z] /\ map (at_ ZOps m 1) [0; 1; 2] = [Ok 1%Z; Ok 2%Z; Ok 3%Z] /\ at_ ZOps m 2 0 = Ok 9%Z.
Proof. split; [vm_compute; discriminate|]. eexists. split; [vm_compute; reflexivity|]. repeat split. Qed.

(** C04.  Programs without views, any length; then programs with views (an aliasing assignment, sum or product is left out,
    as is any use of a view whose owner has changed its storage). *)
Theorem C04_owners_safe : forall F : FOps, forall ps l, shapes F [] ps = Some l -> exists m, run F (start F) ps = Ok m /\
  (forall v r c, nth_error l v = Some (Some (r, c)) -> exists xs, shows F m v r c xs) /\
  ((forall v s, nth_error l v = Some s -> s = None) -> noLeak F m).
Proof. exact owners_safe. Qed.
Print Assumptions C04_owners_safe.

Theorem C04_with_views_partial : forall F : FOps, forall ps a, arun F (astart F) ps = Some a -> exists m, run F (start F) ps = Ok m /\
  (forall v o xs, aget F a v = Some o -> acells F a v = Some xs -> shows F m v (arows F o) (acols F o) xs) /\ (allGone F m -> noLeak F m).
Proof. exact legal_programs_run. Qed.
Print Assumptions C04_with_views_partial.

Theorem C04_own_row_refuted : run ZOps (start ZOps) [OpSized ZOps 2 2; OpFill ZOps 0 3%Z; OpRow ZOps 0 1; OpAssign ZOps 0 1] = Err EFree.
Proof. exact own_row_refuted. Qed.
Print Assumptions C04_own_row_refuted.

Definition C04_prog : list (op ZOps) := [OpSized ZOps 2 2; OpFill ZOps 0 1%Z; OpCopy ZOps 0; OpMul ZOps 0 1; OpResize ZOps 1 3 1; OpFill ZOps 1 0%Z; OpEmpty ZOps; OpAssign ZOps 3 1; OpAssign ZOps 3 3; OpDestroy ZOps 0; OpDestroy ZOps 3; OpDestroy ZOps 1].
Example C04_case : shapes ZOps [] C04_prog = Some [None; None; None; None] /\ exists m, run ZOps (start ZOps) C04_prog = Ok m /\ mB ZOps m = [None; None; None; None; None].
Proof. split; [reflexivity|]. eexists. split; vm_compute; reflexivity. Qed.
