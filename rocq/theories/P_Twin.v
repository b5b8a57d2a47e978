(* P_Twin.v - property theorems about units that start with the same parameters (C110) *)
From Coq Require Import String List Arith Bool ZArith QArith Reals.
From Verif Require Import Base Scalar Mat SpecMat Act Loss Optim Regul LayMat Layer Net NetTrain SpecTrain SpecFit SpecResume SpecFixed SpecZero SpecTwin Fixed4 Dead2 SpecNet Sym2 Twin1 Twin2 Twin3.
Import ListNotations.
Local Open Scope nat_scope.

(** C110.  Two units of a hidden Dense layer with the same incoming weights, the same bias and the same outgoing weights still have them in common
    after fit, bit for bit, in every arithmetic, whatever the optimiser, the regulariser, the loss and the rest of the network. *)
Theorem C110_stay_equal : forall (F : FOps), forall u v J (R0 : fitRnd F) h n (t : trainer F) k mo x y a ka qa kb pb b0 b1 b2 l0 l1 l2,
  trainable h n t k mo -> allPassive h n -> allSized F h n -> ttrain F t = Some (x, y) -> 0 < mrows x ->
  nth_error (nlay n) J = Some b0 -> nth_error (nlay n) (J + 1) = Some b1 -> nth_error (nlay n) (J + 2) = Some b2 ->
  hget F h b0 = Ok l0 -> hget F h b1 = Ok l1 -> hget F h b2 = Ok l2 -> lk l0 = KDense ka qa -> lk l1 = KAct (Some a) -> lk l2 = KDense kb pb -> u < mcols (lw l0) -> v < mcols (lw l0) ->
  sameCols u v (lw l0) -> sameCols u v (lb l0) -> sameRows u v (lw l2) ->
  exists h' n' t' calls c0 c2 d0 d2, fit F (absFloat F) R0 h n t = Ok (h', n', t', calls) /\ nth_error (nlay n') J = Some c0 /\ nth_error (nlay n') (J + 2) = Some c2 /\
  hget F h' c0 = Ok d0 /\ hget F h' c2 = Ok d2 /\ lk d0 = KDense ka qa /\ lk d2 = KDense kb pb /\ sameCols u v (lw d0) /\ sameCols u v (lb d0) /\ sameRows u v (lw d2).
Proof. exact twins. Qed.
Print Assumptions C110_stay_equal.

(* a layer whose units all start equal (constant initialisation) ends with all of them equal *)
Theorem C110_constant_layer : forall (F : FOps), forall J (R0 : fitRnd F) h n (t : trainer F) k mo x y a ka qa kb pb b0 b1 b2 l0 l1 l2,
  trainable h n t k mo -> allPassive h n -> allSized F h n -> ttrain F t = Some (x, y) -> 0 < mrows x ->
  nth_error (nlay n) J = Some b0 -> nth_error (nlay n) (J + 1) = Some b1 -> nth_error (nlay n) (J + 2) = Some b2 ->
  hget F h b0 = Ok l0 -> hget F h b1 = Ok l1 -> hget F h b2 = Ok l2 -> lk l0 = KDense ka qa -> lk l1 = KAct (Some a) -> lk l2 = KDense kb pb -> 0 < mcols (lw l0) ->
  (forall u v, u < mcols (lw l0) -> v < mcols (lw l0) -> sameCols u v (lw l0) /\ sameCols u v (lb l0) /\ sameRows u v (lw l2)) ->
  exists h' n' t' calls c0 c2 d0 d2, fit F (absFloat F) R0 h n t = Ok (h', n', t', calls) /\ nth_error (nlay n') J = Some c0 /\ nth_error (nlay n') (J + 2) = Some c2 /\
  hget F h' c0 = Ok d0 /\ hget F h' c2 = Ok d2 /\ lk d0 = KDense ka qa /\ lk d2 = KDense kb pb /\
  (forall u v, u < mcols (lw l0) -> v < mcols (lw l0) -> sameCols u v (lw d0) /\ sameCols u v (lb d0) /\ sameRows u v (lw d2)).
Proof. exact clones. Qed.
Print Assumptions C110_constant_layer.

Theorem C110_case : forall (F : FOps), forall (R0 : fitRnd F) w b0 a W opt lr b e N rg Y, create_optimizer opt <> None -> 0 < N -> W 0 0 = W 1 0 ->
  exists h' n' t' calls c0 c2 d0 d2, fit F (absFloat F) R0 ((eqHeap F) w b0 a W) ddNet (ddTr F opt lr b e N rg Y) = Ok (h', n', t', calls) /\ nth_error (nlay n') 0 = Some c0 /\ nth_error (nlay n') 2 = Some c2 /\
  hget F h' c0 = Ok d0 /\ hget F h' c2 = Ok d2 /\ lk d0 = KDense 1 2 /\ lk d2 = KDense 2 1 /\ sameCols 0 1 (lw d0) /\ sameCols 0 1 (lb d0) /\ sameRows 0 1 (lw d2).
Proof. exact twin_case. Qed.
Print Assumptions C110_case.

Theorem C110_run_case : forall opt, In opt ["SGD"; "Momentum"; "RPROP-"; "Nesterov"; "Step"]%string ->
  match pair_ (eqRun opt ARelu (fun _ _ => 1%Q)) with Some (a, b, (c, d)) => a = b /\ a <> 1%Q /\ c = d /\ c <> 1%Q | None => False end.
Proof. exact twin_run. Qed.
Print Assumptions C110_run_case.

(* equal incoming weights alone are not enough *)
Theorem C110_outgoing_refuted : match pair_ (eqRun "SGD" ARelu (fun i _ => if i =? 0 then 1%Q else 2%Q)) with Some (a, b, (c, d)) => a <> b | None => False end.
Proof. exact outgoing_refuted. Qed.
Print Assumptions C110_outgoing_refuted.

(* and in exact arithmetic such a layer of q equal units predicts what one unit with q times the outgoing weights predicts *)
Theorem C110_one_unit : forall (jk : R), forall rs rs' (h h' : heap (ROps jk)) n k m J k0 q p0 l0 l1 l2 l0' l2' a b0 b1 b2 na nb nc nd na1 nb1 nc1 nd1 (W B V : nat -> nat -> R) N X out out',
  detNet (ROps jk) h n k m -> nth_error (nlay n) J = Some b0 -> nth_error (nlay n) (J + 1) = Some b1 -> nth_error (nlay n) (J + 2) = Some b2 ->
  hget (ROps jk) h b0 = Ok l0 -> hget (ROps jk) h b1 = Ok l1 -> hget (ROps jk) h b2 = Ok l2 -> lk l0 = KDense na nb -> lk l1 = KAct (Some a) -> lk l2 = KDense nc nd ->
  lw l0 = @mgen R k0 q W -> lb l0 = @mgen R 1 q B -> lw l2 = @mgen R q p0 V -> 0 < q ->
  (forall u v, u < q -> v < q -> sameCols u v (lw l0) /\ sameCols u v (lb l0) /\ sameRows u v (lw l2)) ->
  hget (ROps jk) h' b0 = Ok l0' -> hget (ROps jk) h' b2 = Ok l2' -> (forall i x, nth_error (nlay n) i = Some x -> i <> J -> i <> J + 2 -> hget (ROps jk) h' x = hget (ROps jk) h x) -> lk l0' = KDense na1 nb1 -> lk l2' = KDense nc1 nd1 ->
  lw l0' = @mgen R k0 1 (fun i _ => W i 0) -> lb l0' = @mgen R 1 1 (fun i _ => B i 0) -> lw l2' = @mgen R 1 p0 (fun _ j => (INR q * V 0%nat j)%R) -> lb l2' = lb l2 -> mwf out -> mwf out' ->
  exists h1 h1' o, predict (ROps jk) rs h n (mgen N k X) out = Ok (h1, o) /\ predict (ROps jk) rs' h' n (mgen N k X) out' = Ok (h1', o).
Proof. exact one_unit. Qed.
Print Assumptions C110_one_unit.

Theorem C110_one_unit_case : forall (jk : R), forall rs rs' a w b v N X, exists h1 h1' o, predict (ROps jk) rs (syHeap jk a (fun _ _ => w) (fun _ _ => b) (fun _ _ => v)) syNet (mgen N 1 X) (mempty (ROps jk)) = Ok (h1, o) /\
  predict (ROps jk) rs' ((oneHeap jk) a w b v) syNet (mgen N 1 X) (mempty (ROps jk)) = Ok (h1', o).
Proof. exact one_case. Qed.
Print Assumptions C110_one_unit_case.

