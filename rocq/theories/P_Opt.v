(* P_Opt.v - property theorems about the optimisers (C30 - C34; the optimiser part of C35) *)
From Coq Require Import List Arith Bool ZArith QArith Reals String.
From Verif Require Import Base Scalar Mat SpecMat SpecReal Loss Optim OptProofs SpecOpt OptProofs2 OptProofs3.
Import ListNotations.
Local Open Scope nat_scope.

(** C30.  Training an r x c matrix is training each of its entries on its own (as a 1 x 1 matrix), for every kind of
    arithmetic - floats included - every shape, every hyper-parameter and every sequence of gradients. *)
Theorem C30_coordinatewise : forall F : FOps, forall k lr dec mom r c (w : nat -> nat -> F) (gs : list (nat -> nat -> F)),
  exists o' (w' : nat -> nat -> F),
  optRun F (absFloat F) (set_params F (newOpt F k) lr dec mom) (mgen r c w) (map (mgen r c) gs) = Ok (o', mgen r c w') /\
  forall i j, i < r -> j < c -> exists o1,
  optRun F (absFloat F) (set_params F (newOpt F k) lr dec mom) (mgen 1 1 (fun _ _ => w i j))
    (map (fun g => mgen 1 1 (fun _ _ => g i j)) gs) = Ok (o1, mgen 1 1 (fun _ _ => w' i j)).
Proof. exact coordinatewise. Qed.
Print Assumptions C30_coordinatewise.

Theorem C30_shape_kept : forall F : FOps, forall k lr dec mom r c (w : nat -> nat -> F) (gs : list (nat -> nat -> F)),
  exists o' w', optRun F (absFloat F) (set_params F (newOpt F k) lr dec mom) (mgen r c w) (map (mgen r c) gs) = Ok (o', w') /\
  mrows w' = r /\ mcols w' = c /\ okind F o' = k.
Proof. exact shape_kept. Qed.
Print Assumptions C30_shape_kept.

(* a run of Nesterov on a 1 x 2 matrix with three gradients, in rational arithmetic *)
Example C30_case : match optRun QOps (absFloat QOps) (set_params QOps (newOpt QOps ONesterov) (1#10)%Q (-1)%Q (1#2)%Q)
    (mgen 1 2 (fun _ j => if j =? 0 then 1 else 2)%Q)
    (List.map (fun t => mgen 1 2 (fun _ j => if j =? 0 then inject_Z t else 1)%Q) [1%Z; (-1)%Z; 2%Z]) with
  Ok (_, w) => Some w | Err _ => None end = Some (mgen 1 2 (fun _ j => if j =? 0 then 11 # 16 else 119 # 80)%Q).
Proof. vm_compute. reflexivity. Qed.

Local Open Scope R_scope.
(** C31 *)
Theorem C31_none_never_moves : forall jk : R, forall lr dec mom r c n g w, trained jk ONone lr dec mom r c n g w w.
Proof. exact none_closed. Qed.
Print Assumptions C31_none_never_moves.

Theorem C31_step_moves_by_lr : forall jk : R, forall lr dec mom r c n g w,
  trained jk OStep lr dec mom r c n g w (fun i j => w i j - orDefault lr (1/10) * rsum n (fun t => sgn (g t i j))).
Proof. exact step_closed. Qed.
Print Assumptions C31_step_moves_by_lr.

Theorem C31_sgd_closed_form : forall jk : R, forall lr dec mom r c n g w,
  trained jk OSGD lr dec mom r c n g w (fun i j => w i j - orDefault lr (1/100) * rsum n (fun t => g t i j)).
Proof. exact sgd_closed. Qed.
Print Assumptions C31_sgd_closed_form.

Theorem C31_momentum_closed_form : forall jk : R, forall lr dec mom r c n g w,
  trained jk OMomentum lr dec mom r c n g w (fun i j => w i j -
    rsum n (fun t => rsum (S t) (fun s => orDefault mom (9/10) ^ (t - s) * (orDefault lr (1/100) * g s i j)))).
Proof. exact momentum_closed. Qed.
Print Assumptions C31_momentum_closed_form.

(* Nesterov: theta is the parameter of the published scheme, the stored weight is the look-ahead point theta + mom * v *)
Theorem C31_nesterov_recursion : forall jk : R, forall lr dec mom r c g w, exists theta v : nat -> nat -> nat -> R,
  (forall i j, theta O i j = w i j /\ v O i j = 0) /\
  (forall n i j, v (S n) i j = orDefault mom (9/10) * v n i j - orDefault lr (1/100) * g n i j /\
                 theta (S n) i j = theta n i j + v (S n) i j) /\
  forall n, trained jk ONesterov lr dec mom r c n g w (fun i j => theta n i j + orDefault mom (9/10) * v n i j).
Proof. exact nesterov_closed. Qed.
Print Assumptions C31_nesterov_recursion.

Theorem C31_momentumNg_recursion : forall jk : R, forall lr dec mom r c g w, exists v : nat -> nat -> nat -> R,
  (forall i j, v O i j = g O i j) /\
  (forall n i j, v (S n) i j = orDefault mom (9/10) * v n i j + (1 - orDefault mom (9/10)) * g n i j) /\
  forall n, trained jk OMomentumNg lr dec mom r c n g w
    (fun i j => w i j - orDefault lr (1/10) * rsum n (fun t => v (S t) i j)).
Proof. exact momentumNg_closed. Qed.
Print Assumptions C31_momentumNg_recursion.


(** C32.  s_v is the matrix of step sizes of the RPROP classes. *)
Theorem C32_rprop_step_bounds : forall jk : R, forall k lr dec mom r c n g w, k = ORPROPm \/ k = OiRPROPm -> exists o w1 w2 mu,
  train jk k lr dec mom r c n g w = Ok (o, mgen r c w1) /\
  (exists o2, train jk k lr dec mom r c (S n) g w = Ok (o2, mgen r c w2) /\ s_v (ROps jk) o2 = mgen r c mu) /\
  forall i j, (i < r)%nat -> (j < c)%nat ->
  1/1000000 <= mu i j <= 50 /\
  (w2 i j = w1 i j \/ (0 < g n i j /\ w2 i j = w1 i j - mu i j) \/ (g n i j < 0 /\ w2 i j = w1 i j + mu i j)) /\
  Rabs (w2 i j - w1 i j) <= 50.
Proof. exact rprop_bounds. Qed.
Print Assumptions C32_rprop_step_bounds.

(* the cap is reached: 50 after 46 gradients of one sign *)
Example C32_case : match optRun QOps (absFloat QOps) (newOpt QOps ORPROPm) (mgen 1 1 (fun _ _ => 0%Q)) (repeat (mgen 1 1 (fun _ _ => 1%Q)) 46) with
  Ok (o, _) => Some (s_v QOps o) | Err _ => None end = Some (mgen 1 1 (fun _ _ => 50%Q)).
Proof. vm_compute. reflexivity. Qed.

(** C33.  s_m, s_v: first and second moment (Adagrad: s_v is the cache; Amsgrad: s_p is the running maximum). *)
Theorem C33_adam_constant_gradient : forall jk : R, forall lr dec mom r c n (g w : nat -> nat -> R), exists o m v,
  train jk OAdam lr dec mom r c n (fun _ => g) w =
    Ok (o, mgen r c (fun i j => w i j - INR n * (orDefault lr (1/1000) * (g i j / Rmax (Rabs (g i j)) (1/100000000))))) /\
  (n <> O -> s_m (ROps jk) o = mgen r c m /\ s_v (ROps jk) o = mgen r c v) /\
  forall i j, (i < r)%nat -> (j < c)%nat -> n <> O ->
    m i j / (1 - (9/10) ^ n) = g i j /\ v i j / (1 - (999/1000) ^ n) = g i j * g i j.
Proof. exact adam_constant_gradient. Qed.
Print Assumptions C33_adam_constant_gradient.

Theorem C33_second_moment_nonneg : forall jk : R, forall k lr dec mom r c n g w, hasSecond k -> (k = ORMSProp -> 0 <= orDefault dec (99/100) <= 1) ->
  n <> O -> exists o w' v, train jk k lr dec mom r c n g w = Ok (o, w') /\ s_v (ROps jk) o = mgen r c v /\
  forall i j, (i < r)%nat -> (j < c)%nat -> 0 <= v i j.
Proof. exact second_moment_nonneg. Qed.
Print Assumptions C33_second_moment_nonneg.

Theorem C33_first_step_at_most_lr : forall jk : R, forall k lr dec mom r c g w, k = OAdam \/ k = OAdamax \/ k = OAdagrad -> 0 <= orDefault lr (1/1000) ->
  exists w', trained jk k lr dec mom r c 1 g w w' /\ forall i j, (i < r)%nat -> (j < c)%nat ->
  Rabs (w' i j - w i j) <= orDefault lr (1/1000).
Proof. exact first_step. Qed.
Print Assumptions C33_first_step_at_most_lr.

Theorem C33_adagrad_steps_at_most_lr : forall jk : R, forall lr dec mom r c n g w, 0 <= orDefault lr (1/1000) -> exists w1 w2,
  trained jk OAdagrad lr dec mom r c n g w w1 /\ trained jk OAdagrad lr dec mom r c (S n) g w w2 /\
  forall i j, (i < r)%nat -> (j < c)%nat -> Rabs (w2 i j - w1 i j) <= orDefault lr (1/1000).
Proof. exact adagrad_step. Qed.
Print Assumptions C33_adagrad_steps_at_most_lr.

Theorem C33_denominators_never_decrease : forall jk : R, forall k lr dec mom r c n g w, k = OAdagrad \/ k = OAmsgrad -> n <> O ->
  let den (o : opt (ROps jk)) := match k with OAdagrad => s_v (ROps jk) o | _ => s_p (ROps jk) o end in
  exists o1 w1 d1 o2 w2 d2,
  train jk k lr dec mom r c n g w = Ok (o1, w1) /\ train jk k lr dec mom r c (S n) g w = Ok (o2, w2) /\
  den o1 = mgen r c d1 /\ den o2 = mgen r c d2 /\
  forall i j, (i < r)%nat -> (j < c)%nat -> d1 i j <= d2 i j.
Proof. exact denominators_grow. Qed.
Print Assumptions C33_denominators_never_decrease.

(* the bound on the first step is special to Adam, Adamax and Adagrad *)
Theorem C33_nadam_first_step_refuted : forall jk : R, exists g w w' : R, forall r c, let m (x : R) := (fun _ _ : nat => x) in
  trained jk ONadam 1 (-1) (-1) r c 1 (fun _ => m g) (m w) (m w') /\ Rabs (w' - w) > 34 * 1.
Proof. exact first_step_refuted. Qed.
Print Assumptions C33_nadam_first_step_refuted.


(** C34.  Any object (any state) except iRPROP-, every arithmetic. *)
Theorem C34_clone_same : forall F : FOps, forall (o : opt F) r c (w : nat -> nat -> F) (gs : list (nat -> nat -> F)),
  okind F o <> OiRPROPm -> wfOpt F o ->
  opt_name (okind F (clone F o)) = opt_name (okind F o) /\
  exists o1 o2 w',
  optRun F (absFloat F) (init F o) (mgen r c w) (map (mgen r c) gs) = Ok (o1, w') /\
  optRun F (absFloat F) (init F (clone F o)) (mgen r c w) (map (mgen r c) gs) = Ok (o2, w').
Proof. exact clone_same. Qed.
Print Assumptions C34_clone_same.

(* a used object: its state matrix is not empty *)
Example C34_case : match optRun QOps (absFloat QOps) (set_params QOps (newOpt QOps ORMSProp) (1#2)%Q (1#4)%Q (-1)%Q) (mgen 1 1 (fun _ _ => 0%Q))
  [mgen 1 1 (fun _ _ => 3%Q)] with Ok (o, _) => Some (okind QOps o, s_m QOps o, s_v QOps o, s_p QOps o) | Err _ => None end =
  Some (ORMSProp, mempty QOps, mgen 1 1 (fun _ _ => 27 # 4)%Q, mempty QOps).
Proof. vm_compute. reflexivity. Qed.
Theorem C34_irprop_clone_refuted : forall jk : R, exists o : opt (ROps jk), exists g1 g2 : R,
  let M (x : R) : mat (ROps jk) := mgen 1 1 (fun _ _ => x) in
  create_optimizer "iRPROP-" = Some (okind _ o) /\
  opt_name (okind _ (clone _ o)) <> opt_name (okind _ o) /\
  exists o1 o2 w1 w2,
  optRun (ROps jk) (absFloat (ROps jk)) (init _ o) (M 0) [M g1; M g2] = Ok (o1, M w1) /\
  optRun (ROps jk) (absFloat (ROps jk)) (init _ (clone _ o)) (M 0) [M g1; M g2] = Ok (o2, M w2) /\ w1 <> w2.
Proof. exact irprop_clone_refuted. Qed.
Print Assumptions C34_irprop_clone_refuted.


(** C35, optimisers *)
Theorem C35_optimizers_listed : forall s, In s list_optimizers_available -> exists k, create_optimizer s = Some k /\ opt_name k = s.
Proof. exact opt_registry. Qed.
Print Assumptions C35_optimizers_listed.

Theorem C35_optimizers_complete : forall k, In (opt_name k) list_optimizers_available /\ create_optimizer (opt_name k) = Some k.
Proof. exact opt_registry_complete. Qed.
Print Assumptions C35_optimizers_complete.

Theorem C35_optimizers_unknown : forall s, ~ In s list_optimizers_available -> create_optimizer s = None.
Proof. exact opt_registry_unknown. Qed.
Print Assumptions C35_optimizers_unknown.

