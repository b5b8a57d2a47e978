(* LayProofs5.v - PELU, TERELU *)
From Coq Require Import List Arith Bool Lia Reals Lra ZArith QArith String.
From Coquelicot Require Import Coquelicot.
From Verif Require Import Base Scalar Mat SpecMat SpecReal RSum MatFacts MatProofs MatProofs2 MatProps MatLoops Scatter RDeriv Loss SpecLoss LayMat LayKit SpecLayer LayGrad LayCurve LayTens LayProofs1 LayProofs2 LayProofs4.
Import ListNotations.
Local Open Scope R_scope.

Lemma d_branch_b : forall (beta : R -> bool) (bl bg : bool) (X f g : R -> R) (t c dX df dg : R), is_derive X t dX -> X t <> c ->
  (forall z, z < c -> beta z = bl) -> (forall z, c < z -> beta z = bg) ->
  (beta (X t) = true -> is_derive f t df) -> (beta (X t) = false -> is_derive g t dg) ->
  is_derive (fun x => if beta (X x) then f x else g x) t (if beta (X t) then df else dg).
Proof.
  intros beta bl bg X f g t c dX df dg HX Hne Hl Hg Hf1 Hg1.
  assert (L : locally t (fun y => beta (X y) = beta (X t))).
  { destruct (Rlt_dec (X t) c) as [Q|Q].
    - destruct (near X t dX HX (c - X t) ltac:(lra)) as [e He]. exists e. intros y Hy. specialize (He y Hy). apply Rabs_def2 in He.
      rewrite (Hl (X y)), (Hl (X t)) by lra. reflexivity.
    - destruct (near X t dX HX (X t - c) ltac:(lra)) as [e He]. exists e. intros y Hy. specialize (He y Hy). apply Rabs_def2 in He.
      rewrite (Hg (X y)), (Hg (X t)) by lra. reflexivity. }
  destruct L as [e He]. destruct (beta (X t)) eqn:E.
  - eapply is_derive_ext_loc; [|apply Hf1; auto]. exists e. intros y Hy. rewrite (He y Hy). reflexivity.
  - eapply is_derive_ext_loc; [|apply Hg1; auto]. exists e. intros y Hy. rewrite (He y Hy). reflexivity.
Qed.

Definition outP {A B} (r : res (A * B)) : res B := match r with Ok p => Ok (snd p) | Err e => Err e end.

(** PELU *)
Definition peluF (F : FOps) (a b x : F) : F := if flt F (f0 F) x then fmul F x (fdiv F a b) else fmul F a (flm F Lexpm1 (fdiv F x b)).
Lemma fwdPELU_gen : forall (F : FOps) n k w gw X, (0 < k)%nat ->
  fwdPELU F (mgen 2 k w) gw (mgen n k X) = Ok (mgen 2 k w, gw, mgen n k (fun i j => peluF F (w 0%nat j) (w 1%nat j) (X i j))).
Proof.
  intros F n k w gw X Hk. unfold fwdPELU. change (msize (mgen 2 k w)) with (2 * k)%nat. change (mcols (mgen n k X)) with k. change (mrows (mgen n k X)) with n.
  replace (2 * k =? 0)%nat with false by (symmetry; apply Nat.eqb_neq; lia). cbn [bind].
  rewrite (@cell2 F n k _ (fun i j x => peluF F (w 0%nat j) (w 1%nat j) x)); auto.
  intros i j q Hi Hj. rewrite !mget2_gen by lia. cbn [bind]. rewrite mset2_gen by auto. reflexivity.
Qed.
Definition clamp10 (F : FOps) (x : F) : F := if flt F x (flit F 1 10) then flit F 1 10 else x.
Definition peluDa (F : FOps) (a b x : F) : F := if flt F (f0 F) x then fdiv F x b else fsub F (flm F Lexp (fdiv F x b)) (f1 F).
Definition peluDb (F : FOps) (a b x : F) : F :=
  let q := fmul F (fopp F a) (fdiv F x (fmul F b b)) in if flt F (f0 F) x then q else fmul F q (flm F Lexp (fdiv F x b)).
Definition peluDx (F : FOps) (a b x : F) : F := if flt F (f0 F) x then fdiv F a b else fmul F (fdiv F a b) (flm F Lexp (fdiv F x b)).

Lemma bwdPELU_gen : forall (F : FOps) first n k w gw X G gin, (0 < k)%nat ->
  let w' r j := clamp10 F (w r j) in
  bwdPELU F first (mgen 2 k w) (mgen 2 k gw) (mgen n k X) (mgen n k G) gin =
  Ok (mgen 2 k w',
      mgen 2 k (fun r j => fdiv F (fsum F n (fun i => if (r =? 0)%nat then peluDa F (w' 0%nat j) (w' 1%nat j) (X i j) else peluDb F (w' 0%nat j) (w' 1%nat j) (X i j))) (fofN F n)),
      if first then gin else mgen n k (fun i j => fmul F (G i j) (peluDx F (w' 0%nat j) (w' 1%nat j) (X i j)))).
Proof.
  intros F first n k w gw X G gin Hk w'. unfold bwdPELU. cbv zeta. change (mcols (mgen n k X)) with k. change (mrows (mgen n k X)) with n.
  change (mcols (mgen n k G)) with k. change (mrows (mgen n k G)) with n.
  unfold msetConst. rewrite (@mapLoop_gen F). cbn [bind].
  rewrite (@colmap F 2 k _ (fun j a v => clamp10 F v)).
  2:{ intros j q Hj. rewrite mget2_gen by lia. cbn [bind].
      assert (E1 : (if flt F (q 0%nat j) (flit F 1 10) then mset2 (mgen 2 k q) 0 j (flit F 1 10) else Ok (mgen 2 k q)) =
                   Ok (mgen 2 k (upd2 q 0 j (clamp10 F (q 0%nat j))))).
      { unfold clamp10. destruct (flt F (q 0%nat j) (flit F 1 10)); [apply mset2_gen; lia | rewrite upd2_id; reflexivity]. }
      rewrite E1. cbn [bind]. rewrite mget2_gen by lia. cbn [bind].
      match goal with |- context[upd2 q 0 j ?v 1%nat j] => change (upd2 q 0 j v 1%nat j) with (q 1%nat j) end.
      set (q1 := upd2 q 0 j (clamp10 F (q 0%nat j))).
      assert (E2 : (if flt F (q 1%nat j) (flit F 1 10) then mset2 (mgen 2 k q1) 1 j (flit F 1 10) else Ok (mgen 2 k q1)) =
                   Ok (mgen 2 k (upd2 q1 1 j (clamp10 F (q 1%nat j))))).
      { unfold clamp10. destruct (flt F (q 1%nat j) (flit F 1 10)); [apply mset2_gen; lia|]. change (q 1%nat j) with (q1 1%nat j). rewrite upd2_id; reflexivity. }
      rewrite E2. apply Ok_eq, mgen_ext. intros a b Ha Hb. unfold q1, upd2. destruct a as [|[|a]]; [| |lia]; simpl;
      destruct (Nat.eqb_spec b j); subst; auto. }
  cbn [bind]. fold w'.
  rewrite (@colacc F 2 n k _ (fun i j a v => fadd F v (if (a =? 0)%nat then peluDa F (w' 0%nat j) (w' 1%nat j) (X i j) else peluDb F (w' 0%nat j) (w' 1%nat j) (X i j)))).
  2:{ intros i j q Hi Hj. rewrite (mget2_gen _ n k) by auto. cbn [bind]. rewrite !(mget2_gen _ 2 k) by lia. cbn [bind].
      rewrite mset2_gen by lia. cbn [bind]. rewrite mget2_gen by lia. cbn [bind].
      match goal with |- context[upd2 q 0 j ?v 1%nat j] => change (upd2 q 0 j v 1%nat j) with (q 1%nat j) end.
      rewrite mset2_gen by lia. apply Ok_eq, mgen_ext. intros a b Ha Hb. unfold upd2. destruct a as [|[|a]]; [| |lia]; simpl;
      destruct (Nat.eqb_spec b j); subst; auto. }
  cbn [bind]. unfold mdivS. rewrite (@mapLoop_gen F). cbn [bind]. destruct first; cbn [bind]; auto.
  rewrite (@cell2 F n k _ (fun i j x => fmul F x (peluDx F (w' 0%nat j) (w' 1%nat j) (X i j)))); auto.
  intros i j q Hi Hj. rewrite (mget2_gen _ n k X) by auto. cbn [bind]. rewrite !(mget2_gen _ 2 k) by lia. cbn [bind].
  rewrite mget2_gen by lia. cbn [bind]. rewrite mset2_gen by auto. reflexivity.
Qed.

Lemma d_div : forall f g (t a b : R), is_derive f t a -> is_derive g t b -> g t <> 0 -> is_derive (fun x => f x / g x) t ((a * g t - f t * b) / (g t * g t)).
Proof. intros. eapply is_derive_eq; [apply is_derive_div; eauto|]. simpl. field. auto. Qed.
Lemma d_exp : forall f (t a : R), is_derive f t a -> is_derive (fun x => exp (f x)) t (exp (f t) * a).
Proof. intros. apply (is_derive_Rcomp exp f); auto. apply is_derive_exp. Qed.
Lemma d_sub_const : forall (c : R) f a l, is_derive f a l -> is_derive (fun x => f x - c) a l.
Proof. intros. apply (d_add_const_r (- c)); auto. Qed.

(* all three arguments moving *)
Lemma pelu_d : forall jk (a b x : R -> R) t da db dx, is_derive a t da -> is_derive b t db -> is_derive x t dx -> x t <> 0 -> b t <> 0 ->
  is_derive (fun s => peluF (ROps jk) (a s) (b s) (x s)) t
    (peluDa (ROps jk) (a t) (b t) (x t) * da + peluDb (ROps jk) (a t) (b t) (x t) * db + peluDx (ROps jk) (a t) (b t) (x t) * dx).
Proof.
  intros jk a b x t da db dx Ha Hb Hx Hne Hb0. unfold peluF, peluDa, peluDb, peluDx. simpl flt. simpl fmul. simpl fdiv. simpl f0. simpl f1. simpl fopp. simpl fsub. simpl flm. cbv zeta.
  eapply is_derive_eq.
  - apply (d_branch_b (fun z => Rltb 0 z) false true x (fun s => x s * (a s / b s)) (fun s => a s * (exp (x s / b s) - 1)) t 0 dx
      (dx * (a t / b t) + x t * ((da * b t - a t * db) / (b t * b t)))
      (da * (exp (x t / b t) - 1) + a t * (exp (x t / b t) * ((dx * b t - x t * db) / (b t * b t))))); auto.
    + intros z Hz. unfold Rltb. destruct (Rlt_dec 0 z); auto; lra.
    + intros z Hz. unfold Rltb. destruct (Rlt_dec 0 z); auto; lra.
    + intros _. apply (d_mul x (fun s => a s / b s)); [exact Hx|]. apply d_div; auto.
    + intros _. apply (d_mul a (fun s => exp (x s / b s) - 1)); [exact Ha|]. apply d_sub_const. apply (d_exp (fun s => x s / b s)). apply d_div; auto.
  - simpl. destruct (Rltb 0 (x t)); field; auto.
Qed.

Lemma pelu_curve : forall jk n k X w t dX dw (G : nat -> nat -> R),
  dcurve n k X t dX -> dcurve 2 k w t dw -> (forall i j, (i < n)%nat -> (j < k)%nat -> X t i j <> 0) -> (forall j, (j < k)%nat -> w t 1%nat j <> 0) ->
  exists dY, dcurve n k (fun x i j => peluF (ROps jk) (w x 0%nat j) (w x 1%nat j) (X x i j)) t dY /\
  dot n k G dY = dot n k (fun i j => G i j * peluDx (ROps jk) (w t 0%nat j) (w t 1%nat j) (X t i j)) dX
               + dot 2 k (fun r j => rsum n (fun i => G i j * (if (r =? 0)%nat then peluDa (ROps jk) (w t 0%nat j) (w t 1%nat j) (X t i j) else peluDb (ROps jk) (w t 0%nat j) (w t 1%nat j) (X t i j)))) dw.
Proof.
  intros jk n k X w t dX dw G HX Hw Hne Hb.
  set (Da := fun i j => peluDa (ROps jk) (w t 0%nat j) (w t 1%nat j) (X t i j) : R).
  set (Db := fun i j => peluDb (ROps jk) (w t 0%nat j) (w t 1%nat j) (X t i j) : R).
  set (Dx := fun i j => peluDx (ROps jk) (w t 0%nat j) (w t 1%nat j) (X t i j) : R).
  exists (fun i j => Da i j * dw 0%nat j + Db i j * dw 1%nat j + Dx i j * dX i j). split.
  - intros i j Hi Hj. apply (pelu_d jk (fun x => w x 0%nat j) (fun x => w x 1%nat j) (fun x => X x i j)); auto.
  - rewrite (dot_plus n k G (fun i j => Da i j * dw 0%nat j + Db i j * dw 1%nat j) (fun i j => Dx i j * dX i j)). rewrite Rplus_comm. f_equal.
    + apply dot_ext. intros. unfold Dx. ring.
    + rewrite dot_swap. unfold dot. simpl. rewrite Rplus_0_l, <- rsum_plus. apply rsum_ext. intros j Hj. rewrite <- !rsum_scal_r, <- rsum_plus.
      apply rsum_ext. intros i Hi. unfold Da, Db. ring.
Qed.

Lemma clamp10_id : forall jk (x : R), 1 / 10 <= x -> clamp10 (ROps jk) x = x.
Proof. intros. unfold clamp10. simpl. unfold Rltb. destruct (Rlt_dec x (1 / 10)); lra. Qed.
Lemma clamp10_ge : forall jk (x : R), 1 / 10 <= clamp10 (ROps jk) x.
Proof. intros. unfold clamp10. simpl. unfold Rltb. destruct (Rlt_dec x (1 / 10)); lra. Qed.

Lemma bwdPELU_R : forall jk first n k w gw X G gin, (0 < k)%nat ->
  (forall r j, (r < 2)%nat -> (j < k)%nat -> 1 / 10 <= w r j) ->
  bwdPELU (ROps jk) first (mgen 2 k w) (mgen 2 k gw) (mgen n k X) (mgen n k G) gin =
  Ok (mgen 2 k w,
      mgen 2 k (fun r j => rsum n (fun i => if (r =? 0)%nat then peluDa (ROps jk) (w 0%nat j) (w 1%nat j) (X i j) else peluDb (ROps jk) (w 0%nat j) (w 1%nat j) (X i j)) / INR n),
      if first then gin else mgen n k (fun i j => G i j * (peluDx (ROps jk) (w 0%nat j) (w 1%nat j) (X i j)))).
Proof.
  intros jk first n k w gw X G gin Hk Hw. eapply eq_trans; [exact (bwdPELU_gen (ROps jk) first n k w gw X G gin Hk)|].
  apply Ok_eq. f_equal; [f_equal|destruct first; auto]; apply mgen_ext; intros i j Hi Hj.
  - apply clamp10_id. auto.
  - fs. unfold Rdiv. f_equal. apply rsum_ext. intros l Hl. rewrite !clamp10_id by (apply Hw; lia). reflexivity.
  - fs. rewrite !clamp10_id by (apply Hw; lia). reflexivity.
Qed.

(* input gradient exact; the weight gradients are those of the unweighted sum of the outputs: G is ignored *)
Lemma pelu_gradients : forall jk first n k w gw X G gin, (0 < n)%nat -> (0 < k)%nat ->
  (forall i j, (i < n)%nat -> (j < k)%nat -> X i j <> 0) -> (forall r j, (r < 2)%nat -> (j < k)%nat -> 1 / 10 <= w r j) ->
  exists gw' gi,
    bwdPELU (ROps jk) first (mgen 2 k w) (mgen 2 k gw) (mgen n k X) (mgen n k G) gin = Ok (mgen 2 k w, mgen 2 k gw', if first then gin else mgen n k gi) /\
    gradOf 2 k (INR n) (fun w' => obj (fun _ _ => 1) (out_ (fwdPELU (ROps jk) (mgen 2 k w') (mgen 2 k gw) (mgen n k X)))) w gw' /\
    gradOf n k 1 (fun X' => obj G (out_ (fwdPELU (ROps jk) (mgen 2 k w) (mgen 2 k gw) (mgen n k X')))) X gi.
Proof.
  intros jk first n k w gw X G gin Hn Hk Hne Hw. apply INR_pos in Hn. do 2 eexists. split; [apply bwdPELU_R; auto|].
  assert (Hw0 : forall j, (j < k)%nat -> w 1%nat j <> 0) by (intros j Hj; specialize (Hw 1%nat j ltac:(lia) Hj); lra). split.
  - apply gradOf_curve with (n := n) (m := k) (f := fun w i j => peluF (ROps jk) (w 0%nat j) (w 1%nat j) (X i j)).
    + intro. rewrite (fwdPELU_gen (ROps jk)) by auto. reflexivity.
    + intros a c Ha Hc. destruct (pelu_curve jk n k (fun _ => X) (fun x => upd2 w a c x) (w a c) _ _ (fun _ _ => 1) (dcurve_const _ _ _ _) (dcurve_cell _ _ _ _ _) Hne) as (dY & H1 & H2).
      { intros. rewrite upd2_same. auto. }
      exists dY. split; [exact H1|]. rewrite H2. at_cell. rewrite Rplus_0_l. unfold Rdiv. rewrite (Rmult_comm (INR n)), Rmult_assoc, Rinv_l, Rmult_1_r by auto.
      apply rsum_ext. intros. apply Rmult_1_l.
  - apply gradOf_curve with (n := n) (m := k) (f := fun X i j => peluF (ROps jk) (w 0%nat j) (w 1%nat j) (X i j)).
    + intro. rewrite (fwdPELU_gen (ROps jk)) by auto. reflexivity.
    + intros a c Ha Hc. destruct (pelu_curve jk n k (fun x => upd2 X a c x) (fun _ => w) (X a c) _ _ G (dcurve_cell _ _ _ _ _) (dcurve_const _ _ _ _)) as (dY & H1 & H2).
      { intros. rewrite upd2_same. auto. } { auto. }
      exists dY. split; [exact H1|]. rewrite H2. at_cell. rewrite Rplus_0_r. symmetry. apply Rmult_1_l.
Qed.
(* the backward pass also moves every weight below 0.1 up to 0.1 *)
Lemma pelu_clamps : forall jk first n k w gw X G gin, (0 < k)%nat -> exists w' gw' gi,
  bwdPELU (ROps jk) first (mgen 2 k w) (mgen 2 k gw) (mgen n k X) (mgen n k G) gin = Ok (mgen 2 k w', gw', gi) /\
  forall r j, 1 / 10 <= w' r j /\ (1 / 10 <= w r j -> w' r j = w r j).
Proof.
  intros jk first n k w gw X G gin Hk. do 3 eexists. split; [exact (bwdPELU_gen (ROps jk) first n k w gw X G gin Hk)|].
  intros r j. split; [apply clamp10_ge | apply clamp10_id].
Qed.
Lemma obj_scale : forall s G (r : res (mat R)), obj (fun i j => s * G i j) r = s * obj G r.
Proof.
  intros s G [o|e]; simpl; [|ring]. unfold dotM. rewrite <- rsum_scal. apply rsum_ext. intros. rewrite <- rsum_scal. apply rsum_ext. intros. ring.
Qed.
Lemma obj_two : forall (r : res (mat R)), obj (fun _ _ => 2) r = 2 * obj (fun _ _ => 1) r.
Proof.
  intros r. rewrite <- obj_scale. f_equal.
  apply FunctionalExtensionality.functional_extensionality; intro; apply FunctionalExtensionality.functional_extensionality; intro. ring.
Qed.
Lemma pelu_refuted : forall jk : R, exists n k w gw X G gin gw' gi, (0 < n)%nat /\ (0 < k)%nat /\
  (forall i j, (i < n)%nat -> (j < k)%nat -> X i j <> 0) /\ (forall r j, (r < 2)%nat -> (j < k)%nat -> 1 / 10 <= w r j) /\
  bwdPELU (ROps jk) false (mgen 2 k w) (mgen 2 k gw) (mgen n k X) (mgen n k G) gin = Ok (mgen 2 k w, mgen 2 k gw', mgen n k gi) /\
  ~ gradOf 2 k (INR n) (fun w' => obj G (out_ (fwdPELU (ROps jk) (mgen 2 k w') (mgen 2 k gw) (mgen n k X)))) w gw'.
Proof.
  intros jk. assert (N : forall i j, (i < 1)%nat -> (j < 1)%nat -> (fun _ _ : nat => 1) i j <> 0) by (intros; lra).
  assert (W : forall r j, (r < 2)%nat -> (j < 1)%nat -> 1 / 10 <= (fun _ _ : nat => 1) r j) by (intros; lra).
  destruct (pelu_gradients jk false 1 1 (fun _ _ => 1) (fun _ _ => 0) (fun _ _ => 1) (fun _ _ => 2) (mempty (ROps jk)) ltac:(lia) ltac:(lia) N W) as (gw' & gi & H1 & H2 & _).
  do 9 eexists. split; [|split; [|split; [exact N|split; [exact W|split; [exact H1|]]]]]; try lia. intros H.
  specialize (H 0%nat 0%nat ltac:(lia) ltac:(lia)). specialize (H2 0%nat 0%nat ltac:(lia) ltac:(lia)).
  assert (H3 : isPartial (fun w' => obj (fun _ _ => 2) (out_ (fwdPELU (ROps jk) (mgen 2 1 w') (mgen 2 1 (fun _ _ => 0)) (mgen 1 1 (fun _ _ => 1))))) (fun _ _ => 1) 0 0 (2 * (INR 1 * gw' 0%nat 0%nat))).
  { unfold isPartial in *. eapply is_derive_ext; [|apply (d_mul_const_l 2); exact H2].
    intros x. symmetry. apply obj_two. }
  pose proof (partial_unique _ _ _ _ _ _ H H3) as E.
  rewrite bwdPELU_R in H1 by (auto; lia).
  pose proof (f_equal (fun r => match r with Ok p => snd (fst p) | Err _ => mempty (ROps jk) end) H1) as E1. cbv beta iota in E1. cbn [fst snd] in E1.
  apply (mgen_inj _ _ _ _ _ 0 0) in E1; try lia. rewrite <- E1 in E. simpl in E. unfold peluDa in E. simpl in E. unfold Rltb in E. destruct (Rlt_dec 0 1); lra.
Qed.

(** TERELU *)
Definition tereluF (F : FOps) (w x : F) : F :=
  if fle F x (f0 F) then fmul F (f1 F) (flm F Lexpm1 x)
  else if fle F (f1 F) x then fmul F w (fsub F (f1 F) (flm F Lexpm1 (fsub F (f1 F) x))) else x.
Definition tereluDx (F : FOps) (g w x : F) : F :=
  if fle F x (f0 F) then fmul F g (fmul F (f1 F) (flm F Lexp x))
  else if fle F (f1 F) x then fmul F g (fmul F w (flm F Lexp (fsub F (f1 F) x))) else g.
Lemma fwdTERELU_gen : forall (F : FOps) n k w gw X, (0 < k)%nat ->
  fwdTERELU F (mgen 1 k w) gw (mgen n k X) = Ok (mgen 1 k w, gw, mgen n k (fun i j => tereluF F (w 0%nat j) (X i j))).
Proof.
  intros F n k w gw X Hk. unfold fwdTERELU. cbv zeta. change (msize (mgen 1 k w)) with (1 * k)%nat. change (mcols (mgen n k X)) with k. change (mrows (mgen n k X)) with n.
  replace (1 * k =? 0)%nat with false by (symmetry; apply Nat.eqb_neq; lia). cbn [bind].
  set (h := fun i j x => if fle F (X i j) (f0 F) then fmul F (f1 F) (flm F Lexpm1 (X i j))
    else if fle F (f1 F) (X i j) then fmul F (w 0%nat j) (fsub F (f1 F) (flm F Lexpm1 (fsub F (f1 F) (X i j)))) else x).
  rewrite (@cell2 F n k _ h); auto.
  intros i j q Hi Hj. rewrite mget2_gen by lia. cbn [bind]. unfold h. destruct (fle F (X i j) (f0 F)).
  - rewrite mset2_gen by auto. reflexivity.
  - destruct (fle F (f1 F) (X i j)).
    + rewrite mget1_row by auto. cbn [bind]. rewrite mset2_gen by auto. reflexivity.
    + rewrite upd2_id. reflexivity.
Qed.
Lemma bwdTERELU_gen : forall (F : FOps) first n k w gw X G gin,
  bwdTERELU F first (mgen 1 k w) (mgen 1 k gw) (mgen n k X) (mgen n k G) gin =
  Ok (mgen 1 k (fun _ j => fdiv F (fold_left (fun v i => if fle F (f1 F) (X i j) then fadd F v (fsub F (f1 F) (flm F Lexpm1 (fsub F (f1 F) (X i j)))) else v) (seq 0 n) (f0 F)) (fofN F n)),
      if first then gin else mgen n k (fun i j => tereluDx F (G i j) (w 0%nat j) (X i j))).
Proof.
  intros F first n k w gw X G gin. unfold bwdTERELU. cbv zeta. change (mcols (mgen n k X)) with k. change (mrows (mgen n k X)) with n.
  change (mcols (mgen n k G)) with k. change (mrows (mgen n k G)) with n.
  unfold msetConst. rewrite (@mapLoop_gen F). cbn [bind].
  rewrite (@rowacc F n k _ (fun i j v => if fle F (f1 F) (X i j) then fadd F v (fsub F (f1 F) (flm F Lexpm1 (fsub F (f1 F) (X i j)))) else v)).
  2:{ intros i j q Hi Hj. rewrite mget2_gen by auto. cbn [bind]. destruct (fle F (f1 F) (X i j)).
      - rewrite !mget2_gen by lia. cbn [bind]. rewrite mset2_gen by lia. reflexivity.
      - rewrite upd2_id. reflexivity. }
  cbn [bind]. unfold mdivS. rewrite (@mapLoop_gen F). cbn [bind]. destruct first; cbn [bind]; auto.
  rewrite (@cell2 F n k _ (fun i j g => tereluDx F g (w 0%nat j) (X i j))); auto.
  intros i j q Hi Hj. rewrite mget2_gen by auto. cbn [bind]. unfold tereluDx. destruct (fle F (X i j) (f0 F)).
  - rewrite mget2_gen by auto. cbn [bind]. rewrite mset2_gen by auto. reflexivity.
  - destruct (fle F (f1 F) (X i j)).
    + rewrite mget2_gen by auto. cbn [bind]. rewrite mget1_row by auto. cbn [bind]. rewrite mset2_gen by auto. reflexivity.
    + rewrite upd2_id. reflexivity.
Qed.
Definition tereluDw (x : R) : R := if Rleb 1 x then 1 - (exp (1 - x) - 1) else 0.
Lemma bwdTERELU_R : forall jk first n k w gw X G gin,
  bwdTERELU (ROps jk) first (mgen 1 k w) (mgen 1 k gw) (mgen n k X) (mgen n k G) gin =
  Ok (mgen 1 k (fun _ j => rsum n (fun i => tereluDw (X i j)) / INR n),
      if first then gin else mgen n k (fun i j => tereluDx (ROps jk) (G i j) (w 0%nat j) (X i j))).
Proof.
  intros. eapply eq_trans; [exact (bwdTERELU_gen (ROps jk) first n k w gw X G gin)|]. apply Ok_eq. f_equal. apply mgen_ext. intros.
  fs. simpl fle. rewrite (fold_cond_sum n (fun i => Rleb 1 (X i j)) (fun i => 1 - (exp (1 - X i j) - 1))). reflexivity.
Qed.
Lemma terelu_d : forall jk (w x : R -> R) t dw dx, is_derive w t dw -> is_derive x t dx -> x t <> 0 -> x t <> 1 ->
  is_derive (fun s => tereluF (ROps jk) (w s) (x s)) t (tereluDw (x t) * dw + tereluDx (ROps jk) 1 (w t) (x t) * dx).
Proof.
  intros jk w x t dw dx Hw Hx H0 H1. unfold tereluF, tereluDx, tereluDw. simpl fle. simpl fmul. simpl f0. simpl f1. simpl fsub. simpl flm.
  eapply is_derive_eq.
  - apply (d_branch_b (fun z => Rleb z 0) true false x (fun s => 1 * (exp (x s) - 1))
      (fun s => if Rleb 1 (x s) then w s * (1 - (exp (1 - x s) - 1)) else x s) t 0 dx
      (1 * (exp (x t) * dx)) (if Rleb 1 (x t) then dw * (1 - (exp (1 - x t) - 1)) + w t * (exp (1 - x t) * dx) else dx)); auto.
    + intros z Hz. unfold Rleb. destruct (Rle_dec z 0); auto; lra.
    + intros z Hz. unfold Rleb. destruct (Rle_dec z 0); auto; lra.
    + intros _. apply (d_mul_const_l 1). apply d_sub_const. apply d_exp. auto.
    + intros _. apply (d_branch_b (fun z => Rleb 1 z) false true x (fun s => w s * (1 - (exp (1 - x s) - 1))) x t 1 dx); auto.
      * intros z Hz. unfold Rleb. destruct (Rle_dec 1 z); auto; lra.
      * intros z Hz. unfold Rleb. destruct (Rle_dec 1 z); auto; lra.
      * intros _. eapply is_derive_eq; [apply (d_mul w (fun s => 1 - (exp (1 - x s) - 1))); [exact Hw|]|].
        { apply (is_derive_Rminus (fun _ => 1) (fun s => exp (1 - x s) - 1)); [apply (is_derive_const 1)|]. apply d_sub_const.
          apply (d_exp (fun s => 1 - x s)). apply (is_derive_Rminus (fun _ => 1) x); [apply (is_derive_const 1) | exact Hx]. }
        unfold zero; simpl. ring.
  - simpl. unfold Rleb. destruct (Rle_dec (x t) 0), (Rle_dec 1 (x t)); try lra; ring.
Qed.
Lemma tereluDx_G : forall jk (g w x : R), tereluDx (ROps jk) g w x = g * tereluDx (ROps jk) 1 w x.
Proof. intros. unfold tereluDx. simpl. destruct (Rleb x 0), (Rleb 1 x); ring. Qed.
Lemma terelu_curve : forall jk n k X w t dX dw (G : nat -> nat -> R),
  dcurve n k X t dX -> dcurve 1 k w t dw -> (forall i j, (i < n)%nat -> (j < k)%nat -> X t i j <> 0 /\ X t i j <> 1) ->
  exists dY, dcurve n k (fun x i j => tereluF (ROps jk) (w x 0%nat j) (X x i j)) t dY /\
  dot n k G dY = dot n k (fun i j => tereluDx (ROps jk) (G i j) (w t 0%nat j) (X t i j)) dX
               + dot 1 k (fun _ j => rsum n (fun i => G i j * tereluDw (X t i j))) dw.
Proof.
  intros jk n k X w t dX dw G HX Hw Hne.
  exists (fun i j => tereluDw (X t i j) * dw 0%nat j + tereluDx (ROps jk) 1 (w t 0%nat j) (X t i j) * dX i j). split.
  - intros i j Hi Hj. destruct (Hne i j Hi Hj). apply (terelu_d jk (fun x => w x 0%nat j) (fun x => X x i j)); auto.
  - rewrite (dot_plus n k G (fun i j => tereluDw (X t i j) * dw 0%nat j) (fun i j => tereluDx (ROps jk) 1 (w t 0%nat j) (X t i j) * dX i j)).
    rewrite Rplus_comm. f_equal.
    + apply dot_ext. intros i j Hi Hj. eapply eq_trans; [|symmetry; apply (f_equal (fun z => z * dX i j) (tereluDx_G jk (G i j) (w t 0%nat j) (X t i j)))]. simpl. ring.
    + rewrite dot_swap. unfold dot. simpl. rewrite Rplus_0_l. apply rsum_ext. intros j Hj. rewrite <- !rsum_scal_r.
      apply rsum_ext. intros i Hi. ring.
Qed.
Lemma terelu_gradients : forall jk first n k w gw X G gin, (0 < n)%nat -> (0 < k)%nat ->
  (forall i j, (i < n)%nat -> (j < k)%nat -> X i j <> 0 /\ X i j <> 1) ->
  exists gw' gi,
    bwdTERELU (ROps jk) first (mgen 1 k w) (mgen 1 k gw) (mgen n k X) (mgen n k G) gin = Ok (mgen 1 k gw', if first then gin else mgen n k gi) /\
    gradOf 1 k (INR n) (fun w' => obj (fun _ _ => 1) (out_ (fwdTERELU (ROps jk) (mgen 1 k w') (mgen 1 k gw) (mgen n k X)))) w gw' /\
    gradOf n k 1 (fun X' => obj G (out_ (fwdTERELU (ROps jk) (mgen 1 k w) (mgen 1 k gw) (mgen n k X')))) X gi.
Proof.
  intros jk first n k w gw X G gin Hn Hk Hne. apply INR_pos in Hn. do 2 eexists. split; [apply bwdTERELU_R; auto|]. split.
  - apply gradOf_curve with (n := n) (m := k) (f := fun w i j => tereluF (ROps jk) (w 0%nat j) (X i j)).
    + intro. rewrite (fwdTERELU_gen (ROps jk)) by auto. reflexivity.
    + intros a c Ha Hc. destruct (terelu_curve jk n k (fun _ => X) (fun x => upd2 w a c x) (w a c) _ _ (fun _ _ => 1) (dcurve_const _ _ _ _) (dcurve_cell _ _ _ _ _) Hne) as (dY & H1 & H2).
      exists dY. split; [exact H1|]. rewrite H2. at_cell. rewrite Rplus_0_l. unfold Rdiv. rewrite (Rmult_comm (INR n)), Rmult_assoc, Rinv_l, Rmult_1_r by auto.
      apply rsum_ext. intros. apply Rmult_1_l.
  - apply gradOf_curve with (n := n) (m := k) (f := fun X i j => tereluF (ROps jk) (w 0%nat j) (X i j)).
    + intro. rewrite (fwdTERELU_gen (ROps jk)) by auto. reflexivity.
    + intros a c Ha Hc. destruct (terelu_curve jk n k (fun x => upd2 X a c x) (fun _ => w) (X a c) _ _ G (dcurve_cell _ _ _ _ _) (dcurve_const _ _ _ _)) as (dY & H1 & H2).
      { intros. rewrite upd2_same. auto. }
      exists dY. split; [exact H1|]. rewrite H2. at_cell. rewrite Rplus_0_r. symmetry. apply Rmult_1_l.
Qed.
Lemma terelu_refuted : forall jk : R, exists n k w gw X G gin gw' gi, (0 < n)%nat /\ (0 < k)%nat /\
  (forall i j, (i < n)%nat -> (j < k)%nat -> X i j <> 0 /\ X i j <> 1) /\
  bwdTERELU (ROps jk) false (mgen 1 k w) (mgen 1 k gw) (mgen n k X) (mgen n k G) gin = Ok (mgen 1 k gw', mgen n k gi) /\
  ~ gradOf 1 k (INR n) (fun w' => obj G (out_ (fwdTERELU (ROps jk) (mgen 1 k w') (mgen 1 k gw) (mgen n k X)))) w gw'.
Proof.
  intros jk. assert (N : forall i j, (i < 1)%nat -> (j < 1)%nat -> (fun _ _ : nat => 2) i j <> 0 /\ (fun _ _ : nat => 2) i j <> 1) by (intros; split; lra).
  destruct (terelu_gradients jk false 1 1 (fun _ _ => 1) (fun _ _ => 0) (fun _ _ => 2) (fun _ _ => 2) (mempty (ROps jk)) ltac:(lia) ltac:(lia) N) as (gw' & gi & H1 & H2 & _).
  do 9 eexists. split; [|split; [|split; [exact N|split; [exact H1|]]]]; try lia. intros H.
  specialize (H 0%nat 0%nat ltac:(lia) ltac:(lia)). specialize (H2 0%nat 0%nat ltac:(lia) ltac:(lia)).
  assert (H3 : isPartial (fun w' => obj (fun _ _ => 2) (out_ (fwdTERELU (ROps jk) (mgen 1 1 w') (mgen 1 1 (fun _ _ => 0)) (mgen 1 1 (fun _ _ => 2))))) (fun _ _ => 1) 0 0 (2 * (INR 1 * gw' 0%nat 0%nat))).
  { unfold isPartial in *. eapply is_derive_ext; [|apply (d_mul_const_l 2); exact H2].
    intros x. symmetry. apply obj_two. }
  pose proof (partial_unique _ _ _ _ _ _ H H3) as E.
  rewrite bwdTERELU_R in H1.
  pose proof (f_equal (fun r => match r with Ok p => fst p | Err _ => mempty (ROps jk) end) H1) as E1. cbv beta iota in E1. cbn [fst snd] in E1.
  apply (mgen_inj _ _ _ _ _ 0 0) in E1; try lia. rewrite <- E1 in E. simpl in E. unfold tereluDw in E. unfold Rleb in E.
  destruct (Rle_dec 1 2); [|lra]. assert (exp (1 - 2) < exp 0) by (apply exp_increasing; lra). rewrite exp_0 in H0. lra.
Qed.
