(* LayProofs4.v - GatedActivation, CRelu, PRelu, RRelu *)
From Coq Require Import List Arith Bool Lia Reals Lra ZArith QArith String.
From Coquelicot Require Import Coquelicot.
From Verif Require Import Base Scalar Mat SpecMat SpecReal RSum MatFacts MatProofs MatProofs2 MatProps MatLoops Scatter RDeriv Loss SpecLoss Act SpecAct ActProofs LayMat LayKit SpecLayer LayGrad LayCurve LayTens LayProofs1 LayProofs2.
Import ListNotations.
Local Open Scope nat_scope.

(* body i j acts on the cells (i,j) and (i,j+h) of an n x 2h matrix *)
Lemma cellpair : forall A n h (body : nat -> nat -> mat A -> res (mat A)) (a b : nat -> nat -> A -> A) p,
  (forall i j q, i < n -> j < h ->
     body i j (mgen n (2 * h) q) = Ok (mgen n (2 * h) (fun r c => if (r =? i) && (c =? j) then a i j (q r c) else if (r =? i) && (c =? j + h) then b i j (q r c) else q r c))) ->
  loop2 n h body (mgen n (2 * h) p) = Ok (mgen n (2 * h) (fun i c => if c <? h then a i c (p i c) else b i (c - h) (p i c))).
Proof.
  intros A n h body a b p H. unfold loop2.
  set (st := fun i j (q : nat -> nat -> A) => fun r c => if (r =? i) && (c =? j) then a i j (q r c) else if (r =? i) && (c =? j + h) then b i j (q r c) else q r c).
  rewrite (@forN_sim _ _ (mgen n (2 * h))) with (step := fun i q => fold_left (fun q j => st i j q) (seq 0 h) q).
  2:{ intros i q Hi. rewrite (@forN_sim _ _ (mgen n (2 * h))) with (step := st i); [reflexivity|]. intros. apply H; auto. }
  apply Ok_eq, mgen_ext. intros r c Hr Hc.
  rewrite (@fold_point2 nat A (fun i q => fold_left (fun q j => st i j q) (seq 0 h) q)
             (fun i v => if i =? r then (if c <? h then a i c v else b i (c - h) v) else v)).
  - apply (fold_hit0 (fun i v => if c <? h then a i c v else b i (c - h) v)); auto.
  - intros i q Hi.
    rewrite (@fold_point2 nat A (st i) (fun j v => if (r =? i) && (c =? j) then a i j v else if (r =? i) && (c =? j + h) then b i j v else v)) by reflexivity.
    rewrite (Nat.eqb_sym i r). destruct (r =? i) eqn:Er; cbn [andb].
    2:{ apply fold_left_id. intros; reflexivity. }
    destruct (Nat.ltb_spec c h) as [L|L].
    + rewrite (@fold_left_ext_in _ _ _ (fun v j => if j =? c then a i j v else v)).
      * apply (fold_hit0 (fun j v => a i j v)); auto.
      * intros v j Hj. rewrite (Nat.eqb_sym c j). destruct (Nat.eqb_spec j c); auto.
        destruct (Nat.eqb_spec c (j + h)); auto. lia.
    + rewrite (@fold_left_ext_in _ _ _ (fun v j => if j =? c - h then b i j v else v)).
      * apply (fold_hit0 (fun j v => b i j v)); lia.
      * intros v j Hj. apply in_seq in Hj. destruct (Nat.eqb_spec c j); [lia|].
        destruct (Nat.eqb_spec c (j + h)), (Nat.eqb_spec j (c - h)); auto; lia.
Qed.

Lemma half2 : forall h, 2 * h / 2 = h.
Proof. intros. rewrite Nat.mul_comm. apply Nat.div_mul. lia. Qed.
Lemma even2 : forall h, Nat.even (2 * h) = true.
Proof. intros. apply Nat.even_spec. exists h. reflexivity. Qed.

(** Gated activation *)
Lemma fwdGated_gen : forall (F : FOps) a1 a2 n h X out, mwf out ->
  fwdGated F (Some a1) (Some a2) (mgen n (2 * h) X) out =
  Ok (mgen n h (fun i c => fmul F (act_apply F a1 (X i c)) (act_apply F a2 (X i (c + h))))).
Proof.
  intros F a1 a2 n h X out Ho. unfold fwdGated, assert_. change (mcols (mgen n (2 * h) X)) with (2 * h). change (mrows (mgen n (2 * h) X)) with n.
  rewrite even2. cbn [bind]. cbv zeta. rewrite half2. destruct (mresize_gen F out n h Ho) as [q ->].
  rewrite (@cell2 F n h _ (fun i c _ => fmul F (act_apply F a1 (X i c)) (act_apply F a2 (X i (c + h))))); auto.
  intros i j q' Hi Hj. rewrite mget2_gen by lia. cbn [bind actApply]. rewrite mget2_gen by lia. cbn [bind]. rewrite mset2_gen by lia. reflexivity.
Qed.
Lemma fwdGated_odd : forall (F : FOps) a1 a2 n k X out, Nat.odd k = true -> fwdGated F a1 a2 (mgen n k X) out = Err EAssert.
Proof. intros. unfold fwdGated, assert_. simpl mcols. rewrite <- Nat.negb_odd, H. reflexivity. Qed.

Lemma bwdGated_gen : forall (F : FOps) a1 a2 n h X G gin, mwf gin ->
  bwdGated F (Some a1) (Some a2) false (mgen n (2 * h) X) (mgen n h G) gin =
  Ok (mgen n (2 * h) (fun i c => if c <? h then fmul F (fmul F (G i c) (act_apply F a2 (X i (c + h)))) (act_deriv F a1 (X i c))
                               else fmul F (fmul F (G i (c - h)) (act_apply F a1 (X i (c - h)))) (act_deriv F a2 (X i (c - h + h))))).
Proof.
  intros F a1 a2 n h X G gin Ho. unfold bwdGated. change (mcols (mgen n (2 * h) X)) with (2 * h). change (mrows (mgen n (2 * h) X)) with n.
  cbv zeta. rewrite half2. destruct (mresize_gen F gin n (2 * h) Ho) as [q ->].
  rewrite (@cellpair F n h _ (fun i c _ => fmul F (fmul F (G i c) (act_apply F a2 (X i (c + h)))) (act_deriv F a1 (X i c)))
                           (fun i c _ => fmul F (fmul F (G i c) (act_apply F a1 (X i c))) (act_deriv F a2 (X i (c + h))))); auto.
  intros i j q' Hi Hj. rewrite (mget2_gen _ n h) by lia. cbn [bind]. rewrite !(mget2_gen _ n (2 * h)) by lia. cbn [bind actApply actDeriv].
  rewrite mset2_gen by lia. cbn [bind]. rewrite mset2_gen by lia. apply Ok_eq, mgen_ext. intros r c Hr Hc. unfold upd2.
  destruct (r =? i); cbn [andb]; auto. destruct (Nat.eqb_spec c j); auto. destruct (Nat.eqb_spec c (j + h)); auto. lia.
Qed.
Local Open Scope R_scope.

Lemma rsum_double : forall h (f : nat -> R), rsum (2 * h) f = rsum h f + rsum h (fun c => f (c + h)%nat).
Proof. intros. replace (2 * h)%nat with (h + h)%nat by lia. rewrite rsum_app. f_equal. apply rsum_ext. intros. f_equal. lia. Qed.

Lemma gated_curve : forall n h X t dX (phi psi : R -> R) (p q : nat -> nat -> R) (G : nat -> nat -> R),
  dcurve n (2 * h) X t dX ->
  (forall i j, (i < n)%nat -> (j < h)%nat -> is_derive phi (X t i j) (p i j)) ->
  (forall i j, (i < n)%nat -> (j < h)%nat -> is_derive psi (X t i (j + h)%nat) (q i j)) ->
  exists dY, dcurve n h (fun x i j => phi (X x i j) * psi (X x i (j + h)%nat)) t dY /\
  dot n h G dY = dot n (2 * h) (fun i c => if (c <? h)%nat then G i c * psi (X t i (c + h)%nat) * p i c else G i (c - h)%nat * phi (X t i (c - h)%nat) * q i (c - h)%nat) dX.
Proof.
  intros n h X t dX phi psi p q G HX Hp Hq.
  exists (fun i j => p i j * dX i j * psi (X t i (j + h)%nat) + phi (X t i j) * (q i j * dX i (j + h)%nat)). split.
  - intros i j Hi Hj. apply (d_mul (fun x => phi (X x i j)) (fun x => psi (X x i (j + h)%nat))).
    + apply (is_derive_Rcomp phi (fun x => X x i j)); [apply Hp; auto | apply HX; lia].
    + apply (is_derive_Rcomp psi (fun x => X x i (j + h)%nat)); [apply Hq; auto | apply HX; lia].
  - unfold dot. apply rsum_ext. intros i Hi. rewrite rsum_double, <- rsum_plus. apply rsum_ext. intros j Hj.
    replace (j <? h)%nat with true by (symmetry; apply Nat.ltb_lt; lia). replace (j + h <? h)%nat with false by (symmetry; apply Nat.ltb_ge; lia).
    replace (j + h - h)%nat with j by lia. ring.
Qed.

Lemma gated_gradient : forall jk a1 a2 n h X G out gin, mwf out -> mwf gin -> ~ odd_derivative a1 -> ~ odd_derivative a2 ->
  (forall i j, (i < n)%nat -> (j < h)%nat -> ~ In (X i j) (corners a1) /\ ~ In (X i (j + h)%nat) (corners a2)) ->
  exists gi, bwdGated (ROps jk) (Some a1) (Some a2) false (mgen n (2 * h) X) (mgen n h G) gin = Ok (mgen n (2 * h) gi) /\
  gradOf n (2 * h) 1 (fun X' => obj G (fwdGated (ROps jk) (Some a1) (Some a2) (mgen n (2 * h) X') out)) X gi.
Proof.
  intros jk a1 a2 n h X G out gin Ho Hg Ho1 Ho2 Hc. eexists. split; [exact (bwdGated_gen (ROps jk) a1 a2 n h X G gin Hg)|].
  apply gradOf_curve with (n := n) (m := h) (f := fun X i j => act_apply (ROps jk) a1 (X i j) * act_apply (ROps jk) a2 (X i (j + h)%nat)).
  - intro. exact (fwdGated_gen (ROps jk) a1 a2 n h Q out Ho).
  - intros a c Ha Hc'. destruct (gated_curve n h (fun x => upd2 X a c x) (X a c) _ (act_apply (ROps jk) a1) (act_apply (ROps jk) a2)
      (fun i j => act_deriv (ROps jk) a1 (X i j)) (fun i j => act_deriv (ROps jk) a2 (X i (j + h)%nat)) G (dcurve_cell _ _ _ _ _)) as (dY & H1 & H2).
    + intros i j Hi Hj. rewrite upd2_same. apply act_derivative; auto. apply Hc; auto.
    + intros i j Hi Hj. rewrite upd2_same. apply act_derivative; auto. apply Hc; auto.
    + exists dY. split; [exact H1|]. rewrite H2. at_cell. destruct (c <? h)%nat; simpl fmul; ring.
Qed.

(** branches *)
Lemma near : forall (X : R -> R) (t d : R), is_derive X t d -> forall eps, 0 < eps -> locally t (fun x => Rabs (X x - X t) < eps).
Proof.
  intros X t d H eps He. assert (C : continuous X t) by (apply (ex_derive_continuous X t); exists d; exact H).
  apply (C (fun y => Rabs (y - X t) < eps)). exists (mkposreal eps He). intros y Hy. exact Hy.
Qed.
Lemma d_branch : forall (X f g : R -> R) (t c dX df dg : R), is_derive X t dX -> X t <> c ->
  (X t < c -> is_derive f t df) -> (c < X t -> is_derive g t dg) ->
  is_derive (fun x => if Rltb (X x) c then f x else g x) t (if Rltb (X t) c then df else dg).
Proof.
  intros X f g t c dX df dg HX Hne Hf Hg. unfold Rltb at 2. destruct (Rlt_dec (X t) c) as [L|L].
  - eapply is_derive_ext_loc; [|apply Hf; auto].
    destruct (near X t dX HX (c - X t) ltac:(lra)) as [e He]. exists e. intros y Hy. specialize (He y Hy).
    apply Rabs_def2 in He. unfold Rltb. destruct (Rlt_dec (X y) c); [auto | lra].
  - eapply is_derive_ext_loc; [|apply Hg; lra].
    destruct (near X t dX HX (X t - c) ltac:(lra)) as [e He]. exists e. intros y Hy. specialize (He y Hy).
    apply Rabs_def2 in He. unfold Rltb. destruct (Rlt_dec (X y) c); [lra | auto].
Qed.

(** CRelu: the positive and the negative part side by side *)
Lemma fwdCRelu_gen : forall (F : FOps) n k X out, mwf out ->
  fwdCRelu F (mgen n k X) out =
  Ok (mgen n (2 * k) (fun i c => if (c <? k)%nat then (if fle F (f0 F) (X i c) then X i c else f0 F)
                                 else if fle F (f0 F) (X i (c - k)%nat) then f0 F else fopp F (X i (c - k)%nat))).
Proof.
  intros F n k X out Ho. unfold fwdCRelu. change (mcols (mgen n k X)) with k. change (mrows (mgen n k X)) with n.
  replace (k * 2)%nat with (2 * k)%nat by lia. rewrite msetZero_gen by auto. cbn [bind].
  rewrite (@cellpair F n k _ (fun i c v => if fle F (f0 F) (X i c) then X i c else v) (fun i c v => if fle F (f0 F) (X i c) then v else fopp F (X i c))).
  - reflexivity.
  - intros i j q Hi Hj. rewrite (mget2_gen _ n k) by auto. cbn [bind]. destruct (fle F (f0 F) (X i j)).
    + rewrite mset2_gen by lia. apply Ok_eq, mgen_ext. intros. unfold upd2. destruct (i0 =? i)%nat, (j0 =? j)%nat, (j0 =? j + k)%nat; auto.
    + rewrite mset2_gen by lia. apply Ok_eq, mgen_ext. intros r c Hr Hc. unfold upd2. destruct (Nat.eqb_spec r i), (Nat.eqb_spec c j), (Nat.eqb_spec c (j + k)); simpl; auto; lia.
Qed.
Lemma bwdCRelu_gen : forall (F : FOps) n k X G gin, mwf gin ->
  bwdCRelu F false (mgen n k X) (mgen n (2 * k) G) gin =
  Ok (mgen n k (fun i j => if flt F (f0 F) (X i j) then G i j else fopp F (G i (j + k)%nat))).
Proof.
  intros F n k X G gin Ho. unfold bwdCRelu. change (mcols (mgen n k X)) with k. change (mrows (mgen n k X)) with n.
  rewrite msetZero_gen by auto. cbn [bind].
  rewrite (@cell2 F n k _ (fun i j _ => if flt F (f0 F) (X i j) then G i j else fopp F (G i (j + k)%nat))); auto.
  intros i j q Hi Hj. rewrite (mget2_gen _ n k) by auto. cbn [bind]. destruct (flt F (f0 F) (X i j));
  rewrite (mget2_gen _ n (2 * k)) by lia; cbn [bind]; rewrite mset2_gen by auto; reflexivity.
Qed.
Lemma crelu_curve : forall n k X t dX (G : nat -> nat -> R),
  dcurve n k X t dX -> (forall i j, (i < n)%nat -> (j < k)%nat -> X t i j <> 0) ->
  exists dY, dcurve n (2 * k) (fun x i c => if (c <? k)%nat then (if Rleb 0 (X x i c) then X x i c else 0)
                                 else if Rleb 0 (X x i (c - k)%nat) then 0 else - X x i (c - k)%nat) t dY /\
  dot n (2 * k) G dY = dot n k (fun i j => if Rltb 0 (X t i j) then G i j else - G i (j + k)%nat) dX.
Proof.
  intros n k X t dX G HX Hne.
  exists (fun i c => if (c <? k)%nat then (if Rltb (X t i c) 0 then 0 else dX i c) else (if Rltb (X t i (c - k)%nat) 0 then - dX i (c - k)%nat else 0)).
  assert (HB : forall z A (u v : A), (if Rleb 0 z then u else v) = if Rltb z 0 then v else u).
  { intros z A u v. unfold Rleb, Rltb. destruct (Rle_dec 0 z), (Rlt_dec z 0); auto; lra. }
  split.
  - intros i c Hi Hc. destruct (Nat.ltb_spec c k) as [L|L].
    + eapply is_derive_ext; [intros; symmetry; apply HB|].
      apply (d_branch (fun x => X x i c) (fun _ => 0) (fun x => X x i c) t 0 (dX i c)); auto.
      intros _. apply (is_derive_const 0).
    + eapply is_derive_ext; [intros; symmetry; apply HB|].
      assert (c - k < k)%nat by lia.
      apply (d_branch (fun x => X x i (c - k)%nat) (fun x => - X x i (c - k)%nat) (fun _ => 0) t 0 (dX i (c - k)%nat)); auto.
      * intros _. apply (is_derive_opp (fun x => X x i (c - k)%nat)). auto.
      * intros _. apply (is_derive_const 0).
  - unfold dot. apply rsum_ext. intros i Hi. rewrite rsum_double, <- rsum_plus. apply rsum_ext. intros j Hj.
    replace (j <? k)%nat with true by (symmetry; apply Nat.ltb_lt; lia). replace (j + k <? k)%nat with false by (symmetry; apply Nat.ltb_ge; lia).
    replace (j + k - k)%nat with j by lia. specialize (Hne i j Hi Hj). unfold Rltb. destruct (Rlt_dec (X t i j) 0), (Rlt_dec 0 (X t i j)); try lra; ring.
Qed.
Lemma crelu_gradient : forall jk n k X G out gin, mwf out -> mwf gin ->
  (forall i j, (i < n)%nat -> (j < k)%nat -> X i j <> 0) ->
  exists gi, bwdCRelu (ROps jk) false (mgen n k X) (mgen n (2 * k) G) gin = Ok (mgen n k gi) /\
  gradOf n k 1 (fun X' => obj G (fwdCRelu (ROps jk) (mgen n k X') out)) X gi.
Proof.
  intros jk n k X G out gin Ho Hg Hne. eexists. split; [exact (bwdCRelu_gen (ROps jk) n k X G gin Hg)|].
  eapply gradOf_curve with (n := n) (m := (2 * k)%nat).
  - intro. exact (fwdCRelu_gen (ROps jk) n k Q out Ho).
  - intros a c Ha Hc. destruct (crelu_curve n k (fun x => upd2 X a c x) (X a c) _ G (dcurve_cell _ _ _ _ _)) as (dY & H1 & H2).
    + intros. rewrite upd2_same. auto.
    + exists dY. split; [exact H1|]. rewrite H2. at_cell. symmetry. apply Rmult_1_l.
Qed.

(** PRelu *)
Lemma fwdPRelu_gen : forall (F : FOps) n k w gw X, (0 < k)%nat ->
  fwdPRelu F (mgen 1 k w) gw (mgen n k X) =
  Ok (mgen 1 k w, gw, mgen n k (fun i j => if flt F (X i j) (f0 F) then fmul F (X i j) (w 0%nat j) else X i j)).
Proof.
  intros F n k w gw X Hk. unfold fwdPRelu. change (msize (mgen 1 k w)) with (1 * k)%nat. change (mcols (mgen n k X)) with k. change (mrows (mgen n k X)) with n.
  replace (1 * k =? 0)%nat with false by (symmetry; apply Nat.eqb_neq; lia). cbn [bind].
  rewrite (@cell2 F n k _ (fun i j x => if flt F x (f0 F) then fmul F x (w 0%nat j) else x)); auto.
  intros i j q Hi Hj. rewrite mget2_gen by auto. cbn [bind]. destruct (flt F (q i j) (f0 F)) eqn:E.
  - rewrite mget1_row by auto. cbn [bind]. rewrite mset2_gen by auto. reflexivity.
  - rewrite upd2_id. reflexivity.
Qed.
Lemma fwdPRelu_lazy : forall (F : FOps) n k w gw X, (0 < k)%nat -> mwf w -> msize w = 0%nat ->
  fwdPRelu F w gw (mgen n k X) = fwdPRelu F (mgen 1 k (fun _ _ => flit F 1 4)) (mresize F gw 1 k) (mgen n k X).
Proof.
  intros F n k w gw X Hk Hw Hs. unfold fwdPRelu. rewrite Hs, Nat.eqb_refl. change (mcols (mgen n k X)) with k.
  rewrite msetConstR_gen by auto. cbn [bind]. change (msize (mgen 1 k (fun _ _ => flit F 1 4))) with (1 * k)%nat.
  replace (1 * k =? 0)%nat with false by (symmetry; apply Nat.eqb_neq; lia). reflexivity.
Qed.
Lemma bwdPRelu_gen : forall (F : FOps) first n k w gw X G gin,
  bwdPRelu F first (mgen 1 k w) (mgen 1 k gw) (mgen n k X) (mgen n k G) gin =
  Ok (mgen 1 k (fun _ j => fdiv F (fold_left (fun v i => if flt F (X i j) (f0 F) then fadd F v (fmul F (X i j) (G i j)) else v) (seq 0 n) (f0 F)) (fofN F n)),
      if first then gin else mgen n k (fun i j => if flt F (X i j) (f0 F) then fmul F (G i j) (w 0%nat j) else G i j)).
Proof.
  intros F first n k w gw X G gin. unfold bwdPRelu. change (mcols (mgen n k X)) with k. change (mrows (mgen n k X)) with n. 
  change (mcols (mgen n k G)) with k. change (mrows (mgen n k G)) with n.
  unfold msetConst. rewrite (@mapLoop_gen F). cbn [bind].
  rewrite (@rowacc F n k _ (fun i j v => if flt F (X i j) (f0 F) then fadd F v (fmul F (X i j) (G i j)) else v)).
  2:{ intros i j q Hi Hj. rewrite mget2_gen by auto. cbn [bind]. destruct (flt F (X i j) (f0 F)).
      - rewrite !mget2_gen by lia. cbn [bind]. rewrite mset2_gen by lia. reflexivity.
      - rewrite upd2_id. reflexivity. }
  cbn [bind]. unfold mdivS. rewrite (@mapLoop_gen F). cbn [bind]. destruct first; cbn [bind]; auto.
  rewrite (@cell2 F n k _ (fun i j x => if flt F (X i j) (f0 F) then fmul F x (w 0%nat j) else x)); auto.
  intros i j q Hi Hj. rewrite mget2_gen by auto. cbn [bind]. destruct (flt F (X i j) (f0 F)).
  - rewrite mget2_gen by auto. cbn [bind]. rewrite mget1_row by auto. cbn [bind]. rewrite mset2_gen by auto. reflexivity.
  - rewrite upd2_id. reflexivity.
Qed.
Lemma fold_cond_sum : forall n (c : nat -> bool) (f : nat -> R), fold_left (fun v i => if c i then v + f i else v) (seq 0 n) 0 = rsum n (fun i => if c i then f i else 0).
Proof.
  induction n; intros; auto. rewrite seq_S, fold_left_app, IHn. simpl. destruct (c n); lra.
Qed.
Lemma bwdPRelu_R : forall jk first n k w gw X G gin,
  bwdPRelu (ROps jk) first (mgen 1 k w) (mgen 1 k gw) (mgen n k X) (mgen n k G) gin =
  Ok (mgen 1 k (fun _ j => rsum n (fun i => if Rltb (X i j) 0 then X i j * G i j else 0) / INR n),
      if first then gin else mgen n k (fun i j => if Rltb (X i j) 0 then G i j * w 0%nat j else G i j)).
Proof.
  intros. eapply eq_trans; [exact (bwdPRelu_gen (ROps jk) first n k w gw X G gin)|]. apply Ok_eq. f_equal. apply mgen_ext. intros.
  fs. simpl flt. rewrite (fold_cond_sum n (fun i => Rltb (X i j) 0) (fun i => X i j * G i j)). reflexivity.
Qed.

(* slopes varying per column and along the curve *)
Lemma prelu_curve : forall n k X w t dX dw (G : nat -> nat -> R),
  dcurve n k X t dX -> dcurve 1 k w t dw -> (forall i j, (i < n)%nat -> (j < k)%nat -> X t i j <> 0) ->
  exists dY, dcurve n k (fun x i j => if Rltb (X x i j) 0 then X x i j * w x 0%nat j else X x i j) t dY /\
  dot n k G dY = dot n k (fun i j => if Rltb (X t i j) 0 then G i j * w t 0%nat j else G i j) dX
               + dot 1 k (fun _ j => rsum n (fun i => if Rltb (X t i j) 0 then X t i j * G i j else 0)) dw.
Proof.
  intros n k X w t dX dw G HX Hw Hne.
  exists (fun i j => (if Rltb (X t i j) 0 then dX i j * w t 0%nat j else dX i j) + (if Rltb (X t i j) 0 then X t i j else 0) * dw 0%nat j). split.
  - intros i j Hi Hj.
    eapply is_derive_eq; [apply (d_branch (fun x => X x i j) (fun x => X x i j * w x 0%nat j) (fun x => X x i j) t 0 (dX i j))|].
    + auto. + auto.
    + intros _. apply (d_mul (fun x => X x i j) (fun x => w x 0%nat j)); auto.
    + intros _. auto.
    + destruct (Rltb (X t i j) 0); ring.
  - rewrite (dot_plus n k G (fun i j => if Rltb (X t i j) 0 then dX i j * w t 0%nat j else dX i j) (fun i j => (if Rltb (X t i j) 0 then X t i j else 0) * dw 0%nat j)).
    f_equal.
    + apply dot_ext. intros. destruct (Rltb (X t i j) 0); ring.
    + rewrite dot_swap. unfold dot. simpl. rewrite Rplus_0_l. apply rsum_ext. intros j Hj. rewrite <- rsum_scal_r. apply rsum_ext. intros i Hi.
      destruct (Rltb (X t i j) 0); ring.
Qed.
Definition out3 {A B C} (r : res (A * B * C)) : res C := match r with Ok p => Ok (snd p) | Err e => Err e end.
Lemma prelu_gradients : forall jk first n k w gw X G gin, (0 < n)%nat -> (0 < k)%nat ->
  (forall i j, (i < n)%nat -> (j < k)%nat -> X i j <> 0) ->
  exists gw' gi,
    bwdPRelu (ROps jk) first (mgen 1 k w) (mgen 1 k gw) (mgen n k X) (mgen n k G) gin = Ok (mgen 1 k gw', if first then gin else mgen n k gi) /\
    gradOf 1 k (INR n) (fun w' => obj G (out_ (fwdPRelu (ROps jk) (mgen 1 k w') (mgen 1 k gw) (mgen n k X)))) w gw' /\
    gradOf n k 1 (fun X' => obj G (out_ (fwdPRelu (ROps jk) (mgen 1 k w) (mgen 1 k gw) (mgen n k X')))) X gi.
Proof.
  intros jk first n k w gw X G gin Hn Hk Hne. apply INR_pos in Hn. do 2 eexists. split; [apply bwdPRelu_R|]. split.
  - apply gradOf_curve with (n := n) (m := k) (f := fun w i j => if Rltb (X i j) 0 then X i j * w 0%nat j else X i j).
    + intro. rewrite (fwdPRelu_gen (ROps jk)) by auto. reflexivity.
    + intros a c Ha Hc. destruct (prelu_curve n k (fun _ => X) (fun x => upd2 w a c x) (w a c) _ _ G (dcurve_const _ _ _ _) (dcurve_cell _ _ _ _ _) Hne) as (dY & H1 & H2).
      exists dY. split; [exact H1|]. rewrite H2. at_cell. field. auto.
  - apply gradOf_curve with (n := n) (m := k) (f := fun X i j => if Rltb (X i j) 0 then X i j * w 0%nat j else X i j).
    + intro. rewrite (fwdPRelu_gen (ROps jk)) by auto. reflexivity.
    + intros a c Ha Hc. destruct (prelu_curve n k (fun x => upd2 X a c x) (fun _ => w) (X a c) _ _ G (dcurve_cell _ _ _ _ _) (dcurve_const _ _ _ _)) as (dY & H1 & H2).
      { intros. rewrite upd2_same. auto. }
      exists dY. split; [exact H1|]. rewrite H2. at_cell. symmetry. rewrite Rplus_0_r. apply Rmult_1_l.
Qed.

(** RRelu *)
Lemma fwdRRelu_train : forall (F : FOps) g a1 a2 s n k X, mwf s ->
  fwdRRelu F true g a1 a2 s (mgen n k X) =
  Ok (mgen n k (fun i j => g (i * k + j)%nat), mgen n k (fun i j => if flt F (X i j) (f0 F) then fmul F (X i j) (g (i * k + j)%nat) else X i j)).
Proof.
  intros F g a1 a2 s n k X Hs. unfold fwdRRelu. change (mcols (mgen n k X)) with k. change (mrows (mgen n k X)) with n.
  destruct (mresize_flat F s n k Hs) as [q ->]. rewrite setRandom_flat. cbn [bind]. change (msize (mgen n k X)) with (n * k)%nat.
  rewrite (mgen_flat _ n k X).
  rewrite (@flat_loop F n k _ (fun p x => if flt F x (f0 F) then fmul F x (g p) else x)).
  - cbn [bind]. apply Ok_eq. f_equal; rewrite mgen_flat; apply mflat_ext; intros p Hp; rewrite idx_eq by (intro; subst; lia); reflexivity.
  - intros p q' Hp. rewrite mget1_flat by auto. cbn [bind]. destruct (flt F (q' p) (f0 F)) eqn:E.
    + rewrite mget1_flat by auto. cbn [bind]. rewrite mset1_flat by auto. reflexivity.
    + rewrite fupd_id. reflexivity.
Qed.
Lemma fwdRRelu_infer : forall (F : FOps) g a1 a2 s n k X,
  fwdRRelu F false g a1 a2 s (mgen n k X) =
  Ok (s, mgen n k (fun i j => if flt F (X i j) (f0 F) then fmul F (X i j) (rreluMean F a1 a2) else X i j)).
Proof.
  intros F g a1 a2 s n k X. unfold fwdRRelu. change (msize (mgen n k X)) with (n * k)%nat. rewrite (mgen_flat _ n k X).
  rewrite (@flat_loop F n k _ (fun p x => if flt F x (f0 F) then fmul F x (rreluMean F a1 a2) else x)).
  - cbn [bind]. apply Ok_eq. f_equal. rewrite mgen_flat. reflexivity.
  - intros p q' Hp. rewrite mget1_flat by auto. cbn [bind]. destruct (flt F (q' p) (f0 F)) eqn:E.
    + rewrite mset1_flat by auto. reflexivity.
    + rewrite fupd_id. reflexivity.
Qed.
Lemma bwdRRelu_gen : forall (F : FOps) n k s X G gin,
  bwdRRelu F false (mgen n k s) (mgen n k X) (mgen n k G) gin =
  Ok (mgen n k (fun i j => if flt F (X i j) (f0 F) then fmul F (G i j) (s i j) else G i j)).
Proof.
  intros F n k s X G gin. unfold bwdRRelu. change (msize (mgen n k G)) with (n * k)%nat. rewrite (mgen_flat _ n k X), (mgen_flat _ n k s), (mgen_flat _ n k G).
  rewrite (@flat_loop F n k _ (fun p x => if flt F (X (p / k)%nat (p mod k)%nat) (f0 F) then fmul F x (s (p / k)%nat (p mod k)%nat) else x)).
  - rewrite mgen_flat. reflexivity.
  - intros p q' Hp. rewrite mget1_flat by auto. cbn [bind]. destruct (flt F (X (p / k)%nat (p mod k)%nat) (f0 F)) eqn:E.
    + rewrite !mget1_flat by auto. cbn [bind]. rewrite mset1_flat by auto. reflexivity.
    + rewrite fupd_id. reflexivity.
Qed.
(* the backward pass following a training forward pass, with the slopes that pass stored *)
Lemma rrelu_gradient : forall jk g a1 a2 s n k X G gin, mwf s ->
  (forall i j, (i < n)%nat -> (j < k)%nat -> X i j <> 0) ->
  exists s' gi, state_ (fwdRRelu (ROps jk) true g a1 a2 s (mgen n k X)) = Ok s' /\
    bwdRRelu (ROps jk) false s' (mgen n k X) (mgen n k G) gin = Ok (mgen n k gi) /\
    gradOf n k 1 (fun X' => obj G (out_ (fwdRRelu (ROps jk) true g a1 a2 s (mgen n k X')))) X gi.
Proof.
  intros jk g a1 a2 s n k X G gin Hs Hne. do 2 eexists. split; [rewrite (fwdRRelu_train (ROps jk)) by auto; reflexivity|].
  split; [exact (bwdRRelu_gen (ROps jk) n k _ X G gin)|].
  apply gradOf_curve with (n := n) (m := k) (f := fun X i j => (fun i j x => if Rltb x 0 then x * g (i * k + j)%nat else x) i j (X i j)).
  - intro. rewrite (fwdRRelu_train (ROps jk)) by auto. reflexivity.
  - intros a c Ha Hc.
    destruct (cell_curve n k (fun x => upd2 X a c x) (X a c) _ (fun i j x => if Rltb x 0 then x * g (i * k + j)%nat else x) (fun i j => if Rltb (X i j) 0 then g (i * k + j)%nat else 1) G (dcurve_cell _ _ _ _ _)) as (dY & H1 & H2).
    + intros i j Hi Hj. rewrite upd2_same.
      apply (d_branch (fun x => x) (fun x => x * g (i * k + j)%nat) (fun x => x) (X i j) 0 1); auto.
      * apply (is_derive_id (X i j)).
      * intros _. eapply is_derive_eq; [apply (d_mul_const_r (g (i * k + j)%nat) (fun x => x)); apply (is_derive_id (X i j))|]. unfold one; simpl. ring.
      * intros _. apply (is_derive_id (X i j)).
    + exists dY. split; [exact H1|]. rewrite H2. at_cell. simpl flt. simpl fmul. destruct (Rltb (X a c) 0); ring.
Qed.
