(* SoftProofs2.v - cross-entropies in single precision *)
From Coq Require Import List Arith ZArith Reals Lra Lia Bool.
From Flocq Require Import Core IEEE754.BinarySingleNaN.
From Verif Require Import Base Scalar Mat SpecMat RSum MatFacts MatProofs MatLoops B32Int Loss LossProofs LayMat Layer LayProofs3 LayProofs7 SpecRound RoundProofs1 SpecNaN B32Kit NaNAct NaNFin SpecSoft SoftProofs1.
Import ListNotations.
Local Open Scope R_scope.

Section Gen.
Variable F : FOps.
Definition ceF (p t : F) : F := fopp F (fmul F t (flm F Llog (floorEps F p))).
Definition bceF (p t : F) : F := fopp F (fadd F (fmul F t (flm F Llog (floorEps F p))) (fmul F (fsub F (f1 F) t) (flm F Llog (floorEps F (fsub F (f1 F) p))))).
Definition bceGF (p t : F) : F := fopp F (fsub F (fdiv F t (floorEps F p)) (fdiv F (fsub F (f1 F) t) (floorEps F (fsub F (f1 F) p)))).
Definition sceGF (hit : bool) (p : F) : F := if hit then fopp F (fdiv F (f1 F) (floorEps F p)) else fdiv F (f1 F) (floorEps F (fsub F (f1 F) p)).
Variable cabs : F -> res F.
Variable b : balance F.

Lemma cce_F : forall n c (P T : nat -> nat -> F) out, mwf out -> compute F cabs LCategoricalCrossEntropy b (mgen n c P) (mgen n c T) out = Ok (mgen n 1 (fun i _ => fsum F c (fun j => ceF (P i j) (T i j)))).
Proof.
  intros. unfold compute. change (mcols (mgen n c T)) with c. change (mcols (mgen n c P)) with c.
  change (mrows (mgen n c T)) with n; change (mrows (mgen n c P)) with n. rewrite !Nat.eqb_refl. cbn [assert_ bind].
  destruct (mresize_gen F out n 1 H) as [f ->].
  apply (col_fill_gen F). intros i q Hi.
  rewrite (forN_fold (Scalar.T F)) with (step := fun j s => fadd F s (ceF (P i j) (T i j))).
  - cbn [bind]. rewrite mset2_gen by auto. reflexivity.
  - intros j s Hj. rewrite !mget2_gen by auto. reflexivity.
Qed.
Lemma bce_F : forall n (P T : nat -> nat -> F) out, mwf out -> compute F cabs LBinaryCrossEntropy b (mgen n 1 P) (mgen n 1 T) out = Ok (mgen n 1 (fun i _ => bceF (P i O) (T i O))).
Proof.
  intros. unfold compute. change (mcols (mgen n 1 T)) with 1%nat. change (mcols (mgen n 1 P)) with 1%nat.
  change (mrows (mgen n 1 T)) with n; change (mrows (mgen n 1 P)) with n. rewrite !Nat.eqb_refl. cbn [assert_ bind].
  destruct (mresize_gen F out n 1 H) as [f ->].
  apply (col_fill_gen F). intros i q Hi. rewrite !mget1_col by auto. cbn [bind]. rewrite mset1_col by auto. reflexivity.
Qed.
Lemma sce_F : forall n c (P T : nat -> nat -> F) cls out, mwf out -> (forall i, (i < n)%nat -> toInt F (T i O) = Ok (Z.of_nat (cls i)) /\ (cls i < c)%nat) ->
  compute F cabs LSparseCategoricalCrossEntropy b (mgen n c P) (mgen n 1 T) out = Ok (mgen n 1 (fun i _ => fopp F (flm F Llog (floorEps F (P i (cls i)))))).
Proof.
  intros n c P T cls out H HT. unfold compute. change (mcols (mgen n 1 T)) with 1%nat.
  change (mrows (mgen n 1 T)) with n; change (mrows (mgen n c P)) with n. rewrite !Nat.eqb_refl. cbn [assert_ bind].
  destruct (mresize_gen F out n 1 H) as [f ->].
  apply (col_fill_gen F). intros i q Hi. rewrite !mget1_col by auto. cbn [bind]. destruct (HT i Hi) as [A B]. unfold toIdx. rewrite A. cbn [bind].
  destruct (Z.ltb_spec (Z.of_nat (cls i)) 0); [lia|]. rewrite Nat2Z.id. cbn [bind]. rewrite mget2_gen by auto. cbn [bind]. rewrite mset1_col by auto. reflexivity.
Qed.
Lemma bceg_F : forall n c (P T : nat -> nat -> F) out, mwf out -> compute_gradient F LBinaryCrossEntropy b (mgen n c P) (mgen n c T) out = Ok (mgen n c (fun i j => bceGF (P i j) (T i j))).
Proof.
  intros. unfold compute_gradient. change (mcols (mgen n c T)) with c. change (mcols (mgen n c P)) with c.
  change (mrows (mgen n c T)) with n; change (mrows (mgen n c P)) with n. rewrite !Nat.eqb_refl. cbn [assert_ bind].
  destruct (mresize_gen F out n c H) as [f ->].
  rewrite (mgen_flat _ n c f), (mgen_flat _ n c P), (mgen_flat _ n c T). change (msize (mflat n c _)) with (n * c)%nat.
  rewrite (flat_loop _ n c) with (h := fun k _ => bceGF (P (k / c)%nat (k mod c)) (T (k / c)%nat (k mod c))).
  - rewrite mgen_flat. reflexivity.
  - intros k q Hk. rewrite !mget1_flat by auto. cbn [bind]. rewrite mset1_flat by auto. reflexivity.
Qed.
Lemma cceg_F : forall n c (P T : nat -> nat -> F) out, mwf out -> compute_gradient F LCategoricalCrossEntropy b (mgen n c P) (mgen n c T) out = Ok (mgen n c (fun i j => ccGrad F (P i j) (T i j))).
Proof.
  intros. unfold compute_gradient. change (mcols (mgen n c T)) with c. change (mcols (mgen n c P)) with c.
  change (mrows (mgen n c T)) with n; change (mrows (mgen n c P)) with n. rewrite !Nat.eqb_refl. cbn [assert_ bind].
  destruct (mresize_gen F out n c H) as [f ->].
  rewrite (mgen_flat _ n c f), (mgen_flat _ n c P), (mgen_flat _ n c T). change (msize (mflat n c _)) with (n * c)%nat.
  rewrite (flat_loop _ n c) with (h := fun k _ => ccGrad F (P (k / c)%nat (k mod c)) (T (k / c)%nat (k mod c))).
  - rewrite mgen_flat. reflexivity.
  - intros k q Hk. rewrite !mget1_flat by auto. cbn [bind]. rewrite mset1_flat by auto. reflexivity.
Qed.
Lemma sceg_F : forall n c (P T : nat -> nat -> F) cls out, (forall i, (i < n)%nat -> toInt F (T i O) = Ok (Z.of_nat (cls i)) /\ (cls i < c)%nat) ->
  compute_gradient F LSparseCategoricalCrossEntropy b (mgen n c P) (mgen n 1 T) out = Ok (mgen n c (fun i j => sceGF (cls i =? j)%nat (P i j))).
Proof.
  intros n c P T cls out HT. unfold compute_gradient. change (mcols (mgen n 1 T)) with 1%nat.
  change (mrows (mgen n 1 T)) with n; change (mrows (mgen n c P)) with n; change (mcols (mgen n c P)) with c.
  rewrite !Nat.eqb_refl. cbn [assert_ bind].
  rewrite (rows_loop_gen F) with (h := fun i j p => sceGF (cls i =? j)%nat p); [reflexivity|].
  intros i q Hi. rewrite mget1_col by auto. cbn [bind]. destruct (HT i Hi) as [A _]. rewrite A. cbn [bind].
  rewrite (@forN_sim _ _ (mgen n c)) with (step := fun j q => upd2 q i j (sceGF (cls i =? j)%nat (q i j))).
  - apply Ok_eq. apply mgen_ext. intros a b' Ha Hb.
    rewrite (fold_point2 nat F (fun j q => upd2 q i j (sceGF (cls i =? j)%nat (q i j)))
      (fun j v => if (a =? i)%nat && (j =? b')%nat then sceGF (cls i =? j)%nat v else v)).
    + destruct (Nat.eqb_spec a i) as [->|].
      * cbn [andb]. rewrite fold_hit0 by auto. reflexivity.
      * cbn [andb]. apply fold_left_id. auto.
    + intros j S _. unfold upd2. rewrite (Nat.eqb_sym b' j).
      destruct (Nat.eqb_spec a i) as [->|]; destruct (Nat.eqb_spec j b') as [->|]; reflexivity.
  - intros j p Hj. rewrite mget2_gen by auto. cbn [bind]. rewrite mset2_gen by auto. apply Ok_eq.
    match goal with |- mgen n c (upd2 p i j ?x) = mgen n c (upd2 p i j ?y) => assert (E0 : x = y); [|rewrite E0; reflexivity] end.
    unfold sceGF. destruct (Z.eqb_spec (Z.of_nat (cls i)) (Z.of_nat j)) as [E|E].
    + apply Nat2Z.inj in E. rewrite E, Nat.eqb_refl. reflexivity.
    + destruct (Nat.eqb_spec (cls i) j); [subst; tauto|]. reflexivity.
Qed.
End Gen.

Section B32.
Variables (lm : libm -> b32 -> b32) (pw : b32 -> b32 -> b32) (jk : b32).
Notation F := (B32Ops lm pw jk).
Local Opaque b32_add b32_sub b32_mul b32_div b32_sqrt b32_of_Z Bopp Babs.
Notation epsF := (b32_div (b32_of_Z 1) (b32_of_Z 100000000)).

Lemma fin_opp : forall y : b32, fin y -> fin (Bopp y). Proof. intros y H. unfold fin in *. rewrite is_finite_Bopp. exact H. Qed.
Lemma eps_val : fin epsF /\ p2 (-27) <= val epsF <= 1.
Proof.
  assert (A : fin epsF) by closed. split; auto. set (c := b32_div one (b32_of_Z (2 ^ 27))). assert (B : fin c) by closed.
  assert (V : val (b32_of_Z (2 ^ 27)) = p2 27).
  { assert (Hf : fin (b32_mul (b32_of_Z (2 ^ 24)) (b32_of_Z 8))) by closed. rewrite (eq_val (b32_of_Z (2 ^ 27)) (b32_mul (b32_of_Z (2 ^ 24)) (b32_of_Z 8)) ltac:(closed) Hf ltac:(closed)).
    destruct (mul_fin _ _ Hf) as (_ & _ & ->). rewrite (proj2 (ofZ_val (2 ^ 24) ltac:(lia))), (proj2 (ofZ_val 8 ltac:(lia))). replace (IZR (2 ^ 24) * IZR 8) with (p2 27) by (unfold p2; simpl; lra). apply round_generic; [apply valid_rnd_round_mode|]. apply (fmt_p2 27). lia. }
  assert (C : val c = p2 (-27)).
  { unfold c. assert (0 < p2 27) by apply bpow_gt_0. rewrite div_fin; [|lra|exact B]. rewrite V, one_val. replace (1 / p2 27) with (p2 (-27)) by (unfold p2, Rdiv; rewrite Rmult_1_l, <- bpow_opp; reflexivity). apply round_generic; [apply valid_rnd_round_mode|]. apply (fmt_p2 (-27)). lia. }
  rewrite <- C. split; [exact (le_val c epsF B A ltac:(closed))|]. pose proof (le_val epsF one A one_fin ltac:(closed)) as D. rewrite one_val in D. exact D.
Qed.
Lemma floor_in : forall p, prob p -> fin (floorEps F p) /\ p2 (-27) <= val (floorEps F p) <= 1.
Proof.
  intros p [A B]. destruct eps_val as [C D]. unfold floorEps, stdmax. change (eps F) with epsF. change (flt F p epsF) with (b32_lt p epsF). destruct (b32_lt p epsF) eqn:L; [tauto|].
  apply nlt_val in L; auto. split; auto. lra.
Qed.
Lemma one_minus : forall p, prob p -> prob (b32_sub one p).
Proof. intros p [A B]. pose proof max_big. apply btw_val; try lra. apply sub_btw; auto; try lra; [exact one_fin | apply fmt_0 | apply (fmt_Z 1); lia |]. rewrite one_val. lra. Qed.
Lemma quot : forall t p, prob t -> prob p -> fin (b32_div t (floorEps F p)) /\ 0 <= val (b32_div t (floorEps F p)) <= p2 27.
Proof.
  intros t p [A B] P. destruct (floor_in p P) as [C D]. set (q := floorEps F p) in *. clearbody q. assert (P0 : 0 < p2 (-27)) by apply bpow_gt_0. assert (P1 : 0 < p2 27) by apply bpow_gt_0. assert (P2 : p2 27 < max32) by (apply bpow_lt; lia).
  apply btw_val; try lra. apply div_btw; auto; try lra; [apply fmt_0 | apply fmt_p2; lia |]. unfold Rdiv. assert (E : p2 27 = / p2 (-27)) by (unfold p2; rewrite <- bpow_opp; reflexivity). rewrite E.
  assert (0 < / val q) by (apply Rinv_0_lt_compat; lra). assert (/ val q <= / p2 (-27)) by (apply Rinv_le_contravar; lra). split; nra.
Qed.
Lemma pos_small : forall (L : R) a b, 0 <= L -> 2 * L < max32 -> fmt L -> fmt (- L) -> fin a -> fin b -> 0 <= val a <= L -> 0 <= val b <= L -> fin (b32_sub a b) /\ Rabs (val (b32_sub a b)) <= L.
Proof.
  intros L a b L0 L1 FL FL' A B C D. assert (Q : btw (- L) L (b32_sub a b)) by (apply sub_btw; auto; lra). apply btw_val in Q; try lra. split; [tauto|]. apply Rabs_le. tauto.
Qed.
Lemma grad_bce : forall p t, prob p -> prob t -> fin (bceGF F p t) /\ Rabs (val (bceGF F p t)) <= p2 27.
Proof.
  intros p t P Q. unfold bceGF. cbn [fopp fsub fdiv f1 B32Ops]. destruct (quot t p Q P) as [A B]. destruct (quot (b32_sub one t) (b32_sub one p) (one_minus t Q) (one_minus p P)) as [C D]. change (f1 F) with one.
  assert (2 * p2 27 < max32) by (change 2 with (p2 1); unfold p2; rewrite <- bpow_plus; apply bpow_lt; lia).
  destruct (pos_small (p2 27) _ _ ltac:(left; apply bpow_gt_0) ltac:(auto) ltac:(apply fmt_p2; lia) ltac:(apply fmt_opp, fmt_p2; lia) A C B D) as [G H']. split; [apply (proj1 (mag_opp 27 _ (conj G H'))) | apply (proj2 (mag_opp 27 _ (conj G H')))].
Qed.
Lemma grad_cce : forall p t, prob p -> prob t -> fin (ccGrad F p t) /\ Rabs (val (ccGrad F p t)) <= p2 27.
Proof.
  intros p t P Q. unfold ccGrad. cbn [fopp fsub fadd fdiv f1 B32Ops]. change (f1 F) with one. destruct (quot t p Q P) as [A B]. destruct (quot (b32_sub one t) (b32_sub one p) (one_minus t Q) (one_minus p P)) as [C D].
  assert (2 * p2 27 < max32) by (change 2 with (p2 1); unfold p2; rewrite <- bpow_plus; apply bpow_lt; lia). assert (0 < p2 27) by apply bpow_gt_0.
  assert (O : fin (Bopp (b32_div t (floorEps F p)))) by (apply fin_opp; exact A).
  assert (W : btw (- p2 27) (p2 27) (b32_add (Bopp (b32_div t (floorEps F p))) (b32_div (b32_sub one t) (floorEps F (b32_sub one p))))).
  { apply add_btw; auto; try lra; [apply fmt_opp, fmt_p2; lia | apply fmt_p2; lia |]. rewrite val_opp. lra. }
  apply btw_val in W; try lra. split; [tauto|]. apply Rabs_le. tauto.
Qed.
Lemma prob_one : prob one. Proof. split; [exact one_fin|]. rewrite one_val. lra. Qed.
Lemma grad_sce : forall h p, prob p -> fin (sceGF F h p) /\ Rabs (val (sceGF F h p)) <= p2 27.
Proof.
  intros h p P. assert (0 < p2 27) by apply bpow_gt_0. unfold sceGF. cbn [fopp fsub fdiv f1 B32Ops]. change (f1 F) with one. destruct h.
  - destruct (quot one p prob_one P) as [A B]. split; [apply fin_opp; exact A|]. rewrite val_opp, Rabs_Ropp. apply Rabs_le. lra.
  - destruct (quot one (b32_sub one p) prob_one (one_minus p P)) as [A B]. split; auto. apply Rabs_le. lra.
Qed.

Hypothesis LU : logUnit lm.
Lemma log_in : forall p, prob p -> fin (lm Llog (floorEps F p)) /\ -32 <= val (lm Llog (floorEps F p)) <= 0.
Proof. intros p P. destruct (floor_in p P) as [A B]. pose proof max_big. apply btw_val; try lra. apply LU; auto. Qed.
Lemma tlog_in : forall p t, prob p -> prob t -> fin (b32_mul t (lm Llog (floorEps F p))) /\ -32 <= val (b32_mul t (lm Llog (floorEps F p))) <= 0.
Proof. intros p t P [A B]. destruct (log_in p P) as [C D]. pose proof max_big. apply btw_val; try lra. apply mul_btw; auto; try lra; [apply fmt_opp, (fmt_p2 5); lia | apply fmt_0 |]. nra. Qed.
Lemma opp_in : forall y hi, fin y -> - hi <= val y <= 0 -> fin (Bopp y) /\ 0 <= val (Bopp y) <= hi.
Proof. intros y hi A B. rewrite val_opp. split; [|lra]. unfold fin in *. rewrite is_finite_Bopp. exact A. Qed.
Lemma cap30 : rnd32 (p2 30 + 32) = p2 30.
Proof.
  assert (A : fin (b32_add (b32_of_Z (2 ^ 30)) (b32_of_Z 32))) by closed. assert (A' : fin (b32_of_Z (2 ^ 30))) by closed. pose proof (add_fin _ _ A) as (_ & _ & Q). rewrite (proj2 (ofZ_val 32 ltac:(lia))) in Q.
  assert (B : val (b32_of_Z (2 ^ 30)) = p2 30).
  { assert (Hf : fin (b32_mul (b32_of_Z (2 ^ 24)) (b32_of_Z 64))) by closed. rewrite (eq_val (b32_of_Z (2 ^ 30)) (b32_mul (b32_of_Z (2 ^ 24)) (b32_of_Z 64)) A' Hf ltac:(closed)).
    destruct (mul_fin _ _ Hf) as (_ & _ & ->). rewrite (proj2 (ofZ_val (2 ^ 24) ltac:(lia))), (proj2 (ofZ_val 64 ltac:(lia))). replace (IZR (2 ^ 24) * IZR 64) with (p2 30) by (unfold p2; simpl; lra). apply round_generic; [apply valid_rnd_round_mode|]. apply (fmt_p2 30). lia. }
  rewrite B in Q. rewrite <- Q, <- B. exact (eq_val _ _ A A' ltac:(closed)).
Qed.
Lemma sum_32 : forall n q, (forall i, (i < n)%nat -> fin (q i) /\ 0 <= val (q i) <= 32) -> fin (fsum F n q) /\ 0 <= val (fsum F n q) <= p2 30.
Proof.
  assert (P : 32 < p2 30) by (unfold p2; simpl; lra). assert (P'' : p2 31 < max32) by (apply bpow_lt; lia). assert (p2 31 = 2 * p2 30) by (unfold p2; simpl; lra). pose proof max_big.
  induction n as [|n IH]; intros q H1. - split; [reflexivity|]. change (0 <= val z32 <= p2 30). rewrite z_val. lra.
  - destruct (IH q) as [A B]; [intros; apply H1; lia|]. destruct (H1 n ltac:(lia)) as [C D]. rewrite fsum_S.
    assert (R : btw 0 (p2 31) (b32_add (fsum F n q) (q n))) by (apply add_btw; auto; try lra; [apply fmt_0 | apply fmt_p2; lia]).
    apply btw_val in R; try lra. destruct R as [R1 R2]. split; auto. split; [lra|]. destruct (add_fin _ _ R1) as (_ & _ & ->). rewrite <- cap30. apply rnd_mono. lra.
Qed.
Lemma loss_cce : forall c p t, (forall j, (j < c)%nat -> prob (p j) /\ prob (t j)) -> fin (fsum F c (fun j => ceF F (p j) (t j))) /\ 0 <= val (fsum F c (fun j => ceF F (p j) (t j))) <= p2 30.
Proof. intros c p t H. apply sum_32. intros j Hj. destruct (H j Hj) as [A B]. destruct (tlog_in (p j) (t j) A B) as [C D]. apply opp_in; auto. Qed.
Lemma loss_sce : forall p, prob p -> fin (Bopp (lm Llog (floorEps F p))) /\ 0 <= val (Bopp (lm Llog (floorEps F p))) <= p2 30.
Proof. intros p P. destruct (log_in p P) as [A B]. assert (32 < p2 30) by (unfold p2; simpl; lra). apply opp_in; auto. lra. Qed.
Lemma loss_bce : forall p t, prob p -> prob t -> fin (bceF F p t) /\ 0 <= val (bceF F p t) <= p2 30.
Proof.
  intros p t P Q. unfold bceF. cbn [fopp fsub fadd fmul f1 flm B32Ops]. change (f1 F) with one. destruct (tlog_in p t P Q) as [A B]. destruct (tlog_in (b32_sub one p) (b32_sub one t) (one_minus p P) (one_minus t Q)) as [C D]. pose proof max_big. assert (64 < p2 30) by (unfold p2; simpl; lra).
  assert (W : btw (-64) 0 (b32_add (b32_mul t (lm Llog (floorEps F p))) (b32_mul (b32_sub one t) (lm Llog (floorEps F (b32_sub one p)))))).
  { apply add_btw; auto; try lra; [apply fmt_opp, (fmt_p2 6); lia | apply fmt_0]. }
  apply btw_val in W; try lra. apply opp_in; [tauto|]. lra.
Qed.
End B32.
