(* LayPool1.v - average pooling and zero padding *)
From Coq Require Import List Arith Bool Lia Reals Lra ZArith.
From Coquelicot Require Import Coquelicot.
From Verif Require Import Base Scalar Mat SpecMat SpecReal RSum MatFacts MatProofs MatLoops Scatter RDeriv Loss SpecLoss LayMat LayImg LayKit SpecLayer LayGrad LayCurve LayTens ImgKit ImgDot LayProofs2.
Import ListNotations.
Local Open Scope nat_scope.

Lemma win_lt : forall n k r a, r < n / k -> a < k -> r * k + a < n.
Proof. intros n k r a Hr Ha. assert (r * k + k <= n); [|lia]. pose proof (Nat.mul_div_le n k ltac:(lia)). nia. Qed.
Lemma pix_flat : forall nR nC h r c, h * (nR * nC) + (r * nC + c) = pix nR nC h r c.
Proof. intros. unfold pix. ring. Qed.

(** * AveragePooling2D *)
Lemma fwdAvgPool_gen : forall (F : FOps) nS nH nR nC fr fc (t : nat -> nat -> nat -> nat -> F) out, mwf out ->
  fwdAvgPool F (mkPool nR nC nH fr fc) (tens nS nH nR nC t) out =
  Ok (tens nS nH (nR / fr) (nC / fc) (fun s h r c =>
       fmul F (fold_left (fun v a => fold_left (fun v b => fadd F v (t s h (r * fr + a) (c * fc + b))) (seq 0 fc) v) (seq 0 fr) (f0 F))
              (fdiv F (f1 F) (fofN F (fr * fc))))).
Proof.
  intros F nS nH nR nC fr fc t out Hout. unfold fwdAvgPool. cbn [pH pR pC pfr pfc poR poC pIn pOut]. unfold poR, poC, pIn, pOut, invKernel. cbn [pH pR pC pfr pfc].
  change (mrows (tens nS nH nR nC t)) with nS.
  apply (tens_write F nS nH (nR / fr) (nC / fc)).
  - apply resize_tflat; auto. cbv [pOut poR poC pR pC pH pfr pfc]. lia.
  - intros s h r c g Hs Hh Hr Hc.
    rewrite (aloop2 F fr fc _ (fun a b v => fadd F v (t s h (r * fr + a) (c * fc + b)))).
    2:{ intros a b v Ha Hb. rewrite (rowGet_tens F nS nH nR nC t s h (r * fr + a) (c * fc + b)); auto; try (apply win_lt; auto).
        cbv [poR poC pIn pOut pR pC pH pfr pfc]. apply pix_flat. }
    cbn [bind]. apply rowSet_tflat; auto. cbv [poR poC pIn pOut pR pC pH pfr pfc]. apply pix_flat.
Qed.

Local Open Scope R_scope.
Definition avgMap (fr fc : nat) (t : nat -> nat -> nat -> nat -> R) : nat -> nat -> nat -> nat -> R :=
  fun s h r c => rsum fr (fun a => rsum fc (fun b => t s h (r * fr + a)%nat (c * fc + b)%nat)) / INR (fr * fc).
Lemma avgpool_forward : forall jk nS nH nR nC fr fc t out, mwf out ->
  fwdAvgPool (ROps jk) (mkPool nR nC nH fr fc) (tens nS nH nR nC t) out =
  Ok (tens nS nH (nR / fr) (nC / fc) (fun s h r c => rsum fr (fun a => rsum fc (fun b => t s h (r * fr + a)%nat (c * fc + b)%nat)) / INR (fr * fc))).
Proof.
  intros jk nS nH nR nC fr fc t out Hout. eapply eq_trans; [exact (fwdAvgPool_gen (ROps jk) nS nH nR nC fr fc t out Hout)|].
  apply Ok_eq, tens_ext. intros s h r c _ _ _ _. rewrite fofN_R. cbn [fmul fdiv f1 f0 fadd ROps T].
  rewrite (fold_adds fr (fun a v => fold_left (fun v b => v + t s h (r * fr + a)%nat (c * fc + b)%nat) (seq 0 fc) v) (fun a => rsum fc (fun b => t s h (r * fr + a)%nat (c * fc + b)%nat))).
  2:{ intros i v _. rewrite fold_rsum. reflexivity. }
  unfold Rdiv. ring.
Qed.

(* a body adding x to cell (s, h, r, c) *)
Lemma rowAdd_tflat : forall jk nS nH nR nC (g : nat -> R) s h r c p x, (s < nS)%nat -> (h < nH)%nat -> (r < nR)%nat -> (c < nC)%nat -> p = pix nR nC h r c ->
  (y <- rowGet (ROps jk) (mflat nS (nH * nR * nC) g) s p ;; rowSet (ROps jk) (mflat nS (nH * nR * nC) g) s p (y + x)) =
  Ok (mflat nS (nH * nR * nC) (fun k => if (addr4 nH nR nC s h r c =? k)%nat then g k + x else g k)).
Proof.
  intros jk nS nH nR nC g s h r c p x Hs Hh Hr Hc ->. rewrite (rowGet_flat (ROps jk)); auto.
  2:{ rewrite <- addr4_pix. apply addr4_lt; auto. }
  cbn [bind]. rewrite (rowSet_tflat (ROps jk) nS nH nR nC g s h r c) by auto. apply Ok_eq, mflat_ext. intros k _.
  rewrite addr4_pix. destruct (Nat.eqb_spec (s * (nH * nR * nC) + pix nR nC h r c) k); subst; auto.
Qed.
Lemma bwdAvgPool_R : forall jk nS nH nR nC fr fc G gin, mwf gin -> exists gi,
  bwdAvgPool (ROps jk) (mkPool nR nC nH fr fc) false (tens nS nH (nR / fr) (nC / fc) G) gin = Ok (mgen nS (nH * nR * nC) gi) /\
  forall B, dot nS (nH * nR * nC) gi B =
    dot4 nS nH (nR / fr) (nC / fc) G (avgMap fr fc (img nR nC B)).
Proof.
  intros jk nS nH nR nC fr fc G gin Hgin. set (oR := (nR / fr)%nat). set (oC := (nC / fc)%nat). set (iv := 1 / INR (fr * fc)).
  set (S1 := fun s h r c a b k => if (addr4 nH nR nC s h (r * fr + a) (c * fc + b) =? k)%nat then G s h r c * iv else 0).
  set (S2 := fun s h r c k => rsum fr (fun a => rsum fc (fun b => S1 s h r c a b k))).
  set (S3 := fun s h k => rsum oR (fun r => rsum oC (fun c => S2 s h r c k))).
  set (gf := fun k => 0 + rsum nS (fun s => rsum nH (fun h => S3 s h k))).
  exists (fun i j => gf (i * (nH * nR * nC) + j)%nat). split.
  - unfold bwdAvgPool. unfold poR, poC, pIn, pOut, invKernel. cbn [pH pR pC pfr pfc]. fold oR oC.
    change (mrows (tens nS nH oR oC G)) with nS. rewrite msetZero_gen by auto. cbn [bind]. replace (nR * nC * nH)%nat with (nH * nR * nC)%nat by ring.
    transitivity (Ok (mflat nS (nH * nR * nC) gf)); [|rewrite mflat_gen; reflexivity]. rewrite mgen_flat.
    eapply eq_trans; [apply (kloop2 R nS (nH * nR * nC) nS nH _ (fun s h k v => v + S3 s h k))|].
    + intros s h q Hs Hh.
      eapply eq_trans; [apply (kloop2 R nS (nH * nR * nC) oR oC _ (fun r c k v => v + S2 s h r c k))|].
      * intros r c q' Hr Hc. rewrite (rowGet_tens (ROps jk) nS nH oR oC G s h r c) by (auto; unfold pix; cbv [pOut poR poC pR pC pH pfr pfc]; fold oR oC; ring). cbn [bind].
        eapply eq_trans; [apply (kloop2 R nS (nH * nR * nC) fr fc _ (fun a b k v => if (addr4 nH nR nC s h (r * fr + a) (c * fc + b) =? k)%nat then v + G s h r c * iv else v))|].
        -- intros a b q'' Ha Hb. rewrite fofN_R. apply (rowAdd_tflat jk nS nH nR nC q'' s h (r * fr + a) (c * fc + b)); auto; try (apply win_lt; auto). apply pix_flat.
        -- apply Ok_eq, mflat_ext. intros k _.
           rewrite (fold_adds fr (fun a v => fold_left (fun v b => if (addr4 nH nR nC s h (r * fr + a) (c * fc + b) =? k)%nat then v + G s h r c * iv else v) (seq 0 fc) v) (fun a => rsum fc (fun b => S1 s h r c a b k))); auto.
           intros a v _. apply (fold_adds fc (fun b v => if (addr4 nH nR nC s h (r * fr + a) (c * fc + b) =? k)%nat then v + G s h r c * iv else v)). intros b w _. apply if_add.
      * apply Ok_eq, mflat_ext. intros k _.
        apply (fold_adds oR (fun r v => fold_left (fun v c => v + S2 s h r c k) (seq 0 oC) v)). intros r v _. apply fold_rsum.
    + apply Ok_eq, mflat_ext. intros k _. unfold gf.
      apply (fold_adds nS (fun s v => fold_left (fun v h => v + S3 s h k) (seq 0 nH) v)). intros r v _. apply fold_rsum.
  - intro B. rewrite dot_fdot. unfold gf. rewrite fdot_plus, fdot_zero, Rplus_0_l. rewrite fdot_sum. unfold dot4. apply rsum_ext. intros s Hs.
    rewrite fdot_sum. apply rsum_ext. intros h Hh. unfold S3. rewrite fdot_sum. apply rsum_ext. intros r Hr. rewrite fdot_sum. apply rsum_ext. intros c Hc.
    unfold S2. rewrite fdot_sum. unfold avgMap, Rdiv. rewrite <- rsum_scal_r, <- rsum_scal. apply rsum_ext. intros a Ha.
    rewrite fdot_sum, <- rsum_scal_r, <- rsum_scal. apply rsum_ext. intros b Hb. unfold S1. rewrite fdot_point.
    2:{ apply addr4_lt; auto; apply win_lt; auto. }
    rewrite flatF_addr by (auto; apply win_lt; auto). unfold iv. unfold Rdiv. ring.
Qed.
Lemma avgMap_curve : forall nS nH nR nC fr fc P t dP, dcurve4 nS nH nR nC P t dP ->
  dcurve4 nS nH (nR / fr) (nC / fc) (fun x => avgMap fr fc (P x)) t (avgMap fr fc dP).
Proof.
  intros nS nH nR nC fr fc P t dP H s h r c Hs Hh Hr Hc. unfold avgMap, Rdiv. apply d_mul_const_r.
  apply (is_derive_rsum fr (fun a x => rsum fc (fun b => P x s h (r * fr + a)%nat (c * fc + b)%nat))). intros a Ha.
  apply (is_derive_rsum fc (fun b x => P x s h (r * fr + a)%nat (c * fc + b)%nat)). intros b Hb. apply H; auto; apply win_lt; auto.
Qed.
Lemma avgpool_gradient : forall jk nS nH nR nC fr fc X G out gin, mwf out -> mwf gin -> exists gi,
  bwdAvgPool (ROps jk) (mkPool nR nC nH fr fc) false (mgen nS (nH * (nR / fr) * (nC / fc)) G) gin = Ok (mgen nS (nH * nR * nC) gi) /\
  gradOf nS (nH * nR * nC) 1 (fun X' => obj G (fwdAvgPool (ROps jk) (mkPool nR nC nH fr fc) (mgen nS (nH * nR * nC) X') out)) X gi.
Proof.
  intros jk nS nH nR nC fr fc X G out gin Hout Hgin.
  destruct (bwdAvgPool_R jk nS nH nR nC fr fc (img (nR / fr) (nC / fc) G) gin Hgin) as (gi & H1 & H2). exists gi. split.
  - rewrite tens_img. exact H1.
  - apply linear_gradient with (n := nS) (m := (nH * (nR / fr) * (nC / fc))%nat) (L := fun Q => unimg (nR / fr) (nC / fc) (avgMap fr fc (img nR nC Q))).
    + intro Q. rewrite tens_img, (avgpool_forward jk nS nH nR nC fr fc _ out Hout), tens_unimg. reflexivity.
    + intros P t dP HP. eexists. split.
      * apply dcurve_unimg. apply avgMap_curve. apply dcurve_img. exact HP.
      * rewrite dot_unimg, H2. reflexivity.
Qed.

(** * GlobalAveragePooling2D *)
Lemma fwdGlobalAvgPool_gen : forall (F : FOps) nS nH nR nC (t : nat -> nat -> nat -> nat -> F) out, mwf out ->
  fwdGlobalAvgPool F nR nC nH (tens nS nH nR nC t) out =
  Ok (mgen nS nH (fun s h => fmul F (fold_left (fun v r => fold_left (fun v c => fadd F v (t s h r c)) (seq 0 nC) v) (seq 0 nR) (f0 F)) (fdiv F (f1 F) (fofN F (nR * nC))))).
Proof.
  intros F nS nH nR nC t out Hout. unfold fwdGlobalAvgPool. change (mrows (tens nS nH nR nC t)) with nS.
  destruct (mresize_gen F out nS nH Hout) as [q ->]. apply (cell2 F nS nH _ (fun s h _ => fmul F (fold_left (fun v r => fold_left (fun v c => fadd F v (t s h r c)) (seq 0 nC) v) (seq 0 nR) (f0 F)) (fdiv F (f1 F) (fofN F (nR * nC))))).
  intros s h p Hs Hh.
  rewrite (aloop2 F nR nC _ (fun r c v => fadd F v (t s h r c))).
  2:{ intros r c v Hr Hc. rewrite (rowGet_tens F nS nH nR nC t s h r c); auto. apply pix_flat. }
  cbn [bind]. rewrite mgen_flat. rewrite rowSet_flat; auto; [|apply idx_lt; auto]. apply Ok_eq. rewrite mgen_flat. apply mflat_ext. intros k Hk.
  unfold upd2. assert (nH <> 0)%nat by lia. pose proof (idx_eq k H). destruct (Nat.eqb_spec (s * nH + h) k) as [E|E].
  - subst k. rewrite idx_div, idx_mod by auto. rewrite !Nat.eqb_refl. reflexivity.
  - destruct (Nat.eqb_spec (k / nH) s), (Nat.eqb_spec (k mod nH) h); auto. subst. lia.
Qed.
Lemma globalavg_forward : forall jk nS nH nR nC t out, mwf out ->
  fwdGlobalAvgPool (ROps jk) nR nC nH (tens nS nH nR nC t) out = Ok (mgen nS nH (fun s h => rsum nR (fun r => rsum nC (fun c => t s h r c)) / INR (nR * nC))).
Proof.
  intros jk nS nH nR nC t out Hout. eapply eq_trans; [exact (fwdGlobalAvgPool_gen (ROps jk) nS nH nR nC t out Hout)|].
  apply Ok_eq, mgen_ext. intros s h _ _. rewrite fofN_R. cbn [fmul fdiv f1 f0 fadd ROps T].
  rewrite (fold_adds nR (fun r v => fold_left (fun v c => v + t s h r c) (seq 0 nC) v) (fun r => rsum nC (fun c => t s h r c))).
  2:{ intros i v _. rewrite fold_rsum. reflexivity. }
  unfold Rdiv. ring.
Qed.
Lemma bwdGlobalAvgPool_gen : forall (F : FOps) nS nH nR nC (G : nat -> nat -> F) gin, mwf gin ->
  bwdGlobalAvgPool F nR nC nH false (mgen nS nH G) gin = Ok (tens nS nH nR nC (fun s h r c => fmul F (G s h) (fdiv F (f1 F) (fofN F (nR * nC))))).
Proof.
  intros F nS nH nR nC G gin Hg. unfold bwdGlobalAvgPool. change (mrows (mgen nS nH G)) with nS.
  transitivity (loop2 nS nH (fun s h m => loop2 nR nC (fun r c m => rowSet F m s (h * (nR * nC) + (r * nC + c)) (fmul F (G s h) (fdiv F (f1 F) (fofN F (nR * nC))))) m) (mresize F gin nS (nR * nC * nH))).
  - unfold loop2, forN. apply forL_ext. intros s m Hs. apply forL_ext. intros h m' Hh. apply in_seq in Hs, Hh. rewrite mgen_flat. rewrite rowGet_flat by (try apply idx_lt; lia).
    cbn [bind]. rewrite idx_div, idx_mod by lia. reflexivity.
  - apply (tens_write F nS nH nR nC (fun s h r c m => rowSet F m s (h * (nR * nC) + (r * nC + c)) (fmul F (G s h) (fdiv F (f1 F) (fofN F (nR * nC)))))).
    + apply resize_tflat; auto. ring.
    + intros. apply rowSet_tflat; auto. apply pix_flat.
Qed.
Lemma globalavg_gradient : forall jk nS nH nR nC X G out gin, mwf out -> mwf gin -> exists gi,
  bwdGlobalAvgPool (ROps jk) nR nC nH false (mgen nS nH G) gin = Ok (mgen nS (nH * nR * nC) gi) /\
  gradOf nS (nH * nR * nC) 1 (fun X' => obj G (fwdGlobalAvgPool (ROps jk) nR nC nH (mgen nS (nH * nR * nC) X') out)) X gi.
Proof.
  intros jk nS nH nR nC X G out gin Hout Hgin.
  exists (unimg nR nC (fun s h _ _ => G s h * (1 / INR (nR * nC)))). split.
  - eapply eq_trans; [exact (bwdGlobalAvgPool_gen (ROps jk) nS nH nR nC G gin Hgin)|]. rewrite <- tens_unimg. apply Ok_eq, tens_ext. intros. rewrite fofN_R. reflexivity.
  - apply linear_gradient with (n := nS) (m := nH) (L := fun Q s h => rsum nR (fun r => rsum nC (fun c => img nR nC Q s h r c)) / INR (nR * nC)).
    + intro Q. rewrite tens_img. exact (globalavg_forward jk nS nH nR nC _ out Hout).
    + intros P t dP HP. apply dcurve_img in HP. exists (fun s h => rsum nR (fun r => rsum nC (fun c => img nR nC dP s h r c)) / INR (nR * nC)). split.
      * intros s h Hs Hh. unfold Rdiv. apply d_mul_const_r. apply (is_derive_rsum nR (fun r x => rsum nC (fun c => img nR nC (P x) s h r c))). intros r Hr.
        apply (is_derive_rsum nC (fun c x => img nR nC (P x) s h r c)). intros c Hc. apply HP; auto.
      * rewrite dot_dot4. unfold dot, dot4. apply rsum_ext. intros s Hs. apply rsum_ext. intros h Hh. unfold Rdiv. rewrite <- rsum_scal_r, <- rsum_scal. apply rsum_ext. intros r Hr.
        rewrite <- rsum_scal_r, <- rsum_scal. apply rsum_ext. intros c Hc. rewrite img_unimg by auto. ring.
Qed.

(** * ZeroPadding2D *)
Local Open Scope nat_scope.
Definition padMap {A} (z : A) (nR nC nB : nat) (t : nat -> nat -> nat -> nat -> A) : nat -> nat -> nat -> nat -> A :=
  fun s h r c => if (nB <=? r) && (r <? nR + nB) && (nB <=? c) && (c <? nC + nB) then t s h (r - nB) (c - nB) else z.
Lemma fwdZeroPad_gen : forall (F : FOps) nS nH nR nC nB (t : nat -> nat -> nat -> nat -> F) out, mwf out ->
  fwdZeroPad F nR nC nH nB (tens nS nH nR nC t) out = Ok (tens nS nH (nR + 2 * nB) (nC + 2 * nB) (fun s h r c =>
    if (nB <=? r) && (r <? nR + nB) && (nB <=? c) && (c <? nC + nB) then t s h (r - nB) (c - nB) else f0 F)).
Proof.
  intros F nS nH nR nC nB t out Hout. unfold fwdZeroPad. set (oR := nR + 2 * nB). set (oC := nC + 2 * nB). change (mrows (tens nS nH nR nC t)) with nS.
  rewrite msetZero_gen by auto. cbn [bind]. replace (oR * oC * nH) with (nH * oR * oC) by ring. rewrite mgen_flat.
  set (ad := fun s h r c => addr4 nH oR oC s h (r + nB) (c + nB)).
  rewrite (kloop2 F nS (nH * oR * oC) nS nH _ (fun s h k v => fold_left (fun v r => fold_left (fun v c => if ad s h r c =? k then t s h r c else v) (seq 0 nC) v) (seq 0 nR) v)).
  2:{ intros s h q Hs Hh. apply (kloop2 F nS (nH * oR * oC) nR nC _ (fun r c k v => if ad s h r c =? k then t s h r c else v)).
      intros r c q' Hr Hc. rewrite (rowGet_tens F nS nH nR nC t s h r c) by (auto; apply pix_flat). cbn [bind].
      apply rowSet_tflat; unfold oR, oC; auto; try lia. unfold pix. ring. }
  apply Ok_eq, flat_tens. intros s h r c Hs Hh Hr Hc.
  destruct ((nB <=? r) && (r <? nR + nB) && (nB <=? c) && (c <? nC + nB)) eqn:E.
  - rewrite !andb_true_iff, !Nat.leb_le, !Nat.ltb_lt in E. destruct E as [[[E1 E2] E3] E4].
    set (V := t s h (r - nB) (c - nB)).
    assert (K : forall s' h' r' c', h' < nH -> r' < nR -> c' < nC -> keeps V (fun v => if ad s' h' r' c' =? addr4 nH oR oC s h r c then t s' h' r' c' else v)).
    { intros s' h' r' c' Hh' Hr' Hc'. apply if_keeps. intro E. apply Nat.eqb_eq, addr4_inj in E; unfold oR, oC; auto; try lia. destruct E as (-> & -> & Er & Ec).
      unfold V. f_equal; lia. }
    apply (seq_hits F V nS s); auto.
    + intros s' _. apply seq_keeps. intros h' Hh'. apply seq_keeps. intros r' Hr'. apply seq_keeps. intros c' Hc'. apply K; auto.
    + apply (seq_hits F V nH h); auto.
      * intros h' Hh'. apply seq_keeps. intros r' Hr'. apply seq_keeps. intros c' Hc'. apply K; auto.
      * apply (seq_hits F V nR (r - nB)); try lia.
        -- intros r' Hr'. apply seq_keeps. intros c' Hc'. apply K; auto.
        -- apply (seq_hits F V nC (c - nB)); try lia.
           ++ intros c' Hc'. apply K; auto; lia.
           ++ apply if_hits; auto. apply Nat.eqb_eq. unfold ad. f_equal; lia.
  - apply fold_left_id. intros v s' Hs'. apply fold_left_id. intros v' h' Hh'. apply fold_left_id. intros v'' r' Hr'. apply fold_left_id. intros w c' Hc'.
    apply in_seq in Hs', Hh', Hr', Hc'. destruct (Nat.eqb_spec (ad s' h' r' c') (addr4 nH oR oC s h r c)) as [Ea|]; auto. exfalso.
    apply addr4_inj in Ea; unfold oR, oC; try lia. destruct Ea as (_ & _ & Er & Ec).
    rewrite !andb_false_iff, !Nat.leb_gt, !Nat.ltb_ge in E. lia.
Qed.
Lemma bwdZeroPad_gen : forall (F : FOps) nS nH nR nC nB (t : nat -> nat -> nat -> nat -> F) gin, mwf gin ->
  bwdZeroPad F nR nC nH nB false (tens nS nH (nR + 2 * nB) (nC + 2 * nB) t) gin = Ok (tens nS nH nR nC (fun s h r c => t s h (r + nB) (c + nB))).
Proof.
  intros F nS nH nR nC nB t gin Hg. unfold bwdZeroPad. set (oR := nR + 2 * nB). set (oC := nC + 2 * nB). change (mrows (tens nS nH oR oC t)) with nS.
  apply (tens_write F nS nH nR nC).
  - apply resize_tflat; auto. ring.
  - intros s h r c g Hs Hh Hr Hc. rewrite (rowGet_tens F nS nH oR oC t s h (r + nB) (c + nB)) by (auto; unfold oR, oC; try lia; unfold pix; ring). cbn [bind].
    apply rowSet_tflat; auto. apply pix_flat.
Qed.
Lemma zeropad_roundtrip : forall (F : FOps) nS nH nR nC nB m out gin, mwf m -> mrows m = nS -> mcols m = nH * nR * nC -> mwf out -> mwf gin ->
  (y <- fwdZeroPad F nR nC nH nB m out ;; bwdZeroPad F nR nC nH nB false y gin) = Ok m.
Proof.
  intros F nS nH nR nC nB m out gin Hw Hr Hc Ho Hg. destruct (mwf_is_tens F (f0 F) nS nH nR nC m Hw Hr Hc) as [t ->].
  rewrite fwdZeroPad_gen by auto. cbn [bind]. rewrite bwdZeroPad_gen by auto. apply Ok_eq, tens_ext. intros s h r c _ _ Hr' Hc'.
  replace (nB <=? r + nB) with true by (symmetry; apply Nat.leb_le; lia). replace (r + nB <? nR + nB) with true by (symmetry; apply Nat.ltb_lt; lia).
  replace (nB <=? c + nB) with true by (symmetry; apply Nat.leb_le; lia). replace (c + nB <? nC + nB) with true by (symmetry; apply Nat.ltb_lt; lia).
  cbn [andb]. f_equal; lia.
Qed.
Local Open Scope R_scope.
Lemma padMap_curve : forall nS nH nR nC nB P t dP, dcurve4 nS nH nR nC P t dP ->
  dcurve4 nS nH (nR + 2 * nB) (nC + 2 * nB) (fun x => padMap 0 nR nC nB (P x)) t (padMap 0 nR nC nB dP).
Proof.
  intros nS nH nR nC nB P t dP H s h r c Hs Hh Hr Hc. unfold padMap.
  destruct ((nB <=? r)%nat && (r <? nR + nB)%nat && (nB <=? c)%nat && (c <? nC + nB)%nat) eqn:E.
  - rewrite !andb_true_iff, !Nat.leb_le, !Nat.ltb_lt in E. apply H; auto; lia.
  - apply (is_derive_const 0).
Qed.
(* sums over the padded plane *)
Lemma rsum_pad1 : forall n b (f : nat -> R), (forall r, (r < n + 2 * b)%nat -> ((b <=? r) && (r <? n + b))%nat = false -> f r = 0) ->
  rsum (n + 2 * b) f = rsum n (fun r => f (r + b)%nat).
Proof.
  intros n b f H. replace (n + 2 * b)%nat with (b + (n + b))%nat by lia. rewrite rsum_app, rsum_app.
  rewrite (rsum_zero b f). 2:{ intros i Hi. apply H; [lia|]. apply andb_false_iff. left. apply Nat.leb_gt; lia. }
  rewrite (rsum_zero b (fun i => f (b + (n + i))%nat)). 2:{ intros i Hi. apply H; [lia|]. apply andb_false_iff. right. apply Nat.ltb_ge; lia. }
  rewrite Rplus_0_l, Rplus_0_r. apply rsum_ext. intros i _. f_equal. lia.
Qed.
Lemma padMap_adjoint : forall nS nH nR nC nB A B,
  dot4 nS nH (nR + 2 * nB) (nC + 2 * nB) A (padMap 0 nR nC nB B) = dot4 nS nH nR nC (fun s h r c => A s h (r + nB)%nat (c + nB)%nat) B.
Proof.
  intros. unfold dot4. apply rsum_ext. intros s _. apply rsum_ext. intros h _. rewrite rsum_pad1.
  - apply rsum_ext. intros r Hr. rewrite rsum_pad1.
    + apply rsum_ext. intros c Hc. unfold padMap.
      replace (nB <=? r + nB)%nat with true by (symmetry; apply Nat.leb_le; lia). replace (r + nB <? nR + nB)%nat with true by (symmetry; apply Nat.ltb_lt; lia).
      replace (nB <=? c + nB)%nat with true by (symmetry; apply Nat.leb_le; lia). replace (c + nB <? nC + nB)%nat with true by (symmetry; apply Nat.ltb_lt; lia).
      cbn [andb]. f_equal. f_equal; lia.
    + intros c _ E. unfold padMap. rewrite <- andb_assoc, E, andb_false_r. ring.
  - intros r _ E. apply rsum_zero. intros c _. unfold padMap. rewrite E. cbn [andb]. ring.
Qed.
Lemma zeropad_gradient : forall jk nS nH nR nC nB X G out gin, mwf out -> mwf gin -> exists gi,
  bwdZeroPad (ROps jk) nR nC nH nB false (mgen nS (nH * (nR + 2 * nB) * (nC + 2 * nB)) G) gin = Ok (mgen nS (nH * nR * nC) gi) /\
  gradOf nS (nH * nR * nC) 1 (fun X' => obj G (fwdZeroPad (ROps jk) nR nC nH nB (mgen nS (nH * nR * nC) X') out)) X gi.
Proof.
  intros jk nS nH nR nC nB X G out gin Hout Hgin. set (oR := (nR + 2 * nB)%nat). set (oC := (nC + 2 * nB)%nat).
  exists (unimg nR nC (fun s h r c => img oR oC G s h (r + nB)%nat (c + nB)%nat)). split.
  - rewrite tens_img. eapply eq_trans; [exact (bwdZeroPad_gen (ROps jk) nS nH nR nC nB _ gin Hgin)|]. rewrite <- tens_unimg. reflexivity.
  - apply linear_gradient with (n := nS) (m := (nH * oR * oC)%nat) (L := fun Q => unimg oR oC (padMap 0 nR nC nB (img nR nC Q))).
    + intro Q. rewrite tens_img. eapply eq_trans; [exact (fwdZeroPad_gen (ROps jk) nS nH nR nC nB _ out Hout)|]. rewrite <- tens_unimg. reflexivity.
    + intros P t dP HP. eexists. split.
      * apply dcurve_unimg. apply padMap_curve. apply dcurve_img. exact HP.
      * rewrite dot_unimg. unfold oR, oC. rewrite padMap_adjoint, dot_dot4. apply dot4_ext. intros. rewrite img_unimg by auto. reflexivity.
Qed.
