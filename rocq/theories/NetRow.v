(* NetRow.v - deterministic layers work row by row *)
From Coq Require Import List Arith Bool Lia ZArith String FunctionalExtensionality.
From Verif Require Import Base Scalar Mat SpecMat MatFacts MatProofs MatProofs2 MatLoops Scatter Act LayMat LayImg LayRnn LayKit LayTens ImgKit
  LayProofs1 LayProofs3 LayProofs4 LayProofs5 LayProofs6 LayProofs7 LayProofs8 LayPool1 LayPool2 LayPool4 LayConv1 Layer Net SpecNet.
Import ListNotations.
Local Open Scope nat_scope.

Section Row.
Variable F : FOps.
Notation M := (mat F).

(* cell (i,j), or d outside the matrix *)
Definition cellD (d : F) (m : M) (i j : nat) : F :=
  if (i <? mrows m) && (j <? mcols m) then nth (i * mcols m + j) (mdata m) d else d.
Definition cell := cellD (fjunk F).

Lemma cellD_gen : forall d r c f i j, cellD d (mgen r c f) i j = if (i <? r) && (j <? c) then f i j else d.
Proof.
  intros. unfold cellD. simpl mrows. simpl mcols. destruct (Nat.ltb_spec i r), (Nat.ltb_spec j c); simpl; auto.
  change (flat_map _ _) with (mdata (mgen r c f)). rewrite mgen_flat. unfold mflat. simpl mdata.
  rewrite nth_indep with (d' := (fun k => f (k / c) (k mod c)) 0) by (rewrite map_length, seq_length; apply idx_lt; auto).
  rewrite (map_nth (fun k => f (k / c) (k mod c))). rewrite seq_nth by (apply idx_lt; auto).
  simpl. rewrite idx_div, idx_mod by auto. reflexivity.
Qed.
Lemma shaped_gen : forall d m r c, shaped m r c -> m = mgen r c (cellD d m).
Proof.
  intros d m r c (H1 & <- & <-). rewrite (mwf_gen_d _ d m H1) at 1. apply mgen_ext. intros i j Hi Hj. unfold cellD.
  apply Nat.ltb_lt in Hi. apply Nat.ltb_lt in Hj. rewrite Hi, Hj. reflexivity.
Qed.
Lemma shaped_mgen : forall r c f, @shaped F (mgen r c f) r c.
Proof. intros. repeat split; auto. apply mwf_gen. Qed.
Lemma cellD_empty : forall d m i j, msize m = 0 -> cellD d m i j = d.
Proof.
  intros d m i j H. unfold msize in H. apply Nat.eq_mul_0 in H. unfold cellD. destruct H as [-> | ->].
  - destruct (Nat.ltb_spec i 0); [lia|reflexivity].
  - destruct (Nat.ltb_spec j 0); [lia|]. rewrite andb_false_r. reflexivity.
Qed.
Lemma cellD_const : forall d r c i j, cellD d (mgen r c (fun _ _ => d)) i j = d.
Proof. intros. rewrite cellD_gen. destruct ((i <? r) && (j <? c)); auto. Qed.

(* lazily sized parameters *)
Lemma fwdAffine_lazy : forall n k w b X out, 0 < k -> mwf w -> mwf b -> msize b = 0 ->
  fwdAffine F w b (mgen n k X) out = fwdAffine F (mgen 1 k (fun _ _ => f1 F)) (mgen 1 k (fun _ _ => f0 F)) (mgen n k X) out.
Proof.
  intros n k w b X out Hk Hw Hb Hs. unfold fwdAffine. rewrite Hs. rewrite Nat.eqb_refl. unfold msize. simpl mrows. simpl mcols.
  replace (1 * k =? 0) with false by (symmetry; apply Nat.eqb_neq; lia).
  unfold msetOnes. rewrite msetZero_gen, msetConstR_gen by auto. reflexivity.
Qed.
Lemma fwdTERELU_lazy : forall n k w gw X, (0 < k) -> mwf w -> msize w = 0 ->
  fwdTERELU F w gw (mgen n k X) = fwdTERELU F (mgen 1 k (fun _ _ => f1 F)) (mresize F gw 1 k) (mgen n k X).
Proof.
  intros n k w gw X Hk Hw Hs. unfold fwdTERELU. rewrite Hs. rewrite Nat.eqb_refl. unfold msize. simpl mrows. simpl mcols.
  replace (1 * k =? 0) with false by (symmetry; apply Nat.eqb_neq; lia).
  rewrite msetConstR_gen by auto. reflexivity.
Qed.
Lemma fwdPELU_lazy : forall n k w gw X, (0 < k) -> mwf w -> msize w = 0 ->
  fwdPELU F w gw (mgen n k X) = fwdPELU F (mgen 2 k (fun _ _ => f1 F)) (mresize F gw 2 k) (mgen n k X).
Proof.
  intros n k w gw X Hk Hw Hs. unfold fwdPELU. rewrite Hs. rewrite Nat.eqb_refl. unfold msize. simpl mrows. simpl mcols.
  replace (2 * k =? 0) with false by (symmetry; apply Nat.eqb_neq; lia).
  destruct (mresize_gen F w 2 k Hw) as [f Ef]. rewrite Ef. unfold msetConst. rewrite mapLoop_gen. reflexivity.
Qed.

(* max pooling in inference mode, any arithmetic *)
Definition winScan (fr fc : nat) (w : nat -> nat -> F) (code : nat -> nat -> Z) : F * Z :=
  fold_left (fun v a => fold_left (fun v b => if flt F (fst v) (w a b) then (w a b, code a b) else v) (seq 0 fc) v) (seq 0 fr) (bigNeg F, (-1)%Z).
Lemma windowMax_gen : forall nS nH nR nC fr fc (t : nat -> nat -> nat -> nat -> F) s h r c, s < nS -> h < nH -> r < nR / fr -> c < nC / fc ->
  windowMax F (mkPool nR nC nH fr fc) (tens nS nH nR nC t) s h r c =
  Ok (winScan fr fc (fun a b => t s h (r * fr + a) (c * fc + b)) (fun a b => Z.of_nat ((r * fr + a) * nC + (c * fc + b)))).
Proof.
  intros. unfold windowMax. cbn [pfr pfc]. unfold winScan.
  rewrite (aloop2 (F * Z) fr fc _ (fun a b v => if flt F (fst v) (t s h (r * fr + a) (c * fc + b)) then (t s h (r * fr + a) (c * fc + b), Z.of_nat ((r * fr + a) * nC + (c * fc + b))) else v)).
  - reflexivity.
  - intros a b [m q] Ha Hb. rewrite (rowGet_tens F nS nH nR nC t s h (r * fr + a) (c * fc + b)); auto; try (apply win_lt; auto).
    cbv [pIn pR pC]. apply pix_flat.
Qed.
Lemma fwdMaxPool_infer : forall nS nH nR nC fr fc (t : nat -> nat -> nat -> nat -> F) mx out, mwf out ->
  fwdMaxPool F (mkPool nR nC nH fr fc) false mx (tens nS nH nR nC t) out =
  Ok (mx, tens nS nH (nR / fr) (nC / fc) (fun s h r c => fst (winScan fr fc (fun a b => t s h (r * fr + a) (c * fc + b)) (fun a b => Z.of_nat ((r * fr + a) * nC + (c * fc + b)))))).
Proof.
  intros nS nH nR nC fr fc t mx out Hout.
  unfold fwdMaxPool. change (mrows (tens nS nH nR nC t)) with nS. cbv [pOut poR poC pR pC pH pfr pfc].
  set (oR := nR / fr) in *. set (oC := nC / fc) in *.
  destruct (resize_tflat F out nS (oR * oC * nH) nS (nH * oR * oC) Hout eq_refl ltac:(ring)) as [g Eg]. rewrite Eg.
  assert (AD : forall s h r c, h < nH -> r < oR -> c < oC -> s * (nH * oR * oC) + (h * (oR * oC) + (r * oC + c)) = addr4 nH oR oC s h r c).
  { intros. rewrite addr4_pix, pix_flat. reflexivity. }
  destruct (writeE4 F _ (fun q => (mx, mflat nS (nH * oR * oC) q)) (fun p q H => f_equal (pair mx) (mflat_ext _ nS _ p q (fun k _ => H k))) nS nH oR oC (fun s h r c '(mx, out) =>
      w <- windowMax F (mkPool nR nC nH fr fc) (tens nS nH nR nC t) s h r c ;;
      out <- rowSet F out s (h * (oR * oC) + (r * oC + c)) (fst w) ;;
      mx <- Ok mx ;; Ok (mx, out))
      (fun s h r c => fst (winScan fr fc (fun a b => t s h (r * fr + a) (c * fc + b)) (fun a b => Z.of_nat ((r * fr + a) * nC + (c * fc + b))))) g) as (q & E1 & E2).
  - intros s h r c q Hs Hh Hr Hc. rewrite windowMax_gen by auto. cbn [bind fst snd].
    rewrite (rowSet_flat F nS (nH * oR * oC)) by (auto; rewrite AD by auto; apply addr4_lt; auto). cbn [bind]. rewrite AD by auto. reflexivity.
  - eapply eq_trans; [exact E1|]. apply Ok_eq. f_equal; apply flat_tens; intros s h r c Hs Hh Hr Hc; rewrite E2 by auto; reflexivity.
Qed.
Lemma planeMax_gen : forall nS nH nR nC (t : nat -> nat -> nat -> nat -> F) s h, s < nS -> h < nH ->
  planeMax F nR nC (tens nS nH nR nC t) s h = Ok (winScan nR nC (t s h) (fun r c => Z.of_nat (h * nR * nC + r * nC + c))).
Proof.
  intros. unfold planeMax, winScan.
  rewrite (aloop2 (F * Z) nR nC _ (fun a b v => if flt F (fst v) (t s h a b) then (t s h a b, Z.of_nat (h * nR * nC + a * nC + b)) else v)).
  - reflexivity.
  - intros a b [m q] Ha Hb. rewrite (mget2_tens F nS nH nR nC t s h a b) by (auto; unfold pix; ring). cbn [bind fst]. destruct (flt F m (t s h a b)); reflexivity.
Qed.
Lemma fwdGlobalMaxPool_infer : forall nS nH nR nC (t : nat -> nat -> nat -> nat -> F) mx out, mwf out ->
  fwdGlobalMaxPool F nR nC nH false mx (tens nS nH nR nC t) out =
  Ok (mx, mgen nS nH (fun s h => fst (winScan nR nC (t s h) (fun r c => Z.of_nat (h * nR * nC + r * nC + c))))).
Proof.
  intros nS nH nR nC t mx out Hout. unfold fwdGlobalMaxPool. change (mrows (tens nS nH nR nC t)) with nS.
  destruct (mresize_flat F out nS nH Hout) as [g Eg]. rewrite Eg.
  destruct (writeE2 F _ (fun q => (mx, mflat nS nH q)) (fun p q H => f_equal (pair mx) (mflat_ext _ nS nH p q (fun k _ => H k))) nS nH (fun s h '(mx, out) =>
      w <- planeMax F nR nC (tens nS nH nR nC t) s h ;; out <- mset2 out s h (fst w) ;; mx <- Ok mx ;; Ok (mx, out))
      (fun s h => fst (winScan nR nC (t s h) (fun r c => Z.of_nat (h * nR * nC + r * nC + c)))) g) as (q & E1 & E2).
  - intros s h q Hs Hh. rewrite planeMax_gen by auto. cbn [bind fst snd]. rewrite !mset2_flat by auto. reflexivity.
  - eapply eq_trans; [exact E1|]. apply Ok_eq. rewrite !mgen_flat. f_equal; apply mflat_ext; intros k Hk;
    pose proof (@div_lt_r _ _ _ Hk) as H1; pose proof (@mod_lt_c _ _ _ Hk) as H2; rewrite <- (@idx_eq k nH) at 1 by lia; rewrite E2 by auto; reflexivity.
Qed.

(** * the row function of a layer *)
Definition rowFun (l : layer F) (k : nat) (x : nat -> F) (j : nat) : F :=
  match lk l with
  | KDense _ _ => fadd F (fsum F k (fun p => fmul F (x p) (cell (lw l) p j))) (cell (lb l) 0 j)
  | KDot _ _ => fsum F k (fun p => fmul F (x p) (cell (lw l) p j))
  | KBias => fadd F (x j) (cellD (f0 F) (lb l) 0 j)
  | KGain => fmul F (x j) (cellD (f1 F) (lw l) 0 j)
  | KAffine => fadd F (fmul F (x j) (cellD (f1 F) (lw l) 0 j)) (cellD (f0 F) (lb l) 0 j)
  | KGlobalGain => fmul F (x j) (cell (lw l) 0 0)
  | KGlobalBias => fadd F (x j) (cell (lb l) 0 0)
  | KGlobalAffine => fadd F (fmul F (x j) (cell (lw l) 0 0)) (cell (lb l) 0 0)
  | KChannelBias nR nC nH => fadd F (x j) (cell (lb l) 0 (j / nC / nR))
  | KAct (Some a) => act_apply F a (x j)
  | KGated (Some a1) (Some a2) => fmul F (act_apply F a1 (x j)) (act_apply F a2 (x (j + k / 2)))
  | KCRelu => if j <? k then (if fle F (f0 F) (x j) then x j else f0 F) else if fle F (f0 F) (x (j - k)) then f0 F else fopp F (x (j - k))
  | KPRelu => if flt F (x j) (f0 F) then fmul F (x j) (cellD (flit F 1 4) (lw l) 0 j) else x j
  | KRRelu a1 a2 => if flt F (x j) (f0 F) then fmul F (x j) (rreluMean F a1 a2) else x j
  | KPELU => peluF F (cellD (f1 F) (lw l) 0 j) (cellD (f1 F) (lw l) 1 j) (x j)
  | KTERELU => tereluF F (cellD (f1 F) (lw l) 0 j) (x j)
  | KSoftmax => softF F k x j
  | KSoftmin => softF F k (fun j => fopp F (x j)) j
  | KTDBias fs => fadd F (x j) (cell (lb l) 0 (j mod fs))
  | KTDDot fi fo => fsum F fi (fun p => fmul F (x (j / fo * fi + p)) (cell (lw l) p (j mod fo)))
  | KTDDense fi fo => fadd F (fsum F fi (fun p => fmul F (x (j / fo * fi + p)) (cell (lw l) p (j mod fo)))) (cell (lb l) 0 (j mod fo))
  | KMaxPool p =>
      let oC := pC p / pfc p in let oR := pR p / pfr p in let h := j / oC / oR in let r := (j / oC) mod oR in let c := j mod oC in
      fst (winScan (pfr p) (pfc p) (fun a b => x (pix (pR p) (pC p) h (r * pfr p + a) (c * pfc p + b)))
                   (fun a b => Z.of_nat ((r * pfr p + a) * pC p + (c * pfc p + b))))
  | KAvgPool p =>
      let oC := pC p / pfc p in let oR := pR p / pfr p in let h := j / oC / oR in let r := (j / oC) mod oR in let c := j mod oC in
      fmul F (fold_left (fun v a => fold_left (fun v b => fadd F v (x (pix (pR p) (pC p) h (r * pfr p + a) (c * pfc p + b)))) (seq 0 (pfc p)) v) (seq 0 (pfr p)) (f0 F))
             (fdiv F (f1 F) (fofN F (pfr p * pfc p)))
  | KGlobalMaxPool nR nC nH => fst (winScan nR nC (fun r c => x (pix nR nC j r c)) (fun r c => Z.of_nat (j * nR * nC + r * nC + c)))
  | KGlobalAvgPool nR nC nH =>
      fmul F (fold_left (fun v r => fold_left (fun v c => fadd F v (x (pix nR nC j r c))) (seq 0 nC) v) (seq 0 nR) (f0 F)) (fdiv F (f1 F) (fofN F (nR * nC)))
  | KZeroPad nR nC nH nB =>
      let oC := nC + 2 * nB in let oR := nR + 2 * nB in let h := j / oC / oR in let r := (j / oC) mod oR in let c := j mod oC in
      if (nB <=? r) && (r <? nR + nB) && (nB <=? c) && (c <? nC + nB) then x (pix nR nC h (r - nB) (c - nB)) else f0 F
  | KConv v _ =>
      let o := j / oC v / oR v in let r := (j / oC v) mod oR v in let c := j mod oC v in
      fsum F (vI v * vkr v * vkc v) (fun q => fmul F (cell (lw l) o q)
        (x (pix (vR v) (vC v) (q / vkc v / vkr v) (r * vsr v + (q / vkc v) mod vkr v) (c * vsc v + q mod vkc v))))
  | _ => x j
  end.


(* what a forward pass leaves behind: the same row function, still deterministic *)
Definition rowOk (l : layer F) (k m : nat) (n : nat) (X : nat -> nat -> F) (r : rnd F) (out : M) : Prop :=
  exists l', layForward F r l (mgen n k X) out = Ok (l', mgen n m (fun i => rowFun l k (X i))) /\
             detLayer F l' k m /\ rowFun l' k = rowFun l k /\ lk l' = lk l /\ ltrain l' = ltrain l.

Lemma row_keep : forall l k m n X r out, detLayer F l k m ->
  layForward F r l (mgen n k X) out = Ok (l, mgen n m (fun i => rowFun l k (X i))) -> rowOk l k m n X r out.
Proof. intros. exists l. auto. Qed.
Lemma setW_same : forall (l : layer F), setW l (lw l) = l. Proof. intros []; reflexivity. Qed.
Lemma setB_same : forall (l : layer F), setB l (lb l) = l. Proof. intros []; reflexivity. Qed.
Lemma setWB_same : forall (l : layer F), setWB l (lw l) (lb l) = l. Proof. intros []; reflexivity. Qed.
Lemma setMem_same : forall (l : layer F), setMem l (lmem l) = l. Proof. intros []; reflexivity. Qed.
Lemma setP_same : forall (l : layer F), setP l (lw l) (lgw l) (lb l) (lgb l) = l. Proof. intros []; reflexivity. Qed.
Lemma row_forward : forall l k m n X r out, detLayer F l k m -> mwf out -> rowOk l k m n X r out.
Proof.
  intros l k m n X r out D Ho. pose proof D as D0.
  unfold detLayer in D. destruct (lk l) eqn:K; try contradiction.
  - (* Dense *) destruct D as [H1 H2]. apply row_keep; auto. unfold layForward. rewrite K.
    rewrite (shaped_gen (fjunk F) _ _ _ H1) at 1. rewrite (shaped_gen (fjunk F) _ _ _ H2) at 1. rewrite fwdDense_gen. cbn [bind]. unfold rowFun. rewrite K. reflexivity.
  - apply row_keep; auto. unfold layForward. rewrite K.
    rewrite (shaped_gen (fjunk F) _ _ _ D) at 1. rewrite fwdDot_gen. cbn [bind]. unfold rowFun. rewrite K. reflexivity.
  - (* Bias *) destruct D as (-> & Hk & HB & Hz). destruct HB as [HB|[HB1 HB2]].
    + apply row_keep; auto. unfold layForward. rewrite K. rewrite (shaped_gen (f0 F) _ _ _ HB) at 1. rewrite fwdBias_gen by auto. cbn [bind].
      rewrite <- (shaped_gen (f0 F) _ _ _ HB). rewrite setB_same. unfold rowFun. rewrite K. reflexivity.
    + exists (setB l (mgen 1 k (fun _ _ => f0 F))). split; [|split; [|split]]; auto.
      * unfold layForward. rewrite K, (Hz HB2), fwdBias_lazy, fwdBias_gen by auto. cbn [bind]. apply Ok_eq. f_equal. apply mgen_ext. intros.
        unfold rowFun. rewrite K. rewrite cellD_empty by auto. reflexivity.
      * unfold detLayer. simpl lk. rewrite K. simpl lb. simpl lbi. repeat split; auto. left. apply shaped_mgen.
      * extensionality x. extensionality j. unfold rowFun. simpl lk. rewrite K. simpl lb. rewrite cellD_const, cellD_empty by auto. reflexivity.
  - (* Gain *) destruct D as (-> & Hk & [HB|[HB1 HB2]]).
    + apply row_keep; auto. unfold layForward. rewrite K. rewrite (shaped_gen (f1 F) _ _ _ HB) at 1. rewrite fwdGain_gen by auto. cbn [bind].
      rewrite <- (shaped_gen (f1 F) _ _ _ HB). rewrite setW_same. unfold rowFun. rewrite K. reflexivity.
    + exists (setW l (mgen 1 k (fun _ _ => f1 F))). split; [|split; [|split]]; auto.
      * unfold layForward. rewrite K, fwdGain_lazy, fwdGain_gen by auto. cbn [bind]. apply Ok_eq. f_equal. apply mgen_ext. intros.
        unfold rowFun. rewrite K. rewrite cellD_empty by auto. reflexivity.
      * unfold detLayer. simpl lk. rewrite K. simpl lw. repeat split; auto. left. apply shaped_mgen.
      * extensionality x. extensionality j. unfold rowFun. simpl lk. rewrite K. simpl lw. rewrite cellD_const, cellD_empty by auto. reflexivity.
  - (* Affine *) destruct D as (-> & Hk & [[HB HB']|(HB1 & HB2 & HB3 & HB4)]).
    + apply row_keep; auto. unfold layForward. rewrite K. rewrite (shaped_gen (f1 F) _ _ _ HB) at 1. rewrite (shaped_gen (f0 F) _ _ _ HB') at 1. rewrite fwdAffine_gen by auto. cbn [bind].
      rewrite <- (shaped_gen (f1 F) _ _ _ HB), <- (shaped_gen (f0 F) _ _ _ HB'). rewrite setWB_same. unfold rowFun. rewrite K. reflexivity.
    + exists (setWB l (mgen 1 k (fun _ _ => f1 F)) (mgen 1 k (fun _ _ => f0 F))). split; [|split; [|split]]; auto.
      * unfold layForward. rewrite K, fwdAffine_lazy, fwdAffine_gen by auto. cbn [bind]. apply Ok_eq. f_equal. apply mgen_ext. intros.
        unfold rowFun. rewrite K. rewrite !cellD_empty by auto. reflexivity.
      * unfold detLayer. simpl lk. rewrite K. simpl lw. simpl lb. repeat split; auto. left. split; apply shaped_mgen.
      * extensionality x. extensionality j. unfold rowFun. simpl lk. rewrite K. simpl lw. simpl lb. rewrite !cellD_const, !cellD_empty by auto. reflexivity.
  - (* GlobalGain *) destruct D as (-> & H1). apply row_keep; auto. unfold layForward. rewrite K.
    rewrite (shaped_gen (fjunk F) _ _ _ H1) at 1. rewrite fwdGlobalGain_gen. cbn [bind]. unfold rowFun. rewrite K. reflexivity.
  - destruct D as (-> & H1). apply row_keep; auto. unfold layForward. rewrite K.
    rewrite (shaped_gen (fjunk F) _ _ _ H1) at 1. rewrite fwdGlobalBias_gen. cbn [bind]. unfold rowFun. rewrite K. reflexivity.
  - destruct D as (-> & H1 & H2). apply row_keep; auto. unfold layForward. rewrite K.
    rewrite (shaped_gen (fjunk F) _ _ _ H1) at 1. rewrite (shaped_gen (fjunk F) _ _ _ H2) at 1. rewrite fwdGlobalAffine_gen. cbn [bind]. unfold rowFun. rewrite K. reflexivity.
  - (* ChannelBias *) destruct D as (-> & -> & H1). apply row_keep; auto. unfold layForward. rewrite K.
    rewrite (shaped_gen (fjunk F) _ _ _ H1) at 1. rewrite fwdChannelBias_gen. cbn [bind]. unfold rowFun. rewrite K. reflexivity.
  - (* Act *) destruct D as (-> & Ha). destruct a as [a|]; [|congruence]. apply row_keep; auto. unfold layForward. rewrite K.
    rewrite fwdAct_gen by auto. cbn [bind]. unfold rowFun. rewrite K. reflexivity.
  - (* Gated *) destruct D as (-> & Ha1 & Ha2). destruct a1 as [a1|]; [|congruence]. destruct a2 as [a2|]; [|congruence]. apply row_keep; auto. unfold layForward. rewrite K.
    rewrite fwdGated_gen by auto. cbn [bind]. unfold rowFun. rewrite K. rewrite half2. reflexivity.
  - (* CRelu *) subst m. apply row_keep; auto. unfold layForward. rewrite K. rewrite fwdCRelu_gen by auto. cbn [bind]. unfold rowFun. rewrite K. reflexivity.
  - (* PRelu *) destruct D as (-> & Hk & [HB|[HB1 HB2]]).
    + apply row_keep; auto. unfold layForward. rewrite K. rewrite (shaped_gen (flit F 1 4) _ _ _ HB) at 1. rewrite fwdPRelu_gen by auto. cbn [bind].
      rewrite <- (shaped_gen (flit F 1 4) _ _ _ HB). rewrite setP_same. unfold rowFun. rewrite K. reflexivity.
    + exists (setP l (mgen 1 k (fun _ _ => flit F 1 4)) (mresize F (lgw l) 1 k) (lb l) (lgb l)). split; [|split; [|split]]; auto.
      * unfold layForward. rewrite K, fwdPRelu_lazy, fwdPRelu_gen by auto. cbn [bind]. apply Ok_eq. f_equal. apply mgen_ext. intros.
        unfold rowFun. rewrite K. rewrite cellD_empty by auto. reflexivity.
      * unfold detLayer. simpl lk. rewrite K. simpl lw. repeat split; auto. left. apply shaped_mgen.
      * extensionality x. extensionality j. unfold rowFun. simpl lk. rewrite K. simpl lw. rewrite cellD_const, cellD_empty by auto. reflexivity.
  - (* RRelu *) destruct D as (-> & Ht). apply row_keep; auto. unfold layForward. rewrite K, Ht, fwdRRelu_infer. cbn [bind]. rewrite setMem_same. unfold rowFun. rewrite K. reflexivity.
  - (* PELU *) destruct D as (-> & Hk & [HB|[HB1 HB2]]).
    + apply row_keep; auto. unfold layForward. rewrite K. rewrite (shaped_gen (f1 F) _ _ _ HB) at 1. rewrite fwdPELU_gen by auto. cbn [bind].
      rewrite <- (shaped_gen (f1 F) _ _ _ HB). rewrite setP_same. unfold rowFun. rewrite K. reflexivity.
    + exists (setP l (mgen 2 k (fun _ _ => f1 F)) (mresize F (lgw l) 2 k) (lb l) (lgb l)). split; [|split; [|split]]; auto.
      * unfold layForward. rewrite K, fwdPELU_lazy, fwdPELU_gen by auto. cbn [bind]. apply Ok_eq. f_equal. apply mgen_ext. intros.
        unfold rowFun. rewrite K. rewrite !cellD_empty by auto. reflexivity.
      * unfold detLayer. simpl lk. rewrite K. simpl lw. repeat split; auto. left. apply shaped_mgen.
      * extensionality x. extensionality j. unfold rowFun. simpl lk. rewrite K. simpl lw. rewrite !cellD_const, !cellD_empty by auto. reflexivity.
  - (* TERELU *) destruct D as (-> & Hk & [HB|[HB1 HB2]]).
    + apply row_keep; auto. unfold layForward. rewrite K. rewrite (shaped_gen (f1 F) _ _ _ HB) at 1. rewrite fwdTERELU_gen by auto. cbn [bind].
      rewrite <- (shaped_gen (f1 F) _ _ _ HB). rewrite setP_same. unfold rowFun. rewrite K. reflexivity.
    + exists (setP l (mgen 1 k (fun _ _ => f1 F)) (mresize F (lgw l) 1 k) (lb l) (lgb l)). split; [|split; [|split]]; auto.
      * unfold layForward. rewrite K, fwdTERELU_lazy, fwdTERELU_gen by auto. cbn [bind]. apply Ok_eq. f_equal. apply mgen_ext. intros.
        unfold rowFun. rewrite K. rewrite cellD_empty by auto. reflexivity.
      * unfold detLayer. simpl lk. rewrite K. simpl lw. repeat split; auto. left. apply shaped_mgen.
      * extensionality x. extensionality j. unfold rowFun. simpl lk. rewrite K. simpl lw. rewrite cellD_const, cellD_empty by auto. reflexivity.
  - (* Dropout *) destruct D as (-> & Ht). apply row_keep; auto. unfold layForward. rewrite K, Ht, dropout_inference. cbn [bind]. rewrite setMem_same. unfold rowFun. rewrite K. reflexivity.
  - destruct D as (-> & Ht). apply row_keep; auto. unfold layForward. rewrite K, Ht, gaussiandropout_inference. cbn [bind]. rewrite setMem_same. unfold rowFun. rewrite K. reflexivity.
  - destruct D as (-> & Ht). apply row_keep; auto. unfold layForward. rewrite K, Ht, noise_inference. cbn [bind]. unfold rowFun. rewrite K. reflexivity.
  - destruct D as (-> & Ht). apply row_keep; auto. unfold layForward. rewrite K, Ht, noise_inference. cbn [bind]. unfold rowFun. rewrite K. reflexivity.
  - (* Softmax *) destruct D as (-> & Hk). apply row_keep; auto. unfold layForward. rewrite K. rewrite fwdSoftmax_gen by auto. cbn [bind]. unfold rowFun. rewrite K. reflexivity.
  - destruct D as (-> & Hk). apply row_keep; auto. unfold layForward. rewrite K. rewrite fwdSoftmin_gen by auto. cbn [bind]. unfold rowFun. rewrite K. reflexivity.
  - (* TDBias *) destruct D as (-> & Hf & (f & ->) & H1). apply row_keep; auto. unfold layForward. rewrite K.
    rewrite (shaped_gen (fjunk F) _ _ _ H1) at 1. rewrite fwdTDBias_gen by auto. cbn [bind]. apply Ok_eq. f_equal. apply mgen_ext. intros i j Hi Hj. unfold rowFun. rewrite K.
    unfold unframes, frames. pose proof (@div_lt_r _ _ _ Hj) as H. rewrite idx_div, idx_mod by auto. rewrite idx_eq by lia. reflexivity.
  - (* TDDot *) destruct D as (Hf & (f & -> & ->) & H1). apply row_keep; auto. unfold layForward. rewrite K.
    rewrite (shaped_gen (fjunk F) _ _ _ H1) at 1. rewrite fwdTDDot_gen by auto. cbn [bind]. apply Ok_eq. f_equal. apply mgen_ext. intros i j Hi Hj. unfold rowFun. rewrite K.
    unfold unframes, frames. pose proof (@div_lt_r _ _ _ Hj) as H. rewrite idx_div, idx_mod by auto. reflexivity.
  - destruct D as (Hf & (f & -> & ->) & H1 & H2). apply row_keep; auto. unfold layForward. rewrite K.
    rewrite (shaped_gen (fjunk F) _ _ _ H1) at 1. rewrite (shaped_gen (fjunk F) _ _ _ H2) at 1. rewrite fwdTDDense_gen by auto. cbn [bind]. apply Ok_eq. f_equal. apply mgen_ext. intros i j Hi Hj. unfold rowFun. rewrite K.
    unfold unframes, frames. pose proof (@div_lt_r _ _ _ Hj) as H. rewrite idx_div, idx_mod by auto. reflexivity.
  - (* MaxPool *) destruct D as (_ & -> & -> & Ht). apply row_keep; auto. unfold layForward. rewrite K, Ht. destruct p as [nR nC nH fr fc]. cbn [pR pC pH pfr pfc].
    rewrite gen_tens, fwdMaxPool_infer by auto. cbn [bind]. rewrite setMem_same. rewrite tens_gen. unfold rowFun. rewrite K. reflexivity.
  - destruct D as (-> & -> & Ht). apply row_keep; auto. unfold layForward. rewrite K, Ht.
    rewrite gen_tens, fwdGlobalMaxPool_infer by auto. cbn [bind]. rewrite setMem_same. unfold rowFun. rewrite K. reflexivity.
  - (* AvgPool *) destruct D as (_ & -> & ->). apply row_keep; auto. unfold layForward. rewrite K. destruct p as [nR nC nH fr fc]. cbn [pR pC pH pfr pfc].
    rewrite gen_tens, fwdAvgPool_gen by auto. cbn [bind]. rewrite tens_gen. unfold rowFun. rewrite K. reflexivity.
  - destruct D as (-> & ->). apply row_keep; auto. unfold layForward. rewrite K.
    rewrite gen_tens, fwdGlobalAvgPool_gen by auto. cbn [bind]. unfold rowFun. rewrite K. reflexivity.
  - (* ZeroPad *) destruct D as (-> & ->). apply row_keep; auto. unfold layForward. rewrite K.
    rewrite gen_tens, fwdZeroPad_gen by auto. cbn [bind]. rewrite tens_gen. unfold rowFun. rewrite K. reflexivity.
  - (* Conv *) destruct D as (Hv & -> & -> & H1 & H2).
    exists (setNs (setMem l (mgen (n * oR v * oC v) (vI v * vkr v * vkc v) (colAt v (fun s h r c => X s (pix (vR v) (vC v) h r c))))) n). split; [|split; [|split]]; auto.
    + unfold layForward. rewrite K. change (mrows (mgen n (vI v * vR v * vC v) X)) with n. rewrite gen_tens. rewrite (shaped_gen (fjunk F) _ _ _ H1) at 1. rewrite fwdConv_gen by auto. cbn [bind].
      rewrite tens_gen. unfold rowFun. rewrite K. reflexivity.
    + unfold detLayer. simpl lk. rewrite K. simpl lw. repeat split; try apply H1; auto. apply mwf_gen.
Qed.
End Row.
