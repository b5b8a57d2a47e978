(* LayPool3.v - backward pass of global max pooling; selection layers *)
From Coq Require Import List Arith Bool Lia Reals Lra ZArith.
From Coquelicot Require Import Coquelicot.
From Verif Require Import Base Scalar Mat SpecMat SpecReal RSum MatFacts MatProofs MatLoops Scatter RDeriv Loss SpecLoss LayMat LayImg LayKit SpecLayer LayGrad LayCurve LayTens ImgKit ImgDot LayProofs2 LayPool1 LayPool2.
Import ListNotations.
Local Open Scope R_scope.

Lemma toInt_INR : forall jk n, toInt (ROps jk) (INR n) = Ok (Z.of_nat n).
Proof. intros. unfold toInt. cbn [ftoZ ROps]. rewrite INR_IZR_INZ, Rtrunc_IZR. reflexivity. Qed.
Lemma toIdx_INR : forall jk n, toIdx (ROps jk) (INR n) = Ok n.
Proof. intros. unfold toIdx. rewrite toInt_INR. cbn [bind]. replace (Z.of_nat n <? 0)%Z with false by (symmetry; apply Z.ltb_ge; lia). rewrite Nat2Z.id. reflexivity. Qed.

Lemma bwdGlobalMaxPool_R : forall jk nS nH nR nC (p : nat -> nat -> nat) G gin, mwf gin ->
  (forall s h, (s < nS)%nat -> (h < nH)%nat -> (p s h < nR * nC)%nat) ->
  bwdGlobalMaxPool (ROps jk) nR nC nH false (mgen nS nH (fun s h => INR (h * (nR * nC) + p s h))) (mgen nS nH G) gin =
  Ok (tens nS nH nR nC (fun s h r c => if (r * nC + c =? p s h)%nat then G s h else 0)).
Proof.
  intros jk nS nH nR nC p G gin Hgin Hp. unfold bwdGlobalMaxPool. change (mrows (mgen nS nH G)) with nS. rewrite msetZero_gen by auto. cbn [bind].
  replace (nH * nC * nR)%nat with (nH * nR * nC)%nat by ring. rewrite (mgen_flat _ nS (nH * nR * nC)).
  set (ad := fun s h => addr4 nH nR nC s h (p s h / nC) (p s h mod nC)).
  eapply eq_trans; [apply (kloop2 R nS (nH * nR * nC) nS nH _ (fun s h k v => if (ad s h =? k)%nat then G s h else v))|].
  - intros s h q Hs Hh. rewrite mget2_gen by auto. cbn [bind]. eapply eq_trans; [apply (f_equal (fun z => bind z _)); exact (toIdx_INR jk _)|]. cbn [bind].
    rewrite mget2_gen by auto. cbn [bind]. specialize (Hp s h Hs Hh).
    assert (E : (h * (nR * nC) + p s h)%nat = pix nR nC h (p s h / nC) (p s h mod nC)).
    { unfold pix. rewrite Nat.mul_add_distr_r, <- Nat.add_assoc, idx_eq by (intro; subst; lia). ring. }
    pose proof (@div_lt_r _ _ _ Hp). pose proof (@mod_lt_c _ _ _ Hp).
    rewrite E, mset2_flat by (auto; apply pix_lt; auto). apply Ok_eq, mflat_ext. intros k _. unfold fupd, ad. rewrite addr4_pix. reflexivity.
  - apply Ok_eq, flat_tens. intros s h r c Hs Hh Hr Hc.
    assert (HA : forall s' h', (s' < nS)%nat -> (h' < nH)%nat -> ad s' h' = addr4 nH nR nC s h r c -> s' = s /\ h' = h /\ (r * nC + c = p s h)%nat).
    { intros s' h' Hs' Hh' E. pose proof (Hp s' h' Hs' Hh') as L. apply addr4_inj in E; auto; [|apply (@div_lt_r _ _ _ L)|apply (@mod_lt_c _ _ _ L)].
      destruct E as (-> & -> & <- & <-). repeat split. apply idx_eq. lia. }
    destruct (Nat.eqb_spec (r * nC + c) (p s h)) as [E|E].
    + apply (seq_hits R (G s h) nS s); auto.
      * intros s' Hs'. apply seq_keeps. intros h' Hh'. apply if_keeps. intro K. apply Nat.eqb_eq in K. apply HA in K; auto. destruct K as (-> & -> & _). reflexivity.
      * apply (seq_hits R (G s h) nH h); auto.
        -- intros h' Hh'. apply if_keeps. intro K. apply Nat.eqb_eq in K. apply HA in K; auto. destruct K as (_ & -> & _). reflexivity.
        -- apply if_hits; auto. apply Nat.eqb_eq. unfold ad. rewrite <- E, idx_div, idx_mod by auto. reflexivity.
    + apply (@fold_left_id R nat). intros v s' Hs'. apply (@fold_left_id R nat). intros v' h' Hh'. apply in_seq in Hs', Hh'.
      destruct (Nat.eqb_spec (ad s' h') (addr4 nH nR nC s h r c)) as [K|K]; auto. exfalso. apply E. apply (HA s' h'); auto; lia.
Qed.

(** selection layers: output (i, j) is one cell of row i of the input *)
Lemma sel_adjoint : forall n m M (sel : nat -> nat -> nat) G B, (forall i j, (i < n)%nat -> (j < m)%nat -> (sel i j < M)%nat) ->
  dot n m G (fun i j => B i (sel i j)) = dot n M (fun i k => rsum m (fun j => if (sel i j =? k)%nat then G i j else 0)) B.
Proof.
  intros n m M sel G B H. unfold dot. apply rsum_ext. intros i Hi.
  transitivity (rsum M (fun k => rsum m (fun j => if (sel i j =? k)%nat then G i j * B i k else 0))).
  - rewrite rsum_swap. apply rsum_ext. intros j Hj. rewrite (rsum_single M (sel i j)); auto.
    + rewrite Nat.eqb_refl. reflexivity.
    + intros k Hk Hn. destruct (Nat.eqb_spec (sel i j) k); [congruence|reflexivity].
  - apply rsum_ext. intros k Hk. rewrite <- rsum_scal_r. apply rsum_ext. intros j Hj. destruct (sel i j =? k)%nat; ring.
Qed.
Lemma loc_all : forall (t : R) n (Q : nat -> R -> Prop), (forall i, (i < n)%nat -> locally t (Q i)) -> locally t (fun x => forall i, (i < n)%nat -> Q i x).
Proof.
  intros t n Q. induction n as [|n IH]; intro H.
  - apply filter_forall. intros x i Hi. lia.
  - specialize (IH (fun i Hi => H i (Nat.lt_lt_succ_r _ _ Hi))). assert (Hn := H n (Nat.lt_succ_diag_r n)).
    generalize (filter_and _ _ IH Hn). apply filter_imp. intros x [H1 H2] i Hi. destruct (Nat.eq_dec i n); subst; auto. apply H1. lia.
Qed.
Lemma loc_lt : forall (f g : R -> R) (t : R), continuous f t -> continuous g t -> f t < g t -> locally t (fun x => f x < g x).
Proof.
  intros f g t Hf Hg L. assert (E1 : 0 < g t - f t) by lra.
  assert (H : continuous (fun x => g x - f x) t). { apply @continuous_minus; auto. }
  generalize (H (fun y => 0 < y)). unfold filtermap. intro K.
  assert (L2 : locally (g t - f t) (fun y => 0 < y)).
  { exists (mkposreal _ E1). intros y Hy. unfold ball in Hy; simpl in Hy. unfold AbsRing_ball, abs, minus, plus, opp in Hy; simpl in Hy. apply Rabs_def2 in Hy. lra. }
  specialize (K L2). revert K. apply filter_imp. intros x Hx. lra.
Qed.
Lemma cell_cont : forall (P : nat -> nat -> R) a b i j, continuous (fun x : R => upd2 P a b x i j) (P a b).
Proof. intros. apply @ex_derive_continuous. exists (delta a b i j). apply d_cell. Qed.
Lemma cells_lt : forall (P : nat -> nat -> R) a b i j i' j', P i j < P i' j' -> locally (P a b : R) (fun x => upd2 P a b x i j < upd2 P a b x i' j').
Proof. intros. apply loc_lt; try apply cell_cont. rewrite !upd2_self. auto. Qed.
Lemma cells_gt : forall (P : nat -> nat -> R) a b i j (v : R), v < P i j -> locally (P a b : R) (fun x => v < upd2 P a b x i j).
Proof. intros. apply loc_lt; [apply continuous_const|apply cell_cont|]. rewrite upd2_self. auto. Qed.
(* a forward pass that selects the same cells for all inputs near P *)
Lemma sel_gradient : forall n m M (sel : nat -> nat -> nat) G (P : nat -> nat -> R) (fwd : (nat -> nat -> R) -> res (mat R)),
  (forall i j, (i < n)%nat -> (j < m)%nat -> (sel i j < M)%nat) ->
  (forall a b, (a < n)%nat -> (b < M)%nat -> locally (P a b) (fun x => fwd (upd2 P a b x) = Ok (mgen n m (fun i j => upd2 P a b x i (sel i j))))) ->
  gradOf n M 1 (fun Q => obj G (fwd Q)) P (fun i k => rsum m (fun j => if (sel i j =? k)%nat then G i j else 0)).
Proof.
  intros n m M sel G P fwd Hs HL a b Ha Hb. unfold isPartial.
  apply is_derive_ext_loc with (f := fun x => dot n m G (fun i j => upd2 P a b x i (sel i j))).
  - generalize (HL a b Ha Hb). apply filter_imp. intros x ->. unfold obj. rewrite dotM_gen. reflexivity.
  - rewrite Rmult_1_l. rewrite <- (dot_delta n M (fun i k => rsum m (fun j => if (sel i j =? k)%nat then G i j else 0)) a b) by auto.
    rewrite <- sel_adjoint by auto. apply (dot_curve n m G (fun x i j => upd2 P a b x i (sel i j))). intros i j Hi Hj. apply d_cell.
Qed.
(* gradOf only looks inside the matrix *)
Lemma gradOf_ext : forall r c s L P g g', (forall a b, (a < r)%nat -> (b < c)%nat -> g a b = g' a b) -> gradOf r c s L P g -> gradOf r c s L P g'.
Proof. intros r c s L P g g' E H a b Ha Hb. rewrite <- E by auto. apply H; auto. Qed.

Lemma firstMax_unique : forall f n p p', firstMax f n p -> firstMax f n p' -> p = p'.
Proof.
  intros f n p p' (H1 & H2 & H3) (H1' & H2' & H3'). destruct (lt_eq_lt_dec p p') as [[L|E]|L]; auto; exfalso.
  - specialize (H3' p L). specialize (H2 p' H1'). lra.
  - specialize (H3 p' L). specialize (H2' p H1). lra.
Qed.
(* p s h holds the only maximum of plane h of sample s, above -1e38 *)
Lemma globalmax_gradient : forall jk nS nH nR nC X G p mx out gin, mwf mx -> mwf out -> mwf gin -> (0 < nR)%nat -> (0 < nC)%nat ->
  (forall s h, (s < nS)%nat -> (h < nH)%nat -> (p s h < nR * nC)%nat /\ - 10 ^ 38 < X s (h * (nR * nC) + p s h)%nat /\
     forall q, (q < nR * nC)%nat -> q <> p s h -> X s (h * (nR * nC) + q)%nat < X s (h * (nR * nC) + p s h)%nat) ->
  exists gi mx', state_ (fwdGlobalMaxPool (ROps jk) nR nC nH true mx (mgen nS (nH * nR * nC) X) out) = Ok mx' /\
  bwdGlobalMaxPool (ROps jk) nR nC nH false mx' (mgen nS nH G) gin = Ok (mgen nS (nH * nR * nC) gi) /\
  gradOf nS (nH * nR * nC) 1 (fun X' => obj G (out_ (fwdGlobalMaxPool (ROps jk) nR nC nH true mx (mgen nS (nH * nR * nC) X') out))) X gi.
Proof.
  intros jk nS nH nR nC X G p mx out gin Hmx Hout Hgin HR HC Hp. set (N := (nR * nC)%nat) in *. assert (HN : (0 < N)%nat) by (unfold N; nia).
  assert (FW : forall Q, (forall s h, (s < nS)%nat -> (h < nH)%nat -> - 10 ^ 38 < Q s (h * N + p s h)%nat /\
     forall q, (q < N)%nat -> q <> p s h -> Q s (h * N + q)%nat < Q s (h * N + p s h)%nat) ->
     fwdGlobalMaxPool (ROps jk) nR nC nH true mx (mgen nS (nH * nR * nC) Q) out =
     Ok (mgen nS nH (fun s h => INR (h * N + p s h)), mgen nS nH (fun s h => Q s (h * N + p s h)%nat))).
  { intros Q HQ.
    assert (PX : forall s h q, (q < N)%nat -> img nR nC Q s h (q / nC)%nat (q mod nC)%nat = Q s (h * N + q)%nat).
    { intros s h q Hq. unfold img, pix. f_equal. rewrite Nat.mul_add_distr_r, <- Nat.add_assoc, idx_eq by lia. unfold N. ring. }
    destruct (globalmax_forward jk nS nH nR nC (img nR nC Q) mx out Hmx Hout HR HC) as (p' & H1 & H2 & _).
    - intros s h Hs Hh. destruct (HQ s h Hs Hh) as [H1 _]. destruct (Hp s h Hs Hh) as [H2 _]. exists (p s h / nC)%nat, (p s h mod nC)%nat.
      split; [apply (@div_lt_r _ _ _ H2)|]. split; [apply (@mod_lt_c _ _ _ H2)|]. rewrite PX by auto. auto.
    - assert (E : forall s h, (s < nS)%nat -> (h < nH)%nat -> p' s h = p s h).
      { intros s h Hs Hh. eapply firstMax_unique; [apply H1; auto|]. destruct (HQ s h Hs Hh) as [_ H3]. destruct (Hp s h Hs Hh) as [H4 _]. fold N.
        split; auto. split; intros q Hq.
        - rewrite !PX by auto. destruct (Nat.eq_dec q (p s h)); [subst; lra|]. apply Rlt_le, H3; auto.
        - rewrite !PX by lia. apply H3; lia. }
      rewrite tens_img, H2. apply Ok_eq. f_equal; apply mgen_ext; intros s h Hs Hh; rewrite E by auto; fold N; auto. apply PX. apply (Hp s h Hs Hh). }
  exists (unimg nR nC (fun s h r c => if (r * nC + c =? p s h)%nat then G s h else 0)), (mgen nS nH (fun s h => INR (h * N + p s h))). split; [|split].
  - rewrite FW; [reflexivity|]. intros s h Hs Hh. apply (Hp s h Hs Hh).
  - eapply eq_trans; [apply bwdGlobalMaxPool_R; auto; intros s h Hs Hh; apply (Hp s h Hs Hh)|]. rewrite <- tens_unimg. reflexivity.
  - eapply gradOf_ext; [|apply (sel_gradient nS nH (nH * nR * nC) (fun s h => h * N + p s h)%nat)].
    + intros s k Hs Hk. simpl. destruct (pix_inv nH nR nC k Hk) as (K1 & K2 & K3 & K4). set (h := (k / nC / nR)%nat) in *.
      unfold unimg. fold h. rewrite (rsum_single nH h); auto.
      * assert (E : (h * N + ((k / nC) mod nR * nC + k mod nC) = k)%nat) by (rewrite <- K4 at 3; unfold pix, N; ring).
        destruct (Nat.eqb_spec (h * N + p s h) k) as [E1|E1], (Nat.eqb_spec ((k / nC) mod nR * nC + k mod nC) (p s h)) as [E2|E2]; auto; lia.
      * intros h' Hh' Hn. destruct (Nat.eqb_spec (h' * N + p s h') k) as [E|]; auto. exfalso. apply Hn.
        destruct (Hp s h' Hs Hh') as [L _]. assert (E2 : (h * N + ((k / nC) mod nR * nC + k mod nC) = k)%nat) by (rewrite <- K4 at 3; unfold pix, N; ring).
        assert (L2 : ((k / nC) mod nR * nC + k mod nC < N)%nat) by (apply idx_lt; auto). rewrite <- E2 in E. apply idx_inj in E; auto. apply E.
    + intros s h Hs Hh. destruct (Hp s h Hs Hh) as [L _]. replace (nH * nR * nC)%nat with (nH * N)%nat by (unfold N; ring). apply idx_lt; auto.
    + intros a b Ha Hb.
      assert (LA : locally (X a b) (fun x => forall s, (s < nS)%nat -> forall h, (h < nH)%nat -> - 10 ^ 38 < upd2 X a b x s (h * N + p s h)%nat /\
         forall q, (q < N)%nat -> q <> p s h -> upd2 X a b x s (h * N + q)%nat < upd2 X a b x s (h * N + p s h)%nat)).
      { apply loc_all. intros s Hs. apply loc_all. intros h Hh. destruct (Hp s h Hs Hh) as (_ & H2 & H3). apply filter_and; [apply cells_gt; auto|].
        apply loc_all. intros q Hq. destruct (Nat.eq_dec q (p s h)) as [E|E]; [apply filter_forall; intros; contradiction|].
        specialize (H3 q Hq E). generalize (cells_lt X a b _ _ _ _ H3). apply filter_imp. auto. }
      revert LA. apply filter_imp. intros x HX. cbv beta. rewrite FW; [reflexivity|]. intros s h Hs Hh. apply (HX s Hs h Hh).
Qed.
