(* GradProofs3.v - the gradients of a training batch are the derivatives of the batch loss *)
From Coq Require Import List Arith Bool Lia Reals Lra ZArith QArith String.
From Coquelicot Require Import Coquelicot.
From Verif Require Import Base Scalar Mat SpecMat SpecReal RSum MatFacts MatProofs RDeriv Loss SpecLoss LossProofs LossProofs2 Act SpecAct LayMat LayImg SpecLayer LayGrad LayCurve Layer Net NetProofs1 NetTrain SpecGrad GradProofs1 GradProofs2.
Import ListNotations.
Local Open Scope R_scope.

(** the loss along a curve of predictions *)
Definition lossScale (k : lossKind) (n m : nat) : R := match k with LBinaryCrossEntropy => 1 | _ => gradScale k n m end.
Lemma lossScale_pos : forall k n m, (0 < n)%nat -> (0 < m)%nat -> 0 < lossScale k n m.
Proof. intros k n m Hn Hm. destruct k; try (apply gradScale_pos; assumption). simpl. lra. Qed.
Definition lossG (jk : R) (k : lossKind) (m : nat) (P T : nat -> nat -> R) : nat -> nat -> R :=
  match k with LBinaryCrossEntropy => fun i j => bceG (P i j) (T i j) | _ => regG jk k m P T end.

Lemma smooth_regression : forall k n m Z T, smoothLoss k n m Z T -> k <> LBinaryCrossEntropy -> isRegression k /\ (isAbs k -> forall i j, (i < n)%nat -> (j < m)%nat -> Z i j - T i j <> 0).
Proof. intros k n m Z T H N. destruct k; simpl in *; try tauto; split; auto; try tauto; intros _ i j Hi Hj E; apply (H i j Hi Hj); lra. Qed.
Lemma lossDec : forall k, k = LBinaryCrossEntropy \/ k <> LBinaryCrossEntropy.
Proof. destruct k; (left; reflexivity) || (right; discriminate). Qed.
Lemma lossG_reg : forall jk k m P T, k <> LBinaryCrossEntropy -> lossG jk k m P T = regG jk k m P T.
Proof. intros jk k m P T H. destruct k; try reflexivity. congruence. Qed.
Lemma lossScale_reg : forall k n m, k <> LBinaryCrossEntropy -> lossScale k n m = gradScale k n m.
Proof. intros k n m H. destruct k; try reflexivity. congruence. Qed.

Lemma smooth_gradient : forall jk k n m Z T gl, smoothLoss k n m Z T -> mwf gl ->
  compute_gradient (ROps jk) k (noBalance (ROps jk)) (mgen n m Z) (mgen n m T) gl = Ok (mgen n m (lossG jk k m Z T)).
Proof.
  intros jk k n m Z T gl H W. destruct (lossDec k) as [->|N].
  - apply bce_gradient_value. exact W.
  - rewrite lossG_reg by auto. apply reg_gradient_value. apply (smooth_regression k n m Z T); auto.
Qed.

Lemma smooth_curve : forall jk k n m T Y t dY, (0 < n)%nat -> (0 < m)%nat -> smoothLoss k n m (Y t) T -> dcurve n m Y t dY ->
  is_derive (fun x => totalLoss jk (absFloat (ROps jk)) k (mgen n m (Y x)) (mgen n m T) (mempty (ROps jk))) t (lossScale k n m * dot n m (lossG jk k m (Y t) T) dY).
Proof.
  intros jk k n m T Y t dY Hn Hm H D. destruct (lossDec k) as [->|N].
  - destruct H as [-> H]. eapply is_derive_ext; [intros x; symmetry; apply bce_total; reflexivity|].
    replace (lossScale _ n 1 * _) with (rsum n (fun i => dY i 0%nat * bceG (Y t i 0%nat) (T i 0%nat))).
    + apply (is_derive_rsum n (fun i x => binaryCE (Y x i 0%nat) (T i 0%nat))). intros i Hi.
      apply (is_derive_comp (fun p => binaryCE p (T i 0%nat)) (fun x => Y x i 0%nat)); [apply derive_bce; auto|apply D; auto].
    + simpl lossScale. rewrite Rmult_1_l. unfold dot. apply rsum_ext. intros. simpl. ring.
  - destruct (smooth_regression k n m _ T H N) as [Q A]. eapply is_derive_ext; [intros x; symmetry; rewrite reg_total by auto; apply rsum_lossColumn|].
    rewrite lossScale_reg, lossG_reg, dot_swap, <- rsum_scal by auto.
    apply (is_derive_rsum m (fun j x => rsum n (fun i => errTerm k (Y x i j - T i j) / (if isSum k then 1 else INR n)))). intros j Hj. rewrite <- rsum_scal.
    apply (is_derive_rsum n (fun i x => errTerm k (Y x i j - T i j) / (if isSum k then 1 else INR n))). intros i Hi.
    replace (gradScale k n m * (regG jk k m (Y t) T i j * dY i j)) with (dY i j * errDeriv k (Y t i j - T i j) * / (if isSum k then 1 else INR n)).
    + unfold Rdiv. apply (d_mul_const_r (/ (if isSum k then 1 else INR n))).
      apply (is_derive_comp (errTerm k) (fun x => Y x i j - T i j)); [apply derive_errTerm; auto|].
      eapply is_derive_eq; [apply (is_derive_minus (fun x => Y x i j) (fun _ => T i j)); [apply D; auto|apply is_derive_const]|]. unfold minus, plus, opp, zero; simpl. ring.
    + pose proof (regGrad_scale jk k n m (Y t i j - T i j) Q Hn Hm) as S. unfold regG. rewrite <- Rmult_assoc. unfold Rdiv in S. rewrite <- S. ring.
Qed.
Lemma smooth_ext : forall k n m Z Z' T, (forall i j, (i < n)%nat -> (j < m)%nat -> Z i j = Z' i j) -> smoothLoss k n m Z T -> smoothLoss k n m Z' T.
Proof.
  intros k n m Z Z' T E H. destruct k; simpl in *; auto; try (intros; rewrite <- E; auto).
  destruct H as [-> H]. split; auto. intros. rewrite <- E; auto.
Qed.

Section Batch.
Variable jk : R.
Notation F := (ROps jk).

Lemma runs_predict : forall rs nt n (h : heap F) k m X Z, nlay nt <> [] -> runs jk rs nt n 0 (nlay nt) h k m X Z ->
  exists h', predict F rs h nt (mgen n k X) (mempty F) = Ok (h', mgen n m Z).
Proof.
  intros rs nt n h k m X Z Ne HR. destruct (HR h (mempty F) eq_refl (fun _ _ => eq_refl)) as [h' E].
  exists h'. unfold predict, forN. unfold predBody in E. refine (eq_trans (bindE _ _ _ _ _ E) _). destruct (nlay nt); [congruence|reflexivity].
Qed.

Theorem backprop_gradients : forall kind n m, (0 < n)%nat -> (0 < m)%nat -> exists kappa, 0 < kappa /\
  forall rs (h : heap F) nt t ks k X T Z,
    nlay nt <> [] -> NoDup (nlay nt) -> stack jk rs 0 h (nlay nt) n ks X Z -> hd_error ks = Some k -> last ks 0%nat = m ->
    readyTrainer jk t nt kind -> smoothLoss kind n m Z T ->
    exists h' t', backprop F rs h nt t (mgen n k X) (mgen n m T) = Ok (h', t') /\
    forall p a l kp, nth_error (nlay nt) p = Some a -> hget F h a = Ok l -> nth_error ks p = Some kp ->
    exists l' rw cw W rb cb b, hget F h' a = Ok l' /\ lw l = mgen rw cw W /\ lb l = mgen rb cb b /\ lw l' = lw l /\ lb l' = lb l /\
      (forall s, weightScale jk l n kp = Some s -> exists gw, lgw l' = mgen rw cw gw /\
         gradOf rw cw (kappa * scaleProd jk h (skipn (S p) (nlay nt)) * s)
           (fun W' => batchLoss jk rs kind (withW jk h a (mgen rw cw W')) nt (mgen n k X) (mgen n m T)) W gw) /\
      (forall s, biasScale jk l n kp = Some s -> exists gb, lgb l' = mgen rb cb gb /\
         gradOf rb cb (kappa * scaleProd jk h (skipn (S p) (nlay nt)) * s)
           (fun b' => batchLoss jk rs kind (withB jk h a (mgen rb cb b')) nt (mgen n k X) (mgen n m T)) b gb).
Proof.
  intros kind n m Hn Hm. exists (lossScale kind n m). split; [apply lossScale_pos; auto|].
  intros rs h nt t ks k X T Z Ne Nd HS Hk Hl (R1 & R2 & R3 & R4 & R5 & R6 & R7) HL.
  destruct (chain jk rs nt n Hn (nlay nt) 0 h ks X Z k m (fun i Hi => eq_refl) Nd HS Hk Hl) as (fZ & post & ins & HZ & HR & HF & Hins & HB).
  set (L := List.length (nlay nt)) in *.
  set (v0 := upd (tinOut F t) 0 (mgen n k X : mat F)).
  assert (V0 : nth_error v0 0 = Some (mgen n k X : mat F)). { unfold v0. apply (nth_upd_eq (mat F)). rewrite R2. lia. }
  destruct (HF h v0 (fun _ _ => eq_refl) V0) as (hF & vF & E1 & F1 & F2 & F3 & F4 & F5 & F6).
  { unfold v0. rewrite length_upd, R2. simpl. lia. }
  { unfold v0. apply Forall_upd; auto. apply mwf_gen. }
  destruct (nth_ex (mat F) (tgrad F t) L) as [gl Egl]; [rewrite R3; lia|].
  pose proof (GradProofs2.Forall_nth _ _ _ _ _ R5 Egl) as Wgl.
  set (Zf := fZ X). assert (HL' : smoothLoss kind n m Zf T). { eapply smooth_ext; [|exact HL]. intros. symmetry. apply HZ; auto. }
  set (G := lossG jk kind m Zf T).
  set (gs0 := upd (tgrad F t) L (mgen n m G : mat F)).
  destruct (HB G hF vF gs0) as (hB & gsB & gi & E2 & B1 & B2 & B3 & B4 & B5 & B6).
  { exact F2. }
  { exact F6. }
  { unfold gs0. apply (nth_upd_eq (mat F)). rewrite R3. simpl. lia. }
  { unfold gs0. apply Forall_upd; auto. apply mwf_gen. }
  exists hB, (setGrad F (setInOut F t vF) gsB). split.
  { unfold backprop. rewrite rset_ok by (rewrite R2; lia). cbn [bind]. rewrite R1. fold L. unfold forN.
    refine (eq_trans (bindE _ _ _ _ _ E1) _). cbn [tnl setInOut tc tbal tgrad]. rewrite R1. fold L.
    rewrite (rget_ok _ vF L (mgen n m Zf)) by (refine (eq_trans (F6 L (le_n _)) _); apply f_equal; exact Hins). rewrite (rget_ok _ _ _ _ Egl), R6, R7. cbn [bind].
    refine (eq_trans (bindE _ _ _ _ _ (smooth_gradient jk kind n m Zf T gl HL' Wgl)) _).
    rewrite rset_ok by (rewrite R3; lia). cbn [bind]. fold G. fold gs0. refine (eq_trans (bindE _ _ _ _ _ E2) _). reflexivity. }
  intros p a l kp Hp Ha Hkp. destruct (B6 p a l kp Hp Ha Hkp) as (l2 & rw & cw & W & rb & cb & b & tw & tb & fP & Q1 & Q2 & Q3 & (Q4 & Q4') & Q5 & Q6 & Q7 & Q8 & Q9).
  exists l2, rw, cw, W, rb, cb, b. split; [exact Q1|]. split; [exact Q2|]. split; [exact Q3|]. split; [exact Q4|]. split; [exact Q4'|].
  pose proof (hget_lt F _ _ _ Ha) as La.
  assert (LW : forall W' b' h1, h1 = upd h a (Some (setWB l (mgen rw cw W') (mgen rb cb b'))) ->
    batchLoss jk rs kind h1 nt (mgen n k X) (mgen n m T) = totalLoss jk (absFloat F) kind (mgen n m (fP W' b')) (mgen n m T) (mempty F)).
  { intros W' b' h1 ->. destruct (runs_predict rs nt n (upd h a (Some (setWB l (mgen rw cw W') (mgen rb cb b')))) k m X (fP W' b') Ne) as [h2 E].
    - apply Q8. intros c Hc. rewrite (hget_upd F) by auto. reflexivity.
    - unfold batchLoss. rewrite E. reflexivity. }
  assert (GZ : forall i j, (i < n)%nat -> (j < m)%nat -> fP W b i j = Zf i j). { intros i j Hi Hj. rewrite Q7 by auto. symmetry. apply HZ; auto. }
  assert (EG : forall i j, (i < n)%nat -> (j < m)%nat -> lossG jk kind m (fP W b) T i j = G i j).
  { intros i j Hi Hj. unfold G, lossG, regG. destruct kind; rewrite GZ; auto. }
  assert (Curve : forall Wc bc u dW db, Wc u = W -> bc u = b -> dcurve rw cw Wc u dW -> dcurve rb cb bc u db ->
    is_derive (fun x => totalLoss jk (absFloat F) kind (mgen n m (fP (Wc x) (bc x))) (mgen n m T) (mempty F)) u
      (lossScale kind n m * (scaleProd jk h (skipn (S p) (nlay nt)) * (dot rw cw tw dW + dot rb cb tb db)))).
  { intros Wc bc u dW db U1 U2 D1 D2. destruct (Q9 Wc bc u dW db U1 U2 D1 D2) as (dZ & DZ & QZ).
    eapply is_derive_eq; [apply (smooth_curve jk kind n m T (fun x => fP (Wc x) (bc x)) u dZ Hn Hm)|].
    - rewrite U1, U2. eapply smooth_ext; [|exact HL']. intros. symmetry. apply GZ; auto.
    - exact DZ.
    - cbv beta. rewrite U1, U2. rewrite <- QZ. f_equal. apply dot_ext. intros. rewrite EG by auto. reflexivity. }
  split.
  - intros s Hs. destruct (Q5 s Hs) as (gw & Eg & Sg). exists gw. split; [exact Eg|]. intros i j Hi Hj. unfold isPartial.
    eapply is_derive_ext; [intros x; symmetry; apply (LW (upd2 W i j x) b); unfold withW; rewrite Ha; unfold setW, setWB; rewrite Q3; reflexivity|].
    eapply is_derive_eq; [apply (Curve (fun x => upd2 W i j x) (fun _ => b) (W i j) (delta i j) (fun _ _ => 0)); [apply upd2_same|reflexivity|apply dcurve_cell|apply dcurve_const]|].
    rewrite dot_zero, dot_delta by auto. rewrite Sg by auto. ring.
  - intros s Hs. destruct (Q6 s Hs) as (gb & Eg & Sg). exists gb. split; [exact Eg|]. intros i j Hi Hj. unfold isPartial.
    eapply is_derive_ext; [intros x; symmetry; apply (LW W (upd2 b i j x)); unfold withB; rewrite Ha; unfold setB, setWB; rewrite Q2; reflexivity|].
    eapply is_derive_eq; [apply (Curve (fun _ => W) (fun x => upd2 b i j x) (b i j) (fun _ _ => 0) (delta i j)); [reflexivity|apply upd2_same|apply dcurve_const|apply dcurve_cell]|].
    rewrite dot_zero, dot_delta by auto. rewrite Sg by auto. ring.
Qed.
End Batch.
