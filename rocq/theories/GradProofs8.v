(* GradProofs8.v - one training batch with a small learning rate lowers the loss *)
From Coq Require Import String List Arith Bool Lia Reals Lra ZArith QArith Psatz FunctionalExtensionality.
From Coquelicot Require Import Coquelicot.
From Verif Require Import Base Scalar Mat SpecMat SpecReal RSum MatFacts MatLoops MatProofs MatProps RDeriv Loss SpecLoss LossProofs LossProofs2 Optim SpecOpt OptProofs OptProofs2 OptProofs3 Regul Act SpecAct LayMat LayImg SpecLayer LayGrad LayCurve LayProofs1 LayProofs2 LayProofs3 Layer Net NetProofs1 NetTrain TrainProofs1 SpecGrad SpecDescent GradProofs1 GradProofs2 GradProofs3 GradProofs4 GradProofs5 GradProofs6 GradProofs7.
Import ListNotations.
Local Open Scope R_scope.

(** sums and slopes *)
Lemma lsum_nonpos : forall f ls, (forall a, In a ls -> f a <= 0) -> lsum f ls <= 0.
Proof. intros f. induction ls as [|a r IH]; intros H; simpl; [lra|]. pose proof (H a (or_introl eq_refl)). pose proof (IH (fun b Hb => H b (or_intror Hb))). lra. Qed.
Lemma lsum_neg : forall f ls, (forall a, In a ls -> f a <= 0) -> (exists a, In a ls /\ f a < 0) -> lsum f ls < 0.
Proof.
  intros f. induction ls as [|a r IH]; intros H [b [Hb Hf]]; simpl; [destruct Hb|]. destruct Hb as [->|Hb].
  - pose proof (lsum_nonpos f r (fun c Hc => H c (or_intror Hc))). lra.
  - pose proof (H a (or_introl eq_refl)). assert (lsum f r < 0) by (apply IH; [intros; apply H; simpl; auto|eauto]). lra.
Qed.
Lemma rsum_nonneg0 : forall n f, (forall i, (i < n)%nat -> 0 <= f i) -> 0 <= rsum n f.
Proof. induction n; intros f H; simpl; [lra|]. pose proof (H n ltac:(lia)). pose proof (IHn f (fun i Hi => H i ltac:(lia))). lra. Qed.
Lemma rsum_pos1 : forall n f i, (forall i, (i < n)%nat -> 0 <= f i) -> (i < n)%nat -> 0 < f i -> 0 < rsum n f.
Proof.
  induction n; intros f i H Hi Hp; simpl; [lia|]. pose proof (H n ltac:(lia)). destruct (Nat.eq_dec i n) as [->|Ne].
  - pose proof (rsum_nonneg0 n f (fun i Hi => H i ltac:(lia))). lra.
  - pose proof (IHn f i (fun i Hi => H i ltac:(lia)) ltac:(lia) Hp). lra.
Qed.
Lemma dot_nonneg : forall r c A B, (forall i j, (i < r)%nat -> (j < c)%nat -> 0 <= A i j * B i j) -> 0 <= dot r c A B.
Proof. intros r c A B H. unfold dot. apply rsum_nonneg0. intros i Hi. apply rsum_nonneg0. intros j Hj. apply H; auto. Qed.
Lemma dot_pos1 : forall r c A B i j, (forall i j, (i < r)%nat -> (j < c)%nat -> 0 <= A i j * B i j) -> (i < r)%nat -> (j < c)%nat -> 0 < A i j * B i j -> 0 < dot r c A B.
Proof.
  intros r c A B i j H Hi Hj Hp. unfold dot. apply (rsum_pos1 r _ i); auto.
  - intros i0 Hi0. apply rsum_nonneg0. intros j0 Hj0. apply H; auto.
  - apply (rsum_pos1 c _ j); auto.
Qed.
Lemma slope_down : forall f l, is_derive f 0 l -> l < 0 -> exists d, 0 < d /\ forall x, 0 < x < d -> f x < f 0.
Proof.
  intros f l D Hl. apply is_derive_Reals in D. destruct (D (- l) ltac:(lra)) as [d Hd]. exists d. split; [apply cond_pos|]. intros x Hx.
  specialize (Hd x ltac:(lra) ltac:(rewrite Rabs_pos_eq; lra)). rewrite Rplus_0_l in Hd. apply Rabs_def2 in Hd. destruct Hd as [Hd _].
  assert (Q : (f x - f 0) / x < 0) by lra. apply (Rmult_lt_compat_r x) in Q; [|lra]. unfold Rdiv in Q. rewrite Rmult_assoc, Rinv_l, Rmult_0_l in Q by lra. lra.
Qed.

(** the optimisers succeed as soon as they do on the original parameters *)
Section Success.
Variable F : FOps.
Variable cabs : F -> res F.
Variable o0 : opt F.
Variables pw pb : list nat.
Hypothesis Npw : NoDup pw.
Hypothesis Npb : NoDup pb.
Lemma optStep_ok : forall t q w g, cReg F (tc F t) = None -> nth_error (topts F t) q = Some o0 -> (exists o' w', optimize F cabs o0 w g = Ok (o', w')) -> exists os w', optStep F cabs t q w g = Ok (os, w', g).
Proof.
  intros t q w g R E (o' & w' & H). unfold optStep. rewrite R. cbn [bind]. rewrite (rget_ok _ _ _ _ E). cbn [bind]. rewrite H. cbn [bind]. rewrite rset_ok by (eapply nth_lt; eauto). cbn [bind]. eauto.
Qed.
Definition okAt (h : heap F) (sw sb : list nat) : Prop :=
  (forall a, In a sw -> exists l o' w', hget F h a = Ok l /\ optimize F cabs o0 (lw l) (lgw l) = Ok (o', w')) /\
  (forall a, In a sb -> exists l o' w', hget F h a = Ok l /\ optimize F cabs o0 (lb l) (lgb l) = Ok (o', w')).
Lemma skipn_nth : forall (ps : list nat) i a, nth_error ps i = Some a -> skipn i ps = a :: skipn (S i) ps.
Proof. induction ps as [|x r IH]; intros [|i] a H; simpl in *; try discriminate; [inversion H; reflexivity|]. apply IH. exact H. Qed.
Lemma notin_skipn : forall (ps : list nat) i a, NoDup ps -> nth_error ps i = Some a -> ~ In a (skipn (S i) ps).
Proof. intros ps i a N H I. rewrite <- (firstn_skipn i ps), (skipn_nth _ _ _ H) in N. apply NoDup_remove_2 in N. apply N. apply in_or_app. auto. Qed.

Lemma optimizeAll_ok : forall (h : heap F) t, tpw F t = pw -> tpb F t = pb -> cReg F (tc F t) = None -> topts F t = repeat o0 (List.length pw + List.length pb) -> okAt h pw pb ->
  exists h' t', optimizeAll F cabs h t = Ok (h', t') /\ tinOut F t' = tinOut F t /\ tnl F t' = tnl F t /\ tc F t' = tc F t /\ tbal F t' = tbal F t.
Proof.
  intros h t P1 P2 P3 P4 P5. unfold optimizeAll.
  set (same := fun t1 => tpw F t1 = pw /\ tpb F t1 = pb /\ tinOut F t1 = tinOut F t /\ tnl F t1 = tnl F t /\ tc F t1 = tc F t /\ tbal F t1 = tbal F t).
  set (opts := fun i t1 => forall q, (i <= q < List.length pw + List.length pb)%nat -> nth_error (topts F t1) q = Some o0).
  destruct (@forN_inv _ (fun i p => same (snd p) /\ opts i (snd p) /\ okAt (fst p) (skipn i pw) pb) (List.length pw) (optWeight F cabs) (h, t)) as ([h1 t1] & E1 & S1 & O1 & K1).
  { cbn [fst snd skipn]. split; [unfold same; auto 10|]. split; [|exact P5]. intros q Hq. rewrite P4. apply nth_error_repeat. lia. }
  { intros i [ha ta] Hi (S1 & O1 & K1 & K2). cbn [fst snd] in *. destruct S1 as (Q1 & Q2 & Q3 & Q4 & Q5 & Q6).
    destruct (nth_ex _ pw i Hi) as [a Ea]. destruct (K1 a) as (l & o' & w' & La & Eo). { rewrite (skipn_nth _ _ _ Ea). simpl. auto. }
    destruct (optStep_ok ta i (lw l) (lgw l)) as (os & w2 & Es); [congruence|apply O1; lia|eauto|].
    pose proof (hget_lt F _ _ _ La) as Lt.
    eexists. unfold optWeight. rewrite Q1, (rget_ok _ _ _ _ Ea). cbn [bind]. rewrite La. cbn [bind]. rewrite Es. cbn [bind]. rewrite (hset_ok F _ _ _ _ La). cbn [bind]. split; [reflexivity|].
    cbn [fst snd]. split; [unfold same; cbn [tpw tpb tinOut tnl tc tbal setOpts]; auto 10|].
    destruct (optStep_moves F cabs o0 ta i (lw l) (lgw l) os w2 (lgw l)) as (_ & _ & M); [congruence|apply O1; lia|exact Es|].
    split; [intros q Hq; cbn [topts setOpts]; rewrite M by lia; apply O1; lia|]. split.
    - intros c Hc. assert (c <> a) by (intros ->; apply (notin_skipn _ _ _ Npw Ea); auto). destruct (K1 c) as (lc & oc & wc & Lc & Ec). { rewrite (skipn_nth _ _ _ Ea). simpl. auto. }
      exists lc, oc, wc. split; [|exact Ec]. rewrite (hget_upd F) by auto. destruct (Nat.eqb_spec a c); congruence.
    - intros c Hc. destruct (K2 c Hc) as (lc & oc & wc & Lc & Ec). rewrite (hget_upd F) by auto. destruct (Nat.eqb_spec a c) as [->|Ne]; [|eauto].
      rewrite La in Lc. inversion Lc; subst lc. eexists. exists oc, wc. split; [reflexivity|]. exact Ec. }
  rewrite P1, E1. cbn [bind]. cbn [fst snd] in *. destruct K1 as [_ K2].
  destruct (@forN_inv _ (fun i p => same (snd p) /\ opts (List.length pw + i)%nat (snd p) /\ okAt (fst p) [] (skipn i pb)) (List.length pb) (optBias F cabs) (h1, t1)) as ([h2 t2] & E2 & S2 & O2 & _).
  { cbn [fst snd skipn]. rewrite Nat.add_0_r. split; [exact S1|]. split; [exact O1|]. split; [intros ? []|exact K2]. }
  { intros i [ha ta] Hi (S2 & O2 & _ & K1). cbn [fst snd] in *. destruct S2 as (Q1 & Q2 & Q3 & Q4 & Q5 & Q6).
    destruct (nth_ex _ pb i Hi) as [a Ea]. destruct (K1 a) as (l & o' & w' & La & Eo). { rewrite (skipn_nth _ _ _ Ea). simpl. auto. }
    destruct (optStep_ok ta (i + List.length pw)%nat (lb l) (lgb l)) as (os & w2 & Es); [congruence|apply O2; lia|eauto|].
    pose proof (hget_lt F _ _ _ La) as Lt.
    eexists. unfold optBias. rewrite Q2, Q1, (rget_ok _ _ _ _ Ea). cbn [bind]. rewrite La. cbn [bind]. rewrite Es. cbn [bind]. rewrite (hset_ok F _ _ _ _ La). cbn [bind]. split; [reflexivity|].
    cbn [fst snd]. split; [unfold same; cbn [tpw tpb tinOut tnl tc tbal setOpts]; auto 10|].
    destruct (optStep_moves F cabs o0 ta (i + List.length pw)%nat (lb l) (lgb l) os w2 (lgb l)) as (_ & _ & M); [congruence|apply O2; lia|exact Es|].
    split; [intros q Hq; cbn [topts setOpts]; rewrite M by lia; apply O2; lia|]. split; [intros ? []|].
    intros c Hc. assert (c <> a) by (intros ->; apply (notin_skipn _ _ _ Npb Ea); auto). destruct (K1 c) as (lc & oc & wc & Lc & Ec). { rewrite (skipn_nth _ _ _ Ea). simpl. auto. }
    exists lc, oc, wc. split; [|exact Ec]. rewrite (hget_upd F) by auto. destruct (Nat.eqb_spec a c); congruence. }
  rewrite P2. exists h2, t2. split; [exact E2|]. cbn [snd] in S2. destruct S2 as (_ & _ & Q3 & Q4 & Q5 & Q6). auto.
Qed.

Lemma countGood_ok : forall n m q (o y : nat -> nat -> F) g, (0 < m)%nat -> (q = m \/ q = 1%nat) -> exists g', countGood F n (mgen n m o) (mgen n q y) g = Ok g'.
Proof.
  intros n m q o y g Hm Hq. unfold countGood. destruct (@forN_inv _ (fun _ _ => True) n (fun i g => b <- goodRow F (mgen n m o) (mgen n q y) i ;; Ok (g + (if b : bool then 1 else 0))%nat) g) as (g' & E & _); [auto| |eauto].
  intros i s Hi _. assert (exists b, goodRow F (mgen n m o) (mgen n q y) i = Ok b) as [b Eb]; [|rewrite Eb; cbn [bind]; eauto].
  unfold goodRow. change (mcols (mgen n q y)) with q. change (mcols (mgen n m o)) with m. destruct (Nat.eqb_spec q 1) as [->|N]; cbn [negb].
  - assert (Y1 : mget1 (mgen n 1 y) i = Ok (y i 0%nat)). { rewrite mgen_flat, mget1_flat by lia. rewrite Nat.div_1_r, Nat.mod_1_r. reflexivity. }
    destruct (Nat.eqb_spec m 1) as [->|N1]; cbn [negb].
    + rewrite Y1. assert (O1 : mget1 (mgen n 1 o) i = Ok (o i 0%nat)). { rewrite mgen_flat, mget1_flat by lia. rewrite Nat.div_1_r, Nat.mod_1_r. reflexivity. } rewrite O1. cbn [bind]. eauto.
    + rewrite mrow_gen by auto. cbn [bind]. rewrite argmax_gen by auto. cbn [bind]. rewrite Y1. cbn [bind]. eauto.
  - destruct Hq as [->|]; [|congruence]. rewrite !mrow_gen by auto. cbn [bind]. rewrite !argmax_gen by auto. cbn [bind]. eauto.
Qed.
End Success.

Lemma dot_opp1 : forall r c A B, dot r c (fun i j => -1 * A i j) B = - dot r c A B.
Proof.
  intros. replace (- dot r c A B) with (-1 * dot r c A B) by ring. unfold dot. rewrite <- rsum_scal. apply rsum_ext. intros i Hi. rewrite <- rsum_scal. apply rsum_ext. intros. ring.
Qed.
Lemma dot_nonpos : forall r c A B, (forall i j, (i < r)%nat -> (j < c)%nat -> A i j * B i j <= 0) -> dot r c A B <= 0.
Proof.
  intros r c A B H. assert (Q : 0 <= dot r c (fun i j => -1 * A i j) B) by (apply dot_nonneg; intros i j Hi Hj; specialize (H i j Hi Hj); lra).
  rewrite dot_opp1 in Q. lra.
Qed.
Lemma dot_neg1 : forall r c A B i j, (forall i j, (i < r)%nat -> (j < c)%nat -> A i j * B i j <= 0) -> (i < r)%nat -> (j < c)%nat -> A i j * B i j < 0 -> dot r c A B < 0.
Proof.
  intros r c A B i j H Hi Hj Hp. assert (Q : 0 < dot r c (fun i j => -1 * A i j) B) by (apply (dot_pos1 _ _ _ _ i j); auto; [intros i0 j0 Hi0 Hj0; specialize (H i0 j0 Hi0 Hj0); lra|lra]).
  rewrite dot_opp1 in Q. lra.
Qed.

Section Descent.
Variable jk : R.
Notation F := (ROps jk).

Lemma scales_pos : forall (l : layer F) n k m X, (0 < n)%nat -> differentiable jk l n k m X ->
  (forall s, weightScale jk l n k = Some s -> 0 < s) /\ (forall s, biasScale jk l n k = Some s -> 0 < s) /\ 0 < inputScale jk l.
Proof.
  intros l n k m X Hn (_ & _ & _ & D). apply lt_INR in Hn. simpl in Hn. unfold weightScale, biasScale, inputScale.
  assert (Q : forall a b, (0 < a)%nat -> a = (a / b * b)%nat -> 0 < INR (a / b)). { intros a b H E. apply (lt_INR 0). destruct (a / b)%nat; [lia|lia]. }
  assert (Q2 : forall a, (0 < a)%nat -> 0 < INR a) by (intros a H; apply (lt_INR 0); auto).
  destruct (lk l) eqn:E; try contradiction; (split; [|split]); intros; try discriminate; try lra;
  try match goal with H : Some _ = Some _ |- _ => inversion H; subst; clear H end; try lra; auto;
  try (destruct D as (-> & D2 & D3); apply Rmult_lt_0_compat; auto; fail).
  all: try (apply Rmult_lt_0_compat; [assumption|]; first [apply Q2; tauto|apply Q; tauto]; fail).
  all: try (apply Rdiv_lt_0_compat; [assumption|]; apply Rmult_lt_0_compat; apply Q2; tauto).
  apply Q2. destruct D as (_ & _ & _ & D1 & D2 & D3 & _). apply Nat.mul_pos_pos; [apply Nat.mul_pos_pos; auto|auto].
Qed.
Lemma scaleProd_pos : forall (h : heap F) ls, (forall a l, In a ls -> hget F h a = Ok l -> 0 < inputScale jk l) -> 0 < scaleProd jk h ls.
Proof.
  intros h. induction ls as [|a r IH]; intros H; simpl; [lra|]. apply Rmult_lt_0_compat; [|apply IH; intros; apply (H a0); simpl; auto].
  destruct (hget F h a) as [l|e] eqn:E; [apply (H a); simpl; auto|lra].
Qed.
Lemma stack_at : forall rs n ls off (h : heap F) ks X Z p a, stack jk rs off h ls n ks X Z -> nth_error ls p = Some a ->
  exists l kp mp X', hget F h a = Ok l /\ nth_error ks p = Some kp /\ differentiable jk l n kp mp X'.
Proof.
  intros rs n. induction ls as [|b r IH]; intros off h ks X Z p a HS Hp; [destruct p; discriminate|].
  simpl in HS. destruct ks as [|k [|q ks]]; try contradiction. destruct HS as (l & l' & Y & Hl & HD & _ & _ & HS). destruct p as [|p]; simpl in Hp.
  - inversion Hp; subst b. exists l, k, q, X. auto.
  - destruct (IH _ _ _ _ _ _ _ HS Hp) as (l1 & kp & mp & X' & H1 & H2 & H3). exists l1, kp, mp, X'. auto.
Qed.

Definition cellOf (m : mat R) (i j : nat) : R := nth (i * mcols m + j) (mdata m) 0.
Lemma cellOf_gen : forall r c f i j, (i < r)%nat -> (j < c)%nat -> cellOf (mgen r c f) i j = f i j.
Proof.
  intros r c f i j Hi Hj. unfold cellOf. change (mcols (mgen r c f)) with c. pose proof (rget_gen R r c f i j Hi Hj) as E. apply rget_nth in E. apply nth_error_nth. exact E.
Qed.
Lemma cell_in : forall r c (f : nat -> nat -> R) x, In x (mdata (mgen r c f)) -> exists i j, (i < r)%nat /\ (j < c)%nat /\ f i j = x.
Proof.
  intros r c f x H. unfold mgen in H. cbn [mdata] in H. apply in_flat_map in H. destruct H as (i & Hi & H). apply in_map_iff in H. destruct H as (j & E & Hj). apply in_seq in Hi. apply in_seq in Hj. exists i, j. repeat split; [lia|lia|exact E].
Qed.

Lemma onlineStats_ok : forall kind nt (t : trainer F) n m (Z T : nat -> nat -> R), (0 < m)%nat -> cLoss F (tc F t) = kind -> tbal F t = noBalance F -> smoothLoss kind n m Z T ->
  exists t', onlineStats F (absFloat F) nt t (mgen n m Z) (mgen n m T) = Ok t'.
Proof.
  intros kind nt t n m Z T Hm Hk Hb HL. unfold onlineStats. rewrite Hk, Hb.
  assert (exists r c g, compute F (absFloat F) kind (noBalance F) (mgen n m Z) (mgen n m T) (mempty F) = Ok (mgen r c g)) as (r & c & g & E).
  { destruct (lossDec kind) as [->|N].
    - destruct HL as [-> _]. do 3 eexists. refine (bce_compute jk _ _ _ _ _ _). reflexivity.
    - destruct (smooth_regression kind n m Z T HL N) as [Q _]. do 3 eexists. apply (reg_compute jk kind n m Z T _ Q). }
  rewrite E. cbn [bind]. rewrite mgen_flat, mmean_flat. cbn [bind]. destruct (nclass nt); cbn [negb]; [|eauto].
  change (mcols (mgen n m Z)) with m. change (mcols (mgen n m T)) with m. change (mrows (mgen n m Z)) with n. rewrite Nat.eqb_refl.
  destruct (countGood_ok F n m m Z T (tgood F t) Hm (or_introl eq_refl)) as [g' Eg].
  destruct (m =? 1)%nat; cbn [assert_ bind]; eexists; refine (eq_trans (bindE _ _ _ _ _ Eg) _); reflexivity.
Qed.

(* some stored gradient of a registered parameter is not zero *)
Definition pushes (h : heap F) (pw pb : list nat) : Prop :=
  exists a l x, hget F h a = Ok l /\ x <> 0 /\ (In a pw /\ In x (mdata (lgw l)) \/ In a pb /\ In x (mdata (lgb l))).
Definition inb (a : nat) (ps : list nat) : bool := if in_dec Nat.eq_dec a ps then true else false.
Definition dirOf (k : optKind) (dec mom : R) (ps : list nat) (g : nat -> nat -> nat -> R) (a i j : nat) : R :=
  if inb a ps then - phi jk k dec mom (g a i j) else 0.
Definition along (P d : nat -> nat -> nat -> R) (x : R) (a i j : nat) : R := P a i j + x * d a i j.
Lemma along_0 : forall P d a, along P d 0 a = P a.
Proof. intros. unfold along. apply functional_extensionality. intros i. apply functional_extensionality. intros j. ring. Qed.
Lemma along_curve : forall r c P d a x, dcurve r c (fun x => along P d x a) x (d a).
Proof. intros r c P d a x i j _ _. unfold along. auto_derive; [auto|]. ring. Qed.
Lemma move_along : forall k dec mom lr r c ps a (o' : opt F) (w w' : mat F) (P g : nat -> nat -> nat -> R) (gw : nat -> nat -> R), descends k dec mom -> 0 < lr ->
  w = mgen r c (P a) -> (forall i j, (i < r)%nat -> (j < c)%nat -> g a i j = gw i j) -> In a ps ->
  optimize F (absFloat F) (set_params F (newOpt F k) lr dec mom) w (mgen r c gw) = Ok (o', w') -> w' = mgen r c (along P (dirOf k dec mom ps g) lr a).
Proof.
  intros k dec mom lr r c ps a o' w w' P g gw Hd Hl -> Hg Ha E. destruct (first_move jk k dec mom lr r c (P a) gw Hd Hl) as [o2 E2].
  rewrite E2 in E. injection E as _ Ew. rewrite <- Ew. apply mgen_ext. intros i j Hi Hj. unfold along, dirOf, inb. destruct (in_dec _ _ _); [|contradiction]. rewrite Hg by auto. match goal with |- @eq _ ?a ?b => change (@eq R a b) end. ring.
Qed.
Lemma stay_along : forall k dec mom lr r c ps a (P g : nat -> nat -> nat -> R), ~ In a ps -> (mgen r c (P a) : mat R) = mgen r c (along P (dirOf k dec mom ps g) lr a).
Proof. intros. apply mgen_ext. intros i j _ _. unfold along, dirOf, inb. destruct (in_dec _ _ _); [contradiction|]. ring. Qed.

Theorem batch_descends : forall kind n m k dec mom, (0 < n)%nat -> (0 < m)%nat -> descends k dec mom ->
  forall rs (h : heap F) nt t ks kc X T Z h1 t1,
    nlay nt <> [] -> NoDup (nlay nt) -> stack jk rs 0 h (nlay nt) n ks X Z -> hd_error ks = Some kc -> last ks 0%nat = m ->
    readyTrainer jk t nt kind -> smoothLoss kind n m Z T -> cReg F (tc F t) = None ->
    NoDup (tpw F t) -> NoDup (tpb F t) ->
    (forall a, In a (tpw F t) -> exists p l kp, nth_error (nlay nt) p = Some a /\ hget F h a = Ok l /\ nth_error ks p = Some kp /\ weightScale jk l n kp <> None) ->
    (forall a, In a (tpb F t) -> exists p l kp, nth_error (nlay nt) p = Some a /\ hget F h a = Ok l /\ nth_error ks p = Some kp /\ biasScale jk l n kp <> None) ->
    backprop F rs h nt t (mgen n kc X) (mgen n m T) = Ok (h1, t1) -> pushes h1 (tpw F t) (tpb F t) ->
    exists lr0, 0 < lr0 /\ forall lr, 0 < lr < lr0 -> exists h' t',
      trainBatch F (absFloat F) rs h nt (setOpts F t (repeat (set_params F (newOpt F k) lr dec mom) (List.length (tpw F t) + List.length (tpb F t)))) (mgen n kc X) (mgen n m T) = Ok (h', t') /\
      batchLoss jk rs kind h' nt (mgen n kc X) (mgen n m T) < batchLoss jk rs kind h nt (mgen n kc X) (mgen n m T).
Proof.
  intros kind n m ok dec mom Hn Hm Hd rs h nt t ks k X T Z h1 t1 Ne Nd HS Hk Hl (R1 & R2 & R3 & R4 & R5 & R6 & R7) HL Hreg Npw Npb Apw Apb HBP Push.
  set (pw := tpw F t) in *. set (pb := tpb F t) in *.
  destruct (chainAll jk rs nt n Hn (nlay nt) 0 h ks X Z k m (fun i Hi => eq_refl) Nd HS Hk Hl) as (rw & cw & rb & cb & W0 & b0 & fZ & post & ins & HP & HX & HZ & HR & HF & Hins & HB).
  set (L := List.length (nlay nt)) in *.
  set (v0 := upd (tinOut F t) 0 (mgen n k X : mat F)).
  assert (V0 : nth_error v0 0 = Some (mgen n k X : mat F)). { unfold v0. apply (nth_upd_eq (mat F)). rewrite R2. lia. }
  destruct (HF h v0 (fun _ _ => eq_refl) V0) as (hF & vF & E1 & F1 & F2 & F3 & F4 & F5 & F6).
  { unfold v0. rewrite length_upd, R2. simpl. lia. }
  { unfold v0. apply Forall_upd; auto. apply mwf_gen. }
  destruct (nth_ex (mat F) (tgrad F t) L) as [gl Egl]; [rewrite R3; lia|].
  pose proof (GradProofs2.Forall_nth _ _ _ _ _ R5 Egl) as Wgl.
  set (Zf := fZ W0 b0 X). assert (HL' : smoothLoss kind n m Zf T). { eapply smooth_ext; [|exact HL]. intros. symmetry. apply HZ; auto. }
  set (G := lossG jk kind m Zf T).
  set (gs0 := upd (tgrad F t) L (mgen n m G : mat F)).
  destruct (HB G hF vF gs0) as (hB & gsB & gi & tw & tb & E2 & B1 & B2 & B3 & B4 & B5 & B6).
  { exact F2. }
  { exact F6. }
  { unfold gs0. apply (nth_upd_eq (mat F)). rewrite R3. simpl. lia. }
  { unfold gs0. apply Forall_upd; auto. apply mwf_gen. }
  assert (BP : forall os, backprop F rs h nt (setOpts F t os) (mgen n k X) (mgen n m T) = Ok (hB, setGrad F (setInOut F (setOpts F t os) vF) gsB)).
  { intros os. unfold backprop. cbn [tinOut tnl tgrad tc tbal setOpts]. rewrite rset_ok by (rewrite R2; lia). cbn [bind]. rewrite R1. fold L. unfold forN.
    refine (eq_trans (bindE _ _ _ _ _ E1) _). cbn [tnl setInOut tc tbal tgrad setOpts]. rewrite R1. fold L.
    rewrite (rget_ok _ vF L (mgen n m Zf)) by (refine (eq_trans (F6 L (le_n _)) _); apply f_equal; exact Hins). rewrite (rget_ok _ _ _ _ Egl), R6, R7. cbn [bind].
    refine (eq_trans (bindE _ _ _ _ _ (smooth_gradient jk kind n m Zf T gl HL' Wgl)) _).
    rewrite rset_ok by (rewrite R3; lia). cbn [bind]. fold G. fold gs0. refine (eq_trans (bindE _ _ _ _ _ E2) _). reflexivity. }
  assert (h1 = hB). { pose proof (BP (topts F t)) as Q. replace (setOpts F t (topts F t)) with t in Q by (destruct t; reflexivity). rewrite Q in HBP. injection HBP as Eh _. auto. } subst h1. clear HBP t1.
  (* every layer *)
  assert (AT : forall a, In a (nlay nt) -> exists p l kp, nth_error (nlay nt) p = Some a /\ hget F h a = Ok l /\ nth_error ks p = Some kp /\
     (forall s, weightScale jk l n kp = Some s -> 0 < s) /\ (forall s, biasScale jk l n kp = Some s -> 0 < s) /\ 0 < inputScale jk l).
  { intros a Ha. apply In_nth_error in Ha. destruct Ha as [p Hp]. destruct (stack_at _ _ _ _ _ _ _ _ _ _ HS Hp) as (l & kp & mp & X' & A1 & A2 & A3). exists p, l, kp. repeat split; auto; apply (scales_pos l n kp mp X' Hn A3). }
  assert (SP : forall p, 0 < scaleProd jk h (skipn p (nlay nt))).
  { intros p. apply scaleProd_pos. intros a l Ha Hla. assert (Ia : In a (nlay nt)). { rewrite <- (firstn_skipn p (nlay nt)). apply in_or_app. auto. } destruct (AT a Ia) as (q & l' & kp & _ & Q & _ & _ & _ & Q2). rewrite Hla in Q. inversion Q; subst. exact Q2. }
  assert (PN : forall p q a, nth_error (nlay nt) p = Some a -> nth_error (nlay nt) q = Some a -> p = q).
  { intros p q a Hp Hq. apply (proj1 (NoDup_nth_error (nlay nt)) Nd p q); [eapply nth_lt; eauto|congruence]. }
  set (gW := fun a => match hget F hB a with Ok l => cellOf (lgw l) | Err _ => fun _ _ => 0 end).
  set (gB := fun a => match hget F hB a with Ok l => cellOf (lgb l) | Err _ => fun _ _ => 0 end).
  set (dW := dirOf ok dec mom pw gW). set (dB := dirOf ok dec mom pb gB).
  set (Lf := fun x => totalLoss jk (absFloat F) kind (mgen n m (fZ (along W0 dW x) (along b0 dB x) X)) (mgen n m T) (mempty F)).
  assert (LV : forall h2 W b, variant jk (nlay nt) h h2 rw cw rb cb W b -> batchLoss jk rs kind h2 nt (mgen n k X) (mgen n m T) = totalLoss jk (absFloat F) kind (mgen n m (fZ W b X)) (mgen n m T) (mempty F)).
  { intros h2 W b V. destruct (runs_predict jk rs nt n h2 k m X (fZ W b X) Ne (HR W b X h2 V)) as [h3 E]. unfold batchLoss. rewrite E. reflexivity. }
  assert (L0 : batchLoss jk rs kind h nt (mgen n k X) (mgen n m T) = Lf 0).
  { rewrite (LV h W0 b0).
    - unfold Lf. rewrite (HX W0 b0 (along W0 dW 0) (along b0 dB 0) X); [reflexivity|]. intros a _. rewrite !along_0. auto.
    - intros a l Ha Hla. exists l. split; [exact Hla|]. destruct (HP a l Ha Hla) as [Q1 Q2]. destruct (AT a Ha) as (p & l' & kp & N1 & N2 & N3 & _). rewrite Hla in N2. inversion N2; subst l'. destruct (B6 p a l kp N1 Hla N3) as (l2 & _ & AL & _).
      destruct AL as (_ & _ & _ & _ & _ & Wm & _). unfold alike, setWB, setP. cbn [lk lw lb ltrain lbi lmem]. repeat split; auto. }
  (* the weights registered *)
  assert (GW : forall a, In a pw -> exists p l l2 gw s, nth_error (nlay nt) p = Some a /\ hget F h a = Ok l /\ hget F hB a = Ok l2 /\ alike F l l2 /\ lgw l2 = mgen (rw a) (cw a) gw /\
     (forall i j, (i < rw a)%nat -> (j < cw a)%nat -> gW a i j = gw i j) /\ 0 < s /\ (forall i j, (i < rw a)%nat -> (j < cw a)%nat -> tw a i j = s * gw i j)).
  { intros a Ha. destruct (Apw a Ha) as (p & l & kp & N1 & N2 & N3 & N4). destruct (B6 p a l kp N1 N2 N3) as (l2 & C1 & C2 & C3 & _).
    destruct (weightScale jk l n kp) as [s|] eqn:Es; [|congruence]. destruct (C3 s eq_refl) as (gw & D1 & D2).
    exists p, l, l2, gw, (scaleProd jk h (skipn (S p) (nlay nt)) * s). split; [exact N1|]. split; [exact N2|]. split; [exact C1|]. split; [exact C2|]. split; [exact D1|]. split; [|split].
    - intros i j Hi Hj. unfold gW. rewrite C1, D1. apply cellOf_gen; auto.
    - apply Rmult_lt_0_compat; [apply SP|]. destruct (AT a (nth_error_In _ _ N1)) as (q & l' & kq & M1 & M2 & M3 & M4 & _). assert (q = p) by eauto. subst q. rewrite N3 in M3. inversion M3; subst kq. rewrite N2 in M2. inversion M2; subst l'. auto.
    - exact D2. }
  assert (GB : forall a, In a pb -> exists p l l2 gb s, nth_error (nlay nt) p = Some a /\ hget F h a = Ok l /\ hget F hB a = Ok l2 /\ alike F l l2 /\ lgb l2 = mgen (rb a) (cb a) gb /\
     (forall i j, (i < rb a)%nat -> (j < cb a)%nat -> gB a i j = gb i j) /\ 0 < s /\ (forall i j, (i < rb a)%nat -> (j < cb a)%nat -> tb a i j = s * gb i j)).
  { intros a Ha. destruct (Apb a Ha) as (p & l & kp & N1 & N2 & N3 & N4). destruct (B6 p a l kp N1 N2 N3) as (l2 & C1 & C2 & _ & C3).
    destruct (biasScale jk l n kp) as [s|] eqn:Es; [|congruence]. destruct (C3 s eq_refl) as (gb & D1 & D2).
    exists p, l, l2, gb, (scaleProd jk h (skipn (S p) (nlay nt)) * s). split; [exact N1|]. split; [exact N2|]. split; [exact C1|]. split; [exact C2|]. split; [exact D1|]. split; [|split].
    - intros i j Hi Hj. unfold gB. rewrite C1, D1. apply cellOf_gen; auto.
    - apply Rmult_lt_0_compat; [apply SP|]. destruct (AT a (nth_error_In _ _ N1)) as (q & l' & kq & M1 & M2 & M3 & _ & M4 & _). assert (q = p) by eauto. subst q. rewrite N3 in M3. inversion M3; subst kq. rewrite N2 in M2. inversion M2; subst l'. auto.
    - exact D2. }
  (* the slope *)
  destruct (B5 (along W0 dW) (along b0 dB) (fun _ => X) 0 dW dB (fun _ _ => 0)) as (dZ & DZ & QZ).
  { intros a _. rewrite !along_0. auto. }
  { reflexivity. }
  { intros a _. split; apply along_curve. }
  { apply dcurve_const. }
  assert (E0 : fZ (along W0 dW 0) (along b0 dB 0) X = Zf). { unfold Zf. apply HX. intros a _. rewrite !along_0. auto. }
  assert (TW : forall a i j, In a (nlay nt) -> (i < rw a)%nat -> (j < cw a)%nat -> tw a i j * dW a i j <= 0).
  { intros a i j Ha Hi Hj. unfold dW, dirOf, inb. destruct (in_dec _ _ _) as [I|]; [|lra]. destruct (GW a I) as (p & l & l2 & gw & s & _ & _ & _ & _ & _ & K1 & K2 & K3). rewrite K1, K3 by auto.
    pose proof (phi_nonneg jk ok dec mom (gw i j) Hd). replace (s * gw i j * - phi jk ok dec mom (gw i j)) with (- (s * (phi jk ok dec mom (gw i j) * gw i j))) by ring. apply Ropp_le_cancel. rewrite Ropp_involutive, Ropp_0. apply Rmult_le_pos; lra. }
  assert (TB : forall a i j, In a (nlay nt) -> (i < rb a)%nat -> (j < cb a)%nat -> tb a i j * dB a i j <= 0).
  { intros a i j Ha Hi Hj. unfold dB, dirOf, inb. destruct (in_dec _ _ _) as [I|]; [|lra]. destruct (GB a I) as (p & l & l2 & gw & s & _ & _ & _ & _ & _ & K1 & K2 & K3). rewrite K1, K3 by auto.
    pose proof (phi_nonneg jk ok dec mom (gw i j) Hd). replace (s * gw i j * - phi jk ok dec mom (gw i j)) with (- (s * (phi jk ok dec mom (gw i j) * gw i j))) by ring. apply Ropp_le_cancel. rewrite Ropp_involutive, Ropp_0. apply Rmult_le_pos; lra. }
  assert (NEG : lsum (fun a => dot (rw a) (cw a) (tw a) (dW a) + dot (rb a) (cb a) (tb a) (dB a)) (nlay nt) < 0).
  { apply lsum_neg.
    - intros a Ha. pose proof (dot_nonpos (rw a) (cw a) (tw a) (dW a) (fun i j => TW a i j Ha)). pose proof (dot_nonpos (rb a) (cb a) (tb a) (dB a) (fun i j => TB a i j Ha)). lra.
    - destruct Push as (a & l2 & x & Hl2 & Hx & [[I Ix]|[I Ix]]).
      + destruct (GW a I) as (p & l & l3 & gw & s & N1 & N2 & N3 & _ & K0 & K1 & K2 & K3). rewrite Hl2 in N3. inversion N3; subst l3. rewrite K0 in Ix. destruct (cell_in _ _ _ _ Ix) as (i & j & Hi & Hj & Ex).
        pose proof (nth_error_In _ _ N1) as Ha. exists a. split; [exact Ha|].
        pose proof (dot_nonpos (rb a) (cb a) (tb a) (dB a) (fun i j => TB a i j Ha)).
        assert (dot (rw a) (cw a) (tw a) (dW a) < 0); [|lra]. apply (dot_neg1 _ _ _ _ i j); auto.
        unfold dW, dirOf, inb. destruct (in_dec _ _ _) as [_|]; [|contradiction]. rewrite K1, K3 by auto. subst x.
        pose proof (phi_descends jk ok dec mom (gw i j) Hd Hx). replace (s * gw i j * - phi jk ok dec mom (gw i j)) with (- (s * (phi jk ok dec mom (gw i j) * gw i j))) by ring. apply Ropp_lt_cancel. rewrite Ropp_involutive, Ropp_0. apply Rmult_lt_0_compat; lra.
      + destruct (GB a I) as (p & l & l3 & gw & s & N1 & N2 & N3 & _ & K0 & K1 & K2 & K3). rewrite Hl2 in N3. inversion N3; subst l3. rewrite K0 in Ix. destruct (cell_in _ _ _ _ Ix) as (i & j & Hi & Hj & Ex).
        pose proof (nth_error_In _ _ N1) as Ha. exists a. split; [exact Ha|].
        pose proof (dot_nonpos (rw a) (cw a) (tw a) (dW a) (fun i j => TW a i j Ha)).
        assert (dot (rb a) (cb a) (tb a) (dB a) < 0); [|lra]. apply (dot_neg1 _ _ _ _ i j); auto.
        unfold dB, dirOf, inb. destruct (in_dec _ _ _) as [_|]; [|contradiction]. rewrite K1, K3 by auto. subst x.
        pose proof (phi_descends jk ok dec mom (gw i j) Hd Hx). replace (s * gw i j * - phi jk ok dec mom (gw i j)) with (- (s * (phi jk ok dec mom (gw i j) * gw i j))) by ring. apply Ropp_lt_cancel. rewrite Ropp_involutive, Ropp_0. apply Rmult_lt_0_compat; lra. }
  assert (SL : exists d, 0 < d /\ forall x, 0 < x < d -> Lf x < Lf 0).
  { eapply slope_down.
    - apply (smooth_curve jk kind n m T (fun x => fZ (along W0 dW x) (along b0 dB x) X) 0 dZ Hn Hm); [|exact DZ]. rewrite E0. exact HL'.
    - cbv beta. rewrite E0. fold G. rewrite QZ. rewrite dot_zero, Rplus_0_l. pose proof (lossScale_pos kind n m Hn Hm). nra. }
  destruct SL as (d & Hd0 & SL). exists d. split; [exact Hd0|]. intros lr Hlr.
  set (o0 := set_params F (newOpt F ok) lr dec mom). set (t1 := setGrad F (setInOut F (setOpts F t (repeat o0 (List.length pw + List.length pb))) vF) gsB).
  destruct (optimizeAll_ok F (absFloat F) o0 pw pb Npw Npb hB t1) as (h' & t' & EO & O1 & O2 & O3 & O4).
  { reflexivity. } { reflexivity. } { exact Hreg. } { reflexivity. }
  { split.
    - intros a Ha. destruct (GW a Ha) as (p & l & l2 & gw & s & N1 & N2 & N3 & AL & K0 & _). exists l2. destruct (HP a l (nth_error_In _ _ N1) N2) as [Q1 _].
      destruct AL as (_ & AL & _). destruct (first_move jk ok dec mom lr (rw a) (cw a) (W0 a) gw Hd (proj1 Hlr)) as [o' Eo]. exists o'. eexists. split; [exact N3|]. rewrite K0, <- AL, Q1. exact Eo.
    - intros a Ha. destruct (GB a Ha) as (p & l & l2 & gw & s & N1 & N2 & N3 & AL & K0 & _). exists l2. destruct (HP a l (nth_error_In _ _ N1) N2) as [_ Q1].
      destruct AL as (_ & _ & AL & _). destruct (first_move jk ok dec mom lr (rb a) (cb a) (b0 a) gw Hd (proj1 Hlr)) as [o' Eo]. exists o'. eexists. split; [exact N3|]. rewrite K0, <- AL, Q1. exact Eo. }
  destruct (onlineStats_ok kind nt t' n m Zf T Hm) as [t2 ES].
  { rewrite O3. exact R6. } { rewrite O4. exact R7. } { exact HL'. }
  exists h', t2. split.
  - unfold trainBatch. rewrite BP. cbn [bind]. fold t1. refine (eq_trans (bindE _ _ _ _ _ EO) _). cbn [fst snd]. rewrite O1, O2. unfold t1 at 1 2. cbn [tinOut tnl setGrad setInOut setOpts]. rewrite R1. fold L.
    rewrite (rget_ok _ vF L (mgen n m Zf)) by (refine (eq_trans (F6 L (le_n _)) _); apply f_equal; exact Hins). cbn [bind]. refine (eq_trans (bindE _ _ _ _ _ ES) _). reflexivity.
  - rewrite L0, (LV h' (along W0 dW lr) (along b0 dB lr)); [apply SL; exact Hlr|].
    intros a l Ha Hla. destruct (AT a Ha) as (p & l' & kp & N1 & N2 & N3 & _). rewrite Hla in N2. inversion N2; subst l'. clear N2. destruct (B6 p a l kp N1 Hla N3) as (l2 & C1 & AL & _).
    destruct (optimizeAll_moves F (absFloat F) o0 pw pb Npw Npb hB t1 h' t' eq_refl eq_refl Hreg eq_refl EO a l2 C1) as (l1 & H1 & (S1 & S2 & S3 & S4 & S5 & S6) & (M1 & M2) & (M3 & M4)).
    exists l1. split; [exact H1|]. destruct (HP a l Ha Hla) as [Q1 Q2]. destruct AL as (A1 & A2 & A3 & A4 & A5 & A6 & A7).
    unfold alike, setWB, setP. cbn [lk lw lb ltrain lbi lmem]. rewrite S1, S2, S3, S4. split; [exact A1|]. split; [|split; [|auto]].
    + symmetry. destruct (in_dec Nat.eq_dec a pw) as [I|I].
      * destruct (M1 I) as [o' Eo]. destruct (GW a I) as (p' & l' & l3 & gw & s & _ & _ & N4 & _ & K0 & K1 & _). rewrite C1 in N4. inversion N4; subst l3.
        unfold dW. rewrite K0 in Eo. eapply move_along; [exact Hd|exact (proj1 Hlr)| |exact K1|exact I|exact Eo]. rewrite <- A2. exact Q1.
      * rewrite (M2 I), <- A2, Q1. unfold dW. apply stay_along. exact I.
    + symmetry. destruct (in_dec Nat.eq_dec a pb) as [I|I].
      * destruct (M3 I) as [o' Eo]. destruct (GB a I) as (p' & l' & l3 & gw & s & _ & _ & N4 & _ & K0 & K1 & _). rewrite C1 in N4. inversion N4; subst l3.
        unfold dB. rewrite K0 in Eo. eapply move_along; [exact Hd|exact (proj1 Hlr)| |exact K1|exact I|exact Eo]. rewrite <- A3. exact Q2.
      * rewrite (M4 I), <- A3, Q2. unfold dB. apply stay_along. exact I.
Qed.

Lemma mgen_eq : forall r c r' c' (f g : nat -> nat -> R), mgen r c f = mgen r' c' g -> r = r' /\ c = c' /\ forall i j, (i < r)%nat -> (j < c)%nat -> f i j = g i j.
Proof.
  intros r c r' c' f g E. assert (r = r') by exact (f_equal (fun m : mat R => mrows m) E). assert (c = c') by exact (f_equal (fun m : mat R => mcols m) E). subst r' c'. split; [reflexivity|]. split; [reflexivity|]. intros i j Hi Hj. exact (LayProofs2.mgen_inj R r c f g i j E Hi Hj).
Qed.
Lemma in_cell : forall r c (f : nat -> nat -> R) i j, (i < r)%nat -> (j < c)%nat -> In (f i j) (mdata (mgen r c f)).
Proof. intros r c f i j Hi Hj. pose proof (rget_gen R r c f i j Hi Hj) as E. apply rget_nth in E. eapply nth_error_In; eauto. Qed.
Lemma partial_cell : forall r c (f g : nat -> nat -> R) (L : mat R -> R) s (w : nat -> nat -> R) i j d, (forall i j, (i < r)%nat -> (j < c)%nat -> f i j = g i j) -> (i < r)%nat -> (j < c)%nat ->
  gradOf r c s (fun W' => L (mgen r c W')) g w -> isPartial (fun W' => L (mgen r c W')) f i j d -> d <> 0 -> w i j <> 0.
Proof.
  intros r c f g L s w i j d E Hi Hj HG HP Hd Hw. specialize (HG i j Hi Hj). unfold isPartial in *. rewrite Hw, Rmult_0_r in HG. apply Hd.
  apply (is_derive_ext _ (fun x => L (mgen r c (upd2 g i j x)))) in HP.
  - rewrite E in HP by auto. apply is_derive_unique in HP. apply is_derive_unique in HG. rewrite <- HP. exact HG.
  - intros x. f_equal. apply mgen_ext. intros i' j' Hi' Hj'. unfold upd2. destruct (_ && _)%bool; auto.
Qed.

Theorem first_batch_descends : forall kind n m k dec mom, (0 < n)%nat -> (0 < m)%nat -> descends k dec mom ->
  forall rs (h : heap F) nt t ks kc X T Z,
    nlay nt <> [] -> NoDup (nlay nt) -> stack jk rs 0 h (nlay nt) n ks X Z -> hd_error ks = Some kc -> last ks 0%nat = m ->
    readyTrainer jk t nt kind -> smoothLoss kind n m Z T -> cReg F (tc F t) = None ->
    NoDup (tpw F t) -> NoDup (tpb F t) ->
    (forall a, In a (tpw F t) -> exists p l kp, nth_error (nlay nt) p = Some a /\ hget F h a = Ok l /\ nth_error ks p = Some kp /\ weightScale jk l n kp <> None) ->
    (forall a, In a (tpb F t) -> exists p l kp, nth_error (nlay nt) p = Some a /\ hget F h a = Ok l /\ nth_error ks p = Some kp /\ biasScale jk l n kp <> None) ->
    sloped jk rs kind h nt (mgen n kc X) (mgen n m T) (tpw F t) (tpb F t) ->
    exists lr0, 0 < lr0 /\ forall lr, 0 < lr < lr0 -> exists h' t',
      trainBatch F (absFloat F) rs h nt (setOpts F t (repeat (set_params F (newOpt F k) lr dec mom) (List.length (tpw F t) + List.length (tpb F t)))) (mgen n kc X) (mgen n m T) = Ok (h', t') /\
      batchLoss jk rs kind h' nt (mgen n kc X) (mgen n m T) < batchLoss jk rs kind h nt (mgen n kc X) (mgen n m T).
Proof.
  intros kind n m k dec mom Hn Hm Hd rs h nt t ks kc X T Z A1 A2 A3 A4 A5 A6 A7 A8 A9 A10 A11 A12 (a & l & r & c & P & i & j & d & Hl & Hi & Hj & Hd0 & HS).
  destruct (backprop_gradients jk kind n m Hn Hm) as (kappa & _ & H). destruct (H rs h nt t ks kc X T Z A1 A2 A3 A4 A5 A6 A7) as (h1 & t1 & E & Q).
  eapply batch_descends; eauto. destruct HS as [(I & EP & D)|(I & EP & D)].
  - destruct (A11 a I) as (p & l' & kp & N1 & N2 & N3 & N4). rewrite Hl in N2. inversion N2; subst l'. destruct (weightScale jk l n kp) as [s|] eqn:Es; [|congruence].
    destruct (Q p a l kp N1 Hl N3) as (l2 & rw & cw & W & rb & cb & b & C1 & C2 & C3 & C4 & C5 & C6 & C7). destruct (C6 s Es) as (gw & D1 & D2).
    rewrite C2 in EP. apply mgen_eq in EP. destruct EP as (<- & <- & EP). exists a, l2, (gw i j). split; [exact C1|]. split.
    + eapply (partial_cell rw cw P W (fun w => batchLoss jk rs kind (withW jk h a w) nt (mgen n kc X) (mgen n m T))); eauto. intros. symmetry. auto.
    + left. split; [exact I|]. rewrite D1. apply in_cell; auto.
  - destruct (A12 a I) as (p & l' & kp & N1 & N2 & N3 & N4). rewrite Hl in N2. inversion N2; subst l'. destruct (biasScale jk l n kp) as [s|] eqn:Es; [|congruence].
    destruct (Q p a l kp N1 Hl N3) as (l2 & rw & cw & W & rb & cb & b & C1 & C2 & C3 & C4 & C5 & C6 & C7). destruct (C7 s Es) as (gw & D1 & D2).
    rewrite C3 in EP. apply mgen_eq in EP. destruct EP as (<- & <- & EP). exists a, l2, (gw i j). split; [exact C1|]. split.
    + eapply (partial_cell rb cb P b (fun w => batchLoss jk rs kind (withB jk h a w) nt (mgen n kc X) (mgen n m T))); eauto. intros. symmetry. auto.
    + right. split; [exact I|]. rewrite D1. apply in_cell; auto.
Qed.
End Descent.

(** set_net creates fresh optimisers with the settings of the trainer *)
Theorem setNet_fresh : forall (F : FOps) (h : heap F) nt t h' t' k, setNet F h nt t = Ok (h', t') -> create_optimizer (cOpt F (tc F t)) = Some k ->
  topts F t' = repeat (set_params F (newOpt F k) (cLr F (tc F t)) (cDecay F (tc F t)) (cMom F (tc F t))) (List.length (tpw F t') + List.length (tpb F t')) /\ tc F t' = tc F t.
Proof.
  intros F h nt t h' t' k H Hk. unfold setNet in H. binp H. inversion H; subst. cbn [topts tpw tpb tc]. split; [|reflexivity]. rewrite Hk in *.
  match goal with E : forN ?q _ [] = Ok ?os |- ?os = _ => revert E; generalize q os end. intros q os E.
  refine (forN_postI _ (fun i s => s = repeat _ i) _ _ _ _ E _ _); [reflexivity|].
  intros i s s' _ -> Es. inversion Es. subst. replace (S i) with (i + 1)%nat by lia. rewrite repeat_app. reflexivity.
Qed.

(** the sample network: Dense, Relu, Dense *)
Section Sample.
Variable jk : R.
Notation F := (ROps jk).
Definition sampleTr : trainer F := mkTr F (tc F (trNew F)) (noBalance F) 0 0 [] (repeat (mempty F) 4) (repeat (mempty F) 4) 3 [0; 2]%nat [0; 2]%nat (th F (trNew F)) 0 0 None None false.
Lemma sample_ready : readyTrainer jk sampleTr (net1 [0; 1; 2]%nat) LMeanSquaredError.
Proof. exact (tr1_ready jk [0; 1; 2]%nat). Qed.
Lemma sample_registered : (forall a, In a (tpw F sampleTr) -> exists p l kp, nth_error [0; 1; 2]%nat p = Some a /\ hget F (sampleNet F) a = Ok l /\ nth_error [1; 1; 1; 1]%nat p = Some kp /\ weightScale jk l 2 kp <> None) /\
  (forall a, In a (tpb F sampleTr) -> exists p l kp, nth_error [0; 1; 2]%nat p = Some a /\ hget F (sampleNet F) a = Ok l /\ nth_error [1; 1; 1; 1]%nat p = Some kp /\ biasScale jk l 2 kp <> None).
Proof.
  split; intros a [<-|[<-|[]]].
  1, 3: exists 0%nat; do 2 eexists; split; [reflexivity|]; split; [reflexivity|]; split; [reflexivity|discriminate].
  all: exists 2%nat; do 2 eexists; split; [reflexivity|]; split; [reflexivity|]; split; [reflexivity|discriminate].
Qed.

Definition zOf (b : R) (i j : nat) : R := match i with O => -3 + b | _ => b end.
Lemma sample_stackB : forall b, stack jk (rs0 jk) 0 (withB jk (sampleNet F) 2 (mgen 1 1 (fun _ _ => b))) [0; 1; 2]%nat 2 [1; 1; 1; 1]%nat (sampleX F) (zOf b).
Proof.
  intros b. set (G := F).
  exists (setFirst (dense11 G 2 1) true), (setFirst (dense11 G 2 1) true), (fun i j => match i with O => 3 | _ => -3 end).
  split; [reflexivity|]. split; [|split; [auto|split]].
  - unfold differentiable. repeat split; auto.
  - refine (eq_trans (y := Ok (setFirst (dense11 G 2 1) true, mkMat 2 1 [0 + 1 * 2 + 1; 0 + - (2) * 2 + 1])) eq_refl _).
    replace (0 + 1 * 2 + 1) with 3 by ring. replace (0 + - (2) * 2 + 1) with (-3) by ring. reflexivity.
  - exists (layBase G (KAct (Some ARelu)) "" ""), (layBase G (KAct (Some ARelu)) "" ""), (fun i j => match i with O => 3 | _ => 0 end).
    split; [reflexivity|]. split; [|split; [auto|split]].
    + refine (conj eq_refl (conj eq_refl (conj eq_refl (conj eq_refl (conj _ _))))).
      * unfold odd_derivative; simpl; intuition discriminate.
      * unfold cells. intros i j _ _. cbv beta. intros [H|[]]. destruct i; simpl in H; lra.
    + unfold layForward. cbn [lk layBase]. refine (bindE _ _ _ _ _ (eq_trans (fwdAct_gen F ARelu 2 1 (fun i _ => match i with O => 3 | _ => -3 end) (mempty F) eq_refl) _)).
      apply f_equal. apply (mgen_ext R). intros [|i] j _ _; cbn; unfold Rltb; destruct (Rlt_dec _ _); lra.
    + exists (dense11 G (- (1)) b), (dense11 G (- (1)) b), (zOf b).
      split; [reflexivity|]. split; [|split; [auto|split]].
      * unfold differentiable. repeat split; auto.
      * refine (eq_trans (y := Ok (dense11 G (-(1)) b, mkMat 2 1 [0 + 3 * - (1) + b; 0 + 0 * - (1) + b])) eq_refl _).
        replace (0 + 3 * - (1) + b) with (-3 + b) by ring. replace (0 + 0 * - (1) + b) with b by ring. reflexivity.
      * simpl. auto.
Qed.
Lemma batchLoss_pred : forall rs kind (h : heap F) nt x y h' o, predict F rs h nt x (mempty F) = Ok (h', o) -> batchLoss jk rs kind h nt x y = totalLoss jk (absFloat F) kind o y (mempty F).
Proof. intros. unfold batchLoss. rewrite H. reflexivity. Qed.
Lemma sample_loss : forall b, batchLoss jk (rs0 jk) LMeanSquaredError (withB jk (sampleNet F) 2 (mgen 1 1 (fun _ _ => b))) (net1 [0; 1; 2]%nat) (mgen 2 1 (sampleX F)) (mgen 2 1 (sampleT F)) =
  ((-3 + b) * (-3 + b) + (b - 2) * (b - 2)) / 2.
Proof.
  intros b. set (nt := net1 [0; 1; 2]%nat).
  assert (Nd : NoDup (nlay nt)). { repeat constructor; simpl; intuition discriminate. }
  destruct (chain jk (rs0 jk) nt 2 (Nat.lt_0_succ 1) (nlay nt) 0 _ _ _ _ 1%nat 1%nat (fun i Hi => eq_refl) Nd (sample_stackB b) eq_refl eq_refl) as (fZ & post & ins & HZ & HR & _).
  destruct (runs_predict jk (rs0 jk) nt 2 _ 1 1 _ _ ltac:(discriminate) (HR (sampleX F))) as [h2 E].
  refine (eq_trans (batchLoss_pred _ _ _ _ _ _ _ _ E) _). refine (eq_trans (reg_total jk LMeanSquaredError 2 1 (fZ (sampleX F)) (sampleT F) (mempty F) Logic.I) _). cbn [rsum]. unfold lossColumn. cbn [rsum]. rewrite !HZ by lia. unfold zOf, sampleT, errTerm. cbn [isSum INR f0 fofZ ROps IZR IPR]. unfold Rdiv. cbn. field.
Qed.
Lemma sample_sloped : sloped jk (rs0 jk) LMeanSquaredError (sampleNet F) (net1 [0; 1; 2]%nat) (mgen 2 1 (sampleX F)) (mgen 2 1 (sampleT F)) (tpw F sampleTr) (tpb F sampleTr).
Proof.
  exists 2%nat, (dense11 F (fopp F (f1 F)) (f1 F)), 1%nat, 1%nat, (fun _ _ => 1), 0%nat, 0%nat, (-3). split; [reflexivity|]. split; [lia|]. split; [lia|]. split; [lra|]. right. split; [simpl; auto|]. split; [reflexivity|].
  unfold isPartial. apply (is_derive_ext (fun x => ((-3 + x) * (-3 + x) + (x - 2) * (x - 2)) / 2)).
  - intros x. symmetry. refine (eq_trans _ (sample_loss x)). reflexivity.
  - auto_derive; [auto|]. field.
Qed.

(** LayerGain with two inputs: the stored gradient is zero, the loss is sloped, the batch changes nothing *)
Definition gainTr : trainer F := mkTr F (tc F (trNew F)) (noBalance F) 0 0 [] (repeat (mempty F) 2) (repeat (mempty F) 2) 1 [0%nat] [] (th F (trNew F)) 0 0 None None false.
Definition gainZ (i j : nat) : R := gainX i j * 1.
Definition gainG : nat -> nat -> R := regG jk LMeanSquaredError 2 gainZ zeroT.
Definition gainLay1 : layer F := setGW (setW (gainLay jk) (mgen 1 2 (fun _ _ => 1) : mat F)) (mgen 1 2 (gainGrad 1 2 gainX gainG) : mat F).
Lemma gain_loss : forall w : nat -> nat -> R, batchLoss jk (rs0 jk) LMeanSquaredError (withW jk [Some (gainLay jk)] 0 (mgen 1 2 w)) (net1 [0%nat]) (mgen 1 2 gainX) (mgen 1 2 zeroT) =
  w 0%nat 0%nat * w 0%nat 0%nat + w 0%nat 1%nat * w 0%nat 1%nat.
Proof.
  intros w. unfold batchLoss, withW. cbn [hget rget nth_error bind upd]. unfold predict, forN. cbn [seq List.length nlay net1 forL]. unfold fwdLayer. cbn [rget nth_error bind nlay net1 hget].
  unfold layForward. cbn [lk lw lgw lb lgb ltrain lfirst lmem lns lwi lbi lrnn setW setB setP setWB setGW setGB setGWB setMem setNs setFirst layBase gainLay].
  rewrite (bindE _ _ _ _ _ (bindE _ _ _ _ _ (fwdGain_gen F 1 2 w gainX (Nat.lt_0_succ 1)))). 
  refine (eq_trans (reg_total jk LMeanSquaredError 1 2 _ zeroT (mempty F) Logic.I) _). cbn [rsum]. unfold lossColumn. cbn [rsum]. unfold zeroT, errTerm, gainX. cbn [isSum INR fmul ROps]. field.
Qed.
Lemma gain_sloped : sloped jk (rs0 jk) LMeanSquaredError [Some (gainLay jk)] (net1 [0%nat]) (mgen 1 2 gainX) (mgen 1 2 zeroT) [0%nat] [].
Proof.
  exists 0%nat, (gainLay jk), 1%nat, 2%nat, (fun _ _ => 1), 0%nat, 0%nat, 2. split; [reflexivity|]. split; [lia|]. split; [lia|]. split; [lra|]. left. split; [simpl; auto|]. split; [reflexivity|].
  unfold isPartial. apply (is_derive_ext (fun x => x * x + 1 * 1)).
  - intros x. symmetry. refine (eq_trans (gain_loss _) _). unfold upd2. reflexivity.
  - auto_derive; [auto|]. ring.
Qed.
Lemma gainGrad0 : forall i j, gainGrad 1 2 gainX gainG i j = 0.
Proof. intros. unfold gainGrad, gainG, regG. cbn [rsum]. unfold gainZ, gainX, zeroT, regGrad. rewrite !fofN_R. cbn. destruct j; field. Qed.

(* the backward pass does not look at the list of optimisers nor at the registered layers *)
Lemma gain_backprop : forall os, backprop F (rs0 jk) [Some (gainLay jk)] (net1 [0%nat]) (setOpts F gainTr os) (mgen 1 2 gainX) (mgen 1 2 zeroT) =
  Ok ([Some gainLay1], setGrad F (setInOut F (setOpts F gainTr os) [mgen 1 2 gainX : mat F; mgen 1 2 gainZ : mat F]) [mempty F; mgen 1 2 gainG : mat F]).
Proof.
  intros os. assert (E1 : layForward F (rs0 jk 0%nat) (gainLay jk) (mgen 1 2 gainX) (mempty F) = Ok (gainLay jk, mgen 1 2 gainZ)).
  { unfold layForward. cbn [lk lw lgw lb lgb ltrain lfirst lmem lns lwi lbi lrnn setW setB setP setWB setGW setGB setGWB setMem setNs setFirst layBase gainLay]. exact (bindE _ _ _ _ _ (fwdGain_gen F 1 2 (fun _ _ => 1) gainX (Nat.lt_0_succ 1))). }
  assert (E3 : layBackward F (gainLay jk) (mgen 1 2 gainX) (mgen 1 2 gainG) (mempty F) = Ok (gainLay1, mempty F)).
  { unfold layBackward. cbn [lk lw lgw lb lgb ltrain lfirst lmem lns lwi lbi lrnn setW setB setP setWB setGW setGB setGWB setMem setNs setFirst layBase gainLay]. exact (bindE _ _ _ _ _ (bwdGain_R jk true 1 2 (fun _ _ => 1) gainX gainG (mempty F))). }
  pose proof (reg_gradient_value jk LMeanSquaredError 1 2 gainZ zeroT (mempty F) Logic.I) as E2.
  unfold backprop, forN, rset, fwdStep, bwdStep, fwdLayer, hset, rset, hget, rget. cbn [tnl gainTr setOpts tinOut tgrad tc tbal repeat List.length Nat.ltb Nat.leb bind upd seq forL fst snd nlay net1 nth_error Nat.add rev app setInOut].
  rewrite E1. cbn [bind Nat.ltb Nat.leb List.length upd nth_error tgrad tc tbal repeat fst snd]. refine (eq_trans (bindE _ _ _ _ _ E2) _).
  cbn [bind Nat.ltb Nat.leb List.length upd nth_error tgrad tc tbal repeat fst snd]. fold gainG. rewrite E3. reflexivity.
Qed.
Theorem gain_no_descent : exists rs (h : heap F) nt t X T,
  stack jk rs 0 h (nlay nt) 1 [2; 2]%nat X X /\ readyTrainer jk t nt LMeanSquaredError /\ tpw F t = nlay nt /\ tpb F t = [] /\ cReg F (tc F t) = None /\
  sloped jk rs LMeanSquaredError h nt (mgen 1 2 X) (mgen 1 2 T) (tpw F t) (tpb F t) /\
  forall lr, 0 < lr -> exists h' t',
    trainBatch F (absFloat F) rs h nt (setOpts F t (repeat (set_params F (newOpt F OSGD) lr (-1) (-1)) (List.length (tpw F t) + List.length (tpb F t)))) (mgen 1 2 X) (mgen 1 2 T) = Ok (h', t') /\
    batchLoss jk rs LMeanSquaredError h' nt (mgen 1 2 X) (mgen 1 2 T) = batchLoss jk rs LMeanSquaredError h nt (mgen 1 2 X) (mgen 1 2 T).
Proof.
  exists (rs0 jk), [Some (gainLay jk)], (net1 [0%nat]), gainTr, gainX, zeroT.
  split; [exact (gain_stack jk)|]. split; [exact (tr1_ready jk [0%nat])|]. split; [reflexivity|]. split; [reflexivity|]. split; [reflexivity|]. split; [exact gain_sloped|].
  intros lr Hlr. set (o0 := set_params F (newOpt F OSGD) lr (-1) (-1)).
  set (t1 := setGrad F (setInOut F (setOpts F gainTr (repeat o0 1)) [mgen 1 2 gainX : mat F; mgen 1 2 gainZ : mat F]) [mempty F; mgen 1 2 gainG : mat F]).
  assert (N1 : NoDup [0%nat]) by (repeat constructor; intros []). assert (N0 : NoDup (@nil nat)) by constructor.
  destruct (first_move jk OSGD (-1) (-1) lr 1 2 (fun _ _ => 1) (gainGrad 1 2 gainX gainG) Logic.I Hlr) as [o' Eo].
  destruct (optimizeAll_ok F (absFloat F) o0 [0%nat] [] N1 N0 [Some gainLay1] t1) as (h' & t' & EO & O1 & O2 & O3 & O4).
  { reflexivity. } { reflexivity. } { reflexivity. } { reflexivity. }
  { split; [|intros ? []]. intros a [<-|[]]. exists gainLay1, o'. eexists. split; [reflexivity|]. exact Eo. }
  destruct (onlineStats_ok jk LMeanSquaredError (net1 [0%nat]) t' 1 2 gainZ zeroT (Nat.lt_0_succ 1)) as [t2 ES].
  { rewrite O3. reflexivity. } { rewrite O4. reflexivity. } { exact Logic.I. }
  exists h', t2. split.
  - unfold trainBatch. refine (eq_trans (bindE _ _ _ _ _ (gain_backprop _)) _). cbn [bind]. refine (eq_trans (bindE _ _ _ _ _ EO) _). cbn [fst snd]. rewrite O1, O2. unfold t1 at 1 2. cbn [tinOut tnl setGrad setInOut setOpts gainTr rget nth_error bind]. refine (eq_trans (bindE _ _ _ _ _ ES) _). reflexivity.
  - destruct (optimizeAll_moves F (absFloat F) o0 [0%nat] [] N1 N0 _ t1 h' t' eq_refl eq_refl eq_refl eq_refl EO 0%nat gainLay1 eq_refl) as (l1 & H1 & (S1 & S2 & S3 & S4 & S5 & S6) & (M1 & _) & _).
    destruct (M1 (or_introl eq_refl)) as [o2 E2]. change (lw gainLay1) with (mgen 1 2 (fun _ _ => 1) : mat F) in E2. change (lgw gainLay1) with (mgen 1 2 (gainGrad 1 2 gainX gainG) : mat F) in E2.
    pose proof (eq_trans (eq_sym E2) Eo) as E3. injection E3 as _ Ew.
    assert (LW : lw l1 = mgen 1 2 (fun _ _ => 1)). { rewrite Ew. apply mgen_ext. intros i j _ _. rewrite gainGrad0. unfold phi. cbn. ring. }
    assert (W0 : forall hh l, hget F hh 0 = Ok l -> lk l = KGain -> lw l = mgen 1 2 (fun _ _ => 1) ->
      batchLoss jk (rs0 jk) LMeanSquaredError hh (net1 [0%nat]) (mgen 1 2 gainX) (mgen 1 2 zeroT) = totalLoss jk (absFloat F) LMeanSquaredError (mgen 1 2 gainZ) (mgen 1 2 zeroT) (mempty F)).
    { intros hh l Hl Hk Hw. apply (batchLoss_pred _ _ _ _ _ _ (upd hh 0 (Some (setW l (mgen 1 2 (fun _ _ => 1) : mat F))))). unfold predict, forN. cbn [seq List.length nlay net1 forL]. unfold fwdLayer. cbn [rget nth_error bind nlay net1]. rewrite Hl. cbn [bind].
      assert (E1 : layForward F (rs0 jk 0%nat) l (mgen 1 2 gainX) (mempty F) = Ok (setW l (mgen 1 2 (fun _ _ => 1) : mat F), mgen 1 2 gainZ)).
      { unfold layForward. rewrite Hk, Hw. exact (bindE _ _ _ _ _ (fwdGain_gen F 1 2 (fun _ _ => 1) gainX (Nat.lt_0_succ 1))). }
      rewrite E1. cbn [bind]. rewrite (hset_ok F _ _ _ _ Hl). reflexivity. }
    rewrite (W0 h' l1 H1) by (rewrite ?S1; auto). rewrite (W0 [Some (gainLay jk)] (gainLay jk)) by reflexivity. reflexivity.
Qed.
End Sample.
