(* KMeansProofs2.v - k-means over the reals: prediction, training invariants, keep-best *)
From Coq Require Import List Arith Lia Bool ZArith Reals Lra QArith.
From Flocq Require Import IEEE754.BinarySingleNaN.
From Verif Require Import Base Scalar B32Facts Mat SpecMat SpecReal RSum SpecData MatFacts MatProofs MatLoops Loss SpecLoss LossProofs LossProofs2 MatProofs2 MetricsProofs KMeans KMeansProofs.
Import ListNotations.
Local Open Scope R_scope.

Lemma farAway_R : forall jk, farAway (ROps jk) = IZR (10 ^ 38).
Proof. intros. unfold farAway. cbn [ROps flit]. generalize (10 ^ 38)%Z. intros z. unfold Rdiv. rewrite Rinv_1. apply Rmult_1_r. Qed.

(* the distance of regression losses: the mean of the error terms *)
Definition rowDist (l : lossKind) (c : nat) (x v : nat -> R) : R := rsum c (fun j => errTerm l (x j - v j)) / INR c.
Lemma kmDist_R : forall jk l c (x v : nat -> R), isRegression l ->
  kmDist (ROps jk) (absFloat (ROps jk)) l (mgen 1 c (fun _ => x)) (mgen 1 c (fun _ => v)) = Ok (rowDist l c x v).
Proof.
  intros jk l c x v H. unfold kmDist. change (mrows (mgen 1 c (fun _ => x))) with 1%nat. change (mrows (mgen 1 c (fun _ => v))) with 1%nat.
  change (mcols (mgen 1 c (fun _ => x))) with c. change (mcols (mgen 1 c (fun _ => v))) with c. rewrite !Nat.eqb_refl. cbn [assert_ bind].
  eapply eq_trans; [exact (f_equal (fun z => x <- z ;; mmean (ROps jk) x) (reg_compute jk l 1 c (fun _ => x) (fun _ => v) (mempty (ROps jk)) H))|]. cbn [bind].
  eapply eq_trans; [apply (f_equal (mmean (ROps jk))); apply (mgen_flat R 1 c)|]. eapply eq_trans; [apply (mmean_flat (ROps jk))|]. apply Ok_eq.
  rewrite fsum_R, fofN_R, Nat.mul_1_l. cbn [ROps fdiv]. unfold rowDist. f_equal. apply rsum_ext. intros j Hj. rewrite Nat.mod_small by auto.
  unfold lossColumn. simpl. destruct (isSum l); field.
Qed.

Lemma km_nearest : forall jk cabs nR c (V C : nat -> nat -> R) l n (X : nat -> nat -> R) out (d : nat -> nat -> R), (0 < nR)%nat -> (0 < c)%nat -> mwf out ->
  (forall i r, (i < n)%nat -> (r < nR)%nat -> kmDist (ROps jk) cabs l (mgen 1 c (fun _ => X i)) (mgen 1 c (fun _ => V r)) = Ok (d i r)) ->
  (forall i, (i < n)%nat -> exists r, (r < nR)%nat /\ d i r < IZR (10 ^ 38)) ->
  exists idx, kmPredict (ROps jk) cabs (@mkKM (ROps jk) (mgen nR c V) (mgen nR 1 C) l) (mgen n c X) out = Ok (mgen n 1 (fun i _ => C (idx i) 0%nat)) /\
  forall i, (i < n)%nat -> (idx i < nR)%nat /\ (forall r, (r < nR)%nat -> d i (idx i) <= d i r) /\ (forall r, (r < idx i)%nat -> d i (idx i) < d i r).
Proof.
  intros jk cabs nR c V C l n X out d HR Hc W HD HF.
  assert (S : forall i, (i < n)%nat -> exists x, snd (bestOf (ROps jk) (farAway (ROps jk)) nR (d i)) = Some x /\ (x < nR)%nat /\
     (forall r, (r < nR)%nat -> d i x <= d i r) /\ (forall r, (r < x)%nat -> d i x < d i r)).
  { intros i Hi. destruct (HF i Hi) as (r0 & Hr0 & L0).
    destruct (@bestOf_spec (ROps jk) (fun x => x) (farAway (ROps jk)) nR (d i)) as [(_ & A)|(x & E & Hx & L & M & S)]; try reflexivity.
    - specialize (A r0 Hr0). cbv beta in A. rewrite farAway_R in A. lra.
    - exists x. rewrite E. auto. }
  exists (fun i => match snd (bestOf (ROps jk) (farAway (ROps jk)) nR (d i)) with Some x => x | None => 0%nat end). split.
  - apply (@kmPredict_rows (ROps jk) cabs nR c V C l n X out d); auto. intros i Hi. destruct (S i Hi) as (x & -> & Hx & _). auto.
  - intros i Hi. destruct (S i Hi) as (x & -> & Hx & H). auto.
Qed.

Lemma km_nearest_float : forall lm pw jk cabs nR c V C l n X out (d : nat -> nat -> b32), (0 < nR)%nat -> (0 < c)%nat -> mwf out ->
  (forall i r, (i < n)%nat -> (r < nR)%nat -> kmDist (B32Ops lm pw jk) cabs l (mgen 1 c (fun _ => X i)) (mgen 1 c (fun _ => V r)) = Ok (d i r) /\ b32_isnan (d i r) = false) ->
  (forall i, (i < n)%nat -> exists r, (r < nR)%nat /\ b32_val (d i r) < b32_val (farAway (B32Ops lm pw jk))) ->
  exists idx, kmPredict (B32Ops lm pw jk) cabs (@mkKM (B32Ops lm pw jk) (mgen nR c V) (mgen nR 1 C) l) (mgen n c X) out = Ok (mgen n 1 (fun i _ => C (idx i) 0%nat)) /\
  forall i, (i < n)%nat -> (idx i < nR)%nat /\ (forall r, (r < nR)%nat -> b32_val (d i (idx i)) <= b32_val (d i r)) /\ (forall r, (r < idx i)%nat -> b32_val (d i (idx i)) < b32_val (d i r)).
Proof.
  intros lm pw jk cabs nR c V C l n X out d HR Hc W HD HF. pose (F := B32Ops lm pw jk).
  assert (S : forall i, (i < n)%nat -> exists x, snd (bestOf F (farAway F) nR (d i)) = Some x /\ (x < nR)%nat /\
     (forall r, (r < nR)%nat -> b32_val (d i x) <= b32_val (d i r)) /\ (forall r, (r < x)%nat -> b32_val (d i x) < b32_val (d i r))).
  { intros i Hi. destruct (HF i Hi) as (r0 & Hr0 & L0).
    destruct (@bestOf_spec F b32_val (farAway F) nR (d i)) as [(_ & A)|(x & E & Hx & L & M & S)].
    - intros r Hr. apply b32_lt_val; [apply HD; auto|vm_compute; reflexivity].
    - intros r r' Hr Hr'. apply b32_lt_val; apply HD; auto.
    - specialize (A r0 Hr0). unfold F in A. lra.
    - exists x. rewrite E. auto. }
  exists (fun i => match snd (bestOf F (farAway F) nR (d i)) with Some x => x | None => 0%nat end). split.
  - apply (@kmPredict_rows F cabs nR c V C l n X out d); auto; [intros; apply HD; auto|]. intros i Hi. destruct (S i Hi) as (x & -> & Hx & _). auto.
  - intros i Hi. destruct (S i Hi) as (x & -> & Hx & H). auto.
Qed.

(* a reference at 0 and a sample at 10^20: the squared distance 10^40 is not below 1.e38f *)
Lemma km_far_refuted : forall jk, exists V C X : nat -> nat -> R,
  kmPredict (ROps jk) (absFloat (ROps jk)) (@mkKM (ROps jk) (mgen 1 1 V) (mgen 1 1 C) LMeanSquaredError) (mgen 1 1 X) (mempty (ROps jk)) = Err EAssert.
Proof.
  intros jk. exists (fun _ _ => 0), (fun _ _ => 1), (fun _ _ => IZR (10 ^ 20)).
  apply (@kmPredict_far (ROps jk) (absFloat (ROps jk)) 1 1 (fun _ _ => 0) (fun _ _ => 1) LMeanSquaredError 1 (fun _ _ => IZR (10 ^ 20)) (mempty (ROps jk)) (fun _ _ => rowDist LMeanSquaredError 1 (fun _ => IZR (10 ^ 20)) (fun _ => 0)) 0); try lia; try reflexivity.
  - intros i r _ _. apply kmDist_R. exact I.
  - unfold bestOf. cbn [seq fold_left fst]. rewrite farAway_R. change (flt (ROps jk)) with Rltb.
    replace (rowDist LMeanSquaredError 1 (fun _ => IZR (10 ^ 20)) (fun _ => 0)) with (IZR (10 ^ 40)).
    + rewrite (proj2 (Rltb_false _ _)); [reflexivity|]. apply IZR_le. apply Z.leb_le. vm_compute. reflexivity.
    + unfold rowDist. assert (E : (10 ^ 40 = 10 ^ 20 * 10 ^ 20)%Z) by (vm_compute; reflexivity). rewrite E, mult_IZR. generalize (IZR (10 ^ 20)). intros x. simpl. field.
Qed.

Lemma km_accuracy : forall jk cabs vb nR c (V C : nat -> nat -> R) l n (X T : nat -> nat -> R) (d : nat -> nat -> R), (0 < vb)%nat -> (0 < nR)%nat -> (0 < c)%nat ->
  (forall i r, (i < n)%nat -> (r < nR)%nat -> kmDist (ROps jk) cabs l (mgen 1 c (fun _ => X i)) (mgen 1 c (fun _ => V r)) = Ok (d i r)) ->
  (forall i, (i < n)%nat -> exists r, (r < nR)%nat /\ d i r < IZR (10 ^ 38)) ->
  exists y : nat -> R, kmPredict (ROps jk) cabs (@mkKM (ROps jk) (mgen nR c V) (mgen nR 1 C) l) (mgen n c X) (mempty _) = Ok (mgen n 1 (fun i _ => y i)) /\
  kmAccuracy (ROps jk) cabs vb (@mkKM (ROps jk) (mgen nR c V) (mgen nR 1 C) l) (mgen n c X) (mgen n 1 T) =
  Ok (100 * INR (count n (fun i => Reqb (y i) (T i 0%nat))) / INR n).
Proof.
  intros jk cabs vb nR c V C l n X T d Hv HR Hc HD HF.
  pose (idx := fun i => match snd (bestOf (ROps jk) (farAway (ROps jk)) nR (d i)) with Some x => x | None => 0%nat end).
  assert (S : forall i, (i < n)%nat -> snd (bestOf (ROps jk) (farAway (ROps jk)) nR (d i)) = Some (idx i) /\ (idx i < nR)%nat).
  { intros i Hi. unfold idx. destruct (HF i Hi) as (r0 & Hr0 & L0).
    destruct (@bestOf_spec (ROps jk) (fun x => x) (farAway (ROps jk)) nR (d i)) as [(_ & A)|(x & E & Hx & _)]; try reflexivity.
    - specialize (A r0 Hr0). cbv beta in A. rewrite farAway_R in A. lra.
    - rewrite E. auto. }
  exists (fun i => C (idx i) 0%nat). split.
  - apply (@kmPredict_rows (ROps jk) cabs nR c V C l n X (mempty (ROps jk)) d); auto. reflexivity.
  - eapply eq_trans; [apply (@kmAccuracy_gen (ROps jk) cabs vb nR c V C l n X T d idx); auto|]. rewrite !fofN_R. reflexivity.
Qed.

(** * training *)
Lemma forL_post : forall I S (P : S -> Prop) (l : list I) (body : I -> S -> res S) s s', P s ->
  (forall i s s1, In i l -> P s -> body i s = Ok s1 -> P s1) -> forL l body s = Ok s' -> P s'.
Proof.
  induction l as [|i l IH]; intros body s s' H0 HS E; simpl in E; [injection E as <-; auto|].
  destruct (body i s) as [s1|] eqn:Eb; [|discriminate]. simpl in E. apply (IH body s1 s'); auto.
  - apply (HS i s); auto. left; auto. - intros. apply (HS i0 s0); auto. right; auto.
Qed.
Lemma forN_post : forall S (P : S -> Prop) n (body : nat -> S -> res S) s s', P s ->
  (forall i s s1, (i < n)%nat -> P s -> body i s = Ok s1 -> P s1) -> forN n body s = Ok s' -> P s'.
Proof. intros S P n body s s' H0 HS E. apply (forL_post _ _ P (seq 0 n) body s s'); auto. intros i s0 s1 Hi. apply in_seq in Hi. apply HS. lia. Qed.

(* the sum of the samples listed in L, column j *)
Definition lsum (X : nat -> nat -> R) (L : list nat) (j : nat) : R := fold_right (fun s a => X s j + a) 0 L.
(* v is the mean of a non-empty list of samples whose truth is y *)
Definition meanOfClass (n c : nat) (X : nat -> nat -> R) (T : nat -> R) (y : R) (v : nat -> R) : Prop :=
  exists L, L <> [] /\ (forall s, In s L -> (s < n)%nat /\ T s = y) /\ forall j, (j < c)%nat -> v j = lsum X L j / INR (length L).

Lemma rowAssign_gen : forall (F : FOps) r k (q : nat -> nat -> F) i (v : nat -> nat -> F), (i < r)%nat ->
  rowAssign F (mgen r k q) i (mgen 1 k v) = Ok (mgen r k (fun a b => if (a =? i)%nat then v 0%nat b else q a b)).
Proof.
  intros F r k q i v Hi. unfold rowAssign. change (mrows (mgen r k q)) with r. rewrite ltb_true by auto. cbn [assert_ bind].
  change (mrows (mgen 1 k v)) with 1%nat. change (mcols (mgen 1 k v)) with k. change (mcols (mgen r k q)) with k. rewrite !Nat.eqb_refl. cbn [andb].
  rewrite (@forN_sim _ _ (mgen r k)) with (step := fun j p => upd2 p i j (v 0%nat j)).
  2:{ intros j p Hj. rewrite mget1_row by auto. cbn [bind]. rewrite mset2_gen by auto. reflexivity. }
  apply Ok_eq, mgen_ext. intros a b Ha Hb.
  rewrite (@fold_point2 nat F (fun j p => upd2 p i j (v 0%nat j)) (fun j x => if (j =? b)%nat then (if (a =? i)%nat then v 0%nat j else x) else x)).
  - rewrite (fold_hit0 (fun j x => if (a =? i)%nat then v 0%nat j else x)) by auto. reflexivity.
  - intros j p _. unfold upd2. rewrite (Nat.eqb_sym b j). destruct (a =? i)%nat, (j =? b)%nat; reflexivity.
Qed.

Section Train.
Variable jk : R.
Variable cabs : R -> res R.
Notation F := (ROps jk).
Variables (n c nR : nat) (X : nat -> nat -> R) (lab : nat -> Z) (l : lossKind) (Cl : nat -> nat -> R).
Notation T := (fun i => IZR (lab i)).
Notation mS := (mgen n c X : mat F).
Notation mT := (mgen n 1 (fun i _ => IZR (lab i)) : mat F).

Definition goodKm (k : kmeans F) : Prop :=
  exists V : nat -> nat -> R, k = @mkKM (ROps jk) (mgen nR c V) (mgen nR 1 Cl) l /\ forall r, (r < nR)%nat -> meanOfClass n c X T (Cl r 0%nat) (V r).
Definition goodWork (w : kwork F) : Prop :=
  goodKm (wKm w) /\ exists (S K : nat -> nat -> R), wCent w = mgen nR c S /\ wCnt w = mgen nR 1 K /\
  forall r, (r < nR)%nat -> exists L, (forall s, In s L -> (s < n)%nat /\ T s = Cl r 0%nat) /\
    (forall j, (j < c)%nat -> S r j = lsum X L j) /\ K r 0%nat = INR (length L).

Lemma nearest_class : forall k x z i, goodKm k -> kmNearest F cabs k x z = Ok (Some i) -> (i < nR)%nat /\ Cl i 0%nat = IZR z.
Proof.
  intros k x z i (V & -> & _) E. unfold kmNearest in E. cbn [kVec kCls] in E. change (mrows (mgen nR c V)) with nR in E.
  apply bind_inv in E. destruct E as (b & E & E'). injection E' as E'.
  assert (P : match snd b with Some i => (i < nR)%nat /\ Cl i 0%nat = IZR z | None => True end).
  { refine (forN_post _ (fun b : R * option nat => match snd b with Some i => (i < nR)%nat /\ Cl i 0%nat = IZR z | None => True end) nR _ _ _ _ _ E); [exact I|].
    intros r s s1 Hr Hs Es. rewrite (mget1_col) in Es by auto. cbn [bind] in Es. cbn [ROps feq fofZ] in Es. unfold Reqb in Es.
    destruct (Req_EM_T (Cl r 0%nat) (IZR z)) as [e|e].
    - apply bind_inv in Es. destruct Es as (v & _ & Es). apply bind_inv in Es. destruct Es as (d & _ & Es). injection Es as <-.
      change (flt F d (fst s)) with (Rltb d (fst s)). destruct (Rltb d (fst s)); [cbn [snd]; auto|exact Hs].
    - injection Es as <-. exact Hs. }
  destruct b as [b1 b2]. cbn [snd] in *. subst b2. exact P.
Qed.

Lemma collect_good : forall w i s w', goodWork w -> (s < n)%nat -> (i < nR)%nat -> T s = Cl i 0%nat ->
  kmCollect F w i (mgen 1 c (fun _ => X s)) = Ok w' -> goodWork w' /\ wKm w' = wKm w /\ wNext w' = wNext w.
Proof.
  intros w i s w' (GK & S & K & ES & EK & HW) Hs Hi HT E. unfold kmCollect in E. rewrite ES, EK in E.
  rewrite (mrow_gen F) in E by auto. cbn [bind] in E.
  rewrite (maddM_gen F) in E. cbn [bind] in E. rewrite rowAssign_gen in E by auto. cbn [bind] in E.
  rewrite (mget1_col) in E by auto. cbn [bind] in E. rewrite (mset1_col) in E by auto. cbn [bind] in E. injection E as <-. cbn [wKm wNext].
  split; [|auto]. split; [exact GK|]. eexists. eexists. cbn [wCent wCnt]. split; [reflexivity|]. split; [reflexivity|].
  intros r Hr. destruct (HW r Hr) as (L & HL & HS & HK). destruct (Nat.eq_dec r i) as [->|Hne].
  - exists (s :: L). split; [|split].
    + intros s' [<-|Hin]; auto.
    + intros j Hj. cbv beta. rewrite Nat.eqb_refl, HS by auto. unfold lsum. simpl. ring.
    + unfold upd2. rewrite !Nat.eqb_refl. cbn [andb]. rewrite HK. simpl length. rewrite S_INR. reflexivity.
  - exists L. split; auto. split.
    + intros j Hj. cbv beta. destruct (Nat.eqb_spec r i); [tauto|]. auto.
    + unfold upd2. destruct (Nat.eqb_spec r i); [tauto|]. exact HK.
Qed.

Lemma update_good : forall w k', goodWork w -> kmUpdate F (wKm w) (wCent w) (wCnt w) = Ok k' -> goodKm k'.
Proof.
  intros w k' ((V & EV & HV) & S & K & ES & EK & HW) E. unfold kmUpdate in E. rewrite EV, ES, EK in E. cbn [kVec kCls kLoss] in E.
  change (mrows (mgen nR c V)) with nR in E. apply bind_inv in E. destruct E as (v & E & E'). injection E' as <-.
  assert (P : exists V' : nat -> nat -> R, v = mgen nR c V' /\ forall r, (r < nR)%nat -> meanOfClass n c X T (Cl r 0%nat) (V' r)).
  { refine (forN_post _ (fun v => exists V' : nat -> nat -> R, v = mgen nR c V' /\ forall r, (r < nR)%nat -> meanOfClass n c X T (Cl r 0%nat) (V' r)) nR _ _ _ _ _ E); [eauto|].
    intros i q q1 Hi (V' & -> & HV') Eq. rewrite (mget1_col) in Eq by auto. cbn [bind] in Eq. cbn [ROps feq f0] in Eq. unfold Reqb in Eq.
    destruct (HW i Hi) as (L & HL & HS & HK). destruct (Req_EM_T (K i 0%nat) 0) as [e|e]; cbn [negb] in Eq.
    - injection Eq as <-. eauto.
    - rewrite (mrow_gen F) in Eq by auto. cbn [bind] in Eq. unfold mdivS in Eq. rewrite mapLoop_gen in Eq. cbn [bind] in Eq. rewrite rowAssign_gen in Eq by auto. injection Eq as <-.
      eexists. split; [reflexivity|]. intros r Hr. destruct (Nat.eq_dec r i) as [->|Hne].
      + exists L. split; [|split; auto].
        * intros ->. apply e. rewrite HK. reflexivity.
        * intros j Hj. cbv beta. rewrite Nat.eqb_refl, HS, HK by auto. reflexivity.
      + destruct (HV' r Hr) as (L' & A & B & D). exists L'. split; auto. split; auto. intros j Hj. cbv beta. destruct (Nat.eqb_spec r i); [tauto|]. auto. }
  destruct P as (V' & -> & HV'). exists V'. auto.
Qed.

Lemma Rtrunc_IZR : forall z, Rtrunc (IZR z) = z.
Proof.
  assert (U : forall z, Int_part (IZR z) = z). { intros z. pose proof (Int_part_bounds (IZR z)) as [A B]. apply le_IZR in A.
    assert (IZR z < IZR (Int_part (IZR z) + 1)) by (rewrite plus_IZR; lra). apply lt_IZR in H. lia. }
  intros z. unfold Rtrunc. destruct (Rlt_dec (IZR z) 0); [rewrite <- opp_IZR, U; lia|apply U].
Qed.

Lemma step_good : forall batch perm iS w w', (forall s, In s perm -> (s < n)%nat) -> goodWork w ->
  kmStep F cabs batch mS mT perm iS w = Ok w' -> goodWork w'.
Proof.
  intros batch perm iS w w' HP G E. unfold kmStep in E. apply bind_inv in E. destruct E as (s & Es & E).
  assert (Hs : (s < n)%nat). { apply HP. unfold rget in Es. destruct (nth_error perm iS) eqn:En; [|discriminate]. injection Es as ->. eapply nth_error_In; eauto. }
  rewrite (mget1_col) in E by auto. cbn [bind] in E. unfold toInt in E. cbn [ROps ftoZ] in E. rewrite Rtrunc_IZR in E. cbn [bind] in E.
  rewrite (mrow_gen F) in E by auto. cbn [bind] in E. apply bind_inv in E. destruct E as (best & EB & E). apply bind_inv in E. destruct E as (w1 & E1 & E).
  assert (G1 : goodWork w1).
  { destruct best as [i|]; [|injection E1 as <-; auto]. destruct (nearest_class _ _ _ _ (proj1 G) EB) as (Hi & HC).
    apply (collect_good w i s w1 G Hs Hi); auto. }
  destruct ((wNext w1 <=? iS)%nat || (iS =? mrows mS - 1)%nat).
  - apply bind_inv in E. destruct E as (k & EK & E). pose proof (update_good w1 k G1 EK) as GK.
    destruct G1 as (_ & S & K & ES & EKc & _). rewrite ES, EKc in E. unfold msetConst in E. rewrite mapLoop_gen in E. cbn [bind] in E. rewrite mapLoop_gen in E. cbn [bind] in E. injection E as <-.
    split; [exact GK|]. eexists. eexists. cbn [wCent wCnt]. split; [reflexivity|]. split; [reflexivity|]. intros r Hr. exists []. split; [intros s' []|]. split; [intros; reflexivity|]. reflexivity.
  - injection E as <-. exact G1.
Qed.

Variables (vb batch : nat) (keep : bool) (val : option (mat F * mat F)).
Definition evalOn : mat F * mat F := match val with None => (mS, mT) | Some p => p end.
Definition evalAcc (k : kmeans F) : res R := kmAccuracy F cabs vb k (fst evalOn) (snd evalOn).
Definition seenEval (s : kseen F) : R := match val with None => seenTrain s | Some _ => seenVal s end.

Definition goodFit (k0 : kmeans F) (f : kfit F) : Prop :=
  goodWork (fWork f) /\
  (forall s, In s (fSeen f) -> goodKm (seenKm s) /\ kmAccuracy F cabs vb (seenKm s) mS mT = Ok (seenTrain s) /\ evalAcc (seenKm s) = Ok (seenEval s)) /\
  (keep = true -> evalAcc (fBest f) = Ok (fMax f) /\ (forall s, In s (fSeen f) -> seenEval s <= fMax f) /\
     (fBest f = k0 \/ exists s, In s (fSeen f) /\ fBest f = seenKm s) /\ (forall a, evalAcc k0 = Ok a -> a <= fMax f)) /\
  (keep = false -> fSeen f <> [] -> exists pre s, fSeen f = pre ++ [s] /\ seenKm s = wKm (fWork f)).

Lemma epoch_good : forall k0 draw f f', goodFit k0 f -> kmEpoch F cabs vb batch keep mS mT val draw f = Ok f' -> goodFit k0 f' /\ length (fSeen f') = S (length (fSeen f)).
Proof.
  intros k0 draw f f' (GW & GS & GB & GL) E. unfold kmEpoch in E. apply bind_inv in E. destruct E as (perm & EP & E). cbv zeta in E.
  apply bind_inv in E. destruct E as (w & EW & E). apply bind_inv in E. destruct E as (ta & ET & E). apply bind_inv in E. destruct E as (va & EV & E). injection E as <-.
  assert (HP : forall s, In s perm -> (s < n)%nat).
  { destruct (shuffle_perm draw (seq 0 n)) as (v' & E' & P). unfold randPerm in EP. change (mrows mS) with n in EP. rewrite E' in EP. injection EP as <-.
    intros s Hs. apply (Permutation.Permutation_in s (Permutation.Permutation_sym P)) in Hs. apply in_seq in Hs. lia. }
  assert (GW' : goodWork w).
  { refine (forN_post _ goodWork _ _ _ w _ _ EW); [exact GW|]. intros i s s1 _ Gs Es. eapply step_good; eauto. }
  cbn [fSeen]. split; [|rewrite app_length; simpl; lia]. split; [exact GW'|]. cbn [fWork fBest fMax fSeen].
  set (s0 := {| seenKm := wKm w; seenTrain := ta; seenVal := va |}).
  assert (S0 : evalAcc (wKm w) = Ok (seenEval s0)) by (unfold evalAcc, evalOn, seenEval, s0; destruct val as [[? ?]|]; auto).
  split.
  { intros s Hs. apply in_app_or in Hs. destruct Hs as [Hs|[<-|[]]]; auto. split; [apply GW'|]. split; auto. }
  split.
  - intros HK. destruct (GB HK) as (B1 & B2 & B3 & B4). rewrite HK. cbn [andb].
    match goal with |- context [if ?x then wKm w else fBest f] => set (bb := x); assert (HB : bb = Rltb (fMax f) (seenEval s0)) by reflexivity; clearbody bb end.
    unfold Rltb in HB. destruct (Rlt_dec (fMax f) (seenEval s0)) as [L|L]; subst bb.
    + split; [exact S0|]. split; [|split].
      * change (forall s, In s (fSeen f ++ [s0]) -> seenEval s <= seenEval s0). intros s Hs. apply in_app_or in Hs. destruct Hs as [Hs|[<-|[]]]; [specialize (B2 s Hs); lra|lra].
      * right. exists s0. split; [apply in_or_app; right; left; auto|reflexivity].
      * change (forall a, evalAcc k0 = Ok a -> a <= seenEval s0). intros a Ha. specialize (B4 a Ha). lra.
    + split; [exact B1|]. split; [|split].
      * intros s Hs. apply in_app_or in Hs. destruct Hs as [Hs|[<-|[]]]; [apply B2; auto|lra].
      * destruct B3 as [B3|(s & Hs & B3)]; [left; auto|right]. exists s. split; auto. apply in_or_app; left; auto.
      * exact B4.
  - intros _ _. exists (fSeen f), s0. split; reflexivity.
Qed.

Lemma epochs_good : forall k0 draws m f f', goodFit k0 f -> forN m (fun e f => kmEpoch F cabs vb batch keep mS mT val (draws e) f) f = Ok f' ->
  goodFit k0 f' /\ length (fSeen f') = (m + length (fSeen f))%nat.
Proof.
  intros k0 draws m f f' G E. unfold forN in E. rewrite <- (seq_length m 0). revert f f' G E. induction (seq 0 m) as [|s q IH]; intros f f' G E; cbn [forL] in E; [injection E as <-; auto|].
  apply bind_inv in E. destruct E as (f1 & E1 & E).
  destruct (epoch_good k0 _ _ _ G E1) as (G1 & L1). destruct (IH f1 f' G1 E) as (G2 & L2). split; auto. simpl length. lia.
Qed.
End Train.

(* the references after initialisation *)
Lemma init_good : forall jk n c nR (X : nat -> nat -> R) lab l V0 C0 draw k1, (0 < n)%nat ->
  kmInit (ROps jk) (@mkKM (ROps jk) (mgen nR c V0) (mgen nR 1 C0) l) (mgen n c X) (mgen n 1 (fun i _ => IZR (lab i))) draw = Ok k1 ->
  goodKm jk n c nR X lab l (fun r _ => IZR (lab (draw r mod n)%nat)) k1.
Proof.
  intros jk n c nR X lab l V0 C0 draw k1 Hn E. unfold kmInit in E. cbn [kVec] in E. change (mrows (mgen nR c V0)) with nR in E. change (mrows (mgen n c X)) with n in E.
  assert (E2 : Ok k1 = Ok (@mkKM (ROps jk) (mgen nR c (fun r j => X (draw r mod n)%nat j)) (mgen nR 1 (fun r _ => IZR (lab (draw r mod n)%nat))) l)).
  { rewrite <- E. clear E.
    pose (emb := fun q : (nat -> nat -> R) * (nat -> nat -> R) => @mkKM (ROps jk) (mgen nR c (fst q)) (mgen nR 1 (snd q)) l).
    change (@mkKM (ROps jk) (mgen nR c V0) (mgen nR 1 C0) l) with (emb (V0, C0)).
    rewrite (@forN_sim _ _ emb) with (step := fun i q => ((fun a b => if (a =? i)%nat then X (draw i mod n)%nat b else fst q a b), (fun a b => if (a =? i)%nat then IZR (lab (draw i mod n)%nat) else snd q a b))).
    2:{ intros i q Hi. unfold emb. cbn [kVec kCls kLoss]. destruct (Nat.eqb_spec n 0); [lia|]. cbv zeta.
        assert (draw i mod n < n)%nat by (apply Nat.mod_upper_bound; lia).
        rewrite (mrow_gen (ROps jk)) by auto. cbn [bind].
        rewrite (rowAssign_gen (ROps jk)) by auto. cbn [bind]. rewrite (mrow_gen (ROps jk)) by auto. cbn [bind].
        rewrite (rowAssign_gen (ROps jk)) by auto. reflexivity. }
    apply Ok_eq. unfold emb. f_equal; apply mgen_ext; intros a b Ha Hb.
    - set (st := fun q i => _).
      assert (G : forall m q, fst (fold_left st (seq 0 m) q) a b = if (a <? m)%nat then X (draw a mod n)%nat b else fst q a b).
      { induction m as [|m IH]; intros q; [reflexivity|]. rewrite seq_S, fold_left_app. cbn [fold_left Nat.add]. unfold st at 1. cbn [fst snd]. rewrite IH.
        destruct (Nat.eqb_spec a m), (Nat.ltb_spec a m), (Nat.ltb_spec a (S m)); try lia; subst; auto. }
      rewrite G. rewrite ltb_true by auto. reflexivity.
    - set (st := fun q i => _).
      assert (G : forall m q, snd (fold_left st (seq 0 m) q) a b = if (a <? m)%nat then IZR (lab (draw a mod n)%nat) else snd q a b).
      { induction m as [|m IH]; intros q; [reflexivity|]. rewrite seq_S, fold_left_app. cbn [fold_left Nat.add]. unfold st at 1. cbn [fst snd]. rewrite IH.
        destruct (Nat.eqb_spec a m), (Nat.ltb_spec a m), (Nat.ltb_spec a (S m)); try lia; subst; auto. }
      rewrite G. rewrite ltb_true by auto. reflexivity. }
  injection E2 as ->. exists (fun r j => X (draw r mod n)%nat j). split; [reflexivity|]. intros r Hr. exists [(draw r mod n)%nat]. split; [discriminate|]. split.
  - intros s [<-|[]]. split; [apply Nat.mod_upper_bound; lia|reflexivity].
  - intros j Hj. unfold lsum. simpl. field.
Qed.

Lemma fit_good : forall jk cabs vb iBatch epochs keep n c nR (X : nat -> nat -> R) lab l V0 C0 val draw0 draws k' seen, (0 < n)%nat ->
  kmFit (ROps jk) cabs vb iBatch epochs keep (@mkKM (ROps jk) (mgen nR c V0) (mgen nR 1 C0) l) (mgen n c X) (mgen n 1 (fun i _ => IZR (lab i))) val draw0 draws = Ok (k', seen) ->
  length seen = epochs /\
  (forall s, In s seen -> exists V : nat -> nat -> R, seenKm s = @mkKM (ROps jk) (mgen nR c V) (mgen nR 1 (fun r _ => IZR (lab (draw0 r mod n)%nat))) l /\
     (forall r, (r < nR)%nat -> meanOfClass n c X (fun i => IZR (lab i)) (IZR (lab (draw0 r mod n)%nat)) (V r)) /\
     kmAccuracy (ROps jk) cabs vb (seenKm s) (mgen n c X) (mgen n 1 (fun i _ => IZR (lab i))) = Ok (seenTrain s) /\
     evalAcc jk cabs n c X lab vb val (seenKm s) = Ok (seenEval jk val s)) /\
  (keep = true -> exists a, evalAcc jk cabs n c X lab vb val k' = Ok a /\ (forall s, In s seen -> seenEval jk val s <= a) /\
     (k' = @mkKM (ROps jk) (mgen nR c V0) (mgen nR 1 C0) l \/ exists s, In s seen /\ k' = seenKm s) /\
     (forall b, evalAcc jk cabs n c X lab vb val (@mkKM (ROps jk) (mgen nR c V0) (mgen nR 1 C0) l) = Ok b -> b <= a)) /\
  (keep = false -> seen <> [] -> exists pre s, seen = pre ++ [s] /\ seenKm s = k').
Proof.
  intros jk cabs vb iBatch epochs keep n c nR X lab l V0 C0 val draw0 draws k' seen Hn E. unfold kmFit in E. cbn [kVec] in E.
  change (mrows (mgen nR c V0)) with nR in E. change (mcols (mgen nR c V0)) with c in E.
  rewrite (msetZero_gen (ROps jk)) in E by reflexivity. cbn [bind] in E. rewrite (msetZero_gen (ROps jk)) in E by reflexivity. cbn [bind] in E. cbv zeta in E.
  set (bt := if ((_ <? _) || _)%nat then _ else _) in E. set (k0 := @mkKM (ROps jk) (mgen nR c V0) (mgen nR 1 C0) l) in *.
  apply bind_inv in E. destruct E as (mx & EM & E). apply bind_inv in E. destruct E as (k1 & E1 & E). apply bind_inv in E. destruct E as (f & EF & E). injection E as <- <-.
  pose proof (init_good jk n c nR X lab l V0 C0 draw0 k1 Hn E1) as G1.
  match type of EF with forN _ _ ?f0 = _ => assert (G0 : goodFit jk cabs n c nR X lab l (fun r _ => IZR (lab (draw0 r mod n)%nat)) vb keep val k0 f0) end.
  { split; [|split; [|split]].
    - split; [exact G1|]. eexists. eexists. cbn [fWork wCent wCnt]. split; [reflexivity|]. split; [reflexivity|]. intros r Hr. exists []. split; [intros s []|]. split; [intros; reflexivity|]. reflexivity.
    - intros s [].
    - intros ->. cbn [fBest fMax fSeen]. assert (EA : evalAcc jk cabs n c X lab vb val k0 = Ok mx) by (unfold evalAcc, evalOn; destruct val as [[? ?]|]; exact EM).
      split; [exact EA|]. split; [intros s []|]. split; [left; reflexivity|]. intros a Ha. rewrite EA in Ha. injection Ha as <-. lra.
    - intros _ H. exfalso. apply H. reflexivity. }
  destruct (epochs_good _ _ _ _ _ _ _ _ _ _ _ _ _ _ _ _ _ _ G0 EF) as ((GW & GS & GB & GL) & LL).
  simpl in LL. rewrite Nat.add_0_r in LL. split; [exact LL|]. split; [|split].
  - intros s Hs. destruct (GS s Hs) as ((V & EV & HV) & A & B). exists V. auto.
  - intros HK. destruct (GB HK) as (B1 & B2 & B3 & B4). rewrite HK. exists (fMax f). auto.
  - intros HK Hne. rewrite HK. apply GL; auto.
Qed.

(* no samples: randomEngine()%0 *)
Lemma init_no_samples : forall (F : FOps) nR c V C l mT draw, (0 < nR)%nat ->
  kmInit F (mkKM (mgen nR c V) C l) (mgen 0 c (fun _ _ => f0 F)) mT draw = Err EDiv.
Proof. intros F nR c V C l mT draw H. unfold kmInit. cbn [kVec]. change (mrows (mgen nR c V)) with nR. destruct nR; [lia|reflexivity]. Qed.
