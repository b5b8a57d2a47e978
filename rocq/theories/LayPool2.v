(* LayPool2.v - global max pooling and max pooling *)
From Coq Require Import List Arith Bool Lia Reals Lra ZArith.
From Coquelicot Require Import Coquelicot.
From Verif Require Import Base Scalar Mat SpecMat SpecReal RSum MatFacts MatProofs MatLoops Scatter RDeriv Loss SpecLoss LayMat LayImg LayKit SpecLayer LayGrad LayCurve LayTens ImgKit ImgDot LayProofs2 LayPool1.
Import ListNotations.
Local Open Scope nat_scope.

(** loops over any state seen as a function of the cell number *)
Section E.
Variables (A S : Type) (emb : (nat -> A) -> S).
Hypothesis Hemb : forall p q, (forall k, p k = q k) -> emb p = emb q.
Lemma kloopE : forall n (body : nat -> S -> res S) (H : nat -> nat -> A -> A) p,
  (forall i q, i < n -> body i (emb q) = Ok (emb (fun k => H i k (q k)))) ->
  forN n body (emb p) = Ok (emb (fun k => fold_left (fun v i => H i k v) (seq 0 n) (p k))).
Proof.
  intros n body H p HB. rewrite (@forN_sim _ _ emb) with (step := fun i (q : nat -> A) => fun k => H i k (q k)); auto.
  apply Ok_eq, Hemb. intros k. rewrite (@fold_point nat A nat (fun i (q : nat -> A) => fun k => H i k (q k)) (fun i v => H i k v)); auto.
Qed.
Lemma kloop2E : forall n m (body : nat -> nat -> S -> res S) (H : nat -> nat -> nat -> A -> A) p,
  (forall i j q, i < n -> j < m -> body i j (emb q) = Ok (emb (fun k => H i j k (q k)))) ->
  loop2 n m body (emb p) = Ok (emb (fun k => fold_left (fun v i => fold_left (fun v j => H i j k v) (seq 0 m) v) (seq 0 n) (p k))).
Proof.
  intros n m body H p HB. unfold loop2. apply (kloopE n _ (fun i k v => fold_left (fun v j => H i j k v) (seq 0 m) v)).
  intros i q Hi. apply kloopE. intros. apply HB; auto.
Qed.
(* every cell written once *)
Lemma writeE2 : forall nS nH (body : nat -> nat -> S -> res S) (t : nat -> nat -> A) p,
  (forall s h q, s < nS -> h < nH -> body s h (emb q) = Ok (emb (fun k => if s * nH + h =? k then t s h else q k))) ->
  exists q, loop2 nS nH body (emb p) = Ok (emb q) /\ forall s h, s < nS -> h < nH -> q (s * nH + h) = t s h.
Proof.
  intros nS nH body t p HB. eexists. split.
  - apply (kloop2E nS nH body (fun s h k v => if s * nH + h =? k then t s h else v)). exact HB.
  - intros s h Hs Hh. set (V := t s h).
    assert (K : forall s' h', h' < nH -> keeps V (fun v => if s' * nH + h' =? s * nH + h then t s' h' else v)).
    { intros s' h' Hh'. apply if_keeps. intro E. apply Nat.eqb_eq, idx_inj in E; auto. destruct E as [-> ->]. reflexivity. }
    apply (seq_hits A V nS s); auto.
    + intros s' _. apply seq_keeps. intros h' Hh'. apply K; auto.
    + apply (seq_hits A V nH h); auto. apply if_hits; auto. apply Nat.eqb_refl.
Qed.
Lemma writeE4 : forall nS nH nR nC (body : nat -> nat -> nat -> nat -> S -> res S) (t : nat -> nat -> nat -> nat -> A) p,
  (forall s h r c q, s < nS -> h < nH -> r < nR -> c < nC -> body s h r c (emb q) = Ok (emb (fun k => if addr4 nH nR nC s h r c =? k then t s h r c else q k))) ->
  exists q, loop2 nS nH (fun s h m => loop2 nR nC (fun r c m => body s h r c m) m) (emb p) = Ok (emb q) /\
  forall s h r c, s < nS -> h < nH -> r < nR -> c < nC -> q (addr4 nH nR nC s h r c) = t s h r c.
Proof.
  intros nS nH nR nC body t p HB. eexists. split.
  - apply (kloop2E nS nH _ (fun s h k v => fold_left (fun v r => fold_left (fun v c => if addr4 nH nR nC s h r c =? k then t s h r c else v) (seq 0 nC) v) (seq 0 nR) v)).
    intros s h q Hs Hh. apply (kloop2E nR nC _ (fun r c k v => if addr4 nH nR nC s h r c =? k then t s h r c else v)). intros. apply HB; auto.
  - intros s h r c Hs Hh Hr Hc. set (V := t s h r c).
    assert (K : forall s' h' r' c', h' < nH -> r' < nR -> c' < nC -> keeps V (fun v => if addr4 nH nR nC s' h' r' c' =? addr4 nH nR nC s h r c then t s' h' r' c' else v)).
    { intros s' h' r' c' Hh' Hr' Hc'. apply if_keeps. intro E. apply Nat.eqb_eq, addr4_inj in E; auto. destruct E as (-> & -> & -> & ->). reflexivity. }
    apply (seq_hits A V nS s); auto.
    + intros s' _. apply seq_keeps. intros h' Hh'. apply seq_keeps. intros r' Hr'. apply seq_keeps. intros c' Hc'. apply K; auto.
    + apply (seq_hits A V nH h); auto.
      * intros h' Hh'. apply seq_keeps. intros r' Hr'. apply seq_keeps. intros c' Hc'. apply K; auto.
      * apply (seq_hits A V nR r); auto.
        -- intros r' Hr'. apply seq_keeps. intros c' Hc'. apply K; auto.
        -- apply (seq_hits A V nC c); auto. apply if_hits; auto. apply Nat.eqb_refl.
Qed.
End E.

Lemma fold_pairs : forall S a b (f : nat -> nat -> S -> S) s,
  fold_left (fun v i => fold_left (fun v j => f i j v) (seq 0 b) v) (seq 0 a) s = fold_left (fun v p => f (fst p) (snd p) v) (pairs a b) s.
Proof.
  intros S a b f s. unfold pairs. generalize (seq 0 a). intro l. revert s. induction l as [|i l IH]; intro s; simpl; auto.
  rewrite fold_left_app, IH. f_equal. generalize (seq 0 b). intro l'. revert s. induction l' as [|j l' IH']; intro s; simpl; auto.
Qed.

(** first maximum of a scan *)
Local Open Scope R_scope.
Section Scan.
Variables (I : Type) (x : I -> R) (code : I -> Z).
Definition scanStep (v : R * Z) (i : I) : R * Z := if Rltb (fst v) (x i) then (x i, code i) else v.
Lemma scan_spec : forall l v, let w := fold_left scanStep l v in
  (w = v /\ forall i, In i l -> x i <= fst v) \/
  (exists l1 i l2, l = l1 ++ i :: l2 /\ w = (x i, code i) /\ fst v < x i /\ (forall j, In j l1 -> x j < x i) /\ (forall j, In j l -> x j <= x i)).
Proof.
  induction l as [|a l IH]; intros v; cbv zeta; simpl fold_left; [left; split; auto; intros i []|].
  specialize (IH (scanStep v a)). cbv zeta in IH.
  destruct IH as [[E H]|(l1 & i & l2 & E1 & E2 & E3 & E4 & E5)].
  - rewrite E. clear E. unfold scanStep in *. unfold Rltb in *. destruct (Rlt_dec (fst v) (x a)) as [L|L].
    + right. exists [], a, l. split; [reflexivity|]. split; [reflexivity|]. split; auto. split; [intros j []|].
      intros j [->|Hj]; [lra|]. apply H in Hj. simpl in Hj. exact Hj.
    + left. split; auto. intros i [->|Hi]; [lra|auto].
  - right. exists (a :: l1), i, l2. rewrite E1 at 1. split; [reflexivity|]. split; auto.
    unfold scanStep, Rltb in E3. destruct (Rlt_dec (fst v) (x a)) as [L|L]; simpl in E3.
    + split; [lra|]. split; intros j [->|Hj]; auto; lra.
    + split; [lra|]. split; intros j [->|Hj]; auto; lra.
Qed.
End Scan.

Lemma Rtrunc_IZR : forall z, Rtrunc (IZR z) = z.
Proof.
  intro z. unfold Rtrunc.
  assert (H : forall y, Int_part (IZR y) = y).
  { intro y. unfold Int_part. rewrite <- (tech_up (IZR y) (y + 1)); try lia; rewrite plus_IZR; lra. }
  destruct (Rlt_dec (IZR z) 0); auto. rewrite <- opp_IZR, H. lia.
Qed.
Lemma bigNeg_R : forall jk, bigNeg (ROps jk) = - 10 ^ 38.
Proof. intro. unfold bigNeg. cbn [flit ROps]. lra. Qed.

(* p is the first of the cells with a maximal value, the cells being visited in increasing order *)
Definition firstMax (f : nat -> R) (n p : nat) : Prop := (p < n)%nat /\ (forall q, (q < n)%nat -> f q <= f p) /\ (forall q, (q < p)%nat -> f q < f p).

(** * GlobalMaxPool2D *)
Lemma pairs_split : forall a b l1 i l2, pairs a b = l1 ++ i :: l2 -> forall r c, (r < a)%nat -> (c < b)%nat -> (r * b + c < fst i * b + snd i)%nat -> In (r, c) l1.
Proof.
  intros a b l1 i l2 E r c Hr Hc Hlt.
  assert (HN : nth_error (pairs a b) (length l1) = Some i) by (rewrite E, nth_error_app2, Nat.sub_diag; auto).
  assert (HA : forall k, (k < a * b)%nat -> nth_error (pairs a b) k = Some ((k / b)%nat, (k mod b)%nat)).
  { clear. intros k Hk. unfold pairs. assert (b <> 0)%nat by (intro; subst; lia).
    assert (G : forall a s k, (k < a * b)%nat -> nth_error (flat_map (fun i => map (fun j => (i, j)) (seq 0 b)) (seq s a)) k = Some ((s + k / b)%nat, (k mod b)%nat)).
    { clear a k Hk. induction a as [|a IH]; intros s k Hk; [lia|]. simpl. destruct (lt_dec k b) as [L|L].
      - rewrite nth_error_app1 by (rewrite map_length, seq_length; auto). rewrite nth_error_map_seq by auto. rewrite Nat.div_small, Nat.mod_small by auto. f_equal. f_equal; lia.
      - rewrite nth_error_app2 by (rewrite map_length, seq_length; lia). rewrite map_length, seq_length, IH by lia.
        assert (EQ : (k = (k - b) + 1 * b)%nat) by lia. rewrite EQ at 3 4. rewrite Nat.div_add, Nat.mod_add by auto. f_equal. f_equal; lia. }
    apply (G a 0%nat k Hk). }
  assert (Hi : (fst i < a /\ snd i < b)%nat) by (apply in_pairs; rewrite E; apply in_or_app; right; left; auto).
  assert (HL : (length l1 < a * b)%nat).
  { destruct (lt_dec (length l1) (a * b)); auto. exfalso.
    assert (L : length (pairs a b) = (a * b)%nat). { clear. unfold pairs. generalize 0%nat at 2. induction a as [|a IH]; intro s; simpl; auto. rewrite app_length, map_length, seq_length, IH. reflexivity. }
    assert (nth_error (pairs a b) (length l1) = None) by (apply nth_error_None; lia). congruence. }
  rewrite HA in HN by auto. injection HN as HN. assert (EL : length l1 = (fst i * b + snd i)%nat).
  { rewrite <- HN. cbn [fst snd]. symmetry. apply idx_eq. lia. }
  assert (HR : nth_error (pairs a b) (r * b + c) = Some (r, c)).
  { rewrite HA by (apply idx_lt; auto). rewrite idx_div, idx_mod by auto. reflexivity. }
  rewrite E, nth_error_app1 in HR by lia. apply nth_error_In in HR. exact HR.
Qed.

Lemma planeMax_R : forall jk nS nH nR nC t s h, (s < nS)%nat -> (h < nH)%nat -> (0 < nR)%nat -> (0 < nC)%nat ->
  (exists r c, (r < nR)%nat /\ (c < nC)%nat /\ - 10 ^ 38 < t s h r c) ->
  exists p, firstMax (fun q => t s h (q / nC)%nat (q mod nC)%nat) (nR * nC) p /\
  planeMax (ROps jk) nR nC (tens nS nH nR nC t) s h = Ok (t s h (p / nC)%nat (p mod nC)%nat, Z.of_nat (h * (nR * nC) + p)).
Proof.
  intros jk nS nH nR nC t s h Hs Hh HR HC (r0 & c0 & Hr0 & Hc0 & Hbig).
  set (x := fun i : nat * nat => t s h (fst i) (snd i)). set (code := fun i : nat * nat => Z.of_nat (h * nR * nC + fst i * nC + snd i)).
  assert (E : planeMax (ROps jk) nR nC (tens nS nH nR nC t) s h = Ok (fold_left (scanStep _ x code) (pairs nR nC) (- 10 ^ 38, (-1)%Z))).
  { unfold planeMax. rewrite bigNeg_R.
    rewrite (aloop2 (R * Z) nR nC _ (fun r c v => scanStep _ x code v (r, c))).
    - rewrite (fold_pairs _ nR nC (fun r c v => scanStep _ x code v (r, c))). apply Ok_eq. apply (@fold_left_ext_in (R * Z) (nat * nat)). intros v [a b] _. reflexivity.
    - intros r c [m q] Hr Hc. rewrite (mget2_tens R nS nH nR nC t s h r c) by (auto; unfold pix; ring). cbn [bind]. reflexivity. }
  rewrite E. destruct (scan_spec _ x code (pairs nR nC) (- 10 ^ 38, (-1)%Z)) as [[_ H]|(l1 & i & l2 & E1 & E2 & _ & E4 & E5)].
  - exfalso. assert (K : t s h r0 c0 <= - 10 ^ 38) by (apply (H (r0, c0)); apply in_pairs; split; assumption). apply (Rlt_irrefl (- 10 ^ 38)). eapply Rlt_le_trans; [exact Hbig|exact K].
  - assert (Hi : (fst i < nR /\ snd i < nC)%nat) by (apply in_pairs; rewrite E1; apply in_or_app; right; left; auto). destruct Hi as [Hi1 Hi2].
    exists (fst i * nC + snd i)%nat. rewrite E2. split.
    + split; [apply idx_lt; auto|]. split.
      * intros q Hq. rewrite idx_div, idx_mod by auto. apply (E5 ((q / nC)%nat, (q mod nC)%nat)). apply in_pairs. split; [apply (@div_lt_r _ _ _ Hq)|apply (@mod_lt_c _ _ _ Hq)].
      * intros q Hq. rewrite idx_div, idx_mod by auto. apply (E4 ((q / nC)%nat, (q mod nC)%nat)).
        assert (Hq' : (q < nR * nC)%nat) by (pose proof (@idx_lt _ _ _ _ Hi1 Hi2); lia).
        apply (pairs_split _ _ _ _ _ E1); [apply (@div_lt_r _ _ _ Hq')|apply (@mod_lt_c _ _ _ Hq')|]. rewrite idx_eq by lia. auto.
    + rewrite idx_div, idx_mod by auto. unfold x, code. f_equal. f_equal. lia.
Qed.

Definition embP (F : Type) n k : (nat -> F * F) -> mat F * mat F := fun q => (mflat n k (fun x => fst (q x)), mflat n k (fun x => snd (q x))).
Lemma embP_ext : forall F n k p q, (forall x, p x = q x) -> embP F n k p = embP F n k q.
Proof. intros. unfold embP. f_equal; apply mflat_ext; intros; rewrite H; auto. Qed.
Lemma if_pair : forall A B (b : bool) (u v : A * B), (if b then u else v) = (if b then fst u else fst v, if b then snd u else snd v).
Proof. intros A B [|] [? ?] [? ?]; reflexivity. Qed.

(* some cell of every plane is above the code's -1e38; any representable image that is not hugely negative *)
Lemma globalmax_forward : forall jk nS nH nR nC t mx out, mwf mx -> mwf out -> (0 < nR)%nat -> (0 < nC)%nat ->
  (forall s h, (s < nS)%nat -> (h < nH)%nat -> exists r c, (r < nR)%nat /\ (c < nC)%nat /\ - 10 ^ 38 < t s h r c) ->
  exists p, (forall s h, (s < nS)%nat -> (h < nH)%nat -> firstMax (fun q => t s h (q / nC)%nat (q mod nC)%nat) (nR * nC) (p s h)) /\
  fwdGlobalMaxPool (ROps jk) nR nC nH true mx (tens nS nH nR nC t) out =
    Ok (mgen nS nH (fun s h => INR (h * (nR * nC) + p s h)), mgen nS nH (fun s h => t s h (p s h / nC)%nat (p s h mod nC)%nat)) /\
  fwdGlobalMaxPool (ROps jk) nR nC nH false mx (tens nS nH nR nC t) out =
    Ok (mx, mgen nS nH (fun s h => t s h (p s h / nC)%nat (p s h mod nC)%nat)).
Proof.
  intros jk nS nH nR nC t mx out Hmx Hout HR HC Hb.
  set (P := fun s h p => firstMax (fun q => t s h (q / nC)%nat (q mod nC)%nat) (nR * nC) p /\
     planeMax (ROps jk) nR nC (tens nS nH nR nC t) s h = Ok (t s h (p / nC)%nat (p mod nC)%nat, Z.of_nat (h * (nR * nC) + p))).
  assert (EX : exists p, forall s h, (s < nS)%nat -> (h < nH)%nat -> P s h (p s h)).
  { assert (D : forall n (Q : nat -> nat -> Prop), (forall i, (i < n)%nat -> exists y, Q i y) -> exists f, forall i, (i < n)%nat -> Q i (f i)).
    { induction n as [|n IH]; intros Q HQ; [exists (fun _ => 0%nat); intros; lia|]. destruct (IH Q) as [f Hf]; [intros; apply HQ; lia|].
      destruct (HQ n) as [y Hy]; [lia|]. exists (fun i => if (i =? n)%nat then y else f i). intros i Hi. destruct (Nat.eqb_spec i n); subst; auto. apply Hf. lia. }
    destruct (D (nS * nH)%nat (fun k y => P (k / nH)%nat (k mod nH)%nat y)) as [f Hf].
    - intros k Hk. apply planeMax_R; auto; [apply (@div_lt_r _ _ _ Hk)|apply (@mod_lt_c _ _ _ Hk)|apply Hb; [apply (@div_lt_r _ _ _ Hk)|apply (@mod_lt_c _ _ _ Hk)]].
    - exists (fun s h => f (s * nH + h)%nat). intros s h Hs Hh. specialize (Hf (s * nH + h)%nat (@idx_lt _ _ _ _ Hs Hh)). rewrite idx_div, idx_mod in Hf by auto. exact Hf. }
  destruct EX as [p Hp]. exists p. split; [intros s h Hs Hh; apply (Hp s h Hs Hh)|].
  unfold fwdGlobalMaxPool. change (mrows (tens nS nH nR nC t)) with nS. destruct (mresize_flat (ROps jk) out nS nH Hout) as [g Eg]. rewrite Eg.
  change (mrows (mflat nS nH g)) with nS. change (mcols (mflat nS nH g)) with nH. destruct (mresize_flat (ROps jk) mx nS nH Hmx) as [g2 Eg2]. rewrite Eg2.
  split.
  - destruct (writeE2 (R * R) _ (embP R nS nH) (embP_ext R _ _) nS nH (fun s h '(mx, out) =>
      w <- planeMax (ROps jk) nR nC (tens nS nH nR nC t) s h ;; out <- mset2 out s h (fst w) ;; mx <- mset2 mx s h (IZR (snd w)) ;; Ok (mx, out))
      (fun s h => (INR (h * (nR * nC) + p s h), t s h (p s h / nC)%nat (p s h mod nC)%nat)) (fun k => (g2 k, g k))) as (q & E1 & E2).
    + intros s h q Hs Hh. unfold embP. destruct (Hp s h Hs Hh) as [_ E]. rewrite E. cbn [bind fst snd]. rewrite !mset2_flat by auto. cbn [bind]. apply Ok_eq.
      f_equal; apply mflat_ext; intros k _; unfold fupd; destruct (s * nH + h =? k)%nat; cbn [fst snd]; auto. rewrite <- INR_IZR_INZ. reflexivity.
    + eapply eq_trans; [exact E1|]. unfold embP. apply Ok_eq. rewrite !mgen_flat. f_equal; apply mflat_ext; intros k Hk;
      pose proof (@div_lt_r _ _ _ Hk) as H1; pose proof (@mod_lt_c _ _ _ Hk) as H2; rewrite <- (@idx_eq k nH) at 1 by lia; rewrite E2 by auto; reflexivity.
  - destruct (writeE2 R _ (fun q => (mx, mflat nS nH q)) (fun p q H => f_equal (pair mx) (mflat_ext _ nS nH p q (fun k _ => H k))) nS nH (fun s h '(mx, out) =>
      w <- planeMax (ROps jk) nR nC (tens nS nH nR nC t) s h ;; out <- mset2 out s h (fst w) ;; mx <- Ok mx ;; Ok (mx, out))
      (fun s h => t s h (p s h / nC)%nat (p s h mod nC)%nat) g) as (q & E1 & E2).
    + intros s h q Hs Hh. destruct (Hp s h Hs Hh) as [_ E]. rewrite E. cbn [bind fst snd]. rewrite !mset2_flat by auto. cbn [bind]. reflexivity.
    + eapply eq_trans; [exact E1|]. apply Ok_eq. rewrite mgen_flat. f_equal; apply mflat_ext; intros k Hk;
      pose proof (@div_lt_r _ _ _ Hk) as H1; pose proof (@mod_lt_c _ _ _ Hk) as H2; rewrite <- (@idx_eq k nH) at 1 by lia; rewrite E2 by auto; reflexivity.
Qed.
