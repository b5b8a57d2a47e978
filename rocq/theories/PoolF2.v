(* PoolF2.v - GlobalMaxPool2D and MaxPool2D in single precision *)
From Coq Require Import List Arith Bool Lia Reals Lra ZArith.
From Flocq Require Import Core IEEE754.BinarySingleNaN.
From Verif Require Import Base Scalar Mat SpecMat MatFacts MatProofs MatLoops Scatter Loss LayMat LayImg LayKit LayTens ImgKit LayPool1 LayPool2 NetRow SpecNaN B32Facts B32Int SpecPool PoolF1.
Import ListNotations.
Local Open Scope nat_scope.

Section Any.
Variable F : FOps.
Notation M := (mat F).
Lemma fwdGlobalMaxPool_train : forall nS nH nR nC (t : nat -> nat -> nat -> nat -> F) mx out, mwf mx -> mwf out ->
  fwdGlobalMaxPool F nR nC nH true mx (tens nS nH nR nC t) out =
  Ok (mgen nS nH (fun s h => fofZ F (snd (winScan F nR nC (t s h) (fun r c => Z.of_nat (h * nR * nC + r * nC + c))))),
      mgen nS nH (fun s h => fst (winScan F nR nC (t s h) (fun r c => Z.of_nat (h * nR * nC + r * nC + c))))).
Proof.
  intros nS nH nR nC t mx out Hmx Hout. unfold fwdGlobalMaxPool. change (mrows (tens nS nH nR nC t)) with nS. destruct (mresize_flat F out nS nH Hout) as [g Eg]. rewrite Eg.
  change (mrows (mflat nS nH g)) with nS. change (mcols (mflat nS nH g)) with nH. destruct (mresize_flat F mx nS nH Hmx) as [g2 Eg2]. rewrite Eg2.
  set (W := fun s h => winScan F nR nC (t s h) (fun r c => Z.of_nat (h * nR * nC + r * nC + c))).
  destruct (writeE2 (F * F) _ (embP F nS nH) (embP_ext F _ _) nS nH (fun s h '(mx, out) =>
      w <- planeMax F nR nC (tens nS nH nR nC t) s h ;; out <- mset2 out s h (fst w) ;; mx <- mset2 mx s h (fofZ F (snd w)) ;; Ok (mx, out))
      (fun s h => (fofZ F (snd (W s h)), fst (W s h))) (fun k => (g2 k, g k))) as (q & E1 & E2).
  - intros s h q Hs Hh. unfold embP. rewrite planeMax_gen by auto. cbn [bind fst snd]. rewrite !mset2_flat by auto. cbn [bind]. apply Ok_eq.
    f_equal; apply mflat_ext; intros k _; unfold fupd; destruct (s * nH + h =? k)%nat; cbn [fst snd]; auto.
  - eapply eq_trans; [exact E1|]. unfold embP. apply Ok_eq. rewrite !mgen_flat. f_equal; apply mflat_ext; intros k Hk;
    pose proof (@div_lt_r _ _ _ Hk) as H1; pose proof (@mod_lt_c _ _ _ Hk) as H2; rewrite <- (@idx_eq k nH) at 1 by lia; rewrite E2 by auto; reflexivity.
Qed.
Lemma bwdGlobalMaxPool_gen : forall nS nH nR nC (K : nat -> nat -> F) (p : nat -> nat -> nat) G gin, mwf gin ->
  (forall s h, s < nS -> h < nH -> p s h < nR * nC /\ toIdx F (K s h) = Ok (h * (nR * nC) + p s h)) ->
  bwdGlobalMaxPool F nR nC nH false (mgen nS nH K) (mgen nS nH G) gin =
  Ok (tens nS nH nR nC (fun s h r c => if (r * nC + c =? p s h)%nat then G s h else f0 F)).
Proof.
  intros nS nH nR nC K p G gin Hgin HK. assert (Hp : forall s h, s < nS -> h < nH -> p s h < nR * nC) by (intros; apply HK; auto).
  unfold bwdGlobalMaxPool. change (mrows (mgen nS nH G)) with nS. rewrite msetZero_gen by auto. cbn [bind].
  replace (nH * nC * nR) with (nH * nR * nC) by ring. rewrite (mgen_flat _ nS (nH * nR * nC)).
  set (ad := fun s h => addr4 nH nR nC s h (p s h / nC) (p s h mod nC)).
  eapply eq_trans; [apply (kloop2 F nS (nH * nR * nC) nS nH _ (fun s h k v => if (ad s h =? k)%nat then G s h else v))|].
  - intros s h q Hs Hh. rewrite mget2_gen by auto. cbn [bind]. destruct (HK s h Hs Hh) as [_ EK]. rewrite EK. cbn [bind].
    rewrite mget2_gen by auto. cbn [bind]. specialize (Hp s h Hs Hh).
    assert (E : h * (nR * nC) + p s h = pix nR nC h (p s h / nC) (p s h mod nC)).
    { unfold pix. rewrite Nat.mul_add_distr_r, <- Nat.add_assoc, idx_eq by (intro; subst; lia). ring. }
    pose proof (@div_lt_r _ _ _ Hp). pose proof (@mod_lt_c _ _ _ Hp).
    rewrite E, mset2_flat by (auto; apply pix_lt; auto). apply Ok_eq, mflat_ext. intros k _. unfold fupd, ad. rewrite addr4_pix. reflexivity.
  - apply Ok_eq, flat_tens. intros s h r c Hs Hh Hr Hc.
    assert (HA : forall s' h', s' < nS -> h' < nH -> ad s' h' = addr4 nH nR nC s h r c -> s' = s /\ h' = h /\ r * nC + c = p s h).
    { intros s' h' Hs' Hh' E. pose proof (Hp s' h' Hs' Hh') as L. apply addr4_inj in E; auto; [|apply (@div_lt_r _ _ _ L)|apply (@mod_lt_c _ _ _ L)].
      destruct E as (-> & -> & <- & <-). repeat split. apply idx_eq. lia. }
    destruct (Nat.eqb_spec (r * nC + c) (p s h)) as [E|E].
    + apply (seq_hits F (G s h) nS s); auto.
      * intros s' Hs'. apply seq_keeps. intros h' Hh'. apply if_keeps. intro Q. apply Nat.eqb_eq in Q. apply HA in Q; auto. destruct Q as (-> & -> & _). reflexivity.
      * apply (seq_hits F (G s h) nH h); auto.
        -- intros h' Hh'. apply if_keeps. intro Q. apply Nat.eqb_eq in Q. apply HA in Q; auto. destruct Q as (_ & -> & _). reflexivity.
        -- apply if_hits; auto. apply Nat.eqb_eq. unfold ad. rewrite <- E, idx_div, idx_mod by auto. reflexivity.
    + apply (@fold_left_id F nat). intros v s' Hs'. apply (@fold_left_id F nat). intros v' h' Hh'. apply in_seq in Hs', Hh'.
      destruct (Nat.eqb_spec (ad s' h') (addr4 nH nR nC s h r c)) as [Q|Q]; auto. exfalso. apply E. apply (HA s' h'); auto; lia.
Qed.
(* a loop that fails at one round, and nowhere differently *)
Lemma forL_err : forall (A S : Type) (P : S -> Prop) e (l : list A) (body : A -> S -> res S) s, P s ->
  (forall i s, In i l -> P s -> body i s = Err e \/ exists s', body i s = Ok s' /\ P s') ->
  (exists i, In i l /\ forall s, P s -> body i s = Err e) -> forL l body s = Err e.
Proof.
  intros A S P e l body. induction l as [|a l IH]; intros s Ps H (i & Hi & Ei); [destruct Hi|]. simpl.
  destruct Hi as [->|Hi]; [rewrite Ei; auto|].
  destruct (H a s (or_introl eq_refl) Ps) as [E|(s' & E & Ps')]; rewrite E; simpl; auto.
  apply IH; auto; [intros; apply H; auto; right; auto | exists i; auto].
Qed.
Lemma bwdGlobalMaxPool_err : forall nS nH nR nC (K : nat -> nat -> F) G gin s0 h0, mwf gin ->
  (forall s h, s < nS -> h < nH -> toIdx F (K s h) = Err EOob \/ exists k, k < nH * nR * nC /\ toIdx F (K s h) = Ok k) ->
  s0 < nS -> h0 < nH -> toIdx F (K s0 h0) = Err EOob ->
  bwdGlobalMaxPool F nR nC nH false (mgen nS nH K) (mgen nS nH G) gin = Err EOob.
Proof.
  intros nS nH nR nC K G gin s0 h0 Hgin HK Hs0 Hh0 EK. unfold bwdGlobalMaxPool. change (mrows (mgen nS nH G)) with nS. rewrite msetZero_gen by auto. cbn [bind].
  set (P := fun g : M => exists q, g = mflat nS (nH * nC * nR) q).
  assert (ST : forall s h g, s < nS -> h < nH -> P g ->
     (q <- mget2 (mgen nS nH K) s h ;; k <- toIdx F q ;; v <- mget2 (mgen nS nH G) s h ;; mset2 g s k v) = Err EOob \/
     exists g', (q <- mget2 (mgen nS nH K) s h ;; k <- toIdx F q ;; v <- mget2 (mgen nS nH G) s h ;; mset2 g s k v) = Ok g' /\ P g').
  { intros s h g Hs Hh (q & ->). rewrite mget2_gen by auto. cbn [bind]. destruct (HK s h Hs Hh) as [E|(k & L & E)]; rewrite E; cbn [bind]; auto.
    rewrite mget2_gen by auto. cbn [bind].
    right. rewrite mset2_flat by (auto; nia). eexists. split; [reflexivity|]. eexists. reflexivity. }
  unfold loop2, forN. apply (forL_err nat M P).
  - eexists. apply mgen_flat.
  - intros s g Hs Pg. apply in_seq in Hs.
    assert (G1 : forall l g, (forall h, In h l -> h < nH) -> P g ->
      forL l (fun h g => q <- mget2 (mgen nS nH K) s h ;; k <- toIdx F q ;; v <- mget2 (mgen nS nH G) s h ;; mset2 g s k v) g = Err EOob \/
      exists g', forL l (fun h g => q <- mget2 (mgen nS nH K) s h ;; k <- toIdx F q ;; v <- mget2 (mgen nS nH G) s h ;; mset2 g s k v) g = Ok g' /\ P g').
    { induction l as [|a l IH]; intros g1 Hl P1; simpl; [right; eauto|].
      destruct (ST s a g1 ltac:(lia) (Hl a (or_introl eq_refl)) P1) as [E|(g' & E & P')]; rewrite E; simpl; auto. apply IH; auto. intros. apply Hl. right; auto. }
    apply G1; auto. intros h Hh. apply in_seq in Hh. lia.
  - exists s0. split; [apply in_seq; lia|]. intros g Pg. apply (forL_err nat M P); auto.
    + intros h g' Hh P'. apply in_seq in Hh. apply ST; auto. lia.
    + exists h0. split; [apply in_seq; lia|]. intros g' P'. rewrite mget2_gen by auto. cbn [bind]. rewrite EK. reflexivity.
Qed.
End Any.

Section P.
Variables (lm : libm -> b32 -> b32) (pw : b32 -> b32 -> b32) (jk : b32).
Notation F := (B32Ops lm pw jk).

(* an integer up to 2^24 survives being stored as a float *)
Lemma trunc_ofZ : forall z, (Z.abs z <= 2 ^ 24)%Z -> b32_toZ (b32_of_Z z) = Some z.
Proof.
  intros z Hz. destruct (ofZ_exact z Hz) as (A & B & _). unfold b32_toZ. rewrite B. f_equal.
  apply eq_IZR. rewrite Btrunc_correct by (reflexivity). rewrite A. unfold round, scaled_mantissa, F2R, cexp, FIX_exp; cbn [Fnum Fexp Z.opp bpow]. rewrite !Rmult_1_r, Ztrunc_IZR. reflexivity.
Qed.
Lemma toIdx_ofZ : forall k, (Z.of_nat k <= 2 ^ 24)%Z -> toIdx F (b32_of_Z (Z.of_nat k)) = Ok k.
Proof.
  intros k Hk. unfold toIdx, toInt. cbn [ftoZ B32Ops]. rewrite trunc_ofZ by lia. cbn [bind]. replace (Z.of_nat k <? 0)%Z with false by (symmetry; apply Z.ltb_ge; lia). rewrite Nat2Z.id. reflexivity.
Qed.
Lemma toIdx_m1 : toIdx F (b32_of_Z (-1)) = Err EOob. Proof. reflexivity. Qed.

(* a choice over finitely many planes *)
Lemma pick2 : forall n m (Q : nat -> nat -> nat -> Prop), (forall s h, s < n -> h < m -> exists p, Q s h p) -> exists f, forall s h, s < n -> h < m -> Q s h (f s h).
Proof.
  assert (D : forall n (Q : nat -> nat -> Prop), (forall i, i < n -> exists y, Q i y) -> exists f, forall i, i < n -> Q i (f i)).
  { induction n as [|n IH]; intros Q HQ; [exists (fun _ => 0); intros; lia|]. destruct (IH Q) as [f Hf]; [intros; apply HQ; lia|].
    destruct (HQ n) as [y Hy]; [lia|]. exists (fun i => if (i =? n) then y else f i). intros i Hi. destruct (Nat.eqb_spec i n); subst; auto. apply Hf. lia. }
  intros n m Q HQ. destruct (D (n * m) (fun k y => Q (k / m) (k mod m) y)) as [f Hf].
  - intros k Hk. apply HQ; [apply (@div_lt_r _ _ _ Hk)|apply (@mod_lt_c _ _ _ Hk)].
  - exists (fun s h => f (s * m + h)). intros s h Hs Hh. specialize (Hf (s * m + h) (@idx_lt _ _ _ _ Hs Hh)). rewrite idx_div, idx_mod in Hf by auto. exact Hf.
Qed.


Lemma globalmax_forward_F : forall nS nH nR nC t mx out train, mwf mx -> mwf out ->
  exists mx' Y, fwdGlobalMaxPool F nR nC nH train mx (tens nS nH nR nC t) out = Ok (mx', mgen nS nH Y) /\
  forall s h, s < nS -> h < nH -> pooled (cellsOf (t s h) nC) (nR * nC) (Y s h).
Proof.
  intros nS nH nR nC t mx out train Hmx Hout.
  exists (if train then mgen nS nH (fun s h => fofZ F (snd (winScan F nR nC (t s h) (fun r c => Z.of_nat (h * nR * nC + r * nC + c))))) else mx),
    (fun s h => fst (winScan F nR nC (t s h) (fun r c => Z.of_nat (h * nR * nC + r * nC + c)))). split.
  - destruct train; [apply fwdGlobalMaxPool_train; auto|apply fwdGlobalMaxPool_infer; auto].
  - intros s h Hs Hh. destruct (winScan_F lm pw jk nR nC (t s h) (fun r c => Z.of_nat (h * nR * nC + r * nC + c))) as [[A B]|(p & A & B)]; rewrite B; [right|left; exists p]; auto.
Qed.

Lemma code_at : forall h nR nC p, p < nR * nC -> Z.of_nat (h * nR * nC + p / nC * nC + p mod nC) = Z.of_nat (h * (nR * nC) + p).
Proof. intros h nR nC p Hp. f_equal. rewrite <- Nat.add_assoc, idx_eq by (intro; subst; lia). ring. Qed.

Lemma globalmax_train_F : forall nS nH nR nC t mx out G gin, mwf mx -> mwf out -> mwf gin ->
  (Z.of_nat (nH * nR * nC) <= 2 ^ 24 + 1)%Z ->
  (forall s h, s < nS -> h < nH -> exists p, topCell (cellsOf (t s h) nC) (nR * nC) p) ->
  exists mx' p, (forall s h, s < nS -> h < nH -> topCell (cellsOf (t s h) nC) (nR * nC) (p s h)) /\
  fwdGlobalMaxPool F nR nC nH true mx (tens nS nH nR nC t) out = Ok (mx', mgen nS nH (fun s h => cellsOf (t s h) nC (p s h))) /\
  bwdGlobalMaxPool F nR nC nH false mx' (mgen nS nH G) gin = Ok (tens nS nH nR nC (fun s h r c => if (r * nC + c =? p s h) then G s h else f0 F)).
Proof.
  intros nS nH nR nC t mx out G gin Hmx Hout Hgin Hsz HT.
  destruct (pick2 nS nH (fun s h p => topCell (cellsOf (t s h) nC) (nR * nC) p /\
     winScan F nR nC (t s h) (fun r c => Z.of_nat (h * nR * nC + r * nC + c)) = (cellsOf (t s h) nC p, Z.of_nat (h * (nR * nC) + p)))) as [p Hp].
  { intros s h Hs Hh. destruct (HT s h Hs Hh) as [p0 T0]. destruct (winScan_F lm pw jk nR nC (t s h) (fun r c => Z.of_nat (h * nR * nC + r * nC + c))) as [[A B]|(p & A & B)].
    - destruct (topCell_noTop _ _ _ T0 A).
    - exists p. split; auto. rewrite B. f_equal. apply code_at. apply A. }
  exists (mgen nS nH (fun s h => b32_of_Z (Z.of_nat (h * (nR * nC) + p s h)))), p. split; [intros; apply Hp; auto|]. split.
  - rewrite (fwdGlobalMaxPool_train F) by auto. apply Ok_eq. f_equal; apply mgen_ext; intros s h Hs Hh; destruct (Hp s h Hs Hh) as [_ E]; rewrite E; reflexivity.
  - apply (bwdGlobalMaxPool_gen F); auto. intros s h Hs Hh. destruct (Hp s h Hs Hh) as [(L & _) _]. split; auto. apply toIdx_ofZ.
    assert (h * (nR * nC) + p s h < nH * nR * nC) by nia. lia.
Qed.

(* a plane with nothing above -1e38: position -1, and an element outside the gradient *)
Lemma globalmax_train_notop : forall nS nH nR nC t mx out G gin s0 h0, mwf mx -> mwf out -> mwf gin ->
  (Z.of_nat (nH * nR * nC) <= 2 ^ 24 + 1)%Z -> s0 < nS -> h0 < nH -> noTop (cellsOf (t s0 h0) nC) (nR * nC) ->
  exists mx' Y, fwdGlobalMaxPool F nR nC nH true mx (tens nS nH nR nC t) out = Ok (mx', mgen nS nH Y) /\ Y s0 h0 = floor38 /\
  bwdGlobalMaxPool F nR nC nH false mx' (mgen nS nH G) gin = Err EOob.
Proof.
  intros nS nH nR nC t mx out G gin s0 h0 Hmx Hout Hgin Hsz Hs0 Hh0 NT.
  set (W := fun s h => winScan F nR nC (t s h) (fun r c => Z.of_nat (h * nR * nC + r * nC + c))).
  assert (E0 : W s0 h0 = (floor38, (-1)%Z)).
  { unfold W. destruct (winScan_F lm pw jk nR nC (t s0 h0) (fun r c => Z.of_nat (h0 * nR * nC + r * nC + c))) as [[A B]|(p & A & B)]; [exact B|]. destruct (topCell_noTop _ _ _ A NT). }
  exists (mgen nS nH (fun s h => fofZ F (snd (W s h)))), (fun s h => fst (W s h)). split; [apply fwdGlobalMaxPool_train; auto|]. split; [rewrite E0; reflexivity|].
  apply (bwdGlobalMaxPool_err F) with (s0 := s0) (h0 := h0); auto.
  - intros s h Hs Hh. unfold W. destruct (winScan_F lm pw jk nR nC (t s h) (fun r c => Z.of_nat (h * nR * nC + r * nC + c))) as [[A B]|(p & A & B)]; rewrite B; cbn [snd].
    + left. apply toIdx_m1.
    + right. exists (h * (nR * nC) + p). assert (p < nR * nC) by apply A. split; [nia|]. cbn [fofZ B32Ops]. rewrite code_at by auto. apply toIdx_ofZ.
      assert (h * (nR * nC) + p < nH * nR * nC) by nia. lia.
  - rewrite E0. apply toIdx_m1.
Qed.

(* one cell more and the position is rounded: the gradient reaches a cell that was not selected *)
Lemma globalmax_wide : forall nC k, Z.of_nat nC = (2 ^ 24 + 2)%Z -> Z.of_nat k = (2 ^ 24 + 1)%Z ->
  let t := fun (_ _ _ c : nat) => if c =? k then f1 F else f0 F in
  topCell (cellsOf (t 0 0) nC) (1 * nC) k /\
  exists mx', fwdGlobalMaxPool F 1 nC 1 true (mempty F) (tens 1 1 1 nC t) (mempty F) = Ok (mx', mgen 1 1 (fun _ _ => f1 F)) /\
  bwdGlobalMaxPool F 1 nC 1 false mx' (mgen 1 1 (fun _ _ => f1 F)) (mempty F) = Ok (tens 1 1 1 nC (fun _ _ _ c => if c =? k - 1 then f1 F else f0 F)).
Proof.
  intros nC k HnC Hk t. assert (HkC : k < nC) by lia. assert (Hk1 : Z.of_nat (k - 1) = (2 ^ 24)%Z) by lia.
  assert (M : forall q, q < nC -> cellsOf (t 0 0) nC q = if q =? k then f1 F else f0 F).
  { intros q Hq. unfold cellsOf, t. rewrite Nat.mod_small by auto. reflexivity. }
  assert (T : topCell (cellsOf (t 0 0) nC) (1 * nC) k).
  { unfold topCell. rewrite Nat.mul_1_l. rewrite M by auto. rewrite Nat.eqb_refl. split; auto. split; [reflexivity|]. split; [vm_compute; reflexivity|]. split; intros q Hq _.
    - rewrite M by auto. destruct (q =? k); vm_compute; reflexivity.
    - rewrite M by lia. destruct (Nat.eqb_spec q k); [lia|]. vm_compute; reflexivity. }
  split; auto.
  set (W := winScan F 1 nC (t 0 0) (fun r c => Z.of_nat (0 * 1 * nC + r * nC + c))).
  assert (EW : W = (f1 F, Z.of_nat k)).
  { unfold W. destruct (winScan_F lm pw jk 1 nC (t 0 0) (fun r c => Z.of_nat (0 * 1 * nC + r * nC + c))) as [[A B]|(p & A & B)].
    - destruct (topCell_noTop _ _ _ T A).
    - rewrite (topCell_uniq _ _ _ _ A T) in B. rewrite B. rewrite M by auto. rewrite Nat.eqb_refl. rewrite (code_at 0 1 nC k) by lia. reflexivity. }
  exists (mgen 1 1 (fun _ _ => fofZ F (Z.of_nat k))). split.
  - rewrite (fwdGlobalMaxPool_train F) by reflexivity. apply Ok_eq. f_equal; apply mgen_ext; intros s h Hs Hh; replace h with 0 by lia; fold W; change (winScan _ 1 nC _ _) with W; rewrite EW; reflexivity.
  - rewrite (bwdGlobalMaxPool_gen F 1 1 1 nC (fun _ _ => fofZ F (Z.of_nat k)) (fun _ _ => k - 1) (fun _ _ => f1 F)) ; [|reflexivity|].
    + apply Ok_eq. apply tens_ext. intros s h r c _ _ Hr _. replace r with 0 by lia. reflexivity.
    + intros s h Hs Hh. split; [lia|]. replace h with 0 by lia. cbn [fofZ B32Ops]. rewrite Hk. replace (b32_of_Z (2 ^ 24 + 1)) with (b32_of_Z (Z.of_nat (k - 1))).
      * apply toIdx_ofZ. lia.
      * rewrite Hk1. apply B2SF_inj. vm_compute. reflexivity.
Qed.

(* MaxPool2D: the output of every window *)
Lemma maxpool_forward_F : forall nS nH nR nC fr fc t mx out, mwf out ->
  exists Y, fwdMaxPool F (mkPool nR nC nH fr fc) false mx (tens nS nH nR nC t) out = Ok (mx, tens nS nH (nR / fr) (nC / fc) Y) /\
  forall s h r c, pooled (cellsOf (fun a b => t s h (r * fr + a) (c * fc + b)) fc) (fr * fc) (Y s h r c).
Proof.
  intros nS nH nR nC fr fc t mx out Hout. eexists. split; [apply (fwdMaxPool_infer F); auto|]. intros s h r c. cbv beta.
  destruct (winScan_F lm pw jk fr fc (fun a b => t s h (r * fr + a) (c * fc + b)) (fun a b => Z.of_nat ((r * fr + a) * nC + (c * fc + b)))) as [[A B]|(p & A & B)]; rewrite B; [right|left; exists p]; auto.
Qed.
End P.
