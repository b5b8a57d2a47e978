(* LayPool4.v - max pooling *)
From Coq Require Import List Arith Bool Lia Reals Lra ZArith.
From Coquelicot Require Import Coquelicot.
From Verif Require Import Base Scalar Mat SpecMat SpecReal RSum MatFacts MatProofs MatLoops Scatter RDeriv Loss SpecLoss LayMat LayImg LayKit SpecLayer LayGrad LayCurve LayTens ImgKit ImgDot LayProofs2 LayPool1 LayPool2 LayPool3.
Import ListNotations.
Local Open Scope R_scope.

(* cell (a, b) of the fr x fc window w is the first maximal one in reading order *)
Definition winMax (fr fc : nat) (w : nat -> nat -> R) (a b : nat) : Prop :=
  (a < fr)%nat /\ (b < fc)%nat /\ (forall a' b', (a' < fr)%nat -> (b' < fc)%nat -> w a' b' <= w a b) /\
  (forall a' b', (a' < fr)%nat -> (b' < fc)%nat -> (a' * fc + b' < a * fc + b)%nat -> w a' b' < w a b).

Lemma windowMax_R : forall jk nS nH nR nC fr fc t s h r c, (s < nS)%nat -> (h < nH)%nat -> (r < nR / fr)%nat -> (c < nC / fc)%nat ->
  (exists a b, (a < fr)%nat /\ (b < fc)%nat /\ - 10 ^ 38 < t s h (r * fr + a)%nat (c * fc + b)%nat) ->
  exists a b, winMax fr fc (fun a b => t s h (r * fr + a)%nat (c * fc + b)%nat) a b /\
  windowMax (ROps jk) (mkPool nR nC nH fr fc) (tens nS nH nR nC t) s h r c =
  Ok (t s h (r * fr + a)%nat (c * fc + b)%nat, Z.of_nat ((r * fr + a) * nC + (c * fc + b))).
Proof.
  intros jk nS nH nR nC fr fc t s h r c Hs Hh Hr Hc (a0 & b0 & Ha0 & Hb0 & Hbig).
  set (x := fun i : nat * nat => t s h (r * fr + fst i)%nat (c * fc + snd i)%nat). set (code := fun i : nat * nat => Z.of_nat ((r * fr + fst i) * nC + (c * fc + snd i))).
  assert (E : windowMax (ROps jk) (mkPool nR nC nH fr fc) (tens nS nH nR nC t) s h r c = Ok (fold_left (scanStep _ x code) (pairs fr fc) (- 10 ^ 38, (-1)%Z))).
  { unfold windowMax. rewrite bigNeg_R. cbn [pfr pfc].
    rewrite (aloop2 (R * Z) fr fc _ (fun a b v => scanStep _ x code v (a, b))).
    - rewrite (fold_pairs _ fr fc (fun a b v => scanStep _ x code v (a, b))). apply Ok_eq. apply (@fold_left_ext_in (R * Z) (nat * nat)). intros v [a b] _. reflexivity.
    - intros a b [m q] Ha Hb. rewrite (rowGet_tens (ROps jk) nS nH nR nC t s h (r * fr + a) (c * fc + b)); auto; try (apply win_lt; auto).
      cbv [pIn pR pC]. apply pix_flat. }
  rewrite E. destruct (scan_spec _ x code (pairs fr fc) (- 10 ^ 38, (-1)%Z)) as [[_ H]|(l1 & i & l2 & E1 & E2 & _ & E4 & E5)].
  - exfalso. assert (K : t s h (r * fr + a0)%nat (c * fc + b0)%nat <= - 10 ^ 38) by (apply (H (a0, b0)); apply in_pairs; split; assumption).
    apply (Rlt_irrefl (- 10 ^ 38)). eapply Rlt_le_trans; [exact Hbig|exact K].
  - assert (Hi : (fst i < fr /\ snd i < fc)%nat) by (apply in_pairs; rewrite E1; apply in_or_app; right; left; auto). destruct Hi as [Hi1 Hi2].
    exists (fst i), (snd i). rewrite E2. split; auto. split; auto. split; auto. split.
    + intros a' b' Ha' Hb'. apply (E5 (a', b')). apply in_pairs. auto.
    + intros a' b' Ha' Hb' L. apply (E4 (a', b')). apply (pairs_split _ _ _ _ _ E1); auto.
Qed.

Lemma choice4 : forall nS nH nR nC (Q : nat -> nat -> nat -> nat -> nat * nat -> Prop),
  (forall s h r c, (s < nS)%nat -> (h < nH)%nat -> (r < nR)%nat -> (c < nC)%nat -> exists y, Q s h r c y) ->
  exists f, forall s h r c, (s < nS)%nat -> (h < nH)%nat -> (r < nR)%nat -> (c < nC)%nat -> Q s h r c (f s h r c).
Proof.
  intros nS nH nR nC Q HQ.
  assert (D : forall n (Q : nat -> nat * nat -> Prop), (forall i, (i < n)%nat -> exists y, Q i y) -> exists f, forall i, (i < n)%nat -> Q i (f i)).
  { clear. induction n as [|n IH]; intros Q HQ; [exists (fun _ => (0, 0)%nat); intros; lia|]. destruct (IH Q) as [f Hf]; [intros; apply HQ; lia|].
    destruct (HQ n) as [y Hy]; [lia|]. exists (fun i => if (i =? n)%nat then y else f i). intros i Hi. destruct (Nat.eqb_spec i n); subst; auto. apply Hf. lia. }
  destruct (D (nS * (nH * nR * nC))%nat (fun k y => forall s h r c, (s < nS)%nat -> (h < nH)%nat -> (r < nR)%nat -> (c < nC)%nat -> k = addr4 nH nR nC s h r c -> Q s h r c y)) as [f Hf].
  - intros k Hk. destruct (addr4_surj nS nH nR nC k Hk) as (s & h & r & c & Hs & Hh & Hr & Hc & ->). destruct (HQ s h r c Hs Hh Hr Hc) as [y Hy]. exists y.
    intros s' h' r' c' _ Hh' Hr' Hc' E. apply addr4_inj in E; auto. destruct E as (<- & <- & <- & <-). exact Hy.
  - exists (fun s h r c => f (addr4 nH nR nC s h r c)). intros s h r c Hs Hh Hr Hc. apply (Hf (addr4 nH nR nC s h r c)); auto. apply addr4_lt; auto.
Qed.

(* the value and the stored position of the maximum found in window (r, c), given the offsets found *)
Definition mxR (fr r : nat) (p : nat * nat) : nat := (r * fr + fst p)%nat.
Definition mxC (fc c : nat) (p : nat * nat) : nat := (c * fc + snd p)%nat.
Lemma maxpool_forward : forall jk nS nH nR nC fr fc t mx out, mwf mx -> mwf out ->
  (forall s h r c, (s < nS)%nat -> (h < nH)%nat -> (r < nR / fr)%nat -> (c < nC / fc)%nat ->
     exists a b, (a < fr)%nat /\ (b < fc)%nat /\ - 10 ^ 38 < t s h (r * fr + a)%nat (c * fc + b)%nat) ->
  exists p, (forall s h r c, (s < nS)%nat -> (h < nH)%nat -> (r < nR / fr)%nat -> (c < nC / fc)%nat ->
      winMax fr fc (fun a b => t s h (r * fr + a)%nat (c * fc + b)%nat) (fst (p s h r c)) (snd (p s h r c))) /\
  fwdMaxPool (ROps jk) (mkPool nR nC nH fr fc) true mx (tens nS nH nR nC t) out =
    Ok (tens nS nH (nR / fr) (nC / fc) (fun s h r c => INR (mxR fr r (p s h r c) * nC + mxC fc c (p s h r c))),
        tens nS nH (nR / fr) (nC / fc) (fun s h r c => t s h (mxR fr r (p s h r c)) (mxC fc c (p s h r c)))) /\
  fwdMaxPool (ROps jk) (mkPool nR nC nH fr fc) false mx (tens nS nH nR nC t) out =
    Ok (mx, tens nS nH (nR / fr) (nC / fc) (fun s h r c => t s h (mxR fr r (p s h r c)) (mxC fc c (p s h r c)))).
Proof.
  intros jk nS nH nR nC fr fc t mx out Hmx Hout Hb.
  destruct (choice4 nS nH (nR / fr) (nC / fc) (fun s h r c y => winMax fr fc (fun a b => t s h (r * fr + a)%nat (c * fc + b)%nat) (fst y) (snd y) /\
    windowMax (ROps jk) (mkPool nR nC nH fr fc) (tens nS nH nR nC t) s h r c = Ok (t s h (mxR fr r y) (mxC fc c y), Z.of_nat (mxR fr r y * nC + mxC fc c y)))) as [p Hp].
  { intros s h r c Hs Hh Hr Hc. destruct (windowMax_R jk nS nH nR nC fr fc t s h r c Hs Hh Hr Hc (Hb s h r c Hs Hh Hr Hc)) as (a & b & H1 & H2).
    exists (a, b). split; auto. }
  exists p. split; [intros s h r c Hs Hh Hr Hc; apply (Hp s h r c Hs Hh Hr Hc)|].
  unfold fwdMaxPool. change (mrows (tens nS nH nR nC t)) with nS. cbv [pOut poR poC pR pC pH pfr pfc].
  set (oR := (nR / fr)%nat) in *. set (oC := (nC / fc)%nat) in *.
  destruct (resize_tflat (ROps jk) out nS (oR * oC * nH) nS (nH * oR * oC) Hout eq_refl ltac:(ring)) as [g Eg]. rewrite Eg.
  change (mrows (mflat nS (nH * oR * oC) g)) with nS. change (mcols (mflat nS (nH * oR * oC) g)) with (nH * oR * oC)%nat.
  destruct (mresize_flat (ROps jk) mx nS (nH * oR * oC) Hmx) as [g2 Eg2]. rewrite Eg2.
  assert (AD : forall s h r c, (h < nH)%nat -> (r < oR)%nat -> (c < oC)%nat -> (s * (nH * oR * oC) + (h * (oR * oC) + (r * oC + c)) = addr4 nH oR oC s h r c)%nat).
  { intros. rewrite addr4_pix, pix_flat. reflexivity. }
  assert (PL : forall h r c, (h < nH)%nat -> (r < oR)%nat -> (c < oC)%nat -> (h * (oR * oC) + (r * oC + c) < nH * oR * oC)%nat).
  { intros. rewrite pix_flat. apply pix_lt; auto. }
  split.
  - destruct (writeE4 (R * R) _ (embP R nS (nH * oR * oC)) (embP_ext R _ _) nS nH oR oC (fun s h r c '(mx, out) =>
      w <- windowMax (ROps jk) (mkPool nR nC nH fr fc) (tens nS nH nR nC t) s h r c ;;
      out <- rowSet (ROps jk) out s (h * (oR * oC) + (r * oC + c)) (fst w) ;;
      mx <- mset2 mx s (h * (oR * oC) + (r * oC + c)) (IZR (snd w)) ;; Ok (mx, out))
      (fun s h r c => (INR (mxR fr r (p s h r c) * nC + mxC fc c (p s h r c)), t s h (mxR fr r (p s h r c)) (mxC fc c (p s h r c)))) (fun k => (g2 k, g k))) as (q & E1 & E2).
    + intros s h r c q Hs Hh Hr Hc. unfold embP. destruct (Hp s h r c Hs Hh Hr Hc) as [_ E]. rewrite E. cbn [bind fst snd].
      rewrite (rowSet_flat (ROps jk) nS (nH * oR * oC)) by (auto; rewrite AD by auto; apply addr4_lt; auto). cbn [bind].
      rewrite mset2_flat by (auto; apply PL; auto). cbn [bind]. apply Ok_eq. rewrite AD by auto.
      f_equal; apply mflat_ext; intros k _; unfold fupd; destruct (addr4 nH oR oC s h r c =? k)%nat; cbn [fst snd]; auto. rewrite <- INR_IZR_INZ. reflexivity.
    + eapply eq_trans; [exact E1|]. unfold embP. apply Ok_eq. f_equal; apply flat_tens; intros s h r c Hs Hh Hr Hc; rewrite E2 by auto; reflexivity.
  - destruct (writeE4 R _ (fun q => (mx, mflat nS (nH * oR * oC) q)) (fun p q H => f_equal (pair mx) (mflat_ext _ nS _ p q (fun k _ => H k))) nS nH oR oC (fun s h r c '(mx, out) =>
      w <- windowMax (ROps jk) (mkPool nR nC nH fr fc) (tens nS nH nR nC t) s h r c ;;
      out <- rowSet (ROps jk) out s (h * (oR * oC) + (r * oC + c)) (fst w) ;;
      mx <- Ok mx ;; Ok (mx, out))
      (fun s h r c => t s h (mxR fr r (p s h r c)) (mxC fc c (p s h r c))) g) as (q & E1 & E2).
    + intros s h r c q Hs Hh Hr Hc. destruct (Hp s h r c Hs Hh Hr Hc) as [_ E]. rewrite E. cbn [bind fst snd].
      rewrite (rowSet_flat (ROps jk) nS (nH * oR * oC)) by (auto; rewrite AD by auto; apply addr4_lt; auto). cbn [bind]. rewrite AD by auto. reflexivity.
    + eapply eq_trans; [exact E1|]. apply Ok_eq. f_equal; apply flat_tens; intros s h r c Hs Hh Hr Hc; rewrite E2 by auto; reflexivity.
Qed.

(** backward: what the code does.  pos r c is the position recorded for window (r, c) of channel 0 of sample 0 *)
Definition routed (nR nC fr fc : nat) (p : nat -> nat -> nat -> nat -> nat * nat) (G : nat -> nat -> nat -> nat -> R) (s h r c : nat) : R :=
  if (r / fr <? nR / fr)%nat && (c / fc <? nC / fc)%nat && ((r mod fr =? fst (p s h (r / fr) (c / fc)%nat)) && (c mod fc =? snd (p s h (r / fr) (c / fc)%nat)))%nat
  then G s h (r / fr)%nat (c / fc)%nat else 0.
Lemma bwdMaxPool_R : forall jk nS nH nR nC fr fc (p : nat -> nat -> nat -> nat -> nat * nat) G gin, mwf gin -> (0 < nS)%nat -> (0 < nH)%nat ->
  (forall r c, (r < nR / fr)%nat -> (c < nC / fc)%nat -> (fst (p 0%nat 0%nat r c) < fr)%nat /\ (snd (p 0%nat 0%nat r c) < fc)%nat) ->
  bwdMaxPool (ROps jk) (mkPool nR nC nH fr fc) false
    (tens nS nH (nR / fr) (nC / fc) (fun s h r c => INR (mxR fr r (p s h r c) * nC + mxC fc c (p s h r c)))) (tens nS nH (nR / fr) (nC / fc) G) gin =
  Ok (tens nS nH nR nC (routed nR nC fr fc (fun _ _ => p 0%nat 0%nat) G)).
Proof.
  intros jk nS nH nR nC fr fc p G gin Hgin HS HH Hp. unfold bwdMaxPool. cbv [pOut poR poC pR pC pH pfr pfc pIn]. set (oR := (nR / fr)%nat) in *. set (oC := (nC / fc)%nat) in *.
  change (mrows (tens nS nH oR oC G)) with nS. rewrite msetZero_gen by auto. cbn [bind]. replace (nR * nC * nH)%nat with (nH * nR * nC)%nat by ring. rewrite mgen_flat.
  set (P := fun i => p 0%nat 0%nat (i / oC)%nat (i mod oC)%nat).
  set (ad := fun s h i => addr4 nH nR nC s h (mxR fr (i / oC) (P i)) (mxC fc (i mod oC) (P i))).
  assert (PB : forall i, (i < oR * oC)%nat -> (mxR fr (i / oC) (P i) < nR /\ mxC fc (i mod oC) (P i) < nC)%nat).
  { intros i Hi. pose proof (@div_lt_r _ _ _ Hi) as H1. pose proof (@mod_lt_c _ _ _ Hi) as H2. destruct (Hp _ _ H1 H2) as [H3 H4]. unfold mxR, mxC, P. split; apply win_lt; auto. }
  eapply eq_trans; [apply (kloop2 R nS (nH * nR * nC) nS nH _ (fun s h k v => fold_left (fun v i => if (ad s h i =? k)%nat then G s h (i / oC)%nat (i mod oC)%nat else v) (seq 0 (oR * oC)) v))|].
  - intros s h q Hs Hh. apply (kloop R nS (nH * nR * nC) (oR * oC)). intros i q' Hi.
    pose proof (@div_lt_r _ _ _ Hi) as H1. pose proof (@mod_lt_c _ _ _ Hi) as H2. assert (oC <> 0)%nat by lia.
    rewrite (rowGet_tens (ROps jk) nS nH oR oC G s h (i / oC) (i mod oC)) by (auto; rewrite <- pix_flat, idx_eq; auto). cbn [bind].
    destruct (tens_is_flat R nS nH oR oC (fun s h r c => INR (mxR fr r (p s h r c) * nC + mxC fc c (p s h r c)))) as (gm & Em & Hm).
    assert (E1 : mget1 (tens nS nH oR oC (fun s h r c => INR (mxR fr r (p s h r c) * nC + mxC fc c (p s h r c)))) i = Ok (INR (mxR fr (i / oC) (P i) * nC + mxC fc (i mod oC) (P i)))).
    { rewrite Em. rewrite mget1_flat. 2:{ replace (nS * (nH * oR * oC))%nat with (nS * nH * (oR * oC))%nat by ring. assert (1 <= nS * nH)%nat by nia. nia. }
      apply Ok_eq. specialize (Hm 0%nat 0%nat (i / oC)%nat (i mod oC)%nat HH H1 H2). unfold addr4 in Hm. rewrite !Nat.mul_0_l, !Nat.add_0_l, idx_eq in Hm by auto. rewrite Hm. reflexivity. }
    eapply eq_trans; [apply (f_equal (fun z => bind z _)); exact E1|]. cbn [bind].
    change (mrows (mflat nS (nH * nR * nC) q')) with nS. change (mcols (mflat nS (nH * nR * nC) q')) with (nH * nR * nC)%nat. unfold assert_. rewrite ltb_true by auto. cbn [bind].
    unfold offsetIdx. rewrite (toInt_INR jk). cbn [bind].
    match goal with |- context [(?z <? 0)%Z] => replace (z <? 0)%Z with false by (symmetry; apply Z.ltb_ge; lia) end. cbn [bind].
    rewrite <- Nat2Z.inj_add, Nat2Z.id. destruct (PB i Hi) as [B1 B2].
    replace (s * (nH * nR * nC) + h * (nR * nC) + (mxR fr (i / oC) (P i) * nC + mxC fc (i mod oC) (P i)))%nat with (ad s h i) by (unfold ad; rewrite addr4_pix, <- pix_flat; lia).
    rewrite rset_flat by (apply addr4_lt; auto). cbn [bind]. reflexivity.
  - apply Ok_eq, flat_tens. intros s h r c Hs Hh Hr Hc.
    assert (HA : forall s' h' i, (s' < nS)%nat -> (h' < nH)%nat -> (i < oR * oC)%nat -> ad s' h' i = addr4 nH nR nC s h r c ->
       s' = s /\ h' = h /\ (r / fr = i / oC)%nat /\ (c / fc = i mod oC)%nat /\ (r mod fr = fst (P i))%nat /\ (c mod fc = snd (P i))%nat).
    { intros s' h' i Hs' Hh' Hi E. destruct (PB i Hi) as [B1 B2]. apply addr4_inj in E; auto. destruct E as (-> & -> & <- & <-).
      pose proof (@div_lt_r _ _ _ Hi) as H1. pose proof (@mod_lt_c _ _ _ Hi) as H2. destruct (Hp _ _ H1 H2) as [H3 H4]. unfold mxR, mxC. fold (P i) in H3, H4.
      rewrite !idx_div, !idx_mod by auto. repeat split; reflexivity. }
    unfold routed. destruct ((r / fr <? nR / fr)%nat && (c / fc <? nC / fc)%nat && ((r mod fr =? fst (p 0%nat 0%nat (r / fr) (c / fc)))%nat && (c mod fc =? snd (p 0%nat 0%nat (r / fr) (c / fc)))%nat)) eqn:E.
    + rewrite !andb_true_iff, !Nat.ltb_lt, !Nat.eqb_eq in E. destruct E as [[E1 E2] [E3 E4]]. set (V := G s h (r / fr)%nat (c / fc)%nat). fold oR in E1. fold oC in E2.
      assert (KP : forall s' h' i, (s' < nS)%nat -> (h' < nH)%nat -> (i < oR * oC)%nat -> keeps V (fun v => if (ad s' h' i =? addr4 nH nR nC s h r c)%nat then G s' h' (i / oC)%nat (i mod oC)%nat else v)).
      { intros s' h' i Hs' Hh' Hi. apply if_keeps. intro K. apply Nat.eqb_eq in K. apply HA in K; auto. destruct K as (-> & -> & <- & <- & _). reflexivity. }
      assert (HI : (r / fr * oC + c / fc < oR * oC)%nat) by (apply idx_lt; auto).
      apply (seq_hits R V nS s); auto.
      * intros s' Hs'. apply seq_keeps. intros h' Hh'. apply seq_keeps. intros i Hi. apply KP; auto.
      * apply (seq_hits R V nH h); auto.
        -- intros h' Hh'. apply seq_keeps. intros i Hi. apply KP; auto.
        -- apply (seq_hits R V (oR * oC) (r / fr * oC + c / fc)); auto.
           apply if_hits.
           ++ apply Nat.eqb_eq. unfold ad, P. rewrite idx_div, idx_mod by auto. unfold mxR, mxC. rewrite <- E3, <- E4.
              destruct (Hp _ _ E1 E2). rewrite !idx_eq by lia. reflexivity.
           ++ rewrite idx_div, idx_mod by auto. reflexivity.
    + apply (@fold_left_id R nat). intros v s' Hs'. apply (@fold_left_id R nat). intros v' h' Hh'. apply (@fold_left_id R nat). intros v'' i Hi. apply in_seq in Hs', Hh', Hi.
      destruct (Nat.eqb_spec (ad s' h' i) (addr4 nH nR nC s h r c)) as [K|K]; auto. exfalso. apply HA in K; try lia. destruct K as (_ & _ & K1 & K2 & K3 & K4).
      pose proof (@div_lt_r _ _ _ (proj2 Hi)) as H1. pose proof (@mod_lt_c _ _ _ (proj2 Hi)) as H2.
      rewrite K1, K2, K3, K4 in E. fold (P i) in E. rewrite !Nat.eqb_refl in E. rewrite !ltb_true in E by auto. discriminate.
Qed.
