(* LayPool5.v - max pooling: the gradient, and where the code deviates *)
From Coq Require Import List Arith Bool Lia Reals Lra ZArith.
From Coquelicot Require Import Coquelicot.
From Verif Require Import Base Scalar Mat SpecMat SpecReal RSum MatFacts MatProofs MatLoops Scatter RDeriv Loss SpecLoss LayMat LayImg LayKit SpecLayer LayGrad LayCurve LayTens ImgKit ImgDot LayProofs2 LayPool1 LayPool2 LayPool3 LayPool4.
Import ListNotations.
Local Open Scope R_scope.

Lemma winMax_unique : forall fr fc w a b a' b', winMax fr fc w a b -> winMax fr fc w a' b' -> a = a' /\ b = b'.
Proof.
  intros fr fc w a b a' b' (H1 & H2 & H3 & H4) (H1' & H2' & H3' & H4'). destruct (lt_eq_lt_dec (a * fc + b) (a' * fc + b')) as [[L|E]|L].
  - exfalso. specialize (H4' a b H1 H2 L). specialize (H3 a' b' H1' H2'). lra.
  - apply idx_inj in E; auto.
  - exfalso. specialize (H4 a' b' H1' H2' L). specialize (H3' a b H1 H2). lra.
Qed.

(* p s h r c: offsets of the only maximum of window (r, c) of channel h of sample s, which lies above -1e38 *)
Definition peaks (nS nH nR nC fr fc : nat) (t : nat -> nat -> nat -> nat -> R) (p : nat -> nat -> nat -> nat -> nat * nat) : Prop :=
  forall s h r c, (s < nS)%nat -> (h < nH)%nat -> (r < nR / fr)%nat -> (c < nC / fc)%nat ->
    (fst (p s h r c) < fr)%nat /\ (snd (p s h r c) < fc)%nat /\ - 10 ^ 38 < t s h (mxR fr r (p s h r c)) (mxC fc c (p s h r c)) /\
    forall a b, (a < fr)%nat -> (b < fc)%nat -> (a, b) <> p s h r c -> t s h (r * fr + a)%nat (c * fc + b)%nat < t s h (mxR fr r (p s h r c)) (mxC fc c (p s h r c)).

Lemma maxpool_peaks : forall jk nS nH nR nC fr fc t p mx out, mwf mx -> mwf out -> peaks nS nH nR nC fr fc t p ->
  fwdMaxPool (ROps jk) (mkPool nR nC nH fr fc) true mx (tens nS nH nR nC t) out =
    Ok (tens nS nH (nR / fr) (nC / fc) (fun s h r c => INR (mxR fr r (p s h r c) * nC + mxC fc c (p s h r c))),
        tens nS nH (nR / fr) (nC / fc) (fun s h r c => t s h (mxR fr r (p s h r c)) (mxC fc c (p s h r c)))).
Proof.
  intros jk nS nH nR nC fr fc t p mx out Hmx Hout Hp.
  destruct (maxpool_forward jk nS nH nR nC fr fc t mx out Hmx Hout) as (p' & H1 & H2 & _).
  - intros s h r c Hs Hh Hr Hc. destruct (Hp s h r c Hs Hh Hr Hc) as (A & B & C & _). exists (fst (p s h r c)), (snd (p s h r c)). auto.
  - assert (E : forall s h r c, (s < nS)%nat -> (h < nH)%nat -> (r < nR / fr)%nat -> (c < nC / fc)%nat -> p' s h r c = p s h r c).
    { intros s h r c Hs Hh Hr Hc. specialize (H1 s h r c Hs Hh Hr Hc). destruct (Hp s h r c Hs Hh Hr Hc) as (A & B & C & D).
      assert (W : winMax fr fc (fun a b => t s h (r * fr + a)%nat (c * fc + b)%nat) (fst (p s h r c)) (snd (p s h r c))).
      { split; auto. split; auto. split.
        - intros a b Ha Hb. destruct (Nat.eq_dec a (fst (p s h r c))) as [Ea|Ea], (Nat.eq_dec b (snd (p s h r c))) as [Eb|Eb].
          + subst. lra.
          + apply Rlt_le, D; auto. intro K. apply Eb. rewrite <- K. reflexivity.
          + apply Rlt_le, D; auto. intro K. apply Ea. rewrite <- K. reflexivity.
          + apply Rlt_le, D; auto. intro K. apply Eb. rewrite <- K. reflexivity.
        - intros a b Ha Hb L. apply D; auto. intro K. rewrite <- K in L. simpl in L. lia. }
      destruct (winMax_unique _ _ _ _ _ _ _ H1 W) as [E1 E2]. destruct (p' s h r c), (p s h r c). simpl in *. congruence. }
    rewrite H2. apply Ok_eq. f_equal; apply tens_ext; intros; rewrite E by auto; reflexivity.
Qed.

Lemma routed_sum : forall nS nH nR nC fr fc (p : nat -> nat -> nat -> nat -> nat * nat) G s k, (s < nS)%nat -> (k < nH * nR * nC)%nat ->
  (forall s h r c, (s < nS)%nat -> (h < nH)%nat -> (r < nR / fr)%nat -> (c < nC / fc)%nat -> (fst (p s h r c) < fr)%nat /\ (snd (p s h r c) < fc)%nat) ->
  rsum (nH * (nR / fr) * (nC / fc)) (fun j => if (unimg (nR / fr) (nC / fc) (fun s h r c => pix nR nC h (mxR fr r (p s h r c)) (mxC fc c (p s h r c))) s j =? k)%nat then G s j else 0) =
  unimg nR nC (routed nR nC fr fc p (img (nR / fr) (nC / fc) G)) s k.
Proof.
  intros nS nH nR nC fr fc p G s k Hs Hk Hp. set (oR := (nR / fr)%nat) in *. set (oC := (nC / fc)%nat) in *.
  destruct (pix_inv nH nR nC k Hk) as (K1 & K2 & K3 & K4). set (h := (k / nC / nR)%nat) in *. set (r := ((k / nC) mod nR)%nat) in *. set (c := (k mod nC)%nat) in *.
  unfold unimg at 2. fold h r c.
  assert (HA : forall j, (j < nH * oR * oC)%nat -> unimg oR oC (fun s h r c => pix nR nC h (mxR fr r (p s h r c)) (mxC fc c (p s h r c))) s j = k ->
     j = pix oR oC h (r / fr) (c / fc) /\ (r / fr < oR)%nat /\ (c / fc < oC)%nat /\ (r mod fr = fst (p s h (r / fr) (c / fc)))%nat /\ (c mod fc = snd (p s h (r / fr) (c / fc)))%nat).
  { intros j Hj E. destruct (pix_inv nH oR oC j Hj) as (J1 & J2 & J3 & J4). unfold unimg in E. set (h' := (j / oC / oR)%nat) in *. set (r' := ((j / oC) mod oR)%nat) in *. set (c' := (j mod oC)%nat) in *.
    destruct (Hp s h' r' c' Hs J1 J2 J3) as [P1 P2].
    assert (M1 : (mxR fr r' (p s h' r' c') < nR)%nat) by (apply win_lt; auto). assert (M2 : (mxC fc c' (p s h' r' c') < nC)%nat) by (apply win_lt; auto).
    assert (Eh : h = h') by (unfold h; rewrite <- E; apply pix_h; auto). assert (Er : r = mxR fr r' (p s h' r' c')) by (unfold r; rewrite <- E; apply pix_r; auto).
    assert (Ec : c = mxC fc c' (p s h' r' c')) by (unfold c; rewrite <- E; apply pix_c; auto).
    assert (D1 : (r / fr = r')%nat) by (rewrite Er; apply idx_div; auto). assert (D2 : (c / fc = c')%nat) by (rewrite Ec; apply idx_div; auto).
    rewrite D1, D2, Eh. split; [symmetry; exact J4|]. split; auto. split; auto. rewrite Er, Ec. split; apply idx_mod; auto. }
  unfold routed. fold oR oC.
  destruct ((r / fr <? oR)%nat && (c / fc <? oC)%nat && ((r mod fr =? fst (p s h (r / fr)%nat (c / fc)%nat))%nat && (c mod fc =? snd (p s h (r / fr)%nat (c / fc)%nat))%nat)) eqn:E.
  - rewrite !andb_true_iff, !Nat.ltb_lt, !Nat.eqb_eq in E. destruct E as [[E1 E2] [E3 E4]].
    rewrite (rsum_single _ (pix oR oC h (r / fr) (c / fc))).
    + unfold unimg. rewrite pix_h, pix_r, pix_c by auto. unfold mxR, mxC. rewrite <- E3, <- E4. destruct (Hp s h (r / fr)%nat (c / fc)%nat Hs K1 E1 E2).
      rewrite !idx_eq by lia. rewrite K4, Nat.eqb_refl. reflexivity.
    + apply pix_lt; auto.
    + intros j Hj Hn. destruct (Nat.eqb_spec (unimg oR oC (fun s h r c => pix nR nC h (mxR fr r (p s h r c)) (mxC fc c (p s h r c))) s j) k) as [E|]; auto.
      apply HA in E; auto. destruct E as [E _]. contradiction.
  - apply rsum_zero. intros j Hj. destruct (Nat.eqb_spec (unimg oR oC (fun s h r c => pix nR nC h (mxR fr r (p s h r c)) (mxC fc c (p s h r c))) s j) k) as [K|]; auto.
    exfalso. apply HA in K; auto. destruct K as (_ & L1 & L2 & L3 & L4). rewrite !ltb_true in E by auto. rewrite <- L3, <- L4, !Nat.eqb_refl in E. discriminate.
Qed.

Lemma maxpool_true_gradient : forall jk nS nH nR nC fr fc X G p mx out, mwf mx -> mwf out -> peaks nS nH nR nC fr fc (img nR nC X) p ->
  gradOf nS (nH * nR * nC) 1 (fun X' => obj G (out_ (fwdMaxPool (ROps jk) (mkPool nR nC nH fr fc) true mx (mgen nS (nH * nR * nC) X') out))) X
    (unimg nR nC (routed nR nC fr fc p (img (nR / fr) (nC / fc) G))).
Proof.
  intros jk nS nH nR nC fr fc X G p mx out Hmx Hout Hp. set (oR := (nR / fr)%nat). set (oC := (nC / fc)%nat).
  assert (HB : forall s h r c, (s < nS)%nat -> (h < nH)%nat -> (r < oR)%nat -> (c < oC)%nat -> (fst (p s h r c) < fr)%nat /\ (snd (p s h r c) < fc)%nat).
  { intros s h r c Hs Hh Hr Hc. destruct (Hp s h r c Hs Hh Hr Hc) as (A & B & _). auto. }
  set (sel := unimg oR oC (fun s h r c => pix nR nC h (mxR fr r (p s h r c)) (mxC fc c (p s h r c)))).
  eapply gradOf_ext; [|apply (sel_gradient nS (nH * oR * oC) (nH * nR * nC) sel)].
  - intros s k Hs Hk. simpl. apply (routed_sum nS); auto.
  - intros s j Hs Hj. destruct (pix_inv nH oR oC j Hj) as (J1 & J2 & J3 & J4). unfold sel, unimg. destruct (HB s _ _ _ Hs J1 J2 J3). apply pix_lt; auto; apply win_lt; auto.
  - intros a b Ha Hb.
    assert (LA : locally (X a b) (fun x => peaks nS nH nR nC fr fc (img nR nC (upd2 X a b x)) p)).
    { unfold peaks. 
      assert (L4 : locally (X a b) (fun x => forall s, (s < nS)%nat -> forall h, (h < nH)%nat -> forall r, (r < oR)%nat -> forall c, (c < oC)%nat ->
        - 10 ^ 38 < img nR nC (upd2 X a b x) s h (mxR fr r (p s h r c)) (mxC fc c (p s h r c)) /\
        forall a', (a' < fr)%nat -> forall b', (b' < fc)%nat -> (a', b') <> p s h r c -> img nR nC (upd2 X a b x) s h (r * fr + a')%nat (c * fc + b')%nat < img nR nC (upd2 X a b x) s h (mxR fr r (p s h r c)) (mxC fc c (p s h r c)))).
      { apply loc_all. intros s Hs. apply loc_all. intros h Hh. apply loc_all. intros r Hr. apply loc_all. intros c Hc. destruct (Hp s h r c Hs Hh Hr Hc) as (_ & _ & H2 & H3).
        apply filter_and; [apply cells_gt; exact H2|]. apply loc_all. intros a' Ha'. apply loc_all. intros b' Hb'.
        destruct (Nat.eq_dec a' (fst (p s h r c))) as [E1|E1]; [destruct (Nat.eq_dec b' (snd (p s h r c))) as [E2|E2]|].
        - apply filter_forall. intros x K. exfalso. apply K. subst. destruct (p s h r c); reflexivity.
        - assert (K : (a', b') <> p s h r c) by (intro K; apply E2; rewrite <- K; reflexivity). specialize (H3 a' b' Ha' Hb' K). generalize (cells_lt X a b _ _ _ _ H3). apply filter_imp. auto.
        - assert (K : (a', b') <> p s h r c) by (intro K; apply E1; rewrite <- K; reflexivity). specialize (H3 a' b' Ha' Hb' K). generalize (cells_lt X a b _ _ _ _ H3). apply filter_imp. auto. }
      revert L4. apply filter_imp. intros x HX s h r c Hs Hh Hr Hc. destruct (HB s h r c Hs Hh Hr Hc). destruct (HX s Hs h Hh r Hr c Hc). auto. }
    revert LA. apply filter_imp. intros x HX. cbv beta. rewrite tens_img, (maxpool_peaks jk nS nH nR nC fr fc _ p mx out Hmx Hout HX).
    unfold out_, snd. rewrite tens_unimg. reflexivity.
Qed.

(* one sample, one channel: the code's backward pass is the gradient *)
Lemma maxpool_single_gradient : forall jk nR nC fr fc X G p mx out gin, mwf mx -> mwf out -> mwf gin -> peaks 1 1 nR nC fr fc (img nR nC X) p ->
  exists mx' gi, state_ (fwdMaxPool (ROps jk) (mkPool nR nC 1 fr fc) true mx (mgen 1 (1 * nR * nC) X) out) = Ok mx' /\
  bwdMaxPool (ROps jk) (mkPool nR nC 1 fr fc) false mx' (mgen 1 (1 * (nR / fr) * (nC / fc)) G) gin = Ok (mgen 1 (1 * nR * nC) gi) /\
  gradOf 1 (1 * nR * nC) 1 (fun X' => obj G (out_ (fwdMaxPool (ROps jk) (mkPool nR nC 1 fr fc) true mx (mgen 1 (1 * nR * nC) X') out))) X gi.
Proof.
  intros jk nR nC fr fc X G p mx out gin Hmx Hout Hgin Hp. eexists. exists (unimg nR nC (routed nR nC fr fc p (img (nR / fr) (nC / fc) G))). split; [|split].
  - rewrite tens_img, (maxpool_peaks jk 1 1 nR nC fr fc _ p mx out Hmx Hout Hp). reflexivity.
  - rewrite (tens_img (ROps jk) 1 1 (nR / fr) (nC / fc) G). eapply eq_trans; [apply bwdMaxPool_R; auto|].
    + intros r c Hr Hc. destruct (Hp 0%nat 0%nat r c) as (A & B & _); auto.
    + rewrite <- tens_unimg. apply Ok_eq, tens_ext. intros s h r c Hs Hh _ _. replace s with 0%nat by lia. replace h with 0%nat by lia. reflexivity.
  - apply maxpool_true_gradient; auto.
Qed.

(* in general: the positions of sample 0, channel 0 are used for all *)
Lemma maxpool_backward_actual : forall jk nS nH nR nC fr fc t G p mx out gin, mwf mx -> mwf out -> mwf gin -> (0 < nS)%nat -> (0 < nH)%nat ->
  peaks nS nH nR nC fr fc t p ->
  exists mx', state_ (fwdMaxPool (ROps jk) (mkPool nR nC nH fr fc) true mx (tens nS nH nR nC t) out) = Ok mx' /\
  bwdMaxPool (ROps jk) (mkPool nR nC nH fr fc) false mx' (tens nS nH (nR / fr) (nC / fc) G) gin =
    Ok (tens nS nH nR nC (routed nR nC fr fc (fun _ _ => p 0%nat 0%nat) G)).
Proof.
  intros jk nS nH nR nC fr fc t G p mx out gin Hmx Hout Hgin HS HH Hp. eexists. split.
  - rewrite (maxpool_peaks jk nS nH nR nC fr fc t p mx out Hmx Hout Hp). reflexivity.
  - apply bwdMaxPool_R; auto. intros r c Hr Hc. destruct (Hp 0%nat 0%nat r c) as (A & B & _); auto.
Qed.

(* two samples of one 1 x 2 plane: [5 1] and [1 5]; the gradient of the second sample goes to the wrong cell *)
Lemma maxpool_refuted : forall jk : R, exists nS nH nR nC fr fc X G mx' gi,
  state_ (fwdMaxPool (ROps jk) (mkPool nR nC nH fr fc) true (mempty (ROps jk)) (mgen nS (nH * nR * nC) X) (mempty (ROps jk))) = Ok mx' /\
  bwdMaxPool (ROps jk) (mkPool nR nC nH fr fc) false mx' (mgen nS (nH * (nR / fr) * (nC / fc)) G) (mempty (ROps jk)) = Ok (mgen nS (nH * nR * nC) gi) /\
  peaks nS nH nR nC fr fc (img nR nC X) (fun s _ _ _ => (0, s)%nat) /\
  ~ gradOf nS (nH * nR * nC) 1 (fun X' => obj G (out_ (fwdMaxPool (ROps jk) (mkPool nR nC nH fr fc) true (mempty (ROps jk)) (mgen nS (nH * nR * nC) X') (mempty (ROps jk))))) X gi.
Proof.
  intro jk. set (X := fun s k => if (s =? k)%nat then 5 else 1). set (p := fun s (_ _ _ : nat) => (0, s)%nat).
  assert (HP : peaks 2 1 1 2 1 2 (img 1 2 X) p).
  { intros s h r c Hs Hh Hr Hc. simpl in Hr, Hc. replace h with 0%nat by lia. replace r with 0%nat by lia. replace c with 0%nat by lia.
    unfold p. cbn [fst snd]. split; [lia|]. split; [lia|]. unfold img, mxR, mxC, pix, X. cbn [fst snd]. replace ((0 * 1 + (0 * 1 + 0)) * 2 + (0 * 2 + s))%nat with s by lia.
    rewrite Nat.eqb_refl. split; [assert (0 < 10 ^ 38) by (apply pow_lt; lra); lra|]. intros a b Ha Hb Hn.
    replace a with 0%nat in * by lia. replace ((0 * 1 + (0 * 1 + 0)) * 2 + (0 * 2 + b))%nat with b by lia. destruct (Nat.eqb_spec s b); [subst; exfalso; apply Hn; reflexivity|lra]. }
  set (G := fun (_ _ : nat) => 1).
  destruct (maxpool_backward_actual jk 2 1 1 2 1 2 (img 1 2 X) (img 1 1 G) p (mempty (ROps jk)) (mempty (ROps jk)) (mempty (ROps jk)) eq_refl eq_refl eq_refl ltac:(lia) ltac:(lia) HP) as (mx' & E1 & E2).
  exists 2%nat, 1%nat, 1%nat, 2%nat, 1%nat, 2%nat, X, G, mx', (unimg 1 2 (routed 1 2 1 2 (fun _ _ => p 0%nat 0%nat) (img 1 1 G))).
  split; [rewrite tens_img; exact E1|]. split.
  - rewrite (tens_img (ROps jk) 2 1 (1 / 1) (2 / 2) G). eapply eq_trans; [exact E2|]. rewrite <- tens_unimg. reflexivity.
  - split; [exact HP|]. intro K.
    assert (K2 := maxpool_true_gradient jk 2 1 1 2 1 2 X G p (mempty (ROps jk)) (mempty (ROps jk)) eq_refl eq_refl HP).
    specialize (K 1%nat 0%nat ltac:(lia) ltac:(lia)). specialize (K2 1%nat 0%nat ltac:(lia) ltac:(lia)).
    assert (E := eq_trans (eq_sym (is_derive_unique _ _ _ K)) (is_derive_unique _ _ _ K2)).
    unfold unimg, routed, p, img, G in E. cbn in E. lra.
Qed.

(* memory: an input below -1e38 makes the backward pass write before the buffer *)
Lemma maxpool_oob : forall jk : R, exists nR nC fr fc X G mx', (forall s k, - 3 * 10 ^ 38 < X s k) /\
  state_ (fwdMaxPool (ROps jk) (mkPool nR nC 1 fr fc) true (mempty (ROps jk)) (mgen 1 (1 * nR * nC) X) (mempty (ROps jk))) = Ok mx' /\
  bwdMaxPool (ROps jk) (mkPool nR nC 1 fr fc) false mx' (mgen 1 (1 * (nR / fr) * (nC / fc)) G) (mempty (ROps jk)) = Err EOob.
Proof.
  intro jk. assert (P : 0 < 10 ^ 38) by (apply pow_lt; lra). set (b := 10 ^ 38) in *.
  exists 1%nat, 1%nat, 1%nat, 1%nat, (fun _ _ => - 2 * b), (fun _ _ => 1), (mkMat 1 1 [IZR (-1)]). split; [intros; lra|]. split.
  - unfold fwdMaxPool. cbn -[Rltb bigNeg pow IZR]. rewrite bigNeg_R. fold b. unfold Rltb. destruct (Rlt_dec (- b) (- 2 * b)); [lra|]. reflexivity.
  - unfold bwdMaxPool. cbn -[Rtrunc IZR]. unfold offsetIdx, toInt. cbn -[Rtrunc IZR]. rewrite Rtrunc_IZR. reflexivity.
Qed.
