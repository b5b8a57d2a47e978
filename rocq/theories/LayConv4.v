(* LayConv4.v - convolution: gradients; the two col2im paths differ in float arithmetic *)
From Coq Require Import List Arith Bool Lia Reals Lra ZArith.
From Coquelicot Require Import Coquelicot.
From Verif Require Import Base Scalar Mat SpecMat SpecReal RSum MatFacts MatProofs MatLoops Scatter RDeriv Loss SpecLoss LayMat LayImg LayKit SpecLayer LayGrad LayCurve LayTens ImgKit ImgDot LayProofs2 LayConv1 LayConv2 LayConv3.
Import ListNotations.
Local Open Scope R_scope.

Lemma conv_out : forall jk v fast nS (W X : nat -> nat -> R) col, convOk v = Ok tt -> mwf col ->
  out_ (fwdConv (ROps jk) v fast (mgen (vO v) (vI v * vkr v * vkc v) W) col (mgen nS (vI v * vR v * vC v) X)) =
  Ok (mgen nS (vO v * oR v * oC v) (unimg (oR v) (oC v) (xcorr v W (img (vR v) (vC v) X)))).
Proof.
  intros jk v fast nS W X col Hok Hcol. rewrite (tens_img R nS (vI v) (vR v) (vC v) X). rewrite (conv_forward jk v fast nS W _ col Hok Hcol). unfold out_, snd. rewrite <- (tens_unimg R). reflexivity.
Qed.

Lemma conv_gradients : forall jk v fast nS (W X G : nat -> nat -> R) col gin, convOk v = Ok tt -> mwf col -> mwf gin -> (0 < vkr v)%nat -> (0 < vkc v)%nat -> (0 < vO v)%nat -> exists col' gw gi,
  state_ (fwdConv (ROps jk) v fast (mgen (vO v) (vI v * vkr v * vkc v) W) col (mgen nS (vI v * vR v * vC v) X)) = Ok col' /\
  (forall first : bool, bwdConv (ROps jk) v fast first nS (mgen (vO v) (vI v * vkr v * vkc v) W) col' (mgen nS (vI v * vR v * vC v) X) (mgen nS (vO v * oR v * oC v) G) gin =
    Ok (mgen (vO v) (vI v * vkr v * vkc v) gw, if first then gin else mgen nS (vI v * vR v * vC v) gi)) /\
  gradOf (vO v) (vI v * vkr v * vkc v) 1 (fun W' => obj G (out_ (fwdConv (ROps jk) v fast (mgen (vO v) (vI v * vkr v * vkc v) W') col (mgen nS (vI v * vR v * vC v) X)))) W gw /\
  gradOf nS (vI v * vR v * vC v) (INR (vkr v * vkc v * vO v)) (fun X' => obj G (out_ (fwdConv (ROps jk) v fast (mgen (vO v) (vI v * vkr v * vkc v) W) col (mgen nS (vI v * vR v * vC v) X')))) X gi.
Proof.
  intros jk v fast nS W X G col gin Hok Hcol Hgin Hkr Hkc HO. set (K := (vI v * vkr v * vkc v)%nat). set (N := (vI v * vR v * vC v)%nat). set (G4 := img (oR v) (oC v) G).
  set (u := fun o i => G4 (i / oC v / oR v)%nat o ((i / oC v) mod oR v)%nat (i mod oC v)%nat). set (C := colAt v (img (vR v) (vC v) X)).
  set (gw := fun o k => rsum (nS * oR v * oC v) (fun i => u o i * C i k)).
  set (gcol := fun k i => rsum (vO v) (fun o => W o k * u o i)).
  destruct (col2im_adjoint jk v fast nS gcol gin Hgin) as (gi & E1 & E2).
  exists (mgen (nS * oR v * oC v) K C), gw, (fun i j => gi i j * cscale v). split; [|split; [|split]].
  - unfold N. rewrite (tens_img R nS (vI v) (vR v) (vC v) X). rewrite (conv_forward jk v fast nS W _ col Hok Hcol). reflexivity.
  - intro first. unfold bwdConv. change (mrows (mgen nS (vO v * oR v * oC v) G)) with nS. change (mcols (mgen nS (vO v * oR v * oC v) G)) with (vO v * oR v * oC v)%nat.
    unfold assert_. rewrite Nat.eqb_refl. replace (vO v * oR v * oC v =? oR v * oC v * vO v)%nat with true by (symmetry; apply Nat.eqb_eq; ring). cbn [bind].
    rewrite (tens_img R nS (vO v) (oR v) (oC v) G). rewrite (reshapeFromOut_gen (ROps jk)). cbn [bind].
    change (fun o i => img (oR v) (oC v) G (i / oC v / oR v)%nat o ((i / oC v) mod oR v)%nat (i mod oC v)%nat) with u.
    rewrite (mmul_gen (ROps jk)). cbn [bind].
    assert (EW : mgen (vO v) K (fun i j => fsum (ROps jk) (nS * oR v * oC v) (fun l => fmul (ROps jk) (u i l) (C l j))) = mgen (vO v) K gw).
    { apply mgen_ext. intros i j _ _. rewrite fsum_R. reflexivity. }
    rewrite EW. change (mrows (mgen (vO v) K gw)) with (vO v). change (mcols (mgen (vO v) K gw)) with K. change (mrows (mgen (vO v) K W)) with (vO v). change (mcols (mgen (vO v) K W)) with K.
    rewrite !Nat.eqb_refl. cbn [bind]. destruct first; [reflexivity|].
    rewrite (mtranspose_gen (ROps jk)). cbn [bind]. rewrite (mmul_gen (ROps jk)). cbn [bind].
    assert (EG : mgen K (nS * oR v * oC v) (fun i j => fsum (ROps jk) (vO v) (fun l => fmul (ROps jk) (W l i) (u l j))) = mgen K (nS * oR v * oC v) gcol).
    { apply mgen_ext. intros i j _ _. rewrite fsum_R. reflexivity. }
    rewrite EG. unfold K.
    assert (E1' : (if fast then col2imLUT (ROps jk) v nS (mgen (vI v * vkr v * vkc v) (nS * oR v * oC v) gcol) gin else col2im (ROps jk) v nS (mgen (vI v * vkr v * vkc v) (nS * oR v * oC v) gcol) gin)
      = Ok (mgen nS N (fun i j => gi i j * cscale v))) by exact E1.
    rewrite E1'. cbn [bind]. change (mrows (mgen nS N X)) with nS. change (mcols (mgen nS N X)) with N.
    change (mrows (mgen nS N (fun i j => gi i j * cscale v))) with nS. change (mcols (mgen nS N (fun i j => gi i j * cscale v))) with N. rewrite !Nat.eqb_refl. reflexivity.
  - apply linear_gradient with (n := nS) (m := (vO v * oR v * oC v)%nat) (L := fun Q => unimg (oR v) (oC v) (xcorr v Q (img (vR v) (vC v) X))).
    + intro Q. apply conv_out; auto.
    + intros P t dP HP. eexists. split.
      * apply dcurve_unimg. apply (xcorr_curve v nS P (fun _ => img (vR v) (vC v) X) t dP (fun _ _ _ _ => 0) HP). apply dcurve4_const.
      * rewrite dot_unimg. fold G4. transitivity (dot4 nS (vO v) (oR v) (oC v) G4 (xcorr v dP (img (vR v) (vC v) X))).
        -- apply dot4_ext. intros. rewrite xcorr_zero_r. cbv beta. unfold G4. ring.
        -- rewrite dot_xcorr_w. reflexivity.
  - assert (HG : gradOf nS N 1 (fun X' => obj G (out_ (fwdConv (ROps jk) v fast (mgen (vO v) K W) col (mgen nS N X')))) X gi).
    { apply linear_gradient with (n := nS) (m := (vO v * oR v * oC v)%nat) (L := fun Q => unimg (oR v) (oC v) (xcorr v W (img (vR v) (vC v) Q))).
      + intro Q. apply conv_out; auto.
      + intros P t dP HP. eexists. split.
        * apply dcurve_unimg. apply (xcorr_curve v nS (fun _ => W) (fun x => img (vR v) (vC v) (P x)) t (fun _ _ => 0) (img (vR v) (vC v) dP)). apply dcurve_const. apply dcurve_img. exact HP.
        * rewrite dot_unimg. fold G4. transitivity (dot4 nS (vO v) (oR v) (oC v) G4 (xcorr v W (img (vR v) (vC v) dP))).
          -- apply dot4_ext. intros. rewrite xcorr_zero_l. cbv beta. unfold G4. ring.
          -- rewrite dot_xcorr. unfold N. rewrite E2. apply sum6_ext. intros s r c h a b Hs Hr Hc Hh Ha Hb. unfold gcol, u, crow. f_equal. apply rsum_ext. intros o Ho.
             rewrite pix_h, pix_r, pix_c by auto. reflexivity. }
    intros a b Ha Hb. specialize (HG a b Ha Hb). replace (INR (vkr v * vkc v * vO v) * (gi a b * cscale v)) with (1 * gi a b); [exact HG|].
    unfold cscale. field. apply not_0_INR. nia.
Qed.

(* The two col2im paths add the contributions of one image row in opposite orders.  Three 1 x 3 windows on a
   1 x 5 image all cover the middle cell; with contributions 2^24, 1, 1 the sums 2^24 + 1 + 1 differ. *)
Lemma col2im_paths_refuted : forall lm pw junk, exists v nS col, 
  let F := B32Ops lm pw junk in
  col2imLUT F v nS (mgen (vI v * vkr v * vkc v) (nS * oR v * oC v) col) (mempty F) <> col2im F v nS (mgen (vI v * vkr v * vkc v) (nS * oR v * oC v) col) (mempty F).
Proof.
  intros lm pw junk. pose (F := B32Ops lm pw junk).
  exists (mkConv 1 5 1 1 3 1 1 1), 1%nat, (fun i j => if (i =? 2)%nat && (j =? 0)%nat then fofZ F 16777216 else if ((i =? 1) && (j =? 1) || (i =? 0) && (j =? 2))%nat then fofZ F 1 else fofZ F 0).
  intros G H. apply (f_equal (fun r : res (mat G) => match r with Ok a => feq G (nth 2 (mdata a) (f0 G)) (fmul G (fofZ G 16777216) (imScale G (mkConv 1 5 1 1 3 1 1 1))) | Err _ => true end)) in H.
  revert H. vm_compute. discriminate.
Qed.
