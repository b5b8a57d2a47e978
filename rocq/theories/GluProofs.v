(* GluProofs.v - the gated linear units *)
From Coq Require Import String List Arith Bool Lia Reals Lra.
From Coquelicot Require Import Coquelicot.
From Verif Require Import Base Scalar Mat SpecMat SpecReal RSum MatFacts Act SpecAct ActDeriv ActProofs LayMat LayImg Layer SpecLayer LayProofs4 LayGlu SpecGlu.
Import ListNotations.
Local Open Scope R_scope.

Definition gact (g : glu) : actKind * actKind :=
  match g with
  | GBilinear => (AIdentity, AIdentity) | GGLU => (AIdentity, ASigmoid) | GGEGLU => (AIdentity, AGELU) | GGTU => (ATanh, ASigmoid)
  | GReGLU => (AIdentity, ARelu) | GSeGLU => (AIdentity, ASelu) | GSwiGLU => (AIdentity, ASwish)
  end.
Lemma gluNew_eq : forall F r g, gluNew F r g = Ok (layBase F (KGated (Some (fst (gact g))) (Some (snd (gact g)))) "" "").
Proof. intros F r []; reflexivity. Qed.
Lemma glu_cell : forall jk g x y, act_apply (ROps jk) (fst (gact g)) x * act_apply (ROps jk) (snd (gact g)) y = gluFormula g x y.
Proof.
  intros jk g x y. destruct g; cbn [gact fst snd gluFormula]; act; try (replace (IZR 2 / IZR (Z.pos 1)) with 2 by (field)); try reflexivity.
  - unfold gaussCdf, Rerf. replace (2 / 1) with 2 by field. field. apply Rgt_not_eq, sqrt_lt_R0, PI_RGT_0.
  - unfold Rltb. destruct (Rlt_dec 0 y); [rewrite Rmax_right by lra|rewrite Rmax_left by lra]; reflexivity.
  - unfold seluOf, Rleb. destruct (Rlt_dec y 0); destruct (Rle_dec 0 y); try lra; field.
  - unfold sigmoid. exps y. field. lra.
Qed.

(* the layer computes the formula *)
Lemma glu_formula : forall jk r g, exists l, gluNew (ROps jk) r g = Ok l /\ forall r' n h X out, mwf out ->
  layForward (ROps jk) r' l (mgen n (2 * h) X) out = Ok (l, mgen n h (fun i c => gluFormula g (X i c) (X i (c + h)%nat))).
Proof.
  intros jk r g. eexists. split; [apply gluNew_eq|]. intros r' n h X out Ho. unfold layForward. cbn [lk layBase].
  rewrite (fwdGated_gen (ROps jk)) by auto. cbn [bind]. do 2 f_equal. apply mgen_ext. intros i j Hi Hj. apply glu_cell.
Qed.
(* the backward pass is its gradient, GEGLU aside, where no second half lies at a corner of Relu or Selu *)
Lemma glu_gradient : forall jk r g, g <> GGEGLU -> exists l, gluNew (ROps jk) r g = Ok l /\ forall r' n h X G out gin, mwf out -> mwf gin ->
  (g = GReGLU \/ g = GSeGLU -> forall i j, (i < n)%nat -> (j < h)%nat -> X i (j + h)%nat <> 0) ->
  exists gi, layBackward (ROps jk) l (mgen n (2 * h) X) (mgen n h G) gin = Ok (l, mgen n (2 * h) gi) /\
  gradOf n (2 * h) 1 (fun X' => obj G (out_ (layForward (ROps jk) r' l (mgen n (2 * h) X') out))) X gi.
Proof.
  intros jk r g Hg. eexists. split; [apply gluNew_eq|]. intros r' n h X G out gin Ho Hgin Hc.
  assert (O1 : ~ odd_derivative (fst (gact g))) by (destruct g; unfold odd_derivative; cbn; intuition discriminate).
  assert (O2 : ~ odd_derivative (snd (gact g))) by (destruct g; try congruence; unfold odd_derivative; cbn; intuition discriminate).
  destruct (gated_gradient jk (fst (gact g)) (snd (gact g)) n h X G out gin Ho Hgin O1 O2) as (gi & H1 & H2).
  { intros i j Hi Hj. split; [destruct g; cbn; tauto|]. destruct g; cbn; try tauto.
    - intros [E|[]]. apply (Hc (or_introl eq_refl) i j Hi Hj). auto.
    - intros [E|[]]. apply (Hc (or_intror eq_refl) i j Hi Hj). auto. }
  exists gi. split.
  - unfold layBackward. cbn [lk layBase lfirst]. rewrite H1. reflexivity.
  - intros a b Ha Hb. specialize (H2 a b Ha Hb). eapply LayGrad.partial_ext; [|exact H2]. intros Q. cbn beta.
    unfold layForward. cbn [lk layBase]. destruct (fwdGated _ _ _ _ _); reflexivity.
Qed.
(* a clone is the same object *)
Lemma glu_clone : forall F r r' g, exists l, gluNew F r g = Ok l /\ layClone F r' l = Ok l.
Proof. intros F r r' g. eexists. split; [apply gluNew_eq|]. destruct g; reflexivity. Qed.
