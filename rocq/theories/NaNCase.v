(* NaNCase.v - a (crude) C library meeting stdLibm *)
From Coq Require Import List Arith ZArith Reals Lra Lia Bool.
From Flocq Require Import Core IEEE754.BinarySingleNaN.
From Verif Require Import Base Scalar B32Int Act SpecRound RoundProofs1 SpecNaN B32Kit NaNAct.
Import ListNotations.
Local Open Scope R_scope.

Definition stepLm (f : libm) (x : b32) : b32 :=
  match f with
  | Lexp => match x with B754_infinity true => z32 | _ => if b32_le (b32_of_Z 89) x then inf32 false else one end
  | Llog => if b32_lt x z32 then B754_nan else z32
  | Llog1p => match x with B754_infinity false => x | _ => z32 end
  | Lcosh => match x with B754_infinity false => x | _ => one end
  | Lsin => match x with B754_infinity _ => B754_nan | _ => one end
  | Lcos => match x with B754_infinity _ => B754_nan | _ => one end
  | _ => z32
  end.
Definition stepPw (x y : b32) : b32 := one.

Lemma btw_one : forall lo hi, lo <= 1 <= hi -> btw lo hi one.
Proof. intros. apply val_btw; [reflexivity|]. rewrite one_val. lra. Qed.
Lemma btw_z : forall lo hi, lo <= 0 <= hi -> btw lo hi z32.
Proof. intros. apply val_btw; [reflexivity|]. rewrite z_val. lra. Qed.
Lemma exp_cases : forall x, num x -> (stepLm Lexp x = z32 /\ ext x = - max32) \/ (stepLm Lexp x = one /\ ext x < 89) \/ (stepLm Lexp x = inf32 false /\ 89 <= ext x).
Proof.
  intros x N. pose proof max_big. destruct (fin_cases x N) as [Hx|[s ->]].
  - rewrite fin_ext by auto. right. assert (E : stepLm Lexp x = if b32_le (b32_of_Z 89) x then inf32 false else one) by (destruct x as [|[|]| |]; try discriminate Hx; reflexivity).
    pose proof (ofZ_val 89 ltac:(lia)) as [F89 V89]. rewrite E. destruct (b32_le (b32_of_Z 89) x) eqn:L.
    + apply le_val in L; auto. rewrite V89 in L. right. split; auto.
    + apply nle_val in L; auto. rewrite V89 in L. left. split; auto.
  - destruct s; [left | right; right]; split; try reflexivity; cbn [ext inf32]; lra.
Qed.
Lemma big93 : 1 < p2 93 < max32. Proof. unfold max32, p2. simpl. lra. Qed.
Lemma inf_btw : btw 1 max32 (inf32 false). Proof. split; [exact Logic.I || discriminate || reflexivity|]. cbn [ext inf32]. pose proof max_big. lra. Qed.
Lemma step_std : stdLibm stepLm stepPw.
Proof.
  pose proof max_big as M. pose proof big93. assert (P7 : 1 < p2 7) by (unfold p2; simpl; lra). assert (P11 : 1 < p2 11) by (unfold p2; simpl; lra).
  assert (Pm : 0 < p2 (-47) < 1) by (unfold p2; simpl; lra). assert (P47 : 1 < p2 47) by (unfold p2; simpl; lra).
  split; intros.
  - destruct (exp_cases x H0) as [[-> _]|[[-> _]|[-> _]]]; [apply btw_z; lra | apply btw_one; lra |]. eapply btw_w; [apply inf_btw | lra | lra].
  - destruct (exp_cases x H0) as [[-> _]|[[-> _]|[_ ?]]]; [apply btw_z; lra | apply btw_one; lra | lra].
  - destruct (exp_cases x H0) as [[_ ?]|[[-> _]|[-> _]]]; [lra | apply btw_one; lra | apply inf_btw].
  - apply Rabs_le_inv in H1. destruct (exp_cases x H0) as [[_ ?]|[[-> _]|[_ ?]]]; [lra | apply btw_one; lra | lra].
  - destruct (exp_cases x H0) as [[-> _]|[[-> _]|[_ ?]]]; [apply btw_z; lra | apply btw_one; lra | lra].
  - destruct (exp_cases x H0) as [[_ ?]|[[_ ?]|[-> _]]]; [lra | lra | reflexivity].
  - reflexivity.
  - apply btw_z; lra.
  - simpl. destruct (b32_lt x z32) eqn:L; [|reflexivity || discriminate || exact Logic.I]. exfalso. destruct (fin_cases x H0) as [Hx|[s ->]].
    + apply lt_val in L; auto; [|reflexivity]. rewrite fin_ext in H1 by auto. rewrite z_val in L. lra.
    + destruct s; [cbn [ext inf32] in H1; lra | discriminate L].
  - simpl. destruct (b32_lt x z32) eqn:L; [apply lt_val in L; auto; [rewrite z_val in L; lra | reflexivity] |]. apply btw_z; lra.
  - simpl. destruct (b32_lt x z32) eqn:L; [reflexivity|]. exfalso. destruct (fin_cases x H0) as [Hx|[s ->]].
    + rewrite fin_ext in H1 by auto. destruct x as [|s| |s m e B]; try discriminate Hx; [simpl in H1; lra|]. destruct s; [discriminate L|]. assert (0 <= val (B754_finite false m e B)) by (unfold val; simpl; apply F2R_ge_0; simpl; lia). lra.
    + destruct s; [discriminate L | cbn [ext inf32] in H1; lra].
  - destruct x as [|[|]| |]; cbn [stepLm]; try (apply btw_z; lra). eapply btw_w; [apply inf_btw | lra | lra].
  - destruct x as [|[|]| |]; try discriminate H0; apply btw_z; lra.
  - reflexivity.
  - apply btw_z; lra.
  - destruct x as [|[|]| |]; cbn [stepLm]; try (apply btw_one; lra). apply inf_btw.
  - reflexivity.
  - destruct x as [|[|]| |]; try discriminate H0; apply btw_one; lra.
  - destruct x as [|[|]| |]; try discriminate H0; cbn [stepLm]; change (0 < ext one); rewrite fin_ext by reflexivity; rewrite one_val; lra.
  - reflexivity.
  - destruct x as [|[|]| |]; try discriminate H0; apply btw_one; lra.
  - destruct x as [|[|]| |]; try discriminate H0; apply btw_one; lra.
  - reflexivity.
  - apply btw_z; lra.
  - apply btw_z; lra.
  - apply btw_z; lra.
  - apply btw_one; lra.
  - apply btw_one; lra.
Qed.
