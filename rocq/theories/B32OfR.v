(* B32OfR.v - the float nearest to a real number, and correctly rounded expf and logf *)
From Coq Require Import List Arith ZArith Reals Lra Lia Bool.
From Flocq Require Import Core IEEE754.BinarySingleNaN.
From Verif Require Import Base Scalar B32Int SpecRound RoundProofs1 SpecNaN B32Kit NaNAct SpecSoft SoftProofs1.
Import ListNotations.
Local Open Scope R_scope.

Notation fexp32 := (SpecFloat.fexp 24 128).
Definition ofR (r : R) : b32 :=
  binary_normalize 24 128 prec32_gt_0 prec32_lt mode_NE (ZnearestE (scaled_mantissa radix2 fexp32 r)) (cexp radix2 fexp32 r) (Rlt_bool r 0).
Lemma ofR_spec : forall r, if Rlt_bool (Rabs (rnd32 r)) (bpow radix2 128) then val (ofR r) = rnd32 r /\ fin (ofR r) else ofR r = inf32 (Rlt_bool (rnd32 r) 0).
Proof.
  intro r. pose proof (binary_normalize_correct 24 128 prec32_gt_0 prec32_lt mode_NE (ZnearestE (scaled_mantissa radix2 fexp32 r)) (cexp radix2 fexp32 r) (Rlt_bool r 0)) as C. cbv zeta in C.
  change (F2R {| Fnum := ZnearestE (scaled_mantissa radix2 fexp32 r); Fexp := cexp radix2 fexp32 r |}) with (rnd32 r) in C.
  assert (E : rnd32 (rnd32 r) = rnd32 r). { apply round_generic; [apply valid_rnd_round_mode|]. apply generic_format_round; [apply fexp_correct; reflexivity | apply valid_rnd_round_mode]. }
  rewrite E in C. fold (ofR r) in C. destruct (Rlt_bool (Rabs (rnd32 r)) (bpow radix2 128)); [split; apply C|]. apply over_inf. exact C.
Qed.
Lemma ofR_fin : forall r, Rabs (rnd32 r) < max32 -> fin (ofR r) /\ val (ofR r) = rnd32 r.
Proof. intros r H. pose proof (ofR_spec r) as C. rewrite Rlt_bool_true in C by exact H. tauto. Qed.
Lemma ofR_btw : forall lo hi r, fmt lo -> fmt hi -> lo <= max32 -> - max32 <= hi -> lo <= r <= hi -> btw lo hi (ofR r).
Proof.
  intros lo hi r Fl Fh Hl Hh B. pose proof (ofR_spec r) as C. apply (sat (ofR r) r (Rlt_bool r 0) lo hi); auto.
  - intro S. destruct (Rlt_bool_spec r 0); [discriminate | auto].
  - intro S. destruct (Rlt_bool_spec r 0); [lra | discriminate].
  - destruct (Rlt_bool_spec (Rabs (rnd32 r)) (bpow radix2 128)) as [L|L]; [exact C|]. rewrite C. f_equal. pose proof (bpow_gt_0 radix2 128).
    destruct (Rlt_bool_spec r 0) as [N|N].
    + pose proof (rnd_le 0 r fmt_0 ltac:(lra)). apply Rlt_bool_true. unfold Rabs in L. destruct (Rcase_abs _); lra.
    + apply Rlt_bool_false. apply rnd_ge; [apply fmt_0 | auto].
Qed.

(* expf and logf, correctly rounded; C11 annex F for the special values *)
Definition expB (x : b32) : b32 :=
  match x with B754_nan => B754_nan | B754_infinity false => inf32 false | B754_infinity true => B754_zero false | _ => ofR (exp (val x)) end.
Definition logB (x : b32) : b32 :=
  match x with
  | B754_nan | B754_infinity true => B754_nan | B754_infinity false => inf32 false | B754_zero _ => inf32 true
  | B754_finite true _ _ _ => B754_nan | B754_finite false _ _ _ => ofR (ln (val x)) end.
Definition roundLm (f : libm) (x : b32) : b32 := match f with Lexp => expB x | Llog => logB x | _ => z32 end.

Lemma expB_fin : forall x, fin x -> expB x = ofR (exp (val x)).
Proof. intros [|[]| |] H; try discriminate H; reflexivity. Qed.
Lemma exp_le_1 : forall v, v <= 0 -> 0 < exp v <= 1.
Proof. intros v H. pose proof (Exp_prop.exp_pos v). split; auto. destruct H as [H| ->]; [left; rewrite <- exp_0; apply exp_increasing; auto | rewrite exp_0; lra]. Qed.
Lemma round_unit : expUnit roundLm.
Proof.
  pose proof max_big. split.
  - intros x N B. cbn [roundLm]. destruct (fin_cases x N) as [Hx|[s ->]].
    + rewrite expB_fin by auto. rewrite fin_ext in B by auto. pose proof (exp_le_1 _ B). apply ofR_btw; try lra; [apply fmt_0 | apply (fmt_Z 1); lia].
    + destruct s; [|cbn [ext inf32] in B; lra]. apply val_btw; [reflexivity|]. change (0 <= val z32 <= 1). rewrite z_val. lra.
  - intros x Hx V. cbn [roundLm]. rewrite expB_fin, V, exp_0 by auto. apply ofR_btw; try lra; apply (fmt_Z 1); lia.
  - cbn [roundLm expB inf32]. apply val_btw; [reflexivity|]. change (0 <= val z32 <= 0). rewrite z_val. lra.
Qed.
Lemma round_close : expClose roundLm (u32 + eta32).
Proof.
  intros x Hx V. cbn [roundLm]. rewrite expB_fin by auto. pose proof (exp_le_1 _ V) as [P Q]. pose proof max_big.
  assert (W : 0 <= rnd32 (exp (val x)) <= 1) by (split; [apply rnd_ge; [apply fmt_0 | lra] | apply rnd_le; [apply (fmt_Z 1); lia | lra]]).
  destruct (ofR_fin (exp (val x))) as [_ ->]; [rewrite Rabs_pos_eq; lra|]. pose proof (round_err (exp (val x))) as R. rewrite (Rabs_pos_eq (exp _)) in R by lra. pose proof u_pos. pose proof eta_pos. nra.
Qed.
Lemma round_log : logUnit roundLm.
Proof.
  intros x Hx V. cbn [roundLm]. assert (P : 0 < p2 (-27)) by apply bpow_gt_0. assert (E : logB x = ofR (ln (val x))).
  { destruct x as [s|s| |s m e B]; try discriminate Hx; [simpl in V; lra|]. destruct s; [|reflexivity]. exfalso. assert (val (B754_finite true m e B) <= 0) by (unfold val; simpl; apply F2R_le_0; simpl; lia). lra. }
  rewrite E. pose proof max_big. assert (L0 : ln (val x) <= 0) by (rewrite <- ln_1; destruct (Req_dec (val x) 1) as [->|]; [lra | left; apply ln_increasing; lra]).
  assert (L1 : -27 <= ln (val x)).
  { assert (Q : -27 <= ln (p2 (-27))). { replace (p2 (-27)) with (/ 2 ^ 27) by (unfold p2; simpl; lra). rewrite ln_Rinv by (apply pow_lt; lra). rewrite <- (Rpower_pow 27 2) by lra. unfold Rpower. rewrite ln_exp. simpl INR. assert (ln 2 <= 1). { apply Rnot_lt_le. intro L. apply exp_increasing in L. rewrite exp_ln in L by lra. pose proof (exp_ineq1_le 1). lra. } lra. }
    eapply Rle_trans; [exact Q|]. destruct (Req_dec (val x) (p2 (-27))) as [->|]; [lra | left; apply ln_increasing; lra]. }
  apply ofR_btw; try lra; [apply fmt_opp, (fmt_p2 5); lia | apply fmt_0].
Qed.
