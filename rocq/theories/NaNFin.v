(* NaNFin.v - activation functions of inputs of ordinary size are finite *)
From Coq Require Import List Arith ZArith Reals Lra Lia Bool.
From Flocq Require Import Core IEEE754.BinarySingleNaN.
From Verif Require Import Base Scalar B32Int Act SpecRound RoundProofs1 SpecNaN B32Kit NaNAct.
Import ListNotations.
Local Open Scope R_scope.

Lemma mag_hi : forall lo k y, btw lo (p2 k) y -> - p2 k <= lo -> (k <= 127)%Z -> mag k y.
Proof. intros lo k y H L K. apply mag_btw; auto. eapply btw_w; eauto. lra. Qed.
Lemma mag_unit : forall y, btw (-1) 1 y -> mag 0 y.
Proof. intros y H. apply mag_btw; [|lia]. exact H. Qed.
Lemma mag_unit0 : forall y, btw 0 1 y -> mag 0 y.
Proof. intros y H. apply mag_unit. eapply btw_w; eauto; lra. Qed.
Lemma mag_div1 : forall k y z, mag k y -> btw 1 max32 z -> mag k (b32_div y z).
Proof. intros k y z [A B] H. destruct (div_ge1_fin y z A H) as [C D]. split; auto. lra. Qed.
Lemma p2_le : forall a b, (a <= b)%Z -> p2 a <= p2 b. Proof. intros. apply bpow_le. auto. Qed.
Lemma mag_sqrt : forall k y, btw 1 max32 y -> mag k y -> (0 <= k <= 127)%Z -> mag k (b32_sqrt y).
Proof.
  intros k y [N B] [A C] K. rewrite fin_ext in B by auto. apply Rabs_le_inv in C. pose proof (p2_le 0 k ltac:(lia)) as P. change (p2 0) with 1 in P.
  apply (mag_hi 1); [|lra|lia]. apply sqrt_btw; [apply fmt_p2; lia | lra | apply val_btw; auto; lra].
Qed.
Lemma mag_abs : forall k y, mag k y -> mag k (Babs y).
Proof. intros k y [A B]. split; [apply fin_abs; auto|]. rewrite val_abs, Rabs_Rabsolu. auto. Qed.

Section Fin.
Variables (lm : libm -> b32 -> b32) (pw : b32 -> b32 -> b32) (jk : b32).
Hypothesis S : stdLibm lm pw.
Notation F := (B32Ops lm pw jk).
Variable x : b32.
Hypotheses (Hx : fin x) (B5 : Rabs (val x) <= 32).
Local Opaque b32_add b32_sub b32_mul b32_div b32_sqrt b32_of_Z Bopp Babs.

Lemma Mx : mag 5 x. Proof. split; [exact Hx|]. unfold p2. simpl. lra. Qed.
Lemma Mexp : forall y, num y -> Rabs (ext y) <= 32 -> mag 47 (lm Lexp y).
Proof. intros y N H. apply (mag_hi (p2 (-47))); [apply (exp_mid _ _ S); auto | | lia]. pose proof (bpow_gt_0 radix2 (-47)). pose proof (bpow_gt_0 radix2 47). unfold p2. lra. Qed.
Lemma Mex : mag 47 (lm Lexp x). Proof. apply Mexp; [apply fin_num; auto | rewrite fin_ext; auto]. Qed.
Lemma Mem : mag 47 (lm Lexp (Bopp x)). Proof. apply Mexp; [apply num_opp, fin_num; auto | rewrite ext_opp, Rabs_Ropp, fin_ext; auto]. Qed.
Lemma Lem : btw (p2 (-47)) (p2 47) (lm Lexp (Bopp x)). Proof. apply (exp_mid _ _ S); [apply num_opp, fin_num; auto | rewrite ext_opp, Rabs_Ropp, fin_ext; auto]. Qed.
Lemma Minv : mag 47 (b32_div one (lm Lexp (Bopp x))).
Proof.
  pose proof Lem as [_ L]. destruct Mem as [A _]. rewrite fin_ext in L by auto. apply (mag_div 0 (-47)); auto; try lia.
  - split; [exact one_fin|]. rewrite one_val, Rabs_R1. unfold p2. simpl. lra.
  - pose proof (bpow_gt_0 radix2 (-47)). unfold p2 in *. rewrite Rabs_pos_eq; lra.
Qed.
Lemma D1 : btw 1 max32 (b32_add one (lm Lexp (Bopp x))). Proof. apply (den lm pw S x Hx). Qed.
Lemma D2 : btw 1 max32 (b32_add (lm Lexp (Bopp x)) one). Proof. apply onep', (expm lm pw S x Hx). Qed.
Lemma D3 : btw 1 max32 (b32_add one (lm Lexp x)). Proof. apply onep, (expx lm pw S x Hx). Qed.
Lemma D4 : btw 1 max32 (b32_add (lm Lexp x) one). Proof. apply onep', (expx lm pw S x Hx). Qed.
Lemma Mtanh : forall y, num y -> mag 0 (lm Ltanh y). Proof. intros y H. apply mag_unit, (tanh_num _ _ S); auto. Qed.
Lemma Merf : forall y, num y -> mag 0 (lm Lerf y). Proof. intros y H. apply mag_unit, (erf_num _ _ S); auto. Qed.
Lemma Msin : forall y, fin y -> mag 0 (lm Lsin y). Proof. intros y H. apply mag_unit, (sin_fin _ _ S); auto. Qed.
Lemma Mcos : forall y, fin y -> mag 0 (lm Lcos y). Proof. intros y H. apply mag_unit, (cos_fin _ _ S); auto. Qed.
Lemma Mlog1p : forall y, fin y -> 0 <= val y -> mag 7 (lm Llog1p y).
Proof. intros y H P. apply (mag_hi 0); [apply (log1p_fin _ _ S); auto | pose proof (bpow_gt_0 radix2 7); unfold p2; lra | lia]. Qed.
Lemma ex_pos : 0 <= val (lm Lexp x).
Proof. pose proof (expx lm pw S x Hx) as [_ E]. rewrite fin_ext in E by apply Mex. lra. Qed.

Lemma Mpow : forall y c, btw 1 max32 y -> mag 10 y -> fin c -> b32_le (b32_of_Z (-1)) c = true -> b32_le c (b32_of_Z 1) = true -> mag 11 (pw y c).
Proof.
  intros y c [N L] [A B] C C1 C2. pose proof (lit_in c (-1) 1 C ltac:(lia) ltac:(lia) C1 C2). rewrite fin_ext in L by auto. apply Rabs_le_inv in B. pose proof (bpow_gt_0 radix2 11).
  apply (mag_hi 0); [|unfold p2; lra|lia]. apply (pow_mid _ _ S); auto; [apply val_btw; auto; lra | apply Rabs_le; lra].
Qed.
Lemma exn : forall lo y, btw lo 0 y -> mag 0 (lm Lexp y).
Proof. intros lo y [N H]. apply mag_unit0, (exp_neg _ _ S); auto. lra. Qed.
(* bounds of an expression, from its leaves *)
Ltac isclosed e := tryif (match goal with v : _ |- _ => match e with context [v] => idtac end end) then fail else idtac.
Ltac ge1 := first [assumption | lazymatch goal with |- btw 1 max32 ?c => isclosed c; let L := fresh in pose proof (lit_in c 1 100 ltac:(closed) ltac:(lia) ltac:(lia) ltac:(closed) ltac:(closed)) as L; apply val_btw; [closed | pose proof max_big; lra] end
  | apply sq_ge; ge1 | apply mul_ge1; ge1 | apply absd; assumption | apply sq1; assumption | apply sq1'; assumption | apply sqx1; assumption
  | apply lin2; [assumption | closed | apply lit_pos; closed | assumption] | apply lin2n; [assumption | closed | apply lit_neg; closed | assumption]
  | apply (cosh_num _ _ S); apply fin_num; assumption].
Ltac mk e :=
  lazymatch goal with
  | H : mag _ e |- _ => idtac
  | _ =>
    tryif isclosed e then (assert (mag 4 e) by (apply (mag_lit e 16); [closed | lia | closed | closed | unfold p2; simpl; lra]))
    else lazymatch e with
    | b32_add ?a ?b => mk a; mk b;
        lazymatch goal with Ha : mag ?p a |- _ => lazymatch goal with Hb : mag ?q b |- _ =>
          let m := eval compute in (Z.max p q) in let r := eval compute in (m + 1)%Z in
          assert (mag r e) by (apply (mag_add m r); [apply (mag_w p m); [exact Ha | lia] | apply (mag_w q m); [exact Hb | lia] | reflexivity | lia]) end end
    | b32_sub ?a ?b => mk a; mk b;
        lazymatch goal with Ha : mag ?p a |- _ => lazymatch goal with Hb : mag ?q b |- _ =>
          let m := eval compute in (Z.max p q) in let r := eval compute in (m + 1)%Z in
          assert (mag r e) by (apply (mag_sub m r); [apply (mag_w p m); [exact Ha | lia] | apply (mag_w q m); [exact Hb | lia] | reflexivity | lia]) end end
    | b32_mul ?a ?b => mk a; mk b;
        lazymatch goal with Ha : mag ?p a |- _ => lazymatch goal with Hb : mag ?q b |- _ =>
          let r := eval compute in (p + q)%Z in assert (mag r e) by (apply (mag_mul p q r); [exact Ha | exact Hb | reflexivity | lia]) end end
    | b32_div ?a ?b => mk a; lazymatch goal with Ha : mag ?p a |- _ => assert (mag p e) by (apply mag_div1; [exact Ha | ge1]) end
    | Bopp ?a => mk a; lazymatch goal with Ha : mag ?p a |- _ => assert (mag p e) by (apply mag_opp; exact Ha) end
    | b32_sqrt ?a => mk a; lazymatch goal with Ha : mag ?p a |- _ => assert (mag p e) by (apply mag_sqrt; [ge1 | exact Ha | lia]) end
    | lm Lsin ?a => mk a; lazymatch goal with Ha : mag ?p a |- _ => assert (mag 0 e) by (apply Msin; exact (proj1 Ha)) end
    | lm Lcos ?a => mk a; lazymatch goal with Ha : mag ?p a |- _ => assert (mag 0 e) by (apply Mcos; exact (proj1 Ha)) end
    | lm Ltanh ?a => mk a; lazymatch goal with Ha : mag ?p a |- _ => assert (mag 0 e) by (apply Mtanh, fin_num; exact (proj1 Ha)) end
    | lm Lerf ?a => mk a; lazymatch goal with Ha : mag ?p a |- _ => assert (mag 0 e) by (apply Merf, fin_num; exact (proj1 Ha)) end
    | lm Lexpm1 ?a => assert (mag 0 e) by (apply mag_unit; eapply btw_w; [apply (expm1_neg _ _ S); [apply fin_num | rewrite fin_ext]; auto; lra | lra | lra])
    | lm Lasinh ?a => assert (mag 7 e) by (apply mag_btw; [apply (asinh_fin _ _ S); auto | lia])
    | lm Latan ?a => assert (mag 1 e) by (apply mag_btw; [apply (atan_num _ _ S), fin_num; auto | lia])
    | lm Llog1p ?a => mk a; lazymatch goal with Ha : mag ?p a |- _ => assert (mag 7 e) by (apply Mlog1p; [exact (proj1 Ha) | first [exact ex_pos | lra]]) end
    | pw ?a ?b => mk a; lazymatch goal with Ha : mag ?p a |- _ => assert (mag 11 e) by (apply Mpow; [ge1 | exact Ha | closed | closed | closed]) end
    | Babs ?a => mk a; lazymatch goal with Ha : mag ?p a |- _ => assert (mag p e) by (apply mag_abs; exact Ha) end
    end
  end.
Ltac mf := lazymatch goal with |- fin ?e => mk e; match goal with H : mag _ e |- _ => exact (proj1 H) end end.
Ltac ifs := repeat match goal with |- context [if ?b then _ else _] => lazymatch b with context [if _ then _ else _] => fail | _ => destruct b eqn:? end end.
Ltac openA := cbn [act_apply act_deriv fadd fsub fmul fdiv fopp fabs flt fle feq flm fpow flit fsign f0 f1 B32Ops]; cbv beta zeta; unfold piLit, seluL, seluA, twoPi, invTwoPi; cbn [flit B32Ops].
Ltac base := pose proof Mx; pose proof Mex; pose proof Mem; pose proof D1; pose proof D2; pose proof D3; pose proof D4.



Lemma xneg : b32_le z32 x = false -> val x < 0.
Proof. exact (nle_val _ _ z_fin Hx). Qed.
Lemma xpos : b32_lt z32 x = true -> 0 < val x.
Proof. exact (lt_val _ _ z_fin Hx). Qed.
Lemma xnz : b32_eq x z32 = false -> val x <> 0.
Proof. exact (neq_val _ _ Hx z_fin). Qed.
Lemma Mem1 : b32_le z32 x = false -> mag 0 (lm Lexpm1 x).
Proof. intro H. apply mag_unit. eapply btw_w; [exact (expm1_num lm pw S x Hx H) | lra | lra]. Qed.
Lemma ex_c : forall c, fin c -> b32_lt z32 c = true -> b32_le z32 x = false -> mag 0 (lm Lexp (b32_mul c x)).
Proof. intros c C P H. apply xneg in H. apply lit_pos in P; auto. apply (exn (- max32)), mul_np; auto. nra. Qed.
Lemma ex_cr : forall c, fin c -> b32_lt z32 c = true -> b32_le z32 x = false -> mag 0 (lm Lexp (b32_mul x c)).
Proof. intros c C P H. apply xneg in H. apply lit_pos in P; auto. apply (exn (- max32)), mul_np; auto. nra. Qed.
Lemma sq_np : btw (- max32) 0 (b32_mul (Bopp x) x).
Proof. apply mul_np; auto; [apply (mag_opp 5), Mx|]. rewrite val_opp. nra. Qed.
Lemma one1 : mag 0 one. Proof. split; [exact one_fin|]. rewrite one_val, Rabs_R1. unfold p2. simpl. lra. Qed.
Lemma one_m_fmt : fmt (1 - p2 (-24)).
Proof.
  replace (1 - p2 (-24)) with (pred radix2 (FLT_exp (-149) 24) 1); [apply generic_format_pred; [apply FLT_exp_valid; exact prec32_gt_0 | apply (fmt_Z 1); lia]|].
  change 1 with (bpow radix2 0) at 1. rewrite pred_bpow. unfold p2, FLT_exp. simpl. lra.
Qed.
Lemma sq_lt : b32_lt (Babs x) one = true -> fin (b32_mul x x) /\ 0 <= val (b32_mul x x) <= 1 - p2 (-24).
Proof.
  intro H. apply lt_val in H; [| apply fin_abs; auto | exact one_fin]. rewrite one_val, val_abs in H. apply (lt_one x) in H. pose proof (Rabs_pos (val x)). pose proof max_big.
  assert (P : 0 < p2 (-24) < / 1000) by (unfold p2; simpl; lra). assert (E : val x * val x = Rabs (val x) * Rabs (val x)) by (rewrite <- Rabs_mult, Rabs_pos_eq; [auto | nra]).
  apply btw_val; try lra. apply mul_btw; auto; try lra; [apply fmt_0 | exact one_m_fmt |]. rewrite E. nra.
Qed.
Lemma inv_neg : forall y, fin y -> -1 <= val y <= - p2 (-24) -> btw (- p2 24) 0 (b32_div one y).
Proof.
  intros y A B. pose proof max_big. assert (P : 0 < p2 (-24)) by apply bpow_gt_0. assert (0 < p2 24) by apply bpow_gt_0. apply div_btw; auto; try lra; [exact one_fin | apply fmt_opp, fmt_p2; lia | apply fmt_0 |].
  rewrite one_val. unfold Rdiv. rewrite Rmult_1_l. assert (E : p2 24 = / p2 (-24)) by (unfold p2; rewrite <- bpow_opp; reflexivity). rewrite E.
  replace (/ val y) with (- / - val y) by (field; lra). assert (0 < / - val y) by (apply Rinv_0_lt_compat; lra). assert (/ - val y <= / p2 (-24)) by (apply Rinv_le_contravar; lra). lra.
Qed.
Lemma fa_Bump : fin (act_apply F ABump x).
Proof.
  openA. ifs; [|mf]. destruct (sq_lt Heqb) as [A B]. pose proof max_big. assert (P : 0 < p2 (-24) < / 1000) by (unfold p2; simpl; lra).
  assert (C : btw (p2 (-24)) 1 (b32_sub one (b32_mul x x))). { apply sub_btw; auto; try lra; [exact one_fin | apply fmt_p2; lia | apply (fmt_Z 1); lia |]. rewrite one_val. lra. }
  destruct (btw_val _ _ _ C ltac:(lra) ltac:(lra)) as [C1 C2]. eapply exn with (- p2 24). assert (0 < p2 24) by apply bpow_gt_0.
  apply div_btw; auto; try lra; [closed | apply fmt_opp, fmt_p2; lia | apply fmt_0 |]. rewrite val_opp, one_val.
  assert (E : p2 24 = / p2 (-24)) by (unfold p2; rewrite <- bpow_opp; reflexivity). rewrite E. set (v := val (b32_sub _ _)) in *. clearbody v. assert (0 < / v) by (apply Rinv_0_lt_compat; lra). assert (/ v <= / p2 (-24)) by (apply Rinv_le_contravar; lra). unfold Rdiv. lra.
Qed.
Lemma fd_Bump : fin (act_deriv F ABump x).
Proof.
  base. openA. ifs; [|mf]. destruct (sq_lt Heqb) as [A B]. pose proof max_big. assert (P : 0 < p2 (-24) < / 1000) by (unfold p2; simpl; lra).
  assert (C : btw (-1) (- p2 (-24)) (b32_sub (b32_mul x x) one)). { apply sub_btw; auto; try lra; [exact one_fin | apply (fmt_Z (-1)); lia | apply fmt_opp, fmt_p2; lia |]. rewrite one_val. lra. }
  destruct (btw_val _ _ _ C ltac:(lra) ltac:(lra)) as [C1 C2]. set (y := b32_sub _ one) in *. clearbody y. pose proof (exn _ _ (inv_neg y C1 C2)) as E. set (e := lm Lexp (b32_div one y)) in *. clearbody e.
  assert (D : btw (p2 (-48)) 1 (b32_mul y y)). { apply mul_btw; auto; try lra; [apply fmt_p2; lia | apply (fmt_Z 1); lia | unfold p2; simpl; lra |]. replace (p2 (-48)) with (p2 (-24) * p2 (-24)) by (unfold p2; rewrite <- bpow_plus; reflexivity). nra. }
  assert (0 < p2 (-48)) by apply bpow_gt_0. destruct (btw_val _ _ _ D ltac:(lra) ltac:(lra)) as [D1 D2].
  mk (b32_mul (b32_mul (Bopp (b32_div (b32_of_Z 2) one)) x) e). match goal with Hn : mag ?p (b32_mul (b32_mul _ x) e) |- _ => refine (proj1 (mag_div p (-48) (p + 48) _ _ Hn D1 _ eq_refl _)); [rewrite Rabs_pos_eq; lra | lia] end.
Qed.
Lemma celu : b32_le z32 x = false -> btw (val x) 0 (b32_div x one).
Proof. intro H. apply xneg in H. pose proof max_big. pose proof (val_in x). apply div_ge1; auto; try lra; [apply fmt_B | apply fmt_0 | exact one_btw]. Qed.
Lemma fa_CELU : fin (act_apply F ACELU x).
Proof.
  base. openA. ifs; [mf|]. pose proof (xneg Heqb). destruct (celu Heqb) as [D1' D2']. assert (mag 0 (lm Lexpm1 (b32_div x one))). { apply mag_unit. eapply btw_w; [apply (expm1_neg _ _ S); auto; lra | lra | lra]. } mf.
Qed.
Lemma fd_CELU : fin (act_deriv F ACELU x).
Proof. base. openA. ifs; [mf|]. exact (proj1 (exn _ _ (celu Heqb))). Qed.
Lemma fa_CLL : fin (act_apply F AComplementaryLogLog x).
Proof. base. openA. pose proof (exn _ _ (eq_ind _ (fun z => btw _ z _) (opp_btw _ _ _ (expx lm pw S x Hx)) 0 ltac:(lra))). mf. Qed.
Lemma fd_CLL : fin (act_deriv F AComplementaryLogLog x).
Proof.
  base. openA. mk (b32_sub x (lm Lexp x)). pose proof ex_pos. pose proof max_big. assert (0 < p2 48) by apply bpow_gt_0. destruct Mex as [E1 E2]. apply Rabs_le_inv in E2. pose proof (Rabs_le_inv _ _ B5) as B. assert (32 <= p2 47) by (unfold p2; simpl; lra). assert (p2 48 = 2 * p2 47) by (unfold p2; simpl; lra).
  assert (Q : btw (- p2 48) 32 (b32_sub x (lm Lexp x))). { apply sub_btw; auto; try lra; [apply fmt_opp, fmt_p2; lia | apply (fmt_p2 5); lia]. }
  destruct Q as [Q1 Q2]. assert (0 < p2 93) by apply bpow_gt_0. eapply (mag_hi 0 93); [apply (exp_fin _ _ S); auto; lra | lra | lia].
Qed.
Lemma fa_Gauss : fin (act_apply F AGauss x). Proof. openA. exact (proj1 (exn _ _ sq_np)). Qed.
Lemma fd_Gauss : fin (act_deriv F AGauss x). Proof. base. openA. pose proof (exn _ _ sq_np). mf. Qed.
Lemma fd_GELU : fin (act_deriv F AGELU x).
Proof. base. openA. pose proof (exn _ _ (mul_np_c _ (b32_div one (b32_of_Z 2)) sq_np ltac:(closed) ltac:(apply lit_pos; closed))). mf. Qed.
Lemma fa_Logit : 0 < val x < 1 -> fin (act_apply F ALogit x).
Proof.
  intro H. openA. pose proof max_big. assert (P : 0 < p2 (-24) < / 1000) by (unfold p2; simpl; lra). assert (L : val x <= 1 - p2 (-24)). { pose proof (lt_one x) as L. rewrite Rabs_pos_eq in L by lra. apply L. lra. }
  assert (C : btw (p2 (-24)) 1 (b32_sub one x)). { apply sub_btw; auto; try lra; [exact one_fin | apply fmt_p2; lia | apply (fmt_Z 1); lia |]. rewrite one_val. lra. }
  destruct (btw_val _ _ _ C ltac:(lra) ltac:(lra)) as [C1 C2]. set (y := b32_sub one x) in *. clearbody y. assert (2 <= p2 24) by (unfold p2; simpl; lra). assert (p2 24 < max32) by (apply bpow_lt; lia).
  assert (Q : btw (val x) (p2 24) (b32_div x y)).
  { apply div_btw; auto; try lra; [apply fmt_B | apply fmt_p2; lia |]. assert (E : p2 24 = / p2 (-24)) by (unfold p2; rewrite <- bpow_opp; reflexivity). rewrite E. unfold Rdiv.
    assert (1 <= / val y) by (rewrite <- Rinv_1; apply Rinv_le_contravar; lra). assert (/ val y <= / p2 (-24)) by (apply Rinv_le_contravar; lra). split; nra. }
  destruct (btw_val _ _ _ Q ltac:(lra) ltac:(lra)) as [Q1 Q2]. eapply mag_btw; [apply (log_fin _ _ S); auto; lra | lia].
Qed.
Lemma fd_Logit : 0 < val x < 1 -> fin (act_deriv F ALogit x).
Proof.
  intro H. base. openA. pose proof max_big. assert (P : 0 < p2 (-24) < / 1000) by (unfold p2; simpl; lra). assert (L : val x <= 1 - p2 (-24)). { pose proof (lt_one x) as L. rewrite Rabs_pos_eq in L by lra. apply L. lra. }
  assert (C : btw (-1) (- p2 (-24)) (b32_sub x one)). { apply sub_btw; auto; try lra; [exact one_fin | apply (fmt_Z (-1)); lia | apply fmt_opp, fmt_p2; lia |]. rewrite one_val. lra. }
  destruct (btw_val _ _ _ C ltac:(lra) ltac:(lra)) as [C1 C2]. refine (proj1 (mag_div 5 (-24) 29 _ _ (mag_opp _ _ Mx) C1 _ eq_refl _)); [rewrite Rabs_left; lra | lia].
Qed.
Lemma fa_LogSigmoid : fin (act_apply F ALogSigmoid x).
Proof.
  base. openA. pose proof max_big. mk (b32_add one (lm Lexp (Bopp x))). pose proof D1 as [N1 N2]. match goal with Hm : mag 48 ?z |- _ => destruct Hm as [A B]; set (y := z) in *; clearbody y end.
  rewrite fin_ext in N2 by auto. apply Rabs_le_inv in B. assert (P : 0 < p2 (-48) < 1) by (unfold p2; simpl; lra).
  assert (Q : btw (p2 (-48)) 1 (b32_div one y)).
  { apply div_btw; auto; try lra; [exact one_fin | apply fmt_p2; lia | apply (fmt_Z 1); lia |]. rewrite one_val. unfold Rdiv. rewrite Rmult_1_l. assert (E : p2 (-48) = / p2 48) by (unfold p2; rewrite <- bpow_opp; reflexivity). rewrite E.
    split; [apply Rinv_le_contravar; lra | rewrite <- Rinv_1; apply Rinv_le_contravar; lra]. }
  destruct (btw_val _ _ _ Q ltac:(lra) ltac:(lra)) as [Q1 Q2]. eapply mag_btw; [apply (log_fin _ _ S); auto; lra | lia].
Qed.
Lemma fd_LecunTanh : fin (act_deriv F ALecunTanh x).
Proof. base. openA. mk (b32_mul x (b32_div (b32_of_Z 666666) (b32_of_Z 1000000))). match goal with Hm : mag _ (b32_mul x _) |- _ => pose proof (cosh_num _ _ S _ (fin_num _ (proj1 Hm))) end. mf. Qed.
Lemma fd_Mish : fin (act_deriv F AMish x).
Proof. base. openA. mk (lm Llog1p (lm Lexp x)). match goal with Hm : mag _ (lm Llog1p _) |- _ => pose proof (cosh_num _ _ S _ (fin_num _ (proj1 Hm))) end. mf. Qed.
Lemma sinc_sq : p2 (-60) <= Rabs (val x) -> fin (b32_mul x x) /\ p2 (-120) <= val (b32_mul x x).
Proof.
  intro H. pose proof max_big. assert (P : 0 < p2 (-120) < 1) by (unfold p2; simpl; lra). assert (P' : 0 < p2 (-60)) by apply bpow_gt_0. assert (E : val x * val x = Rabs (val x) * Rabs (val x)) by (rewrite <- Rabs_mult, Rabs_pos_eq; [auto | nra]).
  assert (Q : btw (p2 (-120)) 1024 (b32_mul x x)). { apply mul_btw; auto; try lra; [apply fmt_p2; lia | apply (fmt_p2 10); lia |]. rewrite E. replace (p2 (-120)) with (p2 (-60) * p2 (-60)) by (unfold p2; rewrite <- bpow_plus; reflexivity). nra. }
  destruct (btw_val _ _ _ Q ltac:(lra) ltac:(lra)) as [Q1 Q2]. tauto.
Qed.
Lemma fa_SinC : val x = 0 \/ p2 (-60) <= Rabs (val x) -> fin (act_apply F ASinC x).
Proof.
  intro H. base. openA. ifs; try mf. apply xnz in Heqb. destruct H as [H|H]; [tauto|]. refine (proj1 (mag_div 0 (-60) 60 _ _ (Msin _ Hx) Hx H eq_refl _)). lia.
Qed.
Lemma fd_SinC : val x = 0 \/ p2 (-60) <= Rabs (val x) -> fin (act_deriv F ASinC x).
Proof.
  intro H. base. openA. ifs; try mf. apply xnz in Heqb. destruct H as [H|H]; [tauto|]. destruct (sinc_sq H) as [Q1 Q2]. assert (0 < p2 (-120)) by apply bpow_gt_0.
  pose proof (mag_div 0 (-60) 60 _ _ (Mcos _ Hx) Hx H eq_refl ltac:(lia)). pose proof (mag_div 0 (-120) 120 _ _ (Msin _ Hx) Q1 ltac:(rewrite Rabs_pos_eq; lra) eq_refl ltac:(lia)). mf.
Qed.
Lemma nlr : b32_lt z32 x = true -> btw 1 max32 (b32_add one x).
Proof. intro H. apply xpos in H. apply onep. pose proof (val_in x). apply val_btw; auto. lra. Qed.

Theorem apply_fin : forall k, ordinary k x -> fin (act_apply F k x).
Proof.
  intros k (_ & _ & O). destruct k;
  first [exact fa_Bump | exact fa_CELU | exact fa_CLL | exact fa_Gauss | exact (fa_Logit O) | exact fa_LogSigmoid | exact (fa_SinC O) | idtac].
  all: base; pose proof Minv; openA; ifs; try (pose proof (Mem1 ltac:(assumption))); try (pose proof (xpos ltac:(assumption)));
    try (match goal with Hn : b32_le z32 x = false |- context [lm Lexp (b32_mul x ?c)] => pose proof (ex_cr c ltac:(closed) ltac:(closed) Hn) end); try mf.
all: match goal with |- ?G => idtac G end.
Qed.
Theorem deriv_fin : forall k, ordinary k x -> fin (act_deriv F k x).
Proof.
  intros k (_ & _ & O). destruct k;
  first [exact fd_Bump | exact fd_CELU | exact fd_CLL | exact fd_Gauss | exact fd_GELU | exact (fd_Logit O) | exact fd_LecunTanh | exact fd_Mish | exact (fd_SinC O) | idtac].
  all: base; pose proof Minv; openA; ifs; try (pose proof (Mem1 ltac:(assumption))); try (pose proof (xpos ltac:(assumption))); try (pose proof (nlr ltac:(assumption)));
    try (match goal with Hn : b32_le z32 x = false |- context [lm Lexp (b32_mul ?c x)] => pose proof (ex_c c ltac:(closed) ltac:(closed) Hn) end); try mf.
all: match goal with |- ?G => idtac G end.
Qed.
End Fin.
