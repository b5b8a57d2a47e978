(* OptFin2.v - the weights under any number of optimiser steps in single precision *)
From Coq Require Import List Arith ZArith Reals Lra Lia Bool.
From Flocq Require Import Core IEEE754.BinarySingleNaN.
From Verif Require Import Base Scalar Mat SpecMat MatFacts MatProofs MatLoops Loss Optim OptProofs B32Int SpecRound RoundProofs1 SpecNaN B32Kit NaNAct SpecSoft SoftProofs1 SpecStay OptFin1.
Import ListNotations.
Local Open Scope R_scope.
Local Opaque b32_add b32_sub b32_mul b32_div b32_sqrt b32_of_Z Bopp Babs.

Section Stay.
Variables (lm : libm -> b32 -> b32) (pw : b32 -> b32 -> b32) (jk : b32).
Notation F := (B32Ops lm pw jk).

(* literals *)
Lemma lit_rg : forall n d lo hi, (Z.abs n <= 2 ^ 24)%Z -> (Zpos d <= 2 ^ 24)%Z -> fmt lo -> fmt hi -> - max32 < lo -> hi < max32 -> lo <= IZR n / IZR (Zpos d) <= hi -> rg lo hi (flit F n d).
Proof.
  intros n d lo hi A B Fl Fh L H E. cbn [flit B32Ops]. destruct (ofZ_val n A) as [P1 V1]. destruct (ofZ_val (Zpos d) ltac:(lia)) as [P2 V2]. assert (0 < IZR (Zpos d)) by (apply IZR_lt; lia).
  apply rg_div; auto; rewrite ?V1, ?V2; auto; lra.
Qed.
Lemma fmt_29 : fmt (29 / 32). Proof. replace (29 / 32) with (IZR 29 * p2 (-5)) by (unfold p2; simpl; lra). apply fmt_dy; lia. Qed.
Lemma fmt_1023 : fmt (1023 / 1024). Proof. replace (1023 / 1024) with (IZR 1023 * p2 (-10)) by (unfold p2; simpl; lra). apply fmt_dy; lia. Qed.
Lemma fmt_7 : fmt (7 / 8). Proof. replace (7 / 8) with (IZR 7 * p2 (-3)) by (unfold p2; simpl; lra). apply fmt_dy; lia. Qed.
Lemma fmt_1 : fmt 1. Proof. apply (fmt_p2 0). lia. Qed.
Lemma b1_rg : rg (7 / 8) (29 / 32) (beta1 F).
Proof. pose proof max_big. apply lit_rg; try lia; try lra; [apply fmt_7 | apply fmt_29]. Qed.
Lemma b2_rg : rg 0 (1023 / 1024) (beta2 F).
Proof. pose proof max_big. apply lit_rg; try lia; try lra; [apply fmt_0 | apply fmt_1023]. Qed.
Lemma half_rg : nn 0 (half F).
Proof. unfold half. pose proof max_big. apply lit_rg; try lia; try lra; [apply fmt_0 | apply (fmt_p2 0); lia | apply p2_lt_max; lia | change (p2 0) with 1; lra]. Qed.
Lemma one_rg : fin one /\ val one = 1. Proof. split; [exact one_fin | exact one_val]. Qed.
Lemma om_rg : forall x lo hi, fin x -> fmt lo -> fmt hi -> - max32 < lo -> hi < max32 -> lo <= 1 - val x <= hi -> rg lo hi (oneMinus F x).
Proof. intros x lo hi Hx Fl Fh L H E. unfold oneMinus. cbn [fsub f1 B32Ops]. destruct one_rg as [A B]. apply rg_sub; auto. rewrite B. auto. Qed.
Lemma eps_rg : rg (p2 (-27)) 1 (eps F).
Proof. pose proof max_big. unfold eps. cbn [flit B32Ops]. assert (E : b32_of_Z 100000000 = b32_of_Z 100000000) by reflexivity.
  assert (Hf : fin (b32_of_Z 100000000)) by closed. assert (V : val (b32_of_Z 100000000) = 100000000). { assert (Hm : fin (b32_mul (b32_of_Z 10000) (b32_of_Z 10000))) by closed. rewrite (eq_val _ _ Hf Hm ltac:(closed)). destruct (mul_fin _ _ Hm) as (_ & _ & ->). rewrite (proj2 (ofZ_val 10000 ltac:(lia))). replace (IZR 10000 * IZR 10000) with (IZR 390625 * p2 8) by (unfold p2; simpl; lra). rewrite round_generic; [unfold p2; simpl; lra | apply valid_rnd_round_mode | apply fmt_dy; lia]. }
  destruct one_rg as [A B]. apply rg_div; auto; [apply fmt_p2; lia | apply fmt_1 | pose proof (p2_pos (-27)); lra | lra | rewrite V; lra |]. rewrite B, V. unfold p2. simpl. lra.
Qed.
Lemma floor_rg : forall z x, nn z x -> (0 <= z)%Z -> rg (p2 (-27)) (p2 z) (floor8 F x).
Proof.
  intros z x [Hx Bx] Hz. unfold floor8, stdmax. destruct eps_rg as [He Be]. cbn [flt B32Ops]. assert (1 <= p2 z) by (apply (p2_le 0); auto). destruct (b32_lt x (eps F)) eqn:C; [split; auto; lra|]. pose proof (nlt_val _ _ Hx He C). split; auto. lra.
Qed.
Lemma max_nn : forall z x y, nn z x -> nn z y -> nn z (stdmax F x y).
Proof. intros z x y Hx Hy. unfold stdmax. destruct (flt F x y); auto. Qed.
Lemma floor_low : forall z x, nn z x -> (0 <= z)%Z -> fin (floor8 F x) /\ p2 (-27) <= Rabs (val (floor8 F x)).
Proof. intros z x H Hz. destruct (floor_rg z x H Hz) as [A B]. split; auto. pose proof (p2_pos (-27)). rewrite Rabs_pos_eq; lra. Qed.

(* the moments *)
Lemma mix1 : forall m g, within 41 m -> within 40 g -> within 41 (mix F (beta1 F) m g).
Proof.
  intros m g [Hm Bm] [Hg Bg]. apply Rabs_le_inv in Bm, Bg. unfold mix. cbn [fadd fmul B32Ops]. destruct b1_rg as [H1 B1]. pose proof max_big as MB.
  assert (E : p2 41 = 2 * p2 40) by (apply (p2_S 40)). assert (E2 : p2 40 = 8 * p2 37) by (unfold p2; simpl; lra). pose proof (p2_pos 37) as P. pose proof (p2_lt_max 41 ltac:(lia)) as Q.
  destruct (om_rg (beta1 F) 0 (/ 8)) as [Ho Bo]; auto; try lra; [apply fmt_0 | apply (fmt_p2 (-3)); lia|].
  assert (X : rg (- (29 / 32 * p2 41)) (29 / 32 * p2 41) (b32_mul m (beta1 F))).
  { assert (Fm : fmt (29 / 32 * p2 41)). { replace (29 / 32 * p2 41) with (IZR 29 * p2 36) by (unfold p2; simpl; lra). apply fmt_dy; lia. } apply rg_mul; auto; try lra; [apply fmt_opp; auto|]. split; nra. }
  assert (Y : rg (- p2 37) (p2 37) (b32_mul g (oneMinus F (beta1 F)))). { apply rg_mul; auto; try lra; [apply fmt_opp, fmt_p2; lia | apply fmt_p2; lia|]. split; nra. }
  destruct X as [X1 X2], Y as [Y1 Y2]. apply within_rg. apply rg_add; auto; try lra; [apply fmt_opp, fmt_p2; lia | apply fmt_p2; lia].
Qed.
Lemma mix2 : forall d v g, rg 0 1 d -> nn 106 v -> within 40 g -> nn 106 (mix F d v (sqr F g)).
Proof.
  intros d v g [Hd Bd] Hv Hg. unfold mix, sqr. cbn [fadd fmul B32Ops]. pose proof max_big.
  assert (O : nn 0 (oneMinus F d)). { apply om_rg; auto; try lra; [apply fmt_0 | apply fmt_p2; lia | apply p2_lt_max; lia|]. change (p2 0) with 1. lra. }
  apply n_cap with 80%Z; try lia; [apply n_mul with 106%Z 0%Z; auto; try lia; split; auto | apply n_mul with 80%Z 0%Z; auto; try lia]. apply (n_sqr g 40); auto. lia.
Qed.
Lemma mixw : forall d v g, within 0 d -> within 66 v -> within 40 g -> within 66 (mix F d v g).
Proof.
  intros d v g Hd Hv Hg. unfold mix. cbn [fadd fmul B32Ops]. pose proof max_big.
  assert (O : within 1 (oneMinus F d)). { destruct Hd as [A B]. apply within_rg. change (p2 0) with 1 in B. apply Rabs_le_inv in B. assert (p2 1 = 2) by reflexivity. apply om_rg; auto; try lra; [apply fmt_opp, fmt_p2; lia | apply fmt_p2; lia]. }
  apply w_cap with 41%Z; try lia; [apply w_mul with 66%Z 0%Z; auto; lia | apply w_mul with 40%Z 1%Z; auto; lia].
Qed.
Lemma corr1 : forall b, rg 0 (29 / 32) b -> fin (oneMinus F b) /\ p2 (-4) <= Rabs (val (oneMinus F b)).
Proof.
  intros b [A B]. pose proof max_big. assert (p2 (-4) = / 16) by (unfold p2; simpl; lra). destruct (om_rg b (p2 (-4)) 1) as [C D]; auto; try lra; [apply fmt_p2; lia | apply fmt_1|]. split; auto. rewrite Rabs_pos_eq; lra.
Qed.
Lemma corr2 : forall b, rg 0 (1023 / 1024) b -> nn 10 (b32_div one (oneMinus F b)).
Proof.
  intros b [A B]. pose proof max_big. assert (E : p2 (-10) = / 1024) by (unfold p2; simpl; lra). destruct (om_rg b (p2 (-10)) 1) as [C D]; auto; try lra; [apply fmt_p2; lia | apply fmt_1|].
  assert (E' : p2 10 = 1024) by (unfold p2; simpl; lra). destruct one_rg as [O1 O2]. apply rg_div; auto; try lra; [apply fmt_0 | apply fmt_p2; lia|]. rewrite O2, E'. unfold Rdiv. rewrite Rmult_1_l. split; [left; apply Rinv_0_lt_compat; lra|]. replace 1024 with (/ / 1024) by lra. apply Rinv_le_contravar; lra.
Qed.
Lemma quot : forall a c z n q, within a n -> nn z q -> (0 <= z)%Z -> (a + 27 <= c)%Z -> (-149 <= c <= 127)%Z -> within c (b32_div n (floor8 F q)).
Proof. intros a c z n q Hn Hq Hz H K. destruct (floor_low z q Hq Hz) as [A B]. apply w_div with a (-27)%Z; auto; lia. Qed.

(* the state of one coordinate stays bounded *)
Definition bounded (k : optKind) (b1 b2 : b32) (s : cst F) : Prop :=
  match k with
  | ONone | OStep | OSGD => True
  | OMomentum | OMomentumNg | ONesterov => within 66 (cv F s)
  | OAdagrad | ORMSProp => nn 106 (cv F s)
  | OAdam | OAdamW | ONadam => within 41 (cm F s) /\ nn 106 (cv F s) /\ rg 0 (29 / 32) b1 /\ rg 0 (1023 / 1024) b2
  | OAmsgrad => within 41 (cm F s) /\ nn 106 (cv F s) /\ nn 106 (cp F s)
  | OAdamax => within 41 (cm F s) /\ nn 40 (cv F s) /\ rg 0 (29 / 32) b1
  | ORPROPm | OiRPROPm => nn 6 (cv F s)
  end.
Lemma zero_nn : forall z, nn z (B754_zero false : b32).
Proof. intro z. split; [reflexivity|]. change (val (B754_zero false)) with 0. pose proof (p2_pos z). lra. Qed.
Lemma zero_w : forall z, within z (B754_zero false : b32). Proof. intro. apply nn_within, zero_nn. Qed.
Lemma mu_nn : forall f mu, nn 6 mu -> nn 6 (muUpdate F f mu).
Proof.
  intros f mu H. unfold muUpdate. cbn [flt fmul f0 fofZ B32Ops]. pose proof max_big. assert (P6 : p2 6 = 64) by (unfold p2; simpl; lra). pose proof half_rg as Hh.
  assert (L : nn 6 (flit F 1 1000000)) by (apply lit_rg; try lia; try lra; [apply fmt_0 | apply fmt_p2; lia]).
  assert (L2 : rg 0 2 (flit F 12 10)) by (apply lit_rg; try lia; try lra; [apply fmt_0 | apply (fmt_p2 1); lia]).
  destruct (b32_lt f _); [destruct (b32_lt _ _); [exact L | apply n_mul with 6%Z 0%Z; auto; lia]|]. destruct (b32_lt _ f); [|exact H].
  destruct (ofZ_val 50 ltac:(lia)) as [A B]. destruct (b32_lt _ _) eqn:C; [split; auto; lra|]. assert (M : nn 7 (b32_mul mu (flit F 12 10))) by (apply n_mul with 6%Z 1%Z; auto; lia). destruct M as [M1 M2]. pose proof (nlt_val _ _ A M1 C). split; auto. lra.
Qed.
Lemma move_w : forall w g u, within 100 w -> nn 6 u -> within 100 (rpropMove F w g u).
Proof. intros w g u Hw Hu. apply nn_within in Hu. unfold rpropMove. cbn [fsub fadd B32Ops]. destruct (flt F _ g); [apply w_caps with 6%Z; auto; lia|]. destruct (flt F g _); [apply w_cap with 6%Z; auto; lia | auto]. Qed.
Lemma decay_w : forall w d, within 100 w -> within 72 d -> within 100 (b32_sub w (b32_add d (b32_mul w (lambda_regul F)))).
Proof.
  intros w d [Hw Bw] Hd. apply Rabs_le_inv in Bw. pose proof max_big.
  assert (L : rg 0 (p2 (-19)) (lambda_regul F)) by (apply lit_rg; try lia; try (unfold p2; simpl; lra); [apply fmt_0 | apply fmt_p2; lia]). destruct L as [L1 L2].
  assert (E1 : p2 100 * p2 (-19) = p2 81) by (apply (p2_mul 100 (-19))). pose proof (p2_lt_max 82 ltac:(lia)). assert (P82 : p2 82 = 2 * p2 81) by (apply (p2_S 81)). pose proof (p2_le 72 75 ltac:(lia)). pose proof (p2_le 75 81 ltac:(lia)). pose proof (p2_le 82 100 ltac:(lia)). pose proof (p2_pos 72).
  destruct Hd as [Hd Bd]. apply Rabs_le_inv in Bd. apply within_rg. destruct (Rle_lt_dec 0 (val w)) as [S|S].
  - destruct (rg_mul 0 (p2 81) w (lambda_regul F)) as [M1 M2]; auto; try lra; [apply fmt_0 | apply fmt_p2; lia | split; nra |].
    destruct (rg_add (- p2 72) (p2 82) d (b32_mul w (lambda_regul F))) as [A1 A2]; auto; try lra; [apply fmt_opp, fmt_p2; lia | apply fmt_p2; lia|]. apply cap_sub; auto; [lia|]. change (100 - 25)%Z with 75%Z. lra.
  - destruct (rg_mul (- p2 81) 0 w (lambda_regul F)) as [M1 M2]; auto; try lra; [apply fmt_opp, fmt_p2; lia | apply fmt_0 | split; nra |].
    destruct (rg_add (- p2 82) (p2 72) d (b32_mul w (lambda_regul F))) as [A1 A2]; auto; try lra; [apply fmt_opp, fmt_p2; lia | apply fmt_p2; lia|]. apply cap_sub; auto; [lia|]. change (100 - 25)%Z with 75%Z. lra.
Qed.
Lemma next1_rg : forall k b, rg 0 (29 / 32) b -> rg 0 (29 / 32) (next1 F k b).
Proof. intros k b [A B]. assert (G : rg 0 (29 / 32) (b32_mul b (beta1 F))). { destruct b1_rg as [C D]. pose proof max_big. apply rg_mul; auto; try lra; [apply fmt_0 | apply fmt_29 | split; nra]. } destruct k; cbn [next1 fmul B32Ops]; try exact G; split; auto. Qed.
Lemma next2_rg : forall k b, rg 0 (1023 / 1024) b -> rg 0 (1023 / 1024) (next2 F k b).
Proof. intros k b [A B]. assert (G : rg 0 (1023 / 1024) (b32_mul b (beta2 F))). { destruct b2_rg as [C D]. pose proof max_big. apply rg_mul; auto; try lra; [apply fmt_0 | apply fmt_1023 | split; nra]. } destruct k; cbn [next2 fmul B32Ops]; try exact G; split; auto. Qed.

Lemma step_stay : forall k lr dec mom b1 b2 s w g, within 0 lr -> (k = ORMSProp -> rg 0 1 dec) -> within 0 mom -> bounded k b1 b2 s -> within 100 w -> within 40 g ->
  bounded k (next1 F k b1) (next2 F k b2) (fst (cstep F k lr dec mom b1 b2 s w g)) /\ within 100 (snd (cstep F k lr dec mom b1 b2 s w g)).
Proof.
  intros k lr dec mom b1 b2 s w g Hl Hd Hm Hb Hw Hg.
  assert (B2 : rg 0 1 (beta2 F)) by (eapply rg_w; [exact b2_rg | lra | lra]).
  assert (Ol : within 0 (Bopp lr)) by (apply w_opp; auto).
  assert (GL : within 40 (b32_mul g lr)) by (apply w_mul with 40%Z 0%Z; auto; lia).
  destruct k; cbn [cstep bounded fst snd cv cm cp fadd fsub fmul fdiv fopp fabs flm B32Ops] in *.
  - auto.
  - split; auto. apply w_caps with 0%Z; auto; try lia. apply w_mul with 0%Z 0%Z; auto; try lia. cbn [fsign B32Ops]. change (p2 0) with 1. destruct (Bsign g); apply w_Z; try lia; change (p2 0) with 1; rewrite ?Rabs_R1; try lra. rewrite Rabs_left; lra.
  - split; auto. apply w_caps with 40%Z; auto; lia.
  - assert (V : within 66 (b32_add (b32_mul (cv F s) mom) (b32_mul g lr))) by (apply w_cap with 40%Z; auto; try lia; apply w_mul with 66%Z 0%Z; auto; lia). split; auto. apply w_caps with 66%Z; auto; lia.
  - pose proof (mixw mom (cv F s) g Hm Hb Hg) as V. split; auto. apply w_caps with 66%Z; auto; try lia. apply w_mul with 66%Z 0%Z; auto; lia.
  - assert (V : within 66 (b32_sub (b32_mul (cv F s) mom) (b32_mul g lr))) by (apply w_caps with 40%Z; auto; try lia; apply w_mul with 66%Z 0%Z; auto; lia). split; auto.
    assert (P1 : within 1 (b32_add (f1 F) mom)) by (apply w_add with 0%Z 0%Z; auto; try lia; apply w_Z; [lia|]; rewrite Rabs_R1; change (p2 0) with 1; lra).
    apply w_cap with 68%Z; auto; try lia. apply w_add with 66%Z 67%Z; try lia; [apply w_mul with 66%Z 0%Z; auto; try lia; apply w_opp; auto | apply w_mul with 66%Z 1%Z; auto; lia].
  - assert (V : nn 106 (b32_add (cv F s) (sqr F g))) by (apply n_cap with 80%Z; auto; try lia; apply (n_sqr g 40); auto; lia). split; auto.
    apply w_cap with 67%Z; auto; try lia. apply w_mul with 67%Z 0%Z; auto; try lia. apply quot with 40%Z 106%Z; auto; try lia. apply n_sqrt; auto; lia.
  - pose proof (mix2 dec (cv F s) g (Hd eq_refl) Hb Hg) as V. split; auto.
    apply w_cap with 67%Z; auto; try lia. apply w_mul with 67%Z 0%Z; auto; try lia. apply quot with 40%Z 106%Z; auto; try lia. apply n_sqrt; auto; lia.
  - destruct Hb as (M & V & C1 & C2). pose proof (mix1 _ _ M Hg) as M'. pose proof (mix2 _ _ _ B2 V Hg) as V'. split; [split; [auto|split; [auto|split; [apply next1_rg with (k := OAdam); auto | apply next2_rg with (k := OAdam); auto]]]|].
    destruct (corr1 b1 C1) as [K1 K2]. pose proof (corr2 b2 C2) as K3. apply w_caps with 72%Z; auto; try lia. apply w_mul with 68%Z 4%Z; try lia; [|apply w_div with 0%Z (-4)%Z; auto; lia].
    apply quot with 41%Z 116%Z; auto; try lia. apply n_sqrt; [|lia]. apply n_mul with 106%Z 10%Z; auto; lia.
  - destruct Hb as (M & V & C1 & C2). pose proof (mix1 _ _ M Hg) as M'. pose proof (mix2 _ _ _ B2 V Hg) as V'. split; [split; [auto|split; [auto|split; [apply next1_rg with (k := OAdamW); auto | apply next2_rg with (k := OAdamW); auto]]]|].
    destruct (corr1 b1 C1) as [K1 K2]. pose proof (corr2 b2 C2) as K3. apply decay_w; auto. apply w_mul with 68%Z 4%Z; try lia; [|apply w_div with 0%Z (-4)%Z; auto; lia].
    apply quot with 41%Z 116%Z; auto; try lia. apply n_sqrt; [|lia]. apply n_mul with 106%Z 10%Z; auto; lia.
  - destruct Hb as (M & V & P). pose proof (mix1 _ _ M Hg) as M'. pose proof (mix2 _ _ _ B2 V Hg) as V'. pose proof (max_nn _ _ _ V' P) as P'. split; auto.
    apply w_caps with 68%Z; auto; try lia. apply w_mul with 68%Z 0%Z; auto; try lia. apply quot with 41%Z 106%Z; auto; try lia. apply n_sqrt; auto; lia.
  - destruct Hb as (M & V & C1 & C2). pose proof (mix1 _ _ M Hg) as M'. pose proof (mix2 _ _ _ B2 V Hg) as V'. split; [split; [auto|split; [auto|split; [apply next1_rg with (k := ONadam); auto | apply next2_rg with (k := ONadam); auto]]]|].
    destruct (corr1 b1 C1) as [K1 K2]. apply w_cap with 72%Z; auto; try lia. apply w_mul with 72%Z 0%Z; auto; try lia. apply quot with 45%Z 106%Z; auto; try lia; [|apply n_sqrt; auto; lia].
    assert (O1 : within 0 (oneMinus F (beta1 F))). { destruct b1_rg as [R1 R2]. pose proof max_big. apply within_rg. change (p2 0) with 1. apply om_rg; auto; try lra; [apply fmt_opp, fmt_1 | apply fmt_1]. }
    assert (OB : within 0 (beta1 F)). { destruct b1_rg as [R1 R2]. split; auto. change (p2 0) with 1. rewrite Rabs_pos_eq; lra. }
    apply w_add with 41%Z 44%Z; try lia; [apply w_mul with 41%Z 0%Z; auto; lia|]. apply w_div with 40%Z (-4)%Z; auto; try lia. apply w_mul with 40%Z 0%Z; auto; lia.
  - destruct Hb as (M & V & C1). pose proof (mix1 _ _ M Hg) as M'. assert (V' : nn 40 (stdmax F (b32_mul (cv F s) (beta2 F)) (Babs g))). { apply max_nn; [|apply w_abs; auto]. apply n_mul with 40%Z 0%Z; auto; lia. }
    split; [split; [auto|split; [auto|apply next1_rg with (k := OAdamax); auto]]|]. destruct (corr1 b1 C1) as [K1 K2].
    apply w_cap with 72%Z; auto; try lia. apply w_mul with 68%Z 4%Z; try lia; [|apply w_div with 0%Z (-4)%Z; auto; lia]. apply quot with 41%Z 40%Z; auto; lia.
  - pose proof (mu_nn (b32_mul g (cp F s)) (cv F s) Hb) as U. split; auto. apply move_w; auto.
  - pose proof (mu_nn (b32_mul g (cp F s)) (cv F s) Hb) as U. split; auto. apply move_w; auto.
Qed.
Lemma run_stay : forall k lr dec mom gs b1 b2 s w, within 0 lr -> (k = ORMSProp -> rg 0 1 dec) -> within 0 mom -> bounded k b1 b2 s -> within 100 w -> List.Forall (within 40) gs ->
  within 100 (snd (crun F k lr dec mom b1 b2 s w gs)).
Proof.
  intros k lr dec mom. induction gs as [|g gs IH]; intros b1 b2 s w Hl Hd Hm Hb Hw Hg; cbn [crun snd]; auto. inversion Hg; subst.
  destruct (step_stay k lr dec mom b1 b2 s w g Hl Hd Hm Hb Hw H1) as [A B]. cbv zeta. apply IH; auto.
Qed.
Lemma dflt_cases : forall x d, dflt F x d = d \/ (dflt F x d = x /\ (fin x -> val x <> -1)).
Proof.
  intros x d. unfold dflt. destruct (feq F x (minus1 F)) eqn:E; auto. right. split; auto. intros Hx V. cbn [feq B32Ops] in E. unfold minus1 in E. cbn [fopp f1 B32Ops] in E.
  destruct one_rg as [O1 O2]. apply (neq_val x (Bopp (b32_of_Z 1)) Hx) in E; [|apply fin_opp; exact O1]. apply E. rewrite val_opp. rewrite O2. lra.
Qed.
Lemma lit_w0 : forall n d, (0 <= n <= Zpos d)%Z -> (Zpos d <= 2 ^ 24)%Z -> rg 0 1 (flit F n d).
Proof. intros n d H K. pose proof max_big. assert (0 < IZR (Zpos d)) by (apply IZR_lt; lia). apply lit_rg; try lia; try lra; [apply fmt_0 | apply fmt_1|]. destruct H as [Ha Hb]. apply IZR_le in Ha, Hb. split; [apply Rmult_le_pos; [lra | left; apply Rinv_0_lt_compat; lra]|]. apply Rmult_le_reg_r with (IZR (Zpos d)); auto. unfold Rdiv. rewrite Rmult_assoc, Rinv_l by lra. lra. Qed.
Lemma rg_w0 : forall x, rg 0 1 x -> within 0 x. Proof. intros x H. apply nn_within. exact H. Qed.

Lemma params_stay : forall k lr dec mom, within 0 lr -> fraction dec -> within 0 mom -> let o := set_params F (newOpt F k) lr dec mom in
  okind F o = k /\ within 0 (olr F o) /\ (k = ORMSProp -> rg 0 1 (odecay F o)) /\ within 0 (omom F o) /\ forall g, within 40 g -> bounded k (b1p F o) (b2p F o) (cinit F k g).
Proof.
  intros k lr dec mom Hl Hd Hm o. split; [destruct k; reflexivity|]. split; [|split; [|split]].
  - assert (G : forall n d, (0 <= n <= Zpos d)%Z -> (Zpos d <= 2 ^ 24)%Z -> within 0 (dflt F lr (flit F n d))) by (intros n d A B; destruct (dflt_cases lr (flit F n d)) as [->|[-> _]]; auto; apply rg_w0, lit_w0; auto).
    unfold o. destruct k; cbn [set_params init newOpt okind olr defaultLR]; auto; apply G; lia.
  - intros ->. unfold o. cbn [set_params init newOpt okind odecay]. destruct (dflt_cases dec (flit F 99 100)) as [->|[-> N]]; [apply lit_w0; lia|]. destruct Hd as [A [B|B]]; [split; auto | destruct (N A B)].
  - assert (G : within 0 (dflt F mom (flit F 9 10))) by (destruct (dflt_cases mom (flit F 9 10)) as [->|[-> _]]; auto; apply rg_w0, lit_w0; lia). unfold o. destruct k; cbn [set_params init newOpt okind omom]; auto.
  - intros g Hg. pose proof zero_nn as Z0. pose proof zero_w as Z1. pose proof max_big. assert (B1 : rg 0 (29 / 32) (beta1 F)) by (eapply rg_w; [exact b1_rg | lra | lra]). pose proof b2_rg as B2.
    assert (L : rg 0 (p2 6) (flit F 125 10000)) by (apply lit_rg; try lia; [apply fmt_0 | apply fmt_p2; lia | lra | apply p2_lt_max; lia | unfold p2; simpl; lra]).
    assert (G6 : within 66 g) by (apply within_w with 40%Z; auto; lia). unfold o. destruct k; cbn [bounded cinit cv cm cp set_params init newOpt okind b1p b2p f0 B32Ops]; auto.
Qed.
Lemma cells_in : forall z (gs : list (nat -> nat -> b32)) i j, (forall g i j, In g gs -> within z (g i j)) -> List.Forall (within z) (map (fun g => g i j) gs).
Proof. intros z gs i j H. apply Forall_forall. intros x Hx. apply in_map_iff in Hx. destruct Hx as (g' & <- & Hg'). apply H; auto. Qed.

Theorem weights_stay : forall k lr dec mom r c (w : nat -> nat -> b32) (gs : list (nat -> nat -> b32)), within 0 lr -> fraction dec -> within 0 mom ->
  (forall i j, within 100 (w i j)) -> (forall g i j, In g gs -> within 40 (g i j)) ->
  exists o' w', optRun F (absFloat F) (set_params F (newOpt F k) lr dec mom) (mgen r c w) (map (mgen r c) gs) = Ok (o', mgen r c w') /\ forall i j, within 100 (w' i j).
Proof.
  intros k lr dec mom r c w gs Hl Hd Hm Hw Hg. destruct (run_fresh F r c gs (set_params F (newOpt F k) lr dec mom) w (fresh_set_params F _ _ _ _)) as (o' & E & _). cbv zeta in E. exists o'. eexists. split; [exact E|].
  intros i j. cbv beta. destruct (params_stay k lr dec mom Hl Hd Hm) as (K & D1 & D2 & D3 & D4). rewrite K. unfold crun0.
  destruct gs as [|g gs]; [apply Hw|]. cbn [map hd]. apply run_stay; auto; [apply D4, Hg; left; auto|]. exact (cells_in 40 (g :: gs) i j Hg).
Qed.
End Stay.
