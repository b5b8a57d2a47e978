(* NaNAct.v - which activation functions turn a finite float into a not-a-number *)
From Coq Require Import List Arith ZArith Reals Lra Lia Bool.
From Flocq Require Import Core IEEE754.BinarySingleNaN.
From Verif Require Import Base Scalar B32Int Act SpecRound RoundProofs1 SpecNaN B32Kit.
Import ListNotations.
Local Open Scope R_scope.

Notation z32 := (B754_zero false : b32).
Notation one := (b32_of_Z 1).
Definition lit (n : Z) (d : positive) : b32 := b32_div (b32_of_Z n) (b32_of_Z (Zpos d)).
Lemma one_fin : fin one. Proof. reflexivity. Qed.
Lemma one_val : val one = 1. Proof. apply (proj2 (ofZ_val 1 ltac:(lia))). Qed.
Lemma one_btw : btw 1 max32 one. Proof. apply val_btw; [reflexivity|]. rewrite one_val. pose proof max_big. lra. Qed.
Lemma z_fin : fin z32. Proof. reflexivity. Qed.
Lemma z_val : val z32 = 0. Proof. reflexivity. Qed.
Lemma lit_in : forall c a b, fin c -> (Z.abs a <= 2 ^ 24)%Z -> (Z.abs b <= 2 ^ 24)%Z -> b32_le (b32_of_Z a) c = true -> b32_le c (b32_of_Z b) = true -> IZR a <= val c <= IZR b.
Proof.
  intros c a b Hc Ha Hb La Lb. destruct (ofZ_val a Ha) as [Fa <-]. destruct (ofZ_val b Hb) as [Fb <-]. split; apply le_val; auto.
Qed.
Lemma lit_pos : forall c, fin c -> b32_lt z32 c = true -> 0 < val c.
Proof. intros c Hc H. exact (lt_val z32 c eq_refl Hc H). Qed.
Lemma lit_neg : forall c, fin c -> b32_lt c z32 = true -> val c < 0.
Proof. intros c Hc H. exact (lt_val c z32 Hc eq_refl H). Qed.

(* closed floats *)
Ltac closed := vm_compute; reflexivity.
Ltac fl := first [assumption | exact one_fin | exact z_fin | match goal with |- fin ?c => closed end].
Ltac nz := first [match goal with |- val ?c <> 0 => apply Rgt_not_eq; apply lit_pos; closed end | match goal with |- val ?c <> 0 => apply Rlt_not_eq; apply lit_neg; closed end].
Ltac bigs := pose proof max_big.

Section Act.
Variables (lm : libm -> b32 -> b32) (pw : b32 -> b32 -> b32) (jk : b32).
Hypothesis S : stdLibm lm pw.
Notation F := (B32Ops lm pw jk).
Variable x : b32.
Hypothesis Hx : fin x.

Lemma sq_btw : btw 0 max32 (b32_mul x x).
Proof. apply mul_nn; auto. nra. Qed.
Lemma sq1 : btw 1 max32 (b32_add (b32_mul x x) one).
Proof. apply add_posl; [apply (fmt_Z 1); lia | lra | exact sq_btw | exact one_btw]. Qed.
Lemma sq1' : btw 1 max32 (b32_add one (b32_mul x x)).
Proof. apply add_pos; [apply (fmt_Z 1); lia | lra | exact one_btw | exact sq_btw]. Qed.
Lemma onep : forall e, btw 0 max32 e -> btw 1 max32 (b32_add one e).
Proof. intros. apply add_pos; auto; [apply (fmt_Z 1); lia | lra | exact one_btw]. Qed.
Lemma onep' : forall e, btw 0 max32 e -> btw 1 max32 (b32_add e one).
Proof. intros. apply add_posl; auto; [apply (fmt_Z 1); lia | lra | exact one_btw]. Qed.
Lemma sq_ge : forall y, btw 1 max32 y -> btw 1 max32 (b32_sqrt y).
Proof. intros. apply sqrt_btw; auto; [exact fmt_max | bigs; lra]. Qed.
Lemma inv_ge1 : forall y, btw 1 max32 y -> btw 0 1 (b32_div one y).
Proof. intros. bigs. apply div_ge1; auto; try lra; try apply fmt_0; try apply one_fin; [apply (fmt_Z 1); lia | rewrite one_val; lra]. Qed.
Lemma opp_num : num (Bopp x). Proof. apply num_opp, fin_num; auto. Qed.
Lemma expm : btw 0 max32 (lm Lexp (Bopp x)). Proof. apply (exp_num _ _ S), opp_num. Qed.
Lemma expx : btw 0 max32 (lm Lexp x). Proof. apply (exp_num _ _ S), fin_num; auto. Qed.
Lemma den : btw 1 max32 (b32_add one (lm Lexp (Bopp x))). Proof. apply onep, expm. Qed.
Lemma sig : btw 0 1 (b32_div one (b32_add one (lm Lexp (Bopp x)))). Proof. apply inv_ge1, den. Qed.
Lemma unit_fin : forall s, btw 0 1 s -> fin s. Proof. intros s H. bigs. apply (btw_fin _ _ _ H); lra. Qed.
Lemma unit2_fin : forall s, btw (-1) 1 s -> fin s. Proof. intros s H. bigs. apply (btw_fin _ _ _ H); lra. Qed.
Lemma unit01 : forall s, btw 0 1 s -> btw (-1) 1 s. Proof. intros s H. eapply btw_w; eauto; lra. Qed.
Lemma p2_100 : 1000000 <= p2 100. Proof. unfold p2. simpl. lra. Qed.
(* x + 1 - x s, s a sigmoid *)
Lemma swish' : forall s, btw 0 1 s -> fin (b32_sub (b32_add x one) (b32_mul x s)).
Proof.
  intros s Hs. pose proof p2_100. assert (F1 : fin (b32_add x one)). { apply fin_add_small; auto; [apply one_fin|]. rewrite one_val, Rabs_R1. lra. }
  pose proof (mul_unit01r s x Hs Hx) as B. pose proof (val_in x). bigs. assert (F2 : fin (b32_mul x s)). { apply (btw_fin _ _ _ B); [unfold Rmin | unfold Rmax]; destruct (Rle_dec _ _); lra. }
  destruct B as [_ B]. rewrite fin_ext in B by auto.
  assert (Q : val (b32_add x one) = rnd32 (val x + 1)).
  { pose proof (Bplus_correct 24 128 prec32_gt_0 prec32_lt mode_NE x one Hx one_fin) as C. destruct (add_fin x one F1) as (_ & _ & E). rewrite E. fold one. rewrite one_val. reflexivity. }
  pose proof (top x) as T1. pose proof (top (b32_add x one)) as T2. pose proof (top (b32_mul x s)) as T3. apply Rabs_le_inv in T1. apply Rabs_le_inv in T2. apply Rabs_le_inv in T3.
  pose proof (Bminus_correct 24 128 prec32_gt_0 prec32_lt mode_NE _ _ F1 F2) as C. rewrite Rlt_bool_true in C; [apply C|]. apply rnd_top. fold (val (b32_add x one)) (val (b32_mul x s)).
  assert (P : 0 < p2 100) by apply bpow_gt_0. apply Rabs_le. destruct (Rle_dec 0 (val x)) as [L|L].
  - rewrite Rmin_left, Rmax_right in B by lra. assert (0 <= val (b32_add x one)). { rewrite Q. apply rnd_ge; [apply fmt_0 | lra]. } lra.
  - assert (L' : val x < 0) by lra. rewrite Rmin_right, Rmax_left in B by lra. assert (val (b32_add x one) <= 1). { rewrite Q. apply rnd_le; [apply (fmt_Z 1); lia | lra]. }
    assert (val x <= val (b32_add x one)). { rewrite Q. apply rnd_ge; [apply fmt_B | lra]. } lra.
Qed.

(* finite: closed terms, hypotheses *)
Local Opaque b32_add b32_sub b32_mul b32_div b32_sqrt b32_of_Z Bopp Babs.
Ltac clos := tryif (match goal with v : _ |- ?G => match G with context [v] => idtac end end) then fail else closed.
Ltac fn := first [match goal with |- fin ?c => clos end | assumption | apply fin_opp; fn | apply fin_abs; fn | eapply unit_fin; eassumption | eapply unit2_fin; eassumption].
Ltac nzc := tryif (match goal with v : _ |- ?G => match G with context [v] => idtac end end) then fail else nz.
Ltac nm := first [apply fin_num; fn | assumption | eapply btw_num; eassumption |
  match goal with
  | |- num (b32_add _ _) => first [apply num_add; [nm|fn] | apply num_addl; [fn|nm]]
  | |- num (b32_sub _ _) => first [apply num_sub; [nm|fn] | apply num_subl; [fn|nm]]
  | |- num (b32_mul _ _) => first [apply num_mul; [fn|fn] | apply num_mul_nz; [nm|fn|nzc] | apply num_mul_nzl; [fn|nzc|nm]]
  | |- num (b32_div _ _) => first [apply num_div; [nm|fn|nzc] | apply num_divl; [fn|nzc|nm]]
  | |- num (Bopp _) => apply num_opp; nm
  end].
Ltac ifs := repeat match goal with |- context [if ?b then _ else _] => lazymatch b with context [if _ then _ else _] => fail | _ => destruct b eqn:? end end.
Ltac openA := cbn [act_apply act_deriv fadd fsub fmul fdiv fopp fabs flt fle feq flm fpow flit fsign f0 f1 B32Ops]; cbv beta zeta; unfold piLit, seluL, seluA, twoPi, invTwoPi; cbn [flit B32Ops].


Lemma xnum : num x. Proof. apply fin_num; auto. Qed.
Lemma sin_num : num (lm Lsin x). Proof. eapply btw_num, (sin_fin _ _ S); auto. Qed.
Lemma absd : btw 1 max32 (b32_add one (Babs x)).
Proof. apply onep. apply val_btw; [apply fin_abs; auto|]. rewrite val_abs. pose proof (Rabs_pos (val x)). pose proof (val_lt x). lra. Qed.
Lemma soft_fin : fin (b32_div x (b32_add one (lm Lexp (Bopp x)))). Proof. apply div_ge1_fin; auto. apply den. Qed.
(* 1 + c x, c x >= 0 *)
Lemma lin : forall c, fin c -> 0 <= val c * val x -> btw 1 max32 (b32_add (b32_mul c x) one).
Proof. intros. apply onep'. apply mul_nn; auto. Qed.
Lemma sqx1 : btw 1 max32 (b32_add one (b32_mul (b32_mul one x) x)).
Proof.
  assert (U : btw 0 1 one). { apply val_btw; [exact one_fin|]. rewrite one_val. lra. }
  apply onep. destruct (mul_unit one x (unit01 _ U) Hx) as [A _]. apply mul_nn; auto.
  assert (E : val (b32_mul one x) = val x).
  { destruct (mul_fin one x A) as (_ & _ & E). rewrite E, one_val, Rmult_1_l. apply round_generic; [apply valid_rnd_round_mode|]. exact (fmt_B x). }
  rewrite E. nra.
Qed.
Lemma mul_small_fin : forall c, fin c -> Rabs (val c) <= 1 -> fin (b32_mul x c) /\ Rabs (val (b32_mul x c)) <= Rabs (val x).
Proof. intros c Hc H. apply mul_unitr; auto. apply val_btw; auto. apply Rabs_le_inv. auto. Qed.
Lemma mul_small_finl : forall c, fin c -> Rabs (val c) <= 1 -> fin (b32_mul c x) /\ Rabs (val (b32_mul c x)) <= Rabs (val x).
Proof. intros c Hc H. apply mul_unit; auto. apply val_btw; auto. apply Rabs_le_inv. auto. Qed.
Ltac lits c a b := let L := fresh "L" in pose proof (lit_in c a b ltac:(closed) ltac:(lia) ltac:(lia) ltac:(closed) ltac:(closed)) as L.

Lemma ap_Bent : num (act_apply F ABent x).
Proof. openA. pose proof (sq_ge _ sq1) as A. set (r := b32_sqrt _) in *. clearbody r. nm. Qed.
Lemma ap_Bump : num (act_apply F ABump x).
Proof.
  openA. ifs; [|nm]. apply btw_num with 0 max32. apply (exp_num _ _ S). apply num_divl; [closed | nzc |]. apply num_subl; [fn|]. apply num_mul; auto.
Qed.
Lemma ap_CELU : num (act_apply F ACELU x).
Proof.
  openA. ifs; [exact xnum|]. apply nle_val in Heqb; auto; [|closed]. rewrite z_val in Heqb. pose proof (val_in x). bigs.
  assert (D : btw (val x) 0 (b32_div x one)). { apply div_ge1; auto; try lra; [apply fmt_B | apply fmt_0 | exact one_btw]. }
  destruct D as [D1 D2]. pose proof (expm1_neg _ _ S _ D1 ltac:(lra)) as E. apply num_mul; [closed|]. apply (btw_fin _ _ _ E); lra.
Qed.
Lemma ap_CLL : num (act_apply F AComplementaryLogLog x).
Proof.
  openA. pose proof (opp_btw _ _ _ expx) as [A1 A2]. pose proof (exp_neg _ _ S _ A1 ltac:(lra)) as B. set (r := lm Lexp (Bopp _)) in *. clearbody r. nm.
Qed.
Lemma neg_exp : b32_le z32 x = false -> btw 1 max32 (lm Lexp (Bopp x)).
Proof. intro H. apply nle_val in H; auto; [|closed]. rewrite z_val in H. apply (exp_pos _ _ S); [apply opp_num|]. rewrite ext_opp, fin_ext by auto. lra. Qed.
Lemma ap_ELiSH : num (act_apply F AELiSH x).
Proof.
  openA. ifs; [apply fin_num, soft_fin|]. pose proof (neg_exp Heqb) as E. pose proof (inv_ge1 _ E) as I. bigs.
  assert (Q : fin (b32_sub (b32_div one (lm Lexp (Bopp x))) one)). { destruct (btw_val _ _ _ I ltac:(lra) ltac:(lra)) as [F1 B1]. apply (btw_fin (-1) 1); try lra. apply sub_btw; auto; try lra; [exact one_fin | apply (fmt_Z (-1)); lia | apply (fmt_Z 1); lia |]. rewrite one_val. lra. }
  apply fin_num. apply div_ge1_fin; auto. apply den.
Qed.
Lemma ap_Elliot : num (act_apply F AElliot x).
Proof. openA. destruct (div_ge1_fin x _ Hx absd) as [A _]. set (r := b32_div x _) in *. clearbody r. nm. Qed.
Lemma expm1_num : b32_le z32 x = false -> btw (-1) 0 (lm Lexpm1 x).
Proof. intro H. apply nle_val in H; auto; [|closed]. rewrite z_val in H. apply (expm1_neg _ _ S); [exact xnum | rewrite fin_ext; auto; lra]. Qed.
Lemma expm1_fin : b32_le z32 x = false -> fin (lm Lexpm1 x).
Proof. intro H. bigs. apply (btw_fin _ _ _ (expm1_num H)); lra. Qed.
Lemma ap_ELU : num (act_apply F AELU x).
Proof. openA. ifs; [exact xnum|]. apply (btw_num _ _ _ (expm1_num Heqb)). Qed.
Lemma lin2 : forall c, fin c -> 0 < val c -> b32_le z32 x = true -> btw 1 max32 (b32_add (b32_mul c x) one).
Proof. intros c Hc P H. apply le_val in H; auto; [|closed]. rewrite z_val in H. apply lin; auto. nra. Qed.
Lemma lin2n : forall c, fin c -> val c < 0 -> b32_le z32 x = false -> btw 1 max32 (b32_add (b32_mul c x) one).
Proof. intros c Hc P H. apply nle_val in H; auto; [|closed]. rewrite z_val in H. apply lin; auto. nra. Qed.
Ltac pos := apply lit_pos; closed.
Ltac neg := apply lit_neg; closed.
Lemma ap_E2RU : num (act_apply F AE2RU x).
Proof.
  openA. ifs.
  - pose proof (sq_ge _ (lin2 (b32_mul (b32_div (b32_of_Z 2) one) (b32_div (b32_of_Z 2) one)) ltac:(closed) ltac:(pos) Heqb)) as A. set (r := b32_sqrt _) in *. clearbody r. nm.
  - assert (A : btw 0 max32 (lm Lexp (b32_mul x (b32_div (b32_of_Z 2) one)))). { apply (exp_num _ _ S), num_mul; auto. closed. } set (r := lm Lexp _) in *. clearbody r. nm.
Qed.
Lemma ap_E3RU : num (act_apply F AE3RU x).
Proof.
  openA. ifs.
  - pose proof (pow_num _ _ S _ (b32_div one (b32_div (b32_of_Z 3) one)) (lin2 (b32_mul (b32_div (b32_of_Z 3) one) (b32_div (b32_of_Z 3) one)) ltac:(closed) ltac:(pos) Heqb) ltac:(closed)) as A. set (r := pw _ _) in *. clearbody r. nm.
  - assert (A : btw 0 max32 (lm Lexp (b32_mul x (b32_div (b32_of_Z 3) one)))). { apply (exp_num _ _ S), num_mul; auto. closed. } set (r := lm Lexp _) in *. clearbody r. nm.
Qed.
Lemma ap_FTS : num (act_apply F AFTS x).
Proof. openA. ifs; [nm|]. apply num_sub; [apply fin_num, soft_fin | closed]. Qed.
Lemma ap_FTSPlus : num (act_apply F AFTSPlus x).
Proof. openA. ifs; [nm|]. apply num_sub; [apply fin_num, soft_fin | closed]. Qed.
Lemma ap_Gauss : num (act_apply F AGauss x).
Proof. openA. apply btw_num with 0 max32. apply (exp_num _ _ S), num_mul; auto. apply fin_opp; auto. Qed.
Lemma erf1 : forall y, num y -> btw 0 2 (b32_add one (lm Lerf y)).
Proof.
  intros y Hy. bigs. pose proof (erf_num _ _ S _ Hy) as E. destruct (btw_val _ _ _ E ltac:(lra) ltac:(lra)) as [A B]. apply add_btw; auto; try lra; [exact one_fin | apply fmt_0 | apply (fmt_Z 2); lia |]. rewrite one_val. lra.
Qed.
Lemma erf1_fin : forall y, num y -> fin (b32_add one (lm Lerf y)).
Proof. intros y Hy. bigs. apply (btw_fin _ _ _ (erf1 y Hy)); lra. Qed.
Lemma ap_GELU : num (act_apply F AGELU x).
Proof.
  openA. assert (A : fin (b32_add one (lm Lerf (b32_div x (b32_sqrt (b32_div (b32_of_Z 2) one)))))). { apply erf1_fin, num_div; [exact xnum | closed | nzc]. }
  apply num_mul; auto. apply mul_small_finl; [closed|]. lits (b32_div one (b32_of_Z 2)) 0%Z 1%Z. apply Rabs_le. lra.
Qed.
Lemma abs_le1 : b32_lt one (Babs x) = false -> btw (-1) 1 x.
Proof. intro H. apply nlt_val in H; [|exact one_fin | apply fin_abs; auto]. rewrite one_val, val_abs in H. apply val_btw; auto. apply Rabs_le_inv; auto. Qed.
Lemma mul_in1 : forall c, fin c -> btw (-1) 1 x -> fin (b32_mul c x).
Proof. intros c Hc H. apply mul_unitr; auto. Qed.
Lemma ap_Hann : num (act_apply F AHann x).
Proof.
  openA. ifs; [nm|]. match goal with |- num (b32_mul (lm Lcos (b32_mul ?c x)) _) => assert (Hc : fin c) by closed; pose proof (cos_fin _ _ S _ (mul_in1 c Hc (abs_le1 Heqb))) as A end.
  pose proof (unit2_fin _ A). apply num_mul; auto.
Qed.
Lemma add_lit : forall c, fin c -> b32_le (b32_of_Z (-1000)) c = true -> b32_le c (b32_of_Z 1000) = true -> fin (b32_add x c).
Proof. intros c Hc A B. pose proof (lit_in c (-1000) 1000 Hc ltac:(lia) ltac:(lia) A B). apply fin_add_small; auto. pose proof p2_100. apply Rabs_le. lra. Qed.
Lemma ap_HardSwish : num (act_apply F AHardSwish x).
Proof. openA. ifs; [exact xnum | nm |]. pose proof (add_lit (b32_div (b32_of_Z 3) one) ltac:(closed) ltac:(closed) ltac:(closed)) as A. set (r := b32_add _ _) in *. clearbody r. nm. Qed.
Lemma ap_ISRLU : num (act_apply F AISRLU x).
Proof. openA. ifs; [exact xnum|]. apply fin_num, div_ge1_fin; auto. apply sq_ge, sqx1. Qed.
Lemma tanh_fin : forall y, num y -> fin (lm Ltanh y). Proof. intros y H. apply unit2_fin, (tanh_num _ _ S); auto. Qed.
Lemma ap_LecunTanh : num (act_apply F ALecunTanh x).
Proof. openA. apply num_mul; [closed|]. apply tanh_fin, num_mul; auto. closed. Qed.
Lemma ap_LiSHT : num (act_apply F ALiSHT x).
Proof. openA. apply num_mul; auto. apply tanh_fin, xnum. Qed.
Lemma ap_LogSigmoid : num (act_apply F ALogSigmoid x).
Proof. openA. destruct sig as [A B]. apply (log_num _ _ S); auto. lra. Qed.
Lemma log1p_exp : btw 0 max32 (lm Llog1p (lm Lexp x)). Proof. destruct expx as [A B]. apply (log1p_num _ _ S); auto. lra. Qed.
Lemma ap_Mish : num (act_apply F AMish x).
Proof. openA. apply num_mul; auto. apply tanh_fin. apply (btw_num _ _ _ log1p_exp). Qed.
Lemma ap_NLRelu : num (act_apply F ANLRelu x).
Proof. openA. ifs; [|nm]. apply lt_val in Heqb; auto; [|closed]. rewrite z_val in Heqb. eapply btw_num, (log1p_num _ _ S); [exact xnum | rewrite fin_ext; auto; lra]. Qed.
Lemma ap_O2RU : num (act_apply F AO2RU x).
Proof.
  openA. ifs.
  - pose proof (sq_ge _ (lin2 (b32_mul (b32_div (b32_of_Z 2) one) (b32_div (b32_of_Z 2) one)) ltac:(closed) ltac:(pos) Heqb)) as A. set (r := b32_sqrt _) in *. clearbody r. nm.
  - pose proof (sq_ge _ (lin2n (b32_mul (Bopp (b32_div (b32_of_Z 2) one)) (b32_div (b32_of_Z 2) one)) ltac:(closed) ltac:(neg) Heqb)) as A. set (r := b32_sqrt _) in *. clearbody r. nm.
Qed.
Lemma ap_O3RU : num (act_apply F AO3RU x).
Proof.
  openA. ifs.
  - pose proof (pow_num _ _ S _ (b32_div one (b32_div (b32_of_Z 3) one)) (lin2 (b32_mul (b32_div (b32_of_Z 3) one) (b32_div (b32_of_Z 3) one)) ltac:(closed) ltac:(pos) Heqb) ltac:(closed)) as A. set (r := pw _ _) in *. clearbody r. nm.
  - pose proof (pow_num _ _ S _ (b32_div one (b32_div (b32_of_Z 3) one)) (lin2n (b32_mul (Bopp (b32_div (b32_of_Z 3) one)) (b32_div (b32_of_Z 3) one)) ltac:(closed) ltac:(neg) Heqb) ltac:(closed)) as A. set (r := pw _ _) in *. clearbody r. nm.
Qed.
Lemma ap_SmoothSigmoid : num (act_apply F ASmoothSigmoid x).
Proof.
  openA. assert (A : fin (b32_add (b32_div one (b32_of_Z 2)) (b32_mul x (b32_div one (b32_of_Z 4))))).
  { lits (b32_div one (b32_of_Z 4)) 0%Z 1%Z. destruct (mul_small_fin (b32_div one (b32_of_Z 4)) ltac:(closed) ltac:(apply Rabs_le; lra)) as [B _].
    pose proof (Bplus_correct 24 128 prec32_gt_0 prec32_lt mode_NE (b32_div one (b32_of_Z 2)) _ ltac:(closed) B) as C. rewrite Rlt_bool_true in C; [exact (proj1 (proj2 C))|].
    apply rnd_top. pose proof (top (b32_mul x (b32_div one (b32_of_Z 4)))). lits (b32_div one (b32_of_Z 2)) 0%Z 1%Z. pose proof p2_100. eapply Rle_trans; [apply Rabs_triang|]. fold (val (b32_div one (b32_of_Z 2))) (val (b32_mul x (b32_div one (b32_of_Z 4)))).
    rewrite (Rabs_pos_eq (val (b32_div one (b32_of_Z 2)))) by lra. lra. }
  set (r := b32_add _ (b32_mul x _)) in *. clearbody r. ifs; nm.
Qed.
Lemma ap_Selu : num (act_apply F ASelu x).
Proof. openA. ifs; [nm|]. apply num_mul; [closed | apply expm1_fin; auto]. Qed.
Lemma ap_SoftSign : num (act_apply F ASoftSign x).
Proof. openA. apply fin_num, div_ge1_fin; auto. apply absd. Qed.
Lemma abs_lt2 : b32_le (b32_div (b32_of_Z 2) one) (Babs x) = false -> Rabs (val x) < 2.
Proof.
  intro H. apply nle_val in H; [| closed | apply fin_abs; auto]. rewrite val_abs in H. lits (b32_div (b32_of_Z 2) one) 2%Z 2%Z. lra.
Qed.
(* magnitudes *)
Definition mag (k : Z) (y : b32) : Prop := fin y /\ Rabs (val y) <= p2 k.
Lemma mag_btw : forall k y, btw (- p2 k) (p2 k) y -> (k <= 127)%Z -> mag k y.
Proof.
  intros k y H Hk. assert (p2 k < max32) by (apply bpow_lt; lia). destruct (btw_val _ _ _ H) as [A B]; try lra. split; auto. apply Rabs_le. auto.
Qed.
Lemma fmt_side : forall k, (-149 <= k <= 127)%Z -> fmt (p2 k) /\ fmt (- p2 k) /\ - p2 k <= max32 /\ - max32 <= p2 k.
Proof. intros k H. pose proof max_pos. assert (0 < p2 k) by apply bpow_gt_0. split; [apply fmt_p2; lia|]. split; [apply fmt_opp, fmt_p2; lia|]. lra. Qed.
Lemma mag_add : forall a k y z, mag a y -> mag a z -> (k = a + 1)%Z -> (-149 <= k <= 127)%Z -> mag k (b32_add y z).
Proof.
  intros a k y z [A1 A2] [B1 B2] -> H. destruct (fmt_side (a + 1) H) as (F1 & F2 & F3 & F4). apply mag_btw; [|lia]. apply add_btw; auto. apply Rabs_le_inv.
  eapply Rle_trans; [apply Rabs_triang|]. unfold p2 in *. rewrite bpow_plus. simpl (bpow radix2 1). lra.
Qed.
Lemma mag_sub : forall a k y z, mag a y -> mag a z -> (k = a + 1)%Z -> (-149 <= k <= 127)%Z -> mag k (b32_sub y z).
Proof.
  intros a k y z [A1 A2] [B1 B2] -> H. destruct (fmt_side (a + 1) H) as (F1 & F2 & F3 & F4). apply mag_btw; [|lia]. apply sub_btw; auto. apply Rabs_le_inv.
  unfold Rminus. eapply Rle_trans; [apply Rabs_triang|]. rewrite Rabs_Ropp. unfold p2 in *. rewrite bpow_plus. simpl (bpow radix2 1). lra.
Qed.
Lemma mag_mul : forall a b k y z, mag a y -> mag b z -> (k = a + b)%Z -> (-149 <= k <= 127)%Z -> mag k (b32_mul y z).
Proof.
  intros a b k y z [A1 A2] [B1 B2] -> H. destruct (fmt_side (a + b) H) as (F1 & F2 & F3 & F4). apply mag_btw; [|lia]. apply mul_btw; auto. apply Rabs_le_inv.
  rewrite Rabs_mult. unfold p2 in *. rewrite bpow_plus. pose proof (Rabs_pos (val y)). pose proof (Rabs_pos (val z)). nra.
Qed.
Lemma mag_w : forall a b y, mag a y -> (a <= b)%Z -> mag b y.
Proof. intros a b y [A1 A2] H. split; auto. eapply Rle_trans; [exact A2|]. apply bpow_le. auto. Qed.
Lemma mag_div : forall a b k y z, mag a y -> fin z -> p2 b <= Rabs (val z) -> (k = a - b)%Z -> (-149 <= k <= 127)%Z -> mag k (b32_div y z).
Proof.
  intros a b k y z [A1 A2] B1 B2 -> H. destruct (fmt_side (a - b) H) as (F1 & F2 & F3 & F4). assert (P : 0 < p2 b) by apply bpow_gt_0.
  assert (NZ : val z <> 0). { intro E. rewrite E, Rabs_R0 in B2. lra. } apply mag_btw; [|lia]. apply div_btw; auto. apply Rabs_le_inv.
  unfold Rdiv. rewrite Rabs_mult, Rabs_inv. unfold p2 in *. unfold Z.sub. rewrite bpow_plus, bpow_opp. pose proof (Rabs_pos (val y)).
  apply Rmult_le_compat; auto; [left; apply Rinv_0_lt_compat; lra | apply Rinv_le; lra].
Qed.
Lemma mag_opp : forall a y, mag a y -> mag a (Bopp y).
Proof. intros a y [A1 A2]. split; [apply fin_opp; auto|]. rewrite val_opp, Rabs_Ropp. auto. Qed.
Lemma mag_lit : forall c a, fin c -> (Z.abs a <= 2 ^ 24)%Z -> b32_le (b32_of_Z (- a)) c = true -> b32_le c (b32_of_Z a) = true -> forall k, IZR a <= p2 k -> mag k c.
Proof. intros c a Hc Ha A B k Hk. split; auto. pose proof (lit_in c (- a) a Hc ltac:(lia) ltac:(lia) A B) as L. rewrite opp_IZR in L. apply Rabs_le. lra. Qed.
Lemma ap_SQRBF : num (act_apply F ASQRBF x).
Proof.
  openA. destruct (b32_le (b32_div (b32_of_Z 2) one) (Babs x)) eqn:E; [nm|]. apply abs_lt2 in E.
  assert (M : mag 1 x) by (split; auto; unfold p2; simpl; lra). assert (M2 : mag 2 (b32_mul x x)) by (eapply mag_mul; eauto; lia).
  assert (L2 : mag 1 (b32_div (b32_of_Z 2) one)) by (apply (mag_lit _ 2); try closed; try lia; unfold p2; simpl; lra).
  assert (Lh : mag 0 (b32_div one (b32_of_Z 2))) by (apply (mag_lit _ 1); try closed; try lia; unfold p2; simpl; lra).
  assert (A : mag 2 (b32_mul (b32_mul x x) (b32_div one (b32_of_Z 2)))) by (eapply mag_mul; eauto; lia).
  assert (B : mag 2 (b32_mul (b32_div (b32_of_Z 2) one) x)) by (eapply mag_mul; eauto; lia).
  ifs; [nm | | ]; (apply num_add; [apply fin_num | clos]).
  - apply (mag_sub 2 3 _ _ A B); lia.
  - apply (mag_add 2 3 _ _ A B); lia.
Qed.
Lemma ap_SinC : num (act_apply F ASinC x).
Proof. openA. ifs; [nm|]. apply neq_val in Heqb; auto; [|closed]. apply num_div; auto. apply sin_num. Qed.
Lemma sin_f : fin (lm Lsin x). Proof. apply unit2_fin, (sin_fin _ _ S); auto. Qed.
Lemma cos_f : fin (lm Lcos x). Proof. apply unit2_fin, (cos_fin _ _ S); auto. Qed.
Lemma ap_SineReLU : num (act_apply F ASineReLU x).
Proof. openA. pose proof sin_f. pose proof cos_f. ifs; nm. Qed.
Lemma ap_TanhExp : num (act_apply F ATanhExp x).
Proof. openA. apply num_mul; auto. apply tanh_fin. apply (btw_num _ _ _ expx). Qed.
Lemma ap_TanhShrink : num (act_apply F ATanhShrink x).
Proof. openA. apply num_sub; [exact xnum | apply tanh_fin, xnum]. Qed.

Theorem apply_num : forall k, ~ In k nanApply -> num (act_apply F k x).
Proof.
  intros k Hk. destruct k; try (exfalso; apply Hk; cbn; tauto);
  first [exact ap_Bent | exact ap_Bump | exact ap_CELU | exact ap_CLL | exact ap_ELiSH | exact ap_Elliot | exact ap_ELU | exact ap_E2RU | exact ap_E3RU | exact ap_FTS | exact ap_FTSPlus | exact ap_Gauss | exact ap_GELU | exact ap_Hann | exact ap_HardSwish | exact ap_ISRLU | exact ap_LecunTanh | exact ap_LiSHT | exact ap_LogSigmoid | exact ap_Mish | exact ap_NLRelu | exact ap_O2RU | exact ap_O3RU | exact ap_SmoothSigmoid | exact ap_Selu | exact ap_SoftSign | exact ap_SQRBF | exact ap_SinC | exact ap_SineReLU | exact ap_TanhExp | exact ap_TanhShrink | idtac].
  all: openA; try (exact (btw_num _ _ _ expx)); try (exact (btw_num _ _ _ log1p_exp)); try exact sin_num; try (exact (btw_num _ _ _ sig)); try (exact (fin_num _ soft_fin));
    try (apply fin_num, tanh_fin, xnum); try (eapply btw_num, (asinh_fin _ _ S); assumption); try (eapply btw_num, (atan_num _ _ S), xnum); ifs; nm.
Qed.

(** * derivatives *)
Lemma dr_Asinh : num (act_deriv F AAsinh x). Proof. openA. exact (btw_num _ _ _ (inv_ge1 _ (sq_ge _ sq1'))). Qed.
Lemma dr_Atan : num (act_deriv F AAtan x). Proof. openA. exact (btw_num _ _ _ (inv_ge1 _ sq1')). Qed.
Lemma dr_Bent : num (act_deriv F ABent x).
Proof.
  openA. assert (T2 : btw 1 max32 (b32_div (b32_of_Z 2) one)). { lits (b32_div (b32_of_Z 2) one) 2%Z 2%Z. bigs. apply val_btw; [closed | lra]. }
  destruct (div_ge1_fin x _ Hx (mul_ge1 _ _ T2 (sq_ge _ sq1))) as [A _]. set (r := b32_div x _) in *. clearbody r. nm.
Qed.
(* |x| < 1 as a float: |x| <= 1 - 2^-24 *)
Lemma lt_one : Rabs (val x) < 1 -> Rabs (val x) <= 1 - p2 (-24).
Proof.
  intro H. replace (1 - p2 (-24)) with (pred radix2 (FLT_exp (-149) 24) 1).
  - apply pred_ge_gt; auto; [apply FLT_exp_valid; exact prec32_gt_0 | apply fmt_abs, fmt_B | apply (fmt_Z 1); lia].
  - change 1 with (bpow radix2 0) at 1. rewrite pred_bpow. unfold p2, FLT_exp. simpl. lra.
Qed.
Lemma dr_Bump : num (act_deriv F ABump x).
Proof.
  openA. ifs; [|nm]. apply lt_val in Heqb; [| apply fin_abs; auto | exact one_fin]. rewrite one_val, val_abs in Heqb. apply lt_one in Heqb. pose proof (Rabs_pos (val x)). bigs.
  assert (P : 0 < p2 (-24) < / 1000) by (unfold p2; simpl; lra). assert (F1 : fmt (1 - p2 (-24))).
  { replace (1 - p2 (-24)) with (pred radix2 (FLT_exp (-149) 24) 1); [apply generic_format_pred; [apply FLT_exp_valid; exact prec32_gt_0 | apply (fmt_Z 1); lia]|].
    change 1 with (bpow radix2 0) at 1. rewrite pred_bpow. unfold p2, FLT_exp. simpl. lra. }
  assert (A : btw 0 (1 - p2 (-24)) (b32_mul x x)). { assert (val x * val x = Rabs (val x) * Rabs (val x)) by (rewrite <- Rabs_mult, Rabs_pos_eq; [auto | nra]). apply mul_btw; auto; try lra; try apply fmt_0. rewrite H1. nra. }
  destruct (btw_val _ _ _ A ltac:(lra) ltac:(lra)) as [A1 A2].
  assert (B : btw (-1) (- p2 (-24)) (b32_sub (b32_mul x x) one)). { apply sub_btw; auto; try lra; [exact one_fin | apply (fmt_Z (-1)); lia | apply fmt_opp, fmt_p2; lia |]. rewrite one_val. lra. }
  set (y := b32_sub _ one) in *. clearbody y. destruct (btw_val _ _ _ B ltac:(lra) ltac:(lra)) as [B1 B2].
  assert (C : btw (- p2 24) 0 (b32_div one y)).
  { apply div_btw; auto; try lra; [exact one_fin | apply fmt_opp, fmt_p2; lia | apply fmt_0 | pose proof (bpow_gt_0 radix2 24); unfold p2; lra |]. rewrite one_val. unfold Rdiv. rewrite Rmult_1_l.
    assert (E : p2 24 = / p2 (-24)) by (unfold p2; rewrite <- bpow_opp; reflexivity). rewrite E. replace (/ val y) with (- / - val y) by (field; lra). assert (0 < / - val y) by (apply Rinv_0_lt_compat; lra). assert (/ - val y <= / p2 (-24)) by (apply Rinv_le; lra). lra. }
  destruct C as [C1 C2]. pose proof (exp_neg _ _ S _ C1 ltac:(lra)) as E. set (e := lm Lexp _) in *. clearbody e. pose proof (unit_fin _ E) as E1.
  assert (G : fin (b32_mul (Bopp (b32_div (b32_of_Z 2) one)) x)). { apply mul_in1; [closed|]. apply val_btw; auto. apply Rabs_le_inv. lra. }
  destruct (mul_unitr e _ (unit01 _ E) G) as [K _]. set (n := b32_mul (b32_mul _ x) e) in *. clearbody n.
  assert (D : btw (p2 (-48)) 1 (b32_mul y y)). { apply mul_btw; auto; try lra; [apply fmt_p2; lia | apply (fmt_Z 1); lia | unfold p2; simpl; lra |]. replace (p2 (-48)) with (p2 (-24) * p2 (-24)) by (unfold p2; rewrite <- bpow_plus; reflexivity). nra. }
  assert (0 < p2 (-48)) by apply bpow_gt_0. destruct (btw_val _ _ _ D ltac:(lra) ltac:(lra)) as [D1 D2]. apply num_div; [apply fin_num|..]; auto. lra.
Qed.
Lemma dr_CELU : num (act_deriv F ACELU x).
Proof. openA. ifs; [nm|]. eapply btw_num, (exp_num _ _ S). apply num_div; [exact xnum | closed | nzc]. Qed.
Lemma dr_CLL : num (act_deriv F AComplementaryLogLog x).
Proof. openA. eapply btw_num, (exp_num _ _ S), num_subl; auto. exact (btw_num _ _ _ expx). Qed.
Lemma dr_Elliot : num (act_deriv F AElliot x).
Proof. openA. apply fin_num, div_ge1_fin; [closed | apply mul_ge1; apply absd]. Qed.
Lemma dr_ELU : num (act_deriv F AELU x).
Proof. openA. ifs; [nm|]. apply num_add; [exact (btw_num _ _ _ (expm1_num Heqb)) | closed]. Qed.
Lemma dr_Eswish : num (act_deriv F AEswish x).
Proof.
  openA. pose proof sig as A. pose proof (swish' _ A) as B. set (s := b32_div one (b32_add one _)) in *. clearbody s. set (y := b32_sub _ _) in *. clearbody y. apply num_mul; auto.
  apply mul_unitr; [apply unit01; auto | closed].
Qed.
Lemma dr_Swish : num (act_deriv F ASwish x).
Proof. openA. pose proof sig as A. apply num_mul; [apply unit_fin; auto | apply swish'; auto]. Qed.
Lemma dr_FTS : num (act_deriv F AFTS x).
Proof. openA. ifs; [nm|]. exact dr_Swish. Qed.
Lemma dr_FTSPlus : num (act_deriv F AFTSPlus x).
Proof. openA. ifs; [nm|]. exact dr_Swish. Qed.
Lemma dr_E2RU : num (act_deriv F AE2RU x).
Proof.
  openA. ifs.
  - apply fin_num, div_ge1_fin; [closed|]. apply sq_ge, lin2; auto; [closed | pos].
  - apply num_mul_nzl; [closed | nzc |]. eapply btw_num, (exp_num _ _ S), num_mul; auto. closed.
Qed.
Lemma dr_E3RU : num (act_deriv F AE3RU x).
Proof.
  openA. ifs; (apply num_mul_nzl; [closed | nzc |]).
  - eapply btw_num, (pow_num _ _ S); [|closed]. apply lin2; auto; [closed | pos].
  - eapply btw_num, (exp_num _ _ S), num_mul; auto. closed.
Qed.
Lemma dr_GELU : num (act_deriv F AGELU x).
Proof.
  openA. assert (A : fin (b32_add one (lm Lerf (b32_div x (b32_sqrt (b32_div (b32_of_Z 2) one)))))). { apply erf1_fin, num_div; [exact xnum | closed | nzc]. }
  apply num_add; [apply num_mul; [closed | auto]|].
  assert (B : btw (- max32) 0 (b32_mul (b32_mul (Bopp x) x) (b32_div one (b32_of_Z 2)))). { apply mul_np_c; [apply mul_np; [apply fin_opp; auto | auto | rewrite val_opp; nra] | closed | pos]. }
  destruct B as [B1 B2]. pose proof (exp_neg _ _ S _ B1 ltac:(lra)) as E. destruct (mul_unitr _ x (unit01 _ E) Hx) as [C _]. apply div_ge1_fin; auto.
  match goal with |- btw 1 max32 ?c => pose proof (lit_in c 1 100 ltac:(closed) ltac:(lia) ltac:(lia) ltac:(closed) ltac:(closed)) as L; apply val_btw; [closed|] end. bigs. lra.
Qed.
Lemma dr_Hann : num (act_deriv F AHann x).
Proof.
  openA. ifs; [nm|]. match goal with |- num (b32_mul _ (lm Lsin (b32_mul ?c x))) => assert (Hc : fin c) by closed; pose proof (sin_fin _ _ S _ (mul_in1 c Hc (abs_le1 Heqb))) as A end.
  pose proof (unit2_fin _ A). apply num_mul; [closed | auto].
Qed.
Lemma dr_ISRLU : num (act_deriv F AISRLU x).
Proof.
  openA. ifs; [nm|]. pose proof (inv_ge1 _ (sq_ge _ sqx1)) as A. set (t := b32_div one _) in *. clearbody t. pose proof (unit_fin _ A). destruct (mul_unit t t (unit01 _ A)) as [B _]; auto. apply num_mul; auto.
Qed.
Lemma dr_LecunTanh : num (act_deriv F ALecunTanh x).
Proof. openA. apply fin_num, div_ge1_fin; [closed|]. apply mul_ge1; apply (cosh_num _ _ S), num_mul; auto; closed. Qed.
Lemma dr_LiSHT : num (act_deriv F ALiSHT x).
Proof.
  openA. pose proof (tanh_num _ _ S _ xnum) as A. destruct (mul_unitr _ x A Hx) as [B _]. apply num_addl; auto. apply fin_num, mul_unit; auto. apply fin_sub_small; auto; [exact one_fin|]. pose proof p2_100. rewrite one_val, Rabs_R1. lra.
Qed.
Lemma dr_Logit : num (act_deriv F ALogit x).
Proof.
  openA. assert (Fs : fin (b32_sub x one)).
  { pose proof (Bminus_correct 24 128 prec32_gt_0 prec32_lt mode_NE x one Hx one_fin) as C. rewrite Rlt_bool_true in C; [apply C|]. apply rnd_top. pose proof (top x). pose proof p2_100. eapply Rle_trans; [apply Rabs_triang|]. rewrite Rabs_Ropp. fold (val one). fold (val x). rewrite one_val, Rabs_R1. lra. }
  destruct (Req_dec (val x) 0) as [E|E].
  - apply num_div; auto; [exact opp_num|]. bigs. assert (B : btw (-1) (-1) (b32_sub x one)). { apply sub_btw; auto; try lra; [exact one_fin | apply (fmt_Z (-1)); lia | apply (fmt_Z (-1)); lia |]. rewrite one_val, E. lra. }
    destruct B as [_ B]. rewrite fin_ext in B by auto. lra.
  - apply num_divl; [apply fin_opp; auto | rewrite val_opp; lra | apply fin_num; auto].
Qed.
Lemma dr_LogSigmoid : num (act_deriv F ALogSigmoid x). Proof. openA. exact (btw_num _ _ _ (inv_ge1 _ (onep _ expx))). Qed.
Lemma dr_NLRelu : num (act_deriv F ANLRelu x).
Proof. openA. ifs; [|nm]. apply lt_val in Heqb; auto; [|closed]. rewrite z_val in Heqb. eapply btw_num, inv_ge1, onep, val_btw; auto. pose proof (val_in x). lra. Qed.
Lemma dr_O2RU : num (act_deriv F AO2RU x).
Proof. openA. ifs; (apply fin_num, div_ge1_fin; [closed|]; apply sq_ge); [apply lin2 | apply lin2n]; auto; try closed; [pos | neg]. Qed.
Lemma dr_O3RU : num (act_deriv F AO3RU x).
Proof. openA. ifs; (apply num_mul_nzl; [closed | nzc |]; eapply btw_num, (pow_num _ _ S); [|closed]); [apply lin2 | apply lin2n]; auto; try closed; [pos | neg]. Qed.
Lemma dr_Selu : num (act_deriv F ASelu x).
Proof. openA. ifs; [nm|]. apply num_add; [|closed]. apply num_mul; [closed | apply expm1_fin; auto]. Qed.
Lemma dr_SoftPlus : num (act_deriv F ASoftPlus x). Proof. openA. exact (btw_num _ _ _ sig). Qed.
Lemma dr_SoftSign : num (act_deriv F ASoftSign x). Proof. openA. eapply btw_num, inv_ge1, mul_ge1; apply absd. Qed.
Lemma unit_comp : forall s, btw 0 1 s -> btw 0 1 (b32_sub one s).
Proof. intros s H. bigs. destruct (btw_val _ _ _ H ltac:(lra) ltac:(lra)) as [A B]. apply sub_btw; auto; try lra; [exact one_fin | apply fmt_0 | apply (fmt_Z 1); lia |]. rewrite one_val. lra. Qed.
Lemma dr_Sigmoid : num (act_deriv F ASigmoid x).
Proof. openA. pose proof sig as A. apply num_mul; apply unit_fin; auto. apply unit_comp; auto. Qed.
Lemma dr_SineReLU : num (act_deriv F ASineReLU x). Proof. openA. pose proof sin_f. pose proof cos_f. ifs; nm. Qed.
Lemma dr_Tanh : num (act_deriv F ATanh x).
Proof. openA. pose proof (tanh_fin _ xnum). set (t := lm _ _) in *. clearbody t. apply num_subl; [closed | apply num_mul; auto]. Qed.
Lemma dr_TanhShrink : num (act_deriv F ATanhShrink x). Proof. openA. pose proof (tanh_fin _ xnum). apply num_mul; auto. Qed.
Lemma dr_TanhExp : num (act_deriv F ATanhExp x).
Proof.
  openA. pose proof (tanh_num _ _ S _ (btw_num _ _ _ expx)) as A. destruct (mul_unitr _ x A Hx) as [B1 B2]. set (f := b32_mul x _) in *. clearbody f. apply num_subl; auto.
  destruct (Req_dec (val x) 0) as [E|E].
  - rewrite E, Rabs_R0 in B2. assert (Z0 : val f = 0). { apply Rabs_le_inv in B2. lra. } bigs. apply num_mul; auto. assert (Q : btw 0 0 (b32_mul f f)). { apply mul_btw; auto; try lra; try apply fmt_0. rewrite Z0. lra. }
    destruct (btw_val _ _ _ Q ltac:(lra) ltac:(lra)) as [Q1 Q2]. apply (btw_fin (-1) (-1)); try lra. apply sub_btw; auto; try lra; [exact one_fin | apply (fmt_Z (-1)); lia | apply (fmt_Z (-1)); lia |]. rewrite one_val. lra.
  - apply num_mul_nzl; auto. apply num_sub; [apply num_mul; auto | closed].
Qed.
Theorem deriv_num : forall k, ~ In k nanDeriv -> num (act_deriv F k x).
Proof.
  intros k Hk. destruct k; try (exfalso; apply Hk; cbn; tauto);
  first [exact dr_Asinh | exact dr_Atan | exact dr_Bent | exact dr_Bump | exact dr_CELU | exact dr_CLL | exact dr_Elliot | exact dr_ELU | exact dr_Eswish | exact dr_E2RU | exact dr_E3RU | exact dr_FTS | exact dr_FTSPlus | exact dr_GELU | exact dr_Hann | exact dr_ISRLU | exact dr_LecunTanh | exact dr_LiSHT | exact dr_Logit | exact dr_LogSigmoid | exact dr_NLRelu | exact dr_O2RU | exact dr_O3RU | exact dr_Selu | exact dr_SoftPlus | exact dr_SoftSign | exact dr_Sigmoid | exact dr_SineReLU | exact dr_Swish | exact dr_Tanh | exact dr_TanhExp | exact dr_TanhShrink | idtac].
  all: openA; try (exact (btw_num _ _ _ expx)); try (exact (fin_num _ cos_f)); ifs; nm.
Qed.
End Act.
