(* B32Kit.v - ranges of single-precision operations, infinities included *)
From Coq Require Import List Arith ZArith Reals Lra Lia Bool.
From Flocq Require Import Core Relative Plus_error IEEE754.BinarySingleNaN.
From Verif Require Import Base Scalar B32Int SpecRound RoundProofs1 SpecNaN.
Import ListNotations.
Local Open Scope R_scope.

Definition fmt (r : R) : Prop := generic_format radix2 (FLT_exp (-149) 24) r.
Lemma fmt_p2 : forall z, (-149 <= z)%Z -> fmt (p2 z).
Proof. intros z H. apply generic_format_bpow. unfold FLT_exp. lia. Qed.
Lemma fmt_opp : forall r, fmt r -> fmt (- r). Proof. intros. apply generic_format_opp. auto. Qed.
Lemma fmt_B : forall x : b32, fmt (B2R x). Proof. exact format32. Qed.
Lemma fmt_abs : forall r, fmt r -> fmt (Rabs r). Proof. intros. apply generic_format_abs. auto. Qed.
Lemma fmt_Z : forall z, (Z.abs z <= 2 ^ 24)%Z -> fmt (IZR z).
Proof. intros z H. apply int_format in H. exact H. Qed.
Lemma fmt_max : fmt max32. Proof. apply (fmt_p2 128). lia. Qed.
Lemma fmt_0 : fmt 0. Proof. apply generic_format_0. Qed.
Lemma max_pos : 0 < max32. Proof. apply bpow_gt_0. Qed.
Lemma max_big : 16777216 < max32. Proof. unfold max32. simpl. lra. Qed.
Lemma rnd_ge : forall a r, fmt a -> a <= r -> a <= rnd32 r.
Proof. intros. apply round_ge_generic; auto. apply fexp_correct. reflexivity. apply valid_rnd_round_mode. Qed.
Lemma rnd_le : forall a r, fmt a -> r <= a -> rnd32 r <= a.
Proof. intros. apply round_le_generic; auto. apply fexp_correct. reflexivity. apply valid_rnd_round_mode. Qed.

Lemma fin_num : forall x, fin x -> num x. Proof. intros [s|s| |s m e H]; unfold fin, num; auto; discriminate. Qed.
Lemma fin_ext : forall x, fin x -> ext x = val x. Proof. intros [s|s| |s m e H]; unfold fin; auto; discriminate. Qed.
Lemma val_lt : forall x : b32, Rabs (val x) < max32. Proof. intro x. apply (abs_B2R_lt_emax 24 128 x). Qed.
Lemma val_in : forall x : b32, - max32 < val x < max32. Proof. intro x. pose proof (val_lt x) as H. apply Rabs_def2 in H. lra. Qed.
Lemma ext_in : forall x : b32, - max32 <= ext x <= max32.
Proof. intro x. pose proof max_pos. pose proof (val_in x). destruct x as [s|[]| |s m e H1]; cbn [ext] in *; lra. Qed.
Lemma btw_fin : forall lo hi x, btw lo hi x -> - max32 < lo -> hi < max32 -> fin x.
Proof. intros lo hi [s|[]| |s m e H] [N B] L U; unfold fin; auto; try discriminate N; simpl in B; lra. Qed.
Lemma btw_val : forall lo hi x, btw lo hi x -> - max32 < lo -> hi < max32 -> fin x /\ lo <= val x <= hi.
Proof. intros lo hi x H L U. pose proof (btw_fin _ _ _ H L U) as Hf. split; auto. destruct H as [_ H]. rewrite fin_ext in H; auto. Qed.
Lemma val_btw : forall lo hi x, fin x -> lo <= val x <= hi -> btw lo hi x.
Proof. intros. split; [apply fin_num; auto | rewrite fin_ext; auto]. Qed.
Lemma btw_w : forall lo hi lo' hi' x, btw lo hi x -> lo' <= lo -> hi <= hi' -> btw lo' hi' x.
Proof. intros lo hi lo' hi' x [N B] L U. split; auto. lra. Qed.
Lemma num_btw : forall x, num x -> btw (- max32) max32 x. Proof. intros x H. split; auto. apply ext_in. Qed.
Lemma btw_num : forall lo hi x, btw lo hi x -> num x. Proof. intros lo hi x [H _]. exact H. Qed.

(* finite operands *)
Lemma over_inf : forall (z : b32) s, B2SF z = binary_overflow 24 128 mode_NE s -> z = inf32 s.
Proof. intros [sz|sz| |sz m e H] s E; simpl in E; try discriminate E. inversion E. reflexivity. Qed.
Lemma sat : forall (z : b32) (r : R) s lo hi, fmt lo -> fmt hi -> lo <= max32 -> - max32 <= hi -> lo <= r <= hi -> (s = false -> 0 <= r) -> (s = true -> r <= 0) ->
  (if Rlt_bool (Rabs (rnd32 r)) (bpow radix2 128) then B2R z = rnd32 r /\ is_finite z = true else z = inf32 s) -> btw lo hi z.
Proof.
  intros z r s lo hi Fl Fh Hl Hh B S1 S2 C. pose proof max_pos as MP. destruct (Rlt_bool_spec (Rabs (rnd32 r)) (bpow radix2 128)) as [L|L].
  - destruct C as [C1 C2]. apply val_btw; auto. unfold val. rewrite C1. split; [apply rnd_ge | apply rnd_le]; tauto.
  - subst z. change (bpow radix2 128) with max32 in L. split; [reflexivity|]. destruct s; simpl ext.
    + specialize (S2 eq_refl). pose proof (rnd_le 0 r fmt_0 S2) as Q. rewrite Rabs_left1 in L by auto. pose proof (rnd_ge lo r Fl ltac:(tauto)). lra.
    + specialize (S1 eq_refl). pose proof (rnd_ge 0 r fmt_0 S1) as Q. rewrite Rabs_pos_eq in L by auto. pose proof (rnd_le hi r Fh ltac:(tauto)). lra.
Qed.
Lemma sign_pos : forall x : b32, fin x -> Bsign x = false -> 0 <= B2R x.
Proof. intros [s|s| |s m e H] Hf E; unfold fin in Hf; try discriminate; simpl in *; try lra. subst. apply F2R_ge_0. simpl. lia. Qed.
Lemma sign_neg : forall x : b32, fin x -> Bsign x = true -> B2R x <= 0.
Proof. intros [s|s| |s m e H] Hf E; unfold fin in Hf; try discriminate; simpl in *; try lra. subst. apply F2R_le_0. simpl. lia. Qed.
Section Fin.
Variables (x y : b32) (lo hi : R).
Hypotheses (Hx : fin x) (Hy : fin y) (Fl : fmt lo) (Fh : fmt hi) (Hl : lo <= max32) (Hh : - max32 <= hi).
Lemma add_btw : lo <= val x + val y <= hi -> btw lo hi (b32_add x y).
Proof.
  intro B. apply sat with (r := B2R x + B2R y) (s := if Rlt_bool (Rabs (rnd32 (B2R x + B2R y))) (bpow radix2 128) then Rlt_bool (B2R x + B2R y) 0 else Bsign x); auto.
  - pose proof (Bplus_correct 24 128 prec32_gt_0 prec32_lt mode_NE x y Hx Hy) as C. destruct (Rlt_bool _ (bpow radix2 128)).
    + destruct (Rlt_bool_spec (B2R x + B2R y) 0); [discriminate|]. auto.
    + destruct C as [_ C]. intro S. pose proof (sign_pos x Hx S). rewrite S in C. pose proof (sign_pos y Hy (eq_sym C)). lra.
  - pose proof (Bplus_correct 24 128 prec32_gt_0 prec32_lt mode_NE x y Hx Hy) as C. destruct (Rlt_bool _ (bpow radix2 128)).
    + destruct (Rlt_bool_spec (B2R x + B2R y) 0); [lra|discriminate].
    + destruct C as [_ C]. intro S. pose proof (sign_neg x Hx S). rewrite S in C. pose proof (sign_neg y Hy (eq_sym C)). lra.
  - pose proof (Bplus_correct 24 128 prec32_gt_0 prec32_lt mode_NE x y Hx Hy) as C. destruct (Rlt_bool _ (bpow radix2 128)); [tauto|]. apply over_inf. tauto.
Qed.
Lemma sub_btw : lo <= val x - val y <= hi -> btw lo hi (b32_sub x y).
Proof.
  intro B. apply sat with (r := B2R x - B2R y) (s := if Rlt_bool (Rabs (rnd32 (B2R x - B2R y))) (bpow radix2 128) then Rlt_bool (B2R x - B2R y) 0 else Bsign x); auto.
  - pose proof (Bminus_correct 24 128 prec32_gt_0 prec32_lt mode_NE x y Hx Hy) as C. destruct (Rlt_bool _ (bpow radix2 128)).
    + destruct (Rlt_bool_spec (B2R x - B2R y) 0); [discriminate|]. auto.
    + destruct C as [_ C]. intro S. pose proof (sign_pos x Hx S). rewrite S in C. destruct (Bsign y) eqn:Sy; [|discriminate C]. pose proof (sign_neg y Hy Sy). lra.
  - pose proof (Bminus_correct 24 128 prec32_gt_0 prec32_lt mode_NE x y Hx Hy) as C. destruct (Rlt_bool _ (bpow radix2 128)).
    + destruct (Rlt_bool_spec (B2R x - B2R y) 0); [lra|discriminate].
    + destruct C as [_ C]. intro S. pose proof (sign_neg x Hx S). rewrite S in C. destruct (Bsign y) eqn:Sy; [discriminate C|]. pose proof (sign_pos y Hy Sy). lra.
  - pose proof (Bminus_correct 24 128 prec32_gt_0 prec32_lt mode_NE x y Hx Hy) as C. destruct (Rlt_bool _ (bpow radix2 128)); [tauto|]. apply over_inf. tauto.
Qed.
Lemma mul_btw : lo <= val x * val y <= hi -> btw lo hi (b32_mul x y).
Proof.
  intro B. apply sat with (r := B2R x * B2R y) (s := xorb (Bsign x) (Bsign y)); auto.
  - intro S. destruct (Bsign x) eqn:Sx, (Bsign y) eqn:Sy; try discriminate S; [pose proof (sign_neg x Hx Sx); pose proof (sign_neg y Hy Sy) | pose proof (sign_pos x Hx Sx); pose proof (sign_pos y Hy Sy)]; nra.
  - intro S. destruct (Bsign x) eqn:Sx, (Bsign y) eqn:Sy; try discriminate S; [pose proof (sign_neg x Hx Sx); pose proof (sign_pos y Hy Sy) | pose proof (sign_pos x Hx Sx); pose proof (sign_neg y Hy Sy)]; nra.
  - pose proof (Bmult_correct 24 128 prec32_gt_0 prec32_lt mode_NE x y) as C. destruct (Rlt_bool _ (bpow radix2 128)); [|apply over_inf; auto].
    destruct C as (C1 & C2 & _). split; auto. unfold b32_mul. rewrite C2. unfold fin in *. rewrite Hx, Hy. reflexivity.
Qed.
Lemma div_btw : val y <> 0 -> lo <= val x / val y <= hi -> btw lo hi (b32_div x y).
Proof.
  intros NZ B. unfold val in NZ. assert (Q : forall a b : R, b <> 0 -> 0 <= a * b -> 0 <= a / b).
  { intros a b Hb Hab. destruct (Rlt_le_dec b 0). - replace (a / b) with ((- a) * / (- b)) by (field; lra). apply Rmult_le_pos; [nra|]. left. apply Rinv_0_lt_compat. lra. - apply Rmult_le_pos; [nra|]. left. apply Rinv_0_lt_compat. lra. }
  assert (Q' : forall a b : R, b <> 0 -> a * b <= 0 -> a / b <= 0).
  { intros a b Hb Hab. pose proof (Q (- a) b Hb ltac:(nra)). unfold Rdiv in *. lra. }
  apply sat with (r := B2R x / B2R y) (s := xorb (Bsign x) (Bsign y)); auto.
  - intro S. apply Q; auto. destruct (Bsign x) eqn:Sx, (Bsign y) eqn:Sy; try discriminate S; [pose proof (sign_neg x Hx Sx); pose proof (sign_neg y Hy Sy) | pose proof (sign_pos x Hx Sx); pose proof (sign_pos y Hy Sy)]; nra.
  - intro S. apply Q'; auto. destruct (Bsign x) eqn:Sx, (Bsign y) eqn:Sy; try discriminate S; [pose proof (sign_neg x Hx Sx); pose proof (sign_pos y Hy Sy) | pose proof (sign_pos x Hx Sx); pose proof (sign_neg y Hy Sy)]; nra.
  - pose proof (Bdiv_correct 24 128 prec32_gt_0 prec32_lt mode_NE x y NZ) as C. destruct (Rlt_bool _ (bpow radix2 128)); [|apply over_inf; auto].
    destruct C as (C1 & C2 & _). split; auto. unfold b32_div. rewrite C2. exact Hx.
Qed.
End Fin.

(* numbers *)
Lemma fin_cases : forall x : b32, num x -> fin x \/ exists s, x = inf32 s.
Proof. intros [s|s| |s m e H] N; unfold fin; auto; try discriminate N; right; exists s; auto. Qed.
Lemma ext_inf : forall x, num x -> max32 <= ext x -> x = inf32 false.
Proof. intros x N H. destruct (fin_cases x N) as [Hf|[[] ->]]; auto. - rewrite fin_ext in H by auto. pose proof (val_in x). lra. - simpl in H. pose proof max_pos. lra. Qed.
Lemma over_num : forall (z : b32) s, B2SF z = binary_overflow 24 128 mode_NE s -> num z.
Proof. intros z s E. apply over_inf in E. subst. reflexivity. Qed.
Lemma num_add : forall x y, num x -> fin y -> num (b32_add x y).
Proof.
  intros x y Nx Hy. destruct (fin_cases x Nx) as [Hx|[s ->]].
  - pose proof (Bplus_correct 24 128 prec32_gt_0 prec32_lt mode_NE x y Hx Hy) as C. destruct (Rlt_bool _ _); [apply fin_num; apply C | eapply over_num; apply C].
  - destruct y; try discriminate Hy; reflexivity.
Qed.
Lemma num_addl : forall x y, fin x -> num y -> num (b32_add x y).
Proof.
  intros x y Hx Ny. destruct (fin_cases y Ny) as [Hy|[s ->]]; [apply num_add; auto; apply fin_num; auto|]. destruct x; try discriminate Hx; reflexivity.
Qed.
Lemma num_sub : forall x y, num x -> fin y -> num (b32_sub x y).
Proof.
  intros x y Nx Hy. destruct (fin_cases x Nx) as [Hx|[s ->]].
  - pose proof (Bminus_correct 24 128 prec32_gt_0 prec32_lt mode_NE x y Hx Hy) as C. destruct (Rlt_bool _ _); [apply fin_num; apply C | eapply over_num; apply C].
  - destruct y; try discriminate Hy; reflexivity.
Qed.
Lemma num_subl : forall x y, fin x -> num y -> num (b32_sub x y).
Proof.
  intros x y Hx Ny. destruct (fin_cases y Ny) as [Hy|[s ->]]; [apply num_sub; auto; apply fin_num; auto|]. destruct x; try discriminate Hx; reflexivity.
Qed.
Lemma num_mul : forall x y, fin x -> fin y -> num (b32_mul x y).
Proof.
  intros x y Hx Hy. pose proof (Bmult_correct 24 128 prec32_gt_0 prec32_lt mode_NE x y) as C. destruct (Rlt_bool _ _); [|eapply over_num; apply C].
  apply fin_num. destruct C as (_ & C & _). unfold fin, b32_mul in *. rewrite C, Hx, Hy. reflexivity.
Qed.
Lemma num_mul_nz : forall x y, num x -> fin y -> val y <> 0 -> num (b32_mul x y).
Proof.
  intros x y Nx Hy NZ. destruct (fin_cases x Nx) as [Hx|[s ->]]; [apply num_mul; auto|]. destruct y as [b|b| |b m e H]; try discriminate Hy; [exfalso; apply NZ; reflexivity | reflexivity].
Qed.
Lemma num_mul_nzl : forall x y, fin x -> val x <> 0 -> num y -> num (b32_mul x y).
Proof.
  intros x y Hx NZ Ny. destruct (fin_cases y Ny) as [Hy|[s ->]]; [apply num_mul; auto|]. destruct x as [b|b| |b m e H]; try discriminate Hx; [exfalso; apply NZ; reflexivity | reflexivity].
Qed.
Lemma num_div : forall x y, num x -> fin y -> val y <> 0 -> num (b32_div x y).
Proof.
  intros x y Nx Hy NZ. destruct (fin_cases x Nx) as [Hx|[s ->]].
  - pose proof (Bdiv_correct 24 128 prec32_gt_0 prec32_lt mode_NE x y NZ) as C. destruct (Rlt_bool _ _); [|eapply over_num; apply C].
    apply fin_num. destruct C as (_ & C & _). unfold fin, b32_div in *. rewrite C. auto.
  - destruct y as [b|b| |b m e H]; try discriminate Hy; reflexivity.
Qed.
Lemma num_divl : forall x y, fin x -> val x <> 0 -> num y -> num (b32_div x y).
Proof.
  intros x y Hx NZ Ny. destruct (fin_cases y Ny) as [Hy|[s ->]].
  - destruct (Req_dec (val y) 0) as [E|E]; [|apply num_div; auto; apply fin_num; auto].
    destruct y as [b|b| |b m e H]; try discriminate Hy; [destruct x as [a|a| |a m e H]; try discriminate Hx; [exfalso; apply NZ; reflexivity | reflexivity]|].
    exfalso. unfold val in E. simpl in E. apply eq_0_F2R in E. destruct b; discriminate E.
  - destruct x as [b|b| |b m e H]; try discriminate Hx; reflexivity.
Qed.
Lemma num_opp : forall x, num x -> num (Bopp x). Proof. intros x H. unfold num. rewrite is_nan_Bopp. auto. Qed.
Lemma fin_opp : forall x : b32, fin x -> fin (Bopp x). Proof. intros x H. unfold fin. rewrite is_finite_Bopp. auto. Qed.
Lemma val_opp : forall x : b32, val (Bopp x) = - val x. Proof. intro x. apply B2R_Bopp. Qed.
Lemma ext_opp : forall x : b32, ext (Bopp x) = - ext x.
Proof. intros [s|[]| |s m e H]; cbn [Bopp ext negb]; try ring; try (rewrite <- val_opp; reflexivity). Qed.
Lemma opp_btw : forall lo hi x, btw lo hi x -> btw (- hi) (- lo) (Bopp x).
Proof. intros lo hi x [N B]. split; [apply num_opp; auto|]. rewrite ext_opp. lra. Qed.
Lemma fin_abs : forall x : b32, fin x -> fin (Babs x). Proof. intros x H. unfold fin. rewrite is_finite_Babs. auto. Qed.
Lemma val_abs : forall x : b32, val (Babs x) = Rabs (val x). Proof. intro x. apply B2R_Babs. Qed.

(* operands that may be infinite *)
Lemma btw_cap : forall lo hi x, btw lo hi x -> btw lo max32 x.
Proof. intros lo hi x [N B]. split; auto. pose proof (ext_in x). lra. Qed.
Lemma btw_cup : forall lo hi x, btw lo hi x -> btw (- max32) hi x.
Proof. intros lo hi x [N B]. split; auto. pose proof (ext_in x). lra. Qed.
Lemma p2_huge : forall r, Rabs r <= max32 * max32 -> - p2 300 <= r <= p2 300.
Proof. intros r H. apply Rabs_le_inv. eapply Rle_trans; [exact H|]. unfold max32, p2. rewrite <- bpow_plus. apply bpow_le. lia. Qed.
Lemma huge_max : max32 <= p2 300 /\ - max32 <= p2 300 /\ - p2 300 <= max32.
Proof. assert (max32 <= p2 300) by (apply bpow_le; lia). pose proof max_pos. lra. Qed.
Lemma fmt_huge : fmt (p2 300) /\ fmt (- p2 300). Proof. split; [|apply fmt_opp]; apply fmt_p2; lia. Qed.
Lemma add_pos : forall a x y, fmt a -> 0 <= a -> btw a max32 x -> btw 0 max32 y -> btw a max32 (b32_add x y).
Proof.
  intros a x y Fa Ha [Nx Bx] [Ny By]. pose proof max_pos. pose proof huge_max. destruct fmt_huge. destruct (fin_cases x Nx) as [Hx|[s ->]]; destruct (fin_cases y Ny) as [Hy|[t ->]].
  - rewrite fin_ext in * by auto. apply btw_cap with (p2 300). apply add_btw; auto; try lra. split; [lra|]. apply p2_huge. pose proof max_big. rewrite Rabs_pos_eq by lra. nra.
  - assert (t = false) as -> by (destruct t; auto; simpl in By; lra). destruct x; try discriminate Hx; (split; [reflexivity | simpl; lra]).
  - assert (s = false) as -> by (destruct s; auto; simpl in Bx; lra). destruct y; try discriminate Hy; (split; [reflexivity | simpl; lra]).
  - assert (t = false) as -> by (destruct t; auto; simpl in By; lra). assert (s = false) as -> by (destruct s; auto; simpl in Bx; lra). split; [reflexivity | simpl; lra].
Qed.
Lemma add_posl : forall a x y, fmt a -> 0 <= a -> btw 0 max32 x -> btw a max32 y -> btw a max32 (b32_add x y).
Proof.
  intros a x y Fa Ha [Nx Bx] [Ny By]. pose proof max_pos. pose proof huge_max. destruct fmt_huge. destruct (fin_cases x Nx) as [Hx|[s ->]]; destruct (fin_cases y Ny) as [Hy|[t ->]].
  - rewrite fin_ext in * by auto. apply btw_cap with (p2 300). apply add_btw; auto; try lra. split; [lra|]. apply p2_huge. pose proof max_big. rewrite Rabs_pos_eq by lra. nra.
  - assert (t = false) as -> by (destruct t; auto; simpl in By; lra). destruct x; try discriminate Hx; (split; [reflexivity | simpl; lra]).
  - assert (s = false) as -> by (destruct s; auto; simpl in Bx; lra). destruct y; try discriminate Hy; (split; [reflexivity | simpl; lra]).
  - assert (t = false) as -> by (destruct t; auto; simpl in By; lra). assert (s = false) as -> by (destruct s; auto; simpl in Bx; lra). split; [reflexivity | simpl; lra].
Qed.
Lemma abs_mul_max : forall x y : b32, Rabs (val x * val y) <= max32 * max32.
Proof. intros. rewrite Rabs_mult. pose proof (val_lt x). pose proof (val_lt y). pose proof (Rabs_pos (val x)). pose proof (Rabs_pos (val y)). nra. Qed.
Lemma mul_nn : forall x y, fin x -> fin y -> 0 <= val x * val y -> btw 0 max32 (b32_mul x y).
Proof.
  intros x y Hx Hy H. pose proof huge_max. destruct fmt_huge. pose proof max_pos. apply btw_cap with (p2 300). apply mul_btw; auto; try lra; try apply fmt_0.
  split; auto. apply p2_huge, abs_mul_max.
Qed.
Lemma mul_np : forall x y, fin x -> fin y -> val x * val y <= 0 -> btw (- max32) 0 (b32_mul x y).
Proof.
  intros x y Hx Hy H. pose proof huge_max. destruct fmt_huge. pose proof max_pos. apply btw_cup with (- p2 300). apply mul_btw; auto; try lra; try apply fmt_0.
  split; auto. apply p2_huge, abs_mul_max.
Qed.
Lemma mul_ge1 : forall x y, btw 1 max32 x -> btw 1 max32 y -> btw 1 max32 (b32_mul x y).
Proof.
  intros x y [Nx Bx] [Ny By]. pose proof max_pos. pose proof max_big. pose proof huge_max. destruct fmt_huge. destruct (fin_cases x Nx) as [Hx|[s ->]]; destruct (fin_cases y Ny) as [Hy|[t ->]].
  - rewrite fin_ext in * by auto. apply btw_cap with (p2 300). apply mul_btw; auto; try lra; [apply (fmt_Z 1); lia|]. split; [nra|]. apply p2_huge, abs_mul_max.
  - assert (t = false) as -> by (destruct t; auto; simpl in By; lra). rewrite fin_ext in Bx by auto. destruct x as [b|b| |b m e He]; try discriminate Hx; [simpl in Bx; lra|].
    destruct b; [pose proof (sign_neg _ Hx eq_refl); unfold val in Bx; lra|]. split; [reflexivity | simpl; lra].
  - assert (s = false) as -> by (destruct s; auto; simpl in Bx; lra). rewrite fin_ext in By by auto. destruct y as [b|b| |b m e He]; try discriminate Hy; [simpl in By; lra|].
    destruct b; [pose proof (sign_neg _ Hy eq_refl); unfold val in By; lra|]. split; [reflexivity | simpl; lra].
  - assert (t = false) as -> by (destruct t; auto; simpl in By; lra). assert (s = false) as -> by (destruct s; auto; simpl in Bx; lra). split; [reflexivity | simpl; lra].
Qed.
(* a value at most 0 times a positive constant *)
Lemma mul_np_c : forall x c, btw (- max32) 0 x -> fin c -> 0 < val c -> btw (- max32) 0 (b32_mul x c).
Proof.
  intros x c [Nx Bx] Hc P. pose proof max_pos. destruct (fin_cases x Nx) as [Hx|[s ->]].
  - rewrite fin_ext in Bx by auto. apply mul_np; auto. nra.
  - assert (s = true) as -> by (destruct s; auto; simpl in Bx; lra). destruct c as [b|b| |b m e He]; try discriminate Hc; [simpl in P; lra|].
    destruct b; [pose proof (sign_neg _ Hc eq_refl); unfold val in P; lra|]. split; [reflexivity | simpl; lra].
Qed.
(* dividing by something at least 1 *)
Lemma div_ge1 : forall lo hi x y, fmt lo -> fmt hi -> lo <= 0 <= hi -> lo <= max32 -> - max32 <= hi -> fin x -> lo <= val x <= hi -> btw 1 max32 y -> btw lo hi (b32_div x y).
Proof.
  intros lo hi x y Fl Fh Z0 Hl Hh Hx B [Ny By]. destruct (fin_cases y Ny) as [Hy|[s ->]].
  - rewrite fin_ext in By by auto. apply div_btw; auto; [lra|]. assert (Q : 0 < / val y <= 1). { split; [apply Rinv_0_lt_compat; lra|]. rewrite <- Rinv_1. apply Rinv_le; lra. } unfold Rdiv. nra.
  - destruct x as [b|b| |b m e He]; try discriminate Hx; (split; [reflexivity | simpl; lra]).
Qed.
Lemma div_ge1_fin : forall x y, fin x -> btw 1 max32 y -> fin (b32_div x y) /\ Rabs (val (b32_div x y)) <= Rabs (val x).
Proof.
  intros x y Hx Hy. pose proof (Rabs_pos (val x)). pose proof (val_lt x). pose proof (Rabs_le_inv (val x) (Rabs (val x)) (Rle_refl _)).
  destruct (btw_val (- Rabs (val x)) (Rabs (val x)) (b32_div x y)) as [A B]; try lra.
  - apply div_ge1; auto; try lra; [apply fmt_opp|]; apply fmt_abs, fmt_B.
  - split; auto. apply Rabs_le. auto.
Qed.
Lemma sqrt_btw : forall hi x, fmt hi -> 1 <= hi -> btw 1 hi x -> btw 1 hi (b32_sqrt x).
Proof.
  intros hi x Fh Hh [Nx Bx]. pose proof max_big. destruct (fin_cases x Nx) as [Hx|[s ->]].
  - rewrite fin_ext in Bx by auto. unfold b32_sqrt. destruct (Bsqrt_correct 24 128 prec32_gt_0 prec32_lt mode_NE x) as (C1 & C2 & _).
    assert (Hf : is_finite (@Bsqrt 24 128 prec32_gt_0 prec32_lt mode_NE x) = true). { rewrite C2. destruct x as [b|b| |b m e He]; try discriminate Hx; auto. destruct b; auto. pose proof (sign_neg _ Hx eq_refl). unfold val in Bx. lra. }
    apply val_btw; [exact Hf|]. unfold val in *. rewrite C1. split; [apply rnd_ge; [apply (fmt_Z 1); lia|] | apply rnd_le; auto].
    + rewrite <- sqrt_1 at 1. apply sqrt_le_1_alt. lra.
    + apply Rle_trans with (B2R x); [|lra]. rewrite <- (sqrt_square (B2R x)) at 2 by lra. apply sqrt_le_1_alt. nra.
  - assert (s = false) as -> by (destruct s; auto; simpl in Bx; lra). split; [reflexivity | exact Bx].
Qed.
(* times something in [-1,1] *)
Lemma mul_unit : forall s x, btw (-1) 1 s -> fin x -> fin (b32_mul s x) /\ Rabs (val (b32_mul s x)) <= Rabs (val x).
Proof.
  intros s x Hs Hx. pose proof max_big. destruct (btw_val _ _ _ Hs ltac:(lra) ltac:(lra)) as [Hf B]. pose proof (val_lt x). pose proof (Rabs_pos (val x)). 
  destruct (btw_val (- Rabs (val x)) (Rabs (val x)) (b32_mul s x)) as [P Q]; try lra.
  - assert (Rabs (val s * val x) <= Rabs (val x)). { rewrite Rabs_mult. assert (Rabs (val s) <= 1) by (apply Rabs_le; lra). nra. } apply Rabs_le_inv in H2.
    apply mul_btw; auto; try lra; [apply fmt_opp|]; apply fmt_abs, fmt_B.
  - split; auto. apply Rabs_le. auto.
Qed.
Lemma mul_unitr : forall s x, btw (-1) 1 s -> fin x -> fin (b32_mul x s) /\ Rabs (val (b32_mul x s)) <= Rabs (val x).
Proof.
  intros s x Hs Hx. pose proof max_big. destruct (btw_val _ _ _ Hs ltac:(lra) ltac:(lra)) as [Hf B]. pose proof (val_lt x). pose proof (Rabs_pos (val x)). 
  destruct (btw_val (- Rabs (val x)) (Rabs (val x)) (b32_mul x s)) as [P Q]; try lra.
  - assert (Rabs (val x * val s) <= Rabs (val x)). { rewrite Rabs_mult. assert (Rabs (val s) <= 1) by (apply Rabs_le; lra). nra. } apply Rabs_le_inv in H2.
    apply mul_btw; auto; try lra; [apply fmt_opp|]; apply fmt_abs, fmt_B.
  - split; auto. apply Rabs_le. auto.
Qed.
(* the sign is kept *)
Lemma mul_unit01r : forall s x, btw 0 1 s -> fin x -> btw (Rmin 0 (val x)) (Rmax 0 (val x)) (b32_mul x s).
Proof.
  intros s x Hs Hx. pose proof max_big. destruct (btw_val _ _ _ Hs ltac:(lra) ltac:(lra)) as [Hf B]. pose proof (val_in x).
  apply mul_btw; auto; try (unfold Rmin, Rmax; destruct (Rle_dec 0 (val x)); try apply fmt_0; try apply fmt_B; nra).
Qed.
(* adding a small number to a finite one *)
Lemma top : forall x : b32, Rabs (val x) <= max32 - p2 104.
Proof.
  intro x. pose proof (abs_B2R_le_emax_minus_prec 24 128 prec32_gt_0 x) as H. exact H.
Qed.
Lemma rnd_top : forall r, Rabs r <= max32 - p2 104 + p2 100 -> Rabs (rnd32 r) < max32.
Proof.
  intros r H. assert (E : Rabs (rnd32 r - r) <= p2 103).
  { eapply Rle_trans; [apply error_le_half_ulp; apply fexp_correct; reflexivity|]. destruct (Req_dec r 0) as [->|N].
    - rewrite fexp_eq, ulp_FLT_0 by (exact prec32_gt_0). unfold p2. simpl. lra.
    - rewrite ulp_neq_0 by auto. apply Rle_trans with (/ 2 * bpow radix2 104); [|unfold p2; simpl; lra]. apply Rmult_le_compat_l; [lra|]. apply bpow_le. unfold cexp, SpecFloat.fexp, SpecFloat.emin.
      assert (mag radix2 r <= 128)%Z. { apply mag_le_bpow; auto. eapply Rle_lt_trans; [exact H|]. unfold max32, p2. simpl. lra. } lia. }
  pose proof (Rabs_triang (rnd32 r - r) r) as Q. replace (rnd32 r - r + r) with (rnd32 r) in Q by ring. unfold p2, max32 in *. simpl in *. lra.
Qed.
Lemma fin_add_small : forall x c, fin x -> fin c -> Rabs (val c) <= p2 100 -> fin (b32_add x c).
Proof.
  intros x c Hx Hc B. pose proof (Bplus_correct 24 128 prec32_gt_0 prec32_lt mode_NE x c Hx Hc) as C. rewrite Rlt_bool_true in C; [apply C|].
  apply rnd_top. pose proof (top x). pose proof (Rabs_triang (val x) (val c)). unfold val in *. lra.
Qed.
Lemma fin_sub_small : forall c x, fin c -> fin x -> Rabs (val c) <= p2 100 -> fin (b32_sub c x).
Proof.
  intros c x Hc Hx B. pose proof (Bminus_correct 24 128 prec32_gt_0 prec32_lt mode_NE c x Hc Hx) as C. rewrite Rlt_bool_true in C; [apply C|].
  apply rnd_top. pose proof (top x). pose proof (Rabs_triang (val c) (- val x)). rewrite Rabs_Ropp in H0. unfold val, Rminus in *. lra.
Qed.

(* comparisons of finite numbers *)
Lemma lt_val : forall x y, fin x -> fin y -> b32_lt x y = true -> val x < val y.
Proof. intros x y Hx Hy H. unfold b32_lt in H. rewrite Bcompare_correct in H by auto. unfold val. destruct (Rcompare_spec (B2R x) (B2R y)); auto; discriminate H. Qed.
Lemma nlt_val : forall x y, fin x -> fin y -> b32_lt x y = false -> val y <= val x.
Proof. intros x y Hx Hy H. unfold b32_lt in H. rewrite Bcompare_correct in H by auto. unfold val. destruct (Rcompare_spec (B2R x) (B2R y)); try discriminate H; lra. Qed.
Lemma le_val : forall x y, fin x -> fin y -> b32_le x y = true -> val x <= val y.
Proof. intros x y Hx Hy H. unfold b32_le in H. rewrite Bcompare_correct in H by auto. unfold val. destruct (Rcompare_spec (B2R x) (B2R y)); try discriminate H; lra. Qed.
Lemma nle_val : forall x y, fin x -> fin y -> b32_le x y = false -> val y < val x.
Proof. intros x y Hx Hy H. unfold b32_le in H. rewrite Bcompare_correct in H by auto. unfold val. destruct (Rcompare_spec (B2R x) (B2R y)); try discriminate H; lra. Qed.
Lemma eq_val : forall x y, fin x -> fin y -> b32_eq x y = true -> val x = val y.
Proof. intros x y Hx Hy H. unfold b32_eq in H. rewrite Bcompare_correct in H by auto. unfold val. destruct (Rcompare_spec (B2R x) (B2R y)); try discriminate H; lra. Qed.
Lemma neq_val : forall x y, fin x -> fin y -> b32_eq x y = false -> val x <> val y.
Proof. intros x y Hx Hy H. unfold b32_eq in H. rewrite Bcompare_correct in H by auto. unfold val. destruct (Rcompare_spec (B2R x) (B2R y)); try discriminate H; lra. Qed.
Lemma ofZ_val : forall z, (Z.abs z <= 2 ^ 24)%Z -> fin (b32_of_Z z) /\ val (b32_of_Z z) = IZR z.
Proof. intros z H. pose proof (ofZ_exact z H). unfold fin, val. tauto. Qed.
