(* MlpFin1.v - activations, output layers, dense layers and optimisers on floats of bounded magnitude *)
From Coq Require Import List Arith ZArith Reals Lra Lia Bool.
From Flocq Require Import Core IEEE754.BinarySingleNaN.
From Verif Require Import Base Scalar Mat SpecMat MatFacts MatLoops MatProofs B32Int Act Loss Optim SpecOpt OptProofs Regul LayMat LayImg Layer LayProofs1 LayProofs2 LayProofs3 LayProofs7 Net NetTrain FitNet2 SpecRound RoundProofs1 SpecNaN B32Kit NaNAct SpecSoft SoftProofs1 SoftProofs2 SoftProofs3 SpecStay OptFin1 OptFin2 SpecTrainFin TrainFin1 SpecMlp.
Import ListNotations.
Local Open Scope R_scope.
Local Opaque b32_add b32_sub b32_mul b32_div b32_sqrt b32_of_Z Bopp Babs.

Lemma ok_inj : forall (A : Type) (a b : A), Ok a = Ok b -> b = a. Proof. congruence. Qed.
Section B32.
Variables (lm : libm -> b32 -> b32) (pw : b32 -> b32 -> b32) (jk : b32).
Notation F := (B32Ops lm pw jk).
Hypothesis S : stdLibm lm pw.
Notation epsF := (b32_div (b32_of_Z 1) (b32_of_Z 100000000)).

Lemma w_one : within 0 one. Proof. split; [exact one_fin|]. rewrite one_val, Rabs_R1. change (p2 0) with 1. lra. Qed.
Lemma w_zero : forall z, within z (B754_zero false : b32). Proof. intro z. split; [reflexivity|]. change (val (B754_zero false)) with 0. rewrite Rabs_R0. left. apply p2_pos. Qed.
Lemma unit_w : forall y, btw (-1) 1 y -> within 0 y.
Proof. intros y H. pose proof max_big. destruct (btw_val _ _ _ H ltac:(lra) ltac:(lra)) as [A B]. split; auto. apply Rabs_le. change (p2 0) with 1. lra. Qed.
Lemma unit_w0 : forall y, btw 0 1 y -> within 0 y.
Proof. intros y H. apply unit_w. eapply btw_w; eauto; lra. Qed.
Lemma flat_apply : forall a x, flat a -> fin x -> within 0 (act_apply F a x).
Proof.
  intros a x [<-|[<-|[<-|[<-|[<-|[]]]]]] Hx; cbn [act_apply flm fdiv fadd fopp flt f1 fabs B32Ops].
  - apply unit_w, (tanh_num _ _ S), fin_num; auto.
  - apply unit_w0, (sig lm pw S x Hx).
  - change (f1 F) with one. pose proof w_one as W1. destruct (b32_lt one x) eqn:E1; [exact W1|]. destruct (b32_lt x (Bopp one)) eqn:E2; [apply w_opp; exact W1|]. apply nlt_val in E1; auto; [|exact one_fin]. apply nlt_val in E2; auto; [|apply fin_opp; exact one_fin]. rewrite val_opp, one_val in *. split; auto. apply Rabs_le. change (p2 0) with 1. lra.
  - pose proof (absd x Hx) as D. set (d := b32_add one (Babs x)) in *. assert (L : Rabs (val x) <= ext d). { unfold d.
      assert (btw (Rabs (val x)) max32 (b32_add one (Babs x))). { apply add_posl; [apply fmt_abs, fmt_B | apply Rabs_pos | apply val_btw; [exact one_fin | rewrite one_val; pose proof max_big; lra] | apply val_btw; [apply fin_abs; auto|]; rewrite val_abs; pose proof (val_lt x); lra]. } apply H. }
    destruct (fin_cases d (btw_num _ _ _ D)) as [Hd|(s & Hd)].
    + rewrite fin_ext in L by auto. destruct D as [_ D]. rewrite fin_ext in D by auto. apply within_rg. change (p2 0) with 1. pose proof max_big. apply rg_div; auto; try lra; [apply (fmt_Z (-1)); lia | apply (fmt_Z 1); lia|]. apply Rabs_le_inv in L.
      assert (0 < / val d) by (apply Rinv_0_lt_compat; lra). assert (val d * / val d = 1) by (apply Rinv_r; lra). unfold Rdiv. split; nra.
    + destruct (div_ge1_fin x d Hx D) as [A B]. split; auto. rewrite Hd in *. destruct s; [destruct D as [_ D]; cbn [ext inf32] in D; pose proof max_pos; lra|]. assert (val (b32_div x (inf32 false)) = 0) by (destruct x; reflexivity). rewrite H, Rabs_R0. left. apply p2_pos.
  - apply unit_w, (sin_fin _ _ S); auto.
Qed.
Lemma one_sub_sq : forall t, within 0 t -> within 0 (b32_sub one (b32_mul t t)).
Proof.
  intros t [A B]. change (p2 0) with 1 in B. apply Rabs_le_inv in B. pose proof max_big. assert (Q : rg 0 1 (b32_mul t t)) by (apply rg_mul; auto; try lra; [apply fmt_0 | apply fmt_1 | split; nra]). destruct Q as [Q1 Q2].
  apply within_rg. change (p2 0) with 1. apply rg_sub; auto; try exact one_fin; try lra; [apply (fmt_Z (-1)); lia | apply fmt_1|]. rewrite one_val. lra.
Qed.
Lemma flat_deriv : forall a x, flat a -> fin x -> within 0 (act_deriv F a x).
Proof.
  intros a x [<-|[<-|[<-|[<-|[<-|[]]]]]] Hx; cbn [act_deriv flm fdiv fadd fsub fmul fopp flt f1 f0 fabs B32Ops]; cbv zeta.
  - apply one_sub_sq. apply unit_w, (tanh_num _ _ S), fin_num; auto.
  - pose proof (sig lm pw S x Hx) as P. set (s := b32_div one _) in *. change (b32_div one _) with s. pose proof max_big. destruct (btw_val _ _ _ P ltac:(lra) ltac:(lra)) as [P1 P2]. assert (C : prob (b32_sub one s)) by (apply one_minus; split; auto). destruct C as [C1 C2].
    apply within_rg. change (p2 0) with 1. apply rg_mul; auto; try lra; [apply (fmt_Z (-1)); lia | apply fmt_1|]. split; nra.
  - destruct (b32_lt _ x); [apply w_zero|]. destruct (b32_lt x _); [apply w_zero | apply w_one].
  - apply unit_w0, inv_ge1, mul_ge1; apply absd; auto.
  - apply unit_w, (cos_fin _ _ S); auto.
Qed.
Lemma lit_unit : forall n d, (0 <= n <= Zpos d)%Z -> (Zpos d <= 2 ^ 24)%Z -> within 0 (flit F n d).
Proof. intros n d H K. destruct (lit_w0 lm pw jk n d H K) as [A B]. split; auto. apply Rabs_le. change (p2 0) with 1. lra. Qed.
Lemma unit_mul : forall z c x, within 0 c -> within z x -> (-149 <= z <= 127)%Z -> within z (b32_mul c x).
Proof. intros z c x A B C. apply w_mul with 0%Z z; auto; lia. Qed.
Lemma unit_mulr : forall z c x, within 0 c -> within z x -> (-149 <= z <= 127)%Z -> within z (b32_mul x c).
Proof. intros z c x A B C. apply w_mul with z 0%Z; auto; lia. Qed.
Lemma shrink_apply : forall a z x, shrinking a -> within z x -> (0 <= z <= 127)%Z -> within z (act_apply F a x).
Proof.
  intros a z x [<-|[<-|[<-|[<-|[<-|[<-|[]]]]]]] Hx Hz; cbn [act_apply flm fdiv fadd fmul fopp flt fle f0 f1 fabs B32Ops].
  - exact Hx.
  - destruct (b32_lt _ x); [exact Hx | apply w_zero].
  - destruct Hx as [A B]. assert (H6 : fin (flit F 6 1) /\ val (flit F 6 1) = 6). { destruct (lit_rg lm pw jk 6 1 6 6) as [C D]; try lia; try (pose proof max_big; lra); try (apply (fmt_Z 6); lia). split; auto. lra. } destruct H6 as [H6 V6].
    destruct (b32_le (flit F 6 1) x) eqn:E; [apply le_val in E; auto; split; auto; rewrite V6 in *; rewrite Rabs_pos_eq by lra; apply Rabs_le_inv in B; lra|]. destruct (b32_le x _); [apply w_zero | split; auto].
  - destruct (b32_le _ x); [exact Hx | apply unit_mul; auto; [apply lit_unit; lia | lia]].
  - destruct (b32_le _ x); [exact Hx | apply unit_mulr; auto; [apply lit_unit; lia | lia]].
  - destruct Hx as [A B]. split; [apply fin_abs; auto|]. rewrite val_abs, Rabs_Rabsolu. auto.
Qed.
Lemma shrink_deriv : forall a x, shrinking a -> fin x -> within 0 (act_deriv F a x).
Proof.
  intros a x [<-|[<-|[<-|[<-|[<-|[<-|[]]]]]]] Hx; cbn [act_deriv flm fdiv fadd fmul fopp flt fle f0 f1 fabs B32Ops]; repeat match goal with |- context [if ?b then _ else _] => destruct b end; try apply w_one; try apply w_zero; try (apply lit_unit; lia); apply w_opp, w_one.
Qed.

(** * the gradient behind an output layer *)
Definition tempered (p g : b32) : Prop := fin g /\ val (b32_mul p (b32_sub one p)) * Rabs (val g) <= 2.
Lemma quot_two : forall t p, prob t -> prob p -> fin (b32_div t (floorEps F p)) /\ 0 <= val (b32_div t (floorEps F p)) /\ val p * val (b32_div t (floorEps F p)) <= 2.
Proof.
  intros t p Ht Hp. destruct (SoftProofs2.quot lm pw jk t p Ht Hp) as [A B]. split; auto. split; [lra|]. destruct (floor_in lm pw jk p Hp) as [C D]. assert (L : val p <= val (floorEps F p)).
  { unfold floorEps, stdmax. destruct (eps_val) as [E1 E2]. change (eps F) with epsF in *. destruct (flt F p _) eqn:Q; [|lra]. change (b32_lt p epsF = true) in Q. apply lt_val in Q; auto; [lra | apply Hp]. }
  set (q := floorEps F p) in *. clearbody q. pose proof (p2_pos (-27)). destruct (Raux.mag radix2 (val q)) as [e He]. simpl in He. specialize (He ltac:(lra)). rewrite Rabs_pos_eq in He by lra. fold (p2 (e - 1)) (p2 e) in He. destruct Ht as [T1 T2].
  assert (He1 : (e <= 1)%Z). { destruct (Z_le_gt_dec e 1); auto. pose proof (p2_le 1 (e - 1) ltac:(lia)). assert (p2 1 = 2) by reflexivity. lra. }
  assert (He2 : (-27 < e)%Z). { destruct (Z_lt_ge_dec (-27) e); auto. pose proof (p2_le e (-27) ltac:(lia)). lra. }
  assert (I : p2 (e - 1) * p2 (1 - e) = 1) by (rewrite p2_mul; replace (e - 1 + (1 - e))%Z with 0%Z by lia; reflexivity). assert (I2 : p2 e * p2 (1 - e) = 2) by (rewrite p2_mul; replace (e + (1 - e))%Z with 1%Z by lia; reflexivity). pose proof (p2_pos (1 - e)). pose proof (p2_pos (e - 1)).
  assert (U : rg 0 (p2 (1 - e)) (b32_div t q)).
  { apply rg_div; auto; try lra; [apply fmt_0 | apply fmt_p2; lia | pose proof max_pos; lra | apply p2_lt_max; lia|]. assert (0 < / val q) by (apply Rinv_0_lt_compat; lra). assert (Iq : val q * / val q = 1) by (apply Rinv_r; lra). unfold Rdiv. split; [nra|].
    apply Rmult_le_reg_l with (val q); [lra|]. replace (val q * (val t * / val q)) with (val t * (val q * / val q)) by ring. rewrite Iq. nra. }
  destruct U as [U1 U2]. set (a := val (b32_div t q)) in *. nra.
Qed.
Lemma slope_le : forall p, prob p -> fin (b32_mul p (b32_sub one p)) /\ 0 <= val (b32_mul p (b32_sub one p)) <= val p /\ val (b32_mul p (b32_sub one p)) <= val (b32_sub one p).
Proof.
  intros p P. destruct (one_minus p P) as [C D]. destruct P as [A B]. pose proof max_big.
  assert (U : rg 0 (val p) (b32_mul p (b32_sub one p))) by (apply rg_mul; auto; try lra; [apply fmt_0 | apply fmt_B | split; nra]). assert (V : rg 0 (val (b32_sub one p)) (b32_mul p (b32_sub one p))) by (apply rg_mul; auto; try lra; [apply fmt_0 | apply fmt_B | split; nra]).
  destruct U as [U1 U2], V as [V1 V2]. split; auto. lra.
Qed.
Lemma temper : forall p (g a b : b32), prob p -> fin g -> Rabs (val g) <= Rmax (val a) (val b) -> val p * val a <= 2 -> val (b32_sub one p) * val b <= 2 -> 0 <= val a -> 0 <= val b -> tempered p g.
Proof.
  intros p g a b P G H A B A0 B0. destruct (slope_le p P) as (S1 & S2 & S3). split; auto. set (s := val (b32_mul p (b32_sub one p))) in *. unfold Rmax in H. destruct (Rle_dec (val a) (val b)); nra.
Qed.
Lemma diff_max : forall a b : b32, fin a -> fin b -> 0 <= val a <= p2 27 -> 0 <= val b <= p2 27 -> fin (b32_sub a b) /\ Rabs (val (b32_sub a b)) <= Rmax (val a) (val b).
Proof.
  intros a b A B Ha Hb. pose proof (Rmax_l (val a) (val b)). pose proof (Rmax_r (val a) (val b)). set (m := Rmax (val a) (val b)) in *. assert (Fm : fmt m) by (unfold m, Rmax; destruct (Rle_dec (val a) (val b)); apply fmt_B). assert (Lm : m <= p2 27) by (unfold m; apply Rmax_lub; lra).
  pose proof (p2_lt_max 27 ltac:(lia)). destruct (rg_sub (- m) m a b) as [C D]; auto; try lra; [apply fmt_opp; auto|]. split; auto. apply Rabs_le. lra.
Qed.
Lemma tb : forall p t, prob p -> prob t -> tempered p (bceGF F p t).
Proof.
  intros p t P Q. unfold bceGF. cbn [fopp fsub fdiv f1 B32Ops]. change (f1 F) with one. destruct (SoftProofs2.quot lm pw jk t p Q P) as [A B]. destruct (SoftProofs2.quot lm pw jk _ _ (one_minus t Q) (one_minus p P)) as [C D]. destruct (quot_two t p Q P) as (_ & _ & A2). destruct (quot_two _ _ (one_minus t Q) (one_minus p P)) as (_ & _ & C2).
  destruct (diff_max _ _ A C B D) as [E1 E2]. eapply temper; eauto; try lra; [apply fin_opp; auto|]. rewrite val_opp, Rabs_Ropp. exact E2.
Qed.
Lemma tc_ : forall p t, prob p -> prob t -> tempered p (ccGrad F p t).
Proof.
  intros p t P Q. unfold ccGrad. cbn [fopp fsub fadd fdiv f1 B32Ops]. change (f1 F) with one. destruct (SoftProofs2.quot lm pw jk t p Q P) as [A B]. destruct (SoftProofs2.quot lm pw jk _ _ (one_minus t Q) (one_minus p P)) as [C D]. destruct (quot_two t p Q P) as (_ & _ & A2). destruct (quot_two _ _ (one_minus t Q) (one_minus p P)) as (_ & _ & C2).
  set (a := b32_div t _) in *. set (b := b32_div (b32_sub one t) _) in *. eapply (temper p _ a b); eauto; try lra.
  - pose proof (p2_lt_max 27 ltac:(lia)). pose proof (p2_pos 27). destruct (rg_add (- p2 27) (p2 27) (Bopp a) b) as [E1 E2]; auto; try lra; first [apply fin_opp; auto | rewrite val_opp; lra | apply fmt_opp, fmt_p2; lia | apply fmt_p2; lia].
  - pose proof (Rmax_l (val a) (val b)). pose proof (Rmax_r (val a) (val b)). set (m := Rmax (val a) (val b)) in *. assert (Fm : fmt m) by (unfold m, Rmax; destruct (Rle_dec (val a) (val b)); apply fmt_B). assert (Lm : m <= p2 27) by (unfold m; apply Rmax_lub; lra).
    pose proof (p2_lt_max 27 ltac:(lia)). destruct (rg_add (- m) m (Bopp a) b) as [E1 E2]; auto; try lra; try first [apply fin_opp; auto; fail | rewrite val_opp; lra | apply fmt_opp; auto; fail]. apply Rabs_le. lra.
Qed.
Lemma ts : forall h p, prob p -> tempered p (sceGF F h p).
Proof.
  intros h p P. unfold sceGF. cbn [fopp fsub fdiv f1 B32Ops]. change (f1 F) with one. destruct h.
  - destruct (quot_two one p prob_one P) as (A & A0 & A2). apply (temper p _ (b32_div one (floorEps F p)) z32); auto; try (change (val z32) with 0; lra); [apply fin_opp; auto|]. rewrite val_opp, Rabs_Ropp, Rabs_pos_eq by lra. apply Rmax_l.
  - destruct (quot_two _ _ prob_one (one_minus p P)) as (A & A0 & A2). apply (temper p _ z32 (b32_div one (floorEps F (b32_sub one p)))); auto; try (change (val z32) with 0; lra). rewrite Rabs_pos_eq by lra. apply Rmax_r.
Qed.
Theorem ce_tempered : forall k b n c P Y gin, truthFor k n c Y -> (forall i j, (i < n)%nat -> (j < c)%nat -> prob (P i j)) -> mwf gin ->
  exists G, compute_gradient F k b (mgen n c P) (mgen n (truthCols k c) Y) gin = Ok (mgen n c G) /\ forall i j, (i < n)%nat -> (j < c)%nat -> tempered (P i j) (G i j).
Proof.
  intros k b n c P Y gin HT HP Wg. destruct k; try contradiction HT; cbn [truthCols].
  - eexists. split; [apply cceg_F; auto; exact (fun x => Ok x)|]. intros i j Hi Hj. apply tc_; auto.
  - destruct (classes lm pw jk _ _ _ HT) as (cls & HC). eexists. split; [apply sceg_F; eauto; exact (fun x => Ok x)|]. intros i j Hi Hj. apply ts; auto.
  - destruct HT as [-> HT]. eexists. split; [apply bceg_F; auto; exact (fun x => Ok x)|]. intros i j Hi Hj. replace j with O in * by lia. apply tb; auto.
Qed.
Lemma tempered_mul : forall p g, prob p -> tempered p g -> within 1 (b32_mul g (b32_mul p (b32_sub one p))) /\ within 1 (b32_mul (b32_mul p (b32_sub one p)) g).
Proof.
  intros p g P [A B]. destruct (slope_le p P) as (S1 & S2 & S3). set (s := b32_mul p (b32_sub one p)) in *. assert (Q : - 2 <= val g * val s <= 2). { pose proof (Rle_abs (val g)). pose proof (Rle_abs (- val g)). rewrite Rabs_Ropp in *. split; nra. }
  change 2 with (p2 1) in Q. pose proof Q as Q'. rewrite Rmult_comm in Q'. pose proof (p2_pos 1). pose proof (p2_lt_max 1 ltac:(lia)). split; apply within_rg; [apply rg_mul | apply rg_mul]; auto; try lra; try (apply fmt_opp, fmt_p2; lia); try (apply fmt_p2; lia).
Qed.
Lemma head_bwd : forall r l l0 n m X P G gin out l1, outputs F (lk l) -> outputs F (lk l0) -> lk l0 = lk l -> lfirst l = false -> (0 < m)%nat -> mwf gin -> mwf out -> (forall i j, fin (X i j)) -> layForward F r l0 (mgen n m X) out = Ok (l1, mgen n m P) ->
  (forall i j, (i < n)%nat -> (j < m)%nat -> prob (P i j) /\ tempered (P i j) (G i j)) ->
  exists D, layBackward F l (mgen n m X) (mgen n m G) gin = Ok (l, mgen n m D) /\ forall i j, (i < n)%nat -> (j < m)%nat -> within 1 (D i j).
Proof.
  intros r l l0 n m X P G gin out l1 Hkd Hkd' K Fi Hm Hg Ho HX Ef HG. unfold layForward in Ef. rewrite K in Ef. destruct Hkd as [Q|Q]; rewrite Q in Ef.
  - rewrite (fwdSoftmax_gen F) in Ef by auto. cbn [bind] in Ef. injection Ef; intros EP _. eexists. split; [unfold layBackward; rewrite Q, Fi, bwdSoftmax_gen by auto; reflexivity|]. intros i j Hi Hj. destruct (HG i j Hi Hj) as [A B].
    assert (E : softF F m (X i) j = P i j) by (apply (mgen_inj _ n m (fun i => softF F m (X i)) P i j); auto; unfold mgen; f_equal; exact EP). cbn [fmul fsub f1 B32Ops]. cbv beta. rewrite E. apply tempered_mul; auto.
  - rewrite (fwdAct_gen F) in Ef by auto. cbn [bind] in Ef. injection Ef; intros EP _. eexists. split; [unfold layBackward; rewrite Q, Fi, bwdAct_gen by auto; reflexivity|]. intros i j Hi Hj. destruct (HG i j Hi Hj) as [A B].
    assert (E : act_apply F ASigmoid (X i j) = P i j) by (apply (mgen_inj _ n m (fun i j => act_apply F ASigmoid (X i j)) P i j); auto; unfold mgen; f_equal; exact EP). cbv beta. cbn [act_deriv fmul fsub fdiv fadd fopp flm f1 B32Ops act_apply] in *. cbv zeta. change (f1 F) with one in *. rewrite E. apply tempered_mul; auto.
Qed.

(** * dense layers *)
Lemma pow_N : forall n u, (0 <= u)%Z -> (Z.of_nat n <= 2 ^ u)%Z -> INR n <= p2 u.
Proof. intros n u Hu H. rewrite INR_IZR_INZ. unfold p2. rewrite <- IZR_Zpower by auto. apply IZR_le. exact H. Qed.
Lemma sum_pow : forall e u n (f : nat -> b32), (0 <= u <= 23)%Z -> (Z.of_nat n <= 2 ^ u)%Z -> (-149 <= e)%Z -> (e + u <= 127)%Z -> (forall i, (i < n)%nat -> within e (f i)) -> rg (- (INR n * p2 e)) (INR n * p2 e) (fsum F n f).
Proof.
  intros e u n f Hu Hn He Heu Hf. assert (P23 : (2 ^ u <= 2 ^ 23)%Z) by (apply Z.pow_le_mono_r; lia). induction n as [|n IH].
  - split; [reflexivity|]. change (val (fsum F 0 f)) with 0. simpl. lra.
  - rewrite fsum_S. destruct IH as [A B]; [lia | intros; apply Hf; lia|]. destruct (Hf n ltac:(lia)) as [C D]. apply Rabs_le_inv in D. pose proof (pow_N (Datatypes.S n) u ltac:(lia) Hn) as PN. pose proof (fmt_N (Datatypes.S n) e ltac:(lia) He) as FN.
    assert (L : INR (Datatypes.S n) * p2 e < max32). { pose proof (p2_pos e). pose proof (p2_lt_max (e + u) Heu). replace (e + u)%Z with (u + e)%Z in * by lia. rewrite <- p2_mul in *. nra. }
    rewrite S_INR in *. apply rg_add; auto; try lra. apply fmt_opp. auto.
Qed.
Lemma sum_w : forall e u c n (f : nat -> b32), (0 <= u <= 23)%Z -> (Z.of_nat n <= 2 ^ u)%Z -> (-149 <= e)%Z -> (e + u <= c <= 127)%Z -> (forall i, (i < n)%nat -> within e (f i)) -> within c (fsum F n f).
Proof.
  intros e u c n f Hu Hn He Hc Hf. destruct (sum_pow e u n f) as [A B]; auto; try lia. apply within_rg. split; auto. pose proof (pow_N n u ltac:(lia) Hn). pose proof (p2_le (u + e) c ltac:(lia)). rewrite <- p2_mul in *. pose proof (p2_pos e). nra.
Qed.
Lemma dense_out : forall x w c u k (X W b : nat -> nat -> b32) i j, (0 <= x)%Z -> (0 <= w)%Z -> (0 <= u <= 23)%Z -> (Z.of_nat k < 2 ^ u)%Z -> (x + w + u <= c <= 126)%Z -> (forall i j, within x (X i j)) -> (forall i j, within w (W i j)) -> (forall i j, within w (b i j)) ->
  within c (fadd F (fsum F k (fun l => fmul F (X i l) (W l j))) (b O j)).
Proof.
  intros x w c u k X W b i j Hx Hw Hu Hk Hc HX HW Hb. cbn [fadd fmul B32Ops]. destruct (sum_pow (x + w) u k (fun l => b32_mul (X i l) (W l j))) as [A B]; try lia. { intros l Hl. apply w_mul with x w; auto; lia. }
  destruct (Hb O j) as [C D]. apply Rabs_le_inv in D. pose proof (p2_le w (x + w) ltac:(lia)). assert (P23 : (2 ^ u <= 2 ^ 23)%Z) by (apply Z.pow_le_mono_r; lia). pose proof (pow_N (k + 1) u ltac:(lia) ltac:(lia)) as PN. pose proof (fmt_N (k + 1) (x + w) ltac:(lia) ltac:(lia)) as FN.
  pose proof (p2_pos (x + w)). pose proof (p2_le (u + (x + w)) c ltac:(lia)) as Q. rewrite <- p2_mul in Q. rewrite plus_INR in *. change (INR 1) with 1 in *. pose proof (p2_lt_max c ltac:(lia)). assert (K : (INR k + 1) * p2 (x + w) <= p2 u * p2 (x + w)) by nra.
  destruct (rg_add (- ((INR k + 1) * p2 (x + w))) ((INR k + 1) * p2 (x + w)) (fsum F k (fun l => b32_mul (X i l) (W l j))) (b O j)) as [E1 E2]; auto; try lra; [apply fmt_opp; auto|]. apply within_rg. split; auto. lra.
Qed.
Lemma dense_back : forall g w c v m (G W : nat -> nat -> b32) i l, (0 <= g)%Z -> (0 <= w)%Z -> (0 <= v <= 23)%Z -> (Z.of_nat m <= 2 ^ v)%Z -> (g + w + v <= c <= 127)%Z -> (forall i j, within g (G i j)) -> (forall i j, within w (W i j)) ->
  within c (fsum F m (fun j => fmul F (G i j) (W l j))).
Proof. intros. apply sum_w with (g + w)%Z v; auto; try lia. intros j Hj. cbn [fmul B32Ops]. apply w_mul with g w; auto; lia. Qed.
Lemma dense_gw : forall x g n (X G : nat -> nat -> b32) l j, (0 <= x)%Z -> (0 <= g)%Z -> (x + g <= 103)%Z -> (0 < n)%nat -> (Z.of_nat n < 2 ^ 24)%Z -> (forall i j, within x (X i j)) -> (forall i j, within g (G i j)) ->
  within (x + g + 1) (fmul F (fsum F n (fun i => fmul F (X i l) (G i j))) (fdiv F (f1 F) (fofN F n))).
Proof. intros x g n X G l j Hx Hg Hxg Hn Hn' HX HG. cbn [fmul fdiv f1 B32Ops]. apply (scaled_rg lm pw jk (x + g) n); auto; [lia|]. apply sum_rg; auto; [lia|]. intros i Hi. apply w_mul with x g; auto; lia. Qed.
Lemma dense_gb : forall g n (G : nat -> nat -> b32) j, (0 <= g <= 103)%Z -> (0 < n)%nat -> (Z.of_nat n < 2 ^ 24)%Z -> (forall i j, within g (G i j)) -> within g (fdiv F (fsum F n (fun i => G i j)) (fofN F n)).
Proof. intros g n G j Hg Hn Hn' HG. cbn [fdiv B32Ops]. apply (mean_rg lm pw jk g n n); auto; [lia|]. apply sum_rg; auto. lia. Qed.

(** * regularizers and optimisers *)
Lemma clamp_w : forall p E D x, fin p -> 0 <= val p <= p2 E -> within D x -> within D (clampVal F (fopp F p) p x) /\ within E (clampVal F (fopp F p) p x).
Proof.
  intros p E D x Hp Bp [Hx Bx]. unfold clampVal. cbn [flt fopp B32Ops]. apply Rabs_le_inv in Bx. destruct (b32_lt p x) eqn:C.
  - apply lt_val in C; auto. split; split; auto; rewrite Rabs_pos_eq; lra.
  - apply nlt_val in C; auto. assert (Ho : fin (Bopp p)) by (apply fin_opp; auto). destruct (b32_lt x (Bopp p)) eqn:Q.
    + apply lt_val in Q; auto. rewrite val_opp in Q. split; split; auto; rewrite val_opp, Rabs_Ropp, Rabs_pos_eq; lra.
    + apply nlt_val in Q; auto. rewrite val_opp in Q. split; split; auto; apply Rabs_le; lra.
Qed.
Lemma reg_to : forall g D E r c (w : mat F) (G : nat -> nat -> b32) dw, regTo lm pw jk g D E -> (forall i j, within D (G i j)) -> (match g with Some q => reg_apply F q w (mgen r c G) | None => Ok (mgen r c G) end) = Ok dw ->
  exists G', dw = mgen r c G' /\ (forall i j, within D (G' i j)) /\ forall i j, within E (G' i j).
Proof.
  intros g D E r c w G dw H HG Eq. destruct g as [q|]; cbn [regTo] in H.
  - unfold reg_apply in Eq. destruct (rkind F q) eqn:Kq; try contradiction.
    + assert (dw = mgen r c G) by congruence. subst dw. exists G. split; auto. split; auto. intros. eapply within_w; eauto.
    + destruct H as [H1 H2]. change (@mgen b32) with (@mgen (Scalar.T F)) in Eq. rewrite (clamp_gen F) in Eq. apply ok_inj in Eq. subst dw. eexists. split; [reflexivity|]. split; intros i j; destruct (clamp_w (rparam F q) E D (G i j) H1 H2 (HG i j)); auto.
    + destruct H as (H1 & H2 & H3). change (@mgen b32) with (@mgen (Scalar.T F)) in Eq. unfold mscale, mtanh in Eq. rewrite !(mapLoop_gen) in Eq. cbn [bind] in Eq. rewrite mapLoop_gen in Eq. cbn [bind] in Eq. rewrite mapLoop_gen in Eq. apply ok_inj in Eq. subst dw. eexists. split; [reflexivity|].
      assert (Q : forall i j, within E (fmul F (flm F Ltanh (fmul F (G i j) (fdiv F (f1 F) (rparam F q)))) (rparam F q))). { intros i j. cbn [fmul flm fdiv f1 B32Ops]. set (pp := rparam F q) in *. clearbody pp. destruct (HG i j) as [A _]. assert (Hd : fin (b32_div one pp)). { pose proof (p2_pos (-100)). pose proof (p2_lt_max 100 ltac:(lia)). destruct (rg_div 0 (p2 100) one pp) as [U _]; auto; try lra; try apply fmt_0; try (apply fmt_p2; lia); try (pose proof max_pos; lra); try exact one_fin. rewrite one_val. assert (I : p2 (-100) * p2 100 = 1) by (rewrite p2_mul; reflexivity). assert (0 < / val pp) by (apply Rinv_0_lt_compat; lra). assert (val pp * / val pp = 1) by (apply Rinv_r; lra). pose proof (p2_pos 100). split; unfold Rdiv; nra. }
        pose proof (p2_pos (-100)). destruct (unit_w _ (tanh_num _ _ S _ (num_mul _ _ A Hd))) as [U1 U2]. change (p2 0) with 1 in U2. apply Rabs_le_inv in U2. destruct (rg_mul (- val pp) (val pp) (lm Ltanh (b32_mul (G i j) (b32_div one pp))) pp) as [V1 V2]; auto; try (pose proof (val_in pp); lra); try (apply fmt_opp, fmt_B); try apply fmt_B; [split; nra|]. split; auto. apply Rabs_le. lra. }
      split; auto. intros i j. eapply within_w; [apply Q | auto].
  - assert (dw = mgen r c G) by congruence. subst dw. exists G. split; auto. split; auto. intros. eapply within_w; eauto.
Qed.
Definition kept (k : optKind) (E r : Z) (s : cst F) : Prop := match k with OMomentum => within (E - r + 25) (cv F s) | _ => True end.
Definition slowOpt (k : optKind) (r : Z) (o : opt F) : Prop := okind F o = k /\ wfOpt F o /\ within (- r) (olr F o) /\ within 0 (omom F o).
Definition slowIn (k : optKind) (E r : Z) (p q : nat) (o : opt F) : Prop := slowOpt k r o /\ (fresh F o \/ exists st, stored F p q o st /\ forall i j, kept k E r (st i j)).
Lemma step_room : forall k E r w lr dec mom b1 b2 s x g, room k E r w -> within (- r) lr -> within 0 mom -> kept k E r s -> within w x -> within E g -> kept k E r (fst (cstep F k lr dec mom b1 b2 s x g)) /\ within w (snd (cstep F k lr dec mom b1 b2 s x g)).
Proof.
  intros k E r w lr dec mom b1 b2 s x g (R1 & R2 & R3) Hl Hm Hs Hx Hg. destruct k; try contradiction; cbn [cstep fst snd kept cv fsub fadd fmul B32Ops] in *.
  - split; auto. apply w_caps with (E - r)%Z; auto; try lia. apply w_mul with E (- r)%Z; auto; lia.
  - assert (V : within (E - r + 25) (b32_add (b32_mul (cv F s) mom) (b32_mul g lr))). { apply w_cap with (E - r)%Z; try lia; [apply unit_mulr; auto; lia | apply w_mul with E (- r)%Z; auto; lia]. } split; auto. apply w_caps with (E - r + 25)%Z; auto; lia.
Qed.
Lemma opt_room : forall k E r w p q o (W G : nat -> nat -> b32), room k E r w -> slowIn k E r p q o -> (forall i j, within w (W i j)) -> (forall i j, within E (G i j)) ->
  exists o' W', optimize F (absFloat F) o (mgen p q W) (mgen p q G) = Ok (o', mgen p q W') /\ slowIn k E r p q o' /\ forall i j, within w (W' i j).
Proof.
  intros k E r w p q o W G Hr ((K & Wo & Hl & Hm) & Hs) HW HG.
  assert (exists st, loaded F p q o G st /\ forall i j, kept k E r (st i j)) as (st & L & B).
  { destruct Hs as [Fr|(st & St & B)]; [exists (fun i j => cinit F (okind F o) (G i j)); split; [apply fresh_loaded; auto|] | exists st; split; [apply stored_loaded; auto | auto]]. intros i j. rewrite K. unfold kept. destruct k; auto. cbn [cinit cv]. apply w_zero. }
  destruct (optimize_step F p q o st W G L) as (o' & Eo & Ss & K' & E1 & E2 & E3 & E4 & E5). cbv zeta in Eo, Ss. assert (Wo' : wfOpt F o') by (eapply optimize_wf; eauto). exists o'. eexists. split; [exact Eo|]. rewrite K in *.
  pose proof (fun i j => step_room k E r w (olr F o) (odecay F o) (omom F o) (b1p F o) (b2p F o) (st i j) (W i j) (G i j) Hr Hl Hm (B i j) (HW i j) (HG i j)) as Q.
  split; [|intros i j; apply Q]. split; [split; [auto|]; split; [exact Wo'|]; rewrite E1, E3; auto|]. right. eexists. split; [exact Ss|]. intros i j. apply Q.
Qed.
Lemma init_slow : forall k E r p q o, (k = OSGD \/ k = OMomentum) -> okind F o = k -> wfOpt F o -> slow r (olr F o) -> within 0 (omom F o) -> slowIn k E r p q (init F o).
Proof.
  intros k E r p q o Hk K Wo [Hr Hl] Hm. pose proof (fresh_init F o Wo) as Fr.
  assert (L : within (- r) (dflt F (olr F o) (flit F 1 100))).
  { assert (L0 : (r <= 6)%Z -> within (- r) (flit F 1 100)). { intro Q. apply within_w with (-6)%Z; [|lia]. assert (p2 (-6) = / 64) by (unfold p2; simpl; lra). destruct (lit_rg lm pw jk 1 100 0 (p2 (-6))) as [A B]; try lia; try (pose proof max_big; lra); [apply fmt_0 | apply fmt_p2; lia|]. split; auto. apply Rabs_le. lra. }
    destruct Hl as [Hl|(A & B & C)].
    - unfold dflt. destruct (feq F (olr F o) (minus1 F)) eqn:Q; [|exact Hl]. exfalso. cbn [feq B32Ops] in Q. unfold minus1 in Q. cbn [fopp f1 B32Ops] in Q. destruct Hl as [H1 H2]. apply (eq_val _ _ H1) in Q; [|apply fin_opp; exact one_fin]. rewrite val_opp, one_val in Q. rewrite Q in H2. rewrite Rabs_left in H2 by lra. pose proof (p2_le (- r) (-1) ltac:(lia)). assert (p2 (-1) = / 2) by (unfold p2; simpl; lra). lra.
    - destruct (dflt_cases lm pw jk (olr F o) (flit F 1 100)) as [->|[_ N]]; auto. exfalso. apply N; auto. }
  assert (M : within 0 (dflt F (omom F o) (flit F 9 10))) by (destruct (dflt_cases lm pw jk (omom F o) (flit F 9 10)) as [->|[-> _]]; auto; apply lit_unit; lia).
  split; [|left; exact Fr]. split; [|split]; unfold init in *.
  - destruct Hk as [-> | ->]; rewrite K; reflexivity.
  - destruct Fr as (A & B & C & _). split; auto.
  - destruct Hk as [-> | ->]; rewrite K; split; auto.
Qed.
Lemma slow_init : forall k E r p q o, (k = OSGD \/ k = OMomentum) -> (1 <= r <= 60)%Z -> slowIn k E r p q o -> slowIn k E r p q (init F o).
Proof. intros k E r p q o Hk Hr ((K & Wo & Hl & Hm) & _). apply init_slow; auto. split; auto. Qed.
Lemma slow_new : forall k E r p q lr dec mom, (k = OSGD \/ k = OMomentum) -> slow r lr -> within 0 mom -> slowIn k E r p q (set_params F (newOpt F k) lr dec mom).
Proof. intros k E r p q lr dec mom Hk Hl Hm. unfold set_params. apply init_slow; auto. exact (wf_new F k). Qed.
End B32.
