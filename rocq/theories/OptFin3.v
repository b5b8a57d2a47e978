(* OptFin3.v - a squared gradient that overflows stops the adaptive optimisers *)
From Coq Require Import List Arith ZArith Reals Lra Lia Bool.
From Flocq Require Import Core IEEE754.BinarySingleNaN.
From Verif Require Import Base Scalar Mat SpecMat MatFacts MatProofs MatLoops Loss Optim OptProofs OptProofs2 B32Int SpecRound RoundProofs1 SpecNaN B32Kit NaNAct SpecSoft SoftProofs1 SpecStay OptFin1 OptFin2.
Import ListNotations.
Local Open Scope R_scope.

Notation pinf := (inf32 false).
Lemma mul_inf : forall c : b32, fin c -> 0 < val c -> b32_mul pinf c = pinf.
Proof. intros [s|s| |s m e B] Hf H; try discriminate Hf; [unfold val in H; simpl in H; lra|]. destruct s; [|reflexivity]. exfalso. assert (val (B754_finite true m e B) < 0) by (unfold val; simpl; apply F2R_lt_0; simpl; lia). lra. Qed.
Lemma div_inf : forall x : b32, fin x -> exists s, b32_div x pinf = B754_zero s.
Proof. intros [s|s| |s m e B] Hf; try discriminate Hf; eexists; reflexivity. Qed.
Lemma mul_zero : forall s (x : b32), fin x -> exists s', b32_mul (B754_zero s) x = B754_zero s'.
Proof. intros s [s'|s'| |s' m e B] Hf; try discriminate Hf; eexists; reflexivity. Qed.
Lemma add_zero : forall (w : b32) s, fin w -> fin (b32_add w (B754_zero s)) /\ val (b32_add w (B754_zero s)) = val w.
Proof. intros [s'|s'| |s' m e B] s Hf; try discriminate Hf; [destruct s, s'; split; reflexivity | split; reflexivity]. Qed.
Lemma sub_zero : forall (w : b32) s, fin w -> fin (b32_sub w (B754_zero s)) /\ val (b32_sub w (B754_zero s)) = val w.
Proof. intros [s'|s'| |s' m e B] s Hf; try discriminate Hf; [destruct s, s'; split; reflexivity | split; reflexivity]. Qed.
Lemma lt_inf : forall x : b32, fin x -> b32_lt pinf x = false.
Proof. intros [s|s| |s m e B] Hf; try discriminate Hf; reflexivity. Qed.
Lemma inf_top : btw max32 max32 pinf. Proof. split; [reflexivity|]. cbn [ext inf32]. lra. Qed.
Lemma top_inf : forall x, btw max32 max32 x -> x = pinf. Proof. intros x [N B]. apply ext_inf; auto. lra. Qed.
Local Opaque b32_add b32_sub b32_mul b32_div b32_sqrt b32_of_Z Bopp Babs.
Lemma add_inf : forall x y, btw 0 max32 x -> btw 0 max32 y -> x = pinf \/ y = pinf -> b32_add x y = pinf.
Proof. pose proof max_pos. intros x y Hx Hy [-> | ->]; apply top_inf; [apply add_pos | apply add_posl]; auto; try apply fmt_max; try lra; apply inf_top. Qed.
Lemma inf_nn : btw 0 max32 pinf. Proof. pose proof max_pos. split; [reflexivity|]. cbn [ext inf32]. lra. Qed.
Lemma nn_btw : forall z x, nn z x -> (z <= 127)%Z -> btw 0 max32 x.
Proof. intros z x [A B] H. apply val_btw; auto. pose proof (p2_lt_max z H). lra. Qed.
Lemma sq_inf : forall g, fin g -> p2 64 <= Rabs (val g) -> b32_mul g g = pinf.
Proof.
  intros g Hg H. apply top_inf. pose proof (abs_mul_max g g) as M. apply p2_huge in M. destruct huge_max as (A & B & _). apply btw_cap with (p2 300). apply mul_btw; auto; try lra; [apply fmt_max | apply fmt_huge|].
  split; [|lra]. replace (val g * val g) with (Rabs (val g) * Rabs (val g)) by (rewrite <- Rabs_mult; apply Rabs_pos_eq; nra). replace max32 with (p2 64 * p2 64) by (rewrite p2_mul; reflexivity). pose proof (p2_pos 64). nra.
Qed.
Lemma sq_nn : forall g, fin g -> btw 0 max32 (b32_mul g g).
Proof. intros g Hg. apply mul_nn; auto. nra. Qed.
Lemma mul_nn_c : forall x c, btw 0 max32 x -> fin c -> 0 < val c <= 1 -> btw 0 max32 (b32_mul x c) /\ (x = pinf -> b32_mul x c = pinf).
Proof.
  intros x c [N B] Hc C. split; [|intros ->; apply mul_inf; auto; lra]. destruct (fin_cases x N) as [Hx|[[] ->]].
  - rewrite fin_ext in B by auto. apply mul_nn; auto. nra.
  - cbn [ext inf32] in B. pose proof max_pos. lra.
  - rewrite mul_inf by (auto; lra). apply inf_nn.
Qed.

Section Frozen.
Variables (lm : libm -> b32 -> b32) (pw : b32 -> b32 -> b32) (jk : b32).
Notation F := (B32Ops lm pw jk).

Lemma mixz : forall z m g, (3 <= z <= 120)%Z -> within (z + 1) m -> within z g -> within (z + 1) (mix F (beta1 F) m g).
Proof.
  intros z m g Hz [Hm Bm] [Hg Bg]. apply Rabs_le_inv in Bm, Bg. unfold mix. cbn [fadd fmul B32Ops]. destruct (b1_rg lm pw jk) as [H1 B1]. pose proof max_big as MB.
  assert (E : p2 (z + 1) = 2 * p2 z) by apply p2_S. assert (E2 : p2 z = 8 * p2 (z - 3)). { replace z with (3 + (z - 3))%Z at 1 by lia. rewrite <- p2_mul. change (p2 3) with 8. ring. } pose proof (p2_pos (z - 3)) as P. pose proof (p2_lt_max (z + 1) ltac:(lia)) as Q.
  destruct (om_rg lm pw jk (beta1 F) 0 (/ 8)) as [Ho Bo]; auto; try lra; [apply fmt_0 | apply (fmt_p2 (-3)); lia|].
  assert (X : rg (- (29 / 32 * p2 (z + 1))) (29 / 32 * p2 (z + 1)) (b32_mul m (beta1 F))).
  { assert (Fm : fmt (29 / 32 * p2 (z + 1))). { replace (29 / 32 * p2 (z + 1)) with (IZR 29 * p2 (z + 1 - 5)); [apply fmt_dy; lia|]. replace (z + 1)%Z with (5 + (z + 1 - 5))%Z at 2 by lia. rewrite <- p2_mul. change (p2 5) with 32. field. } apply rg_mul; auto; try lra; [apply fmt_opp; auto|]. split; nra. }
  assert (Y : rg (- p2 (z - 3)) (p2 (z - 3)) (b32_mul g (oneMinus F (beta1 F)))). { apply rg_mul; auto; try lra; [apply fmt_opp, fmt_p2; lia | apply fmt_p2; lia|]. split; nra. }
  destruct X as [X1 X2], Y as [Y1 Y2]. apply within_rg. apply rg_add; auto; try lra; [apply fmt_opp, fmt_p2; lia | apply fmt_p2; lia].
Qed.
(* exponentially weighted squares: either part infinite, the whole infinite *)
Lemma mix_inf : forall d v g, fin d -> 0 < val d < 1 -> fin (oneMinus F d) -> 0 < val (oneMinus F d) <= 1 -> btw 0 max32 v -> fin g -> (v = pinf \/ p2 64 <= Rabs (val g)) -> mix F d v (sqr F g) = pinf.
Proof.
  intros d v g Hd Bd Ho Bo Hv Hg C. unfold mix, sqr. cbn [fadd fmul B32Ops]. destruct (mul_nn_c v d Hv Hd ltac:(lra)) as [A1 A2]. destruct (mul_nn_c (b32_mul g g) (oneMinus F d) (sq_nn g Hg) Ho Bo) as [B1 B2].
  apply add_inf; auto. destruct C as [C|C]; [left; auto | right; apply B2, sq_inf; auto].
Qed.
Lemma om_half : forall d, fin d -> 0 < val d < 1 -> fin (oneMinus F d) /\ 0 < val (oneMinus F d) <= 1.
Proof.
  intros d Hd B. pose proof max_big. destruct (om_rg lm pw jk d 0 1) as [A C]; auto; try lra; [apply fmt_0 | apply fmt_1|]. split; auto. split; [|lra].
  destruct (Rle_lt_or_eq_dec 0 (val (oneMinus F d)) ltac:(lra)) as [P|P]; auto. exfalso.
  unfold oneMinus in *. cbn [fsub f1 B32Ops] in *. pose proof (sub_fin _ _ one_fin Hd A) as E. rewrite one_val in E. pose proof (minus_err one d) as Er. rewrite one_val in Er. rewrite <- E, <- P in Er. rewrite Rminus_0_l, Rabs_Ropp, Rabs_pos_eq in Er by lra. assert (u32 < / 100) by (unfold u32; simpl; lra). nra.
Qed.
Lemma b2_pos : 0 < val (beta2 F).
Proof. destruct (lit_rg lm pw jk 999 1000 (/ 2) 1) as [A B]; try lia; try (pose proof max_big; lra); [apply (fmt_p2 (-1)); lia | apply fmt_1|]. unfold beta2. lra. Qed.
Lemma floor_inf : floor8 F pinf = pinf.
Proof. unfold floor8, stdmax. cbn [flt B32Ops]. rewrite lt_inf; auto. apply (eps_rg lm pw jk). Qed.
Lemma sqrt_inf : b32_sqrt pinf = pinf. Proof. reflexivity. Qed.
Lemma corr2_pos : forall b, rg 0 (1023 / 1024) b -> fin (b32_div one (oneMinus F b)) /\ 0 < val (b32_div one (oneMinus F b)).
Proof.
  intros b H. pose proof (corr2 lm pw jk b H) as [A _]. split; auto. destruct H as [Hb B]. pose proof max_big. assert (E : p2 (-10) = / 1024) by (unfold p2; simpl; lra). destruct (om_rg lm pw jk b (p2 (-10)) 1) as [C D]; auto; try lra; [apply fmt_p2; lia | apply fmt_1|].
  assert (G : rg 1 (p2 10) (b32_div one (oneMinus F b))); [|destruct G; lra]. apply rg_div; auto; [exact one_fin | apply fmt_1 | apply fmt_p2; lia | lra | apply p2_lt_max; lia | lra|]. rewrite one_val. unfold Rdiv. rewrite Rmult_1_l. split; [rewrite <- Rinv_1; apply Rinv_le_contravar; lra|]. replace (p2 10) with (/ / 1024) by (unfold p2; simpl; lra). apply Rinv_le_contravar; lra.
Qed.

Definition moments (k : optKind) (b1 b2 : b32) (s : cst F) : Prop :=
  btw 0 max32 (cv F s) /\ (k = OAmsgrad -> num (cp F s)) /\ (k = OAdam \/ k = OAmsgrad \/ k = ONadam -> within 101 (cm F s)) /\ (k = OAdam \/ k = ONadam -> rg 0 (29 / 32) b1 /\ rg 0 (1023 / 1024) b2).
Definition hit (s : cst F) (g : b32) : Prop := cv F s = pinf \/ p2 64 <= Rabs (val g).
Lemma lt_inf_num : forall x, num x -> b32_lt pinf x = false.
Proof. intros [s|s| |s m e B] H; try discriminate H; try reflexivity. destruct s; reflexivity. Qed.
Lemma step_frozen : forall k lr dec mom b1 b2 s w g, adaptive k -> within 0 lr -> (k = ORMSProp -> fin dec /\ 0 < val dec < 1) -> moments k b1 b2 s -> fin w -> within 100 g -> hit s g ->
  let p := cstep F k lr dec mom b1 b2 s w g in moments k (next1 F k b1) (next2 F k b2) (fst p) /\ cv F (fst p) = pinf /\ fin (snd p) /\ val (snd p) = val w.
Proof.
  intros k lr dec mom b1 b2 s w g K HL Hd (V & P & M & B) Hw Hg H. assert (Fg : fin g) by apply Hg. assert (Hl : fin lr) by apply HL. cbv zeta. pose proof inf_nn as IN. unfold hit in H.
  destruct (b2_rg lm pw jk) as [F2 R2]. pose proof b2_pos as P2. destruct (om_half (beta2 F) F2 ltac:(lra)) as [O1 O2]. pose proof (mix_inf (beta2 F) (cv F s) g F2 ltac:(lra) O1 O2 V Fg H) as MI.
  assert (NX : forall k, rg 0 (29 / 32) b1 /\ rg 0 (1023 / 1024) b2 -> rg 0 (29 / 32) (next1 F k b1) /\ rg 0 (1023 / 1024) (next2 F k b2)) by (intros k' [A1 A2]; split; [apply next1_rg | apply next2_rg]; auto).
  destruct (b1_rg lm pw jk) as [F1 R1].
  assert (DZ : forall x c, fin x -> fin c -> exists s, b32_mul (b32_div x pinf) c = B754_zero s). { intros x c Hx Hc. destruct (div_inf x Hx) as (s1 & ->). apply mul_zero. auto. }
  destruct K as [-> | [-> | [-> | [-> | ->]]]]; cbn [cstep fst snd cv cm cp fadd fsub fmul fdiv fopp flm f1 B32Ops moments].
  - assert (E : b32_add (cv F s) (sqr F g) = pinf). { apply add_inf; auto; [apply sq_nn; auto|]. destruct H; auto. right. apply sq_inf; auto. } rewrite E, sqrt_inf, floor_inf.
    destruct (DZ g (Bopp lr) Fg (fin_opp _ Hl)) as (s1 & ->). destruct (add_zero w s1 Hw). split; [|auto]. split; [exact IN|]. split; [discriminate|]. split; [intros [Q|[Q|Q]]; discriminate Q | intros [Q|Q]; discriminate Q].
  - destruct (Hd eq_refl) as [D1 D2]. destruct (om_half dec D1 D2) as [D3 D4]. rewrite (mix_inf dec (cv F s) g) by auto. rewrite sqrt_inf, floor_inf.
    destruct (DZ g (Bopp lr) Fg (fin_opp _ Hl)) as (s1 & ->). destruct (add_zero w s1 Hw). split; [|auto]. split; [exact IN|]. split; [discriminate|]. split; [intros [Q|[Q|Q]]; discriminate Q | intros [Q|Q]; discriminate Q].
  - rewrite MI. destruct (B ltac:(auto)) as [C1 C2]. destruct (corr2_pos b2 C2) as [Q1 Q2]. change (b32_of_Z 1) with one. rewrite (mul_inf _ Q1 Q2), sqrt_inf, floor_inf. pose proof (mixz 100 _ _ ltac:(lia) (M ltac:(auto)) Hg) as M'. 
    destruct (corr1 lm pw jk b1 C1) as [Q3 Q4]. assert (L : within 4 (b32_div lr (oneMinus F b1))) by (apply w_div with 0%Z (-4)%Z; auto; lia).
    destruct (DZ _ (b32_div lr (oneMinus F b1)) (proj1 M') (proj1 L)) as (s1 & ->). destruct (sub_zero w s1 Hw). split; [|auto]. split; [exact IN|]. split; [discriminate|]. split; [intros _; exact M' | auto].
  - rewrite MI. assert (E : stdmax F pinf (cp F s) = pinf). { unfold stdmax. cbn [flt B32Ops]. rewrite lt_inf_num; auto. } rewrite E, sqrt_inf, floor_inf. pose proof (mixz 100 _ _ ltac:(lia) (M ltac:(auto)) Hg) as M'. 
    destruct (DZ _ lr (proj1 M') Hl) as (s1 & ->). destruct (sub_zero w s1 Hw). split; [|auto]. split; [exact IN|]. split; [reflexivity|]. split; [intros _; exact M' | intros [Q|Q]; discriminate Q].
  - rewrite MI, sqrt_inf, floor_inf. destruct (B ltac:(auto)) as [C1 C2]. pose proof (mixz 100 _ _ ltac:(lia) (M ltac:(auto)) Hg) as M'. destruct (corr1 lm pw jk b1 C1) as [Q3 Q4].
    assert (N : within 106 (b32_add (b32_mul (mix F (beta1 F) (cm F s) g) (beta1 F)) (b32_div (b32_mul g (oneMinus F (beta1 F))) (oneMinus F b1)))).
    { pose proof max_big. assert (W1 : within 0 (oneMinus F (beta1 F))). { apply within_rg. change (p2 0) with 1. apply om_rg; auto; try lra; [apply fmt_opp, fmt_1 | apply fmt_1]. }
      assert (OB : within 0 (beta1 F)). { split; auto. change (p2 0) with 1. rewrite Rabs_pos_eq; lra. }
      apply w_add with 101%Z 104%Z; try lia; [apply w_mul with 101%Z 0%Z; auto; lia|]. apply w_div with 100%Z (-4)%Z; auto; try lia. apply w_mul with 100%Z 0%Z; auto; lia. }
    destruct (DZ _ (Bopp lr) (proj1 N) (fin_opp _ Hl)) as (s1 & ->). destruct (add_zero w s1 Hw). split; [|auto]. split; [exact IN|]. split; [discriminate|]. split; [intros _; exact M' | auto].
Qed.
Lemma run_frozen : forall k lr dec mom gs b1 b2 s w, adaptive k -> within 0 lr -> (k = ORMSProp -> fin dec /\ 0 < val dec < 1) -> moments k b1 b2 s -> cv F s = pinf -> fin w -> List.Forall (within 100) gs ->
  fin (snd (crun F k lr dec mom b1 b2 s w gs)) /\ val (snd (crun F k lr dec mom b1 b2 s w gs)) = val w.
Proof.
  intros k lr dec mom. induction gs as [|g gs IH]; intros b1 b2 s w K Hl Hd M V Hw Hg; cbn [crun snd]; auto. pose proof (Forall_inv Hg) as H1. pose proof (Forall_inv_tail Hg) as H2. cbv zeta.
  destruct (step_frozen k lr dec mom b1 b2 s w g K Hl Hd M Hw H1 (or_introl V)) as (M' & V' & Hw' & E). destruct (IH _ _ _ _ K Hl Hd M' V' Hw' H2) as [A B]. rewrite B. auto.
Qed.
Lemma bounded_moments : forall k b1 b2 s, adaptive k -> bounded lm pw jk k b1 b2 s -> moments k b1 b2 s.
Proof.
  intros k b1 b2 s [-> | [-> | [-> | [-> | ->]]]] H; cbn [bounded] in H; unfold moments.
  - split; [apply nn_btw with 106%Z; auto; lia|]. split; [discriminate|]. split; [intros [Q|[Q|Q]]; discriminate Q | intros [Q|Q]; discriminate Q].
  - split; [apply nn_btw with 106%Z; auto; lia|]. split; [discriminate|]. split; [intros [Q|[Q|Q]]; discriminate Q | intros [Q|Q]; discriminate Q].
  - destruct H as (A & B & C & D). split; [apply nn_btw with 106%Z; auto; lia|]. split; [discriminate|]. split; auto. intros _. apply within_w with 41%Z; auto; lia.
  - destruct H as (A & B & C). split; [apply nn_btw with 106%Z; auto; lia|]. split; [intros _; apply fin_num, C|]. split; [intros _; apply within_w with 41%Z; auto; lia | intros [Q|Q]; discriminate Q].
  - destruct H as (A & B & C & D). split; [apply nn_btw with 106%Z; auto; lia|]. split; [discriminate|]. split; auto. intros _. apply within_w with 41%Z; auto; lia.
Qed.
Lemma run_hit : forall k lr dec mom g0 post, adaptive k -> within 0 lr -> (k = ORMSProp -> fin dec /\ 0 < val dec < 1) -> within 0 mom -> within 100 g0 -> p2 64 <= Rabs (val g0) -> List.Forall (within 100) post ->
  forall pre b1 b2 s w, bounded lm pw jk k b1 b2 s -> within 100 w -> List.Forall (within 40) pre ->
  val (snd (crun F k lr dec mom b1 b2 s w (pre ++ g0 :: post))) = val (snd (crun F k lr dec mom b1 b2 s w pre)).
Proof.
  intros k lr dec mom g0 post K Hl Hd Hm H0 H64 Hp. induction pre as [|g pre IH]; intros b1 b2 s w Hb Hw Hg; cbn [app crun snd].
  - cbv zeta. destruct (step_frozen k lr dec mom b1 b2 s w g0 K Hl Hd (bounded_moments k b1 b2 s K Hb) (proj1 Hw) H0 (or_intror H64)) as (M' & V' & Hw' & E). destruct (run_frozen k lr dec mom post _ _ _ _ K Hl Hd M' V' Hw' Hp) as [_ B]. rewrite B. auto.
  - pose proof (Forall_inv Hg) as H1. pose proof (Forall_inv_tail Hg) as H2. cbv zeta. assert (Hd' : k = ORMSProp -> rg 0 1 dec) by (intro Ek; destruct (Hd Ek) as [A B]; split; auto; lra). destruct (step_stay lm pw jk k lr dec mom b1 b2 s w g Hl Hd' Hm Hb Hw H1) as [A B]. apply IH; auto.
Qed.

Theorem overflow_freezes : forall k lr dec mom r c i j (w : nat -> nat -> b32) (pre post : list (nat -> nat -> b32)) g0, adaptive k -> within 0 lr -> fraction dec -> 0 <> val dec /\ val dec <> 1 -> within 0 mom ->
  (forall i j, within 100 (w i j)) -> (forall g i j, In g pre -> within 40 (g i j)) -> (forall g i j, In g post -> within 100 (g i j)) -> (forall i j, within 100 (g0 i j)) -> p2 64 <= Rabs (val (g0 i j)) ->
  exists o1 w1 o2 w2, optRun F (absFloat F) (set_params F (newOpt F k) lr dec mom) (mgen r c w) (map (mgen r c) pre) = Ok (o1, mgen r c w1) /\
  optRun F (absFloat F) (set_params F (newOpt F k) lr dec mom) (mgen r c w) (map (mgen r c) (pre ++ g0 :: post)) = Ok (o2, mgen r c w2) /\ val (w2 i j) = val (w1 i j).
Proof.
  intros k lr dec mom r c i j w pre post g0 K Hl Hd Nd Hm Hw Hpre Hpost H0 H64.
  destruct (run_fresh F r c pre (set_params F (newOpt F k) lr dec mom) w (fresh_set_params F _ _ _ _)) as (o1 & E1 & _). destruct (run_fresh F r c (pre ++ g0 :: post) (set_params F (newOpt F k) lr dec mom) w (fresh_set_params F _ _ _ _)) as (o2 & E2 & _). cbv zeta in E1, E2.
  exists o1. eexists. exists o2. eexists. split; [exact E1|]. split; [exact E2|]. cbv beta. destruct (params_stay lm pw jk k lr dec mom Hl Hd Hm) as (Kk & D1 & D2 & D3 & D4).
  assert (D5 : k = ORMSProp -> fin (odecay F (set_params F (newOpt F k) lr dec mom)) /\ 0 < val (odecay F (set_params F (newOpt F k) lr dec mom)) < 1).
  { intros ->. cbn [set_params init newOpt okind odecay]. destruct (dflt_cases lm pw jk dec (flit F 99 100)) as [->|[-> N]].
    - pose proof max_big. destruct (lit_rg lm pw jk 99 100 (/ 2) (1023 / 1024)) as [A B]; try lia; try lra; [apply (fmt_p2 (-1)); lia | apply fmt_1023|]. split; auto. lra.
    - destruct Hd as [A [B|B]]; [split; auto; lra | destruct (N A B)]. }
  rewrite Kk. unfold crun0. destruct (params_stay lm pw jk k lr dec mom Hl Hd Hm) as (_ & _ & _ & _ & D6). specialize (D6 z32 (zero_w 40)). remember (cinit F k z32) as ci eqn:Eci. assert (I : forall g, cinit F k g = ci) by (intros; subst ci; destruct K as [-> | [-> | [-> | [-> | ->]]]]; reflexivity). rewrite !I. rewrite map_app. cbn [map]. apply run_hit; auto.
  - exact (cells_in 100 post i j Hpost).
  - exact (cells_in 40 pre i j Hpre).
Qed.
End Frozen.

(* without a bound on the gradients finite weights become infinite, then not-a-numbers *)
Theorem unbounded_refuted : fin huge /\ (exists x, afterN OSGD (b32_of_Z 2) (b32_of_Z (-1)) 1 = Ok [x] /\ ~ fin x /\ num x) /\ (exists x, afterN ONesterov (b32_of_Z 1) (b32_of_Z (-1)) 4 = Ok [x] /\ nan x).
Proof.
  assert (G : forall k lr mom n (p : b32 -> bool), match afterN k lr mom n with Ok [x] => p x | _ => false end = true -> exists x, afterN k lr mom n = Ok [x] /\ p x = true).
  { intros k lr mom n p H. destruct (afterN k lr mom n) as [[|x [|y l]]|]; try discriminate H. exists x. auto. }
  split; [vm_compute; reflexivity|]. split.
  - destruct (G OSGD (b32_of_Z 2) (b32_of_Z (-1)) 1%nat (fun x => negb (is_finite x) && negb (is_nan x))) as (x & E & H); [vm_compute; reflexivity|]. exists x. split; auto. apply andb_prop in H. destruct H as [A B]. apply negb_true_iff in A, B. unfold fin, num. split; auto. congruence.
  - exact (G ONesterov (b32_of_Z 1) (b32_of_Z (-1)) 4%nat is_nan ltac:(vm_compute; reflexivity)).
Qed.
