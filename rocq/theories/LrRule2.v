(* LrRule2.v - halving the learning rate in single precision *)
From Coq Require Import String List Arith Bool Lia ZArith Reals Lra.
From Flocq Require Import Core IEEE754.BinarySingleNaN.
From Flocq Require Mult_error.
From Verif Require Import Base Scalar Mat Loss Optim Regul Act LayMat LayImg LayRnn Layer Net NetTrain SpecNet SpecTrain SpecRound SpecNaN B32Int B32Facts B32Kit OptFin1 SpecStay LrRule1.
Import ListNotations.
Local Open Scope R_scope.
Local Opaque b32_add b32_sub b32_mul b32_div b32_sqrt b32_of_Z Bopp Babs.

Lemma lt_trans32 : forall x y z : b32, b32_lt x y = true -> b32_lt y z = true -> b32_lt x z = true.
Proof.
  intros x y z A B. assert (N : forall a b : b32, b32_lt a b = true -> b32_isnan a = false /\ b32_isnan b = false) by (intros a b; destruct a, b; try discriminate; auto).
  destruct (N _ _ A) as [N1 N2]. destruct (N _ _ B) as [_ N3]. rewrite b32_lt_val in * by auto. unfold Rltb in *. destruct (Rlt_dec (b32_val x) (b32_val y)), (Rlt_dec (b32_val y) (b32_val z)), (Rlt_dec (b32_val x) (b32_val z)); auto; try discriminate; lra.
Qed.
Definition half32 (k : nat) (x : b32) : b32 := Nat.iter k (fun r => b32_div r (b32_of_Z 2)) x.
Lemma two_val : fin (b32_of_Z 2) /\ val (b32_of_Z 2) = 2.
Proof. apply ofZ_val. lia. Qed.
Lemma half_step : forall x : b32, fin x -> 0 <= val x -> fin (b32_div x (b32_of_Z 2)) /\ 0 <= val (b32_div x (b32_of_Z 2)) <= val x.
Proof.
  intros x Fx Hx. destruct two_val as [A B]. pose proof (val_in x) as V. pose proof max_big as Mb. apply (rg_div 0 (val x) x (b32_of_Z 2)); auto; try (apply fmt_0); try (apply fmt_B); try (rewrite B; lra); try lra.
Qed.
Lemma half_exact : forall x : b32, fin x -> 2 * p2 (-126) <= val x -> fin (b32_div x (b32_of_Z 2)) /\ val (b32_div x (b32_of_Z 2)) = val x / 2.
Proof.
  intros x Fx Hx. destruct two_val as [A B]. pose proof (val_in x) as V. pose proof (p2_pos (-126)) as Pp. pose proof max_big as Mb.
  assert (Fm : fmt (val x / 2)).
  { replace (val x / 2) with (val x * bpow radix2 (-1)) by (simpl; lra). apply (Mult_error.mult_bpow_exact_FLT radix2 (-149) 24 (val x) (-1)); [apply fmt_B|].
    assert (Mg : (-124 <= Raux.mag radix2 (val x))%Z); [|lia]. apply mag_ge_bpow. rewrite Rabs_pos_eq by lra. change (bpow radix2 (-124 - 1)) with (p2 (-125)). assert (p2 (-125) = 2 * p2 (-126)) by (unfold p2; change (-125)%Z with (1 + -126)%Z; rewrite bpow_plus; simpl; lra). lra. }
  destruct (rg_div (val x / 2) (val x / 2) x (b32_of_Z 2)) as [C D]; auto; try (rewrite B; lra); try lra. split; auto; lra.
Qed.
Definition low32 : b32 := @B754_finite 24 128 false 1 (-149) eq_refl.
Lemma tiny : forall x : b32, fin x -> 0 <= val x <= p2 (-149) -> val (b32_div x (b32_of_Z 2)) = 0.
Proof.
  intros x Fx [H1 H2]. destruct (Req_dec (val x) 0) as [Z|N].
  - destruct (half_step x Fx ltac:(lra)) as [_ [A B]]. lra.
  - assert (Fm : fmt (val x)) by apply fmt_B. assert (Ex : val x = p2 (-149)).
    { apply Rle_antisym; auto. assert (S : succ radix2 (FLT_exp (-149) 24) 0 <= val x) by (apply succ_le_lt; [apply FLT_exp_valid; reflexivity | apply generic_format_0 | exact Fm | lra]). rewrite succ_0, ulp_FLT_0 in S by reflexivity. exact S. }
    assert (E : x = low32).
    { apply B2R_inj; [destruct x; auto; cbn in N; try lra; discriminate Fx | reflexivity|]. unfold val in Ex. rewrite Ex. unfold low32, B2R, F2R, p2. cbn [Fnum Fexp cond_Zopp]. lra. }
    assert (Q : match b32_div low32 (b32_of_Z 2) with B754_zero _ => true | _ => false end = true) by (vm_compute; reflexivity).
    rewrite E. destruct (b32_div low32 (b32_of_Z 2)); try discriminate Q. reflexivity.
Qed.
Lemma half_dec : forall k (x : b32), fin x -> 0 <= val x -> fin (half32 k x) /\ 0 <= val (half32 (S k) x) <= val (half32 k x).
Proof.
  intros k x Fx Hx. assert (A : fin (half32 k x) /\ 0 <= val (half32 k x)). { induction k as [|k [I1 I2]]; [auto|]. destruct (half_step _ I1 I2) as [A B]. split; [exact A | exact (proj1 B)]. }
  destruct A as [A B]. split; auto. destruct (half_step _ A B) as [_ C]. exact C.
Qed.
Lemma half_pow : forall k (x : b32), fin x -> p2 (-126) * 2 ^ k <= val x -> val (half32 k x) = val x / 2 ^ k.
Proof.
  intros k x Fx. induction k as [|k IH]; intros H; [simpl; lra|]. pose proof (p2_pos (-126)) as Pp. assert (Pk : 0 < 2 ^ k) by (apply pow_lt; lra). simpl pow in *. assert (Hk : p2 (-126) * 2 ^ k <= val x) by nra.
  specialize (IH Hk). destruct (half_dec k x Fx) as [A _]; [nra|]. change (half32 (S k) x) with (b32_div (half32 k x) (b32_of_Z 2)).
  destruct (half_exact (half32 k x) A) as [_ ->]; [|rewrite IH; field; lra]. rewrite IH. apply Rmult_le_reg_r with (2 ^ k); auto. replace (val x / 2 ^ k * 2 ^ k) with (val x) by (field; lra). lra.
Qed.
Lemma half_zero : forall k (x : b32), fin x -> 0 <= val x -> (278 <= k)%nat -> val (half32 k x) = 0.
Proof.
  intros k x Fx Hx Hk. assert (B : forall j, (j <= 277)%nat -> val (half32 j x) <= p2 (128 - Z.of_nat j)).
  { induction j as [|j IH]; intros Hj; [pose proof (val_in x) as V; assert (max32 <= p2 128) by (unfold max32, p2; simpl; lra); simpl half32; change (p2 (128 - Z.of_nat 0)) with (p2 128); lra|].
    destruct (half_dec j x Fx Hx) as [A [B C]]. specialize (IH ltac:(lia)). change (half32 (S j) x) with (b32_div (half32 j x) (b32_of_Z 2)) in *. destruct two_val as [T1 T2].
    assert (D : p2 (128 - Z.of_nat j) = 2 * p2 (128 - Z.of_nat (S j))) by (unfold p2; replace (128 - Z.of_nat j)%Z with (1 + (128 - Z.of_nat (S j)))%Z by lia; rewrite bpow_plus; simpl; lra).
    pose proof (val_in (half32 j x)) as V. pose proof (p2_pos (128 - Z.of_nat (S j))). pose proof (p2_lt_max (128 - Z.of_nat (S j)) ltac:(lia)). pose proof max_big.
    apply (rg_div 0 (p2 (128 - Z.of_nat (S j))) (half32 j x) (b32_of_Z 2)); auto; try (apply fmt_0); try (apply fmt_p2; lia); try (rewrite T2; lra); try lra. }
  replace k with (S 277 + (k - 278))%nat by lia. set (r := (k - 278)%nat). clearbody r. assert (Z : val (half32 278 x) = 0).
  { change (half32 278 x) with (b32_div (half32 277 x) (b32_of_Z 2)). destruct (half_dec 277 x Fx Hx) as [A [B1 B2]]. apply tiny; auto. split; [lra|]. exact (B 277%nat (le_n _)). }
  rewrite Nat.add_comm. induction r as [|r IH]; [exact Z|]. destruct (half_dec (r + 278) x Fx Hx) as [_ C]. change (S r + 278)%nat with (S (r + 278)). lra.
Qed.

Section B32.
Variables (lm : libm -> b32 -> b32) (pw : b32 -> b32 -> b32) (jk : b32).
Notation F := (B32Ops lm pw jk).
Variable cabs : F -> res F.
Lemma chosen32 : forall x : b32, fin x -> 0 <= val x -> chosen F x.
Proof.
  intros x Fx Hx. unfold chosen. change (b32_eq x (Bopp (b32_of_Z 1)) = false). destruct (ofZ_val 1 ltac:(lia)) as [A B]. unfold b32_eq. rewrite Bcompare_correct; [|exact Fx | rewrite is_finite_Bopp; exact A].
  rewrite B2R_Bopp. unfold val in *. rewrite B. rewrite Rcompare_Gt by lra. reflexivity.
Qed.
Theorem lr_float : forall Rr h n t h' n' t' calls, fit F cabs Rr h n t = Ok (h', n', t', calls) -> nlay n <> [] ->
  (0 <= cPatience F (tc F t))%Z -> (cKeep F (tc F t) = true \/ nclass n = true \/ nlay n' <> []) ->
  let e := Z.to_nat (cEpochs F (tc F t)) in let c := nclass n in let v := hasVal F t in
  exists h1 t1 mS mT ss imp base, setNet F h n t = Ok (h1, t1) /\ ttrain F t = Some (mS, mT) /\ fitStart F cabs Rr h1 n t1 mS mT = Ok (ss O) /\
    (forall i, (i < e)%nat -> epoch F cabs Rr mS mT i (ss i) = Ok (ss (S i))) /\ t' = st F (ss e) /\
    base = (if c then sacc F (ss O) else sloss F (ss O)) /\
    let score i := nth i (selHist F c v (th F t')) (f0 F) in let better (x y : b32) := if c then b32_lt y x else b32_lt x y in
    length (selHist F c v (th F t')) = e /\
    (forall i, (i < e)%nat -> (imp i = true <-> better (score i) base = true /\ forall k, (k < i)%nat -> imp k = true -> better (score i) (score k) = true)) /\
    let rate i : b32 := trGetLr F (st F (ss i)) in let rolls i := snd (stagnation (cPatience F (tc F t)) imp i) in
    (fin (rate O) -> 0 < val (rate O) ->
      (forall i, (i <= e)%nat -> fin (rate i) /\ 0 <= val (rate i) <= val (rate O)) /\ (forall i, (i < e)%nat -> val (rate (S i)) <= val (rate i)) /\
      (forall i, (i <= e)%nat -> p2 (-126) * 2 ^ rolls i <= val (rate O) -> val (rate i) = val (rate O) / 2 ^ rolls i) /\
      forall i, (i <= e)%nat -> (278 <= rolls i)%nat -> val (rate i) = 0).
Proof.
  intros Rr h n t h' n' t' calls Ef Hn Hp Hm. cbv zeta. destruct (lr_rule F cabs lt_trans32 Rr h n t h' n' t' calls Ef Hn Hp Hm) as (h1 & t1 & mS & mT & ss & imp & base & E1 & E2 & E3 & E4 & E5 & E6 & E7 & E8 & E9). cbv zeta in E7, E8, E9.
  exists h1, t1, mS, mT, ss, imp, base. do 6 (split; [assumption|]). split; [exact E7|]. split; [exact E8|]. intros Fl Pl. set (p := cPatience F (tc F t)) in *. set (lr0 := trGetLr F (st F (ss 0%nat))) in *.
  assert (G : forall i, (i <= Z.to_nat (cEpochs F (tc F t)))%nat -> trGetLr F (st F (ss i)) = half32 (snd (stagnation p imp i)) lr0).
  { intros i Hi. apply E9; auto. intros j _. apply chosen32; [apply (half_dec j lr0); auto; lra|]. destruct j as [|j]; [simpl; lra|]. apply (half_dec j lr0); auto; lra. }
  assert (Mono : forall k j, val (half32 (j + k) lr0) <= val (half32 k lr0)). { intros k j. induction j as [|j IH]; [apply Rle_refl|]. destruct (half_dec (j + k) lr0 Fl ltac:(lra)) as [_ Q]. change (S j + k)%nat with (S (j + k)). lra. }
  assert (Nn : forall k, 0 <= val (half32 k lr0)). { intros [|k]; [simpl; lra|]. apply (half_dec k lr0); auto; lra. }
  split; [|split; [|split]].
  - intros i Hi. rewrite G by auto. split; [apply (half_dec _ lr0); auto; lra|]. split; [apply Nn|]. pose proof (Mono 0%nat (snd (stagnation p imp i))) as Q. rewrite Nat.add_0_r in Q. exact Q.
  - intros i Hi. rewrite !G by lia. assert (D : snd (stagnation p imp (S i)) = snd (stagnation p imp i) \/ snd (stagnation p imp (S i)) = S (snd (stagnation p imp i))).
    { cbn [stagnation]. destruct (stagnation p imp i) as [cc rr]. destruct (p <? _)%Z; auto. }
    destruct D as [-> | ->]; [lra|]. apply (Mono _ 1%nat).
  - intros i Hi Hb. rewrite G by auto. apply half_pow; auto.
  - intros i Hi Hb. rewrite G by auto. apply half_zero; auto; lra.
Qed.
End B32.

(* over the reals *)
Section Real.
Variable jk : R.
Notation RF := (ROps jk).
Variable cabs : RF -> res RF.
Theorem lr_real : forall Rr h n t h' n' t' calls, fit RF cabs Rr h n t = Ok (h', n', t', calls) -> nlay n <> [] ->
  (0 <= cPatience RF (tc RF t))%Z -> (cKeep RF (tc RF t) = true \/ nclass n = true \/ nlay n' <> []) ->
  let e := Z.to_nat (cEpochs RF (tc RF t)) in let c := nclass n in let v := hasVal RF t in
  exists h1 t1 mS mT ss imp base, setNet RF h n t = Ok (h1, t1) /\ ttrain RF t = Some (mS, mT) /\ fitStart RF cabs Rr h1 n t1 mS mT = Ok (ss O) /\
    (forall i, (i < e)%nat -> epoch RF cabs Rr mS mT i (ss i) = Ok (ss (S i))) /\ t' = st RF (ss e) /\
    base = (if c then sacc RF (ss O) else sloss RF (ss O)) /\
    let score i := signed c (nth i (selHist RF c v (th RF t')) 0) in
    length (selHist RF c v (th RF t')) = e /\
    (forall i, (i < e)%nat -> (imp i = true <-> signed c base < score i /\ forall k, (k < i)%nat -> score k < score i)) /\
    (0 < trGetLr RF (st RF (ss O)) -> forall i, (i <= e)%nat ->
       trGetLr RF (st RF (ss i)) = trGetLr RF (st RF (ss O)) / 2 ^ snd (stagnation (cPatience RF (tc RF t)) imp i)).
Proof.
  intros Rr h n t h' n' t' calls Ef Hn Hp Hm. cbv zeta. destruct (lr_rule RF cabs) with (Rr := Rr) (h := h) (n := n) (t := t) (h' := h') (n' := n') (t' := t') (calls := calls) as (h1 & t1 & mS & mT & ss & imp & base & E1 & E2 & E3 & E4 & E5 & E6 & E7 & E8 & E9); auto.
  { intros x y z. simpl. unfold Rltb. destruct (Rlt_dec x y), (Rlt_dec y z), (Rlt_dec x z); auto; try discriminate; lra. }
  cbv zeta in E7, E8, E9. exists h1, t1, mS, mT, ss, imp, base. do 6 (split; [assumption|]). split; [exact E7|]. split.
  - set (sc := fun i => nth i (selHist RF (nclass n) (hasVal RF t) (th RF t')) 0) in *. set (c := nclass n) in *.
    assert (Bt : forall x y : R, (if c then flt RF y x else flt RF x y) = true <-> signed c y < signed c x) by (intros x y; unfold signed; simpl; unfold Rltb; destruct c; destruct (Rlt_dec _ _); split; intros; try discriminate; try lra; auto).
    assert (E8' : forall i, (i < Z.to_nat (cEpochs RF (tc RF t)))%nat -> (imp i = true <-> signed c base < signed c (sc i) /\ forall k, (k < i)%nat -> imp k = true -> signed c (sc k) < signed c (sc i))).
    { intros i Hi. specialize (E8 i Hi). rewrite Bt in E8. rewrite E8. split; intros [A B]; (split; [exact A|]); intros k Hk Ik; apply Bt; apply (B k Hk Ik). }
    change (forall i, (i < Z.to_nat (cEpochs RF (tc RF t)))%nat -> (imp i = true <-> signed c base < signed c (sc i) /\ forall k, (k < i)%nat -> signed c (sc k) < signed c (sc i))).
    intros i Hi. rewrite (E8' i Hi). split; [|intros [A B]; split; auto]. intros [A B]. split; auto. intros k Hk. destruct (imp k) eqn:Ik; auto.
    destruct (Rlt_le_dec (signed c (sc k)) (signed c (sc i))) as [|Q]; auto. exfalso. assert (imp k = true); [|congruence]. apply E8'; [lia|]. split; [lra|]. intros j Hj Ij. pose proof (B j ltac:(lia) Ij). lra.
  - intros Pl i Hi. set (lr0 := trGetLr RF (st RF (ss 0%nat))) in *.
    assert (Hv : forall k, halved RF k lr0 = lr0 / 2 ^ k) by (induction k as [|k IH]; [simpl; lra|]; change (halved RF (S k) lr0) with (halved RF k lr0 / 2); rewrite IH; simpl; field; apply pow_nonzero; lra).
    rewrite E9; auto. intros j _. unfold chosen. simpl. unfold Reqb. destruct (Req_EM_T (halved RF j lr0) (- (1))) as [Q|]; auto. exfalso. rewrite Hv in Q. assert (0 < lr0 / 2 ^ j) by (apply Rdiv_lt_0_compat; auto; apply pow_lt; lra). lra.
Qed.
End Real.
