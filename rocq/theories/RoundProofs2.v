(* RoundProofs2.v - single-precision predictions of Dense/Dot/Relu networks against exact ones *)
From Coq Require Import List Arith ZArith Reals Lra Lia Bool.
From Flocq Require Import Core IEEE754.BinarySingleNaN.
From Verif Require Import Base Scalar Mat SpecMat MatFacts MatProofs Act LayMat LayProofs1 LayProofs3 Layer Net NetProofs1 SpecRound RoundProofs1.
Import ListNotations.
Local Open Scope R_scope.

(** * any arithmetic: what the layers compute *)
Section Any.
Variable F : FOps.
Variable conv : b32 -> F.
Definition app1 (s : unit32) (x : nat -> F) (j : nat) : F :=
  match s with
  | UDense k m W b => fadd F (fsum F k (fun i => fmul F (x i) (conv (W i j)))) (conv (b j))
  | UDot k m W => fsum F k (fun i => fmul F (x i) (conv (W i j)))
  | URelu => act_apply F ARelu (x j)
  end.
Fixpoint appAll (us : list unit32) (x : nat -> F) : nat -> F := match us with [] => x | s :: r => appAll r (app1 s x) end.
Definition width1 (s : unit32) (k m : nat) : Prop := match s with UDense k' m' _ _ | UDot k' m' _ => k' = k /\ m' = m | URelu => m = k end.
Fixpoint widths (us : list unit32) (k m : nat) : Prop := match us with [] => m = k | s :: r => exists j, width1 s k j /\ widths r j m end.

Lemma hset_same : forall (h : heap F) a l, hget F h a = Ok l -> hset F h a l = Ok h.
Proof.
  intros h a l E. rewrite (hset_ok _ _ _ _ _ E). f_equal. apply hget_ok in E. revert a E. induction h as [|z h IH]; intros [|a] E; try discriminate E; simpl in *; [congruence|]. f_equal. auto.
Qed.
Lemma one_forward : forall r l s nb k m X out, holds F conv l s -> width1 s k m -> mwf out -> layForward F r l (mgen nb k X) out = Ok (l, mgen nb m (fun i => app1 s (X i))).
Proof.
  intros r l s nb k m X out H Wd Wo. destruct s as [k' m' W b|k' m' W|]; cbn [holds width1] in *.
  - destruct H as (E1 & E2 & E3). destruct Wd as [-> ->]. unfold layForward. rewrite E1, E2, E3. rewrite fwdDense_gen. reflexivity.
  - destruct H as (E1 & E2). destruct Wd as [-> ->]. unfold layForward. rewrite E1, E2. rewrite fwdDot_gen. reflexivity.
  - subst m. unfold layForward. rewrite H. rewrite fwdAct_gen by auto. reflexivity.
Qed.
Lemma loop_forward : forall rs n nb us ls off h k m X o, (forall i, nth_error (nlay n) (off + i) = nth_error ls i) -> holdsAll F conv h ls us -> widths us k m -> mwf o ->
  exists o', forL (seq off (length ls)) (fun i '(h, mTemp, mOut) => ' (h, o) <- fwdLayer F rs n i h mTemp mOut ;; Ok (h, o, o)) (h, mgen nb k X, o) = Ok (h, mgen nb m (fun i => appAll us (X i)), o') /\ (us <> [] -> o' = mgen nb m (fun i => appAll us (X i))).
Proof.
  intros rs n nb us. induction us as [|s r IH]; intros ls off h k m X o Hs H Wd Wo.
  - inversion H; subst. cbn [widths] in Wd. subst m. exists o. split; [reflexivity|]. contradiction.
  - inversion H as [|a s' ls' r' (l & El & Hl) Hr]; subst. destruct Wd as (j & W1 & W2). cbn [length seq forL].
    assert (E1 : fwdLayer F rs n off h (mgen nb k X) o = Ok (h, mgen nb j (fun i => app1 s (X i)))).
    { unfold fwdLayer. assert (Er : rget (nlay n) off = Ok a). { unfold rget. specialize (Hs 0%nat). rewrite Nat.add_0_r in Hs. rewrite Hs. reflexivity. } rewrite Er. cbn [bind]. rewrite El. cbn [bind]. rewrite (one_forward _ _ _ _ _ _ X _ Hl W1 Wo). cbn [bind]. rewrite (hset_same _ _ _ El). reflexivity. }
    rewrite E1. cbn [bind]. destruct (IH ls' (S off) h j m (fun i => app1 s (X i)) (mgen nb j (fun i => app1 s (X i)))) as (o' & E & Q); auto.
    { intro i. replace (S off + i)%nat with (off + S i)%nat by lia. rewrite Hs. reflexivity. } { apply mwf_gen. }
    exists o'. split; [exact E|]. intros _. destruct r as [|s2 r2]; [|apply Q; discriminate]. inversion Hr; subst. cbn [widths] in W2. subst j. cbn in E. injection E. intros. subst. reflexivity.
Qed.
Lemma predict_units : forall rs h n nb us k m X, holdsAll F conv h (nlay n) us -> widths us k m -> us <> [] ->
  predict F rs h n (mgen nb k X) (mempty F) = Ok (h, mgen nb m (fun i => appAll us (X i))).
Proof.
  intros rs h n nb us k m X H Wd N. unfold predict, forN. destruct (loop_forward rs n nb us (nlay n) 0 h k m X (mempty F)) as (o' & E & Q); auto; [reflexivity|]. rewrite E. cbn [bind]. rewrite Q by auto. reflexivity.
Qed.
End Any.

(** * the reals *)
Section Real.
Variable jk : R.
Let F := ROps jk.
Lemma fsum_R : forall n f, fsum F n f = rsum n f.
Proof. induction n as [|n IH]; intro f; [reflexivity|]. unfold fsum in *. rewrite seq_S, fold_left_app. cbn [fold_left rsum]. rewrite IH. reflexivity. Qed.
Lemma exact_app1 : forall s x y, (forall j, x j = y j) -> forall j, app1 F val s x j = exact1 s y j.
Proof.
  intros s x y E j. destruct s as [k m W b|k m W|]; cbn [app1 exact1].
  - rewrite fsum_R. change (fadd F) with Rplus. change (fmul F) with Rmult. f_equal. apply rsum_ext. intros. rewrite E. reflexivity.
  - rewrite fsum_R. change (fmul F) with Rmult. apply rsum_ext. intros. rewrite E. reflexivity.
  - cbn. unfold Rltb. rewrite E. unfold Rmax. destruct (Rlt_dec 0 (y j)), (Rle_dec 0 (y j)); lra.
Qed.
Lemma exact_app : forall us x y, (forall j, x j = y j) -> forall j, appAll F val us x j = exact us y j.
Proof. induction us as [|s r IH]; intros x y E j; cbn [appAll exact]; auto. apply IH. intro q. apply exact_app1. auto. Qed.
End Real.

(** * single precision *)
Section Float.
Variables (lm : libm -> b32 -> b32) (pw : b32 -> b32 -> b32) (junk : b32).
Let F := B32Ops lm pw junk.
Definition close (k : nat) (X : nat -> b32) (x e : nat -> R) : Prop := forall i, (i < k)%nat -> fin (X i) /\ Rabs (val (X i) - x i) <= e i.

Lemma err_mono : forall n A B, 0 <= A -> A <= B -> dotErr n A <= dotErr n B.
Proof. intros n A B A0 AB. unfold dotErr. pose proof (pow_u (n + 1)). apply Rplus_le_compat_r. apply Rmult_le_compat_l; lra. Qed.
Lemma dot_close : forall k X x e (w : nat -> b32), close k X x e -> (forall i, (i < k)%nat -> fin (w i)) ->
  let A := rsum k (fun i => (Rabs (x i) + e i) * Rabs (val (w i))) in let s := fsum F k (fun i => b32_mul (X i) (w i)) in
  rsum k (fun i => Rabs (val (X i) * val (w i))) <= A /\ Rabs (rsum k (fun i => val (X i) * val (w i))) <= A /\ Rabs (rsum k (fun i => val (X i) * val (w i)) - rsum k (fun i => x i * val (w i))) <= rsum k (fun i => e i * Rabs (val (w i))) /\
  (dotMag k A < max32 -> fin s /\ Rabs (val s - rsum k (fun i => val (X i) * val (w i))) <= dotErr k A).
Proof.
  intros k X x e w Cl Fw A s.
  assert (L1 : rsum k (fun i => Rabs (val (X i) * val (w i))) <= A).
  { apply rsum_le. intros i Hi. rewrite Rabs_mult. apply Rmult_le_compat_r; [apply Rabs_pos|]. destruct (Cl i Hi) as [_ C]. pose proof (Rabs_triang (val (X i) - x i) (x i)) as U. replace (val (X i) - x i + x i) with (val (X i)) in U by ring. lra. }
  split; auto. split; [eapply Rle_trans; [apply rsum_abs|exact L1]|]. split.
  { rewrite rsum_minus. eapply Rle_trans; [apply rsum_abs|]. apply rsum_le. intros i Hi. rewrite <- Rmult_minus_distr_r, Rabs_mult. apply Rmult_le_compat_r; [apply Rabs_pos|]. apply Cl. auto. }
  intro Sm. assert (P0 : 0 <= rsum k (fun i => Rabs (val (X i) * val (w i)))) by (apply rsum_pos; intros; apply Rabs_pos).
  assert (Fs : fin s). { apply (dot_small lm pw junk k X w); [intros i Hi; split; [apply Cl; auto|auto]|]. eapply Rle_lt_trans; [|exact Sm]. apply mag_mono; auto. }
  split; auto. destruct (dot_err lm pw junk k X w Fs) as [_ E]. eapply Rle_trans; [exact E|]. apply err_mono; auto.
Qed.
Lemma unit_close : forall s X x e k m, small1 s x e k m -> close k X x e -> close m (app1 F (fun v => v) s X) (exact1 s x) (err1 s x e).
Proof.
  intros s X x e k m Sm Cl j Hj. destruct s as [k' m' W b|k' m' W|]; cbn [small1 app1 exact1 err1] in *.
  - destruct Sm as (-> & -> & _ & FW & Fb & Sm). specialize (Sm j Hj). destruct (dot_close k X x e (fun i => W i j) Cl (fun i Hi => FW i j Hi Hj)) as (D1 & D2 & D3 & D4). cbv zeta in *. set (A := rsum k (fun i => (Rabs (x i) + e i) * Rabs (val (W i j)))) in *.
    change (fsum F k (fun i => fmul F (X i) (W i j))) with (fsum F k (fun i => b32_mul (X i) (W i j))). change (fadd F) with b32_add. set (s := fsum F k (fun i => b32_mul (X i) (W i j))) in *.
    set (S0 := rsum k (fun i => val (X i) * val (W i j))) in *. pose proof (Rabs_pos (val (b j))) as B0. assert (A0 : 0 <= A) by (pose proof (Rabs_pos S0); lra).
    destruct D4 as [Fs Es]. { eapply Rle_lt_trans; [|exact Sm]. apply mag_mono; try lia; lra. }
    assert (Fo : fin (b32_add s (b j))).
    { apply add_small; auto. eapply Rle_lt_trans; [|exact Sm]. assert (M1 : Rabs (val s) <= dotMag k A) by (eapply mag_of; eauto). pose proof (Rabs_triang (val s) (val (b j))) as T1.
      unfold dotMag in *. rewrite S_INR. pose proof u_pos. pose proof eta_pos. pose proof (pow_u k) as Wp. pose proof (pos_INR k). set (w := (1 + u32) ^ k) in *.
      replace ((1 + u32) ^ (S k + 1)) with ((1 + u32) * ((1 + u32) * w)) by (unfold w; rewrite pow_add; simpl; ring). replace ((1 + u32) ^ (S k)) with ((1 + u32) * w) by (unfold w; simpl; ring). replace ((1 + u32) ^ (k + 1)) with ((1 + u32) * w) in M1 by (unfold w; rewrite pow_add; simpl; ring).
      set (r := Rabs (val (b j))) in *. assert (1 * r <= (1 + u32) * w * r) by (apply Rmult_le_compat_r; auto; nra). assert (0 <= w * eta32) by (apply Rmult_le_pos; lra).
      apply Rle_trans with ((1 + u32) * (((1 + u32) * w) * (A + r) + (INR k + 1) * w * eta32)); [apply Rmult_le_compat_l; lra|]. lra. }
    split; auto. destruct (add_fin _ _ Fo) as (_ & _ & Eo).
    assert (E2 : Rabs (val (b32_add s (b j)) - (S0 + val (b j))) <= dotErr (S k) (A + Rabs (val (b j)))).
    { unfold dotErr. rewrite <- Nat.add_1_r. eapply step_bound with (s := val s) (p := val (b j)); [apply Rlt_le, u_pos|apply Rlt_le, eta_pos|exact Es|exact D2| |rewrite Eo; apply plus_err].
      rewrite Rminus_diag_eq by auto. rewrite Rabs_R0. pose proof u_pos. pose proof eta_pos. assert (0 <= u32 * Rabs (val (b j))) by (apply Rmult_le_pos; lra). lra. }
    set (Sx := rsum k (fun i => x i * val (W i j))) in *. pose proof (Rabs_triang (val (b32_add s (b j)) - (S0 + val (b j))) (S0 - Sx)) as U.
    replace (val (b32_add s (b j)) - (S0 + val (b j)) + (S0 - Sx)) with (val (b32_add s (b j)) - (Sx + val (b j))) in U by ring. lra.
  - destruct Sm as (-> & -> & _ & FW & Sm). specialize (Sm j Hj). destruct (dot_close k X x e (fun i => W i j) Cl (fun i Hi => FW i j Hi Hj)) as (D1 & D2 & D3 & D4). cbv zeta in *. destruct (D4 Sm) as [Fs Es]. split; auto.
    change (fsum F k (fun i => fmul F (X i) (W i j))) with (fsum F k (fun i => b32_mul (X i) (W i j))). set (s := fsum F k (fun i => b32_mul (X i) (W i j))) in *. set (S0 := rsum k (fun i => val (X i) * val (W i j))) in *. set (Sx := rsum k (fun i => x i * val (W i j))) in *.
    pose proof (Rabs_triang (val s - S0) (S0 - Sx)) as U. replace (val s - S0 + (S0 - Sx)) with (val s - Sx) in U by ring. lra.
  - subst m. destruct (Cl j Hj) as [Fx Ex]. cbn [act_apply]. change (flt F (f0 F) (X j)) with (b32_lt (B754_zero false) (X j)). unfold b32_lt. rewrite Bcompare_correct by (auto; reflexivity). change (B2R (B754_zero false)) with 0.
    fold (val (X j)). unfold Rmax. destruct (Rcompare_spec 0 (val (X j))) as [C|C|C]; destruct (Rle_dec 0 (x j)); (split; [auto; reflexivity|]); try exact Ex; change (val (f0 F)) with 0; apply Rabs_le; apply Rabs_le_inv in Ex; lra.
Qed.
Lemma all_close : forall us X x e k m, small us x e k m -> close k X x e -> close m (appAll F (fun v => v) us X) (exact us x) (errOf us x e).
Proof.
  induction us as [|s r IH]; intros X x e k m Sm Cl; cbn [small appAll exact errOf] in *; [subst; auto|]. destruct Sm as (j & S1 & S2). eapply IH; eauto. eapply unit_close; eauto.
Qed.
Lemma small_widths : forall us x e k m, small us x e k m -> widths us k m.
Proof.
  induction us as [|s r IH]; intros x e k m Sm; cbn [small widths] in *; auto. destruct Sm as (j & S1 & S2). exists j. split; [|eapply IH; eauto]. destruct s; cbn [small1 width1] in *; tauto.
Qed.
Theorem predict_close : forall jk rs rsR (h : heap F) (hR : heap (ROps jk)) n us nb k m (X : nat -> nat -> b32),
  us <> [] -> holdsAll F (fun v => v) h (nlay n) us -> holdsAll (ROps jk) val hR (nlay n) us -> (0 < nb)%nat ->
  (forall i j, (i < nb)%nat -> (j < k)%nat -> fin (X i j)) -> (forall i, (i < nb)%nat -> small us (fun j => val (X i j)) (fun _ => 0) k m) ->
  exists Z ZR, predict F rs h n (mgen nb k X) (mempty F) = Ok (h, mgen nb m Z) /\ predict (ROps jk) rsR hR n (mgen nb k (fun i j => val (X i j))) (mempty (ROps jk)) = Ok (hR, mgen nb m ZR) /\
  forall i j, (i < nb)%nat -> (j < m)%nat -> fin (Z i j) /\ ZR i j = exact us (fun j => val (X i j)) j /\ Rabs (val (Z i j) - ZR i j) <= errOf us (fun j => val (X i j)) (fun _ => 0) j.
Proof.
  intros jk rs rsR h hR n us nb k m X N H HR Nb FX Sm. pose proof (small_widths _ _ _ _ _ (Sm 0%nat Nb)) as Wd.
  exists (fun i => appAll F (fun v => v) us (X i)), (fun i => appAll (ROps jk) val us (fun j => val (X i j))). split; [apply predict_units; auto|]. split; [apply (predict_units (ROps jk) val); auto|].
  intros i j Hi Hj. destruct (all_close us (X i) (fun j => val (X i j)) (fun _ => 0) k m (Sm i Hi)) with (i := j) as [Fz Ez]; auto.
  { intros q Hq. split; auto. rewrite Rminus_diag_eq by auto. rewrite Rabs_R0. lra. }
  split; auto. rewrite (exact_app jk us _ (fun j => val (X i j))) by auto. auto.
Qed.
End Float.
