(* Class1.v - a last layer that keeps the order of the outputs does not change the chosen classes *)
From Coq Require Import String List Arith Bool Lia ZArith QArith Reals Lra.
From Flocq Require Import Core IEEE754.BinarySingleNaN.
From Verif Require Import Base Scalar Mat SpecMat SpecReal RSum MatFacts MatProofs Act LayMat LayImg Layer Net SpecNet NetRow NetProofs1 LayProofs2 LayProofs7 NetProofs4 Fold1 Sym2 SpecAct ActStrict SpecClass.
Import ListNotations.
Local Open Scope nat_scope.

(* the index of the first maximum depends on the order of the values only *)
Lemma argmax_order : forall (F : FOps) n (g g' : nat -> F), (forall i j, i < n -> j < n -> flt F (g i) (g j) = flt F (g' i) (g' j)) -> 0 < n -> argmaxPure F n g = argmaxPure F n g'.
Proof.
  intros F n g g' H Hn. unfold argmaxPure.
  assert (G : forall l k, k < n -> (forall i, In i l -> i < n) ->
    snd (fold_left (fun q i => let '(d, k) := q in if flt F d (g i) then (g i, i) else (d, k)) l (g k, k)) = snd (fold_left (fun q i => let '(d, k) := q in if flt F d (g' i) then (g' i, i) else (d, k)) l (g' k, k))).
  { induction l as [|i l IH]; intros k Hk Hl; [reflexivity|]. cbn [fold_left]. rewrite H by (auto; apply Hl; left; reflexivity).
    assert (Hi : i < n) by (apply Hl; left; reflexivity). assert (Hr : forall j, In j l -> j < n) by (intros; apply Hl; right; assumption). destruct (flt F (g' k) (g' i)); apply IH; assumption. }
  apply G; auto. intros i Hi. apply in_seq in Hi. (clear - Hi Hn; lia).
Qed.
Lemma keep_classes : forall (F : FOps) (h : heap F) n n' pre a l k m, detNet F h n k m -> 2 <= m -> nlay n = pre ++ [a] -> nlay n' = pre -> pre <> [] -> hget F h a = Ok l ->
  (forall x i j, i < m -> j < m -> flt F (rowFun F l m x i) (rowFun F l m x j) = flt F (x i) (x j)) -> (forall p, detLayer F l p m -> p = m) -> detNet F h n' k m /\ sameClasses h n n' k.
Proof.
  intros F h n n' pre a l k m (Hne & Hd & Hc) Hm E1 E2 Hp Ha Ho Hs. apply chainRow_det in Hc. destruct Hc as [g Hc]. pose proof Hc as C. rewrite E1 in C. apply chain_app in C.
  destruct C as (p & ga & gr & Ca & (y & d & g' & A & D & E3 & -> & ->) & Eg). rewrite Ha in A. injection A; intros <-. rewrite (Hs p D) in *. subst gr g.
  assert (Hd' : NoDup (nlay n')). { rewrite E2. rewrite E1 in Hd. rewrite <- (app_nil_r pre). apply NoDup_remove_1 with (a := a). exact Hd. }
  assert (Hne' : nlay n' <> []) by (rewrite E2; exact Hp). rewrite <- E2 in Ca. split; [split; auto; split; auto; apply chainRow_det; eauto|].
  intros rs rs' N X c c' W1 W2. destruct (predict_row F rs h n k m _ N X (mempty F) Hne Hd Hc) as (h1 & Q1 & _); [reflexivity|]. destruct (predict_row F rs' h n' k m ga N X (mempty F) Hne' Hd' Ca) as (h2 & Q2 & _); [reflexivity|].
  exists h1, h2, (mgen N 1 (fun i _ => fofN F (argmaxPure F m (ga (X i))))). unfold predictClasses. rewrite Q1, Q2. cbn [bind]. change (mcols (mgen N m (fun i => ga (X i)))) with m. change (mcols (mgen N m (fun i => rowFun F l m (ga (X i))))) with m.
  replace (m =? 1) with false by (symmetry; apply Nat.eqb_neq; (clear - Hm; lia)). cbn [negb]. rewrite !rowsArgmax_gen by (auto; (clear - Hm; lia)). cbn [bind]. split; [|reflexivity].
  f_equal. f_equal. apply mgen_ext. intros i j Hi Hj. f_equal. apply argmax_order; [intros; apply Ho; auto|(clear - Hm; lia)].
Qed.

Section Reals.
Variable jk : R.
Notation F := (ROps jk).
Lemma ltb_strict : forall (f : R -> R) x y, (forall x y, x < y -> f x < f y)%R -> Rltb (f x) (f y) = Rltb x y.
Proof. intros f x y H. unfold Rltb. destruct (Rlt_dec x y), (Rlt_dec (f x) (f y)); auto. exfalso; auto. exfalso. destruct (Rtotal_order x y) as [L|[->|L]]; [auto|lra|apply H in L; lra]. Qed.
Lemma ordered_row : forall (l : layer F) m x i j, ordered l -> i < m -> j < m -> Rltb (rowFun F l m x i) (rowFun F l m x j) = Rltb (x i) (x j).
Proof.
  intros l m x i j Ho Hi Hj. unfold ordered in Ho. unfold rowFun. destruct (lk l) eqn:K; try (exfalso; exact Ho).
  - destruct Ho as (g & -> & Hg). unfold cell. rewrite cellD_gen. cbn [andb Nat.ltb Nat.leb]. apply (ltb_strict (fun v => v * g)%R). intros u v Huv. apply Rmult_lt_compat_r; [exact Hg|exact Huv].
  - apply (ltb_strict (fun v => v + cell F (lb l) 0 0)%R). intros u v Huv. apply Rplus_lt_compat_r. exact Huv.
  - match goal with o : option actKind |- _ => destruct o as [a|] end; [|exfalso; exact Ho]. apply (ltb_strict (act_apply F a)). intros u v. apply act_strict; auto.
  - unfold softF. rewrite fsum_R. set (S := rsum m (expF F m x)). assert (P : (0 < S)%R) by (apply rsum_pos; [(clear - Hi; lia)|intros; apply exp_pos]).
    apply (ltb_strict (fun v => exp (v - maxF F m x) / S)%R). intros u v Huv. unfold Rdiv. apply Rmult_lt_compat_r; [apply Rinv_0_lt_compat; auto|]. apply exp_increasing. apply Rplus_lt_compat_r. exact Huv.
Qed.
(* leaving out such a last layer *)
Theorem same_classes : forall (h : heap F) n n' pre a l k m, detNet F h n k m -> 2 <= m -> nlay n = pre ++ [a] -> nlay n' = pre -> pre <> [] -> hget F h a = Ok l -> ordered l -> detNet F h n' k m /\ sameClasses h n n' k.
Proof.
  intros h n n' pre a l k m Hn Hm E1 E2 Hp Ha Ho. apply (keep_classes F h n n' pre a l k m); auto.
  - intros x i j Hi Hj. apply ordered_row; auto.
  - intros p D. unfold detLayer in D. unfold ordered in Ho. destruct (lk l); try (exfalso; exact Ho); destruct D; congruence.
Qed.
(* Dense(2,3) followed by Softmax *)
Definition clHeap (W B : nat -> nat -> R) : heap F := [Some (syDense jk 2 3 W B); Some (layBase F KSoftmax "" ""); Some (layBase F (KAct (Some ASigmoid)) "" "")].
Lemma classes_case : forall W B, detNet F (clHeap W B) (mkNet [0] true false) 2 3 /\ sameClasses (clHeap W B) (mkNet [0; 1] true false) (mkNet [0] true false) 2 /\ sameClasses (clHeap W B) (mkNet [0; 2] true false) (mkNet [0] true false) 2.
Proof.
  intros W B. rewrite <- and_assoc. split.
  - eapply (same_classes (clHeap W B) (mkNet [0; 1] true false) (mkNet [0] true false) [0] 1 _ 2 3); [|lia|reflexivity|reflexivity|discriminate|reflexivity|exact I].
    split; [discriminate|]. split; [repeat constructor; cbn; intuition discriminate|]. eexists. exists 3. split; [reflexivity|]. split; [split; apply shaped_mgen|]. eexists. exists 3. split; [reflexivity|]. split; [split; [reflexivity|lia]|reflexivity].
  - eapply (same_classes (clHeap W B) (mkNet [0; 2] true false) (mkNet [0] true false) [0] 2 _ 2 3); [|lia|reflexivity|reflexivity|discriminate|reflexivity|cbn; repeat (first [left; reflexivity|right])].
    split; [discriminate|]. split; [repeat constructor; cbn; intuition discriminate|]. eexists. exists 3. split; [reflexivity|]. split; [split; apply shaped_mgen|]. eexists. exists 3. split; [reflexivity|]. split; [split; [reflexivity|discriminate]|reflexivity].
Qed.
(* any other monotone activation as the last layer may change a class *)
Definition flHeap (a : actKind) : heap F := [Some (layBase F (KAct (Some AIdentity)) "" ""); Some (layBase F (KAct (Some a)) "" "")].
Theorem flat_changes : forall a, In a monotone_kinds -> ~ In a strict_kinds -> detNet F (flHeap a) (mkNet [0; 1] true false) 2 2 /\ ~ sameClasses (flHeap a) (mkNet [0; 1] true false) (mkNet [0] true false) 2.
Proof.
  intros a Ha Hn. destruct (act_flat jk a Ha Hn) as (x & y & L & E).
  assert (C0 : chainRow F (flHeap a) [0] 2 2 (fun x => rowFun F (layBase F (KAct (Some AIdentity)) "" "") 2 x)). { eexists. exists 2, (fun x => x). split; [reflexivity|]. split; [split; [reflexivity|discriminate]|]. split; [reflexivity|split; reflexivity]. }
  assert (C1 : chainRow F (flHeap a) [1] 2 2 (fun x => rowFun F (layBase F (KAct (Some a)) "" "") 2 x)). { eexists. exists 2, (fun x => x). split; [reflexivity|]. split; [split; [reflexivity|discriminate]|]. split; [reflexivity|split; reflexivity]. }
  assert (C : chainRow F (flHeap a) [0; 1] 2 2 (fun x => rowFun F (layBase F (KAct (Some a)) "" "") 2 (rowFun F (layBase F (KAct (Some AIdentity)) "" "") 2 x))) by exact (app_chain F (flHeap a) [0] [1] 2 2 2 _ _ C0 C1).
  assert (D2 : NoDup [0; 1]) by (repeat constructor; cbn; intuition discriminate). assert (D1 : NoDup [0]) by (repeat constructor; cbn; intuition discriminate).
  split; [split; [discriminate|split; [exact D2|apply chainRow_det; eauto]]|]. intro H.
  set (rs := fun _ : nat => mkRnd F (fun _ => 0%R) (fun _ => 0%Z)). set (X := fun _ j : nat => match j with 0 => x | _ => y end).
  destruct (H rs rs 1 X (mempty F) (mempty F) eq_refl eq_refl) as (h1 & h2 & c & Q1 & Q2).
  destruct (predict_row F rs (flHeap a) (mkNet [0; 1] true false) 2 2 _ 1 X (mempty F) ltac:(discriminate) D2 C eq_refl) as (h3 & P1 & _).
  destruct (predict_row F rs (flHeap a) (mkNet [0] true false) 2 2 _ 1 X (mempty F) ltac:(discriminate) D1 C0 eq_refl) as (h4 & P2 & _).
  unfold predictClasses in Q1, Q2. rewrite P1 in Q1. rewrite P2 in Q2. cbn [bind mcols mgen Nat.eqb negb] in Q1, Q2. rewrite rowsArgmax_gen in Q1, Q2 by (auto; reflexivity). cbn [bind] in Q1, Q2.
  assert (Z : mgen 1 1 (fun i _ => fofN F (argmaxPure F 2 (rowFun F (layBase F (KAct (Some AIdentity)) "" "") 2 (X i)))) = mgen 1 1 (fun i _ => fofN F (argmaxPure F 2 (rowFun F (layBase F (KAct (Some a)) "" "") 2 (rowFun F (layBase F (KAct (Some AIdentity)) "" "") 2 (X i)))))) by congruence.
  apply (mgen_inj _ _ _ _ _ 0 0) in Z; [|auto|auto].
  assert (A1 : argmaxPure F 2 (rowFun F (layBase F (KAct (Some AIdentity)) "" "") 2 (X 0)) = 1). { unfold argmaxPure. cbn [seq Nat.sub fold_left]. change (snd (if Rltb x y then (y, 1) else (x, 0)) = 1). unfold Rltb. destruct (Rlt_dec x y); [reflexivity|contradiction]. }
  assert (A0 : argmaxPure F 2 (rowFun F (layBase F (KAct (Some a)) "" "") 2 (rowFun F (layBase F (KAct (Some AIdentity)) "" "") 2 (X 0))) = 0). { unfold argmaxPure. cbn [seq Nat.sub fold_left]. change (snd (if Rltb (act_apply F a x) (act_apply F a y) then (act_apply F a y, 1) else (act_apply F a x, 0)) = 0). rewrite E. unfold Rltb. destruct (Rlt_dec (act_apply F a y) (act_apply F a y)) as [B|B]; [exfalso; exact (Rlt_irrefl _ B)|reflexivity]. }
  cbv beta in Z. rewrite A0, A1 in Z. unfold fofN in Z. change (1%R = 0%R) in Z. lra.
Qed.
End Reals.

(* a last layer that is not strictly increasing, computed; and a single output *)
Definition actQ (a : actKind) : layer QOps := layWith (KAct (Some a)) (mempty QOps) (mempty QOps).
Definition loHeap : heap QOps := [Some (actQ AIdentity); Some (actQ ARelu); Some (actQ ADivideBy256)].
Definition loClass (ls : list nat) (x : mat QOps) : option (list Q) := match predictClasses QOps (fun _ => noRnd) loHeap (mkNet ls true false) x (mempty QOps) with Ok (_, c) => Some (map Qred (mdata c)) | Err _ => None end.
Theorem relu_refuted : exists x, loClass [0] x = Some [1%Q] /\ loClass [0; 1] x = Some [0%Q].
Proof. exists (mlist 1 2 [(-2)%Q; (-1)%Q]). split; vm_compute; reflexivity. Qed.
Theorem single_refuted : exists x, loClass [0] x = Some [2%Q] /\ loClass [0; 2] x <> loClass [0] x.
Proof. exists (mlist 1 1 [2%Q]). split; [vm_compute; reflexivity|]. vm_compute. discriminate. Qed.

Section P.
Variables (lm : libm -> b32 -> b32) (pw : b32 -> b32 -> b32) (jk : b32).
Notation F := (B32Ops lm pw jk).
Definition small : b32 := fdiv F (b32_of_Z 1) (b32_of_Z (2 ^ 40)).
Definition smHeap : heap F := [Some (layBase F (KAct (Some AIdentity)) "" ""); Some (layBase F KSoftmax "" "")].
Definition smIn : nat -> nat -> F := fun _ j => match j with 0 => b32_of_Z 0 | _ => small end.
(* the outputs 0 and 2^-40: when the exponential of 0 and of -2^-40 are both 1, as correct rounding requires, Softmax makes them equal *)
Theorem softmax_float_refuted : lm Lexp (fsub F (b32_of_Z 0) small) = b32_of_Z 1 -> lm Lexp (fsub F small small) = b32_of_Z 1 ->
  forall rs, exists h1 h2, predictClasses F rs smHeap (mkNet [0] true false) (mgen 1 2 smIn) (mempty F) = Ok (h1, mgen 1 1 (fun _ _ => fofN F 1)) /\
  predictClasses F rs smHeap (mkNet [0; 1] true false) (mgen 1 2 smIn) (mempty F) = Ok (h2, mgen 1 1 (fun _ _ => fofN F 0)).
Proof.
  intros H1 H2 rs. assert (L : flt F (b32_of_Z 0) small = true) by (vm_compute; reflexivity). assert (L' : flt F (fdiv F (b32_of_Z 1) (fsum F 2 (fun _ => b32_of_Z 1))) (fdiv F (b32_of_Z 1) (fsum F 2 (fun _ => b32_of_Z 1))) = false) by (vm_compute; reflexivity).
  assert (C0 : chainRow F smHeap [0] 2 2 (fun x => rowFun F (layBase F (KAct (Some AIdentity)) "" "") 2 x)). { eexists. exists 2, (fun x => x). split; [reflexivity|]. split; [split; [reflexivity|discriminate]|]. split; [reflexivity|split; reflexivity]. }
  assert (C1 : chainRow F smHeap [1] 2 2 (fun x => rowFun F (layBase F KSoftmax "" "") 2 x)). { eexists. exists 2, (fun x => x). split; [reflexivity|]. split; [split; [reflexivity|lia]|]. split; [reflexivity|split; reflexivity]. }
  destruct (predict_row F rs smHeap (mkNet [0] true false) 2 2 _ 1 smIn (mempty F) ltac:(discriminate) ltac:(repeat constructor; cbn; intuition discriminate) C0 eq_refl) as (h1 & Q1 & _).
  destruct (predict_row F rs smHeap (mkNet [0; 1] true false) 2 2 _ 1 smIn (mempty F) ltac:(discriminate) ltac:(repeat constructor; cbn; intuition discriminate) (app_chain F smHeap [0] [1] 2 2 2 _ _ C0 C1) eq_refl) as (h2 & Q2 & _).
  exists h1, h2. unfold predictClasses. rewrite Q1, Q2. cbn [bind mcols mgen Nat.eqb negb]. rewrite !rowsArgmax_gen by (auto; reflexivity). cbn [bind]. split; f_equal; f_equal; apply mgen_ext; intros i j _ _; f_equal.
    assert (M : maxF F 2 (fun j => smIn i j) = small). { unfold maxF. cbn [seq Nat.sub fold_left smIn]. rewrite L. reflexivity. }
    change (argmaxPure F 2 (softF F 2 (fun j => smIn i j)) = 0). assert (E : forall j, j < 2 -> expF F 2 (fun j => smIn i j) j = b32_of_Z 1). { intros j0 Hj. unfold expF. rewrite M. destruct j0 as [|[|j0]]; [exact H1|exact H2|(clear - Hj; lia)]. }
    assert (S : fsum F 2 (expF F 2 (fun j => smIn i j)) = fsum F 2 (fun _ => b32_of_Z 1)). { unfold fsum. cbn [seq fold_left]. rewrite !E by (clear; lia). reflexivity. }
    unfold argmaxPure. cbn [seq Nat.sub fold_left]. unfold softF. rewrite S, !E by (clear; lia). rewrite L'. reflexivity.
Qed.
End P.
