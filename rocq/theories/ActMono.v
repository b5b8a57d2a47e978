(* ActMono.v - monotone activations, and the registry of activations *)
From Coq Require Import Reals List Lra Lia ZArith String Bool.
From Coquelicot Require Import Coquelicot.
From Verif Require Import Scalar SpecReal RDeriv Loss Act SpecAct ActDeriv ActDeriv2 ActDeriv3 ActDeriv4 ActProofs.
Import ListNotations.
Local Open Scope R_scope.

Lemma actKind_dec : forall a b : actKind, {a = b} + {a <> b}.
Proof. decide equality. Defined.

Lemma mono_deriv : forall (f f' : R -> R), (forall x, is_derive f x (f' x)) -> (forall x, 0 <= f' x) ->
  forall x y, x <= y -> f x <= f y.
Proof.
  intros f f' D P x y H.
  destruct (MVT_gen f x y f') as [c [Hc E]].
  - intros; apply D.
  - intros z _. apply derivable_continuous_pt. exists (f' z). apply is_derive_Reals, D.
  - pose proof (P c). nra.
Qed.

Lemma mono_smooth : forall jk k, ~ odd_derivative k -> corners k = [] -> (forall x, 0 <= act_deriv (ROps jk) k x) ->
  forall x y, x <= y -> act_apply (ROps jk) k x <= act_apply (ROps jk) k y.
Proof.
  intros jk k Hk C P. apply (mono_deriv (act_apply (ROps jk) k) (act_deriv (ROps jk) k)); auto.
  intros z. apply act_derivative; auto. rewrite C. auto.
Qed.

Lemma div_nonneg : forall a b, 0 <= a -> 0 < b -> 0 <= a / b.
Proof. intros. apply Rmult_le_pos; auto. left. apply Rinv_0_lt_compat. auto. Qed.

Ltac sm := apply mono_smooth; auto; [unfold odd_derivative; cbn [In]; intros QQ; repeat (destruct QQ as [QQ|QQ]; [discriminate QQ|]); exact QQ | let z := fresh "z" in intro z; pose proof (exp_pos z); pose proof (exp_pos (- z)); act ].

Lemma swish_mono_pos : forall x y, 0 <= x <= y -> x / (1 + exp (- x)) <= y / (1 + exp (- y)).
Proof.
  intros x y H. pose proof (exp_pos (- x)). pose proof (exp_pos (- y)).
  assert (exp (- y) <= exp (- x)) by (destruct (Req_dec x y); [subst; lra | left; apply exp_increasing; lra]).
  unfold Rdiv. apply Rmult_le_compat; try lra. left; apply Rinv_0_lt_compat; lra. apply Rinv_le_contravar; lra.
Qed.

Lemma act_monotone : forall jk k, In k monotone_kinds -> forall x y, x <= y ->
  act_apply (ROps jk) k x <= act_apply (ROps jk) k y.
Proof.
  intros jk k Hk.
  assert (M : existsb (fun a => if actKind_dec k a then true else false) monotone_kinds = true).
  { apply existsb_exists. exists k. split; auto. destruct (actKind_dec k k); auto. }
  clear Hk. destruct k; try (exfalso; vm_compute in M; discriminate M); clear M.
  (* the ones with corners *)
  all: try (intros x y Hxy; act; br; lra).
  - (* Asinh *) sm. apply div_nonneg; [lra|]. apply sqrt_lt_R0. nra.
  - sm. apply div_nonneg; nra.
  - (* Bent *) sm. assert (P : 0 < z * z + 1) by nra. pose proof (sqrt_lt_R0 _ P).
    assert (Q : sqrt (z * z + 1) * sqrt (z * z + 1) = z * z + 1) by (apply sqrt_sqrt; lra).
    assert (-1 < z / (2 / 1 * sqrt (z * z + 1)) < 1) by (apply frac_bounds; nra). lra.
  - sm. apply div_nonneg; nra.
  - (* CELU *) sm. unfold Rleb. destruct (Rle_dec 0 z); [lra|]. left; apply exp_pos.
  - sm. left; apply exp_pos.
  - (* Elliot *) sm. pose proof (Rabs_pos z). apply div_nonneg; nra.
  - (* ELU *) sm. br; lra.
  - sm. lra.
  - (* E2RU *) sm. unfold Rleb. destruct (Rle_dec 0 z).
    + apply div_nonneg; [lra|]. apply sqrt_lt_R0. nra.
    + pose proof (exp_pos (2 / 1 * z)). lra.
  - (* E3RU *) sm. unfold Rleb. destruct (Rle_dec 0 z).
    + rewrite Rpow_pos by lra. pose proof (Rpower_gt_0 (3 / 1 * (3 / 1) * z + 1) (- (2 / 1) / (3 / 1))). lra.
    + pose proof (exp_pos (3 / 1 * z)). lra.
  - (* FTS *) intros x y H; act; unfold Rltb. destruct (Rlt_dec x 0), (Rlt_dec y 0); try lra.
    + pose proof (exp_pos (- y)). assert (0 <= y / (1 + exp (- y))) by (apply div_nonneg; lra). lra.
    + pose proof (swish_mono_pos x y ltac:(lra)). lra.
  - intros x y H; act; unfold Rltb. destruct (Rlt_dec x 0), (Rlt_dec y 0); try lra.
    + pose proof (exp_pos (- y)). assert (0 <= y / (1 + exp (- y))) by (apply div_nonneg; lra). lra.
    + pose proof (swish_mono_pos x y ltac:(lra)). lra.
  - (* ISRLU *) sm. unfold Rleb. destruct (Rle_dec 0 z); [lra|]. assert (P : 0 < 1 + 1 * z * z) by nra. pose proof (sqrt_lt_R0 _ P).
    assert (0 <= 1 / sqrt (1 + 1 * z * z)) by (apply div_nonneg; lra). apply Rmult_le_pos; [apply Rmult_le_pos|]; assumption.
  - (* LecunTanh *) sm. pose proof (Rcosh_pos (z * (666666 / 1000000))). apply div_nonneg; nra.
  - sm. apply div_nonneg; lra.
  - (* NLRelu *) intros x y H; act; unfold Rltb. destruct (Rlt_dec 0 x), (Rlt_dec 0 y); try lra.
    + destruct (Req_dec x y); [subst; lra|]. left. apply ln_increasing; lra.
    + left. apply ln_pos. lra.
  - (* O2RU *) sm. unfold Rleb. destruct (Rle_dec 0 z); (apply div_nonneg; [lra|]; apply sqrt_lt_R0; nra).
  - (* O3RU *) sm. unfold Rleb. destruct (Rle_dec 0 z); rewrite Rpow_pos by lra.
    + pose proof (Rpower_gt_0 (3 / 1 * (3 / 1) * z + 1) (- (2 / 1) / (3 / 1))). lra.
    + pose proof (Rpower_gt_0 (- (3 / 1) * (3 / 1) * z + 1) (- (2 / 1) / (3 / 1))). lra.
  - sm. br; lra.
  - sm. br; lra.
  - sm. br; lra.
  - (* Selu *) intros x y H; act; unfold Rleb. pose proof (exp_pos x).
    destruct (Rle_dec 0 x), (Rle_dec 0 y); try lra.
    + pose proof (exp_neg_lt_1 x ltac:(lra)). lra.
    + assert (exp x <= exp y) by (destruct (Req_dec x y); [subst; lra | left; apply exp_increasing; lra]). lra.
  - sm. apply div_nonneg; lra.
  - (* SoftSign *) sm. pose proof (Rabs_pos z). apply div_nonneg; nra.
  - (* SoftSteps *)
    intros x y. 
    apply (mono_deriv (act_apply (ROps jk) ASoftSteps) (fun x => 1 - cos (x * (6283185307 / 1000000000)) * (6283185307 / 1000000000) * (159154943 / 1000000000))).
    + intro z. act. der. fld.
    + intro z. pose proof (COS_bound (z * (6283185307 / 1000000000))). lra.
  - sm. br; lra.
  - sm. assert (0 < 1 / (1 + exp (- z)) < 1) by (apply frac01; lra). nra.
  - sm. pose proof (Rtanh_bound z). nra.
  - sm. nra.
Qed.

(** registry *)
Definition memS (s : string) (l : list string) : bool := existsb (String.eqb s) l.
Lemma memS_In : forall s l, memS s l = true <-> In s l.
Proof.
  intros. unfold memS. rewrite existsb_exists. split.
  - intros [x [H E]]. apply String.eqb_eq in E. subst. auto.
  - intros H. exists s. rewrite String.eqb_refl. auto.
Qed.
Fixpoint nodupS (l : list string) : bool := match l with [] => true | s :: t => negb (memS s t) && nodupS t end.
Lemma nodupS_ok : forall l, nodupS l = true -> NoDup l.
Proof.
  induction l; simpl; intros H; constructor; apply andb_true_iff in H; destruct H as [H1 H2]; auto.
  intro C. apply memS_In in C. rewrite C in H1. discriminate.
Qed.

Lemma activations_listed : forall s, In s list_activations_available -> exists k, get_activation s = Some k /\ act_name k = s.
Proof.
  assert (B : forallb (fun s => match get_activation s with Some k => String.eqb (act_name k) s | None => false end) list_activations_available = true)
    by (vm_compute; reflexivity).
  intros s H. rewrite forallb_forall in B. specialize (B s H).
  destruct (get_activation s) as [k|]; [|discriminate]. exists k. apply String.eqb_eq in B. auto.
Qed.
Lemma activations_complete : forall k, In (act_name k) list_activations_available /\ get_activation (act_name k) = Some k.
Proof. intro k. split; [apply memS_In|]; destruct k; vm_compute; reflexivity. Qed.
Lemma activations_unknown : forall s, ~ In s list_activations_available -> get_activation s = None.
Proof.
  intros s H.
  assert (N : forall x, memS x list_activations_available = true -> String.eqb s x = false).
  { intros x Hx. destruct (String.eqb_spec s x); auto. exfalso. apply H. apply memS_In. subst. auto. }
  unfold get_activation.
  repeat (rewrite N by (vm_compute; reflexivity)). reflexivity.
Qed.
Lemma activations_nodup : NoDup list_activations_available.
Proof. apply nodupS_ok. vm_compute. reflexivity. Qed.

(** registry of the losses *)
Lemma losses_listed : forall s, In s list_loss_available -> exists k, create_loss s = Some k /\ loss_name k = s.
Proof.
  assert (B : forallb (fun s => match create_loss s with Some k => String.eqb (loss_name k) s | None => false end) list_loss_available = true)
    by (vm_compute; reflexivity).
  intros s H. rewrite forallb_forall in B. specialize (B s H).
  destruct (create_loss s) as [k|]; [|discriminate]. exists k. apply String.eqb_eq in B. auto.
Qed.
Lemma losses_complete : forall k, In (loss_name k) list_loss_available /\ create_loss (loss_name k) = Some k.
Proof. intro k. split; [apply memS_In|]; destruct k; vm_compute; reflexivity. Qed.
Lemma losses_unknown : forall s, ~ In s list_loss_available -> create_loss s = None.
Proof.
  intros s H.
  assert (N : forall x, memS x list_loss_available = true -> String.eqb s x = false).
  { intros x Hx. destruct (String.eqb_spec s x); auto. exfalso. apply H. apply memS_In. subst. auto. }
  unfold create_loss.
  repeat (rewrite N by (vm_compute; reflexivity)). reflexivity.
Qed.
