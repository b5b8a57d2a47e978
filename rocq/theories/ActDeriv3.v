(* ActDeriv3.v - activations with corners or jumps: the derivative away from them, none at them *)
From Coq Require Import Reals List Lra Lia ZArith.
From Coquelicot Require Import Coquelicot.
From Verif Require Import Scalar SpecReal RDeriv Act SpecAct ActDeriv ActDeriv2.
Import ListNotations.
Local Open Scope R_scope.

Ltac exp0 := rewrite ?Rplus_0_r, ?Ropp_0, ?exp_0, ?ln_1.
Ltac fin := exp0; first [reflexivity | lra | match goal with |- ?a = ?b => change (@eq R a b) end; field; nz].
(* value of a piece at a join *)
Ltac atp a := intros; act; br; try reflexivity; try lra; try (field; nz);
  match goal with x : R |- _ => replace x with a by lra end; fin.

Lemma d_Absolute : forall jk x, ~ In x (corners AAbsolute) -> goodAt jk AAbsolute x.
Proof.
  intros jk x; unfold goodAt; simpl; intro C. pose proof (exp_pos (- x)).
  destruct (Rtotal_order x (0)) as [L|[L|L]]; [|exfalso; apply C; left; lra|].
  - apply (is_derive_lt _ (fun x : R => - x) (0)); [lra|agree|]. der. act; br; fin.
  - apply (is_derive_gt _ (fun x : R => x) (0)); [lra|agree|]. der. act; br; fin.
Qed.
Lemma c_Absolute : forall jk x, In x (corners AAbsolute) -> ~ ex_derive (act_apply (ROps jk) AAbsolute) x.
Proof.
  intros jk y; simpl; intro C.
  pose proof (exp_pos (- (0))). assert (C0 : ~ ex_derive (act_apply (ROps jk) AAbsolute) (0)).
  { eapply (corner_not_derivable _ (fun x : R => - x) (fun x : R => x) (0) 1); [lra|atp (0)|atp (0)|auto_derive; nz; lra|auto_derive; nz; lra|exp0; lra]. }
  destruct C as [C|[]]; subst y; auto.
Qed.
Lemma d_BinaryStep : forall jk x, ~ In x (corners ABinaryStep) -> goodAt jk ABinaryStep x.
Proof.
  intros jk x; unfold goodAt; simpl; intro C. pose proof (exp_pos (- x)).
  destruct (Rtotal_order x (0)) as [L|[L|L]]; [|exfalso; apply C; left; lra|].
  - apply (is_derive_lt _ (fun x : R => 0) (0)); [lra|agree|]. der. act; br; fin.
  - apply (is_derive_gt _ (fun x : R => 1) (0)); [lra|agree|]. der. act; br; fin.
Qed.
Lemma c_BinaryStep : forall jk x, In x (corners ABinaryStep) -> ~ ex_derive (act_apply (ROps jk) ABinaryStep) x.
Proof.
  intros jk y; simpl; intro C.
  pose proof (exp_pos (- (0))). assert (C0 : ~ ex_derive (act_apply (ROps jk) ABinaryStep) (0)).
  { eapply (jump_right _ (fun x : R => 1) (0) 1); [lra|agree|auto_derive; auto|act; br; lra]. }
  destruct C as [C|[]]; subst y; auto.
Qed.
Lemma d_Bipolar : forall jk x, ~ In x (corners ABipolar) -> goodAt jk ABipolar x.
Proof.
  intros jk x; unfold goodAt; simpl; intro C. pose proof (exp_pos (- x)).
  destruct (Rtotal_order x (0)) as [L|[L|L]]; [|exfalso; apply C; left; lra|].
  - apply (is_derive_lt _ (fun x : R => -1) (0)); [lra|agree|]. der. act; br; fin.
  - apply (is_derive_gt _ (fun x : R => 1) (0)); [lra|agree|]. der. act; br; fin.
Qed.
Lemma c_Bipolar : forall jk x, In x (corners ABipolar) -> ~ ex_derive (act_apply (ROps jk) ABipolar) x.
Proof.
  intros jk y; simpl; intro C.
  pose proof (exp_pos (- (0))). assert (C0 : ~ ex_derive (act_apply (ROps jk) ABipolar) (0)).
  { eapply (jump_right _ (fun x : R => 1) (0) 1); [lra|agree|auto_derive; auto|act; br; lra]. }
  destruct C as [C|[]]; subst y; auto.
Qed.
Lemma d_FTS : forall jk x, ~ In x (corners AFTS) -> goodAt jk AFTS x.
Proof.
  intros jk x; unfold goodAt; simpl; intro C. pose proof (exp_pos (- x)).
  destruct (Rtotal_order x (0)) as [L|[L|L]]; [|exfalso; apply C; left; lra|].
  - apply (is_derive_lt _ (fun x : R => - (1 / 5)) (0)); [lra|agree|]. der. act; br; fin.
  - apply (is_derive_gt _ (fun x : R => x / (1 + exp (- x)) - 1 / 5) (0)); [lra|agree|]. der. act; br; fin.
Qed.
Lemma c_FTS : forall jk x, In x (corners AFTS) -> ~ ex_derive (act_apply (ROps jk) AFTS) x.
Proof.
  intros jk y; simpl; intro C.
  pose proof (exp_pos (- (0))). assert (C0 : ~ ex_derive (act_apply (ROps jk) AFTS) (0)).
  { eapply (corner_not_derivable _ (fun x : R => - (1 / 5)) (fun x : R => x / (1 + exp (- x)) - 1 / 5) (0) 1); [lra|atp (0)|atp (0)|auto_derive; nz; lra|auto_derive; nz; lra|exp0; lra]. }
  destruct C as [C|[]]; subst y; auto.
Qed.
Lemma d_FTSPlus : forall jk x, ~ In x (corners AFTSPlus) -> goodAt jk AFTSPlus x.
Proof.
  intros jk x; unfold goodAt; simpl; intro C. pose proof (exp_pos (- x)).
  destruct (Rtotal_order x (0)) as [L|[L|L]]; [|exfalso; apply C; left; lra|].
  - apply (is_derive_lt _ (fun x : R => - (1 / 4)) (0)); [lra|agree|]. der. act; br; fin.
  - apply (is_derive_gt _ (fun x : R => x / (1 + exp (- x)) - 1 / 4) (0)); [lra|agree|]. der. act; br; fin.
Qed.
Lemma c_FTSPlus : forall jk x, In x (corners AFTSPlus) -> ~ ex_derive (act_apply (ROps jk) AFTSPlus) x.
Proof.
  intros jk y; simpl; intro C.
  pose proof (exp_pos (- (0))). assert (C0 : ~ ex_derive (act_apply (ROps jk) AFTSPlus) (0)).
  { eapply (corner_not_derivable _ (fun x : R => - (1 / 4)) (fun x : R => x / (1 + exp (- x)) - 1 / 4) (0) 1); [lra|atp (0)|atp (0)|auto_derive; nz; lra|auto_derive; nz; lra|exp0; lra]. }
  destruct C as [C|[]]; subst y; auto.
Qed.
Lemma d_Relu : forall jk x, ~ In x (corners ARelu) -> goodAt jk ARelu x.
Proof.
  intros jk x; unfold goodAt; simpl; intro C. pose proof (exp_pos (- x)).
  destruct (Rtotal_order x (0)) as [L|[L|L]]; [|exfalso; apply C; left; lra|].
  - apply (is_derive_lt _ (fun x : R => 0) (0)); [lra|agree|]. der. act; br; fin.
  - apply (is_derive_gt _ (fun x : R => x) (0)); [lra|agree|]. der. act; br; fin.
Qed.
Lemma c_Relu : forall jk x, In x (corners ARelu) -> ~ ex_derive (act_apply (ROps jk) ARelu) x.
Proof.
  intros jk y; simpl; intro C.
  pose proof (exp_pos (- (0))). assert (C0 : ~ ex_derive (act_apply (ROps jk) ARelu) (0)).
  { eapply (corner_not_derivable _ (fun x : R => 0) (fun x : R => x) (0) 1); [lra|atp (0)|atp (0)|auto_derive; nz; lra|auto_derive; nz; lra|exp0; lra]. }
  destruct C as [C|[]]; subst y; auto.
Qed.
Lemma d_LeakyRelu : forall jk x, ~ In x (corners ALeakyRelu) -> goodAt jk ALeakyRelu x.
Proof.
  intros jk x; unfold goodAt; simpl; intro C. pose proof (exp_pos (- x)).
  destruct (Rtotal_order x (0)) as [L|[L|L]]; [|exfalso; apply C; left; lra|].
  - apply (is_derive_lt _ (fun x : R => 1 / 100 * x) (0)); [lra|agree|]. der. act; br; fin.
  - apply (is_derive_gt _ (fun x : R => x) (0)); [lra|agree|]. der. act; br; fin.
Qed.
Lemma c_LeakyRelu : forall jk x, In x (corners ALeakyRelu) -> ~ ex_derive (act_apply (ROps jk) ALeakyRelu) x.
Proof.
  intros jk y; simpl; intro C.
  pose proof (exp_pos (- (0))). assert (C0 : ~ ex_derive (act_apply (ROps jk) ALeakyRelu) (0)).
  { eapply (corner_not_derivable _ (fun x : R => 1 / 100 * x) (fun x : R => x) (0) 1); [lra|atp (0)|atp (0)|auto_derive; nz; lra|auto_derive; nz; lra|exp0; lra]. }
  destruct C as [C|[]]; subst y; auto.
Qed.
Lemma d_LeakyRelu256 : forall jk x, ~ In x (corners ALeakyRelu256) -> goodAt jk ALeakyRelu256 x.
Proof.
  intros jk x; unfold goodAt; simpl; intro C. pose proof (exp_pos (- x)).
  destruct (Rtotal_order x (0)) as [L|[L|L]]; [|exfalso; apply C; left; lra|].
  - apply (is_derive_lt _ (fun x : R => x * (1 / 256)) (0)); [lra|agree|]. der. act; br; fin.
  - apply (is_derive_gt _ (fun x : R => x) (0)); [lra|agree|]. der. act; br; fin.
Qed.
Lemma c_LeakyRelu256 : forall jk x, In x (corners ALeakyRelu256) -> ~ ex_derive (act_apply (ROps jk) ALeakyRelu256) x.
Proof.
  intros jk y; simpl; intro C.
  pose proof (exp_pos (- (0))). assert (C0 : ~ ex_derive (act_apply (ROps jk) ALeakyRelu256) (0)).
  { eapply (corner_not_derivable _ (fun x : R => x * (1 / 256)) (fun x : R => x) (0) 1); [lra|atp (0)|atp (0)|auto_derive; nz; lra|auto_derive; nz; lra|exp0; lra]. }
  destruct C as [C|[]]; subst y; auto.
Qed.
Lemma d_NLRelu : forall jk x, ~ In x (corners ANLRelu) -> goodAt jk ANLRelu x.
Proof.
  intros jk x; unfold goodAt; simpl; intro C. pose proof (exp_pos (- x)).
  destruct (Rtotal_order x (0)) as [L|[L|L]]; [|exfalso; apply C; left; lra|].
  - apply (is_derive_lt _ (fun x : R => 0) (0)); [lra|agree|]. der. act; br; fin.
  - apply (is_derive_gt _ (fun x : R => ln (1 + x)) (0)); [lra|agree|]. der. act; br; fin.
Qed.
Lemma c_NLRelu : forall jk x, In x (corners ANLRelu) -> ~ ex_derive (act_apply (ROps jk) ANLRelu) x.
Proof.
  intros jk y; simpl; intro C.
  pose proof (exp_pos (- (0))). assert (C0 : ~ ex_derive (act_apply (ROps jk) ANLRelu) (0)).
  { eapply (corner_not_derivable _ (fun x : R => 0) (fun x : R => ln (1 + x)) (0) 1); [lra|atp (0)|atp (0)|auto_derive; nz; lra|auto_derive; nz; lra|exp0; lra]. }
  destruct C as [C|[]]; subst y; auto.
Qed.
Lemma d_Selu : forall jk x, ~ In x (corners ASelu) -> goodAt jk ASelu x.
Proof.
  intros jk x; unfold goodAt; simpl; intro C. pose proof (exp_pos (- x)).
  destruct (Rtotal_order x (0)) as [L|[L|L]]; [|exfalso; apply C; left; lra|].
  - apply (is_derive_lt _ (fun x : R => 105070 / 100000 * (167326 / 100000) * (exp x - 1)) (0)); [lra|agree|]. der. act; br; fin.
  - apply (is_derive_gt _ (fun x : R => 105070 / 100000 * x) (0)); [lra|agree|]. der. act; br; fin.
Qed.
Lemma c_Selu : forall jk x, In x (corners ASelu) -> ~ ex_derive (act_apply (ROps jk) ASelu) x.
Proof.
  intros jk y; simpl; intro C.
  pose proof (exp_pos (- (0))). assert (C0 : ~ ex_derive (act_apply (ROps jk) ASelu) (0)).
  { eapply (corner_not_derivable _ (fun x : R => 105070 / 100000 * (167326 / 100000) * (exp x - 1)) (fun x : R => 105070 / 100000 * x) (0) 1); [lra|atp (0)|atp (0)|auto_derive; nz; lra|auto_derive; nz; lra|exp0; lra]. }
  destruct C as [C|[]]; subst y; auto.
Qed.
Lemma d_HardELU : forall jk x, ~ In x (corners AHardELU) -> goodAt jk AHardELU x.
Proof.
  intros jk x; unfold goodAt; simpl; intro C. pose proof (exp_pos (- x)).
  destruct (Rtotal_order x (-2)) as [L|[L|L]]; [|exfalso; apply C; first [left; lra | right; left; lra]|destruct (Rtotal_order x (0)) as [M|[M|M]]; [|exfalso; apply C; first [left; lra | right; left; lra]|]].
  - apply (is_derive_lt _ (fun x : R => -1) (-2)); [lra|agree|]. der. act; br; fin.
  - apply (is_derive_open _ (fun x : R => x * (1 / 2)) (-2) x (0)); [lra|agree|]. der. act; br; fin.
  - apply (is_derive_gt _ (fun x : R => x) (0)); [lra|agree|]. der. act; br; fin.
Qed.
Lemma c_HardELU : forall jk x, In x (corners AHardELU) -> ~ ex_derive (act_apply (ROps jk) AHardELU) x.
Proof.
  intros jk y; simpl; intro C.
  pose proof (exp_pos (- (-2))). assert (C0 : ~ ex_derive (act_apply (ROps jk) AHardELU) (-2)).
  { eapply (corner_not_derivable _ (fun x : R => -1) (fun x : R => x * (1 / 2)) (-2) 1); [lra|atp (-2)|atp (-2)|auto_derive; nz; lra|auto_derive; nz; lra|exp0; lra]. }
  pose proof (exp_pos (- (0))). assert (C1 : ~ ex_derive (act_apply (ROps jk) AHardELU) (0)).
  { eapply (corner_not_derivable _ (fun x : R => x * (1 / 2)) (fun x : R => x) (0) 1); [lra|atp (0)|atp (0)|auto_derive; nz; lra|auto_derive; nz; lra|exp0; lra]. }
  destruct C as [C|[C|[]]]; rewrite <- C; auto.
Qed.
Lemma d_HardSigmoid : forall jk x, ~ In x (corners AHardSigmoid) -> goodAt jk AHardSigmoid x.
Proof.
  intros jk x; unfold goodAt; simpl; intro C. pose proof (exp_pos (- x)).
  destruct (Rtotal_order x (- (5/2))) as [L|[L|L]]; [|exfalso; apply C; first [left; lra | right; left; lra]|destruct (Rtotal_order x (5/2)) as [M|[M|M]]; [|exfalso; apply C; first [left; lra | right; left; lra]|]].
  - apply (is_derive_lt _ (fun x : R => 0) (- (5/2))); [lra|agree|]. der. act; br; fin.
  - apply (is_derive_open _ (fun x : R => 1 / 5 * x + 1 / 2) (- (5/2)) x (5/2)); [lra|agree|]. der. act; br; fin.
  - apply (is_derive_gt _ (fun x : R => 1) (5/2)); [lra|agree|]. der. act; br; fin.
Qed.
Lemma c_HardSigmoid : forall jk x, In x (corners AHardSigmoid) -> ~ ex_derive (act_apply (ROps jk) AHardSigmoid) x.
Proof.
  intros jk y; simpl; intro C.
  pose proof (exp_pos (- (- (5/2)))). assert (C0 : ~ ex_derive (act_apply (ROps jk) AHardSigmoid) (- (5/2))).
  { eapply (corner_not_derivable _ (fun x : R => 0) (fun x : R => 1 / 5 * x + 1 / 2) (- (5/2)) 1); [lra|atp (- (5/2))|atp (- (5/2))|auto_derive; nz; lra|auto_derive; nz; lra|exp0; lra]. }
  pose proof (exp_pos (- (5/2))). assert (C1 : ~ ex_derive (act_apply (ROps jk) AHardSigmoid) (5/2)).
  { eapply (corner_not_derivable _ (fun x : R => 1 / 5 * x + 1 / 2) (fun x : R => 1) (5/2) 1); [lra|atp (5/2)|atp (5/2)|auto_derive; nz; lra|auto_derive; nz; lra|exp0; lra]. }
  destruct C as [C|[C|[]]]; rewrite <- C; auto.
Qed.
Lemma d_HardShrink : forall jk x, ~ In x (corners AHardShrink) -> goodAt jk AHardShrink x.
Proof.
  intros jk x; unfold goodAt; simpl; intro C. pose proof (exp_pos (- x)).
  destruct (Rtotal_order x (- (1/2))) as [L|[L|L]]; [|exfalso; apply C; first [left; lra | right; left; lra]|destruct (Rtotal_order x (1/2)) as [M|[M|M]]; [|exfalso; apply C; first [left; lra | right; left; lra]|]].
  - apply (is_derive_lt _ (fun x : R => x) (- (1/2))); [lra|agree|]. der. act; br; fin.
  - apply (is_derive_open _ (fun x : R => 0) (- (1/2)) x (1/2)); [lra|agree|]. der. act; br; fin.
  - apply (is_derive_gt _ (fun x : R => x) (1/2)); [lra|agree|]. der. act; br; fin.
Qed.
Lemma c_HardShrink : forall jk x, In x (corners AHardShrink) -> ~ ex_derive (act_apply (ROps jk) AHardShrink) x.
Proof.
  intros jk y; simpl; intro C.
  pose proof (exp_pos (- (- (1/2)))). assert (C0 : ~ ex_derive (act_apply (ROps jk) AHardShrink) (- (1/2))).
  { eapply (jump_left _ (fun x : R => x) (- (1/2)) 1); [lra|agree|auto_derive; auto|act; br; lra]. }
  pose proof (exp_pos (- (1/2))). assert (C1 : ~ ex_derive (act_apply (ROps jk) AHardShrink) (1/2)).
  { eapply (jump_right _ (fun x : R => x) (1/2) 1); [lra|agree|auto_derive; auto|act; br; lra]. }
  destruct C as [C|[C|[]]]; rewrite <- C; auto.
Qed.
Lemma d_SoftShrink : forall jk x, ~ In x (corners ASoftShrink) -> goodAt jk ASoftShrink x.
Proof.
  intros jk x; unfold goodAt; simpl; intro C. pose proof (exp_pos (- x)).
  destruct (Rtotal_order x (- (1/2))) as [L|[L|L]]; [|exfalso; apply C; first [left; lra | right; left; lra]|destruct (Rtotal_order x (1/2)) as [M|[M|M]]; [|exfalso; apply C; first [left; lra | right; left; lra]|]].
  - apply (is_derive_lt _ (fun x : R => x + 1 / 2) (- (1/2))); [lra|agree|]. der. act; br; fin.
  - apply (is_derive_open _ (fun x : R => 0) (- (1/2)) x (1/2)); [lra|agree|]. der. act; br; fin.
  - apply (is_derive_gt _ (fun x : R => x - 1 / 2) (1/2)); [lra|agree|]. der. act; br; fin.
Qed.
Lemma c_SoftShrink : forall jk x, In x (corners ASoftShrink) -> ~ ex_derive (act_apply (ROps jk) ASoftShrink) x.
Proof.
  intros jk y; simpl; intro C.
  pose proof (exp_pos (- (- (1/2)))). assert (C0 : ~ ex_derive (act_apply (ROps jk) ASoftShrink) (- (1/2))).
  { eapply (corner_not_derivable _ (fun x : R => x + 1 / 2) (fun x : R => 0) (- (1/2)) 1); [lra|atp (- (1/2))|atp (- (1/2))|auto_derive; nz; lra|auto_derive; nz; lra|exp0; lra]. }
  pose proof (exp_pos (- (1/2))). assert (C1 : ~ ex_derive (act_apply (ROps jk) ASoftShrink) (1/2)).
  { eapply (corner_not_derivable _ (fun x : R => 0) (fun x : R => x - 1 / 2) (1/2) 1); [lra|atp (1/2)|atp (1/2)|auto_derive; nz; lra|auto_derive; nz; lra|exp0; lra]. }
  destruct C as [C|[C|[]]]; rewrite <- C; auto.
Qed.
Lemma d_HardSwish : forall jk x, ~ In x (corners AHardSwish) -> goodAt jk AHardSwish x.
Proof.
  intros jk x; unfold goodAt; simpl; intro C. pose proof (exp_pos (- x)).
  destruct (Rtotal_order x (-3)) as [L|[L|L]]; [|exfalso; apply C; first [left; lra | right; left; lra]|destruct (Rtotal_order x (3)) as [M|[M|M]]; [|exfalso; apply C; first [left; lra | right; left; lra]|]].
  - apply (is_derive_lt _ (fun x : R => 0) (-3)); [lra|agree|]. der. act; br; fin.
  - apply (is_derive_open _ (fun x : R => x * (x + 3) * (1 / 6)) (-3) x (3)); [lra|agree|]. der. act; br; fin.
  - apply (is_derive_gt _ (fun x : R => x) (3)); [lra|agree|]. der. act; br; fin.
Qed.
Lemma c_HardSwish : forall jk x, In x (corners AHardSwish) -> ~ ex_derive (act_apply (ROps jk) AHardSwish) x.
Proof.
  intros jk y; simpl; intro C.
  pose proof (exp_pos (- (-3))). assert (C0 : ~ ex_derive (act_apply (ROps jk) AHardSwish) (-3)).
  { eapply (corner_not_derivable _ (fun x : R => 0) (fun x : R => x * (x + 3) * (1 / 6)) (-3) 1); [lra|atp (-3)|atp (-3)|auto_derive; nz; lra|auto_derive; nz; lra|exp0; lra]. }
  pose proof (exp_pos (- (3))). assert (C1 : ~ ex_derive (act_apply (ROps jk) AHardSwish) (3)).
  { eapply (corner_not_derivable _ (fun x : R => x * (x + 3) * (1 / 6)) (fun x : R => x) (3) 1); [lra|atp (3)|atp (3)|auto_derive; nz; lra|auto_derive; nz; lra|exp0; lra]. }
  destruct C as [C|[C|[]]]; rewrite <- C; auto.
Qed.
Lemma d_HardTanh : forall jk x, ~ In x (corners AHardTanh) -> goodAt jk AHardTanh x.
Proof.
  intros jk x; unfold goodAt; simpl; intro C. pose proof (exp_pos (- x)).
  destruct (Rtotal_order x (-1)) as [L|[L|L]]; [|exfalso; apply C; first [left; lra | right; left; lra]|destruct (Rtotal_order x (1)) as [M|[M|M]]; [|exfalso; apply C; first [left; lra | right; left; lra]|]].
  - apply (is_derive_lt _ (fun x : R => -1) (-1)); [lra|agree|]. der. act; br; fin.
  - apply (is_derive_open _ (fun x : R => x) (-1) x (1)); [lra|agree|]. der. act; br; fin.
  - apply (is_derive_gt _ (fun x : R => 1) (1)); [lra|agree|]. der. act; br; fin.
Qed.
Lemma c_HardTanh : forall jk x, In x (corners AHardTanh) -> ~ ex_derive (act_apply (ROps jk) AHardTanh) x.
Proof.
  intros jk y; simpl; intro C.
  pose proof (exp_pos (- (-1))). assert (C0 : ~ ex_derive (act_apply (ROps jk) AHardTanh) (-1)).
  { eapply (corner_not_derivable _ (fun x : R => -1) (fun x : R => x) (-1) 1); [lra|atp (-1)|atp (-1)|auto_derive; nz; lra|auto_derive; nz; lra|exp0; lra]. }
  pose proof (exp_pos (- (1))). assert (C1 : ~ ex_derive (act_apply (ROps jk) AHardTanh) (1)).
  { eapply (corner_not_derivable _ (fun x : R => x) (fun x : R => 1) (1) 1); [lra|atp (1)|atp (1)|auto_derive; nz; lra|auto_derive; nz; lra|exp0; lra]. }
  destruct C as [C|[C|[]]]; rewrite <- C; auto.
Qed.
Lemma d_Relu6 : forall jk x, ~ In x (corners ARelu6) -> goodAt jk ARelu6 x.
Proof.
  intros jk x; unfold goodAt; simpl; intro C. pose proof (exp_pos (- x)).
  destruct (Rtotal_order x (0)) as [L|[L|L]]; [|exfalso; apply C; first [left; lra | right; left; lra]|destruct (Rtotal_order x (6)) as [M|[M|M]]; [|exfalso; apply C; first [left; lra | right; left; lra]|]].
  - apply (is_derive_lt _ (fun x : R => 0) (0)); [lra|agree|]. der. act; br; fin.
  - apply (is_derive_open _ (fun x : R => x) (0) x (6)); [lra|agree|]. der. act; br; fin.
  - apply (is_derive_gt _ (fun x : R => 6) (6)); [lra|agree|]. der. act; br; fin.
Qed.
Lemma c_Relu6 : forall jk x, In x (corners ARelu6) -> ~ ex_derive (act_apply (ROps jk) ARelu6) x.
Proof.
  intros jk y; simpl; intro C.
  pose proof (exp_pos (- (0))). assert (C0 : ~ ex_derive (act_apply (ROps jk) ARelu6) (0)).
  { eapply (corner_not_derivable _ (fun x : R => 0) (fun x : R => x) (0) 1); [lra|atp (0)|atp (0)|auto_derive; nz; lra|auto_derive; nz; lra|exp0; lra]. }
  pose proof (exp_pos (- (6))). assert (C1 : ~ ex_derive (act_apply (ROps jk) ARelu6) (6)).
  { eapply (corner_not_derivable _ (fun x : R => x) (fun x : R => 6) (6) 1); [lra|atp (6)|atp (6)|auto_derive; nz; lra|auto_derive; nz; lra|exp0; lra]. }
  destruct C as [C|[C|[]]]; rewrite <- C; auto.
Qed.
Lemma d_LeakyTwiceRelu6 : forall jk x, ~ In x (corners ALeakyTwiceRelu6) -> goodAt jk ALeakyTwiceRelu6 x.
Proof.
  intros jk x; unfold goodAt; simpl; intro C. pose proof (exp_pos (- x)).
  destruct (Rtotal_order x (0)) as [L|[L|L]]; [|exfalso; apply C; first [left; lra | right; left; lra]|destruct (Rtotal_order x (6)) as [M|[M|M]]; [|exfalso; apply C; first [left; lra | right; left; lra]|]].
  - apply (is_derive_lt _ (fun x : R => 1 / 5 * x) (0)); [lra|agree|]. der. act; br; fin.
  - apply (is_derive_open _ (fun x : R => x) (0) x (6)); [lra|agree|]. der. act; br; fin.
  - apply (is_derive_gt _ (fun x : R => 6 + 1 / 5 * (x - 6)) (6)); [lra|agree|]. der. act; br; fin.
Qed.
Lemma c_LeakyTwiceRelu6 : forall jk x, In x (corners ALeakyTwiceRelu6) -> ~ ex_derive (act_apply (ROps jk) ALeakyTwiceRelu6) x.
Proof.
  intros jk y; simpl; intro C.
  pose proof (exp_pos (- (0))). assert (C0 : ~ ex_derive (act_apply (ROps jk) ALeakyTwiceRelu6) (0)).
  { eapply (corner_not_derivable _ (fun x : R => 1 / 5 * x) (fun x : R => x) (0) 1); [lra|atp (0)|atp (0)|auto_derive; nz; lra|auto_derive; nz; lra|exp0; lra]. }
  pose proof (exp_pos (- (6))). assert (C1 : ~ ex_derive (act_apply (ROps jk) ALeakyTwiceRelu6) (6)).
  { eapply (corner_not_derivable _ (fun x : R => x) (fun x : R => 6 + 1 / 5 * (x - 6)) (6) 1); [lra|atp (6)|atp (6)|auto_derive; nz; lra|auto_derive; nz; lra|exp0; lra]. }
  destruct C as [C|[C|[]]]; rewrite <- C; auto.
Qed.
Lemma d_ThresholdedRelu : forall jk x, ~ In x (corners AThresholdedRelu) -> goodAt jk AThresholdedRelu x.
Proof.
  intros jk x; unfold goodAt; simpl; intro C. pose proof (exp_pos (- x)).
  destruct (Rtotal_order x (1)) as [L|[L|L]]; [|exfalso; apply C; left; lra|].
  - apply (is_derive_lt _ (fun x : R => 0) (1)); [lra|agree|]. der. act; br; fin.
  - apply (is_derive_gt _ (fun x : R => x) (1)); [lra|agree|]. der. act; br; fin.
Qed.
Lemma c_ThresholdedRelu : forall jk x, In x (corners AThresholdedRelu) -> ~ ex_derive (act_apply (ROps jk) AThresholdedRelu) x.
Proof.
  intros jk y; simpl; intro C.
  pose proof (exp_pos (- (1))). assert (C0 : ~ ex_derive (act_apply (ROps jk) AThresholdedRelu) (1)).
  { eapply (jump_left _ (fun x : R => 0) (1) 1); [lra|agree|auto_derive; auto|act; br; lra]. }
  destruct C as [C|[]]; subst y; auto.
Qed.
