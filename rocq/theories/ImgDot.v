(* ImgDot.v - scalar products over the flat buffer; image indices *)
From Coq Require Import List Arith Bool Lia Reals Lra.
From Coquelicot Require Import Coquelicot.
From Verif Require Import Base Scalar Mat SpecMat SpecReal RSum MatFacts MatProofs Scatter RDeriv Loss SpecLoss LayMat LayImg LayKit SpecLayer LayGrad LayCurve LayTens ImgKit.
Import ListNotations.
Local Open Scope R_scope.

Definition fdot (N : nat) (A B : nat -> R) : R := rsum N (fun k => A k * B k).
Definition flatF (M : nat) (B : nat -> nat -> R) : nat -> R := fun k => B (k / M)%nat (k mod M)%nat.
Lemma dot_fdot : forall n m g B, dot n m (fun i j => g (i * m + j)%nat) B = fdot (n * m) g (flatF m B).
Proof.
  intros. unfold dot, fdot, flatF. rewrite rsum_flat. apply rsum_ext. intros i Hi. apply rsum_ext. intros j Hj. rewrite idx_div, idx_mod by auto. reflexivity.
Qed.
Lemma fdot_ext : forall N A A' B, (forall k, (k < N)%nat -> A k = A' k) -> fdot N A B = fdot N A' B.
Proof. intros. apply rsum_ext. intros. rewrite H; auto. Qed.
Lemma fdot_plus : forall N A A' B, fdot N (fun k => A k + A' k) B = fdot N A B + fdot N A' B.
Proof. intros. unfold fdot. rewrite <- rsum_plus. apply rsum_ext. intros. ring. Qed.
Lemma fdot_scal : forall N c A B, fdot N (fun k => A k * c) B = fdot N A B * c.
Proof. intros. unfold fdot. rewrite <- rsum_scal_r. apply rsum_ext. intros. ring. Qed.
Lemma fdot_zero : forall N B, fdot N (fun _ => 0) B = 0.
Proof. intros. apply rsum_zero. intros. ring. Qed.
Lemma fdot_sum : forall N n S B, fdot N (fun k => rsum n (fun i => S i k)) B = rsum n (fun i => fdot N (S i) B).
Proof. intros. unfold fdot. rewrite rsum_swap. apply rsum_ext. intros. rewrite <- rsum_scal_r. reflexivity. Qed.
Lemma fdot_point : forall N a x B, (a < N)%nat -> fdot N (fun k => if Nat.eqb a k then x else 0) B = x * B a.
Proof.
  intros. unfold fdot. rewrite (rsum_single N a); auto.
  - rewrite Nat.eqb_refl. reflexivity.
  - intros i Hi Hn. destruct (Nat.eqb_spec a i); [congruence|ring].
Qed.
(* loops that only add *)
Lemma fold_adds : forall n (f : nat -> R -> R) (s : nat -> R) v, (forall i v, (i < n)%nat -> f i v = v + s i) ->
  fold_left (fun v i => f i v) (seq 0 n) v = v + rsum n s.
Proof.
  intros n f s v H. rewrite <- fold_rsum. apply (@fold_left_ext_in R nat). intros a b Hb. apply in_seq in Hb. apply H. lia.
Qed.
Lemma if_add : forall (b : bool) (v x : R), (if b then v + x else v) = v + (if b then x else 0).
Proof. intros. destruct b; ring. Qed.

(** image indices *)
Definition img {A} (nR nC : nat) (X : nat -> nat -> A) : nat -> nat -> nat -> nat -> A := fun s h r c => X s (pix nR nC h r c).
Definition unimg {A} (nR nC : nat) (t : nat -> nat -> nat -> nat -> A) : nat -> nat -> A := fun s j => t s (j / nC / nR)%nat ((j / nC) mod nR)%nat (j mod nC)%nat.
Definition dot4 (nS nH nR nC : nat) (A B : nat -> nat -> nat -> nat -> R) : R :=
  rsum nS (fun s => rsum nH (fun h => rsum nR (fun r => rsum nC (fun c => A s h r c * B s h r c)))).
Definition dcurve4 (nS nH nR nC : nat) (P : R -> nat -> nat -> nat -> nat -> R) (t : R) (D : nat -> nat -> nat -> nat -> R) : Prop :=
  forall s h r c, (s < nS)%nat -> (h < nH)%nat -> (r < nR)%nat -> (c < nC)%nat -> is_derive (fun x => P x s h r c) t (D s h r c).

Lemma dot_dot4 : forall nS nH nR nC A B, dot nS (nH * nR * nC) A B = dot4 nS nH nR nC (img nR nC A) (img nR nC B).
Proof. intros. unfold dot, dot4, img. apply rsum_ext. intros. rewrite rsum_pix. reflexivity. Qed.
Lemma img_unimg : forall A nR nC (t : nat -> nat -> nat -> nat -> A) s h r c, (r < nR)%nat -> (c < nC)%nat -> img nR nC (unimg nR nC t) s h r c = t s h r c.
Proof. intros. unfold img, unimg. rewrite pix_h, pix_r, pix_c by auto. reflexivity. Qed.
Lemma dcurve_img : forall nS nH nR nC X t dX, dcurve nS (nH * nR * nC) X t dX -> dcurve4 nS nH nR nC (fun x => img nR nC (X x)) t (img nR nC dX).
Proof. intros nS nH nR nC X t dX H s h r c Hs Hh Hr Hc. unfold img. apply H; auto. apply pix_lt; auto. Qed.
Lemma dcurve_unimg : forall nS nH nR nC Y t dY, dcurve4 nS nH nR nC Y t dY -> dcurve nS (nH * nR * nC) (fun x => unimg nR nC (Y x)) t (unimg nR nC dY).
Proof. intros nS nH nR nC Y t dY H s j Hs Hj. unfold unimg. destruct (pix_inv nH nR nC j Hj) as (H1 & H2 & H3 & _). apply H; auto. Qed.
Lemma dot4_ext : forall nS nH nR nC A B A' B', (forall s h r c, (s < nS)%nat -> (h < nH)%nat -> (r < nR)%nat -> (c < nC)%nat -> A s h r c * B s h r c = A' s h r c * B' s h r c) ->
  dot4 nS nH nR nC A B = dot4 nS nH nR nC A' B'.
Proof. intros. unfold dot4. repeat (apply rsum_ext; intros). auto. Qed.
Lemma dot_unimg : forall nS nH nR nC A t, dot nS (nH * nR * nC) A (unimg nR nC t) = dot4 nS nH nR nC (img nR nC A) t.
Proof. intros. rewrite dot_dot4. apply dot4_ext. intros. rewrite img_unimg by auto. reflexivity. Qed.
Lemma tens_img : forall A nS nH nR nC (X : nat -> nat -> A), mgen nS (nH * nR * nC) X = tens nS nH nR nC (img nR nC X).
Proof. intros. apply gen_tens. Qed.
Lemma tens_unimg : forall A nS nH nR nC (t : nat -> nat -> nat -> nat -> A), tens nS nH nR nC t = mgen nS (nH * nR * nC) (unimg nR nC t).
Proof. intros. apply tens_gen. Qed.
(* the flat buffer at a pixel address *)
Lemma flatF_addr : forall nH nR nC s h r c B, (h < nH)%nat -> (r < nR)%nat -> (c < nC)%nat -> flatF (nH * nR * nC) B (addr4 nH nR nC s h r c) = img nR nC B s h r c.
Proof. intros. unfold flatF, img. rewrite addr4_pix. rewrite idx_div, idx_mod by (apply pix_lt; auto). reflexivity. Qed.
(* derivative of a linear layer whose backward pass is the transposed map *)
Lemma linear_gradient : forall n m n' m' (L : (nat -> nat -> R) -> nat -> nat -> R) (G gi X : nat -> nat -> R) (fwd : (nat -> nat -> R) -> res (mat R)),
  (forall Q, fwd Q = Ok (mgen n m (L Q))) ->
  (forall P t dP, dcurve n' m' P t dP -> exists dY, dcurve n m (fun x => L (P x)) t dY /\ dot n m G dY = dot n' m' gi dP) ->
  gradOf n' m' 1 (fun X' => obj G (fwd X')) X gi.
Proof.
  intros n m n' m' L G gi X fwd HF HL. apply gradOf_curve with (n := n) (m := m) (f := L); auto.
  intros a b Ha Hb. destruct (HL (fun x => upd2 X a b x) (X a b) (delta a b) (dcurve_cell _ _ _ _ _)) as (dY & H1 & H2).
  exists dY. split; auto. rewrite H2. rewrite dot_delta by auto. ring.
Qed.
