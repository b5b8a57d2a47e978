(* LayConv1.v - convolution: shapes, im2col (both paths), reshaping *)
From Coq Require Import List Arith Bool Lia.
From Verif Require Import Base Scalar Mat SpecMat MatFacts MatProofs MatLoops Scatter LayMat LayImg LayKit LayTens ImgKit.
Import ListNotations.
Local Open Scope nat_scope.

(* every window of an accepted shape lies inside the image *)
Lemma outSize_fits : forall n k s r a, r < outSize n k s -> a < k -> r * s + a < n.
Proof.
  intros n k s r a Hr Ha. unfold outSize in Hr. pose proof (Nat.div_mod k 2 ltac:(lia)) as E. pose proof (Nat.mod_upper_bound k 2 ltac:(lia)) as E2.
  set (b := k / 2) in *. destruct (Nat.ltb_spec 1 s).
  - pose proof (Nat.mul_div_le (n - 2 * b + 1) s ltac:(lia)) as D. assert (r * s + s <= n - 2 * b + 1) by nia.
    assert (2 * b < n) by nia. lia.
  - assert (s = 0 \/ s = 1) as [-> | ->] by lia; lia.
Qed.
Lemma fitsR : forall v r a, r < oR v -> a < vkr v -> r * vsr v + a < vR v. Proof. intros v r a. apply outSize_fits. Qed.
Lemma fitsC : forall v c b, c < oC v -> b < vkc v -> c * vsc v + b < vC v. Proof. intros v r a. apply outSize_fits. Qed.

(* rows of the column matrix are (sample, r, c), its columns (channel, kernel row, kernel column) *)
Definition crow v s r c := pix (oR v) (oC v) s r c.
Definition ccol v h a b := pix (vkr v) (vkc v) h a b.
Definition colAt {A} v (t : nat -> nat -> nat -> nat -> A) (i j : nat) : A :=
  t (i / oC v / oR v) (j / vkc v / vkr v) ((i / oC v) mod oR v * vsr v + (j / vkc v) mod vkr v) (i mod oC v * vsc v + j mod vkc v).
Lemma colAt_at : forall A v (t : nat -> nat -> nat -> nat -> A) s r c h a b, r < oR v -> c < oC v -> a < vkr v -> b < vkc v ->
  colAt v t (crow v s r c) (ccol v h a b) = t s h (r * vsr v + a) (c * vsc v + b).
Proof. intros. unfold colAt, crow, ccol. rewrite !pix_h, !pix_r, !pix_c by auto. reflexivity. Qed.
Lemma crow_lt : forall v nS s r c, s < nS -> r < oR v -> c < oC v -> crow v s r c < nS * oR v * oC v. Proof. intros. apply pix_lt; auto. Qed.
Lemma ccol_lt : forall v h a b, h < vI v -> a < vkr v -> b < vkc v -> ccol v h a b < vI v * vkr v * vkc v. Proof. intros. apply pix_lt; auto. Qed.
Lemma pix_inj : forall nR nC h r c h' r' c', r < nR -> c < nC -> r' < nR -> c' < nC -> pix nR nC h r c = pix nR nC h' r' c' -> h = h' /\ r = r' /\ c = c'.
Proof.
  intros nR nC h r c h' r' c' Hr Hc Hr' Hc' E. pose proof (pix_h nR nC h r c Hc Hr) as A1. pose proof (pix_r nR nC h r c Hc Hr) as A2. pose proof (pix_c nR nC h r c Hc) as A3.
  rewrite E in A1, A2, A3. rewrite pix_h in A1 by auto. rewrite pix_r in A2 by auto. rewrite pix_c in A3 by auto. auto.
Qed.

(* two assignments to the same cell of the column matrix store the same value *)
Lemma a6_inj : forall v K s r c h a b s' r' c' h' a' b', K = vI v * vkr v * vkc v -> r < oR v -> c < oC v -> h < vI v -> a < vkr v -> b < vkc v ->
  r' < oR v -> c' < oC v -> h' < vI v -> a' < vkr v -> b' < vkc v ->
  crow v s r c * K + ccol v h a b = crow v s' r' c' * K + ccol v h' a' b' -> s = s' /\ r = r' /\ c = c' /\ h = h' /\ a = a' /\ b = b'.
Proof.
  intros v K s r c h a b s' r' c' h' a' b' HK Hr Hc Hh Ha Hb Hr' Hc' Hh' Ha' Hb' E. assert (L1 := ccol_lt v h a b Hh Ha Hb). assert (L2 := ccol_lt v h' a' b' Hh' Ha' Hb').
  rewrite <- HK in L1, L2. apply idx_inj in E; auto. destruct E as [E1 E2]. apply pix_inj in E1; auto. apply pix_inj in E2; auto. tauto.
Qed.

Lemma col_cells : forall A v nS (g : nat -> A) t,
  (forall s r c h a b, s < nS -> r < oR v -> c < oC v -> h < vI v -> a < vkr v -> b < vkc v ->
     g (crow v s r c * (vI v * vkr v * vkc v) + ccol v h a b) = t s h (r * vsr v + a) (c * vsc v + b)) ->
  mflat (nS * oR v * oC v) (vI v * vkr v * vkc v) g = mgen (nS * oR v * oC v) (vI v * vkr v * vkc v) (colAt v t).
Proof.
  intros A v nS g t H. rewrite mflat_gen. apply mgen_ext. intros i j Hi Hj.
  destruct (pix_inv nS (oR v) (oC v) i Hi) as (A1 & A2 & A3 & A4). destruct (pix_inv (vI v) (vkr v) (vkc v) j Hj) as (B1 & B2 & B3 & B4).
  rewrite <- A4, <- B4 at 1. change (pix (oR v) (oC v)) with (crow v). change (pix (vkr v) (vkc v)) with (ccol v). rewrite H by auto. reflexivity.
Qed.

Section Im2col.
Variable F : FOps.
Notation M := (mat F).

Lemma im2col_gen : forall v nS (t : nat -> nat -> nat -> nat -> F) col, mwf col ->
  im2col F v (tens nS (vI v) (vR v) (vC v) t) col = Ok (mgen (nS * oR v * oC v) (vI v * vkr v * vkc v) (colAt v t)).
Proof.
  intros v nS t col Hcol. unfold im2col. change (mcols (tens nS (vI v) (vR v) (vC v) t)) with (vI v * vR v * vC v). change (mrows (tens nS (vI v) (vR v) (vC v) t)) with nS.
  unfold assert_ at 1. replace (vI v * vR v * vC v =? vR v * vC v * vI v) with true by (symmetry; apply Nat.eqb_eq; ring). cbn [bind].
  destruct (resize_tflat F col (oR v * oC v * nS) (ksize v) (nS * oR v * oC v) (vI v * vkr v * vkc v) Hcol) as [g ->]; [ring|unfold ksize; ring|].
  set (r0 := nS * oR v * oC v). set (K := vI v * vkr v * vkc v).
  set (W := fun s h a b r c k (x : F) => if crow v s r c * K + ccol v h a b =? k then t s h (r * vsr v + a) (c * vsc v + b) else x).
  rewrite (kloop F r0 K nS _ (fun s k x => fold_left (fun x h => fold_left (fun x a => fold_left (fun x b => fold_left (fun x r => fold_left (fun x c => W s h a b r c k x) (seq 0 (oC v)) x) (seq 0 (oR v)) x) (seq 0 (vkc v)) x) (seq 0 (vkr v)) x) (seq 0 (vI v)) x)).
  2:{ intros s q Hs. apply (kloop F r0 K (vI v) _ (fun h k x => fold_left (fun x a => fold_left (fun x b => fold_left (fun x r => fold_left (fun x c => W s h a b r c k x) (seq 0 (oC v)) x) (seq 0 (oR v)) x) (seq 0 (vkc v)) x) (seq 0 (vkr v)) x)).
      intros h q1 Hh. apply (kloop2 F r0 K (vkr v) (vkc v) _ (fun a b k x => fold_left (fun x r => fold_left (fun x c => W s h a b r c k x) (seq 0 (oC v)) x) (seq 0 (oR v)) x)).
      intros a b q2 Ha Hb. apply (kloop2 F r0 K (oR v) (oC v) _ (fun r c k x => W s h a b r c k x)). intros r c q3 Hr Hc. cbv zeta.
      assert (L1 := fitsR v r a Hr Ha). assert (L2 := fitsC v c b Hc Hb).
      unfold assert_. rewrite !ltb_true by auto. cbn [bind].
      rewrite (mget2_tens F nS (vI v) (vR v) (vC v) t s h (r * vsr v + a) (c * vsc v + b)) by (auto; unfold pix; ring). cbn [bind].
      replace (s * oC v * oR v + r * oC v + c) with (crow v s r c) by (unfold crow, pix; ring).
      replace (h * vkr v * vkc v + a * vkc v + b) with (ccol v h a b) by (unfold ccol, pix; ring).
      rewrite mset2_flat by (try apply crow_lt; try apply ccol_lt; auto). apply Ok_eq, mflat_ext. intros k _. reflexivity. }
  apply Ok_eq, col_cells. intros s r c h a b Hs Hr Hc Hh Ha Hb. fold K. set (V := t s h (r * vsr v + a) (c * vsc v + b)).
  assert (KP : forall s' h' a' b' r' c', h' < vI v -> a' < vkr v -> b' < vkc v -> r' < oR v -> c' < oC v -> keeps V (fun x => W s' h' a' b' r' c' (crow v s r c * K + ccol v h a b) x)).
  { intros. unfold W. apply if_keeps. intro E. apply Nat.eqb_eq, a6_inj in E; auto. destruct E as (-> & -> & -> & -> & -> & ->). reflexivity. }
  apply (seq_hits F V nS s); [intros; repeat (apply seq_keeps; intros); apply KP; auto|solve [auto]|].
  apply (seq_hits F V (vI v) h); [intros; repeat (apply seq_keeps; intros); apply KP; auto|solve [auto]|].
  apply (seq_hits F V (vkr v) a); [intros; repeat (apply seq_keeps; intros); apply KP; auto|solve [auto]|].
  apply (seq_hits F V (vkc v) b); [intros; repeat (apply seq_keeps; intros); apply KP; auto|solve [auto]|].
  apply (seq_hits F V (oR v) r); [intros; repeat (apply seq_keeps; intros); apply KP; auto|solve [auto]|].
  apply (seq_hits F V (oC v) c); [intros; repeat (apply seq_keeps; intros); apply KP; auto|solve [auto]|].
  unfold W. apply if_hits; auto. apply Nat.eqb_refl.
Qed.

(* the look-up table holds the image offset of every kernel cell *)
Lemma lut_gen : forall v, lut v = Ok (map (fun j => pix (vR v) (vC v) (j / vkc v / vkr v) ((j / vkc v) mod vkr v) (j mod vkc v)) (seq 0 (vI v * vkr v * vkc v))).
Proof.
  intro v. unfold lut. set (K := vI v * vkr v * vkc v). set (f := fun j => pix (vR v) (vC v) (j / vkc v / vkr v) ((j / vkc v) mod vkr v) (j mod vkc v)).
  replace (ksize v) with K by (unfold K, ksize; ring).
  assert (E : repeat 0 K = map (fun _ => 0) (seq 0 K)).
  { apply list_ext. intro i. destruct (lt_dec i K).
    - rewrite nth_error_map_seq by auto. apply nth_error_repeat. auto.
    - rewrite !(proj2 (nth_error_None _ _)); auto; rewrite ?repeat_length, ?map_length, ?seq_length; lia. }
  rewrite E.
  set (W := fun h a b k (x : nat) => if ccol v h a b =? k then f k else x).
  rewrite (@forN_sim _ _ (fun q => map q (seq 0 K))) with (step := fun h (q : nat -> nat) => fun k => fold_left (fun x a => fold_left (fun x b => W h a b k x) (seq 0 (vkc v)) x) (seq 0 (vkr v)) (q k)).
  2:{ intros h q Hh. unfold loop2. rewrite (@forN_sim _ _ (fun q => map q (seq 0 K))) with (step := fun a (q : nat -> nat) => fun k => fold_left (fun x b => W h a b k x) (seq 0 (vkc v)) (q k)).
      2:{ intros a q1 Ha. rewrite (@forN_sim _ _ (fun q => map q (seq 0 K))) with (step := fun b (q : nat -> nat) => fun k => W h a b k (q k)).
          2:{ intros b q2 Hb. replace (b + a * vkc v + h * vkr v * vkc v) with (ccol v h a b) by (unfold ccol, pix; ring).
              rewrite rset_seq by (apply ccol_lt; auto). apply Ok_eq, map_ext. intro k. unfold W, fupd.
              destruct (Nat.eqb_spec (ccol v h a b) k); auto. subst k. unfold f, ccol. rewrite pix_h, pix_r, pix_c by auto. unfold pix. ring. }
          apply Ok_eq, map_ext_in. intros k _. rewrite (@fold_point nat nat nat (fun b (q : nat -> nat) => fun k => W h a b k (q k)) (fun b x => W h a b k x)); auto. }
      apply Ok_eq, map_ext_in. intros k _. rewrite (@fold_point nat nat nat (fun a (q : nat -> nat) => fun k => fold_left (fun x b => W h a b k x) (seq 0 (vkc v)) (q k)) (fun a x => fold_left (fun x b => W h a b k x) (seq 0 (vkc v)) x)); auto. }
  apply Ok_eq, map_ext_in. intros k Hk. apply in_seq in Hk.
  rewrite (@fold_point nat nat nat (fun h (q : nat -> nat) => fun k => fold_left (fun x a => fold_left (fun x b => W h a b k x) (seq 0 (vkc v)) x) (seq 0 (vkr v)) (q k)) (fun h x => fold_left (fun x a => fold_left (fun x b => W h a b k x) (seq 0 (vkc v)) x) (seq 0 (vkr v)) x)); auto.
  destruct (pix_inv (vI v) (vkr v) (vkc v) k ltac:(unfold K in Hk; lia)) as (B1 & B2 & B3 & B4).
  assert (KP : forall h a b, keeps (f k) (fun x => W h a b k x)) by (intros; unfold W; apply if_keeps; auto).
  apply (seq_hits nat (f k) (vI v) (k / vkc v / vkr v)); [intros; repeat (apply seq_keeps; intros); apply KP; auto|solve [auto]|].
  apply (seq_hits nat (f k) (vkr v) ((k / vkc v) mod vkr v)); [intros; repeat (apply seq_keeps; intros); apply KP; auto|solve [auto]|].
  apply (seq_hits nat (f k) (vkc v) (k mod vkc v)); [intros; repeat (apply seq_keeps; intros); apply KP; auto|solve [auto]|].
  unfold W. apply if_hits; auto. apply Nat.eqb_eq. exact B4.
Qed.

Lemma im2colLUT_gen : forall v nS (t : nat -> nat -> nat -> nat -> F) col l, mwf col -> lut v = Ok l ->
  im2colLUT F v l (tens nS (vI v) (vR v) (vC v) t) col = Ok (mgen (nS * oR v * oC v) (vI v * vkr v * vkc v) (colAt v t)).
Proof.
  intros v nS t col l Hcol Hl. rewrite lut_gen in Hl. injection Hl as <-. unfold im2colLUT. change (mcols (tens nS (vI v) (vR v) (vC v) t)) with (vI v * vR v * vC v). change (mrows (tens nS (vI v) (vR v) (vC v) t)) with nS.
  unfold assert_. replace (vI v * vR v * vC v =? vR v * vC v * vI v) with true by (symmetry; apply Nat.eqb_eq; ring). cbn [bind]. cbv zeta.
  rewrite map_length, seq_length.
  destruct (resize_tflat F col (oR v * oC v * nS) (ksize v) (nS * oR v * oC v) (vI v * vkr v * vkc v) Hcol) as [g ->]; [ring|unfold ksize; ring|].
  set (r0 := nS * oR v * oC v). set (K := vI v * vkr v * vkc v).
  set (W := fun s r c i k (x : F) => if crow v s r c * K + i =? k then colAt v t (crow v s r c) i else x).
  rewrite (kloop F r0 K nS _ (fun s k x => fold_left (fun x r => fold_left (fun x c => fold_left (fun x i => W s r c i k x) (seq 0 K) x) (seq 0 (oC v)) x) (seq 0 (oR v)) x)).
  2:{ intros s q Hs. apply (kloop2 F r0 K (oR v) (oC v) _ (fun r c k x => fold_left (fun x i => W s r c i k x) (seq 0 K) x)). intros r c q1 Hr Hc.
      apply (kloop F r0 K K _ (fun i k x => W s r c i k x)). intros i q2 Hi. rewrite rget_seq by auto. cbn [bind].
      destruct (pix_inv (vI v) (vkr v) (vkc v) i Hi) as (B1 & B2 & B3 & B4).
      assert (L1 := fitsR v r _ Hr B2). assert (L2 := fitsC v c _ Hc B3).
      replace (rget (mdata (tens nS (vI v) (vR v) (vC v) t)) (s * vR v * vC v * vI v + r * vC v * vsr v + c * vsc v + pix (vR v) (vC v) (i / vkc v / vkr v) ((i / vkc v) mod vkr v) (i mod vkc v)))
        with (Ok (colAt v t (crow v s r c) i)).
      2:{ destruct (tens_is_flat F nS (vI v) (vR v) (vC v) t) as (gt & Et & Hgt). rewrite Et.
          replace (s * vR v * vC v * vI v + r * vC v * vsr v + c * vsc v + pix (vR v) (vC v) (i / vkc v / vkr v) ((i / vkc v) mod vkr v) (i mod vkc v))
            with (addr4 (vI v) (vR v) (vC v) s (i / vkc v / vkr v) (r * vsr v + (i / vkc v) mod vkr v) (c * vsc v + i mod vkc v)) by (unfold addr4, pix; ring).
          rewrite rget_flat by (apply addr4_lt; auto). rewrite Hgt by auto. unfold colAt, crow. rewrite pix_h, pix_r, pix_c by auto. reflexivity. }
      cbn [bind]. change (mcols (mflat r0 K q2)) with K. change (mrows (mflat r0 K q2)) with r0.
      replace ((c + r * oC v) * K + s * oC v * oR v * K + i) with (crow v s r c * K + i) by (unfold crow, pix; ring).
      rewrite rset_flat by (apply idx_lt; auto; apply crow_lt; auto). apply Ok_eq. reflexivity. }
  apply Ok_eq, col_cells. intros s r c h a b Hs Hr Hc Hh Ha Hb. fold K. rewrite <- colAt_at by auto. set (V := colAt v t (crow v s r c) (ccol v h a b)).
  assert (Lc := ccol_lt v h a b Hh Ha Hb).
  assert (KP : forall s' r' c' i', r' < oR v -> c' < oC v -> i' < K -> keeps V (fun x => W s' r' c' i' (crow v s r c * K + ccol v h a b) x)).
  { intros. unfold W. apply if_keeps. intro E. apply Nat.eqb_eq, idx_inj in E; auto. destruct E as [-> ->]. reflexivity. }
  apply (seq_hits F V nS s); [intros; repeat (apply seq_keeps; intros); apply KP; auto|solve [auto]|].
  apply (seq_hits F V (oR v) r); [intros; repeat (apply seq_keeps; intros); apply KP; auto|solve [auto]|].
  apply (seq_hits F V (oC v) c); [intros; repeat (apply seq_keeps; intros); apply KP; auto|solve [auto]|].
  apply (seq_hits F V K (ccol v h a b)); [intros; repeat (apply seq_keeps; intros); apply KP; auto|solve [auto]|].
  unfold W. apply if_hits; auto. apply Nat.eqb_refl.
Qed.
Lemma im2col_paths : forall v nS (t : nat -> nat -> nat -> nat -> F) col, mwf col -> exists l, lut v = Ok l /\
  im2colLUT F v l (tens nS (vI v) (vR v) (vC v) t) col = im2col F v (tens nS (vI v) (vR v) (vC v) t) col.
Proof. intros. eexists. split; [apply lut_gen|]. rewrite im2col_gen by auto. apply im2colLUT_gen; auto. apply lut_gen. Qed.

(** reshape_to_out / reshape_from_out *)
Lemma rowCopy_flat : forall n k (p q : nat -> F) a b, a < n -> b < n ->
  rowCopy F (mflat n k p) a (mflat n k q) b = Ok (mflat n k (fun x => if x / k =? a then q (b * k + x mod k) else p x)).
Proof.
  intros n k p q a b Ha Hb. unfold rowCopy. change (mrows (mflat n k p)) with n. change (mcols (mflat n k p)) with k. unfold assert_. rewrite ltb_true by auto. cbn [bind].
  rewrite (mflat_gen F n k q). rewrite mrow_gen by auto. cbn [bind].
  eapply eq_trans; [apply (kloop F n k k _ (fun j x v => if x =? a * k + j then q (b * k + j) else v))|].
  - intros j p' Hj. rewrite mgen_flat. rewrite mget1_flat by lia. cbn [bind]. rewrite mset2_flat by auto. apply Ok_eq, mflat_ext. intros x _. unfold fupd.
    rewrite Nat.eqb_sym. destruct (Nat.eqb_spec x (a * k + j)); auto. rewrite Nat.mod_small by auto. reflexivity.
  - apply Ok_eq, mflat_ext. intros x Hx. assert (k <> 0) by (intro; subst; lia). pose proof (@idx_eq x k H) as E. pose proof (Nat.mod_upper_bound x k H).
    destruct (Nat.eqb_spec (x / k) a) as [E1|E1].
    + rewrite (@fold_left_ext_in _ _ _ (fun v j => if j =? x mod k then q (b * k + j) else v)).
      * apply (fold_hit0 (fun j _ => q (b * k + j))); auto.
      * intros v j Hj. apply in_seq in Hj. subst a. destruct (Nat.eqb_spec x (x / k * k + j)), (Nat.eqb_spec j (x mod k)); auto; lia.
    + apply fold_left_id. intros v j Hj. apply in_seq in Hj. destruct (Nat.eqb_spec x (a * k + j)); auto. exfalso. apply E1. subst x. apply idx_div. lia.
Qed.
Lemma reshapeToOut_gen : forall v nS (m : nat -> nat -> F),
  reshapeToOut F v nS (mgen (vO v) (nS * oR v * oC v) m) = Ok (tens nS (vO v) (oR v) (oC v) (fun s o r c => m o (crow v s r c))).
Proof.
  intros v nS m. unfold reshapeToOut. change (mcols (mgen (vO v) (nS * oR v * oC v) m)) with (nS * oR v * oC v). change (mrows (mgen (vO v) (nS * oR v * oC v) m)) with (vO v).
  unfold assert_. rewrite !Nat.eqb_refl. cbn [bind]. cbv zeta. rewrite (mgen_flat F (vO v) (nS * oR v * oC v) m). set (g := fun k => m (k / (nS * oR v * oC v)) (k mod (nS * oR v * oC v))).
  rewrite mresize_view by ring. set (P := oR v * oC v).
  set (W := fun o s x (y : F) => if x / P =? o + s * vO v then g ((s + o * nS) * P + x mod P) else y).
  rewrite (kloop2 F (nS * vO v) P (vO v) nS _ (fun o s x y => W o s x y)).
  2:{ intros o s q Ho Hs. rewrite rowCopy_flat; auto; nia. }
  cbn [bind]. rewrite mresize_view by (unfold P; ring). apply Ok_eq.
  replace (P * vO v) with (vO v * oR v * oC v) by (unfold P; ring). apply flat_tens. intros s o r c Hs Ho Hr Hc.
  assert (HP : r * oC v + c < P) by (apply idx_lt; auto).
  assert (E : addr4 (vO v) (oR v) (oC v) s o r c = (o + s * vO v) * P + (r * oC v + c)) by (unfold addr4, P; ring). rewrite E.
  assert (EV : g ((s + o * nS) * P + (r * oC v + c)) = m o (crow v s r c)).
  { unfold g. replace ((s + o * nS) * P + (r * oC v + c)) with (o * (nS * oR v * oC v) + crow v s r c) by (unfold crow, pix, P; ring).
    rewrite idx_div, idx_mod by (apply crow_lt; auto). reflexivity. }
  set (V := m o (crow v s r c)) in *.
  assert (KP : forall o' s', o' < vO v -> keeps V (fun y => W o' s' ((o + s * vO v) * P + (r * oC v + c)) y)).
  { intros o' s' Ho'. unfold W. apply if_keeps. intro E'. rewrite idx_div in E' by auto. apply Nat.eqb_eq in E'. rewrite idx_mod by auto.
    rewrite (Nat.add_comm o), (Nat.add_comm o') in E'. apply idx_inj in E'; auto. destruct E' as [<- <-]. exact EV. }
  apply (seq_hits F V (vO v) o); [intros; apply seq_keeps; intros; apply KP; auto|solve [auto]|].
  apply (seq_hits F V nS s); auto. unfold W. apply if_hits; rewrite ?idx_div, ?idx_mod by auto; auto. apply Nat.eqb_refl.
Qed.
Lemma reshapeFromOut_gen : forall v nS (t : nat -> nat -> nat -> nat -> F),
  reshapeFromOut F v nS (tens nS (vO v) (oR v) (oC v) t) =
  Ok (mgen (vO v) (nS * oR v * oC v) (fun o i => t (i / oC v / oR v) o ((i / oC v) mod oR v) (i mod oC v))).
Proof.
  intros v nS t. unfold reshapeFromOut. change (mcols (tens nS (vO v) (oR v) (oC v) t)) with (vO v * oR v * oC v). change (mrows (tens nS (vO v) (oR v) (oC v) t)) with nS.
  unfold assert_. rewrite !Nat.eqb_refl. cbn [bind]. cbv zeta. destruct (tens_is_flat F nS (vO v) (oR v) (oC v) t) as (g & -> & Hg).
  rewrite mresize_view by ring. set (P := oR v * oC v).
  set (W := fun o s x (y : F) => if x / P =? s + o * nS then g ((o + s * vO v) * P + x mod P) else y).
  rewrite (kloop2 F (nS * vO v) P (vO v) nS _ (fun o s x y => W o s x y)).
  2:{ intros o s q Ho Hs. rewrite rowCopy_flat; auto; nia. }
  cbn [bind]. rewrite mresize_view by (unfold P; ring). apply Ok_eq.
  replace (P * nS) with (nS * oR v * oC v) by (unfold P; ring). rewrite mflat_gen. apply mgen_ext. intros o i Ho Hi.
  destruct (pix_inv nS (oR v) (oC v) i Hi) as (A1 & A2 & A3 & A4). set (s := i / oC v / oR v) in *. set (r := (i / oC v) mod oR v) in *. set (c := i mod oC v) in *.
  assert (HP : r * oC v + c < P) by (apply idx_lt; auto).
  assert (E : o * (nS * oR v * oC v) + i = (s + o * nS) * P + (r * oC v + c)) by (rewrite <- A4; unfold pix, P; ring). rewrite E.
  assert (EV : g ((o + s * vO v) * P + (r * oC v + c)) = t s o r c).
  { rewrite <- Hg by auto. f_equal. unfold addr4, P. ring. }
  set (V := t s o r c) in *.
  assert (KP : forall o' s', s' < nS -> keeps V (fun y => W o' s' ((s + o * nS) * P + (r * oC v + c)) y)).
  { intros o' s' Hs'. unfold W. apply if_keeps. intro E'. rewrite idx_div in E' by auto. apply Nat.eqb_eq in E'. rewrite idx_mod by auto.
    rewrite (Nat.add_comm s), (Nat.add_comm s') in E'. apply idx_inj in E'; auto. destruct E' as [<- <-]. exact EV. }
  apply (seq_hits F V (vO v) o); [intros; apply seq_keeps; intros; apply KP; auto|solve [auto]|].
  apply (seq_hits F V nS s); [intros; apply KP; auto|solve [auto]|]. unfold W. apply if_hits; rewrite ?idx_div, ?idx_mod by auto; auto. apply Nat.eqb_refl.
Qed.

(* forward, either path: bit-exact *)
Lemma fwdConv_gen : forall v fast nS (w : nat -> nat -> F) (t : nat -> nat -> nat -> nat -> F) col, convOk v = Ok tt -> mwf col ->
  fwdConv F v fast (mgen (vO v) (vI v * vkr v * vkc v) w) col (tens nS (vI v) (vR v) (vC v) t) =
  Ok (mgen (nS * oR v * oC v) (vI v * vkr v * vkc v) (colAt v t),
      tens nS (vO v) (oR v) (oC v) (fun s o r c => fsum F (vI v * vkr v * vkc v) (fun k =>
        fmul F (w o k) (t s (k / vkc v / vkr v) (r * vsr v + (k / vkc v) mod vkr v) (c * vsc v + k mod vkc v))))).
Proof.
  intros v fast nS w t col Hok Hcol. unfold fwdConv. rewrite Hok. cbn [bind]. change (mrows (tens nS (vI v) (vR v) (vC v) t)) with nS.
  assert (E : (if fast then l <- lut v ;; im2colLUT F v l (tens nS (vI v) (vR v) (vC v) t) col else im2col F v (tens nS (vI v) (vR v) (vC v) t) col) =
    Ok (mgen (nS * oR v * oC v) (vI v * vkr v * vkc v) (colAt v t))).
  { destruct fast; [|apply im2col_gen; auto]. rewrite lut_gen. cbn [bind]. apply im2colLUT_gen; auto. apply lut_gen. }
  rewrite E. cbn [bind]. rewrite mtranspose_gen. cbn [bind]. rewrite mmul_gen. cbn [bind]. rewrite reshapeToOut_gen. cbn [bind]. apply Ok_eq. f_equal.
  apply tens_ext. intros s o r c Hs Ho Hr Hc. unfold fsum. apply fold_left_ext_in. intros x k Hk. unfold colAt, crow. rewrite pix_h, pix_r, pix_c by auto. reflexivity.
Qed.
End Im2col.
