(* LayConv2.v - convolution: col2im, both paths *)
From Coq Require Import List Arith Bool Lia Reals Lra ZArith.
From Coquelicot Require Import Coquelicot.
From Verif Require Import Base Scalar Mat SpecMat SpecReal RSum MatFacts MatProofs MatLoops Scatter RDeriv Loss SpecLoss LayMat LayImg LayKit SpecLayer LayGrad LayCurve LayTens ImgKit ImgDot LayProofs2 LayConv1.
Import ListNotations.
Local Open Scope nat_scope.

Definition iaddr v s h r c := addr4 (vI v) (vR v) (vC v) s h r c.
Section Fold.
Variable F : FOps.
Variable v : conv.
Variable col : nat -> nat -> F.
(* add cell (h,a,b; s,r,c) of the column matrix to cell k of the image *)
Definition step6 s r c h a b k (x : F) : F :=
  if iaddr v s h (r * vsr v + a) (c * vsc v + b) =? k then fadd F x (col (ccol v h a b) (crow v s r c)) else x.
Definition slowRow s r k (x : F) : F :=
  fold_left (fun x c => fold_left (fun x h => fold_left (fun x a => fold_left (fun x b => step6 s r c h a b k x) (seq 0 (vkc v)) x) (seq 0 (vkr v)) x) (seq 0 (vI v)) x) (seq 0 (oC v)) x.
Definition fastRow s r k (x : F) : F :=
  fold_left (fun x h => fold_left (fun x a => fold_left (fun x b => fold_left (fun x c => step6 s r c h a b k x) (seq 0 (oC v)) x) (seq 0 (vkc v)) x) (seq 0 (vkr v)) x) (seq 0 (vI v)) x.
Definition allRows (row : nat -> nat -> nat -> F -> F) nS k : F :=
  fold_left (fun x s => fold_left (fun x r => row s r k x) (seq 0 (oR v)) x) (seq 0 nS) (f0 F).

Lemma mscale_flat : forall r c (g : nat -> F) d, mscale F (mflat r c g) d = Ok (mflat r c (fun k => fmul F (g k) d)).
Proof.
  intros. unfold mscale. rewrite mflat_gen. rewrite mapLoop_gen. apply Ok_eq. rewrite mflat_gen. reflexivity.
Qed.
Lemma col2im_gen : forall nS im, mwf im ->
  col2im F v nS (mgen (vI v * vkr v * vkc v) (nS * oR v * oC v) col) im =
  Ok (mflat nS (vI v * vR v * vC v) (fun k => fmul F (allRows slowRow nS k) (imScale F v))).
Proof.
  intros nS im Him. unfold col2im. change (mrows (mgen (vI v * vkr v * vkc v) (nS * oR v * oC v) col)) with (vI v * vkr v * vkc v).
  change (mcols (mgen (vI v * vkr v * vkc v) (nS * oR v * oC v) col)) with (nS * oR v * oC v). unfold assert_ at 1 2.
  replace (vI v * vkr v * vkc v =? ksize v) with true by (symmetry; apply Nat.eqb_eq; unfold ksize; ring).
  replace (nS * oR v * oC v =? oR v * oC v * nS) with true by (symmetry; apply Nat.eqb_eq; ring). cbn [bind].
  rewrite msetZero_gen by auto. cbn [bind]. rewrite (mgen_flat F nS (vI v * vR v * vC v)). set (N := vI v * vR v * vC v).
  rewrite (kloop F nS N nS _ (fun s k x => fold_left (fun x r => slowRow s r k x) (seq 0 (oR v)) x)).
  2:{ intros s q Hs.
      rewrite (kloop2 F nS N (oR v) (oC v) _ (fun r c k x => fold_left (fun x h => fold_left (fun x a => fold_left (fun x b => step6 s r c h a b k x) (seq 0 (vkc v)) x) (seq 0 (vkr v)) x) (seq 0 (vI v)) x)).
      2:{ intros r c q1 Hr Hc. apply (kloop F nS N (vI v) _ (fun h k x => fold_left (fun x a => fold_left (fun x b => step6 s r c h a b k x) (seq 0 (vkc v)) x) (seq 0 (vkr v)) x)).
          intros h q2 Hh. apply (kloop2 F nS N (vkr v) (vkc v) _ (fun a b k x => step6 s r c h a b k x)). intros a b q3 Ha Hb. cbv zeta.
          assert (L1 := fitsR v r a Hr Ha). assert (L2 := fitsC v c b Hc Hb). unfold assert_. rewrite !ltb_true by auto. cbn [bind].
          replace (s * oC v * oR v + r * oC v + c) with (crow v s r c) by (unfold crow, pix; ring).
          replace (h * vkr v * vkc v + a * vkc v + b) with (ccol v h a b) by (unfold ccol, pix; ring).
          rewrite mget2_gen by (try apply crow_lt; try apply ccol_lt; auto). cbn [bind].
          replace (h * vR v * vC v + (r * vsr v + a) * vC v + (c * vsc v + b)) with (pix (vR v) (vC v) h (r * vsr v + a) (c * vsc v + b)) by (unfold pix; ring).
          assert (L3 := pix_lt (vI v) (vR v) (vC v) h _ _ Hh L1 L2). fold N in L3.
          rewrite mget2_flat by auto. cbn [bind]. rewrite mset2_flat by auto. apply Ok_eq, mflat_ext. intros k _. unfold step6, iaddr, fupd. rewrite addr4_pix. fold N.
          rewrite Nat.eqb_sym. destruct (Nat.eqb_spec k (s * N + pix (vR v) (vC v) h (r * vsr v + a) (c * vsc v + b))); subst; rewrite ?Nat.eqb_refl; auto. }
      reflexivity. }
  cbn [bind]. apply mscale_flat.
Qed.
Lemma col2imLUT_gen : forall nS im, mwf im ->
  col2imLUT F v nS (mgen (vI v * vkr v * vkc v) (nS * oR v * oC v) col) im =
  Ok (mflat nS (vI v * vR v * vC v) (fun k => fmul F (allRows fastRow nS k) (imScale F v))).
Proof.
  intros nS im Him. unfold col2imLUT. change (mrows (mgen (vI v * vkr v * vkc v) (nS * oR v * oC v) col)) with (vI v * vkr v * vkc v).
  change (mcols (mgen (vI v * vkr v * vkc v) (nS * oR v * oC v) col)) with (nS * oR v * oC v). unfold assert_ at 1 2.
  replace (vI v * vkr v * vkc v =? ksize v) with true by (symmetry; apply Nat.eqb_eq; unfold ksize; ring).
  replace (nS * oR v * oC v =? oR v * oC v * nS) with true by (symmetry; apply Nat.eqb_eq; ring). cbn [bind].
  rewrite msetZero_gen by auto. cbn [bind]. rewrite (mgen_flat F nS (vI v * vR v * vC v)). set (N := vI v * vR v * vC v).
  rewrite (kloop2 F nS N nS (oR v) _ (fun s r k x => fastRow s r k x)).
  2:{ intros s r q Hs Hr. apply (kloop F nS N (vI v) _ (fun h k x => fold_left (fun x a => fold_left (fun x b => fold_left (fun x c => step6 s r c h a b k x) (seq 0 (oC v)) x) (seq 0 (vkc v)) x) (seq 0 (vkr v)) x)).
      intros h q2 Hh. apply (kloop2 F nS N (vkr v) (vkc v) _ (fun a b k x => fold_left (fun x c => step6 s r c h a b k x) (seq 0 (oC v)) x)). intros a b q3 Ha Hb.
      apply (kloop F nS N (oC v) _ (fun c k x => step6 s r c h a b k x)). intros c q4 Hc.
      assert (L1 := fitsR v r a Hr Ha). assert (L2 := fitsC v c b Hc Hb). 
      replace (s * oC v * oR v + r * oC v + c) with (crow v s r c) by (unfold crow, pix; ring).
      replace (h * vkr v * vkc v + a * vkc v + b) with (ccol v h a b) by (unfold ccol, pix; ring).
      rewrite mget2_gen by (try apply crow_lt; try apply ccol_lt; auto). cbn [bind]. cbv zeta.
      replace (s * vR v * vC v * vI v + r * vsr v * vC v + (a * vC v + h * vR v * vC v) + b + c * vsc v) with (iaddr v s h (r * vsr v + a) (c * vsc v + b)) by (unfold iaddr, addr4; ring).
      assert (L3 := addr4_lt nS (vI v) (vR v) (vC v) s h _ _ Hs Hh L1 L2). fold N in L3. change (addr4 (vI v) (vR v) (vC v)) with (iaddr v) in L3.
      rewrite rget_flat by auto. cbn [bind]. rewrite rset_flat by auto. cbn [bind]. change (mrows (mflat nS N q4)) with nS. change (mcols (mflat nS N q4)) with N.
      apply Ok_eq. change (mkMat nS N (mdata (mflat nS N (fupd q4 (iaddr v s h (r * vsr v + a) (c * vsc v + b)) (fadd F (q4 (iaddr v s h (r * vsr v + a) (c * vsc v + b))) (col (ccol v h a b) (crow v s r c)))))))
        with (mflat nS N (fupd q4 (iaddr v s h (r * vsr v + a) (c * vsc v + b)) (fadd F (q4 (iaddr v s h (r * vsr v + a) (c * vsc v + b))) (col (ccol v h a b) (crow v s r c))))).
      apply mflat_ext. intros k _. unfold step6, fupd. rewrite Nat.eqb_sym. destruct (Nat.eqb_spec k (iaddr v s h (r * vsr v + a) (c * vsc v + b))); subst; rewrite ?Nat.eqb_refl; auto. }
  cbn [bind]. apply mscale_flat.
Qed.

(* at most one index acts *)
Lemma fold_one : forall A n i0 (H : nat -> A -> A) x, (forall i y, i < n -> i <> i0 -> H i y = y) ->
  fold_left (fun x i => H i x) (seq 0 n) x = if i0 <? n then H i0 x else x.
Proof.
  intros A n i0 H x HH. rewrite <- (fold_hit_lt A (fun i y => H i y)). apply fold_left_ext_in. intros y i Hi. apply in_seq in Hi.
  destruct (Nat.eqb_spec i i0); auto. apply HH; lia.
Qed.
Lemma rows_agree : forall s r k x, vkc v <= vsc v -> r < oR v -> slowRow s r k x = fastRow s r k x.
Proof.
  intros s r k x Hk Hr. destruct (Nat.eq_dec (vkc v) 0) as [K0|K0].
  { unfold slowRow, fastRow. rewrite K0. transitivity x; [|symmetry].
    - apply fold_left_id. intros. apply fold_left_id. intros. apply fold_left_id. reflexivity.
    - apply fold_left_id. intros. apply fold_left_id. reflexivity. }
  set (N := vI v * vR v * vC v). set (h0 := k mod N / vC v / vR v). set (a0 := (k mod N / vC v) mod vR v - r * vsr v). set (c0 := (k mod N) mod vC v / vsc v). set (b0 := (k mod N) mod vC v mod vsc v).
  assert (ST : forall c h a b y, c < oC v -> h < vI v -> a < vkr v -> b < vkc v -> (c <> c0 \/ h <> h0 \/ a <> a0 \/ b <> b0) -> step6 s r c h a b k y = y).
  { intros c h a b y Hc Hh Ha Hb D. unfold step6. destruct (Nat.eqb_spec (iaddr v s h (r * vsr v + a) (c * vsc v + b)) k) as [E|]; auto. exfalso.
    assert (L1 := fitsR v r a Hr Ha). assert (L2 := fitsC v c b Hc Hb). assert (L3 := pix_lt (vI v) (vR v) (vC v) h _ _ Hh L1 L2). fold N in L3.
    unfold iaddr in E. rewrite addr4_pix in E. fold N in E. assert (EM : k mod N = pix (vR v) (vC v) h (r * vsr v + a) (c * vsc v + b)) by (rewrite <- E; apply idx_mod; auto).
    assert (h = h0) by (unfold h0; rewrite EM, pix_h; auto). assert (a = a0) by (unfold a0; rewrite EM, pix_r by auto; lia).
    assert (c = c0) by (unfold c0; rewrite EM, pix_c by auto; symmetry; apply idx_div; lia). assert (b = b0) by (unfold b0; rewrite EM, pix_c by auto; symmetry; apply idx_mod; lia). tauto. }
  unfold slowRow, fastRow.
  rewrite (fold_one F (oC v) c0 (fun c x => fold_left (fun x h => fold_left (fun x a => fold_left (fun x b => step6 s r c h a b k x) (seq 0 (vkc v)) x) (seq 0 (vkr v)) x) (seq 0 (vI v)) x)).
  2:{ intros c y Hc Hn. apply fold_left_id. intros y1 h Hh. apply fold_left_id. intros y2 a Ha. apply fold_left_id. intros y3 b Hb. apply in_seq in Hh, Ha, Hb. apply ST; auto; lia. }
  rewrite (fold_one F (vI v) h0 (fun h x => fold_left (fun x a => fold_left (fun x b => fold_left (fun x c => step6 s r c h a b k x) (seq 0 (oC v)) x) (seq 0 (vkc v)) x) (seq 0 (vkr v)) x)).
  2:{ intros h y Hc Hn. apply fold_left_id. intros y1 a Hh. apply fold_left_id. intros y2 b Ha. apply fold_left_id. intros y3 c Hb. apply in_seq in Hh, Ha, Hb. apply ST; auto; lia. }
  destruct (Nat.ltb_spec c0 (oC v)) as [Hc0|Hc0].
  - rewrite (fold_one F (vI v) h0 (fun h x => fold_left (fun x a => fold_left (fun x b => step6 s r c0 h a b k x) (seq 0 (vkc v)) x) (seq 0 (vkr v)) x)).
    2:{ intros h y Hh Hn. apply fold_left_id. intros y2 a Ha. apply fold_left_id. intros y3 b Hb. apply in_seq in Ha, Hb. apply ST; auto; lia. }
    destruct (Nat.ltb_spec h0 (vI v)); auto. apply fold_left_ext_in. intros y a Ha. apply in_seq in Ha. apply fold_left_ext_in. intros y1 b Hb. apply in_seq in Hb.
    rewrite (fold_one F (oC v) c0 (fun c x => step6 s r c h0 a b k x)); [rewrite ltb_true by auto; reflexivity|]. intros. apply ST; auto; lia.
  - destruct (Nat.ltb_spec h0 (vI v)); auto. symmetry. apply fold_left_id. intros y1 a Hh. apply fold_left_id. intros y2 b Ha. apply fold_left_id. intros y3 c Hb. apply in_seq in Hh, Ha, Hb. apply ST; auto; lia.
Qed.
Lemma col2im_disjoint : forall nS im, mwf im -> vkc v <= vsc v ->
  col2imLUT F v nS (mgen (vI v * vkr v * vkc v) (nS * oR v * oC v) col) im = col2im F v nS (mgen (vI v * vkr v * vkc v) (nS * oR v * oC v) col) im.
Proof.
  intros nS im Him Hk. rewrite col2im_gen, col2imLUT_gen by auto. apply Ok_eq, mflat_ext. intros k _. f_equal. unfold allRows. apply fold_left_ext_in. intros x s Hs.
  apply fold_left_ext_in. intros y r Hr. apply in_seq in Hr. symmetry. apply rows_agree; auto. lia.
Qed.
End Fold.
