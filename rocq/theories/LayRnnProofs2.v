(* LayRnnProofs2.v - back-propagation through the recurrent layers *)
From Coq Require Import List Arith Bool Lia ZArith Reals Lra.
From Verif Require Import Base Scalar SpecReal Mat SpecMat MatFacts MatProofs MatProofs2 MatLoops RSum LayMat LayKit LayRnn LayRnnProofs Layer SpecRnn.
Import ListNotations.
Local Open Scope nat_scope.

Lemma bindOk : forall A B (x : res A) a (k : A -> res B), x = Ok a -> bind x k = k a.
Proof. intros A B x a k ->. reflexivity. Qed.
Section RealRnn.
Variable jk : R.
Notation F := (ROps jk).

Lemma frame_started : forall u n (h W x : nat -> nat -> R) (st : rnn F), wH st = mgen u u W -> started n u (hh st) h ->
  frameRnn F Simplest u (mgen n u x) st = Ok (mgen n u (fun i j => (rsum u (fun l => h i l * W l j) + x i j)%R)).
Proof.
  intros u n h W x st E1 H. unfold frameRnn. rewrite E1. change (mrows (mgen n u x)) with n.
  assert (E : (if mrows (hh st) =? n then Ok (hh st) else msetZero F (hh st) n u) = Ok (mgen n u h)).
  { destruct H as [E2|(Hw & Hr & Hz)].
    - rewrite E2. change (mrows (mgen n u h)) with n. rewrite Nat.eqb_refl. reflexivity.
    - destruct (Nat.eqb_spec (mrows (hh st)) n); [contradiction|]. rewrite (msetZero_gen F) by auto. apply Ok_eq, mgen_ext. intros. symmetry. apply Hz. }
  rewrite E. cbn [bind]. rewrite mmul_R. cbn [bind]. exact (maddM_gen F _ _ _ _).
Qed.

Lemma simplest_states : forall u (g1 g2 : nat -> R) n nb (X h : nat -> nat -> R) (out : mat F) (st : rnn F), 0 < u -> 2 <= nb -> mwf (wH st) -> started n u (hh st) h ->
  let W := fun i j => g1 (i * u + j) in
  exists st', fwdRnn F Simplest u u true g1 g2 (mgen n (nb * u) X) out st = Ok (st', mgen n u (states u W X h (nb - 1))) /\
    wH st' = mgen u u W /\ hh st' = mgen n u (states u W X h (nb - 1)) /\ saved st' = map (fun t => mgen n u (states u W X h (S t))) (seq 0 (nb - 1)).
Proof.
  intros u g1 g2 n nb X h out st Hu Hnb Hw Hh W.
  assert (L : forall t (st0 : rnn F) (o : mat F), wH st0 = mgen u u W -> started n u (hh st0) h -> saved st0 = [] -> t <= nb - 1 -> exists st',
    forN t (fun i p => x <- colExtract F (mgen n (nb * u) X) (i * u) (i * u + u) ;; h <- frameRnn F Simplest u x (fst p) ;;
      Ok (mkRnn (wH (fst p)) (wX (fst p)) (bH (fst p)) h (saved (fst p) ++ [h]), h)) (st0, o) =
      Ok (st', if t =? 0 then o else mgen n u (states u W X h t)) /\
    wH st' = mgen u u W /\ started n u (hh st') (states u W X h t) /\ (t <> 0 -> hh st' = mgen n u (states u W X h t)) /\
    saved st' = map (fun t => mgen n u (states u W X h (S t))) (seq 0 t)).
  { induction t; intros st0 o E1 E2 E3 Ht.
    - exists st0. split; [reflexivity|]. split; [auto|]. split; [exact E2|]. split; [congruence|]. exact E3.
    - destruct (IHt st0 o E1 E2 E3 ltac:(lia)) as (st' & H1 & H2 & H3 & _ & H4).
      unfold forN in *. rewrite seq_S, forL_app, H1. cbn [bind forL Nat.add fst]. rewrite (colExtract_gen F) by nia. cbn [bind].
      replace (t * u + u - t * u) with u by lia. rewrite (frame_started u n _ W _ st' H2 H3). cbn [bind].
      eexists. split; [reflexivity|]. cbn [wH hh saved]. split; [auto|]. split; [left; reflexivity|]. split; [reflexivity|].
      rewrite H4, map_app. reflexivity. }
  unfold fwdRnn. destruct (Nat.eqb_spec u 0); [lia|].
  change (mcols (mgen n (nb * u) X)) with (nb * u). change (msize (mgen n (nb * u) X)) with (n * (nb * u)). unfold assert_. rewrite Nat.mod_mul by auto. cbn [Nat.eqb bind].
  rewrite orb_true_r. rewrite (initSimplest F) by auto. cbn [bind].
  unfold turns. rewrite Nat.div_mul by auto.
  destruct (L (nb - 1) (@mkRnn F (mgen u u (@drawn F u g1)) (wX st) (bH st) (hh st) []) out eq_refl Hh eq_refl ltac:(lia)) as (st' & H1 & H2 & _ & H3 & H4).
  exists st'. split; [|split; [auto|split; [apply H3; lia|auto]]]. destruct (Nat.eqb_spec (nb - 1) 0); [lia|]. exact H1.
Qed.

(* one backward frame *)
Lemma frame_back : forall (first : bool) n u (w : mat F) (h hm1 : nat -> nat -> R) (gin gi : mat F),
  (if first return res (mat F) then Ok gin else mmul F (mgen u n (fun i j => h j i)) w) = Ok gi ->
  bwdFrame F first w (mgen n u h) (mgen n u hm1) gin = Ok (mgen u u (fun a b => (rsum n (fun r => h r a * hm1 r b) / INR u)%R), gi).
Proof.
  intros first n u w h hm1 gin gi E. unfold bwdFrame. rewrite (mtranspose_gen F). cbn [bind]. rewrite mmul_R. cbn [bind].
  unfold mscale. rewrite (@mapLoop_gen F). cbn [bind]. refine (eq_trans (bindOk _ _ _ _ _ E) _). apply Ok_eq. f_equal. apply mgen_ext. intros i j _ _.
  change (mrows (mgen u u (fun i l : nat => rsum n (fun q => (h q i * hm1 q l)%R)))) with u. rewrite fofN_R. simpl. unfold Rdiv. ring.
Qed.

Definition lsum (f : nat -> R) (L : list nat) : R := fold_right (fun i a => (f i + a)%R) 0%R L.
Lemma lsum_app : forall f A B, lsum f (A ++ B) = (lsum f A + lsum f B)%R.
Proof. intros f A B. induction A as [|x A IH]; simpl; [lra|]. rewrite IH. lra. Qed.
Lemma lsum_rev_seq : forall f k, lsum f (rev (seq 1 k)) = rsum k (fun t => f (t + 1)).
Proof.
  intros f k. induction k; auto. rewrite seq_S, rev_app_distr. cbn [rev app]. simpl lsum. rewrite IHk. simpl rsum. replace (k + 1) with (S k) by lia. lra.
Qed.

Definition bodyB (fs : nat) (first : bool) (st : rnn F) (mIn : mat F) (i : nat) (p : mat F * mat F) : res (mat F * mat F) :=
    match nth_error (saved st) i, nth_error (saved st) (i - 1) with
    | Some h, Some hm1 =>
        colExtract F mIn (i * fs) (i * fs + fs) ;;;
        ' (gw, gi) <- bwdFrame F first (wH st) h hm1 (snd p) ;;
        s <- (if msize (fst p) =? 0 then Ok gw else maddM F (fst p) gw) ;; Ok (s, gi)
    | _, _ => Err EOob
    end.

Lemma back_loop : forall n u nb (first : bool) (X : nat -> nat -> R) (H : nat -> nat -> nat -> R) (st : rnn F) (GI : nat -> mat F -> mat F) L (S0 : nat -> nat -> R) gin,
  0 < u -> saved st = map (fun t => mgen n u (H (S t))) (seq 0 (nb - 1)) ->
  (forall i gin, In i L -> (if first return res (mat F) then Ok gin else mmul F (mgen u n (fun a b => H (S i) b a)) (wH st)) = Ok (GI i gin)) ->
  (forall i, In i L -> 1 <= i < nb - 1) ->
  forL L (bodyB u first st (mgen n (nb * u) X)) (mgen u u S0, gin) =
  Ok (mgen u u (fun a b => (S0 a b + lsum (fun i => rsum n (fun r => H (S i) r a * H i r b) / INR u) L)%R), fold_left (fun g i => GI i g) L gin).
Proof.
  intros n u nb first X H st GI L. induction L as [|i L IH]; intros S0 gin Hu Hs HG HL.
  - cbn [forL fold_left lsum fold_right]. apply Ok_eq. f_equal. apply mgen_ext. intros. simpl. ring.
  - cbn [forL]. unfold bodyB at 1. destruct (HL i (or_introl eq_refl)) as [Hi1 Hi2].
    assert (En : forall k, k < nb - 1 -> nth_error (saved st) k = Some (mgen n u (H (S k)))).
    { intros k Hk. rewrite Hs, nth_error_map. rewrite (nth_error_nth' _ 0) by (rewrite seq_length; lia). rewrite seq_nth by lia. reflexivity. }
    rewrite (En i), (En (i - 1)) by lia. replace (S (i - 1)) with i by lia.
    rewrite (colExtract_gen F) by nia. cbn [bind snd].
    rewrite (frame_back first n u (wH st) _ _ gin (GI i gin)) by (apply HG; left; reflexivity). cbn [bind fst].
    change (msize (mgen u u S0)) with (u * u). destruct (Nat.eqb_spec (u * u) 0); [nia|]. rewrite (maddM_gen F). cbn [bind].
    rewrite IH; auto.
    + apply Ok_eq. f_equal. apply mgen_ext. intros a b _ _. simpl. ring.
    + intros; apply HG; right; auto.
    + intros; apply HL; right; auto.
Qed.

Lemma simplest_backward : forall n u nb (first : bool) (X : nat -> nat -> R) (H : nat -> nat -> nat -> R) (st : rnn F) (gin gi : mat F),
  0 < u -> 3 <= nb -> saved st = map (fun t => mgen n u (H (S t))) (seq 0 (nb - 1)) ->
  (first = true /\ gi = gin \/ first = false /\ n = u /\ exists W : nat -> nat -> R, wH st = mgen u u W /\ gi = mgen u u (fun a b => rsum u (fun l => (H 2%nat l a * W l b)%R))) ->
  bwdRnn F u first st (mgen n (nb * u) X) gin = Ok (mgen u u (storedGrad n u nb H), gi).
Proof.
  intros n u nb first X H st gin gi Hu Hnb Hs Hf. unfold bwdRnn. destruct (Nat.eqb_spec u 0); [lia|].
  change (mcols (mgen n (nb * u) X)) with (nb * u). rewrite Nat.div_mul by auto.
  fold (bodyB u first st (mgen n (nb * u) X)).
  assert (EX : exists GI : nat -> mat F -> mat F, (forall i gin, 1 <= i < nb - 1 -> (if first return res (mat F) then Ok gin else mmul F (mgen u n (fun a b => H (S i) b a)) (wH st)) = Ok (GI i gin)) /\
     GI 1 (fold_left (fun g i => GI i g) (rev (seq 2 (nb - 3))) gin) = gi).
  { destruct Hf as [[-> ->]|(-> & -> & W & E & ->)].
    - exists (fun _ g => g). split; auto. generalize (rev (seq 2 (nb - 3))). intro l. induction l; auto.
    - exists (fun i _ => mgen u u (fun a b => rsum u (fun l => (H (S i) l a * W l b)%R))). split; auto. intros. rewrite E. apply mmul_R. }
  destruct EX as (GI & HG & Hgi).
  set (SUM := fun a b => lsum (fun i => (rsum n (fun r => H (S i) r a * H i r b) / INR u)%R) (rev (seq 1 (nb - 2)))).
  assert (E : forL (rev (seq 1 (nb - 2))) (bodyB u first st (mgen n (nb * u) X)) (mempty F, gin) = Ok (mgen u u SUM, gi)).
  { assert (Er : exists i0 L, rev (seq 1 (nb - 2)) = i0 :: L /\ i0 = nb - 2).
    { assert (Es : nb - 2 = S (nb - 3)) by lia. exists (1 + (nb - 3)), (rev (seq 1 (nb - 3))). split; [|lia]. rewrite Es at 1. rewrite seq_S, rev_app_distr. reflexivity. }
    destruct Er as (i0 & L & Er & Hi0).
    assert (Hin : forall i, In i (i0 :: L) -> 1 <= i < nb - 1). { intros i Hi. rewrite <- Er, <- in_rev, in_seq in Hi. lia. }
    assert (Hgi' : fold_left (fun g i => GI i g) (i0 :: L) gin = gi).
    { rewrite <- Er. replace (nb - 2) with (S (nb - 3)) by lia. cbn [seq rev]. rewrite fold_left_app. exact Hgi. }
    unfold SUM. rewrite Er. cbn [forL]. unfold bodyB at 1.
    assert (En : forall k, k < nb - 1 -> nth_error (saved st) k = Some (mgen n u (H (S k)))).
    { intros k Hk. rewrite Hs, nth_error_map. rewrite (nth_error_nth' _ 0) by (rewrite seq_length; lia). rewrite seq_nth by lia. reflexivity. }
    destruct (Hin i0 (or_introl eq_refl)) as [Hi1 Hi2].
    rewrite (En i0), (En (i0 - 1)) by lia. replace (S (i0 - 1)) with i0 by lia.
    rewrite (colExtract_gen F) by nia. cbn [bind snd].
    rewrite (frame_back first n u (wH st) _ _ gin (GI i0 gin)) by (apply HG; lia). cbn [bind fst].
    change (msize (mempty F)) with 0. cbn [Nat.eqb bind].
    rewrite (back_loop n u nb first X H st GI L); auto.
    - apply Ok_eq. f_equal. exact Hgi'.
    - intros i g Hi. apply HG. apply Hin. right; auto.
    - intros i Hi. apply Hin. right; auto. }
  fold F. rewrite E. cbn [bind]. unfold mscale. rewrite (@mapLoop_gen F). cbn [bind]. apply Ok_eq. f_equal. apply mgen_ext. intros a b _ _.
  unfold SUM, storedGrad. rewrite lsum_rev_seq, fofN_R.
  assert (Q : rsum (nb - 2) (fun t => (rsum n (fun r => H (t + 2)%nat r a * H (t + 1)%nat r b) / INR u)%R) =
              rsum (nb - 2) (fun t => (rsum n (fun r => H (S (t + 1)%nat) r a * H (t + 1)%nat r b) / INR u)%R)).
  { apply rsum_ext. intros t _. replace (t + 2) with (S (t + 1)) by lia. reflexivity. }
  rewrite Q. simpl. unfold Rdiv. ring.
Qed.

Lemma simplest_backward_batch : forall n u nb (X : nat -> nat -> R) (H : nat -> nat -> nat -> R) (st : rnn F) W (gin : mat F),
  0 < u -> 3 <= nb -> n <> u -> saved st = map (fun t => mgen n u (H (S t))) (seq 0 (nb - 1)) -> wH st = mgen u u W ->
  bwdRnn F u false st (mgen n (nb * u) X) gin = Err EAssert.
Proof.
  intros n u nb X H st W gin Hu Hnb Hn Hs Hw. unfold bwdRnn. destruct (Nat.eqb_spec u 0); [lia|].
  change (mcols (mgen n (nb * u) X)) with (nb * u). rewrite Nat.div_mul by auto.
  replace (nb - 2) with (S (nb - 3)) by lia. rewrite seq_S, rev_app_distr. cbn [rev app forL].
  assert (En : forall k, k < nb - 1 -> nth_error (saved st) k = Some (mgen n u (H (S k)))).
  { intros k Hk. rewrite Hs, nth_error_map. rewrite (nth_error_nth' _ 0) by (rewrite seq_length; lia). rewrite seq_nth by lia. reflexivity. }
  rewrite (En (1 + (nb - 3))), (En (1 + (nb - 3) - 1)) by lia. rewrite (colExtract_gen F) by nia. cbn [bind].
  unfold bwdFrame. rewrite (mtranspose_gen F). cbn [bind]. rewrite mmul_R. cbn [bind]. unfold mscale. rewrite (@mapLoop_gen F). cbn [bind].
  rewrite Hw. unfold mmul, assert_. change (mcols (mgen u n (fun i j : nat => H (S (1 + (nb - 3))) j i))) with n. change (mrows (mgen u u W)) with u.
  destruct (Nat.eqb_spec n u); [contradiction|]. reflexivity.
Qed.

(* the layer object: forward in training mode, then backward *)
Lemma simplest_trains : forall (r : rnd F) (l : layer F) u n nb (X h : nat -> nat -> R) (out G gin : mat F),
  lk l = KSimplestRnn u -> ltrain l = true -> 0 < u -> 3 <= nb -> mwf (lw l) -> started n u (hh (lrnn l)) h ->
  let W := fun i j => rf r (i * u + j) in let H := states u W X h in
  exists l1, layForward F r l (mgen n (nb * u) X) out = Ok (l1, mgen n u (H (nb - 1))) /\ lw l1 = mgen u u W /\
    (lfirst l = true -> exists l2, layBackward F l1 (mgen n (nb * u) X) G gin = Ok (l2, gin) /\ lw l2 = lw l1 /\ lgw l2 = mgen u u (storedGrad n u nb H)) /\
    (lfirst l = false -> n = u -> exists l2, layBackward F l1 (mgen n (nb * u) X) G gin = Ok (l2, mgen u u (fun a b => rsum u (fun q => (H 2%nat q a * W q b)%R))) /\
       lw l2 = lw l1 /\ lgw l2 = mgen u u (storedGrad n u nb H)) /\
    (lfirst l = false -> n <> u -> layBackward F l1 (mgen n (nb * u) X) G gin = Err EAssert).
Proof.
  intros r l u n nb X h out G gin Hk Ht Hu Hnb Hw Hh W H.
  destruct (simplest_states u (rf r) (after F r (u * u)) n nb X h out (simplestOf F l) Hu ltac:(lia) Hw Hh) as (st & E1 & E2 & E3 & E4).
  exists (setRnn (setW l (wH st)) st). unfold layForward. rewrite Hk, Ht, E1. cbn [bind]. split; [reflexivity|].
  split; [exact E2|]. unfold layBackward. change (lk (setRnn (setW l (wH st)) st)) with (lk l). rewrite Hk. change (lfirst (setRnn (setW l (wH st)) st)) with (lfirst l).
  change (simplestOf F (setRnn (setW l (wH st)) st)) with (mkRnn (wH st) (wX st) (bH st) (hh st) (saved st)).
  split; [|split].
  - intro Hf. rewrite Hf. rewrite (simplest_backward n u nb true X H _ gin gin) by (auto). cbn [bind]. eexists. split; [reflexivity|]. split; reflexivity.
  - intros Hf Hn. rewrite Hf. pose proof (simplest_backward n u nb false X H (mkRnn (wH st) (wX st) (bH st) (hh st) (saved st)) gin _ Hu Hnb E4 (or_intror (conj eq_refl (conj Hn (ex_intro _ W (conj E2 eq_refl)))))) as B. rewrite B.
    cbn [bind]. eexists. split; [reflexivity|]. split; reflexivity.
  - intros Hf Hn. rewrite Hf. rewrite (simplest_backward_batch n u nb X H _ W gin) by auto. reflexivity.
Qed.
End RealRnn.

(* SimpleRNN never computes a gradient *)
Section AnyRnn.
Variable F : FOps.
Lemma saved_length : forall k fs u g1 g2 n nb (X : nat -> nat -> F) out (st st' : rnn F) o, 0 < fs ->
  fwdRnn F k fs u true g1 g2 (mgen n (nb * fs) X) out st = Ok (st', o) -> length (saved st') = nb - 1.
Proof.
  intros k fs u g1 g2 n nb X out st st' o Hfs. unfold fwdRnn. destruct (Nat.eqb_spec fs 0); [lia|].
  destruct (assert_ _); [|discriminate]. cbn [bind]. rewrite orb_true_r.
  destruct (initRnn F k fs u g1 g2 st) as [s0|] eqn:E0; [|discriminate]. cbn [bind].
  assert (L0 : saved s0 = []).
  { unfold initRnn in E0. destruct k.
    - destruct (setRandom F g1 _); [|discriminate]. cbn [bind] in E0. destruct (setRandom F g2 _); [|discriminate]. cbn [bind] in E0.
      destruct (msetZero F (bH st) _ _); [|discriminate]. cbn [bind] in E0. destruct (msetZero F (hh st) _ _); [|discriminate]. cbn [bind] in E0. injection E0 as <-. reflexivity.
    - destruct (setRandom F g1 _); [|discriminate]. cbn [bind] in E0. injection E0 as <-. reflexivity. }
  unfold turns. change (mcols (mgen n (nb * fs) X)) with (nb * fs). rewrite Nat.div_mul by auto. generalize (nb - 1). clear E0. 
  intros t. revert st' o. induction t; intros st' o; unfold forN.
  - cbn. intro E. injection E as <- _. rewrite L0. reflexivity.
  - rewrite seq_S, forL_app. unfold forN in IHt. destruct (forL (seq 0 t) _ (s0, out)) as [[s1 o1]|] eqn:E1; [|discriminate]. cbn [bind forL Nat.add fst].
    specialize (IHt s1 o1 eq_refl). destruct (colExtract F _ _ _) as [x|]; [|discriminate]. cbn [bind]. destruct (frameRnn F k u x s1) as [hx|]; [|discriminate]. cbn [bind].
    intro E. injection E as <- _. cbn [saved]. rewrite app_length, IHt. simpl. lia.
Qed.
Lemma simple_never_learns : forall (r : rnd F) (l l1 : layer F) fs u n nb (X : nat -> nat -> F) (out o G gin : mat F),
  lk l = KSimpleRnn fs u -> ltrain l = true -> 0 < fs -> lgw l = mempty F -> lw l = mempty F ->
  layForward F r l (mgen n (nb * fs) X) out = Ok (l1, o) ->
  exists l2, layBackward F l1 (mgen n (nb * fs) X) G gin = Ok (l2, gin) /\ lgw l2 = mempty F /\ hasWeights l2 = false /\ lrnn l2 = lrnn l1.
Proof.
  intros r l l1 fs u n nb X out o G gin Hk Ht Hfs Hg Hw. unfold layForward. rewrite Hk, Ht.
  destruct (fwdRnn F Simple fs u true (rf r) (after F r (u * u)) (mgen n (nb * fs) X) out (lrnn l)) as [[st o']|] eqn:E; [|discriminate]. cbn [bind].
  intro E1. injection E1 as <- <-. apply saved_length in E; auto. unfold layBackward. change (lk (setRnn l st)) with (lk l). rewrite Hk.
  change (lrnn (setRnn l st)) with st. change (lgw (setRnn l st)) with (lgw l). rewrite Hg.
  assert (B : bwdSimpleRnn F fs st (mempty F) (mgen n (nb * fs) X) = Ok (mempty F)).
  { unfold bwdSimpleRnn. destruct (Nat.eqb_spec fs 0); [lia|]. change (mcols (mgen n (nb * fs) X)) with (nb * fs). rewrite Nat.div_mul by auto.
    assert (L : forall Q, (forall i, In i Q -> 1 <= i < nb - 1) ->
      forL Q (fun i sum => match nth_error (saved st) i, nth_error (saved st) (i - 1) with
        | Some _, Some _ => colExtract F (mgen n (nb * fs) X) (i * fs) (i * fs + fs) ;;; (if msize sum =? 0 then Ok (mempty F) else maddM F sum (mempty F))
        | _, _ => Err EOob end) (mempty F) = Ok (mempty F)).
    { induction Q as [|i Q IH]; intro HQ; auto. cbn [forL].
      destruct (HQ i (or_introl eq_refl)) as [Hi1 Hi2].
      destruct (nth_error (saved st) i) eqn:N1. 2:{ apply nth_error_None in N1. lia. }
      destruct (nth_error (saved st) (i - 1)) eqn:N2. 2:{ apply nth_error_None in N2. lia. }
      rewrite (colExtract_gen F) by nia. cbn [bind]. apply IH. intros; apply HQ; right; auto. }
    rewrite L by (intros i Hi; rewrite <- in_rev, in_seq in Hi; lia). reflexivity. }
  rewrite B. cbn [bind]. eexists. split; [reflexivity|]. split; [reflexivity|]. split; [|reflexivity]. unfold hasWeights. change (lw (setGW (setRnn l st) (mempty F))) with (lw l). rewrite Hw. reflexivity.
Qed.
(* neither class reads the gradient of its output *)
Lemma rnn_ignores_gradient : forall (l : layer F) mIn G G' gin, (exists fs u, lk l = KSimpleRnn fs u) \/ (exists fs, lk l = KSimplestRnn fs) ->
  layBackward F l mIn G gin = layBackward F l mIn G' gin.
Proof. intros l mIn G G' gin [(fs & u & H)|(fs & H)]; unfold layBackward; rewrite H; reflexivity. Qed.
End AnyRnn.

(* frames 1, 1, 1 and weight 2: a zero gradient of the output gives a non-zero gradient of the weight *)
Lemma rnn_zero_gradient : exists (r : rnd QOps) l l1 l2 mIn o G gi,
  layNew QOps r (KSimplestRnn 1) String.EmptyString String.EmptyString = Ok l /\
  layForward QOps r (setTrain l true) mIn (mempty QOps) = Ok (l1, o) /\ mrows G = mrows o /\ mcols G = mcols o /\ mdata G = [f0 QOps] /\
  layBackward QOps (setFirst l1 true) mIn G (mempty QOps) = Ok (l2, gi) /\ map QArith_base.Qnum (mdata (lgw l2)) <> [0%Z].
Proof.
  exists (mkRnd QOps (fun _ => QArith_base.inject_Z 2) (fun _ => 0%Z)). do 3 eexists.
  exists (mkMat 1 3 [QArith_base.inject_Z 1; QArith_base.inject_Z 1; QArith_base.inject_Z 1]). eexists. exists (mkMat 1 1 [f0 QOps]). eexists.
  split; [vm_compute; reflexivity|]. split; [vm_compute; reflexivity|]. split; [reflexivity|]. split; [reflexivity|]. split; [reflexivity|].
  split; [vm_compute; reflexivity|]. vm_compute. discriminate.
Qed.
