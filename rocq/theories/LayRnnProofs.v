(* LayRnnProofs.v *)
From Coq Require Import List Arith Bool Lia ZArith.
From Verif Require Import Base Scalar Mat SpecMat MatFacts MatProofs MatLoops LayMat LayKit LayRnn.
Import ListNotations.
Local Open Scope nat_scope.

Section Rnn.
Variable F : FOps.
Notation M := (mat F).

Lemma setRandom_flat : forall g r c (q : nat -> F), setRandom F g (mflat r c q) = Ok (mflat r c g).
Proof.
  intros g r c q. unfold setRandom. change (msize (mflat r c q)) with (r * c).
  rewrite (@forN_sim _ _ (mflat r c)) with (step := fun i (p : nat -> F) => fupd p i (g i)).
  2:{ intros i p Hi. apply mset1_flat; auto. }
  apply Ok_eq, mflat_ext. intros k Hk. rewrite (@fold_point nat F nat (fun i p => fupd p i (g i)) (fun i x => if i =? k then g i else x) k).
  - apply (fold_hit0 (fun i _ => g i)). auto.
  - intros i S _. unfold fupd. destruct (Nat.eqb_spec i k); auto.
Qed.

(* forward only looks at the frames before the last one *)
Lemma rnn_last_frame_ignored : forall k fs u train g1 g2 n nb (X X' : nat -> nat -> F) out st,
  (forall i j, j < (nb - 1) * fs -> X i j = X' i j) ->
  fwdRnn F k fs u train g1 g2 (mgen n (nb * fs) X) out st = fwdRnn F k fs u train g1 g2 (mgen n (nb * fs) X') out st.
Proof.
  intros k fs u train g1 g2 n nb X X' out st HX. unfold fwdRnn. destruct (Nat.eqb_spec fs 0) as [|Hf]; auto.
  change (mcols (mgen n (nb * fs) X)) with (nb * fs). change (mcols (mgen n (nb * fs) X')) with (nb * fs).
  change (msize (mgen n (nb * fs) X)) with (n * (nb * fs)). change (msize (mgen n (nb * fs) X')) with (n * (nb * fs)).
  destruct (assert_ (nb * fs mod fs =? 0)); auto. cbn [bind].
  destruct (if negb (n * (nb * fs) =? fs) || train then initRnn F k fs u g1 g2 st else Ok st) as [st0|]; auto. cbn [bind].
  unfold forN. apply forL_ext. intros i p Hi. apply in_seq in Hi. unfold turns in Hi. rewrite Nat.div_mul in Hi by auto.
  rewrite !colExtract_gen by nia. 
  replace (mgen n (i * fs + fs - i * fs) (fun i0 j => X i0 (i * fs + j))) with (mgen n (i * fs + fs - i * fs) (fun i0 j => X' i0 (i * fs + j))); auto.
  apply mgen_ext. intros a' b _ Hb. symmetry. apply HX. nia.
Qed.
(* a single frame is not processed at all *)
Lemma rnn_single_frame : forall k fs u g1 g2 n (X : nat -> nat -> F) out st st' o,
  fwdRnn F k fs u false g1 g2 (mgen n fs X) out st = Ok (st', o) -> o = out.
Proof.
  intros k fs u g1 g2 n X out st st' o. unfold fwdRnn. destruct (Nat.eqb_spec fs 0) as [|Hf]; [discriminate|].
  change (mcols (mgen n fs X)) with fs. unfold turns. rewrite Nat.div_same by auto. destruct (assert_ (fs mod fs =? 0)); [|discriminate]. cbn [bind].
  destruct (if negb (msize (mgen n fs X) =? fs) || false then initRnn F k fs u g1 g2 st else Ok st); [|discriminate]. cbn. congruence.
Qed.

(* SimplestRNN, for every arithmetic: h <- h W + frame, with W freshly drawn and h left over from the previous call *)
Fixpoint runSimplest (u n : nat) (W : nat -> nat -> F) (fs : nat) (X : nat -> nat -> F) (t : nat) (h : nat -> nat -> F) : nat -> nat -> F :=
  match t with
  | 0 => h
  | S t => fun i j => fadd F (fsum F u (fun l => fmul F (runSimplest u n W fs X t h i l) (W l j))) (X i (t * fs + j))
  end.
Definition drawn (u : nat) (g : nat -> F) : nat -> nat -> F := fun i j => g (i * u + j).

Lemma initSimplest : forall u g1 g2 st, mwf (wH st) -> initRnn F Simplest u u g1 g2 st = Ok (mkRnn (mgen u u (drawn u g1)) (wX st) (bH st) (hh st) []).
Proof.
  intros u g1 g2 st Hw. unfold initRnn. destruct (mresize_flat F (wH st) u u Hw) as [q ->]. rewrite setRandom_flat. cbn [bind]. rewrite mflat_gen. reflexivity.
Qed.
Lemma frameSimplest : forall u n h W x st, wH st = mgen u u W -> hh st = mgen n u h ->
  frameRnn F Simplest u (mgen n u x) st = Ok (mgen n u (fun i j => fadd F (fsum F u (fun l => fmul F (h i l) (W l j))) (x i j))).
Proof.
  intros u n h W x st E1 E2. unfold frameRnn. rewrite E1, E2. change (mrows (mgen n u h)) with n. change (mrows (mgen n u x)) with n. rewrite Nat.eqb_refl. cbn [bind].
  rewrite mmul_gen. cbn [bind]. apply maddM_gen.
Qed.
Lemma simplest_forward : forall u g1 g2 n nb (X h : nat -> nat -> F) out st, 0 < u -> 2 <= nb -> mwf (wH st) -> hh st = mgen n u h ->
  exists st', fwdRnn F Simplest u u false g1 g2 (mgen n (nb * u) X) out st = Ok (st', mgen n u (runSimplest u n (drawn u g1) u X (nb - 1) h)) /\
    wH st' = mgen u u (drawn u g1) /\ hh st' = mgen n u (runSimplest u n (drawn u g1) u X (nb - 1) h).
Proof.
  intros u g1 g2 n nb X h out st Hu Hnb Hw Hh. 
  assert (L : forall t st0 o, wH st0 = mgen u u (drawn u g1) -> hh st0 = mgen n u h -> t <= nb - 1 -> exists st',
    forN t (fun i p => x <- colExtract F (mgen n (nb * u) X) (i * u) (i * u + u) ;; h <- frameRnn F Simplest u x (fst p) ;;
      Ok (mkRnn (wH (fst p)) (wX (fst p)) (bH (fst p)) h (saved (fst p)), h)) (st0, o) =
      Ok (st', if t =? 0 then o else mgen n u (runSimplest u n (drawn u g1) u X t h)) /\
    wH st' = mgen u u (drawn u g1) /\ hh st' = mgen n u (runSimplest u n (drawn u g1) u X t h)).
  { induction t; intros st0 o E1 E2 Ht.
    - exists st0. split; [reflexivity|]. auto.
    - destruct (IHt st0 o E1 E2 ltac:(lia)) as (st' & H1 & H2 & H3).
      unfold forN in *. rewrite seq_S, forL_app, H1. cbn [bind forL Nat.add fst]. rewrite colExtract_gen by nia. cbn [bind].
      replace (t * u + u - t * u) with u by lia. rewrite (frameSimplest u n _ (drawn u g1) _ st' H2 H3). cbn [bind].
      eexists. split; [reflexivity|]. cbn [wH hh]. split; auto. }
  unfold fwdRnn. destruct (Nat.eqb_spec u 0); [lia|].
  change (mcols (mgen n (nb * u) X)) with (nb * u). change (msize (mgen n (nb * u) X)) with (n * (nb * u)). unfold assert_. rewrite Nat.mod_mul by auto. cbn [Nat.eqb bind].
  destruct (Nat.eqb_spec (n * (nb * u)) u) as [E|E]; [exfalso; assert (2 * u <= nb * u) by nia; destruct n; simpl in E; lia|]. cbn [negb orb]. rewrite initSimplest by auto. cbn [bind].
  unfold turns. rewrite Nat.div_mul by auto.
  destruct (L (nb - 1) (mkRnn (mgen u u (drawn u g1)) (wX st) (bH st) (hh st) []) out eq_refl Hh ltac:(lia)) as (st' & H1 & H2 & H3).
  exists st'. split; auto. destruct (Nat.eqb_spec (nb - 1) 0); [lia|]. exact H1.
Qed.

(* SimpleRNN rejects batches of more than one row *)
Lemma simple_batch : forall fs u train g1 g2 n nb (X : nat -> nat -> F) out st, 0 < fs -> 2 <= nb -> 2 <= n ->
  mwf (wH st) -> mwf (wX st) -> mwf (bH st) -> mwf (hh st) ->
  fwdRnn F Simple fs u train g1 g2 (mgen n (nb * fs) X) out st = Err EAssert.
Proof.
  intros fs u train g1 g2 n nb X out st Hfs Hnb Hn H1 H2 H3 H4. unfold fwdRnn. destruct (Nat.eqb_spec fs 0); [lia|].
  change (mcols (mgen n (nb * fs) X)) with (nb * fs). change (msize (mgen n (nb * fs) X)) with (n * (nb * fs)). unfold assert_ at 1. rewrite Nat.mod_mul by auto. cbn [Nat.eqb bind].
  destruct (Nat.eqb_spec (n * (nb * fs)) fs) as [E|E]; [exfalso; assert (2 * fs <= nb * fs) by nia; destruct n; simpl in E; lia|]. cbn [negb orb]. unfold initRnn.
  destruct (mresize_flat F (wH st) u u H1) as [q1 ->]. destruct (mresize_flat F (wX st) fs u H2) as [q2 ->]. rewrite !setRandom_flat. cbn [bind].
  rewrite !msetZero_gen by auto. cbn [bind]. unfold turns. rewrite Nat.div_mul by auto. destruct (nb - 1) eqn:En; [lia|].
  unfold forN. simpl seq. cbn [forL fst]. rewrite colExtract_gen by nia. cbn [bind].
  unfold frameRnn. cbn [hh wH wX bH]. rewrite !mflat_gen, mmul_gen. cbn [bind]. replace (0 * fs + fs - 0 * fs) with fs by lia. rewrite mmul_gen. cbn [bind].
  unfold maddM, assert_, sameDims. destruct n as [|[|n']]; try lia. cbn [mrows mcols mgen]. rewrite ?andb_false_r, ?andb_false_l. reflexivity.
Qed.

(* one or two frames: backpropagation leaves an empty weight gradient *)
Lemma rnn_backward_short : forall fs first st n nb (X : nat -> nat -> F) gin, 0 < fs -> nb <= 2 ->
  exists gw, bwdRnn F fs first st (mgen n (nb * fs) X) gin = Ok (gw, gin) /\ msize gw = 0.
Proof.
  intros fs first st n nb X gin Hfs Hnb. unfold bwdRnn. destruct (Nat.eqb_spec fs 0); [lia|].
  change (mcols (mgen n (nb * fs) X)) with (nb * fs). rewrite Nat.div_mul by auto. replace (nb - 2) with 0 by lia. cbn [seq rev forL bind].
  eexists. split; [reflexivity|]. reflexivity.
Qed.
End Rnn.
Arguments runSimplest {F}. Arguments drawn {F}.

(* concrete runs over the rationals: frames of one value *)
Lemma rnn_weights_refuted : exists g st mIn st' o, fwdRnn QOps Simplest 1 1 false g g mIn (mempty QOps) st = Ok (st', o) /\ mdata (wH st') <> mdata (wH st).
Proof.
  exists (fun _ => QArith_base.inject_Z 5), (@mkRnn QOps (mkMat 1 1 [QArith_base.inject_Z 2]) (mempty QOps) (mempty QOps) (mempty QOps) []), (mkMat 1 2 [QArith_base.inject_Z 1; QArith_base.inject_Z 1]).
  eexists. eexists. split; [vm_compute; reflexivity|]. vm_compute. discriminate.
Qed.
(* the same input, the same draws: the second call starts from the state left by the first one *)
Lemma rnn_repeat_refuted : exists g mIn st st1 st2 o1 o2,
  fwdRnn QOps Simplest 1 1 false g g mIn (mempty QOps) st = Ok (st1, o1) /\ fwdRnn QOps Simplest 1 1 false g g mIn (mempty QOps) st1 = Ok (st2, o2) /\ mdata o1 <> mdata o2.
Proof.
  exists (fun _ => QArith_base.inject_Z 1), (mkMat 1 2 [QArith_base.inject_Z 1; QArith_base.inject_Z 1]), (@mkRnn QOps (mkMat 1 1 [QArith_base.inject_Z 1]) (mempty QOps) (mempty QOps) (mempty QOps) []).
  do 4 eexists. split; [vm_compute; reflexivity|]. split; [vm_compute; reflexivity|]. vm_compute. discriminate.
Qed.
