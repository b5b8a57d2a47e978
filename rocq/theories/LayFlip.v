(* LayFlip.v - RandomFlip *)
From Coq Require Import List Arith Bool Lia Reals Lra ZArith.
From Verif Require Import Base Scalar Mat SpecMat SpecReal MatFacts MatProofs MatLoops MatProofs2 MatProps Scatter LayMat LayImg LayKit LayTens ImgKit SpecLayer RSum LayProofs6.
Import ListNotations.
Local Open Scope nat_scope.

(* what reverseData does to a row of nC cells: the second half is kept, the first half mirrors it *)
Definition halfMirror {A} (nC : nat) (x : nat -> A) : nat -> A := fun c => x (Nat.max c (nC - 1 - c)).

Section Flip.
Variable F : FOps.
Variables nS nH nR nC : nat.
Definition emb3 (u : nat * nat * nat -> nat -> F) : mat F := tens nS nH nR nC (fun s h r c => u (s, h, r) c).
Definition hit3 (s h r : nat) (k : nat * nat * nat) : bool := (fst (fst k) =? s) && ((snd (fst k) =? h) && (snd k =? r)).
Definition step3 s h r (u : nat * nat * nat -> nat -> F) : nat * nat * nat -> nat -> F := fun k => if hit3 s h r k then halfMirror nC (u k) else u k.

Lemma reverse_row : forall s h r u, 0 < nC -> s < nS -> h < nH -> r < nR ->
  (d <- reverseData F (s * mcols (emb3 u) + h * (nR * nC) + r * nC) nC (mdata (emb3 u)) ;; Ok (mkMat (mrows (emb3 u)) (mcols (emb3 u)) d)) = Ok (emb3 (step3 s h r u)).
Proof.
  intros s h r u HC Hs Hh Hr. unfold emb3. destruct (tens_is_flat F nS nH nR nC (fun s h r c => u (s, h, r) c)) as (g & -> & Hg).
  change (mcols (mflat nS (nH * nR * nC) g)) with (nH * nR * nC). change (mrows (mflat nS (nH * nR * nC) g)) with nS. change (mdata (mflat nS (nH * nR * nC) g)) with (map g (seq 0 (nS * (nH * nR * nC)))).
  assert (EA : forall c, s * (nH * nR * nC) + h * (nR * nC) + r * nC + c = addr4 nH nR nC s h r c) by (intros; unfold addr4; ring).
  assert (L := addr4_lt nS nH nR nC s h r (nC - 1) Hs Hh Hr ltac:(lia)). rewrite <- EA in L.
  rewrite reverseData_flat by lia. cbn [bind]. apply Ok_eq.
  transitivity (mflat nS (nH * nR * nC) (fun k => if (s * (nH * nR * nC) + h * (nR * nC) + r * nC <=? k) && (k <? s * (nH * nR * nC) + h * (nR * nC) + r * nC + nC)
    then g (s * (nH * nR * nC) + h * (nR * nC) + r * nC + Nat.max (k - (s * (nH * nR * nC) + h * (nR * nC) + r * nC)) (nC - 1 - (k - (s * (nH * nR * nC) + h * (nR * nC) + r * nC)))) else g k)); [reflexivity|].
  apply flat_tens. intros s' h' r' c' Hs' Hh' Hr' Hc'. unfold step3, hit3. cbn [fst snd].
  set (off := s * (nH * nR * nC) + h * (nR * nC) + r * nC) in *.
  assert (EO : off = ((s * nH + h) * nR + r) * nC) by (unfold off; ring). assert (EA' : addr4 nH nR nC s' h' r' c' = ((s' * nH + h') * nR + r') * nC + c') by reflexivity.
  destruct ((s' =? s) && ((h' =? h) && (r' =? r))) eqn:E.
  - rewrite !andb_true_iff, !Nat.eqb_eq in E. destruct E as (-> & -> & ->).
    replace (off <=? addr4 nH nR nC s h r c') with true by (symmetry; apply Nat.leb_le; lia). replace (addr4 nH nR nC s h r c' <? off + nC) with true by (symmetry; apply Nat.ltb_lt; lia). cbn [andb].
    rewrite EA. replace (addr4 nH nR nC s h r c' - off) with c' by lia. rewrite Hg by (auto; lia). reflexivity.
  - destruct ((off <=? addr4 nH nR nC s' h' r' c') && (addr4 nH nR nC s' h' r' c' <? off + nC)) eqn:E2; [|rewrite Hg by auto; reflexivity].
    exfalso. apply andb_true_iff in E2. destruct E2 as [E2 E3]. apply Nat.leb_le in E2. apply Nat.ltb_lt in E3.
    assert (E4 : addr4 nH nR nC s' h' r' c' = addr4 nH nR nC s h r (addr4 nH nR nC s' h' r' c' - off)) by (rewrite <- EA; fold off; lia).
    apply addr4_inj in E4; auto; [|lia]. destruct E4 as (-> & -> & -> & _). rewrite !Nat.eqb_refl in E. discriminate.
Qed.
Lemma flipRows_gen : forall (fl : nat -> F) t, 0 < nC ->
  flipRows F nR nC nH nS (mgen nS 1 (fun s _ => fl s)) (tens nS nH nR nC t) =
  Ok (tens nS nH nR nC (fun s h r c => if feq F (fl s) (f0 F) then t s h r c else halfMirror nC (t s h r) c)).
Proof.
  intros fl t HC. unfold flipRows.
  change (tens nS nH nR nC t) with (emb3 (fun k => t (fst (fst k)) (snd (fst k)) (snd k))).
  set (stepS := fun s (u : nat * nat * nat -> nat -> F) => if feq F (fl s) (f0 F) then u else fold_left (fun u h => fold_left (fun u r => step3 s h r u) (seq 0 nR) u) (seq 0 nH) u).
  rewrite (@forN_sim _ _ emb3) with (step := stepS).
  2:{ intros s u Hs. rewrite mgen_flat, mget1_flat by lia. cbn [bind]. rewrite Nat.div_1_r. unfold stepS. destruct (feq F (fl s) (f0 F)); [reflexivity|].
      change (mrows (emb3 u)) with nS. unfold assert_. rewrite ltb_true by auto. cbn [bind]. unfold loop2.
      apply (@forN_sim _ _ emb3 nH _ (fun h u => fold_left (fun u r => step3 s h r u) (seq 0 nR) u)). intros h u1 Hh.
      apply (@forN_sim _ _ emb3 nR _ (fun r u => step3 s h r u)). intros r u2 Hr. apply reverse_row; auto. }
  apply Ok_eq. unfold emb3. apply tens_ext. intros s h r c Hs Hh Hr Hc.
  set (k0 := (s, h, r)).
  rewrite (@fold_point nat (nat -> F) (nat * nat * nat) stepS (fun s' x => if s' =? s then (if feq F (fl s) (f0 F) then x else halfMirror nC x) else x) k0).
  - rewrite (fold_hit0 (fun s' x => if feq F (fl s) (f0 F) then x else halfMirror nC x)) by auto. unfold k0. cbn [fst snd]. destruct (feq F (fl s) (f0 F)); reflexivity.
  - intros s' u _. unfold stepS. destruct (Nat.eqb_spec s' s) as [->|N].
    + destruct (feq F (fl s) (f0 F)); auto.
      rewrite (@fold_point nat (nat -> F) (nat * nat * nat) (fun h u => fold_left (fun u r => step3 s h r u) (seq 0 nR) u) (fun h' x => if h' =? h then halfMirror nC x else x) k0).
      * apply (fold_hit0 (fun h' x => halfMirror nC x)). auto.
      * intros h' u1 _.
        rewrite (@fold_point nat (nat -> F) (nat * nat * nat) (fun r u => step3 s h' r u) (fun r' x => if r' =? r then (if h' =? h then halfMirror nC x else x) else x) k0).
        -- apply (fold_hit0 (fun r' x => if h' =? h then halfMirror nC x else x)). auto.
        -- intros r' u2 _. unfold step3, hit3, k0. cbn [fst snd]. rewrite Nat.eqb_refl. cbn [andb]. rewrite (Nat.eqb_sym r), (Nat.eqb_sym h). destruct (h' =? h), (r' =? r); reflexivity.
    + destruct (feq F (fl s') (f0 F)); auto.
      rewrite (@fold_point nat (nat -> F) (nat * nat * nat) (fun h u => fold_left (fun u r => step3 s' h r u) (seq 0 nR) u) (fun h' x => x) k0).
      * apply fold_left_id; auto.
      * intros h' u1 _. rewrite (@fold_point nat (nat -> F) (nat * nat * nat) (fun r u => step3 s' h' r u) (fun r' x => x) k0).
        -- apply fold_left_id; auto.
        -- intros r' u2 _. unfold step3, hit3, k0. cbn [fst snd]. destruct (Nat.eqb_spec s s'); [congruence|]. reflexivity.
Qed.
End Flip.

(* training: nothing happens (for every arithmetic) *)
Lemma flip_training : forall (F : FOps) nR nC nH g flipped mIn, fwdFlip F nR nC nH true g flipped mIn = Ok (flipped, mIn).
Proof. reflexivity. Qed.

(* inference: half of the draws mirror the sample's rows, by halves *)
Lemma flip_inference : forall jk nS nH nR nC g flipped t, mwf flipped -> 0 < nC ->
  fwdFlip (ROps jk) nR nC nH false g flipped (tens nS nH nR nC t) =
  Ok (mgen nS 1 (fun s _ => if (g s mod 65536 <? 32768)%Z then 1%R else 0%R),
      tens nS nH nR nC (fun s h r c => if (g s mod 65536 <? 32768)%Z then t s h r (Nat.max c (nC - 1 - c)) else t s h r c)).
Proof.
  intros jk nS nH nR nC g flipped t Hf HC. unfold fwdFlip. change (mrows (tens nS nH nR nC t)) with nS. destruct (mresize_flat (ROps jk) flipped nS 1 Hf) as [q ->].
  unfold setQuickBernoulli. rewrite bernoulliLimit_R by (simpl; lra). cbn [bind]. rewrite (bernoulli_cells (ROps jk)). cbn [bind].
  assert (EL : Rtrunc (flit (ROps jk) 1 2 * 65536) = 32768%Z).
  { replace (flit (ROps jk) 1 2 * 65536)%R with (IZR 32768) by (simpl; lra). unfold Rtrunc. destruct (Rlt_dec (IZR 32768) 0); [lra|]. rewrite Int_part_IZR || idtac. 
    apply Int_part_IZR || (unfold Int_part; rewrite <- (tech_up (IZR 32768) 32769); [reflexivity|lra|lra]). }
  rewrite EL.
  assert (E1 : mflat nS 1 (fun k => if (g k mod 65536 <? 32768)%Z then f1 (ROps jk) else f0 (ROps jk)) = mgen nS 1 (fun s _ => if (g s mod 65536 <? 32768)%Z then 1%R else 0%R)).
  { rewrite mflat_gen. apply mgen_ext. intros i j Hi Hj. replace (i * 1 + j) with i by lia. reflexivity. }
  rewrite E1. assert (EF := flipRows_gen (ROps jk) nS nH nR nC (fun s => if (g s mod 65536 <? 32768)%Z then 1%R else 0%R) t HC).
  eapply eq_trans; [exact (f_equal (fun x => o <- x ;; Ok (mgen nS 1 (fun s _ => if (g s mod 65536 <? 32768)%Z then 1%R else 0%R), o)) EF)|]. cbn [bind]. apply Ok_eq. f_equal. apply tens_ext. intros s h r c Hs Hh Hr Hc.
  cbn [feq f0 ROps T]. unfold Reqb. destruct (g s mod 65536 <? 32768)%Z; destruct (Req_EM_T _ _); try lra; reflexivity.
Qed.

(* the statement fails in both modes: at inference a row is changed, and it is not the mirrored row *)
Lemma flip_refuted : exists nR nC nH g mIn f o, fwdFlip QOps nR nC nH false g (mempty QOps) mIn = Ok (f, o) /\
  mIn = mkMat 1 nC [QArith_base.inject_Z 1; QArith_base.inject_Z 2; QArith_base.inject_Z 3] /\ mdata o <> mdata mIn /\ mdata o <> rev (mdata mIn).
Proof.
  exists 1, 3, 1, (fun _ => 0%Z). eexists. eexists. eexists. split; [|split; [reflexivity|]].
  - vm_compute. reflexivity.
  - split; discriminate.
Qed.
(* in training the flags were never drawn: the backward pass reads _flipped(0) of an empty matrix *)
Lemma flip_backward_training : forall (F : FOps) nR nC nH g mIn mG gin, 0 < mrows mIn ->
  exists fl o, fwdFlip F nR nC nH true g (mempty F) mIn = Ok (fl, o) /\ bwdFlip F nR nC nH false fl mIn mG gin = Err EAssert.
Proof.
  intros F nR nC nH g mIn mG gin Hn. eexists. eexists. split; [reflexivity|]. unfold bwdFlip, flipRows. destruct (mrows mIn) as [|n]; [lia|]. reflexivity.
Qed.
