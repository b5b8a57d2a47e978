(* CsvProofs.v - the file names CsvFileReader derives, and what it loads *)
From Coq Require Import String List Arith Bool Ascii Lia ZArith.
From Verif Require Import Base Scalar Mat SpecMat SpecText SpecCsv Text TextProofs TextCase Csv.
Import ListNotations.
Local Open Scope nat_scope.

Lemma startsWith_spec : forall w s, startsWith w s = true <-> exists b, s = w ++ b.
Proof.
  induction w as [|a w IH]; intros s; cbn.
  - split; [intros _; exists s; reflexivity|auto].
  - destruct s as [|b s].
    + split; [discriminate|intros (x & H); discriminate].
    + rewrite andb_true_iff, Ascii.eqb_eq, IH. split.
      * intros (-> & x & ->). exists x. reflexivity.
      * intros (x & H). injection H as H1 H2. split; [auto|]. exists x. auto.
Qed.
Lemma startsWith_false : forall w s, startsWith w s = false -> forall b, s <> w ++ b.
Proof. intros w s H b E. assert (startsWith w s = true) by (apply startsWith_spec; eauto). congruence. Qed.

Lemma rfind_some : forall w s p, rfind w s = Some p -> lastAt w s (firstn p s) (skipn (p + length w) s) /\ p <= length s.
Proof.
  intros w s. induction s as [|c s IH]; intros p H; cbn in H.
  - destruct (startsWith w []) eqn:E; [|discriminate]. injection H as <-. apply startsWith_spec in E. destruct E as (b & E).
    destruct w; [|discriminate]. cbn in *. split; [|lia]. split; [auto|]. intros a' b' H. destruct a'; cbn; [lia|discriminate].
  - destruct (rfind w s) as [q|] eqn:R.
    + injection H as <-. destruct (IH q eq_refl) as [[H1 H2] H3]. split; [|cbn; lia]. split.
      * cbn. f_equal. exact H1.
      * intros a' b' E. destruct a' as [|x a']; [cbn; lia|]. cbn in E. injection E as _ E. specialize (H2 a' b' E). cbn. lia.
    + destruct (startsWith w (c :: s)) eqn:E; [|discriminate]. injection H as <-. apply startsWith_spec in E. destruct E as (b & E). split; [|cbn; lia].
      cbn [firstn skipn Nat.add]. rewrite E. rewrite skipn_app, Nat.sub_diag, skipn_all, skipn_O. cbn [app]. split; [reflexivity|].
      intros a' b' H. rewrite <- E in H. destruct a' as [|x a']; [cbn; lia|]. exfalso. cbn in H. injection H as _ H.
      clear IH E. revert a' H R. induction s as [|d s IH]; intros a' H R.
      * destruct a'; [|discriminate]. cbn in H. cbn in R. destruct (startsWith w []) eqn:E; [discriminate|].
        apply (startsWith_false _ _ E b'). auto.
      * cbn in R. destruct (rfind w s) eqn:R2; [discriminate|]. destruct (startsWith w (d :: s)) eqn:E; [discriminate|].
        destruct a' as [|y a'].
        -- apply (startsWith_false _ _ E b'). auto.
        -- cbn in H. injection H as _ H. apply (IH a' H). reflexivity.
Qed.
Lemma rfind_none : forall w s, rfind w s = None -> ~ occurs w s.
Proof.
  intros w s. induction s as [|c s IH]; intros H (a & b & E); cbn in H.
  - destruct (startsWith w []) eqn:X; [discriminate|]. destruct a; [|discriminate]. apply (startsWith_false _ _ X b). auto.
  - destruct (rfind w s) eqn:R; [discriminate|]. destruct (startsWith w (c :: s)) eqn:X; [discriminate|].
    destruct a as [|y a]; [apply (startsWith_false _ _ X b); auto|]. cbn in E. injection E as _ E. apply (IH eq_refl). exists a, b. auto.
Qed.

Lemma lastAt_unique : forall w s a b a' b', lastAt w s a b -> lastAt w s a' b' -> a = a' /\ b = b'.
Proof.
  intros w s a b a' b' [E1 M1] [E2 M2]. pose proof (M1 _ _ E2). pose proof (M2 _ _ E1).
  assert (L : length a = length a') by lia. rewrite E1 in E2. 
  assert (a = a') by (apply (f_equal (firstn (length a))) in E2; rewrite L in E2 at 2; rewrite !firstn_app, !Nat.sub_diag, !firstn_O, !app_nil_r, !firstn_all in E2; auto).
  subst a'. split; auto. apply app_inv_head in E2. apply app_inv_head in E2. auto.
Qed.
(* what replace_last does *)
Lemma replaceLast_there : forall s old new a b, lastAt old s a b -> replaceLast s old new = a ++ new ++ b.
Proof.
  intros s old new a b H. unfold replaceLast. destruct (rfind old s) as [p|] eqn:E.
  - destruct (rfind_some _ _ _ E) as [H2 _]. destruct (lastAt_unique _ _ _ _ _ _ H H2) as [-> ->]. reflexivity.
  - exfalso. apply (rfind_none _ _ E). exists a, b. apply H.
Qed.
Lemma replaceLast_absent : forall s old new, ~ occurs old s -> replaceLast s old new = s.
Proof.
  intros s old new H. unfold replaceLast. destruct (rfind old s) as [p|] eqn:E; [|reflexivity].
  exfalso. apply H. destruct (rfind_some _ _ _ E) as [[H2 _] _]. eexists. eexists. exact H2.
Qed.
Lemma siblings_replace : forall w w' s s', siblings w w' s s' ->
  replaceLast s w w' = s' /\ replaceLast s' w' w = s /\ replaceLast s w' w = s /\ replaceLast s' w w' = s'.
Proof.
  intros w w' s s' (a & b & H1 & H2 & H3 & H4). split; [|split; [|split]].
  - rewrite (replaceLast_there _ _ _ _ _ H1). symmetry. apply H2.
  - rewrite (replaceLast_there _ _ _ _ _ H2). symmetry. apply H1.
  - apply replaceLast_absent. auto.
  - apply replaceLast_absent. auto.
Qed.
Lemma textEqb_eq : forall a b, textEqb a b = true <-> a = b.
Proof.
  induction a as [|x a IH]; intros [|y b]; cbn; try (split; [discriminate|discriminate]).
  - split; auto.
  - rewrite andb_true_iff, Ascii.eqb_eq, IH. split; [intros [-> ->]; auto|intros H; injection H; auto].
Qed.
Lemma siblings_diff : forall w w' s s', siblings w w' s s' -> textEqb s s' = false.
Proof.
  intros w w' s s' (a & b & H1 & H2 & H3 & H4). destruct (textEqb s s') eqn:E; auto. apply textEqb_eq in E. subst.
  exfalso. apply H3. exists a, b. apply H2.
Qed.

Section Csv.
Variable F : FOps.
Variable conv : text -> F * bool.
Variable ind : res F.
Variable fuel : nat.
Variable fs : text -> option text.

(* the four names of a data set; load gives the same from any of them *)
Lemma csv_names : forall td tt vd vt, siblings wTrain wTest td vd -> siblings wTrain wTest tt vt -> siblings wData wTruth td tt -> siblings wData wTruth vd vt ->
  forall a b c e, fromFile F conv ind fuel (fs td) = Ok a -> fromFile F conv ind fuel (fs tt) = Ok b -> fromFile F conv ind fuel (fs vd) = Ok c -> fromFile F conv ind fuel (fs vt) = Ok e ->
  forall s d, In s [td; tt; vd; vt] ->
  csvLoad F conv ind fuel fs s d = Ok (nonEmpty F a && nonEmpty F b || nonEmpty F c && nonEmpty F e,
                 mkDS a b c e (nonEmpty F a && nonEmpty F b) (nonEmpty F c && nonEmpty F e)).
Proof.
  intros td tt vd vt S1 S2 S3 S4 a b c e Ha Hb Hc He s d Hs.
  destruct (siblings_replace _ _ _ _ S1) as (A1 & A2 & A3 & A4). destruct (siblings_replace _ _ _ _ S2) as (B1 & B2 & B3 & B4).
  destruct (siblings_replace _ _ _ _ S3) as (C1 & C2 & C3 & C4). destruct (siblings_replace _ _ _ _ S4) as (D1 & D2 & D3 & D4).
  pose proof (siblings_diff _ _ _ _ S1) as N1. pose proof (siblings_diff _ _ _ _ S2) as N2.
  unfold csvLoad. cbv zeta.
  destruct Hs as [<-|[<-|[<-|[<-|[]]]]]; rewrite ?A1, ?A2, ?A3, ?A4, ?B1, ?B2, ?B3, ?B4, ?C1, ?C2, ?C3, ?C4, ?D1, ?D2, ?D3, ?D4, Ha; cbn [bind];
    rewrite Hb; cbn [bind]; rewrite N1, N2; cbn [negb andb]; rewrite Hc; cbn [bind]; rewrite He; reflexivity.
Qed.

(* a name with none of the four words: samples and truths come from the same file, and there is no validation set *)
Lemma csv_one_file : forall s d m, ~ occurs wTrain s -> ~ occurs wTest s -> ~ occurs wData s -> ~ occurs wTruth s -> fromFile F conv ind fuel (fs s) = Ok m ->
  exists c e, csvLoad F conv ind fuel fs s d = Ok (nonEmpty F m, mkDS m m c e (nonEmpty F m) false) /\ msize c = 0 /\ msize e = 0.
Proof.
  intros s d m N1 N2 N3 N4 H. unfold csvLoad. cbv zeta.
  rewrite !(replaceLast_absent s wTest wTrain), !(replaceLast_absent s wTrain wTest), !(replaceLast_absent s wTruth wData), !(replaceLast_absent s wData wTruth) by auto.
  rewrite H. cbn [bind]. assert (E : textEqb s s = true) by (apply textEqb_eq; auto). rewrite E. cbn [negb andb bind].
  assert (Z : forall x : mat F, msize (mresize F x 0 0) = 0).
  { intros x. unfold mresize. destruct ((0 =? mcols x) && (0 =? mrows x)) eqn:Q.
    - apply andb_true_iff in Q. destruct Q as [_ Q]. apply Nat.eqb_eq in Q. unfold msize. rewrite <- Q. reflexivity.
    - destruct (0 * 0 =? msize x); reflexivity. }
  exists (mresize F (dVaD d) 0 0), (mresize F (dVaT d) 0 0). split; [|split; apply Z].
  assert (W : nonEmpty F (mresize F (dVaD d) 0 0) = false) by (unfold nonEmpty; rewrite Z; reflexivity).
  rewrite W. unfold hasData. cbn [dHasT dHasV andb]. rewrite andb_diag, orb_false_r. reflexivity.
Qed.

(* the flags after any load, from any state *)
Lemma csv_flags : forall s d r d', csvLoad F conv ind fuel fs s d = Ok (r, d') ->
  dHasT d' = (nonEmpty F (dTrD d') && nonEmpty F (dTrT d')) /\ dHasV d' = (nonEmpty F (dVaD d') && nonEmpty F (dVaT d')) /\ r = (dHasT d' || dHasV d').
Proof.
  intros s d r d' H. unfold csvLoad in H. cbv zeta in H.
  match type of H with bind ?x _ = _ => destruct x as [a|] eqn:E1; [|discriminate] end. cbn [bind] in H.
  match type of H with bind ?x _ = _ => destruct x as [b|] eqn:E2; [|discriminate] end. cbn [bind] in H.
  match type of H with bind ?x _ = _ => destruct x as [[c e]|] eqn:E3; [|discriminate] end. cbn [bind] in H.
  injection H as Hr Hd. subst r d'. split; [reflexivity|]. split; reflexivity.
Qed.
End Csv.

(* a directory called latest: the word test is found in it, so the training files are looked for in latrain *)
Definition wit (n : text) : option text :=
  if textEqb n (chars "latest/train_data.csv") then Some (str ("1,2" ++ eol)) else
  if textEqb n (chars "latest/train_truth.csv") then Some (str ("3" ++ eol)) else None.
Lemma csv_directory_refuted : exists (fs : text -> option text) td tt,
  td = chars "latest/train_data.csv" /\ tt = chars "latest/train_truth.csv" /\
  fromFile ZOps convZ (Err EUninit) 5 (fs td) = Ok (mkMat 1 2 [1; 2]%Z) /\ fromFile ZOps convZ (Err EUninit) 5 (fs tt) = Ok (mkMat 1 1 [3]%Z) /\
  forall d, exists d', csvLoad ZOps convZ (Err EUninit) 5 fs td d = Ok (false, d') /\ msize (dTrD d') = 0 /\ msize (dTrT d') = 0.
Proof.
  exists wit. eexists. eexists. split; [reflexivity|]. split; [reflexivity|]. split; [vm_compute; reflexivity|]. split; [vm_compute; reflexivity|].
  intros d. eexists. split; [|split].
  - unfold csvLoad. cbv zeta.
    let t := eval vm_compute in (replaceLast (replaceLast (chars "latest/train_data.csv") wTest wTrain) wTruth wData) in change (replaceLast (replaceLast (chars "latest/train_data.csv") wTest wTrain) wTruth wData) with t.
    vm_compute. reflexivity.
  - reflexivity.
  - reflexivity.
Qed.
(* two samples, one truth: accepted *)
Definition wit2 (n : text) : option text :=
  if textEqb n (chars "train_data.csv") then Some (str ("1" ++ eol ++ "2" ++ eol)) else
  if textEqb n (chars "train_truth.csv") then Some (str ("3" ++ eol)) else None.
Lemma csv_rows_refuted : exists (fs : text -> option text) s, forall d, exists d',
  csvLoad ZOps convZ (Err EUninit) 5 fs s d = Ok (true, d') /\ dHasT d' = true /\ mrows (dTrD d') = 2 /\ mrows (dTrT d') = 1.
Proof.
  exists wit2, (chars "train_data.csv"). intros d. eexists. split; [vm_compute; reflexivity|]. split; [reflexivity|]. split; reflexivity.
Qed.
