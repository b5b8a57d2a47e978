(* FitNet1.v - passes over a stack of well-sized layers *)
From Coq Require Import String List Arith Bool Lia ZArith.
From Verif Require Import Base Scalar Mat SpecMat MatFacts MatProofs Loss Optim Regul LayMat Layer Net NetTrain NetProofs1 NetProofs2 SpecFit FitLay1 FitLay2 FitLay3.
Import ListNotations.
Local Open Scope nat_scope.

Section Any.
Variable F : FOps.
Notation M := (mat F).

(* widths of the successive matrices *)
Definition dims (h : heap F) (ls : list nat) (d : nat -> nat) : Prop :=
  forall i a, nth_error ls i = Some a -> exists l, hget F h a = Ok l /\ fits l (d i) (d (S i)).
Lemma stack_dims : forall h ls k m, stack h ls k m -> exists d, d 0 = k /\ d (length ls) = m /\ dims h ls d.
Proof.
  intros h. induction ls as [|a ls IH]; intros k m H; simpl in H.
  - exists (fun _ => k). repeat split; auto. intros i a E. destruct i; discriminate.
  - destruct H as (l & j & E & Fl & S). destruct (IH _ _ S) as (d & D0 & D1 & D2). exists (fun i => match i with 0 => k | S i => d i end). split; [auto|]. split; [auto|].
    intros i b Eb. destruct i; simpl in Eb; [injection Eb as <-; exists l; rewrite D0; auto|]. apply D2; auto.
Qed.
Lemma dims_stack : forall h ls d, dims h ls d -> stack h ls (d 0) (d (length ls)).
Proof.
  intros h. induction ls as [|a ls IH]; intros d H; simpl; [auto|].
  destruct (H 0 a eq_refl) as (l & E & Fl). exists l, (d 1). split; auto. split; auto. apply (IH (fun i => d (S i))). intros i b Eb. apply (H (S i)). auto.
Qed.
Lemma dims_in : forall h ls d a, dims h ls d -> In a ls -> exists i l, nth_error ls i = Some a /\ hget F h a = Ok l /\ fits l (d i) (d (S i)).
Proof. intros h ls d a H Ha. apply In_nth_error in Ha. destruct Ha as [i Ei]. destruct (H i a Ei) as (l & E & Fl). eauto. Qed.
Lemma dims_pos : forall h ls d i, dims h ls d -> 0 < length ls -> i <= length ls -> 0 < d i.
Proof.
  intros h ls d i H L Hi. destruct (Nat.eq_dec i (length ls)) as [->|Ne].
  - destruct (nth_error ls (length ls - 1)) eqn:E; [|apply nth_error_None in E; lia]. destruct (H _ _ E) as (l & _ & Fl). replace (S (length ls - 1)) with (length ls) in Fl by lia. apply Fl.
  - destruct (nth_error ls i) eqn:E; [|apply nth_error_None in E; lia]. destruct (H _ _ E) as (l & _ & Fl). apply Fl.
Qed.

(* what a heap operation on the layers ls leaves alone; T: the modes too *)
Definition sim (T : bool) (l l' : layer F) : Prop :=
  (T = true -> ltrain l' = ltrain l) /\ lfirst l' = lfirst l /\
  (hasWeights l = true -> mrows (lw l') = mrows (lw l) /\ mcols (lw l') = mcols (lw l)) /\
  (hasBiases l = true -> mrows (lb l') = mrows (lb l) /\ mcols (lb l') = mcols (lb l)).
Lemma sim_w : forall T l l', sim T l l' -> hasWeights l = true -> hasWeights l' = true.
Proof. intros T l l' (_ & _ & H & _) W. destruct (H W) as [A B]. unfold hasWeights, msize in *. rewrite A, B. auto. Qed.
Lemma sim_b : forall T l l', sim T l l' -> hasBiases l = true -> hasBiases l' = true.
Proof. intros T l l' (_ & _ & _ & H) W. destruct (H W) as [A B]. unfold hasBiases, msize in *. rewrite A, B. auto. Qed.
Lemma sim_refl : forall T l, sim T l l.
Proof. unfold sim. auto 10. Qed.
Lemma sim_trans : forall T a b c, sim T a b -> sim T b c -> sim T a c.
Proof.
  intros T a b c A B. pose proof (sim_w _ _ _ A) as HW. pose proof (sim_b _ _ _ A) as HB. destruct A as (A2 & A3 & A4 & A5). destruct B as (B2 & B3 & B4 & B5).
  split; [intro Q; rewrite B2, A2; auto|]. split; [congruence|]. split; intro H.
  - destruct (A4 H), (B4 (HW H)). split; congruence.
  - destruct (A5 H), (B5 (HB H)). split; congruence.
Qed.
Lemma sim_weak : forall l l', sim true l l' -> sim false l l'.
Proof. intros l l' (_ & H). split; [discriminate|auto]. Qed.
Lemma keeps_sim : forall T l l', keeps F l l' -> sim T l l'.
Proof. intros T l l' (_ & A & B & C & D). split; auto. Qed.

Definition moves (T : bool) (ls : list nat) (h h' : heap F) : Prop :=
  length h' = length h /\ (forall a, ~ In a ls -> nth_error h' a = nth_error h a) /\
  forall a l, hget F h a = Ok l -> exists l', hget F h' a = Ok l' /\ sim T l l'.
Lemma moves_refl : forall T ls h, moves T ls h h.
Proof. intros. split; [auto|]. split; [auto|]. intros a l E. exists l. split; auto. apply sim_refl. Qed.
Lemma moves_trans : forall T ls a b c, moves T ls a b -> moves T ls b c -> moves T ls a c.
Proof.
  intros T ls a b c (A1 & A2 & A3) (B1 & B2 & B3). split; [congruence|]. split; [intros x Hx; rewrite B2, A2; auto|].
  intros x l E. destruct (A3 _ _ E) as (l' & E' & K). destruct (B3 _ _ E') as (l2 & E2 & K2). exists l2. split; auto. eapply sim_trans; eauto.
Qed.
Lemma moves_weak : forall ls h h', moves true ls h h' -> moves false ls h h'.
Proof. intros ls h h' (A & B & C). split; auto. split; auto. intros a l E. destruct (C _ _ E) as (l' & E' & S). eauto using sim_weak. Qed.
Lemma upd_moves : forall T ls h a l l', In a ls -> hget F h a = Ok l -> sim T l l' -> moves T ls h (upd h a (Some l')).
Proof.
  intros T ls h a l l' Ha E K. pose proof (hget_lt _ _ _ _ E) as La. split; [apply length_upd|]. split.
  - intros b Hb. rewrite nth_error_upd. destruct (Nat.eqb_spec a b); [subst; contradiction|auto].
  - intros b lb Eb. rewrite hget_upd by auto. destruct (Nat.eqb_spec a b) as [<-|N].
    + exists l'. rewrite E in Eb. inversion Eb; subst. auto.
    + exists lb. split; auto. apply sim_refl.
Qed.
Lemma upd_dims : forall ls d h i a l l', NoDup ls -> dims h ls d -> nth_error ls i = Some a -> hget F h a = Ok l -> fits l' (d i) (d (S i)) -> dims (upd h a (Some l')) ls d.
Proof.
  intros ls d h i a l l' Hn H Ea El Fl j b Eb. pose proof (hget_lt _ _ _ _ El) as La. rewrite hget_upd by auto. destruct (Nat.eqb_spec a b) as [<-|N].
  - assert (i = j). { apply (proj1 (NoDup_nth_error ls) Hn); [apply nth_error_Some; congruence|congruence]. } subst j. eauto.
  - apply H; auto.
Qed.
Lemma frame_dims : forall h h' ls d, dims h ls d -> (forall a, In a ls -> nth_error h' a = nth_error h a) -> dims h' ls d.
Proof. intros h h' ls d H E i a Ea. destruct (H i a Ea) as (l & El & Fl). exists l. split; auto. apply hget_ok. rewrite E by (eapply nth_error_In; eauto). apply hget_ok. auto. Qed.

(* one mode for every layer; only the first layer is marked as such *)
Definition modeAll (b : bool) (h : heap F) (ls : list nat) : Prop := forall a l, In a ls -> hget F h a = Ok l -> ltrain l = b.
Definition firstOnly (h : heap F) (ls : list nat) : Prop := forall i a l, nth_error ls (S i) = Some a -> hget F h a = Ok l -> lfirst l = false.
Lemma moves_mode : forall b ls h h', moves true ls h h' -> (forall a, In a ls -> exists l, hget F h a = Ok l) -> modeAll b h ls -> modeAll b h' ls.
Proof. intros b ls h h' (_ & _ & Mv) Al H a l Ha E. destruct (Al a Ha) as [l0 E0]. destruct (Mv _ _ E0) as (l1 & E1 & (Q & _)). rewrite E in E1. inversion E1; subst. rewrite Q by auto. eauto. Qed.
Lemma moves_first : forall T ls h h', moves T ls h h' -> (forall a, In a ls -> exists l, hget F h a = Ok l) -> firstOnly h ls -> firstOnly h' ls.
Proof. intros T ls h h' (_ & _ & Mv) Al H i a l Ha E. destruct (Al a (nth_error_In _ _ Ha)) as [l0 E0]. destruct (Mv _ _ E0) as (l1 & E1 & (_ & Q & _)). rewrite E in E1. inversion E1; subst. rewrite Q. eauto. Qed.
Lemma dims_alive : forall h ls d, dims h ls d -> forall a, In a ls -> exists l, hget F h a = Ok l.
Proof. intros h ls d H a Ha. destruct (dims_in _ _ _ _ H Ha) as (i & l & _ & E & _). eauto. Qed.

(** * forward *)
Section Net.
Variables (n : net) (d : nat -> nat).
Let ls := nlay n.
Hypothesis Hn : NoDup ls.

Lemma fwdLayer_fits : forall rs i h x out nb, i < length ls -> dims h ls d -> shp nb (d i) x -> mwf out ->
  exists a l l' o, nth_error ls i = Some a /\ hget F h a = Ok l /\ keeps F l l' /\ fits l' (d i) (d (S i)) /\ (ltrain l = true -> ready F l' nb (d i)) /\
    fwdLayer F rs n i h x out = Ok (upd h a (Some l'), o) /\ shp nb (d (S i)) o.
Proof.
  intros rs i h x out nb Hi D Hx Ho. destruct (nth_error ls i) as [a|] eqn:Ea; [|apply nth_error_None in Ea; lia].
  destruct (D i a Ea) as (l & El & Fl). destruct (fwd_fits F (rs i) l nb (d i) (d (S i)) x out Fl Hx Ho) as (l' & o & E & So & Fl' & Kl & Rl).
  exists a, l, l', o. repeat (split; [solve [auto]|]). split; [|auto]. unfold fwdLayer. fold ls. unfold rget at 1. rewrite Ea. cbn [bind]. rewrite El. cbn [bind]. rewrite E. cbn [bind].
  rewrite (hset_ok _ _ _ _ _ El). reflexivity.
Qed.

Lemma predict_fits : forall rs h x out nb, 0 < length ls -> dims h ls d -> shp nb (d 0) x -> mwf out ->
  exists h' o, predict F rs h n x out = Ok (h', o) /\ shp nb (d (length ls)) o /\ dims h' ls d /\ moves true ls h h'.
Proof.
  intros rs h x out nb L D Hx Ho. unfold predict. fold ls.
  destruct (@forN_inv _ (fun i (s : heap F * M * M) => let '(h', y, o) := s in dims h' ls d /\ moves true ls h h' /\ shp nb (d i) y /\ mwf o /\ (0 < i -> o = y)) (length ls)
    (fun i '(h, mTemp, mOut) => ' (h, o) <- fwdLayer F rs n i h mTemp mOut ;; Ok (h, o, o)) (h, x, out)) as ([[h' y] o] & E & I1 & I2 & I3 & I4 & I5).
  - repeat (split; [solve [auto|apply moves_refl]|]). intro Q. inversion Q.
  - intros i [[h1 y1] o1] Hi (I1 & I2 & I3 & I4 & _). destruct (fwdLayer_fits rs i h1 y1 o1 nb Hi I1 I3 I4) as (a & l & l' & o' & Ea & El & Kl & Fl & _ & E & So).
    rewrite E. cbn [bind]. eexists. split; [reflexivity|]. split; [eapply upd_dims; eauto|]. split; [eapply moves_trans; eauto; eapply upd_moves; eauto; [eapply nth_error_In; eauto|apply keeps_sim; auto]|].
    split; auto. split; [eapply shp_wf; eauto|auto].
  - rewrite E. cbn [bind]. exists h', o. split; [reflexivity|]. rewrite I5 by auto. auto.
Qed.

(* the matrices of a pass *)
Definition sizes (nb q : nat) (v : list M) : Prop := length v = S (length ls) /\ Forall mwf v /\ forall j, j <= q -> exists y, nth_error v j = Some y /\ shp nb (d j) y.
Definition readyUpto (nb q : nat) (h : heap F) : Prop := forall j a l, j < q -> nth_error ls j = Some a -> hget F h a = Ok l -> ready F l nb (d j).
Lemma Forall_upd' : forall (v : list M) i y, Forall mwf v -> mwf y -> Forall mwf (upd v i y).
Proof. induction v as [|z v IH]; intros [|i] y H Hy; simpl; inversion H; subst; constructor; auto. Qed.
Lemma rget_at : forall (v : list M) i, i < length v -> exists y, rget v i = Ok y /\ nth_error v i = Some y.
Proof. intros v i H. unfold rget. destruct (nth_error v i) eqn:E; [eauto|]. apply nth_error_None in E. lia. Qed.

Lemma forward_fits : forall rs h v nb, dims h ls d -> modeAll true h ls -> sizes nb 0 v ->
  exists h' v', forN (length ls) (fwdStep F rs n) (h, v) = Ok (h', v') /\ dims h' ls d /\ moves true ls h h' /\ sizes nb (length ls) v' /\ readyUpto nb (length ls) h'.
Proof.
  intros rs h v nb D Tr Sv.
  destruct (@forN_inv _ (fun i (s : heap F * list M) => dims (fst s) ls d /\ moves true ls h (fst s) /\ sizes nb i (snd s) /\ readyUpto nb i (fst s)) (length ls) (fwdStep F rs n) (h, v)) as ([h' v'] & E & I1 & I2 & I3 & I4).
  - cbn [fst snd]. split; auto. split; [apply moves_refl|]. split; auto. intros j a l Hj. inversion Hj.
  - intros i [h1 v1] Hi. cbn [fst snd]. intros (I1 & I2 & (L & W & S1) & R1). destruct (S1 i (le_n _)) as (x & Ex & Sx). destruct (rget_at v1 (i + 1)) as (o & Eo & No); [lia|].
    assert (Wo : mwf o) by (rewrite Forall_forall in W; apply W; eapply nth_error_In; eauto).
    destruct (fwdLayer_fits rs i h1 x o nb Hi I1 Sx Wo) as (a & l & l' & o' & Ea & El & Kl & Fl & Rl & E & So). pose proof (hget_lt _ _ _ _ El) as La.
    unfold fwdStep. cbn [fst snd]. unfold rget at 1. rewrite Ex. cbn [bind]. rewrite Eo. cbn [bind]. rewrite E. cbn [bind]. unfold rset. rewrite ltb_true by lia. cbn [bind].
    eexists. split; [reflexivity|]. cbn [fst snd]. split; [eapply upd_dims; eauto|]. split; [eapply moves_trans; eauto; eapply upd_moves; eauto; [eapply nth_error_In; eauto|apply keeps_sim; auto]|].
    split; [split; [rewrite length_upd; auto|split; [apply Forall_upd'; auto; eapply shp_wf; eauto|]]|].
    + intros j Hj. rewrite nth_error_upd. destruct (Nat.eqb_spec (i + 1) j) as [<-|Nj].
      * rewrite ltb_true by lia. exists o'. split; auto. replace (i + 1) with (S i) by lia. auto.
      * apply S1. lia.
    + intros j b lb Hj Eb Elb. rewrite hget_upd in Elb by auto. destruct (Nat.eqb_spec a b) as [<-|Nb].
      * inversion Elb; subst lb. assert (i = j). { apply (proj1 (NoDup_nth_error ls) Hn); [lia|congruence]. } subst j. apply Rl.
        apply (moves_mode true ls h h1 I2 (dims_alive _ _ _ D) Tr a l); auto. eapply nth_error_In; eauto.
      * assert (j <> i). { intro; subst. congruence. } apply (R1 j b); auto. lia.
  - exists h', v'. auto.
Qed.

(** * backward *)
Definition gradedFrom (q : nat) (h : heap F) : Prop := forall j a l, q <= j -> nth_error ls j = Some a -> hget F h a = Ok l -> graded F l.
Lemma backward_fits : forall nb v, sizes nb (length ls) v -> forall q h gs, q <= length ls -> dims h ls d -> firstOnly h ls -> readyUpto nb q h -> gradedFrom q h ->
  length gs = S (length ls) -> Forall mwf gs -> (0 < q -> exists g, nth_error gs q = Some g /\ shp nb (d q) g) ->
  exists h' gs', forL (rev (seq 0 q)) (bwdStep F n v) (h, gs) = Ok (h', gs') /\ dims h' ls d /\ moves true ls h h' /\ gradedFrom 0 h' /\ length gs' = S (length ls) /\ Forall mwf gs'.
Proof.
  intros nb v (Lv & Wv & Sv). induction q as [|q IH]; intros h gs Hq D Fo Rd Gr Lg Wg Hg.
  - exists h, gs. cbn. repeat (split; [solve [auto|apply moves_refl]|]). auto.
  - rewrite seq_S, rev_app_distr. cbn [rev app forL Nat.add]. destruct (Hg (Nat.lt_0_succ _)) as (g & Eg & Sg). destruct (Sv q) as (x & Ex & Sx); [lia|]. destruct (rget_at gs q) as (gin & Egin & Ngin); [lia|].
    destruct (nth_error ls q) as [a|] eqn:Ea; [|apply nth_error_None in Ea; lia]. destruct (D q a Ea) as (l & El & Fl). pose proof (hget_lt _ _ _ _ El) as La.
    assert (Wgin : mwf gin) by (rewrite Forall_forall in Wg; apply Wg; eapply nth_error_In; eauto).
    destruct (bwd_fits F l nb (d q) (d (S q)) x g gin Fl (Rd q a l (Nat.lt_succ_diag_r _) Ea El) Sx Sg Wgin) as (l' & gi & E & (Wgi & Sgi) & Fl' & Kl & Gl).
    unfold bwdStep at 1. cbn [fst snd]. unfold rget at 1. rewrite Ex. cbn [bind]. unfold rget at 1. replace (q + 1) with (S q) by lia. rewrite Eg. cbn [bind]. rewrite Egin. cbn [bind].
    unfold rget at 1. fold ls. rewrite Ea. cbn [bind]. rewrite El. cbn [bind]. rewrite E. cbn [bind]. rewrite (hset_ok _ _ _ _ _ El). cbn [bind]. unfold rset. rewrite ltb_true by lia. cbn [bind].
    assert (Mv : moves true ls h (upd h a (Some l'))) by (eapply upd_moves; eauto; [eapply nth_error_In; eauto|apply keeps_sim; auto]).
    destruct (IH (upd h a (Some l')) (upd gs q gi)) as (h' & gs' & E2 & D2 & M2 & G2 & L2 & W2).
    + lia.
    + eapply upd_dims; eauto.
    + eapply moves_first; eauto. eapply dims_alive; eauto.
    + intros j b lb Hj Eb Elb. rewrite hget_upd in Elb by auto. destruct (Nat.eqb_spec a b) as [<-|Nb].
      * exfalso. assert (q = j). { apply (proj1 (NoDup_nth_error ls) Hn); [lia|congruence]. } lia.
      * apply (Rd j b); auto.
    + intros j b lb Hj Eb Elb. rewrite hget_upd in Elb by auto. destruct (Nat.eqb_spec a b) as [<-|Nb].
      * inversion Elb; subst. auto.
      * assert (j <> q). { intro; subst. congruence. } apply (Gr j b); auto. lia.
    + rewrite length_upd. auto.
    + apply Forall_upd'; auto.
    + intros Hq0. exists gi. rewrite nth_error_upd, Nat.eqb_refl, ltb_true by lia. split; auto. apply Sgi. destruct q; [lia|]. apply (Fo q a l); auto.
    + exists h', gs'. split; auto. split; auto. split; [eapply moves_trans; eauto|]. auto.
Qed.
End Net.

(** * modes *)
Lemma setTrain_fits : forall h n d b, NoDup (nlay n) -> dims h (nlay n) d ->
  exists h', netSetTrain F h n b = Ok (h', mkNet (nlay n) (nclass n) b) /\ dims h' (nlay n) d /\ moves false (nlay n) h h' /\ modeAll b h' (nlay n).
Proof.
  intros h n d b Hn D. unfold netSetTrain.
  destruct (@forL_inv _ _ (fun (done : list nat) (h' : heap F) => dims h' (nlay n) d /\ moves false (nlay n) h h' /\ forall a l, In a done -> hget F h' a = Ok l -> ltrain l = b) (nlay n)
    (fun a h => l <- hget F h a ;; hset F h a (setTrain l b)) h) as (h' & E & I1 & I2 & I3).
  - split; auto. split; [apply moves_refl|]. intros a l [].
  - intros pre a h1 (post & Eq) (I1 & I2 & I3). assert (Ha : In a (nlay n)) by (rewrite Eq; apply in_app_iff; right; left; auto).
    destruct (dims_in _ _ _ _ I1 Ha) as (i & l & Ei & El & Fl). pose proof (hget_lt _ _ _ _ El) as La. rewrite El. cbn [bind]. rewrite (hset_ok _ _ _ _ _ El). eexists. split; [reflexivity|].
    split; [eapply upd_dims; eauto; apply fits_setTrain; auto|]. split.
    + eapply moves_trans; eauto. eapply upd_moves; eauto. split; [discriminate|]. cbn. auto.
    + intros c lc Hc Elc. rewrite hget_upd in Elc by auto. destruct (Nat.eqb_spec a c) as [<-|N]; [inversion Elc; reflexivity|]. apply in_app_iff in Hc. destruct Hc as [Hc|[Hc|[]]]; [eauto|congruence].
  - rewrite E. cbn [bind]. exists h'. split; [reflexivity|]. auto.
Qed.

(** * assignment *)
Lemma push_fits : forall rs src d ls off h acc, (forall i, i < length ls -> nth_error src (off + i) = nth_error ls i) ->
  (forall i a, nth_error ls i = Some a -> exists l, hget F h a = Ok l /\ fits l (d (off + i)) (d (S (off + i)))) ->
  exists cs, forL (seq off (length ls)) (pushClone F rs src) (h, acc) = Ok (h ++ cs, acc ++ seq (length h) (length ls)) /\ length cs = length ls /\
    forall i, i < length ls -> exists l, nth_error cs i = Some (Some l) /\ fits l (d (off + i)) (d (S (off + i))) /\ lfirst l = false /\ ltrain l = false.
Proof.
  intros rs src d. induction ls as [|a r IH]; intros off h acc Hs Hc.
  - exists []. simpl. rewrite !app_nil_r. repeat split; auto. intros i Hi. inversion Hi.
  - destruct (Hc 0 a eq_refl) as (l & El & Fl). rewrite Nat.add_0_r in Fl. destruct (clone_fits F (rs off) l _ _ Fl) as (c & Ec & Fc & Tc & Gc).
    destruct (IH (S off) (h ++ [Some c]) (acc ++ [length h])) as (cs & E & L & C).
    { intros i Hi. replace (S off + i) with (off + S i) by lia. rewrite Hs by (simpl; lia). reflexivity. }
    { intros i b Eb. destruct (Hc (S i) b Eb) as (lb & Elb & Flb). exists lb. split; [apply hget_app; auto|]. replace (S off + i) with (off + S i) by lia. auto. }
    exists (Some c :: cs). rewrite app_length in *. simpl length in *. rewrite Nat.add_1_r in *. rewrite <- !app_assoc in *. simpl in E |- *. split; [|split; [lia|]].
    + unfold pushClone at 1. assert (N : rget src off = Ok a). { unfold rget. specialize (Hs 0). rewrite Nat.add_0_r in Hs. rewrite Hs by (simpl; lia). reflexivity. }
      rewrite N. cbn [bind fst snd]. rewrite El. cbn [bind]. rewrite Ec. cbn [bind]. exact E.
    + intros [|i] Hi; [exists c; rewrite Nat.add_0_r; auto|]. destruct (C i) as (lc & E1 & F1 & G1); [lia|]. exists lc. replace (off + S i) with (S off + i) by lia. auto.
Qed.
Definition live (h : heap F) (n : net) : Prop := NoDup (nlay n) /\ forall a, In a (nlay n) -> exists l, hget F h a = Ok l.
Lemma assign_fits : forall rs h a b d, live h a -> dims h (nlay b) d -> (forall x, In x (nlay a) -> ~ In x (nlay b)) ->
  exists h' a', netAssign F false rs h a b = Ok (h', a') /\ nclass a' = nclass b /\ length (nlay a') = length (nlay b) /\ dims h' (nlay a') d /\ NoDup (nlay a') /\
    modeAll false h' (nlay a') /\ (forall i x l, nth_error (nlay a') i = Some x -> hget F h' x = Ok l -> lfirst l = false) /\
    (forall x, In x (nlay a') -> length h <= x) /\ (forall x, x < length h -> ~ In x (nlay a) -> nth_error h' x = nth_error h x).
Proof.
  intros rs h a b d [Ha1 Ha2] D Hdis. unfold netAssign, netClear.
  destruct (forL_free F (nlay a) h Ha1 Ha2) as (h1 & E1 & L1 & A1 & B1). rewrite E1. cbn [bind nlay].
  assert (D1 : dims h1 (nlay b) d). { eapply frame_dims; eauto. intros x Hx. apply B1. intro Q. apply (Hdis x); auto. }
  destruct (push_fits rs (nlay b) d (nlay b) 0 h1 []) as (cs & E2 & L2 & C2); auto.
  unfold forN. rewrite E2. cbn [bind]. eexists _, _. split; [reflexivity|]. cbn [nlay nclass]. simpl app. rewrite L1 in *.
  assert (At : forall i x, nth_error (seq (length h) (length (nlay b))) i = Some x -> exists l, hget F (h1 ++ cs) x = Ok l /\ fits l (d i) (d (S i)) /\ lfirst l = false /\ ltrain l = false).
  { intros i x Ex. assert (Li : i < length (nlay b)). { rewrite <- (seq_length (length (nlay b)) (length h)). apply nth_error_Some. congruence. }
    destruct (C2 i Li) as (l & El & R). exists l. split; auto. apply hget_ok. assert (x = length h + i). { apply nth_error_nth with (d := 0) in Ex. rewrite seq_nth in Ex by auto. auto. }
    subst x. rewrite nth_error_app2 by lia. replace (length h + i - length h1) with i by lia. auto. }
  split; auto. split; [apply seq_length|]. split; [intros i x Ex; destruct (At i x Ex) as (l & P1 & P2 & _); eauto|]. split; [apply seq_NoDup|]. split; [|split; [|split]].
  - intros x l Hx El. apply In_nth_error in Hx. destruct Hx as [i Ei]. destruct (At i x Ei) as (l' & P1 & _ & _ & P4). congruence.
  - intros i x l Ei El. destruct (At i x Ei) as (l' & P1 & _ & P3 & _). congruence.
  - intros x Hx. apply in_seq in Hx. lia.
  - intros x Hx Nx. rewrite nth_error_app1 by lia. apply B1; auto.
Qed.
End Any.
