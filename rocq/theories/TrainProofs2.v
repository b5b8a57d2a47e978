(* TrainProofs2.v - assigning any network, one epoch *)
From Coq Require Import String List Arith Bool Lia ZArith.
From Verif Require Import Base Scalar Mat Loss Optim Regul Act LayMat LayImg LayRnn Layer Net NetTrain SpecTrain ActMono NetProofs1 NetProofs2 TrainProofs1.
Import ListNotations.
Local Open Scope nat_scope.

Section Train.
Variable F : FOps.
Variable cabs : F -> res F.
Notation M := (mat F).

(** * clones *)
Notation fastKind := (fastKind F). Notation sameParams := (sameParams F).
Lemma fastKind_idem : forall k, fastKind (fastKind k) = fastKind k. Proof. destruct k; reflexivity. Qed.
Lemma layInit_kind : forall r l l', layInit F r l = Ok l' -> lk l' = lk l /\ lwi l' = lwi l /\ lbi l' = lbi l /\ ltrain l' = ltrain l /\ lfirst l' = lfirst l.
Proof.
  intros r l l' E. unfold layInit in E. destruct (lk l) eqn:K;
    try (match type of E with (if ?b then _ else _) = _ => destruct b end); cbv zeta in E; binp E; inversion E; subst; cbn; rewrite ?K; auto.
Qed.
Lemma layNew_kind : forall r k wi bi l, layNew F r k wi bi = Ok l -> lk l = k /\ lwi l = wi /\ lbi l = bi /\ ltrain l = false /\ lfirst l = false.
Proof.
  intros r k wi bi l E. unfold layNew in E. binp E. apply layInit_kind in E. destruct E as (-> & -> & -> & -> & ->).
  unfold layCtor in Ex. cbn [layBase lk] in Ex. destruct k; binp Ex; inversion Ex; subst; cbn; auto.
Qed.
Lemma cloneKind_fast : forall k k', cloneKind F k = Ok k' -> k' = fastKind k.
Proof.
  intros k k' E. destruct k; cbn in E; try (inversion E; reflexivity).
  - destruct a; [|discriminate]. cbn in E. rewrite (proj2 (activations_complete _)) in E. inversion E. reflexivity.
  - destruct a1; [|discriminate]. cbn in E. destruct a2; [|discriminate]. cbn in E. rewrite !(proj2 (activations_complete _)) in E. inversion E. reflexivity.
Qed.

Lemma clone_params : forall r l c, layClone F r l = Ok c -> lk c = fastKind (lk l) /\ ltrain c = false /\ lbi c = lbi l /\ sameParams l c.
Proof.
  intros r l c E. unfold layClone in E. apply bind_inv in E. destruct E as (k & Ek & E). apply bind_inv in E. destruct E as (n & En & E).
  apply cloneKind_fast in Ek. subst k. apply layNew_kind in En. destruct En as (K1 & K2 & K3 & K4 & K5). unfold SpecTrain.sameParams.
  destruct (lk l) eqn:K; inversion E; subst; repeat split; cbn; rewrite ?K1; auto.
Qed.
Lemma sameParams_trans : forall a b c, lk b = fastKind (lk a) -> sameParams a b -> sameParams b c -> sameParams a c.
Proof.
  intros a b c Hk H1 H2. unfold SpecTrain.sameParams in *. rewrite Hk in H2. destruct (lk a); cbn [SpecTrain.fastKind] in H2; intuition congruence.
Qed.

(** * assigning a network *)
Lemma free_live : forall ls h h', forL ls (fun a h => hfree F h a) h = Ok h' -> forall b, In b ls -> exists l, nth_error h b = Some (Some l).
Proof.
  induction ls as [|a r IH]; intros h h' E b Hb; [destruct Hb|]. simpl in E. binp E. unfold hfree in Ex. binp Ex. apply hget_ok in Ex0. destruct Hb as [<-|Hb]; eauto.
  unfold rset in Ex. destruct (a <? length h); inversion Ex; subst. destruct (IH _ _ E b Hb) as [l El]. rewrite nth_error_upd in El. destruct ((a =? b) && (a <? length h)); [discriminate|]. eauto.
Qed.
Lemma clear_post : forall h n h' n', netClear F h n = Ok (h', n') ->
  n' = mkNet [] (nclass n) false /\ length h' = length h /\ NoDup (nlay n) /\
  (forall x, ~ In x (nlay n) -> nth_error h' x = nth_error h x) /\
  (forall x, In x (nlay n) -> x < length h /\ nth_error h' x = Some None).
Proof.
  intros h n h' n' E. unfold netClear in E. binp E. inversion E; subst. split; auto. clear E. revert h Ex. generalize (nlay n). clear n.
  induction l as [|a r IH]; intros h Ex; simpl in Ex.
  - inversion Ex; subst. repeat split; auto; try (destruct H). constructor.
  - binp Ex. unfold hfree in Ex0. binp Ex0. unfold rset in Ex0. destruct (a <? length h) eqn:La; [|discriminate]. inversion Ex0; subst. pose proof La as La'. apply Nat.ltb_lt in La.
    pose proof (free_live _ _ _ Ex) as Fl. destruct (IH _ Ex) as (I1 & I2 & I3 & I4). rewrite length_upd in *.
    assert (Na : ~ In a r). { intro Ha. destruct (Fl a Ha) as [l El]. rewrite nth_error_upd, Nat.eqb_refl, La' in El. discriminate. }
    split; auto. split; [constructor; auto|]. split.
    + intros x Hx. simpl in Hx. rewrite I3 by tauto. rewrite nth_error_upd. destruct (Nat.eqb_spec a x); [tauto|reflexivity].
    + intros x [<-|Hx].
      * split; auto. rewrite I3 by auto. rewrite nth_error_upd, Nat.eqb_refl, La'. reflexivity.
      * apply I4; auto.
Qed.

(* the layers ls of h have been copied by clone() to the addresses ls' of h' *)
Definition clonesOf (h : heap F) (ls : list nat) (h' : heap F) (ls' : list nat) : Prop :=
  length ls' = length ls /\ forall i a, nth_error ls i = Some a -> exists a' l c r, nth_error ls' i = Some a' /\ hget F h a = Ok l /\ layClone F r l = Ok c /\ hget F h' a' = Ok c.

Lemma assign_post : forall rs h n o h' n', netAssign F false rs h n o = Ok (h', n') -> (forall x, In x (nlay o) -> x < length h) ->
  nlay n' = seq (length h) (length (nlay o)) /\ nclass n' = nclass o /\ ntrain n' = false /\ length h' = length h + length (nlay o) /\ NoDup (nlay n) /\
  (forall x, In x (nlay o) -> ~ In x (nlay n)) /\
  (forall x, x < length h -> ~ In x (nlay n) -> nth_error h' x = nth_error h x) /\
  (forall x, In x (nlay n) -> x < length h /\ nth_error h' x = Some None) /\
  clonesOf h (nlay o) h' (nlay n').
Proof.
  intros rs h n o h' n' E Hin. unfold netAssign in E. binp E. inversion E; subst. clear E. cbn [nlay nclass ntrain].
  apply clear_post in Ex. destruct Ex as (-> & C1 & C2 & C3 & C4). cbn [nlay] in *. rename h0 into h1. cbn [nlay ntrain].
  assert (G : exists cs, h' = h1 ++ cs /\ l = seq (length h1) (length (nlay o)) /\ length cs = length (nlay o) /\
     forall i a, nth_error (nlay o) i = Some a -> exists la c, nth_error h1 a = Some (Some la) /\ layClone F (rs i) la = Ok c /\ nth_error cs i = Some (Some c)).
  { apply (forN_postI _ (fun k p => exists cs, fst p = h1 ++ cs /\ snd p = seq (length h1) k /\ length cs = k /\
     forall i a, i < k -> nth_error (nlay o) i = Some a -> a < length h1 -> exists la c, nth_error h1 a = Some (Some la) /\ layClone F (rs i) la = Ok c /\ nth_error cs i = Some (Some c))) in Ex0.
    - destruct Ex0 as (cs & A1 & A2 & A3 & A4). cbn [fst snd] in *. exists cs. repeat split; auto. intros i a Ha. apply A4; auto.
      + apply nth_error_Some. congruence.
      + rewrite C1. apply Hin. eapply nth_error_In; eauto.
    - exists []. cbn. rewrite app_nil_r. repeat split; auto. intros; lia.
    - intros i [h2 l2] [h3 l3] Hi (cs & A1 & A2 & A3 & A4) Eb. cbn [fst snd] in *. subst h2 l2. unfold pushClone in Eb. cbn [fst snd] in Eb. binp Eb. inversion Eb; subst. clear Eb.
      exists (cs ++ [Some x1]). split; [rewrite app_assoc; auto|]. split; [rewrite app_length, seq_S; auto|]. split; [rewrite app_length; simpl; lia|].
      intros j a Hj Ha La. destruct (Nat.eq_dec j (length cs)) as [->|Nj].
      + unfold rget in Ex. rewrite Ha in Ex. inversion Ex; subst. apply hget_ok in Ex1. rewrite nth_error_app1 in Ex1 by auto. exists x0, x1. repeat split; auto.
        rewrite nth_error_app2, Nat.sub_diag by lia. reflexivity.
      + destruct (A4 j a) as (la & c & B1 & B2 & B3); auto; try lia. exists la, c. repeat split; auto. rewrite nth_error_app1 by lia. auto. }
  destruct G as (cs & -> & -> & G3 & G4). rewrite C1 in *.
  assert (Dis : forall x, In x (nlay o) -> ~ In x (nlay n)).
  { intros x Hx Hn. apply In_nth_error in Hx. destruct Hx as [i Hi]. destruct (G4 i x Hi) as (la & c & B1 & _). destruct (C4 x Hn) as [_ B]. congruence. }
  split; auto. split; auto. split; auto. split; [rewrite app_length; lia|]. split; auto. split; auto.
  split; [intros x Lx Nx; rewrite nth_error_app1 by lia; auto|]. split.
  - intros x Hx. destruct (C4 x Hx) as [B1 B2]. split; auto. rewrite nth_error_app1 by lia. auto.
  - split; [apply seq_length|]. intros i a Ha. destruct (G4 i a Ha) as (la & c & B1 & B2 & B3).
    assert (Li : i < length (nlay o)) by (apply nth_error_Some; congruence).
    exists (length h + i), la, c, (rs i). split; [|split; [|split; auto]].
    + rewrite nth_error_nth' with (d := 0) by (rewrite seq_length; auto). rewrite seq_nth by auto. reflexivity.
    + apply hget_ok. rewrite <- C3; auto. apply Dis. eapply nth_error_In; eauto.
    + apply hget_ok. rewrite nth_error_app2 by lia. replace (length h + i - length h1) with i by lia. auto.
Qed.

(** * statistics of one epoch *)
Definition histGrow (n : net) (t : trainer F) (H H' : hist F) (l a : F) : Prop :=
  exists tl ta vl va,
    hTL F H' = hTL F H ++ [tl] /\ hTA F H' = hTA F H ++ (if nclass n then [ta] else []) /\
    hVL F H' = hVL F H ++ (match tval F t with Some _ => [vl] | None => [] end) /\
    hVA F H' = hVA F H ++ (match tval F t with Some _ => [va] | None => [] end) /\
    l = (match tval F t with Some _ => vl | None => tl end) /\
    a = (match tval F t with Some _ => va | None => if nclass n then ta else fTA F H end).
Lemma epochStats_post : forall R e h n t nS h' t' l a, epochStats F cabs R e h n t nS = Ok (h', t', l, a) ->
  touch F (nlay n) h h' /\ t' = setHist F t (th F t') /\ histGrow n t (th F t) (th F t') l a.
Proof.
  intros R e h n t nS h' t' l a E. unfold epochStats in E. cbv zeta in E. destruct (tval F t) as [[x y]|] eqn:V.
  - binp E. inversion E; subst. apply lossAccuracy_touch in Ex. split; auto. split; [reflexivity|].
    exists (fdiv F (tonl F t) (fofN F nS)), (fdiv F (fmul F (fofN F 100) (fofN F (tgood F t))) (fofN F nS)), l, a. rewrite V. destruct (nclass n); cbn; rewrite ?app_nil_r; repeat split; auto.
  - inversion E; subst. split; [apply touch_refl|]. split; [reflexivity|].
    exists (fdiv F (tonl F t) (fofN F nS)), (fdiv F (fmul F (fofN F 100) (fofN F (tgood F t))) (fofN F nS)), (f0 F), (f0 F). rewrite V. destruct (nclass n); cbn; rewrite ?app_nil_r; repeat split; auto.
Qed.

(** * one epoch *)
(* what an epoch leaves of the trainer, apart from the history, the stagnation count, the learning rate and the optimisers *)
Definition kept (t t' : trainer F) : Prop :=
  tc F t' = setLr F (tc F t) (cLr F (tc F t')) /\ tbal F t' = tbal F t /\ tadj F t' = tadj F t /\ tnl F t' = tnl F t /\ tpw F t' = tpw F t /\ tpb F t' = tpb F t /\
  ttrain F t' = ttrain F t /\ tval F t' = tval F t /\ tcallback F t' = tcallback F t /\ length (topts F t') = length (topts F t).
Lemma setLr_same : forall c, setLr F c (cLr F c) = c. Proof. intros []; reflexivity. Qed.
Lemma kept_refl : forall t, kept t t. Proof. intro t. repeat split. rewrite setLr_same. auto. Qed.
Lemma kept_trans : forall a b c, kept a b -> kept b c -> kept a c.
Proof.
  intros a b c (A0 & A1 & A2 & A3 & A4 & A5 & A6 & A7 & A8 & A9) (B0 & B1 & B2 & B3 & B4 & B5 & B6 & B7 & B8 & B9).
  repeat split; try congruence. rewrite B0 at 1. rewrite A0. reflexivity.
Qed.
Lemma kept_flags : forall t t', kept t t' -> cKeep F (tc F t') = cKeep F (tc F t) /\ cPatience F (tc F t') = cPatience F (tc F t) /\ cReboost F (tc F t') = cReboost F (tc F t) /\ cEpochs F (tc F t') = cEpochs F (tc F t) /\ cValBatch F (tc F t') = cValBatch F (tc F t).
Proof. intros t t' (A0 & _). rewrite A0. auto. Qed.
Lemma frozen_kept : forall t t', frozen F t t' -> kept t t'.
Proof.
  intros t t' (A0 & A1 & A2 & A3 & A4 & A5 & A6 & A7 & A8 & A9 & A10 & A11). repeat split; auto.
  - rewrite A0. rewrite setLr_same. auto.
  - rewrite <- (map_length (olr F) (topts F t')), A11, map_length. auto.
Qed.

(* the epoch up to the choice of the best network *)
Lemma epoch_split : forall R mS mT e s s', epoch F cabs R mS mT e s = Ok s' -> exists h1 t1 l a s2,
  touch F (nlay (sn F s) ++ tpw F (st F s) ++ tpb F (st F s)) (sh F s) h1 /\ kept (st F s) t1 /\ tcur F t1 = tcur F (st F s) /\ tc F t1 = tc F (st F s) /\
  map (olr F) (topts F t1) = map (olr F) (topts F (st F s)) /\ histGrow (sn F s) (st F s) (th F (st F s)) (th F t1) l a /\
  epochBest F R e (mkFS F h1 (mkNet (nlay (sn F s)) (nclass (sn F s)) false) t1 (sbest F s) (sacc F s) (sloss F s) (sreb F s)
     (if tcallback F (st F s) then scalls F s ++ [th F t1] else scalls F s)) l a = Ok s2 /\ s' = epochReboost F s2.
Proof.
  intros R mS mT e s s' E. unfold epoch in E. binp E. inversion E; subst. clear E. rename Ex into E1, Ex0 into E2, Ex1 into E3.
  apply epochTrain_post in E1. destruct E1 as (A1 & A2 & ->). apply epochStats_post in E2. destruct E2 as (B1 & B2 & B3). cbn [nlay nclass] in *.
  exists h0, t2, t1, t0, x. pose proof A2 as A2'. destruct A2' as (Q0 & Q1 & Q2 & Q3 & Q4 & Q5 & Q6 & Q7 & Q8 & Q9 & Q10 & Q11).
  split; [|split; [|split; [|split; [|split; [|split; [|split; auto]]]]]].
  - eapply touch_trans; [exact A1|]. eapply touch_weaken; [|exact B1]. intros; apply in_or_app; auto.
  - eapply kept_trans; [apply frozen_kept; exact A2|]. rewrite B2. repeat split. cbn. rewrite setLr_same. auto.
  - rewrite B2. auto.
  - rewrite B2. auto.
  - rewrite B2. auto.
  - unfold histGrow in *. cbn [nclass] in B3. rewrite Q7, Q9 in B3. exact B3.
  - assert (Z : tcallback F t2 = tcallback F (st F s)) by (rewrite B2; exact Q10). rewrite Z in E3. exact E3.
Qed.
End Train.
