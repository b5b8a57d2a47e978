(* TrainProofs6.v - patience: the network survives or not, dangling registrations *)
From Coq Require Import String List Arith Bool Lia ZArith.
From Verif Require Import Base Scalar Mat Loss Optim Regul Act LayMat LayImg LayRnn Layer Net NetTrain SpecNet SpecTrain NetProofs1 NetProofs2 TrainProofs1 TrainProofs2 TrainProofs3 TrainProofs4 TrainProofs5.
Import ListNotations.
Local Open Scope nat_scope.

Section Train.
Variable F : FOps.
Variable cabs : F -> res F.
Notation M := (mat F).
Notation kept := (kept F). Notation histGrow := (histGrow F).
Notation copyOf := (copyOf F). Notation fastKind := (fastKind F). Notation sameKindsAt := (sameKindsAt F).

(** * classes *)
Lemma copy_kinds : forall h ls h' ls', copyOf h ls h' ls' -> sameKindsAt h ls h' ls'.
Proof. intros h ls h' ls' [H1 H2]. split; auto. intros i a Ha. destruct (H2 i a Ha) as (a' & l & c & A & B & C & D & _). exists a', l, c. auto. Qed.
Lemma kinds_trans : forall h1 l1 h2 l2 h3 l3, sameKindsAt h1 l1 h2 l2 -> sameKindsAt h2 l2 h3 l3 -> sameKindsAt h1 l1 h3 l3.
Proof.
  intros h1 l1 h2 l2 h3 l3 [A1 A2] [B1 B2]. split; [congruence|]. intros i a Ha. destruct (A2 i a Ha) as (a' & l & c & C1 & C2 & C3 & C4).
  destruct (B2 i a' C1) as (b' & l' & c' & D1 & D2 & D3 & D4). rewrite C3 in D2. inversion D2; subst. exists b', l, c'. repeat split; auto. congruence.
Qed.
Lemma kinds_frame : forall h ls h1 h2 ls', sameKindsAt h ls h1 ls' -> (forall x l, In x ls' -> hget F h1 x = Ok l -> exists l', hget F h2 x = Ok l' /\ lk l' = lk l) -> sameKindsAt h ls h2 ls'.
Proof.
  intros h ls h1 h2 ls' [H1 H2] Hs. split; auto. intros i a Ha. destruct (H2 i a Ha) as (a' & l & c & A & B & C & D).
  destruct (Hs a' c) as (c' & C1 & C2); auto; [eapply nth_error_In; eauto|]. exists a', l, c'. repeat split; auto. congruence.
Qed.
Lemma kinds_live : forall h ls h' ls', sameKindsAt h ls h' ls' -> forall x, In x ls' -> exists l, hget F h' x = Ok l.
Proof.
  intros h ls h' ls' [H1 H2] x Hx. apply In_nth_error in Hx. destruct Hx as [i Hi]. assert (i < length ls) by (rewrite <- H1; apply nth_error_Some; congruence).
  destruct (nth_error ls i) as [a|] eqn:E; [|apply nth_error_None in E; lia]. destruct (H2 i a E) as (a' & l & c & A & _ & C & _). rewrite Hi in A. inversion A; subst. eauto.
Qed.
Lemma kinds_lt : forall h ls h' ls', sameKindsAt h ls h' ls' -> forall x, In x ls' -> x < length h'.
Proof. intros h ls h' ls' H x Hx. destruct (kinds_live _ _ _ _ H x Hx) as [l El]. eapply hget_lt; eauto. Qed.

(** * the invariant of runs with keep-best or without patience *)
Definition aliveInv (h0 : heap F) (n0 : net) (s : fstate F) : Prop :=
  sameKindsAt h0 (nlay n0) (sh F s) (nlay (sn F s)) /\
  (forall x, In x (tpw F (st F s) ++ tpb F (st F s)) -> In x (nlay (sn F s)) \/ nth_error (sh F s) x = Some None) /\
  (cKeep F (tc F (st F s)) = true -> sameKindsAt h0 (nlay n0) (sh F s) (nlay (sbest F s)) /\ forall x, In x (nlay (sbest F s)) -> ~ In x (nlay (sn F s))).

Lemma snap_dead : forall rs h n o h' n' x, netAssign F false rs h n o = Ok (h', n') -> (forall x, In x (nlay o) -> x < length h) -> nth_error h x = Some None -> nth_error h' x = Some None.
Proof.
  intros rs h n o h' n' x E Hin Hd. apply snapshot in E; auto. destruct E as (_ & _ & _ & _ & D5 & D6). destruct (in_dec Nat.eq_dec x (nlay n)); auto.
  rewrite D5; auto. apply nth_error_Some. congruence.
Qed.
Lemma alive_step : forall R mS mT e s s' h0 n0, epoch F cabs R mS mT e s = Ok s' ->
  (cKeep F (tc F (st F s)) = true \/ cPatience F (tc F (st F s)) = (-1)%Z) -> aliveInv h0 n0 s -> aliveInv h0 n0 s'.
Proof.
  intros R mS mT e s s' h0 n0 E Hm (I1 & I2 & I3). pose proof (epoch_facts _ _ _ _ _ _ _ _ E) as (K & _). pose proof (kept_flags _ _ _ K) as (Kk & _).
  destruct K as (_ & _ & _ & _ & K1 & K2 & _). unfold aliveInv. rewrite Kk, K1, K2. clear K1 K2 Kk.
  apply epoch_split in E. destruct E as (h1 & t1 & l & a & s2 & A1 & A2 & A3 & A4 & A5 & A6 & A7 & ->).
  destruct (reboost_facts F s2) as (C1 & C2 & C3 & C4 & _). rewrite C2, C3, C4. clear C1 C2 C3 C4.
  destruct A1 as (T1 & T2 & T3).
  assert (I1' : sameKindsAt h0 (nlay n0) h1 (nlay (sn F s))).
  { eapply kinds_frame; [exact I1|]. intros x lx Hx El. destruct (T3 x lx) as (l' & E1 & E2); auto; [apply in_or_app; auto|]. exists l'. split; auto. apply E2. }
  assert (I2' : forall x, In x (tpw F (st F s) ++ tpb F (st F s)) -> In x (nlay (sn F s)) \/ nth_error h1 x = Some None).
  { intros x Hx. destruct (I2 x Hx) as [D|D]; auto. right. rewrite T2; auto. }
  assert (I3' : cKeep F (tc F (st F s)) = true -> sameKindsAt h0 (nlay n0) h1 (nlay (sbest F s)) /\ forall x, In x (nlay (sbest F s)) -> ~ In x (nlay (sn F s))).
  { intros Hk. destruct (I3 Hk) as [J1 J2]. split; auto. eapply kinds_frame; [exact J1|]. intros x lx Hx El. exists lx. split; auto. rewrite <- El. apply hget_same. apply T2. left.
    intro Q. apply in_app_iff in Q. destruct Q as [Q|Q]; [eapply J2; eauto|]. destruct (I2 x Q) as [D|D]; [eapply J2; eauto|]. apply hget_ok in El. congruence. }
  clear I1 I2 I3 T1 T2 T3. apply epochBest_cases in A7. rewrite A4 in A7. cbn [nlay nclass] in A7. destruct A7 as [(Q1 & _ & ->)|(Q & b & h2 & b1 & c & Hb & Hc & A7)].
  - cbn [sh sn sbest nlay]. auto.
  - assert (Hk : cKeep F (tc F (st F s)) = true) by (destruct Hm, Q; auto; congruence). destruct (I3' Hk) as [J1 J2]. clear I3'.
    assert (S2 : sameKindsAt h0 (nlay n0) h2 (nlay (sn F s)) /\ (forall x, In x (tpw F (st F s) ++ tpb F (st F s)) -> In x (nlay (sn F s)) \/ nth_error h2 x = Some None) /\
      sameKindsAt h0 (nlay n0) h2 (nlay b1) /\ forall x, In x (nlay b1) -> ~ In x (nlay (sn F s))).
    { destruct b.
      - destruct Hc as [Hc _]. assert (Hl : forall x, In x (nlay (sn F s)) -> x < length h1) by (eapply kinds_lt; eauto).
        pose proof (snap_dead _ _ _ _ _ _ (0) Hc) as _. assert (Hd : forall x, nth_error h1 x = Some None -> nth_error h2 x = Some None) by (intros x; eapply snap_dead; eauto).
        apply snapshot in Hc; auto. cbn [nlay] in Hc. destruct Hc as (D1 & D2 & D3 & D4 & D5 & D6).
        assert (N1 : sameKindsAt h0 (nlay n0) h2 (nlay (sn F s))).
        { eapply kinds_frame; [exact I1'|]. intros x lx Hx El. exists lx. split; auto. rewrite <- El. apply hget_same. auto. }
        split; auto. split; [intros x Hx; destruct (I2' x Hx); auto|]. split; [eapply kinds_trans; [exact N1|apply copy_kinds; exact D4]|].
        intros x Hx Q1. apply D3 in Hx. apply Hl in Q1. lia.
      - destruct Hc as (-> & -> & _). auto. }
    destruct S2 as (S1 & S2 & S3 & S4). cbv zeta in A7. destruct A7 as [[_ (h3 & n2 & E1 & ->)]|[_ ->]]; cbn [sh sn sbest nlay].
    + assert (Hl : forall x, In x (nlay b1) -> x < length h2) by (eapply kinds_lt; eauto).
      assert (Hd : forall x, nth_error h2 x = Some None -> nth_error h3 x = Some None) by (intros x; eapply snap_dead; eauto).
      apply snapshot in E1; auto. cbn [nlay] in E1. destruct E1 as (D1 & D2 & D3 & D4 & D5 & D6).
      assert (N1 : sameKindsAt h0 (nlay n0) h3 (nlay b1)).
      { eapply kinds_frame; [exact S3|]. intros x lx Hx El. exists lx. split; auto. rewrite <- El. apply hget_same. auto. }
      split; [eapply kinds_trans; [exact N1|apply copy_kinds; exact D4]|]. split; [intros x Hx; right; destruct (S2 x Hx); auto|].
      intros _. split; auto. intros x Hx Q1. apply D3 in Q1. apply Hl in Hx. lia.
    + auto.
Qed.
Lemma setNet_kinds : forall h n t h1 t1, setNet F h n t = Ok (h1, t1) -> sameKindsAt h (nlay n) h1 (nlay n) /\ forall x, In x (tpw F t1 ++ tpb F t1) -> In x (nlay n).
Proof.
  intros h n t h1 t1 P. apply setNet_post in P. destruct P as (P1 & P2 & P3 & P4 & P5 & P6 & _). split.
  - split; auto. intros i a Ha. assert (Ia : In a (nlay n)) by (eapply nth_error_In; eauto).
    assert (D : hd_error (nlay n) = Some a \/ hd_error (nlay n) <> Some a) by (destruct (hd_error (nlay n)) as [b|]; [destruct (Nat.eq_dec b a); [left; congruence|right; congruence]|right; discriminate]).
    destruct D as [D|D].
    + destruct (P3 a D) as (l & B1 & B2). exists a, l, (setFirst l true). auto.
    + destruct (P4 a Ia) as [l El]. exists a, l, l. repeat split; auto. rewrite <- El. symmetry. apply hget_same. auto.
  - intros x Hx. rewrite P5, P6 in Hx. apply in_app_iff in Hx. destruct Hx as [Hx|Hx]; apply filter_In in Hx; tauto.
Qed.
Lemma alive_start : forall R h n t h1 t1 mS mT s, setNet F h n t = Ok (h1, t1) -> fitStart F cabs R h1 n t1 mS mT = Ok s -> aliveInv h n s.
Proof.
  intros R h n t h1 t1 mS mT s E1 E2. apply setNet_kinds in E1. destruct E1 as [N1 N2]. apply start_post in E2.
  destruct E2 as (Q1 & Q2 & Q3 & Q4 & Q5 & Q6 & Q7 & _ & _ & _ & _ & _ & _ & _ & _ & _ & _ & Q). unfold aliveInv. rewrite Q1, Q2, Q6, Q7.
  destruct (cKeep F (tc F t1)) eqn:Hk.
  - destruct Q as (h2 & l & a & E1 & E2 & _).
    assert (T : touch F (nlay n) h1 h2). { destruct (match tval F t1 with Some p => p | None => (mS, mT) end) as [x y]. eapply lossAccuracy_touch; eauto. } destruct T as (T1 & T2 & T3).
    assert (N3 : sameKindsAt h (nlay n) h2 (nlay n)).
    { eapply kinds_frame; [exact N1|]. intros x lx Hx El. destruct (T3 x lx Hx El) as (l' & B1 & B2). exists l'. split; auto. apply B2. }
    assert (Hl : forall x, In x (nlay n) -> x < length h2) by (eapply kinds_lt; eauto).
    apply snapshot in E2; auto. destruct E2 as (D1 & D2 & D3 & D4 & D5 & D6).
    assert (N4 : sameKindsAt h (nlay n) (sh F s) (nlay n)).
    { eapply kinds_frame; [exact N3|]. intros x lx Hx El. exists lx. split; auto. rewrite <- El. apply hget_same. auto. }
    split; auto. split; auto. intros _. split; [eapply kinds_trans; [exact N4|apply copy_kinds; exact D4]|]. intros x Hx Q. apply D3 in Hx. apply Hl in Q. lia.
  - destruct Q as (-> & -> & _). split; auto. split; auto. intro; discriminate.
Qed.

Lemma idle_best : forall R mS mT e s s', epoch F cabs R mS mT e s = Ok s' -> cKeep F (tc F (st F s)) = false -> cPatience F (tc F (st F s)) = (-1)%Z ->
  sbest F s' = sbest F s /\ nlay (sn F s') = nlay (sn F s).
Proof.
  intros R mS mT e s s' E Hk Hp. apply epoch_split in E. destruct E as (h1 & t1 & l & a & s2 & A1 & A2 & A3 & A4 & A5 & A6 & A7 & ->).
  destruct (reboost_facts F s2) as (_ & _ & C3 & C4 & _). rewrite C3, C4. apply epochBest_cases in A7. rewrite A4 in A7. destruct A7 as [(_ & _ & ->)|([Q|Q] & _)]; auto; congruence.
Qed.

(* the classes of the layers are those the user chose *)
Theorem fit_keeps_layers : forall R h n t h' n' t' calls, fit F cabs R h n t = Ok (h', n', t', calls) ->
  (cKeep F (tc F t) = true \/ cPatience F (tc F t) = (-1)%Z) -> sameKindsAt h (nlay n) h' (nlay n').
Proof.
  intros R h n t h' n' t' calls E Hm. destruct (nlay n) as [|z zs] eqn:Hn.
  { unfold fit in E. apply bind_inv in E. destruct E as ([h1 t1] & E1 & E). apply setNet_post in E1. destruct E1 as (_ & _ & _ & _ & _ & _ & _ & P & _). rewrite P, Hn in E. simpl in E. inversion E; subst. rewrite Hn. split; auto. intros [|i] a Ha; discriminate. }
  rewrite <- Hn. apply fit_split in E; [|congruence]. destruct E as (h1 & t1 & mS & mT & ss & E1 & E2 & E3 & E4 & E5). set (e := Z.to_nat (cEpochs F (tc F t))) in *.
  pose proof (alive_start _ _ _ _ _ _ _ _ _ E1 E3) as I0. apply setNet_post in E1. destruct E1 as (_ & _ & _ & _ & _ & _ & P & _). apply start_post in E3. destruct E3 as (Q1 & Q2 & _ & _ & _ & _ & _ & _ & _ & _ & _ & _ & _ & _ & _ & _ & _ & Q3).
  assert (G : forall i, i <= e -> aliveInv h n (ss i)).
  { induction i as [|i IH]; intros Hi; auto. eapply alive_step; [apply E4; lia| |apply IH; lia].
    pose proof (kept_flags _ _ _ (run_kept F cabs R mS mT ss e E4 i ltac:(lia))) as (K1 & K2 & _). rewrite K1, K2, Q2, P. auto. }
  pose proof (G e (Nat.le_refl e)) as (I1 & I2 & I3). pose proof (kept_flags _ _ _ (run_kept F cabs R mS mT ss e E4 e ltac:(lia))) as (K1 & K2 & _).
  unfold fitEnd in E5. rewrite K1, Q2, P in *. apply bind_inv in E5. destruct E5 as ([h2 n2] & E6 & E5). binp E5. inversion E5; subst. clear E5. apply clear_post in Ex. destruct Ex as (_ & X1 & X2 & X3 & X4).
  destruct (cKeep F (tc F t)) eqn:Hk.
  - destruct (I3 eq_refl) as [J1 J2]. assert (Hl : forall x, In x (nlay (sbest F (ss e))) -> x < length (sh F (ss e))) by (eapply kinds_lt; eauto). apply snapshot in E6; auto. destruct E6 as (D1 & D2 & D3 & D4 & D5 & D6).
    eapply kinds_trans; [exact J1|]. eapply kinds_trans; [|eapply kinds_frame; [apply copy_kinds; exact D4|]].
    + split; auto. intros i a Ha. assert (Ia : In a (nlay (sbest F (ss e)))) by (eapply nth_error_In; eauto). destruct (kinds_live _ _ _ _ J1 a Ia) as [l El]. exists a, l, l. repeat split; auto. rewrite <- El. apply hget_same. auto.
    + intros x lx Hx El. exists lx. split; auto. rewrite <- El. apply hget_same, X3. intro Q. apply Hl in Q. apply D3 in Hx. lia.
  - inversion E6; subst. eapply kinds_frame; [exact I1|]. intros x lx Hx El. exists lx. split; auto. rewrite <- El. apply hget_same, X3.
    assert (Nb : forall i, i <= e -> nlay (sbest F (ss i)) = []).
    { destruct Hm as [Hm|Hm]; [discriminate|]. induction i as [|i IH]; intros Hi.
      - destruct Q3 as (_ & -> & _). reflexivity.
      - pose proof (kept_flags _ _ _ (run_kept F cabs R mS mT ss e E4 i ltac:(lia))) as (L1 & L2 & _). destruct (idle_best _ _ _ _ _ _ (E4 i ltac:(lia))) as [B1 _]; try congruence. rewrite B1. apply IH. lia. }
    rewrite Nb by lia. auto.
Qed.

(** * every registered parameter belongs to a live layer of the network as long as nothing is rolled back *)
Theorem registered_live : forall R h n t h' n' t' calls, fit F cabs R h n t = Ok (h', n', t', calls) -> nlay n <> [] -> cPatience F (tc F t) = (-1)%Z ->
  exists h1 t1 mS mT ss, setNet F h n t = Ok (h1, t1) /\ ttrain F t = Some (mS, mT) /\ fitStart F cabs R h1 n t1 mS mT = Ok (ss 0) /\
  (forall i, i < Z.to_nat (cEpochs F (tc F t)) -> epoch F cabs R mS mT i (ss i) = Ok (ss (S i))) /\
  forall i x, i <= Z.to_nat (cEpochs F (tc F t)) -> In x (tpw F (st F (ss i)) ++ tpb F (st F (ss i))) -> In x (nlay (sn F (ss i))) /\ exists l, hget F (sh F (ss i)) x = Ok l.
Proof.
  intros R h n t h' n' t' calls E Hn Hp. apply fit_split in E; auto. destruct E as (h1 & t1 & mS & mT & ss & E1 & E2 & E3 & E4 & E5). exists h1, t1, mS, mT, ss. repeat (split; [assumption|]).
  set (e := Z.to_nat (cEpochs F (tc F t))) in *.
  pose proof (alive_start _ _ _ _ _ _ _ _ _ E1 E3) as I0. pose proof (setNet_kinds _ _ _ _ _ E1) as [_ N2]. apply setNet_post in E1. destruct E1 as (_ & _ & _ & _ & _ & _ & P & _).
  apply start_post in E3. destruct E3 as (Q1 & Q2 & _ & _ & _ & Q6 & Q7 & _).
  assert (G : forall i, i <= e -> aliveInv h n (ss i) /\ nlay (sn F (ss i)) = nlay n).
  { induction i as [|i IH]; intros Hi; [rewrite Q1; auto|]. destruct IH as [IH1 IH2]; [lia|].
    pose proof (kept_flags _ _ _ (run_kept F cabs R mS mT ss e E4 i ltac:(lia))) as (K1 & K2 & _).
    split; [eapply alive_step; [apply E4; lia|right; congruence|auto]|].
    pose proof (E4 i ltac:(lia)) as E. apply epoch_split in E. destruct E as (h2 & t2 & l & a & s2 & A1 & A2 & A3 & A4 & A5 & A6 & A7 & ->).
    destruct (reboost_facts F s2) as (_ & _ & C3 & _). rewrite C3. apply epochBest_cases in A7. rewrite A4 in A7. destruct A7 as [(_ & _ & ->)|(_ & b & h3 & b1 & c & _ & _ & A7)]; [exact IH2|].
    cbv zeta in A7. destruct A7 as [[[_ Q] _]|[_ ->]]; [congruence|exact IH2]. }
  intros i x Hi Hx. destruct (G i Hi) as [(J1 & _) J2]. pose proof (run_kept F cabs R mS mT ss e E4 i Hi) as (_ & _ & _ & _ & K1 & K2 & _).
  rewrite K1, K2, Q6, Q7 in Hx. apply N2 in Hx. rewrite <- J2 in Hx. split; auto. eapply kinds_live; eauto.
Qed.

(** * a roll-back leaves every registered pointer dangling *)
Theorem rollback_dangles : forall R mS mT e s s', epoch F cabs R mS mT e s = Ok s' ->
  (forall x, In x (tpw F (st F s) ++ tpb F (st F s)) -> In x (nlay (sn F s))) ->
  (forall x, In x (nlay (sn F s) ++ nlay (sbest F s)) -> x < length (sh F s)) ->
  nlay (sn F s') <> nlay (sn F s) ->
  forall x, In x (tpw F (st F s') ++ tpb F (st F s')) -> hget F (sh F s') x = Err EFree.
Proof.
  intros R mS mT e s s' E H1 H2 H3 x Hx. pose proof (epoch_facts _ _ _ _ _ _ _ _ E) as (K & _). destruct K as (_ & _ & _ & _ & K1 & K2 & _). rewrite K1, K2 in Hx. apply H1 in Hx.
  apply epoch_split in E. destruct E as (h1 & t1 & l & a & s2 & A1 & A2 & A3 & A4 & A5 & A6 & A7 & ->).
  destruct (reboost_facts F s2) as (_ & C2 & C3 & _). rewrite C3 in H3. rewrite C2. clear C2 C3. destruct A1 as (T1 & _).
  apply epochBest_cases in A7. destruct A7 as [(_ & _ & ->)|(_ & b & h2 & b1 & c & _ & Hc & A7)]; [cbn [sn nlay] in H3; congruence|].
  cbv zeta in A7. destruct A7 as [[_ (h3 & n2 & E1 & ->)]|[_ ->]]; cbn [sn sh nlay] in *; [|congruence].
  assert (Hl : forall y, In y (nlay b1) -> y < length h2).
  { destruct b; destruct Hc as [Hc Hc'].
    - apply snapshot in Hc; [|cbn [nlay]; intros y Hy; rewrite T1; apply H2, in_or_app; auto]. destruct Hc as (_ & _ & D3 & _). intros y Hy. apply D3 in Hy. lia.
    - destruct Hc' as [-> _]. subst. intros y Hy. rewrite T1. apply H2, in_or_app. auto. }
  apply snapshot in E1; auto. destruct E1 as (_ & _ & _ & _ & _ & D6). unfold hget, rget. rewrite D6 by auto. reflexivity.
Qed.

(** * and the next mini-batch uses them *)
Lemma optWeights_dead : forall h t p x, forN (length (tpw F t)) (optWeight F cabs) (h, t) = Ok p -> nth_error h x = Some None -> ~ In x (tpw F t).
Proof.
  intros h t p x E Hd Hx. apply forN_states in E. destruct E as (ss & S1 & S2 & S3). apply In_nth_error in Hx. destruct Hx as [k Hk].
  assert (Lk : k < length (tpw F t)) by (apply nth_error_Some; congruence).
  assert (G : forall i, i <= k -> nth_error (fst (ss i)) x = Some None /\ tpw F (snd (ss i)) = tpw F t).
  { induction i as [|i IH]; intros Hi; [rewrite S1; auto|]. destruct IH as [I1 I2]; [lia|]. pose proof (S3 i ltac:(lia)) as E. destruct (ss i) as [h1 t1], (ss (S i)) as [h2 t2]. cbn [fst snd] in *.
    apply optWeight_post in E. destruct E as ((_ & T2 & _) & Fz & _). split; [rewrite T2; auto|]. destruct Fz as (_ & _ & _ & _ & _ & Fz & _). congruence. }
  destruct (G k (Nat.le_refl k)) as [G1 G2]. pose proof (S3 k Lk) as E. destruct (ss k) as [h1 t1]. cbn [fst snd] in *. unfold optWeight in E. binp E.
  unfold rget in Ex. rewrite G2, Hk in Ex. inversion Ex; subst. unfold hget, rget in Ex0. rewrite G1 in Ex0. discriminate.
Qed.
Lemma optBiases_dead : forall h t p x, forN (length (tpb F t)) (optBias F cabs) (h, t) = Ok p -> nth_error h x = Some None -> ~ In x (tpb F t).
Proof.
  intros h t p x E Hd Hx. apply forN_states in E. destruct E as (ss & S1 & S2 & S3). apply In_nth_error in Hx. destruct Hx as [k Hk].
  assert (Lk : k < length (tpb F t)) by (apply nth_error_Some; congruence).
  assert (G : forall i, i <= k -> nth_error (fst (ss i)) x = Some None /\ tpb F (snd (ss i)) = tpb F t).
  { induction i as [|i IH]; intros Hi; [rewrite S1; auto|]. destruct IH as [I1 I2]; [lia|]. pose proof (S3 i ltac:(lia)) as E. destruct (ss i) as [h1 t1], (ss (S i)) as [h2 t2]. cbn [fst snd] in *.
    apply optBias_post in E. destruct E as ((_ & T2 & _) & Fz & _). split; [rewrite T2; auto|]. destruct Fz as (_ & _ & _ & _ & _ & _ & Fz & _). congruence. }
  destruct (G k (Nat.le_refl k)) as [G1 G2]. pose proof (S3 k Lk) as E. destruct (ss k) as [h1 t1]. cbn [fst snd] in *. unfold optBias in E. binp E.
  unfold rget in Ex. rewrite G2, Hk in Ex. inversion Ex; subst. unfold hget, rget in Ex0. rewrite G1 in Ex0. discriminate.
Qed.
Lemma optimizeAll_dead : forall h t p x, optimizeAll F cabs h t = Ok p -> nth_error h x = Some None -> ~ In x (tpw F t ++ tpb F t).
Proof.
  intros h t p x E Hd Hx. unfold optimizeAll in E. apply bind_inv in E. destruct E as ([h1 t1] & E1 & E2). apply in_app_iff in Hx. destruct Hx as [Hx|Hx]; [eapply optWeights_dead; eauto|].
  assert (G : touch F (tpw F t) h h1 /\ tpb F t1 = tpb F t).
  { apply (forN_postI _ (fun _ p => touch F (tpw F t) h (fst p) /\ tpw F (snd p) = tpw F t /\ tpb F (snd p) = tpb F t)) in E1.
    - cbn [fst snd] in E1. tauto.
    - cbn. split; auto. apply touch_refl.
    - intros i [ha ta] [hb tb] _ (I1 & I2 & I3) E. cbn [fst snd] in *. apply optWeight_post in E. destruct E as (T & Fz & _). destruct Fz as (_ & _ & _ & _ & _ & Fz1 & Fz2 & _).
      rewrite I2 in T. split; [eapply touch_trans; eauto|]. split; congruence. }
  destruct G as [(_ & T2 & _) G2]. rewrite <- G2 in Hx, E2. eapply optBiases_dead; eauto. rewrite T2; auto.
Qed.
Lemma applyPerm_rows : forall v (m p q : M), applyRowPermutation F v m p = Ok q -> mrows q = mrows m.
Proof.
  intros v m p q E. unfold applyRowPermutation in E. binp E. apply (forN_postI _ (fun _ z => mrows z = mrows m)) in E; auto.
  - unfold mresize. destruct ((mcols m =? mcols p) && (mrows m =? mrows p)) eqn:B; [apply andb_true_iff in B; destruct B as [_ B]; apply Nat.eqb_eq in B; auto|]. destruct (mrows m * mcols m =? msize p); reflexivity.
  - intros i s s1 _ I Eb. binp Eb. apply (forN_postI _ (fun _ z => mrows z = mrows m)) in Eb; auto. intros j z z1 _ I' Ec. binp Ec. inversion Ec; subst. auto.
Qed.
Theorem dangling_used : forall R mS mT e s x, 0 < mrows mS -> In x (tpw F (st F s) ++ tpb F (st F s)) -> nth_error (sh F s) x = Some None ->
  forall s', epoch F cabs R mS mT e s <> Ok s'.
Proof.
  intros R mS mT e s x Hr Hx Hd s' E. unfold epoch in E. apply bind_inv in E. destruct E as ([[h1 n1] t1] & E1 & _). unfold epochTrain in E1. cbv zeta in E1.
  apply bind_inv in E1. destruct E1 as ([mX mY] & E2 & E1). apply bind_inv in E1. destruct E1 as ([h2 n2] & E3 & E1). apply bind_inv in E1. destruct E1 as ([h3 t3] & E4 & _).
  assert (Hm : mrows mX = mrows mS).
  { destruct (tadj F (setOnline F (st F s) (f0 F) 0) <? mrows mS); [|inversion E2; auto]. binp E2. inversion E2; subst. eapply applyPerm_rows; eauto. }
  apply setTrain_touch in E3. destruct E3 as ((_ & T2 & _) & ->). unfold trainOneEpoch in E4. cbv zeta in E4. rewrite Hm in E4. destruct (Nat.eqb_spec (mrows mS) 0); [lia|].
  cbn [setOnline tadj] in E4. destruct (Nat.eqb_spec (tadj F (st F s)) 0) as [|Na]; [discriminate|].
  assert (Hc : exists k, ceilDiv (mrows mS) (tadj F (st F s)) = S k).
  { unfold ceilDiv. exists (pred ((mrows mS + tadj F (st F s) - 1) / tadj F (st F s))). assert (1 <= (mrows mS + tadj F (st F s) - 1) / tadj F (st F s)); [|lia].
    apply Nat.div_le_lower_bound; lia. }
  destruct Hc as [k Hc]. rewrite Hc in E4. unfold forN in E4. cbn [seq forL] in E4. apply bind_inv in E4. destruct E4 as ([h4 t4] & E5 & _).
  apply bind_inv in E5. destruct E5 as (bx & _ & E5). apply bind_inv in E5. destruct E5 as (by_ & _ & E5). unfold trainBatch in E5.
  apply bind_inv in E5. destruct E5 as ([h5 t5] & E6 & E5). apply bind_inv in E5. destruct E5 as ([h6 t6] & E7 & _).
  apply backprop_post in E6. destruct E6 as ((_ & U2 & _) & Fz & _). destruct Fz as (_ & _ & _ & _ & _ & Fz1 & Fz2 & _). cbn [setOnline tpw tpb] in Fz1, Fz2.
  eapply optimizeAll_dead; [exact E7| |rewrite Fz1, Fz2; exact Hx]. rewrite U2; rewrite ?T2; auto.
Qed.
End Train.
