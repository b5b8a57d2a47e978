(* MetaProofs1.v - NetTrain::fit touches, and leaves behind, only objects of the network it trains *)
From Coq Require Import String List Arith Bool Lia ZArith.
From Verif Require Import Base Scalar Mat Loss Optim Regul Act LayMat LayImg LayRnn Layer Net NetTrain SpecNet SpecTrain NetProofs1 NetProofs2 TrainProofs1 TrainProofs2 TrainProofs3 TrainProofs4 TrainProofs5 TrainProofs6.
Import ListNotations.
Local Open Scope nat_scope.

Section Own.
Variable F : FOps.
Variable cabs : F -> res F.

(* from h0 to h: only objects with P have changed; new objects have P; ls, the addresses in use, have P *)
Definition owned (P : nat -> Prop) (h0 h : heap F) (ls : list nat) : Prop :=
  length h0 <= length h /\ (forall x, x < length h0 -> ~ P x -> nth_error h x = nth_error h0 x) /\
  (forall x, In x ls -> x < length h /\ P x).
(* every live object with P is among ls *)
Definition allIn (P : nat -> Prop) (h : heap F) (ls : list nat) : Prop := forall x l, P x -> nth_error h x = Some (Some l) -> In x ls.

Lemma owned_touch : forall P h0 h h' ls us, owned P h0 h ls -> touch F us h h' -> (forall x, In x us -> In x ls) -> owned P h0 h' ls.
Proof.
  intros P h0 h h' ls us (A & B & C) (T1 & T2 & _) Hu. split; [lia|]. split.
  - intros x Hx Hp. rewrite T2; auto. left. intro Q. apply Hp, C, Hu. exact Q.
  - intros x Hx. rewrite T1. auto.
Qed.
Lemma allIn_touch : forall P h h' ls us, allIn P h ls -> touch F us h h' -> allIn P h' ls.
Proof.
  intros P h h' ls us A (T1 & T2 & T3) x l Hp El. destruct (in_dec Nat.eq_dec x us) as [I|N].
  - assert (L : x < length h) by (rewrite <- T1; apply nth_error_Some; congruence). destruct (nth_error h x) as [[l0|]|] eqn:E; [eapply A; eauto| |apply nth_error_None in E; lia].
    rewrite T2 in El by auto. congruence.
  - rewrite T2 in El by auto. eauto.
Qed.
(* assignment of o to n: keep the objects of n out of the addresses in use *)
Lemma owned_assign : forall (P : nat -> Prop) rs h0 h n o ls h' n', netAssign F false rs h n o = Ok (h', n') -> owned P h0 h (nlay n ++ nlay o ++ ls) ->
  (forall x, length h0 <= x -> P x) -> owned P h0 h' (nlay n' ++ nlay o ++ ls).
Proof.
  intros P rs h0 h n o ls h' n' E (A & B & C) Hn. apply snapshot in E; [|intros x Hx; apply C, in_or_app; right; apply in_or_app; auto].
  destruct E as (D1 & D2 & D3 & D4 & D5 & D6). split; [lia|]. split.
  - intros x Hx Hp. rewrite D5; [apply B; auto|lia|]. intro Q. apply Hp, C, in_or_app. auto.
  - intros x Hx. apply in_app_iff in Hx. destruct Hx as [Hx|Hx].
    + destruct (D3 x Hx) as [L1 L2]. split; [lia|]. apply Hn. lia.
    + destruct (C x) as [L Px]; [apply in_or_app; auto|]. split; [lia|auto].
Qed.
Lemma allIn_assign : forall (P : nat -> Prop) rs h n o ls h' n', netAssign F false rs h n o = Ok (h', n') -> (forall x, In x (nlay o) -> x < length h) ->
  allIn P h (nlay n ++ ls) -> allIn P h' (nlay n' ++ ls).
Proof.
  intros P rs h n o ls h' n' E Ho A x l Hp El. apply assign_post in E; auto. destruct E as (S1 & S2 & S3 & S4 & S5 & S6 & S7 & S8 & S9).
  destruct (in_dec Nat.eq_dec x (nlay n)) as [I|N]; [apply S8 in I; destruct I; congruence|]. apply in_or_app. destruct (lt_dec x (length h)) as [L|G].
  - rewrite S7 in El by auto. destruct (in_app_or _ _ _ (A x l Hp El)); [contradiction|auto].
  - left. rewrite S1. apply in_seq. assert (x < length h') by (apply nth_error_Some; congruence). lia.
Qed.

Definition run (s : fstate F) : list nat := nlay (sn F s) ++ nlay (sbest F s).
Definition reg (s : fstate F) : list nat := tpw F (st F s) ++ tpb F (st F s).

Lemma owned_incl : forall P h0 h l l', owned P h0 h l -> (forall x, In x l' -> In x l) -> owned P h0 h l'.
Proof. intros P h0 h l l' (A & B & C) H. split; [exact A|split; [exact B|]]. intros x Hx. apply C, H. exact Hx. Qed.
Lemma epoch_own : forall (P : nat -> Prop) R mS mT e s s' h0, epoch F cabs R mS mT e s = Ok s' -> (forall x, length h0 <= x -> P x) ->
  owned P h0 (sh F s) (run s ++ reg s) -> allIn P (sh F s) (run s) -> owned P h0 (sh F s') (run s' ++ reg s') /\ allIn P (sh F s') (run s').
Proof.
  intros P R mS mT e s s' h0 E Hn O A. pose proof (epoch_facts _ _ _ _ _ _ _ _ E) as (K & _). destruct K as (_ & _ & _ & _ & K1 & K2 & _).
  apply epoch_split in E. destruct E as (h1 & t1 & l & a & s2 & A1 & A2 & A3 & A4 & A5 & A6 & A7 & ->).
  destruct (reboost_facts F s2) as (_ & C2 & C3 & C4 & _). unfold run, reg in *. rewrite K1, K2, C2, C3, C4. clear C2 C3 C4 K1 K2.
  set (rg := tpw F (st F s) ++ tpb F (st F s)) in *.
  assert (O1 : owned P h0 h1 ((nlay (sn F s) ++ nlay (sbest F s)) ++ rg)).
  { eapply owned_touch; eauto. intros x Hx. rewrite !in_app_iff in *. tauto. }
  assert (B1 : allIn P h1 (nlay (sn F s) ++ nlay (sbest F s))) by (eapply allIn_touch; eauto).
  clear O A A1. apply epochBest_cases in A7. cbn [nlay] in A7. destruct A7 as [(_ & _ & ->)|(_ & b & h2 & b1 & c & _ & Hc & A7)]; [cbn [sh sn sbest nlay]; auto|].
  assert (S2 : owned P h0 h2 ((nlay (sn F s) ++ nlay b1) ++ rg) /\ allIn P h2 (nlay (sn F s) ++ nlay b1)).
  { destruct b; destruct Hc as [Hc Hc'].
    - split.
      + apply (owned_assign P _ h0 _ _ _ rg _ _) in Hc; auto.
        * eapply owned_incl; [exact Hc|]. cbn [nlay]. intros x Hx. rewrite !in_app_iff in *. tauto.
        * eapply owned_incl; [exact O1|]. cbn [nlay]. intros x Hx. rewrite !in_app_iff in *. tauto.
      + apply (allIn_assign P _ _ _ _ (nlay (sn F s))) in Hc.
        * intros x lx Hp El. specialize (Hc x lx Hp El). rewrite !in_app_iff in *. tauto.
        * cbn [nlay]. intros x Hx. destruct O1 as (_ & _ & O). apply O. rewrite !in_app_iff. auto.
        * intros x lx Hp El. specialize (B1 x lx Hp El). rewrite !in_app_iff in *. tauto.
    - destruct Hc' as [-> _]. subst h2. auto. }
  clear O1 B1 Hc. destruct S2 as [O2 B2]. cbv zeta in A7. destruct A7 as [[_ (h3 & n2 & E1 & ->)]|[_ ->]]; cbn [sh sn sbest nlay]; auto. split.
  - pose proof E1 as E2. apply (owned_assign P _ h0 _ _ _ rg _ _) in E2; auto.
    + eapply owned_incl; [exact E2|]. intros x Hx. rewrite !in_app_iff in *. tauto.
    + eapply owned_incl; [exact O2|]. cbn [nlay]. intros x Hx. rewrite !in_app_iff in *. tauto.
  - apply (allIn_assign P _ _ _ _ (nlay b1)) in E1; auto.
    destruct O2 as (_ & _ & O). intros x Hx. apply O. rewrite !in_app_iff. auto.
Qed.

(* fit: the objects outside the network are untouched; of the objects inside, only those of the resulting network live *)
Theorem fit_own : forall R h n t h' n' t' calls, fit F cabs R h n t = Ok (h', n', t', calls) ->
  length h <= length h' /\ (forall x, x < length h -> ~ In x (nlay n) -> nth_error h' x = nth_error h x) /\
  (forall x, In x (nlay n') -> x < length h' /\ (In x (nlay n) \/ length h <= x)) /\
  (forall x l, In x (nlay n) \/ length h <= x -> nth_error h' x = Some (Some l) -> In x (nlay n')).
Proof.
  intros R h n t h' n' t' calls E. set (P := fun x => In x (nlay n) \/ length h <= x).
  assert (Hn : forall x, length h <= x -> P x) by (intros; right; auto).
  assert (W : owned P h h' (nlay n') /\ allIn P h' (nlay n')).
  2: { destruct W as [(A & B & C) D]. split; auto. split; [|split; auto]. intros x Hx Hp. apply B; auto. unfold P. intros [Q|Q]; [auto|lia]. }
  assert (D : nlay n = [] \/ nlay n <> []) by (destruct (nlay n); [auto|right; discriminate]). destruct D as [Hz|Hz].
  { unfold fit in E. apply bind_inv in E. destruct E as ([h1 t1] & E1 & E). apply setNet_post in E1. destruct E1 as (L & N2 & _ & _ & _ & _ & _ & Q & _). rewrite Q, Hz in E. simpl in E.
    inversion E; subst. rewrite Hz in N2 |- *. cbn [hd_error] in N2. split.
    - split; [lia|split; [|intros x []]]. intros x _ _. apply N2. discriminate.
    - intros x l [Q0|G] El; [rewrite Hz in Q0; destruct Q0|]. assert (x < length h') by (apply nth_error_Some; congruence). lia. }
  apply fit_split in E; [|exact Hz]. destruct E as (h1 & t1 & mS & mT & ss & E1 & E2 & E3 & E4 & E5). set (e := Z.to_nat (cEpochs F (tc F t))) in *.
  apply setNet_post in E1. destruct E1 as (N1 & N2 & N3 & N4 & N5 & N6 & _).
  assert (O0 : owned P h h1 (nlay n)).
  { split; [lia|]. split.
    - intros x Hx Hp. apply N2. intro Q. apply Hp. left. destruct (nlay n); inversion Q; subst; left; auto.
    - intros x Hx. destruct (N4 x Hx) as [l El]. split; [eapply hget_lt; eauto|left; auto]. }
  assert (A0 : allIn P h1 (nlay n)).
  { intros x l [Q|Q] El; auto. assert (x < length h1) by (apply nth_error_Some; congruence). lia. }
  assert (R0 : forall x, In x (tpw F t1 ++ tpb F t1) -> In x (nlay n)).
  { intros x Hx. rewrite N5, N6 in Hx. apply in_app_iff in Hx. destruct Hx as [Hx|Hx]; apply filter_In in Hx; tauto. }
  assert (S0 : owned P h (sh F (ss 0)) (run (ss 0) ++ reg (ss 0)) /\ allIn P (sh F (ss 0)) (run (ss 0))).
  { apply start_post in E3. destruct E3 as (Q1 & Q2 & _ & _ & _ & Q6 & Q7 & _ & _ & _ & _ & _ & _ & _ & _ & _ & _ & Q). unfold run, reg. rewrite Q1, Q6, Q7.
    destruct (cKeep F (tc F t1)).
    - destruct Q as (h2 & l & a & T & E & _).
      assert (T' : touch F (nlay n) h1 h2) by (destruct (match tval F t1 with Some p => p | None => (mS, mT) end) as [x y]; eapply lossAccuracy_touch; eauto).
      assert (O1 : owned P h h2 (nlay n)) by (eapply owned_touch; eauto). assert (A1 : allIn P h2 (nlay n)) by (eapply allIn_touch; eauto). split.
      + apply (owned_assign P _ h _ _ _ (tpw F t1 ++ tpb F t1)) in E; auto.
        * eapply owned_incl; [exact E|]. intros x Hx. rewrite !in_app_iff in *. tauto.
        * eapply owned_incl; [exact O1|]. cbn [netNew nlay app]. intros x Hx. rewrite in_app_iff in *. destruct Hx; auto.
      + apply (allIn_assign P _ _ _ _ (nlay n)) in E; auto.
        * intros x lx Hp El. specialize (E x lx Hp El). rewrite in_app_iff in *. tauto.
        * destruct O1 as (_ & _ & O). intros x Hx. apply O. auto.
    - destruct Q as (-> & -> & _). cbn [netNew nlay]. rewrite app_nil_r. split; [|exact A0]. eapply owned_incl; [exact O0|]. intros x Hx. apply in_app_iff in Hx. destruct Hx; auto. }
  assert (G : forall i, i <= e -> owned P h (sh F (ss i)) (run (ss i) ++ reg (ss i)) /\ allIn P (sh F (ss i)) (run (ss i))).
  { induction i as [|i IH]; intros Hi; [exact S0|]. destruct IH as [I1 I2]; [lia|]. eapply epoch_own; eauto. }
  destruct (G e (Nat.le_refl e)) as [O A]. clear G S0. unfold run, reg in *. set (rg := tpw F (st F (ss e)) ++ tpb F (st F (ss e))) in *.
  unfold fitEnd in E5. apply bind_inv in E5. destruct E5 as ([h2 n2] & E6 & E5). binp E5. inversion E5; subst. clear E5.
  assert (S2 : owned P h h2 (nlay n' ++ nlay (sbest F (ss e))) /\ allIn P h2 (nlay n' ++ nlay (sbest F (ss e)))).
  { destruct (cKeep F (tc F (st F (ss e)))).
    - split.
      + apply (owned_assign P _ h _ _ _ rg) in E6; auto.
        * eapply owned_incl; [exact E6|]. intros x Hx. rewrite !in_app_iff in *. tauto.
        * eapply owned_incl; [exact O|]. intros x Hx. rewrite !in_app_iff in *. tauto.
      + eapply allIn_assign; eauto. destruct O as (_ & _ & O). intros x Hx. apply O. rewrite !in_app_iff. auto.
    - inversion E6; subst. split; [|exact A]. eapply owned_incl; [exact O|]. intros x Hx. rewrite !in_app_iff in *. tauto. }
  destruct S2 as [O2 A2]. apply clear_post in Ex. destruct Ex as (_ & X1 & X2 & X3 & X4).
  destruct O2 as (U1 & U2 & U3). split.
  - split; [lia|]. split.
    + intros x Hx Hp. rewrite X3; auto. intro Q. apply Hp, U3, in_or_app. auto.
    + intros x Hx. rewrite X1. apply U3, in_or_app. auto.
  - intros x l Hp El. destruct (in_dec Nat.eq_dec x (nlay (sbest F (ss e)))) as [I|N]; [apply X4 in I; destruct I; congruence|].
    rewrite X3 in El by auto. specialize (A2 x l Hp El). apply in_app_iff in A2. tauto.
Qed.
End Own.
