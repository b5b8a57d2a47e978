(* Resume3.v - one call of fit with e1 + e2 epochs, or two calls with e1 and e2 epochs *)
From Coq Require Import String List Arith Bool Lia ZArith.
From Verif Require Import Base Scalar Mat SpecMat LayMat LayImg Layer Net MatProofs NetProofs1 NetProofs2 Loss Optim Regul NetTrain TrainProofs1 TrainProofs2 SpecFit StaleNet FitLay1 FitNet1 FitNet2 FitNet3 FitRun SpecResume Resume1 Resume2.
Import ListNotations.
Local Open Scope nat_scope.

Section Resume.
Variable F : FOps.
Notation cabs := (absFloat F).
Notation M := (mat F).
Notation big := (flit F 10000000000 1).
Notation steady := (steady (F := F)).

(* the trainer after lines 396-441 *)
Definition hist0 : hist F := mkHist F [] [] [] [] big (f0 F) big (f0 F).
Definition startT (t : trainer F) (x : M) : trainer F :=
  let t := setHist F (setCur F (setBal F t (set_class_balancing F (mempty F))) 0) hist0 in
  let t := setAdj F t (if (mrows x <? cBatch F (tc F t)) || (cBatch F (tc F t) =? 0) then mrows x else cBatch F (tc F t)) in
  setOpts F t (map (init F) (topts F t)).
Lemma start_plain : forall R h n (t : trainer F) x y, cKeep F (tc F t) = false -> (cBalancing F (tc F t) = false \/ nclass n = false) ->
  fitStart F cabs R h n t x y = Ok (mkFS F h n (startT t x) netNew (f0 F) big 0 []).
Proof.
  intros R h n t x y K Hc. unfold fitStart, updateClassWeight. replace (negb (nclass n) || negb (cBalancing F (tc F t))) with true by (destruct Hc as [-> | ->]; destruct (nclass n); reflexivity). cbn [bind]. cbv zeta.
  match goal with |- (if cKeep F ?c then _ else _) = _ => replace (cKeep F c) with false by (symmetry; exact K) end. reflexivity.
Qed.
Lemma end_plain : forall R (s : fstate F), cKeep F (tc F (st F s)) = false -> sbest F s = netNew -> fitEnd F R s = Ok (sh F s, sn F s, st F s, scalls F s).
Proof. intros R s K Q. unfold fitEnd. rewrite K, Q. reflexivity. Qed.

Definition keptLay (ls : list nat) (h h' : heap F) : Prop := forall a l, In a ls -> hget F h a = Ok l -> exists l', hget F h' a = Ok l' /\ lk l' = lk l /\ lfirst l' = lfirst l.
Lemma keptLay_refl : forall ls h, keptLay ls h h. Proof. intros ls h a l _ E. eauto. Qed.
Lemma keptLay_touch : forall ls l2 a b c, keptLay ls a b -> touch F (ls ++ l2) b c -> keptLay ls a c.
Proof.
  intros ls l2 a b c K (_ & _ & T) q l Hq E. destruct (K q l Hq E) as (l1 & E1 & A1 & A2). destruct (T q l1) as (l3 & E3 & S); auto; [apply in_or_app; auto|]. exists l3. split; auto. destruct S as (S1 & _ & _ & S4). split; congruence.
Qed.
(* several epochs *)
Lemma epochs_plain : forall R x y Ep H0 c0 k b s s' s2, plainC (tc F (st F s)) -> List.Forall steady (topts F (st F s)) -> srel Ep H0 c0 b s s' ->
  idle (F := F) (nclass (sn F s)) (tval F (st F s)) (th F (st F s)) -> forN k (epoch F cabs R x y) s = Ok s2 ->
  (exists s2', forN k (epoch F cabs R x y) s' = Ok s2' /\ srel Ep H0 c0 (if k =? 0 then b else true) s2 s2') /\
  fixedT (st F s) (st F s2) /\ sbest F s2 = sbest F s /\ nlay (sn F s2) = nlay (sn F s) /\ nclass (sn F s2) = nclass (sn F s) /\ keptLay (nlay (sn F s)) (sh F s) (sh F s2) /\ idle (F := F) (nclass (sn F s)) (tval F (st F s)) (th F (st F s2)).
Proof.
  intros R x y Ep H0 c0 k. induction k as [|k IH]; intros b s s' s2 Pc Ho Sr Id E.
  - injection E as <-. cbn [Nat.eqb]. split; [exists s'; split; [reflexivity|auto]|]. split; [repeat split|]. do 3 (split; [reflexivity|]). split; [apply keptLay_refl|auto].
  - replace (S k) with (k + 1) in * by lia. rewrite forN_add in E. destruct (forN k (epoch F cabs R x y) s) as [s1|] eqn:E1; cbn [bind] in E; [|discriminate].
    destruct (IH b s s' s1 Pc Ho Sr Id E1) as ((s1' & E1' & Sr1) & Fx & Sb & Sl & Sc & Sk & Si). rewrite forN_add, E1'. cbn [bind].
    unfold forN in E |- *. cbn [seq forL] in E |- *. rewrite Nat.add_0_r in E |- *. destruct (epoch F cabs R x y k s1) as [s3|] eqn:E2; cbn [bind] in E; [|discriminate]. injection E as <-.
    pose proof Fx as (X1 & X2 & X3 & X4 & X5 & X6 & X7 & X8 & X9 & X10 & X11).
    destruct (@epoch_srel F cabs R x y k Ep H0 c0 (if k =? 0 then b else true) s1 s1' s3) as (s3' & E3 & Sr3); auto; [rewrite X1; auto|rewrite X5; auto|].
    destruct (@epoch_plain F cabs R x y k s1 s3) as (T3 & Fx3 & N3 & B3 & I3); auto; [rewrite X1; auto|rewrite X5; auto|].
    split. { exists s3'. rewrite E3. split; [reflexivity|]. replace (k + 1 =? 0) with false by (symmetry; apply Nat.eqb_neq; lia). exact Sr3. }
    split; [eapply fixedT_trans; eauto|]. split; [congruence|]. split; [rewrite N3; cbn [nlay]; auto|]. split; [rewrite N3; cbn [nclass]; auto|]. split.
    + rewrite <- Sl in *. eapply keptLay_touch; eauto.
    + rewrite X10 in I3. apply I3; auto.
Qed.

Theorem fit_resume : forall R h n (t : trainer F) k m e1 e2, trainable h n t k m -> nlay n <> [] -> cKeep F (tc F t) = false ->
  (exists o, create_optimizer (cOpt F (tc F t)) = Some o /\ stateless o) -> allSized F h n -> 0 < e2 ->
  exists h1 n1 t1 c1 h2 n2 t2 c2,
    fit F cabs R h n (withEpochs F e1 t) = Ok (h1, n1, t1, c1) /\ fit F cabs (later F e1 R) h1 n1 (withEpochs F e2 t1) = Ok (h2, n2, t2, c2) /\
    fit F cabs R h n (withEpochs F (e1 + e2) t) = Ok (h2, n2, setHist F (withEpochs F (e1 + e2) t2) (histApp F (th F t1) (th F t2)), c1 ++ map (histApp F (th F t1)) c2).
Proof.
  intros R h n t k m e1 e2 Tr Hne Hkeep (o & Ho & Hst) Hsz He.
  set (te := withEpochs F e1 t). assert (Tr1 : trainable h n te k m) by exact Tr.
  destruct (fit_completes F R h n te k m Tr1) as (hf & nf & tf & cf & Ef & Trf & _).
  destruct Tr1 as (Hn & St & Fo & Hk & Hp & Hc & Hv & Wi & Wg & ([x y] & Ht & Hd) & Hval). destruct (stack_dims F _ _ _ _ St) as (d & <- & <- & D).
  destruct (setNet_fits F h n d te o Hn D Fo Ho Wi Wg) as (h0 & ta & E1 & D0 & F0 & O0 & S0 & N0). destruct S0 as (S01 & S02 & S03 & S04 & S05 & S06 & S07).
  assert (L : 0 < length (nlay n)) by (destruct (nlay n); [contradiction|cbn; lia]).
  (* what setNet makes *)
  assert (Ex1 : exists os, freshOpts F te (length (tpw F ta) + length (tpb F ta)) = Ok os /\ topts F ta = os /\ tpw F ta = filter (hasAt F hasWeights h0) (nlay n) /\ tpb F ta = filter (hasAt F hasBiases h0) (nlay n) /\
    (forall a l, In a (nlay n) -> hget F h0 a = Ok l -> sized F l) /\ exists a0 l0 r, nlay n = a0 :: r /\ hget F h0 a0 = Ok l0 /\ lfirst l0 = true).
  { pose proof E1 as E. unfold setNet in E. cbv zeta in E. binp E. match type of E with Ok (?a, _) = _ => assert (Eh : a = h0) by (inversion E; auto); subst a end.
    rewrite collect_filter in Ex0, Ex1 by (apply (dims_alive F _ _ _ D0)). injection Ex0 as <-. injection Ex1 as <-.
    match type of Ex2 with ?u = Ok ?v => exists v end. inversion E; subst ta. cbn [topts tpw tpb]. split; [exact Ex2|]. do 3 (split; [reflexivity|]).
    destruct (nlay n) as [|a0 r] eqn:En; [contradiction|]. destruct (D 0 a0) as (l0 & E0 & _); [first [reflexivity|rewrite En; reflexivity]|]. rewrite E0 in Ex. cbn [bind] in Ex. rewrite (hset_ok _ _ _ _ _ E0) in Ex. injection Ex as <-. pose proof (hget_lt _ _ _ _ E0) as La. split.
    - intros a l Ha El. rewrite hget_upd in El by auto. destruct (Nat.eqb_spec a0 a) as [<-|Na]; [|apply (Hsz a); [rewrite En; auto|auto]]. injection El as <-. pose proof (Hsz a0 l0) as Q. rewrite En in Q. specialize (Q Ha E0). exact Q.
    - exists a0, (setFirst l0 true), r. split; auto. split; [rewrite hget_upd, Nat.eqb_refl by auto; reflexivity|reflexivity]. }
  destruct Ex1 as (os & Eo & To & Tw & Tb & Hs0 & a0 & l0 & r & En & E0 & Fl0).
  pose proof (fresh_steady F _ _ _ _ Ho Hst Eo) as Os.
  (* the first run *)
  assert (T0 : ttrain F ta = Some (x, y)) by (rewrite S04; exact Ht).
  assert (K0 : cKeep F (tc F ta) = false) by (rewrite S01; exact Hkeep).
  assert (C0 : cBalancing F (tc F ta) = false \/ nclass n = false) by (rewrite S01; exact Hc).
  destruct (start_fits F R h0 n d ta x y Hn D0 F0 O0) as (s0 & adj & E2 & Ja & R0); auto; try (rewrite S01; auto; fail). { rewrite S01, S05. auto. }
  rewrite (start_plain R h0 n ta x y K0 C0) in E2. injection E2 as E2. set (tb := startT ta x) in *.
  assert (Pb : plainC (tc F tb)). { split; [exact K0|]. change (tc F tb) with (tc F ta). rewrite S01. exact Hp. }
  assert (Ob : topts F tb = os). { change (topts F tb) with (map (init F) (topts F ta)). rewrite To. apply init_all. auto. }
  destruct (@forN_inv _ (fun e s => runOk F (nlay n) d (nclass n) (tc F ta) (tval F ta) adj x y e s) e1 (epoch F cabs R x y) s0) as (s1 & E3 & R1); auto.
  { intros e s He1 I. eapply epoch_fits; eauto; try lia; try (rewrite S01; auto; fail). rewrite S01, S05. auto. }
  set (Ep := Z.of_nat (e1 + e2)).
  (* the long run *)
  set (s0' := mkFS F h0 n (W Ep hist0 tb) netNew (f0 F) big 0%Z []).
  assert (Sr0 : srel Ep hist0 [] true s0 s0').
  { subst s0. unfold srel, s0'. cbn [sh sn sbest scalls st]. do 4 (split; [reflexivity|]). exists hist0. split; [reflexivity|]. unfold hrel. cbn. repeat split; auto. }
  assert (Id0 : idle (F := F) (nclass (sn F s0)) (tval F (st F s0)) (th F (st F s0))). { subst s0. split; [intros _; reflexivity|intros _; split; reflexivity]. }
  destruct (epochs_plain R x y Ep hist0 [] e1 true s0 s0' s1) as ((s1' & E3' & Sr1) & Fx & Sb & Sl & Sc & Sk & Si); auto; try (subst s0; cbn [st]; auto; fail). { subst s0; cbn [st]. rewrite Ob. auto. }
  replace (if e1 =? 0 then true else true) with true in Sr1 by (destruct (e1 =? 0); reflexivity).
  replace (nclass (sn F s0)) with (nclass n) in * by (subst s0; reflexivity). replace (nlay (sn F s0)) with (nlay n) in * by (subst s0; reflexivity). replace (sh F s0) with h0 in * by (subst s0; reflexivity). replace (sbest F s0) with netNew in * by (subst s0; reflexivity). replace (st F s0) with tb in * by (subst s0; reflexivity).
  destruct Fx as (X1 & X2 & X3 & X4 & X5 & X6 & X7 & X8 & X9 & X10 & X11).
  destruct Sr1 as (Q1 & Q2 & Q3 & Q4 & H1 & Q5 & Q6). pose proof (hrel_app Q6) as Q7.
  replace (histApp F hist0 (th F (st F s1))) with (th F (st F s1)) in Q7 by (destruct (th F (st F s1)); reflexivity). subst H1.
  replace (map (histApp F hist0) (scalls F s1)) with (scalls F s1) in Q4 by (symmetry; rewrite <- map_id; apply map_ext; intros []; reflexivity). cbn [app] in Q4.
  assert (EF1 : fit F cabs R h n te = Ok (sh F s1, sn F s1, st F s1, scalls F s1)).
  { unfold fit. rewrite E1. cbn [bind]. rewrite N0. replace (length (nlay n) =? 0) with false by (symmetry; apply Nat.eqb_neq; lia). rewrite T0, (start_plain R h0 n ta x y K0 C0). cbn [bind]. fold tb. rewrite E2.
    replace (Z.to_nat (cEpochs F (tc F ta))) with e1 by (rewrite S01; symmetry; apply Nat2Z.id). rewrite E3. cbn [bind]. apply end_plain; [rewrite X1; apply Pb|auto]. }
  rewrite EF1 in Ef. injection Ef as <- <- <- <-.
  (* the second run *)
  set (tu := withEpochs F e2 (st F s1)). assert (Tr2 : trainable (sh F s1) (sn F s1) tu (d 0) (d (length (nlay n)))) by exact Trf.
  destruct (fit_completes F (later F e1 R) (sh F s1) (sn F s1) tu _ _ Tr2) as (h2 & n2 & t2 & c2 & EF2 & _).
  assert (Dd : dims F (sh F s1) (nlay n) d) by apply R1.
  assert (Ok1 : trOk F (sn F s1) (sh F s1) (st F s1)) by apply R1. destruct Ok1 as (U1 & U2 & _ & U3 & _ & _ & U4 & U5).
  assert (SN : setNet F (sh F s1) (sn F s1) tu = Ok (sh F s1, tu)).
  { destruct (Sk a0 l0) as (l1 & E11 & _ & G1); [rewrite En; left; auto|auto|].
    assert (Fw : forall has, (forall a la lb kk mm, In a (nlay n) -> hget F h0 a = Ok la -> hget F (sh F s1) a = Ok lb -> fits la kk mm -> fits lb kk mm -> lk lb = lk la -> has lb = has la) -> filter (hasAt F has h0) (nlay n) = filter (hasAt F has (sh F s1)) (nlay n)).
    { intros has Q. apply filter_ext_in. intros a Ha. destruct (In_nth_error _ _ Ha) as (i & Ei). destruct (D0 i a Ei) as (la & Ela & Fla). destruct (Dd i a Ei) as (lb & Elb & Flb). unfold hasAt. rewrite Ela, Elb. destruct (Sk a la Ha Ela) as (lc & Elc & Kc & _). assert (lc = lb) by congruence. subst lc. symmetry. eapply Q; eauto. }
    apply (setNet_again F _ _ tu a0 l1 r).
    - rewrite Sl. auto.
    - exact E11.
    - rewrite G1. auto.
    - rewrite Sl. apply (dims_alive F _ _ _ Dd).
    - exact U1.
    - exact U2.
    - exact U3.
    - transitivity (tpw F ta); [exact X7|]. rewrite Tw, Sl. apply Fw. intros a la lb kk mm Ha Ela Elb Fla Flb Kl.
      destruct (hasWeights la) eqn:Hw; [|exact (sized_w F la lb kk mm Fla Flb Kl (Hs0 a la Ha Ela) Hw)]. destruct (In_nth_error (tpw F (st F s1)) a) as (i & Ei).
      { rewrite X7. change (tpw F tb) with (tpw F ta). rewrite Tw. apply filter_In. split; auto. unfold hasAt. rewrite Ela. auto. }
      destruct (U4 i a Ei) as (_ & lq & _ & Elq & Hq & _). congruence.
    - transitivity (tpb F ta); [exact X8|]. rewrite Tb, Sl. apply Fw. intros a la lb kk mm Ha Ela Elb Fla Flb Kl.
      destruct (hasBiases la) eqn:Hw; [|exact (sized_b F la lb kk mm Fla Flb Kl (Hs0 a la Ha Ela) Hw)]. destruct (In_nth_error (tpb F (st F s1)) a) as (i & Ei).
      { rewrite X8. change (tpb F tb) with (tpb F ta). rewrite Tb. apply filter_In. split; auto. unfold hasAt. rewrite Ela. auto. }
      destruct (U5 i a Ei) as (_ & lq & _ & Elq & Hq & _). congruence.
    - change (tpw F tu) with (tpw F (st F s1)). change (tpb F tu) with (tpb F (st F s1)). change (topts F tu) with (topts F (st F s1)). rewrite X7, X8, X5, Ob. rewrite <- Eo. unfold freshOpts. 
      change (cOpt F (tc F tu)) with (cOpt F (tc F (st F s1))). change (cLr F (tc F tu)) with (cLr F (tc F (st F s1))). change (cDecay F (tc F tu)) with (cDecay F (tc F (st F s1))). change (cMom F (tc F tu)) with (cMom F (tc F (st F s1))). rewrite X1. change (tc F tb) with (tc F ta). rewrite S01. reflexivity. }
  assert (Tu : ttrain F tu = Some (x, y)) by (change (ttrain F tu) with (ttrain F (st F s1)); rewrite X9; exact T0).
  assert (Ku : cKeep F (tc F tu) = false) by (change (cKeep F (tc F tu)) with (cKeep F (tc F (st F s1))); rewrite X1; apply Pb).
  assert (Cu : cBalancing F (tc F tu) = false \/ nclass (sn F s1) = false) by (change (cBalancing F (tc F tu)) with (cBalancing F (tc F (st F s1))); rewrite X1, Sc; exact C0).
  assert (Su : startT tu x = W (Z.of_nat e2) hist0 (st F s1)).
  { unfold startT. cbv zeta. unfold W. replace (tbal F (st F s1)) with (set_class_balancing F (mempty F)) by (rewrite X2; reflexivity). replace (tcur F (st F s1)) with 0%Z by (rewrite X4; reflexivity).
    replace (tadj F (st F s1)) with (if (mrows x <? cBatch F (tc F (st F s1))) || (cBatch F (tc F (st F s1)) =? 0) then mrows x else cBatch F (tc F (st F s1))) by (rewrite X3, X1; reflexivity).
    assert (Om : map (init F) (topts F (st F s1)) = topts F (st F s1)) by (rewrite X5, Ob; apply init_all; auto). rewrite <- Om. reflexivity. }
  pose proof EF2 as E. unfold fit in E. rewrite SN in E. cbn [bind] in E. change (tnl F tu) with (tnl F (st F s1)) in E. rewrite U1, Sl in E. replace (length (nlay n) =? 0) with false in E by (symmetry; apply Nat.eqb_neq; lia). rewrite Tu, (start_plain _ _ _ tu x y Ku Cu) in E. cbn [bind] in E. rewrite Su in E.
  replace (Z.to_nat (cEpochs F (tc F tu))) with e2 in E by (symmetry; apply Nat2Z.id).
  set (q0 := mkFS F (sh F s1) (sn F s1) (W (Z.of_nat e2) hist0 (st F s1)) netNew (f0 F) big 0%Z []) in *.
  destruct (forN e2 (epoch F cabs (later F e1 R) x y) q0) as [q2|] eqn:Eq; cbn [bind] in E; [|discriminate].
  destruct (epochs_plain (later F e1 R) x y Ep (th F (st F s1)) (scalls F s1) e2 false q0 s1' q2) as ((q2' & Eq' & Sr2) & (Y1 & _) & Yb & _); auto.
  - split; [unfold q0; cbn [st W tc cKeep]; rewrite X1; apply Pb|unfold q0; cbn [st W tc cPatience]; rewrite X1; apply Pb].
  - unfold q0. cbn [st W topts]. rewrite X5, Ob. auto.
  - unfold srel, q0. cbn [sh sn sbest scalls st]. split; auto. split; auto. split; [congruence|]. split; [cbn [map]; rewrite app_nil_r; auto|].
    exists (th F (st F s1)). split; [exact Q5|]. unfold hrel. cbn [W th tval hist0 hTL hTA hVL hVA fTL fTA fVL fVA]. rewrite !app_nil_r. rewrite X10, Sc. destruct Si as [Si1 Si2]. split; [auto|]. split; [intros [Z|Z]; [auto|discriminate]|]. split; [intros [Z|Z]; [auto|discriminate]|intro; discriminate].
  - split; [intros _; reflexivity|intros _; split; reflexivity].
  - replace (if e2 =? 0 then false else true) with true in Sr2 by (destruct (Nat.eqb_spec e2 0); [lia|reflexivity]). destruct Sr2 as (V1 & V2 & V3 & V4 & H2 & V5 & V6). pose proof (hrel_app V6) as V7. subst H2.
    assert (Kq : cKeep F (tc F (st F q2)) = false). { rewrite Y1. unfold q0. cbn [st W tc cKeep]. rewrite X1. apply Pb. }
    rewrite end_plain in E by (auto; rewrite Yb; reflexivity). injection E as <- <- <- <-.
    exists (sh F s1), (sn F s1), (st F s1), (scalls F s1), (sh F q2), (sn F q2), (st F q2), (scalls F q2). split; [exact EF1|]. split; [exact EF2|].
    change (withEpochs F (e1 + e2) t) with (W Ep (th F te) te). unfold fit. rewrite (@setNet_W F). rewrite E1. cbn [bind rmap hW fst snd]. change (tnl F (W Ep (th F te) ta)) with (tnl F ta). rewrite N0. replace (length (nlay n) =? 0) with false by (symmetry; apply Nat.eqb_neq; lia).
    change (ttrain F (W Ep (th F te) ta)) with (ttrain F ta). rewrite T0. rewrite (start_plain R h0 n (W Ep (th F te) ta) x y K0 C0). cbn [bind]. change (startT (W Ep (th F te) ta) x) with (W Ep hist0 tb). fold s0'.
    change (cEpochs F (tc F (W Ep (th F te) ta))) with (Z.of_nat (e1 + e2)). rewrite Nat2Z.id, forN_add, E3'. cbn [bind].
    change (fun i => epoch F cabs R x y (e1 + i)) with (epoch F cabs (later F e1 R) x y). rewrite Eq'. cbn [bind]. rewrite end_plain; [|rewrite V5; exact Kq|rewrite V3, Yb; reflexivity]. rewrite V1, V2, V4, V5. reflexivity.
Qed.
End Resume.
