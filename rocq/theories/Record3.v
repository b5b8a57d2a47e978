(* Record3.v - the entries recorded by fit *)
From Coq Require Import String List Arith Bool Lia ZArith.
From Verif Require Import Base Scalar Mat SpecMat MatFacts LayMat LayImg Layer Net Loss Optim Regul NetTrain SpecNet NetRow NetProofs1 NetProofs2 TrainProofs1 TrainProofs2 SpecFit StaleNet
  FitLay1 FitLay2 FitLay3 FitNet1 FitNet2 FitNet3 FitRun NetRule1 SpecResume Resume1 Resume2 Resume3 SpecRecord Record1 Record2.
Import ListNotations.
Local Open Scope nat_scope.

Section Any.
Variable F : FOps.
Notation M := (mat F).
Notation cabs := (absFloat F).

Theorem one_more_epoch : forall h n (t : trainer F) k m x y, trainable h n t k m -> nlay n <> [] -> allEven h n -> allSized F h n -> cKeep F (tc F t) = false -> ttrain F t = Some (x, y) ->
  forall R e, exists h1 n1 t1 c1 h2 n2 t2 c2,
    fit F cabs R h n (withEpochs F e t) = Ok (h1, n1, t1, c1) /\ fit F cabs R h n (withEpochs F (S e) t) = Ok (h2, n2, t2, c2) /\
    (0 < mrows x -> cBatch F (tc F t) = 0 \/ mrows x <= cBatch F (tc F t) -> forall rs vb, mrows x <= vb ->
      exists hq l a, lossAccuracy F cabs rs h1 n1 (withValBatch vb t1) x y = Ok (hq, l, a) /\
        hTL F (th F t2) = hTL F (th F t1) ++ [fdiv F l (fofN F (mrows x))] /\ hTA F (th F t2) = hTA F (th F t1) ++ (if nclass n then [a] else [])) /\
    (forall rs xv yv, tval F t = Some (xv, yv) ->
      exists hq l a, lossAccuracy F cabs rs h2 n2 t2 xv yv = Ok (hq, l, a) /\ hVL F (th F t2) = hVL F (th F t1) ++ [l] /\ hVA F (th F t2) = hVA F (th F t1) ++ [a]) /\
    (tval F t = None -> hVL F (th F t2) = hVL F (th F t1) /\ hVA F (th F t2) = hVA F (th F t1)) /\
    (e = 0 -> hTL F (th F t1) = [] /\ hTA F (th F t1) = [] /\ hVL F (th F t1) = [] /\ hVA F (th F t1) = []).
Proof.
  intros h n t k m x y Tr Hne Hev Hsz Hkeep Hxy R e.
  set (te := withEpochs F e t). assert (Tr1 : trainable h n te k m) by exact Tr.
  destruct Tr1 as (Hn & St & Fo & Hk & Hp & Hc & Hv & Wi & Wg & ([x' y'] & Ht & Hd) & Hval). assert (Q : x' = x /\ y' = y) by (change (ttrain F te) with (ttrain F t) in Ht; rewrite Hxy in Ht; injection Ht; auto). destruct Q as [-> ->].
  destruct (stack_dims F _ _ _ _ St) as (d & <- & <- & D). destruct (create_optimizer (cOpt F (tc F te))) as [o|] eqn:Ho; [clear Hk|contradiction].
  destruct (setNet_fits F h n d te o Hn D Fo Ho Wi Wg) as (h0 & ta & E1 & D0 & F0 & O0 & S0 & N0). destruct S0 as (S01 & S02 & S03 & S04 & S05 & S06 & S07).
  assert (L : 0 < length (nlay n)) by (destruct (nlay n); [contradiction|cbn; lia]).
  assert (G0 : good F (nlay n) d h0).
  { intros i a Ea. destruct (D0 i a Ea) as (l & El & Fl). exists l. split; auto. split; auto. assert (In a (nlay n)) by (eapply nth_error_In; eauto).
    pose proof E1 as E. unfold setNet in E. cbv zeta in E. binp E. match type of E with Ok (?b, _) = _ => assert (Eh : b = h0) by (inversion E; auto); subst b end.
    destruct (nlay n) as [|a0 r] eqn:En; [contradiction|]. destruct (D 0 a0) as (l0 & E0 & _); [reflexivity|]. rewrite E0 in Ex. cbn [bind] in Ex. rewrite (hset_ok _ _ _ _ _ E0) in Ex. injection Ex as <-. pose proof (hget_lt _ _ _ _ E0) as La.
    rewrite hget_upd in El by auto. destruct (Nat.eqb_spec a0 a) as [<-|Na]; [|split; [apply (Hev a); [rewrite En; auto|auto]|apply (Hsz a); [rewrite En; auto|auto]]]. injection El as <-. split.
    - pose proof (Hev a0 l0) as Q. rewrite En in Q. exact (Q (or_introl eq_refl) E0).
    - pose proof (Hsz a0 l0) as Q. rewrite En in Q. exact (Q (or_introl eq_refl) E0). }
  assert (T0 : ttrain F ta = Some (x, y)) by (rewrite S04; exact Ht).
  assert (K0 : cKeep F (tc F ta) = false) by (rewrite S01; exact Hkeep).
  assert (C0 : cBalancing F (tc F ta) = false \/ nclass n = false) by (rewrite S01; exact Hc).
  destruct (start_fits F R h0 n d ta x y Hn D0 F0 O0) as (s0 & adj & E2 & Ja & R0); auto; try (rewrite S01; auto; fail). { rewrite S01, S05. auto. }
  rewrite (start_plain F R h0 n ta x y K0 C0) in E2. injection E2 as E2. set (tb := startT F ta x) in *.
  assert (Ad : adj = if (mrows x <? cBatch F (tc F t)) || (cBatch F (tc F t) =? 0) then mrows x else cBatch F (tc F t)).
  { destruct R0 as (_ & _ & _ & _ & _ & _ & _ & Q & _). rewrite <- Q. rewrite <- E2. change (tadj F (st F (mkFS F h0 n tb netNew (f0 F) (flit F 10000000000 1) 0 []))) with (if (mrows x <? cBatch F (tc F ta)) || (cBatch F (tc F ta) =? 0) then mrows x else cBatch F (tc F ta)). rewrite S01. reflexivity. }
  assert (Hpa : cPatience F (tc F ta) = (-1)%Z) by (rewrite S01; exact Hp). assert (Hva : 0 < cValBatch F (tc F ta)) by (rewrite S01; exact Hv).
  assert (Hda : dataOk (d 0) (d (length (nlay n))) (cLoss F (tc F ta)) (x, y)) by (rewrite S01; exact Hd).
  assert (Hla : forall p, tval F ta = Some p -> dataOk (d 0) (d (length (nlay n))) (cLoss F (tc F ta)) p) by (rewrite S01, S05; exact Hval).
  pose proof (epoch_step F (nlay n) d (nclass n) (tc F ta) (tval F ta) adj x y Hn L Hpa K0 Hva Hda Hla Ja R) as Step.
  destruct (@forN_inv _ (okState F (nlay n) d (nclass n) (tc F ta) (tval F ta) adj x y) e (epoch F cabs R x y) s0) as (s1 & E3 & R1).
  { split; [exact R0|]. subst s0. split; [exact G0|reflexivity]. }
  { intros i s Hi I. destruct (Step i s I) as (s' & E & I' & _). eauto. }
  destruct (Step e s1 R1) as (s2 & E4 & R2 & P1 & P2 & P3).
  assert (EF1 : fit F cabs R h n te = Ok (sh F s1, sn F s1, st F s1, scalls F s1)).
  { unfold fit. rewrite E1. cbn [bind]. rewrite N0. replace (length (nlay n) =? 0) with false by (symmetry; apply Nat.eqb_neq; lia). rewrite T0, (start_plain F R h0 n ta x y K0 C0). cbn [bind]. fold tb. rewrite E2.
    replace (Z.to_nat (cEpochs F (tc F ta))) with e by (rewrite S01; symmetry; apply Nat2Z.id). rewrite E3. cbn [bind]. destruct R1 as (Rr & _ & Rb). apply end_plain; [|auto]. destruct Rr as (_ & _ & _ & _ & _ & (Q & _) & _). rewrite Q. auto. }
  assert (EF2 : fit F cabs R h n (withEpochs F (S e) t) = Ok (sh F s2, sn F s2, withEpochs F (S e) (st F s2), scalls F s2)).
  { change (withEpochs F (S e) t) with (W (Z.of_nat (S e)) (th F te) te). unfold fit. rewrite (@setNet_W F), E1. cbn [bind rmap hW fst snd]. change (tnl F (W (Z.of_nat (S e)) (th F te) ta)) with (tnl F ta). rewrite N0. replace (length (nlay n) =? 0) with false by (symmetry; apply Nat.eqb_neq; lia).
    change (ttrain F (W (Z.of_nat (S e)) (th F te) ta)) with (ttrain F ta). rewrite T0. rewrite (start_plain F R h0 n (W (Z.of_nat (S e)) (th F te) ta) x y K0 C0). cbn [bind].
    change (mkFS F h0 n (startT F (W (Z.of_nat (S e)) (th F te) ta) x) netNew (f0 F) (flit F 10000000000 1) 0 []) with (VS F (S e) (mkFS F h0 n tb netNew (f0 F) (flit F 10000000000 1) 0 [])). rewrite E2.
    change (cEpochs F (tc F (W (Z.of_nat (S e)) (th F te) ta))) with (Z.of_nat (S e)). rewrite Nat2Z.id, (forN_rmap _ (VS F (S e))) by (intros; apply epoch_V).
    replace (S e) with (e + 1) at 2 by lia. rewrite forN_add, E3. cbn [bind]. unfold forN. cbn [seq forL]. rewrite Nat.add_0_r, E4. cbn [bind rmap].
    destruct R2 as (Rr & _ & Rb). rewrite end_plain; [reflexivity| |exact Rb]. destruct Rr as (_ & _ & _ & _ & _ & (Q & _) & _). cbn [VS st withEpochs setSettings tc cKeep]. rewrite Q. auto. }
  exists (sh F s1), (sn F s1), (st F s1), (scalls F s1), (sh F s2), (sn F s2), (withEpochs F (S e) (st F s2)), (scalls F s2). split; [exact EF1|]. split; [exact EF2|].
  split; [|split; [|split]].
  - intros HN Hb rs vb Hvb. change (th F (withEpochs F (S e) (st F s2))) with (th F (st F s2)). apply P1; auto. rewrite Ad. destruct Hb as [-> |Hb]; [rewrite orb_true_r; auto|]. destruct (_ || _) eqn:Q; auto.
  - intros rs xv yv Ev. change (th F (withEpochs F (S e) (st F s2))) with (th F (st F s2)). apply P2. rewrite S05. exact Ev.
  - intro Ev. apply P3. rewrite S05. exact Ev.
  - intros ->. unfold forN in E3. cbn [seq forL] in E3. injection E3 as <-. subst s0. repeat split.
Qed.

(* the whole curves *)
Theorem recorded_curves : forall h n (t : trainer F) k m x y, trainable h n t k m -> nlay n <> [] -> allEven h n -> allSized F h n -> cKeep F (tc F t) = false -> ttrain F t = Some (x, y) ->
  forall R E, exists h' n' t' c', fit F cabs R h n (withEpochs F E t) = Ok (h', n', t', c') /\
    (0 < mrows x -> cBatch F (tc F t) = 0 \/ mrows x <= cBatch F (tc F t) ->
      length (hTL F (th F t')) = E /\ length (hTA F (th F t')) = (if nclass n then E else 0) /\
      forall i rs vb, i < E -> mrows x <= vb -> exists h1 n1 t1 c1 hq l a, fit F cabs R h n (withEpochs F i t) = Ok (h1, n1, t1, c1) /\ lossAccuracy F cabs rs h1 n1 (withValBatch vb t1) x y = Ok (hq, l, a) /\
        nth_error (hTL F (th F t')) i = Some (fdiv F l (fofN F (mrows x))) /\ (nclass n = true -> nth_error (hTA F (th F t')) i = Some a)) /\
    (forall xv yv, tval F t = Some (xv, yv) ->
      length (hVL F (th F t')) = E /\ length (hVA F (th F t')) = E /\
      forall i rs, i < E -> exists h1 n1 t1 c1 hq l a, fit F cabs R h n (withEpochs F (S i) t) = Ok (h1, n1, t1, c1) /\ lossAccuracy F cabs rs h1 n1 t1 xv yv = Ok (hq, l, a) /\
        nth_error (hVL F (th F t')) i = Some l /\ nth_error (hVA F (th F t')) i = Some a) /\
    (tval F t = None -> hVL F (th F t') = [] /\ hVA F (th F t') = []).
Proof.
  intros h n t k m x y Tr Hne Hev Hsz Hkeep Hxy R E. pose proof (one_more_epoch h n t k m x y Tr Hne Hev Hsz Hkeep Hxy R) as One. induction E as [|E IH].
  - destruct (One 0) as (h1 & n1 & t1 & c1 & _ & _ & _ & _ & E1 & _ & _ & _ & _ & Z). destruct (Z eq_refl) as (Z1 & Z2 & Z3 & Z4). exists h1, n1, t1, c1. split; [exact E1|]. rewrite Z1, Z2, Z3, Z4. split; [|split].
    + intros _ _. split; auto. split; [destruct (nclass n); auto|]. intros i rs vb Hi. lia.
    + intros xv yv _. split; auto. split; auto. intros i rs Hi. lia.
    + auto.
  - destruct IH as (h0 & n0 & t0 & c0 & E0 & A1 & A2 & A3). destruct (One E) as (h1 & n1 & t1 & c1 & h2 & n2 & t2 & c2 & E1 & E2 & B1 & B2 & B3 & _). rewrite E1 in E0. injection E0 as <- <- <- <-. exists h2, n2, t2, c2. split; [exact E2|]. split; [|split].
    + intros HN Hb. destruct (A1 HN Hb) as (C1 & C2 & C3). specialize (B1 HN Hb). destruct (B1 (fun _ => oFirst F R 0) (mrows x) (le_n _)) as (hq0 & l0 & a0 & L0 & T0 & S0).
      split; [rewrite T0, app_length; cbn; lia|]. split; [rewrite S0, app_length, C2; destruct (nclass n); cbn; lia|]. intros i rs vb Hi Hvb. destruct (Nat.eq_dec i E) as [-> |Ni].
      * destruct (B1 rs vb Hvb) as (hq & l & a & L1 & T1 & S1). exists h1, n1, t1, c1, hq, l, a. split; [exact E1|]. split; [exact L1|]. rewrite T1, S1. split; [rewrite nth_error_app2 by lia; rewrite C1, Nat.sub_diag; reflexivity|].
        intro Cl. rewrite Cl in *. rewrite nth_error_app2 by lia. rewrite C2, Nat.sub_diag. reflexivity.
      * destruct (C3 i rs vb) as (g1 & m1 & u1 & d1 & hq & l & a & D1 & D2 & D3 & D4); [lia|auto|]. exists g1, m1, u1, d1, hq, l, a. split; [exact D1|]. split; [exact D2|]. rewrite T0, S0. split; [rewrite nth_error_app1 by lia; exact D3|]. intro Cl. rewrite Cl in *. rewrite nth_error_app1 by lia. auto.
    + intros xv yv Ev. destruct (A2 xv yv Ev) as (C1 & C2 & C3). destruct (B2 (fun _ => oFirst F R 0) xv yv Ev) as (hq0 & l0 & a0 & L0 & T0 & S0).
      split; [rewrite T0, app_length; cbn; lia|]. split; [rewrite S0, app_length; cbn; lia|]. intros i rs Hi. destruct (Nat.eq_dec i E) as [-> |Ni].
      * destruct (B2 rs xv yv Ev) as (hq & l & a & L1 & T1 & S1). exists h2, n2, t2, c2, hq, l, a. split; [exact E2|]. split; [exact L1|]. rewrite T1, S1. split; rewrite nth_error_app2 by lia; [rewrite C1, Nat.sub_diag|rewrite C2, Nat.sub_diag]; reflexivity.
      * destruct (C3 i rs) as (g1 & m1 & u1 & d1 & hq & l & a & D1 & D2 & D3 & D4); [lia|]. exists g1, m1, u1, d1, hq, l, a. split; [exact D1|]. split; [exact D2|]. rewrite T0, S0. split; rewrite nth_error_app1 by lia; auto.
    + intro Ev. destruct (B3 Ev) as [-> ->]. auto.
Qed.
End Any.
