(* Record1.v - the statistics recorded by an epoch: the network they describe *)
From Coq Require Import String List Arith Bool Lia ZArith FunctionalExtensionality.
From Verif Require Import Base Scalar Mat SpecMat MatFacts MatLoops MatProofs LayMat LayImg Layer Net Loss Optim Regul NetTrain SpecNet NetRow NetProofs1 NetProofs2 TrainProofs1 TrainProofs2 SpecFit StaleNet
  FitLay1 FitLay2 FitLay3 FitNet1 FitNet2 FitNet3 FitRun NetRule1 SpecResume Resume1 Resume2 Resume3 SpecRecord.
Import ListNotations.
Local Open Scope nat_scope.

Section Any.
Variable F : FOps.
Notation M := (mat F).
Notation cabs := (absFloat F).

(** * the layers *)
Lemma shp_pos : forall r c (m : M), 0 < r -> 0 < c -> shp r c m -> msize m <> 0.
Proof. intros r c m H0 H (_ & A & B). unfold msize. rewrite A, B. nia. Qed.
Lemma even_det : forall (l : layer F) k m, fits l k m -> evenKind (lk l) -> sized F l -> detLayer F l k m.
Proof.
  intros l k m (A1 & A2 & A3 & A4 & A5 & A) Pl S. unfold sized in S. unfold detLayer. destruct (lk l) eqn:K; cbn in Pl; try contradiction; unfold shapedOrEmpty, sizedOr, poR, poC in *.
  - exact A.
  - exact (proj1 A).
  - destruct A as (A & _ & [[_ Z]|B] & _); [congruence|]. split; auto. split; [lia|]. split; [left; exact B|]. intro Q. destruct (shp_pos 1 k _ ltac:(lia) A1 B Q).
  - destruct A as (A & [[_ Z]|B] & _); [congruence|]. split; auto.
  - destruct A as (A & [[[_ Z] _]|B]); [congruence|]. split; auto.
  - destruct A as (A & B & _). split; auto.
  - destruct A as (A & _ & B & _). split; auto.
  - destruct A as (A & B & _ & C & _). exact (conj A (conj B C)).
  - destruct A as (A & B & _ & C). exact (conj B (conj A C)).
  - destruct A as (A & B & _). split; auto.
  - destruct A as (A & B & C & _). split; auto.
  - exact (proj1 A).
  - destruct A as (A & [[_ Z]|[B _]] & _); [congruence|]. split; auto.
  - destruct A as (A & [[_ Z]|[B _]] & _); [congruence|]. split; auto.
  - destruct A as (A & [[_ Z]|[B _]] & _); [congruence|]. split; auto.
  - split; [apply A|auto].
  - split; [apply A|auto].
  - destruct A as ((f & E) & A & _ & B). split; auto. split; [nia|]. split; [exists f; auto|exact B].
  - destruct A as ((f & E) & A & _). split; [nia|]. split; [exists f; auto|exact A].
  - destruct A as ((f & E) & A & B). split; [nia|]. split; [exists f; auto|]. split; [exact A|exact B].
  - destruct A as (A & B & C & D & _). split; [|split; [exact C|exact D]]. unfold poolOk. rewrite (proj2 (Nat.eqb_neq _ _) A), (proj2 (Nat.eqb_neq _ _) B). reflexivity.
  - destruct A as (A & B & _). auto.
  - destruct A as (A & B & _). auto.
  - destruct A as (A & B & C & D & _). auto.
Qed.
Lemma even_mode : forall (l : layer F) b k m, evenKind (lk l) -> detLayer F l k m -> detLayer F (setTrain l b) k m.
Proof. intros l b k m E D. unfold detLayer in *. change (lk (setTrain l b)) with (lk l). destruct (lk l); cbn in E; try contradiction; exact D. Qed.

(** * a network given by the functions its layers compute *)
Section Net.
Variables (ls : list nat) (cl : bool) (d : nat -> nat).
Hypothesis Hn : NoDup ls.
Notation m := (length ls).
Notation net_ tr := (mkNet ls cl tr).
Definition Kr (rho : nat -> (nat -> F) -> nat -> F) (i : nat) (l : layer F) : Prop := detLayer F l (d i) (d (S i)) /\ evenKind (lk l) /\ rowFun F l (d i) = rho i.
Notation rows rho := (lays F ls (Kr rho)).
Fixpoint actR (rho : nat -> (nat -> F) -> nat -> F) (i : nat) (x : nat -> F) : nat -> F := match i with 0 => x | S i => rho i (actR rho i x) end.

Lemma Kr_mode : forall rho i l b, Kr rho i l -> Kr rho i (setTrain l b).
Proof. intros rho i l b (A & B & C). split; [apply even_mode; auto|]. split; [exact B|exact C]. Qed.
Lemma layer_rows : forall rho rs tr i h N X out, rows rho h -> i < m -> mwf out -> exists h', fwdLayer F rs (net_ tr) i h (mgen N (d i) X) out = Ok (h', mgen N (d (S i)) (fun r => rho i (X r))) /\ rows rho h'.
Proof.
  intros rho rs tr i h N X out H Hi Ho. destruct (nth_error ls i) as [a|] eqn:Ea; [|apply nth_error_None in Ea; lia]. destruct (H i a Ea) as (l & El & D & Ev & Er).
  unfold fwdLayer. cbn [nlay]. unfold rget. rewrite Ea. cbn [bind]. rewrite El. cbn [bind]. destruct (row_forward F l (d i) (d (S i)) N X (rs i) out D Ho) as (l' & E & D' & Er' & Ek & _). rewrite E. cbn [bind].
  rewrite (hset_ok _ _ _ _ _ El). cbn [bind]. eexists. split; [rewrite Er; reflexivity|]. eapply lays_upd; eauto. split; auto. split; [rewrite Ek; auto|congruence].
Qed.
Lemma forward_rows : forall rho rs tr h N X v, rows rho h -> length v = S m -> Forall mwf v -> nth_error v 0 = Some (mgen N (d 0) X) ->
  exists h' v', forN m (fwdStep F rs (net_ tr)) (h, v) = Ok (h', v') /\ rows rho h' /\ nth_error v' m = Some (mgen N (d m) (fun r => actR rho m (X r))).
Proof.
  intros rho rs tr h N X v H Lv Wv E0.
  destruct (@forN_inv _ (fun i (p : heap F * list M) => rows rho (fst p) /\ length (snd p) = S m /\ Forall mwf (snd p) /\ nth_error (snd p) i = Some (mgen N (d i) (fun r => actR rho i (X r)))) m (fwdStep F rs (net_ tr)) (h, v)) as ([h' v'] & E & A & _ & _ & B).
  - auto.
  - intros i [h1 v1] Hi (A & B & C & D). cbn [fst snd] in *. unfold fwdStep. cbn [fst snd]. unfold rget at 1. rewrite D. cbn [bind]. destruct (nth_error v1 (i + 1)) as [out|] eqn:Eo; [|apply nth_error_None in Eo; lia].
    unfold rget. rewrite Eo. cbn [bind]. assert (Wo : mwf out) by (rewrite Forall_forall in C; apply C; eapply nth_error_In; eauto).
    destruct (layer_rows rho rs tr i h1 N (fun r => actR rho i (X r)) out A Hi Wo) as (h2 & E2 & R2). rewrite E2. cbn [bind]. unfold rset. rewrite (proj2 (Nat.ltb_lt _ _)) by lia. cbn [bind].
    eexists. split; [reflexivity|]. cbn [fst snd]. split; auto. split; [rewrite length_upd; auto|]. split; [|rewrite nth_error_upd by lia; replace (i + 1) with (S i) by lia; rewrite Nat.eqb_refl, (proj2 (Nat.ltb_lt (S i) (length v1))) by lia; reflexivity].
    apply Forall_forall. intros z Hz. destruct (In_nth_error _ _ Hz) as (j & Ej). rewrite nth_error_upd in Ej by lia. destruct (_ && _); [injection Ej as <-; apply mwf_gen|]. rewrite Forall_forall in C. apply C. eapply nth_error_In; eauto.
  - eauto.
Qed.
Lemma predict_rows : forall rho rs tr h N X out, 0 < m -> rows rho h -> mwf out ->
  exists h', predict F rs h (net_ tr) (mgen N (d 0) X) out = Ok (h', mgen N (d m) (fun r => actR rho m (X r))) /\ rows rho h'.
Proof.
  intros rho rs tr h N X out Hm H Ho. unfold predict. cbn [nlay].
  match goal with |- context [forN m ?b ?s] => destruct (@forN_inv _ (fun i '(h, x, o) => rows rho h /\ x = mgen N (d i) (fun r => actR rho i (X r)) /\ mwf o /\ (0 < i -> o = x)) m b s) as ([[h' x'] o'] & E & A & B & _ & C) end.
  - split; auto. split; auto. split; auto. intro Z. inversion Z.
  - intros i [[h1 x1] o1] Hi (A & -> & C & _). destruct (layer_rows rho rs tr i h1 N (fun r => actR rho i (X r)) o1 A Hi C) as (h2 & E2 & R2). rewrite E2. cbn [bind]. eexists. split; [reflexivity|]. cbn beta iota. split; auto. split; [reflexivity|]. split; [apply mwf_gen|auto].
  - rewrite E. cbn [bind]. exists h'. split; auto. rewrite C, B; auto.
Qed.

(** * the evaluation depends on these functions only *)
Lemma forL_rel : forall I A B (R : A -> B -> Prop) (l : list I) b1 b2 s1 s2 s1', (forall i s1 s2 s1', R s1 s2 -> b1 i s1 = Ok s1' -> exists s2', b2 i s2 = Ok s2' /\ R s1' s2') -> R s1 s2 -> forL l b1 s1 = Ok s1' ->
  exists s2', forL l b2 s2 = Ok s2' /\ R s1' s2'.
Proof.
  intros I A B R l b1 b2. induction l as [|i l IH]; intros s1 s2 s1' H H0 E; cbn [forL] in *; [injection E as <-; eauto|]. apply bind_inv in E. destruct E as (u & E1 & E). destruct (H _ _ _ _ H0 E1) as (u2 & E2 & R2). rewrite E2. cbn [bind]. eapply IH; eauto.
Qed.
Lemma view_rows : forall (x xb : M) c s e, mwf x -> mcols x = c -> viewRow F x s e = Ok xb -> exists N X, xb = mgen N c X.
Proof.
  intros x xb c s e Wx <- E. pose proof E as E'. unfold viewRow in E'. apply bind_inv in E'. destruct E' as (u & E1 & E'). apply bind_inv in E'. destruct E' as (u' & E2 & _). unfold assert_ in *.
  destruct (Nat.ltb_spec s e); [|discriminate]. destruct (Nat.leb_spec e (mrows x)); [|discriminate]. rewrite (mwf_gen_d _ (fjunk F) x Wx), viewRow_gen in E by auto. injection E as <-. eauto.
Qed.
Lemma acc_same : forall rho rs1 rs2 tr1 tr2 h1 h2 (t1 t2 : trainer F) x y h1' l a, 0 < m -> rows rho h1 -> rows rho h2 -> mwf x -> mcols x = d 0 ->
  cValBatch F (tc F t2) = cValBatch F (tc F t1) -> cLoss F (tc F t2) = cLoss F (tc F t1) -> tbal F t2 = tbal F t1 ->
  lossAccuracy F cabs rs1 h1 (net_ tr1) t1 x y = Ok (h1', l, a) -> rows rho h1' /\ exists h2', lossAccuracy F cabs rs2 h2 (net_ tr2) t2 x y = Ok (h2', l, a) /\ rows rho h2'.
Proof.
  intros rho rs1 rs2 tr1 tr2 h1 h2 t1 t2 x y h1' l a Hm R1 R2 Wx Cx EV EL EB E. unfold lossAccuracy in *. cbv zeta in *. cbn [nlay] in *. rewrite EV, EL, EB.
  destruct ((m =? 0) || (mrows x =? 0)); [injection E as <- <- <-; eauto|]. destruct (cValBatch F (tc F t1) =? 0) eqn:Ev; [discriminate|].
  apply bind_inv in E. destruct E as ([[[[h3 o3] ml3] lo3] g3] & E & E'). injection E' as <- <- <-. unfold forN in *.
  set (RR := fun (s1 s2 : heap F * M * M * F * nat) => let '(u1, o1, ml1, lo1, g1) := s1 in let '(u2, o2, ml2, lo2, g2) := s2 in rows rho u1 /\ rows rho u2 /\ mwf o1 /\ o2 = o1 /\ ml2 = ml1 /\ lo2 = lo1 /\ g2 = g1).
  match goal with |- _ /\ exists _, bind (forL ?L ?b2 ?s2) _ = _ /\ _ => match type of E with forL _ ?b1 ?s1 = _ => destruct (@forL_rel nat _ _ RR L b1 b2 s1 s2 (h3, o3, ml3, lo3, g3)) with (3 := E) as (s2' & E2 & R3) end end.
  - intros b [[[[u1 o1] ml1] lo1] g1] [[[[u2 o2] ml2] lo2] g2] s1' (A1 & A2 & A3 & -> & -> & -> & ->) Eb. cbn beta iota zeta in *.
    set (s := b * cValBatch F (tc F t1)) in *. set (e := Nat.min (s + cValBatch F (tc F t1)) (mrows x)) in *.
    destruct (viewRow F x s e) as [xb|] eqn:Ex; [|discriminate]. cbn [bind] in *. destruct (viewRow F y s e) as [yb|] eqn:Ey; [|discriminate]. cbn [bind] in *.
    assert (Gx : exists N X, xb = mgen N (d 0) X).
    { exact (view_rows x xb (d 0) s e Wx Cx Ex). }
    destruct Gx as (N & X & ->). destruct (predict_rows rho (rs1 b) tr1 u1 N X o1 Hm A1 A3) as (v1 & P1 & V1). destruct (predict_rows rho (rs2 b) tr2 u2 N X o1 Hm A2 A3) as (v2 & P2 & V2). rewrite P1 in Eb. rewrite P2. cbn [bind] in *.
    match type of Eb with bind ?q _ = _ => destruct q as [ml|]; cbn [bind] in *; [|discriminate] end. match type of Eb with bind ?q _ = _ => destruct q as [mv|]; cbn [bind] in *; [|discriminate] end.
    match type of Eb with bind ?q _ = _ => destruct q as [u|]; cbn [bind] in *; [|discriminate] end. match type of Eb with bind ?q _ = _ => destruct q as [g|]; cbn [bind] in *; [|discriminate] end.
    injection Eb as <-. eexists. split; [reflexivity|]. unfold RR. split; auto. split; auto. split; [apply mwf_gen|auto].
  - unfold RR. split; auto. split; auto. split; [reflexivity|auto].
  - rewrite E2. cbn [bind]. destruct s2' as [[[[u2 o2] ml2] lo2] g2]. destruct R3 as (A1 & A2 & A3 & -> & -> & -> & ->). split; auto. eauto.
Qed.

(* one batch *)
Lemma view_all : forall y : M, mwf y -> 0 < mrows y -> viewRow F y 0 (mrows y) = Ok y.
Proof.
  intros y Wy H. rewrite (mwf_gen_d _ (fjunk F) y Wy) at 1. rewrite viewRow_gen by lia. rewrite (mwf_gen_d _ (fjunk F) y Wy) at 3. rewrite Nat.sub_0_r. reflexivity.
Qed.
Lemma ceil_one : forall N b, 0 < N -> N <= b -> ceilDiv N b = 1.
Proof. intros N b H1 H2. unfold ceilDiv. symmetry. apply (Nat.div_unique _ _ 1 (N - 1)); lia. Qed.
Lemma acc_one : forall rho rs tr h (t : trainer F) N X y h' l a, 0 < m -> rows rho h -> mwf y -> mrows y = N -> 0 < N -> N <= cValBatch F (tc F t) ->
  lossAccuracy F cabs rs h (net_ tr) t (mgen N (d 0) X) y = Ok (h', l, a) -> exists ml mv g,
    compute F cabs (cLoss F (tc F t)) (tbal F t) (mgen N (d m) (fun r => actR rho m (X r))) y (mempty F) = Ok ml /\ mmean F ml = Ok mv /\ countGood F N (mgen N (d m) (fun r => actR rho m (X r))) y 0 = Ok g /\
    l = fadd F (f0 F) mv /\ a = fdiv F (fmul F (fofN F 100) (fofN F g)) (fofN F N).
Proof.
  intros rho rs tr h t N X y h' l a Hm R Wy Ry HN Hv E. unfold lossAccuracy in E. cbv zeta in E. cbn [nlay] in E. change (mrows (mgen N (d 0) X)) with N in E.
  rewrite (proj2 (Nat.eqb_neq m 0)), (proj2 (Nat.eqb_neq N 0)), (proj2 (Nat.eqb_neq (cValBatch F (tc F t)) 0)) in E by lia. cbn [orb] in E. rewrite ceil_one in E by auto. unfold forN in E. cbn [seq forL] in E. rewrite Nat.mul_0_l, Nat.add_0_l, Nat.min_r, Nat.sub_0_r in E by auto.
  pose proof (view_all (mgen N (d 0) X) (mwf_gen _ _ _ _) HN) as V1. pose proof (view_all y Wy) as V2. rewrite Ry in V2. change (mrows (mgen N (d 0) X)) with N in V1. rewrite V1, V2 in E by auto. cbn [bind] in E.
  destruct (predict_rows rho (rs 0) tr h N X (mempty F) Hm R eq_refl) as (v1 & P1 & _). rewrite P1 in E. cbn [bind] in E.
  match type of E with context [compute F cabs ?a ?b ?c ?e ?f] => destruct (compute F cabs a b c e f) as [ml|] eqn:Em; cbn [bind] in E; [|discriminate] end. destruct (mmean F ml) as [mv|] eqn:Ev; cbn [bind] in E; [|discriminate].
  match type of E with context [if ?q then assert_ ?z else Ok tt] => destruct (if q then assert_ z else Ok tt) as [u|]; cbn [bind] in E; [|discriminate] end.
  destruct (countGood F N _ y 0) as [g|] eqn:Eg; cbn [bind] in E; [|discriminate]. injection E as _ <- <-. exists ml, mv, g. auto 10.
Qed.
Lemma opt_only : forall h (t : trainer F) h' t', optimizeAll F cabs h t = Ok (h', t') -> exists os, t' = setOpts F t os.
Proof.
  intros h t h' t' E. unfold optimizeAll in E. apply bind_inv in E. destruct E as ([h1 t1] & E1 & E).
  assert (S0 : exists os, t = setOpts F t os) by (exists (topts F t); destruct t; reflexivity).
  apply (forN_postI _ (fun _ (p : heap F * trainer F) => exists os, snd p = setOpts F t os)) in E1; [|exact S0|].
  - apply (forN_postI _ (fun _ (p : heap F * trainer F) => exists os, snd p = setOpts F t os)) in E; [exact E|exact E1|].
    intros i [h2 t2] [h3 t3] _ (os & Q) Eb. cbn [snd] in *. subst t2. unfold optBias in Eb. binp Eb. injection Eb as _ <-. eexists. reflexivity.
  - intros i [h2 t2] [h3 t3] _ (os & Q) Eb. cbn [snd] in *. subst t2. unfold optWeight in Eb. binp Eb. injection Eb as _ <-. eexists. reflexivity.
Qed.
Lemma batch_stats : forall rho rs tr h (t : trainer F) N X y h' t', rows rho h -> tnl F t = m -> length (tinOut F t) = S m -> Forall mwf (tinOut F t) ->
  trainBatch F cabs rs h (net_ tr) t (mgen N (d 0) X) y = Ok (h', t') -> exists ml mv,
    compute F cabs (cLoss F (tc F t)) (tbal F t) (mgen N (d m) (fun r => actR rho m (X r))) y (mempty F) = Ok ml /\ mmean F ml = Ok mv /\ tonl F t' = fadd F (tonl F t) mv /\
    (cl = true -> countGood F N (mgen N (d m) (fun r => actR rho m (X r))) y (tgood F t) = Ok (tgood F t')).
Proof.
  intros rho rs tr h t N X y h' t' R Hl Li Wi E. unfold trainBatch in E. apply bind_inv in E. destruct E as ([h1 t1] & E1 & E). unfold backprop in E1. rewrite Hl in E1. apply bind_inv in E1. destruct E1 as (v & Ev & E1).
  apply rset_upd in Ev. destruct Ev as [-> _].
  destruct (forward_rows rho rs tr h N X (upd (tinOut F t) 0 (mgen N (d 0) X))) as (h2 & v2 & E2 & R2 & V2); auto; [rewrite length_upd; auto | | rewrite nth_error_upd by lia; rewrite Nat.eqb_refl, (proj2 (Nat.ltb_lt 0 (length (tinOut F t)))) by lia; reflexivity|].
  { apply Forall_forall. intros z Hz. destruct (In_nth_error _ _ Hz) as (j & Ej). rewrite nth_error_upd in Ej by lia. destruct (_ && _); [injection Ej as <-; apply mwf_gen|]. rewrite Forall_forall in Wi. apply Wi. eapply nth_error_In; eauto. }
  rewrite E2 in E1. cbn [bind] in E1. cbn [setInOut tnl] in E1. rewrite Hl in E1. unfold rget at 1 in E1. rewrite V2 in E1. cbn [bind] in E1. binp E1. injection E1 as _ <-.
  apply bind_inv in E. destruct E as ([h3 t3] & E3 & E). destruct (opt_only _ _ _ _ E3) as (os & ->). cbn [setOpts setGrad setInOut tinOut tnl] in E. rewrite Hl in E. unfold rget in E. rewrite V2 in E. cbn [bind] in E.
  apply bind_inv in E. destruct E as (t4 & E4 & E). injection E as _ <-. unfold onlineStats in E4. cbn [setOpts setGrad setInOut tc tbal tonl tgood nclass] in E4.
  match type of E4 with context [compute F cabs ?a ?b ?c ?e ?f] => destruct (compute F cabs a b c e f) as [ml|] eqn:Em; cbn [bind] in E4; [|discriminate] end. destruct (mmean F ml) as [mv|] eqn:Evv; cbn [bind] in E4; [|discriminate].
  exists ml, mv. split; auto. split; auto. destruct cl; cbn [negb] in E4; [|injection E4 as <-; split; [reflexivity|intro; discriminate]].
  match type of E4 with bind ?q _ = _ => destruct q as [u|]; cbn [bind] in E4; [|discriminate] end. change (mrows (mgen N (d m) (fun r => actR rho m (X r)))) with N in E4. cbn [setOnline tgood] in E4.
  destruct (countGood F N _ y (tgood F t)) as [g|] eqn:Eg; cbn [bind] in E4; [|discriminate]. injection E4 as <-. split; [reflexivity|]. intros _. reflexivity.
Qed.
Lemma epochTrain_stats : forall rho R e tr h (t : trainer F) N X y h' n' t', rows rho h -> tnl F t = m -> length (tinOut F t) = S m -> Forall mwf (tinOut F t) -> mwf y -> mrows y = N -> 0 < N -> N <= tadj F t ->
  epochTrain F cabs R e h (net_ tr) t (mgen N (d 0) X) y = Ok (h', n', t') -> exists ml mv,
    compute F cabs (cLoss F (tc F t)) (tbal F t) (mgen N (d m) (fun r => actR rho m (X r))) y (mempty F) = Ok ml /\ mmean F ml = Ok mv /\ tonl F t' = fadd F (f0 F) mv /\
    (cl = true -> countGood F N (mgen N (d m) (fun r => actR rho m (X r))) y 0 = Ok (tgood F t')).
Proof.
  intros rho R e tr h t N X y h' n' t' R0 Hl Li Wi Wy Ry HN Ha E. unfold epochTrain in E. cbv zeta in E. change (mrows (mgen N (d 0) X)) with N in E. change (tadj F (setOnline F t (f0 F) 0)) with (tadj F t) in E.
  rewrite (proj2 (Nat.ltb_ge _ _)) in E by lia. cbn [bind] in E. destruct (netSetTrain F h _ true) as [[h1 n1]|] eqn:E1; cbn [bind] in E; [|discriminate]. destruct (mode_rule F ls cl Hn (Kr rho) (Kr_mode rho) _ _ _ _ _ R0 E1) as (R1 & ->).
  match type of E with bind ?q _ = _ => destruct q as [[h2 t2]|] eqn:E2; cbn [bind] in E; [|discriminate] end. destruct (netSetTrain F h2 _ false) as [[h3 n3]|] eqn:E3; cbn [bind] in E; [|discriminate]. injection E as _ _ <-.
  unfold trainOneEpoch in E2. cbv zeta in E2. change (mrows (mgen N (d 0) X)) with N in E2. change (tadj F (setOnline F t (f0 F) 0)) with (tadj F t) in E2. rewrite (proj2 (Nat.eqb_neq N 0)), (proj2 (Nat.eqb_neq (tadj F t) 0)), ceil_one in E2 by lia.
  unfold forN in E2. cbn [seq forL] in E2. rewrite Nat.mul_0_l, Nat.add_0_l, Nat.min_r in E2 by auto.
  pose proof (view_all (mgen N (d 0) X) (mwf_gen _ _ _ _) HN) as V1. pose proof (view_all y Wy) as V2. rewrite Ry in V2. change (mrows (mgen N (d 0) X)) with N in V1. rewrite V1, V2 in E2 by auto. cbn [bind] in E2.
  match type of E2 with bind ?q _ = _ => destruct q as [[h4 t4]|] eqn:E4; cbn [bind] in E2; [|discriminate] end. injection E2 as _ <-. exact (batch_stats rho _ _ _ (setOnline F t (f0 F) 0) N X y _ _ R1 Hl Li Wi E4).
Qed.

(** * what holds between the epochs *)
Definition good (h : heap F) : Prop := forall i a, nth_error ls i = Some a -> exists l, hget F h a = Ok l /\ fits l (d i) (d (S i)) /\ evenKind (lk l) /\ sized F l.
Definition rhoOf (h : heap F) (i : nat) : (nat -> F) -> nat -> F := match nth_error ls i with Some a => match hget F h a with Ok l => rowFun F l (d i) | Err _ => fun x => x end | None => fun x => x end.
Lemma good_rows : forall h, good h -> rows (rhoOf h) h.
Proof. intros h G i a Ea. destruct (G i a Ea) as (l & El & A & B & C). exists l. split; auto. split; [apply even_det; auto|]. split; auto. unfold rhoOf. rewrite Ea, El. reflexivity. Qed.
Lemma sim_sized : forall T (l l' : layer F), sim F T l l' -> lk l' = lk l -> sized F l -> sized F l'.
Proof.
  intros T l l' Sm K S. assert (HW : msize (lw l) <> 0 -> msize (lw l') <> 0). { intro Q. pose proof (sim_w F T l l' Sm) as H. unfold hasWeights in H. rewrite (proj2 (Nat.eqb_neq _ _) Q) in H. specialize (H eq_refl). destruct (Nat.eqb_spec (msize (lw l')) 0); [discriminate H|auto]. }
  assert (HB : msize (lb l) <> 0 -> msize (lb l') <> 0). { intro Q. pose proof (sim_b F T l l' Sm) as H. unfold hasBiases in H. rewrite (proj2 (Nat.eqb_neq _ _) Q) in H. specialize (H eq_refl). destruct (Nat.eqb_spec (msize (lb l')) 0); [discriminate H|auto]. }
  unfold sized in *. rewrite K. destruct (lk l); auto.
Qed.
Lemma good_moves : forall T q h h', good h -> dims F h' ls d -> moves F T ls h h' -> touch F (ls ++ q) h h' -> good h'.
Proof.
  intros T q h h' G D (_ & _ & Mv) (_ & _ & Tc) i a Ea. destruct (G i a Ea) as (l & El & A & B & C). destruct (D i a Ea) as (l' & El' & A'). exists l'. split; auto. split; auto.
  destruct (Mv a l El) as (l2 & E2 & Sm). assert (l2 = l') by congruence. subst l2. destruct (Tc a l) as (l3 & E3 & So); auto; [apply in_or_app; left; eapply nth_error_In; eauto|]. assert (l3 = l') by congruence. subst l3. destruct So as (So & _). split; [rewrite So; auto|]. eapply sim_sized; eauto.
Qed.
End Net.
End Any.
