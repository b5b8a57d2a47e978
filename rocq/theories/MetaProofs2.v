(* MetaProofs2.v - the threads of the meta-optimiser and the layer objects *)
From Coq Require Import String List Arith Bool Lia ZArith.
From Verif Require Import Base Scalar Mat Loss Optim Regul Act LayMat LayImg LayRnn Layer Net NetTrain SpecNet SpecTrain NetProofs1 NetProofs2 TrainProofs1 TrainProofs2 TrainProofs3 TrainProofs4 TrainProofs5 TrainProofs6 Meta SpecMeta MetaProofs1.
Import ListNotations.
Local Open Scope nat_scope.

Section Own.
Variable F : FOps.
Variable cabs : F -> res F.

(* a piece of code working on the objects ls, leaving ls': other objects are untouched, no object is lost *)
Definition ownStep (h : heap F) (ls : list nat) (h' : heap F) (ls' : list nat) : Prop :=
  length h <= length h' /\ (forall x, x < length h -> ~ In x ls -> nth_error h' x = nth_error h x) /\
  (forall x, In x ls' -> x < length h' /\ (In x ls \/ length h <= x)) /\
  (forall x l, In x ls \/ length h <= x -> nth_error h' x = Some (Some l) -> In x ls').
Lemma ownStep_refl : forall h ls, (forall x, In x ls -> x < length h) -> ownStep h ls h ls.
Proof.
  intros h ls Hl. split; [lia|]. split; [auto|]. split; [intros x Hx; split; auto|]. intros x l [Q|Q] El; auto.
  assert (x < length h) by (apply nth_error_Some; congruence). lia.
Qed.
Lemma ownStep_trans : forall h1 l1 h2 l2 h3 l3, ownStep h1 l1 h2 l2 -> ownStep h2 l2 h3 l3 -> ownStep h1 l1 h3 l3.
Proof.
  intros h1 l1 h2 l2 h3 l3 (A1 & A2 & A3 & A4) (B1 & B2 & B3 & B4). split; [lia|]. split; [|split].
  - intros x Hx Hn. rewrite B2; [apply A2; auto|lia|]. intro Q. destruct (A3 x Q) as [_ [D|D]]; [auto|lia].
  - intros x Hx. destruct (B3 x Hx) as [C1 [C2|C2]]; split; auto; [apply A3; auto|right; lia].
  - intros x l Hx El. destruct (lt_dec x (length h2)) as [L|G]; [|apply (B4 x l); auto; right; lia].
    destruct (in_dec Nat.eq_dec x l2) as [I|N]; [apply (B4 x l); auto|]. rewrite B2 in El by auto. exfalso. apply N. apply (A4 x l); auto.
Qed.
Lemma assign_own : forall rs h o h' n', netAssign F false rs h netNew o = Ok (h', n') -> (forall x, In x (nlay o) -> x < length h) -> ownStep h [] h' (nlay n').
Proof.
  intros rs h o h' n' E Ho. apply assign_post in E; auto. destruct E as (S1 & S2 & S3 & S4 & S5 & S6 & S7 & S8 & S9). split; [lia|]. split; [intros; apply S7; auto|]. split.
  - intros x Hx. rewrite S1 in Hx. apply in_seq in Hx. split; [lia|right; lia].
  - intros x l [[]|G] El. assert (x < length h') by (apply nth_error_Some; congruence). rewrite S1. apply in_seq. lia.
Qed.
Lemma clear_own : forall h n h' n', netClear F h n = Ok (h', n') -> ownStep h (nlay n) h' [].
Proof.
  intros h n h' n' E. apply clear_post in E. destruct E as (_ & X1 & X2 & X3 & X4). split; [lia|]. split; [auto|]. split; [intros x []|].
  intros x l [Q|G] El; [apply X4 in Q; destruct Q; congruence|]. assert (x < length h') by (apply nth_error_Some; congruence). lia.
Qed.
Lemma replace_own : forall h n i l h' n', netReplace F (h ++ [Some l]) n i (length h) = Ok (h', n') -> (forall x, In x (nlay n) -> x < length h) ->
  ownStep h (nlay n) h' (nlay n') /\ exists old lo, nth_error (nlay n) i = Some old /\ hget F h old = Ok lo /\ h' = upd (h ++ [Some l]) old None /\ nlay n' = upd (nlay n) i (length h) /\
    nclass n' = nclass n /\ ntrain n' = ntrain n.
Proof.
  intros h n i l h' n' E Hl. unfold netReplace in E. apply bind_inv in E. destruct E as (u & E1 & E). apply bind_inv in E. destruct E as (old & E2 & E). apply bind_inv in E. destruct E as (h1 & E3 & E).
  apply bind_inv in E. destruct E as (ls & E4 & E). inversion E; subst. clear E. unfold rget in E2. destruct (nth_error (nlay n) i) as [o|] eqn:Eo; inversion E2; subst o. clear E2.
  assert (Io : In old (nlay n)) by (eapply nth_error_In; eauto). pose proof (Hl _ Io) as Lo.
  unfold rset in E4. destruct (i <? length (nlay n)) eqn:Li; inversion E4; subst. clear E4. unfold hfree in E3. apply bind_inv in E3. destruct E3 as (lo & E3 & E4).
  unfold rset in E4. rewrite app_length in E4. destruct (old <? length h + length [Some l]) eqn:Lt; inversion E4; subst. clear E4. cbn [nlay nclass ntrain].
  assert (Ln : length (upd (h ++ [Some l]) old None) = length h + 1) by (rewrite length_upd, app_length; reflexivity).
  assert (Hold : nth_error (upd (h ++ [Some l]) old None) old = Some None).
  { rewrite nth_error_upd, Nat.eqb_refl, app_length, Lt. reflexivity. }
  assert (Hoth : forall x, x <> old -> nth_error (upd (h ++ [Some l]) old None) x = nth_error (h ++ [Some l]) x).
  { intros x Hx. rewrite nth_error_upd. destruct (Nat.eqb_spec old x); [congruence|reflexivity]. }
  split.
  2: { exists old, lo. repeat split; auto. rewrite <- E3. unfold hget, rget. rewrite nth_error_app1 by auto. reflexivity. }
  split; [lia|]. split; [|split].
  - intros x Hx Hn. rewrite Hoth by congruence. apply nth_error_app1. auto.
  - intros x Hx. apply In_nth_error in Hx. destruct Hx as [k Hk]. rewrite nth_error_upd in Hk. destruct ((i =? k) && (i <? length (nlay n))).
    + inversion Hk; subst. split; [lia|right; lia].
    + apply nth_error_In in Hk. split; [apply Hl in Hk; lia|left; auto].
  - intros x lx Hx El. destruct (Nat.eq_dec x old) as [->|D]; [congruence|]. destruct Hx as [Hx|Hx].
    + apply In_nth_error in Hx. destruct Hx as [k Hk]. apply (nth_error_In _ k). rewrite nth_error_upd. destruct (Nat.eqb_spec i k); [subst; congruence|exact Hk].
    + assert (x < length (upd (h ++ [Some l]) old None)) by (apply nth_error_Some; congruence). assert (x = length h) by lia. subst.
      apply (nth_error_In _ i). rewrite nth_error_upd, Nat.eqb_refl, Li. reflexivity.
Qed.

Lemma ownStep_lt : forall h ls h' ls', ownStep h ls h' ls' -> forall x, In x ls' -> x < length h'.
Proof. intros h ls h' ls' (_ & _ & A & _) x Hx. apply A in Hx. tauto. Qed.
Lemma applyLayers_own : forall m d h n h' n', applyLayers F m d h n = Ok (h', n') -> (forall x, In x (nlay n) -> x < length h) -> ownStep h (nlay n) h' (nlay n').
Proof.
  intros m d h n h' n' E Hl. unfold applyLayers in E.
  apply (forN_postI _ (fun _ s => ownStep h (nlay n) (fst s) (nlay (snd s)))) in E; [exact E|apply ownStep_refl; auto|].
  intros i [h1 n1] [h2 n2] _ I Eb. cbn [fst snd] in *. destruct (_ =? 0); [inversion Eb; subst; auto|]. apply bind_inv in Eb. destruct Eb as (v & _ & Eb). apply bind_inv in Eb. destruct Eb as (l & _ & Eb).
  apply replace_own in Eb; [|eapply ownStep_lt; eauto]. destruct Eb as [Eb _]. eapply ownStep_trans; eauto.
Qed.

(** * the run: objects that existed before are untouched; the networks of the threads are disjoint; nothing is lost *)
Notation mstep := (mstep F cabs). Notation mrun := (mrun F cabs). Notation threads := (gThreads F).
Definition sepInv (h0 : heap F) (s : mst F) : Prop :=
  length h0 <= length (gHeap F s) /\ (forall x, x < length h0 -> nth_error (gHeap F s) x = nth_error h0 x) /\
  (forall i p x, nth_error (threads s) i = Some p -> In x (layersOf F p) -> length h0 <= x < length (gHeap F s)) /\
  (forall i j p q x, nth_error (threads s) i = Some p -> nth_error (threads s) j = Some q -> In x (layersOf F p) -> In x (layersOf F q) -> i = j) /\
  (forall x l, length h0 <= x -> nth_error (gHeap F s) x = Some (Some l) -> exists i p, nth_error (threads s) i = Some p /\ In x (layersOf F p)).

Lemma sep_step : forall h0 s i p h' q b t r e w, sepInv h0 s -> nth_error (threads s) i = Some p -> ownStep (gHeap F s) (layersOf F p) h' (layersOf F q) ->
  sepInv h0 (mkMS F h' b t (upd (threads s) i q) r e w).
Proof.
  intros h0 s i p h' q b t r e w (I1 & I2 & I3 & I4 & I5) Hp (A1 & A2 & A3 & A4). unfold sepInv. cbn [gHeap gThreads].
  assert (Li : (i <? length (threads s)) = true) by (apply Nat.ltb_lt, nth_error_Some; congruence).
  assert (N : forall j k, nth_error (upd (threads s) i q) j = Some k -> (j = i /\ k = q) \/ (j <> i /\ nth_error (threads s) j = Some k)).
  { intros j k Hk. rewrite nth_error_upd, Li in Hk. destruct (Nat.eqb_spec i j); [left; inversion Hk; auto|right; split; auto]. }
  split; [lia|]. split; [|split; [|split]].
  - intros x Hx. rewrite A2; [auto|lia|]. intro Q. apply (I3 i p) in Q; auto. lia.
  - intros j k x Hk Hx. destruct (N j k Hk) as [[-> ->]|[D Hj]].
    + destruct (A3 x Hx) as [B1 [B2|B2]]; [|lia]. apply (I3 i p) in B2; auto. lia.
    + apply (I3 j k) in Hx; auto. lia.
  - intros j1 j2 k1 k2 x H1 H2 X1 X2. destruct (N _ _ H1) as [[-> ->]|[D1 J1]], (N _ _ H2) as [[-> ->]|[D2 J2]]; auto.
    + exfalso. destruct (A3 x X1) as [_ [B|B]]; [apply D2; symmetry; eapply I4; eauto|]. apply (I3 j2 k2) in X2; auto. lia.
    + exfalso. destruct (A3 x X2) as [_ [B|B]]; [apply D1; eapply I4; eauto|]. apply (I3 j1 k1) in X1; auto. lia.
    + eapply I4; eauto.
  - intros x l Hx El. assert (Own : In x (layersOf F p) \/ length (gHeap F s) <= x -> exists j k, nth_error (upd (threads s) i q) j = Some k /\ In x (layersOf F k)).
    { intros Q. exists i, q. split; [rewrite nth_error_upd, Nat.eqb_refl, Li; reflexivity|eauto]. }
    destruct (in_dec Nat.eq_dec x (layersOf F p)) as [Q|Q]; auto. destruct (lt_dec x (length (gHeap F s))) as [L|G]; [|apply Own; right; lia].
    rewrite A2 in El by auto. destruct (I5 x l Hx El) as (j & k & Hj & Hk). exists j, k. split; auto. rewrite nth_error_upd. destruct (Nat.eqb_spec i j); [subst|auto]. exfalso. apply Q. congruence.
Qed.

(* the heap part of a step *)
Lemma mstep_own : forall m net0 ds i s s', mstep m net0 ds i s = Ok s' -> (forall x, In x (nlay net0) -> x < length (gHeap F s)) ->
  (forall p x, nth_error (threads s) i = Some p -> In x (layersOf F p) -> x < length (gHeap F s)) ->
  s' = s \/ exists p q h' b t r e w, nth_error (threads s) i = Some p /\ ownStep (gHeap F s) (layersOf F p) h' (layersOf F q) /\ s' = mkMS F h' b t (upd (threads s) i q) r e w.
Proof.
  intros m net0 ds i s s' E H0 Hl. unfold Meta.mstep in E. apply bind_inv in E. destruct E as (p & Ep & E). unfold rget in Ep. destruct (nth_error (threads s) i) as [p0|] eqn:Hp; inversion Ep; subst p0. clear Ep.
  assert (Li : (i <? length (threads s)) = true) by (apply Nat.ltb_lt, nth_error_Some; congruence).
  specialize (Hl p). unfold rset in E. cbv zeta in E. rewrite Li in E.
  assert (Go : forall q h' b t r e w, ownStep (gHeap F s) (layersOf F p) h' (layersOf F q) -> s' = mkMS F h' b t (upd (threads s) i q) r e w ->
    s' = s \/ exists p0 q h' b t r e w, Some p = Some p0 /\ ownStep (gHeap F s) (layersOf F p0) h' (layersOf F q) /\ s' = mkMS F h' b t (upd (threads s) i q) r e w).
  { intros q h' b t r e w O ->. right. exists p, q, h', b, t, r, e, w. auto. }
  destruct p as [| |n t|v n t|v n t|n t|accs n|a accs n|a accs n|].
  - cbn [bind] in E. injection E as Hs; symmetry in Hs; eapply Go; [|exact Hs]. apply ownStep_refl. intros x [].
  - apply bind_inv in E. destruct E as ([h' n'] & E1 & E). apply bind_inv in E. destruct E as (t & _ & E). cbn [bind] in E. injection E as Hs; symmetry in Hs; eapply Go; [|exact Hs]. cbn [layersOf]. eapply assign_own; eauto.
  - apply bind_inv in E. destruct E as ([h' n'] & E1 & E). apply applyLayers_own in E1; [|intros x Hx; apply Hl; auto]. destruct (length (mOv F m) =? 0).
    + cbn [bind] in E. injection E as Hs; symmetry in Hs; eapply Go; [|exact Hs]. exact E1.
    + apply bind_inv in E. destruct E as (v & _ & E). cbn [bind] in E. injection E as Hs; symmetry in Hs; eapply Go; [|exact Hs]. exact E1.
  - cbn [bind] in E. injection E as Hs; symmetry in Hs; eapply Go; [|exact Hs]. cbn [layersOf]. apply ownStep_refl. auto.
  - cbn [bind] in E. injection E as Hs; symmetry in Hs; eapply Go; [|exact Hs]. cbn [layersOf]. apply ownStep_refl. auto.
  - apply bind_inv in E. destruct E as ([[[h' n'] t'] calls] & E1 & E). cbn [bind] in E. injection E as Hs; symmetry in Hs; eapply Go; [|exact Hs]. cbn [layersOf]. eapply fit_own; eauto.
  - destruct accs as [|a accs].
    + apply bind_inv in E. destruct E as ([h' n'] & E1 & E). cbn [bind] in E. injection E as Hs; symmetry in Hs; eapply Go; [|exact Hs]. cbn [layersOf]. eapply clear_own; eauto.
    + cbn [bind] in E. injection E as Hs; symmetry in Hs; eapply Go; [|exact Hs]. destruct (flt F (gBest F s) a); cbn [layersOf]; apply ownStep_refl; auto.
  - cbn [bind] in E. injection E as Hs; symmetry in Hs; eapply Go; [|exact Hs]. cbn [layersOf]. apply ownStep_refl. auto.
  - destruct (mCb F m); [|discriminate]. cbn [bind] in E. injection E as Hs; symmetry in Hs; eapply Go; [|exact Hs]. cbn [layersOf]. apply ownStep_refl. auto.
  - injection E as Hs. auto.
Qed.
Lemma mrun_sep : forall m net0 ds h0 sched s s', mrun m net0 ds sched s = Ok s' -> (forall x, In x (nlay net0) -> x < length h0) -> sepInv h0 s -> sepInv h0 s'.
Proof.
  intros m net0 ds h0 sched. induction sched as [|i r IH]; intros s s' E H0 I; unfold Meta.mrun in E; simpl in E; [inversion E; subst; auto|].
  apply bind_inv in E. destruct E as (s1 & E1 & E). eapply IH; eauto. apply mstep_own in E1.
  - destruct E1 as [->|(p & q & h' & b & t & r' & e & w & Hp & O & ->)]; auto. eapply sep_step; eauto.
  - intros x Hx. destruct I as (I1 & _). apply H0 in Hx. lia.
  - intros p x Hp Hx. destruct I as (_ & _ & I3 & _). apply (I3 i p); auto.
Qed.
Definition noLive (h0 h : heap F) : Prop := forall x, length h0 <= x -> x < length h -> nth_error h x = Some None.
Lemma start_sep : forall h0 s nt, length h0 <= length (gHeap F s) -> (forall x, x < length h0 -> nth_error (gHeap F s) x = nth_error h0 x) -> noLive h0 (gHeap F s) ->
  sepInv h0 (mstart F nt s).
Proof.
  intros h0 s nt H1 H2 H3. assert (N : forall i p, nth_error (repeat (PSeed F) nt) i = Some p -> p = PSeed F) by (intros i p Hp; apply nth_error_In in Hp; apply repeat_spec in Hp; auto).
  unfold sepInv, mstart. cbn [gHeap gThreads]. split; auto. split; auto. split; [|split].
  - intros i p x Hp Hx. apply N in Hp. subst. destruct Hx.
  - intros i j p q x Hp _ Hx. apply N in Hp. subst. destruct Hx.
  - intros x l Hx El. rewrite H3 in El; [discriminate|auto|]. apply nth_error_Some. congruence.
Qed.
Lemma restart_heap : forall m nt net0 ds sched s s' h0, restart F cabs m nt net0 ds sched s = Ok s' -> (forall x, In x (nlay net0) -> x < length h0) ->
  length h0 <= length (gHeap F s) -> (forall x, x < length h0 -> nth_error (gHeap F s) x = nth_error h0 x) -> noLive h0 (gHeap F s) ->
  length h0 <= length (gHeap F s') /\ (forall x, x < length h0 -> nth_error (gHeap F s') x = nth_error h0 x) /\ noLive h0 (gHeap F s').
Proof.
  intros m nt net0 ds sched s s' h0 E H0 H1 H2 H3. unfold restart in E. apply bind_inv in E. destruct E as (s1 & E1 & E). destruct (forallb (isDone F) (threads s1)) eqn:D; inversion E; subst. clear E.
  eapply mrun_sep in E1; [|exact H0|apply start_sep; eauto]. destruct E1 as (I1 & I2 & I3 & I4 & I5). split; auto. split; auto.
  intros x L1 L2. destruct (nth_error (gHeap F s') x) as [[l|]|] eqn:El; auto; [|apply nth_error_None in El; lia]. destruct (I5 x l L1 El) as (i & p & Hp & Hx).
  rewrite forallb_forall in D. apply nth_error_In in Hp. apply D in Hp. destruct p; try discriminate. destruct Hx.
Qed.
(* the user's network and every other object keep their state; all objects created by fit have been deleted *)
Theorem mfit_heap : forall m hw ds scheds h net0 t s, mfit F cabs m hw ds scheds h net0 (Some t) = Ok s -> (forall x, In x (nlay net0) -> x < length h) ->
  (forall x, x < length h -> nth_error (gHeap F s) x = nth_error h x) /\ (forall x, length h <= x -> x < length (gHeap F s) -> nth_error (gHeap F s) x = Some None).
Proof.
  intros m hw ds scheds h net0 t s E H0. unfold mfit in E.
  apply (forN_postI _ (fun _ s => length h <= length (gHeap F s) /\ (forall x, x < length h -> nth_error (gHeap F s) x = nth_error h x) /\ noLive h (gHeap F s))) in E.
  - destruct E as (_ & A & B). auto.
  - cbn [gHeap]. split; auto. split; auto. intros x L1 L2. lia.
  - intros r s1 s2 _ (A & B & C) E1. eapply restart_heap; eauto.
Qed.
(* in any reachable state, two threads have no layer in common *)
Theorem threads_disjoint : forall m nt net0 ds sched h t s i j p q x, (forall x, In x (nlay net0) -> x < length h) ->
  mrun m net0 ds sched (mstart F nt (mkMS F h (minus1 F) t [] [] [] [])) = Ok s ->
  nth_error (threads s) i = Some p -> nth_error (threads s) j = Some q -> i <> j -> In x (layersOf F p) -> ~ In x (layersOf F q) /\ ~ In x (nlay net0).
Proof.
  intros m nt net0 ds sched h t s i j p q x H0 E Hp Hq D Hx. eapply mrun_sep in E; [|exact H0|apply start_sep; cbn; auto; intros y L1 L2; cbn in *; lia].
  destruct E as (I1 & I2 & I3 & I4 & I5). split; [intro Q; apply D; eapply I4; eauto|]. intro Q. apply H0 in Q. apply (I3 i p) in Hx; auto. lia.
Qed.
End Own.
