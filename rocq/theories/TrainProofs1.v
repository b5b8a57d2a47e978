(* TrainProofs1.v - what training can and cannot change *)
From Coq Require Import String List Arith Bool Lia ZArith.
From Verif Require Import Base Scalar Mat Loss Optim Regul LayMat LayImg LayRnn Layer Net NetTrain NetProofs1 NetProofs2 KMeansProofs2.
Import ListNotations.
Local Open Scope nat_scope.

Ltac binv E := repeat (match type of E with bind _ _ = Ok _ => let x := fresh "x" in let Ex := fresh "Ex" in apply bind_inv in E; destruct E as (x & Ex & E) end).
(* peel binds and destructure pairs *)
Ltac binp E := repeat (match type of E with
  | bind _ _ = Ok _ => let x := fresh "x" in let Ex := fresh "Ex" in apply bind_inv in E; destruct E as (x & Ex & E)
  | (let (_, _) := ?p in _) = Ok _ => destruct p
  end).

(* invariants of successful loops *)
Lemma forN_postI : forall S (P : nat -> S -> Prop) n (body : nat -> S -> res S) s s', forN n body s = Ok s' -> P 0 s ->
  (forall i s s1, i < n -> P i s -> body i s = Ok s1 -> P (Datatypes.S i) s1) -> P n s'.
Proof.
  intros S P n body s s' E H0 Hs. unfold forN in E.
  assert (G : forall m k s, k + m = n -> P k s -> forL (seq k m) body s = Ok s' -> P n s').
  { induction m as [|m IH]; intros k s1 Hk HP E1; simpl in E1.
    - inversion E1; subst. replace (k + 0) with k by lia. auto.
    - apply bind_inv in E1. destruct E1 as (s2 & E2 & E3). apply (IH (Datatypes.S k) s2); auto; try lia. apply (Hs k s1); auto. lia. }
  apply (G n 0 s); auto.
Qed.
Lemma forL_postI : forall I S (P : S -> Prop) (l : list I) (body : I -> S -> res S) s s', forL l body s = Ok s' -> P s ->
  (forall i s s1, In i l -> P s -> body i s = Ok s1 -> P s1) -> P s'.
Proof. intros. eapply forL_post; eauto. Qed.

Section Train.
Variable F : FOps.
Variable cabs : F -> res F.
Notation M := (mat F).

(** * objects keep their class and constructor arguments *)
Definition sameObj (l l' : layer F) : Prop := lk l' = lk l /\ lwi l' = lwi l /\ lbi l' = lbi l /\ lfirst l' = lfirst l.
Lemma sameObj_refl : forall l, sameObj l l. Proof. intros; repeat split. Qed.
Lemma sameObj_trans : forall a b c, sameObj a b -> sameObj b c -> sameObj a c.
Proof. unfold sameObj. intuition congruence. Qed.

Lemma forward_obj : forall r l x out l' o, layForward F r l x out = Ok (l', o) -> sameObj l l' /\ ltrain l' = ltrain l.
Proof.
  intros r l x out l' o E. unfold layForward in E. destruct (lk l) eqn:K; binp E; inversion E; subst; unfold sameObj; cbn; rewrite ?K; auto.
Qed.
Lemma backward_obj : forall l x g gin l' o, layBackward F l x g gin = Ok (l', o) -> sameObj l l' /\ ltrain l' = ltrain l.
Proof.
  intros l x g gin l' o E. unfold layBackward in E. destruct (lk l) eqn:K; binp E; inversion E; subst; unfold sameObj; cbn; rewrite ?K; auto.
Qed.

(** * h' differs from h only in the live objects at the addresses ls *)
Definition touch (ls : list nat) (h h' : heap F) : Prop :=
  length h' = length h /\ (forall a, ~ In a ls \/ nth_error h a = Some None -> nth_error h' a = nth_error h a) /\
  (forall a l, In a ls -> hget F h a = Ok l -> exists l', hget F h' a = Ok l' /\ sameObj l l').
Lemma touch_refl : forall ls h, touch ls h h.
Proof. intros. split; [auto|split; auto]. intros. exists l. split; auto. apply sameObj_refl. Qed.
Lemma touch_trans : forall ls a b c, touch ls a b -> touch ls b c -> touch ls a c.
Proof.
  intros ls a b c (A1 & A2 & A3) (B1 & B2 & B3). split; [congruence|]. split; [intros x Hx; rewrite B2; [auto|destruct Hx as [Hx|Hx]; [auto|right; rewrite A2; auto]]|].
  intros x l Hx El. destruct (A3 x l Hx El) as (l1 & E1 & S1). destruct (B3 x l1 Hx E1) as (l2 & E2 & S2). exists l2. split; auto. eapply sameObj_trans; eauto.
Qed.
Lemma touch_weaken : forall ls ls' h h', (forall a, In a ls -> In a ls') -> touch ls h h' -> touch ls' h h'.
Proof.
  intros ls ls' h h' Hs (A1 & A2 & A3). split; auto. split; [intros a [Ha|Ha]; apply A2; auto|]. intros a l Ha El.
  destruct (in_dec Nat.eq_dec a ls) as [I|N]; [apply A3; auto|]. exists l. split; [|apply sameObj_refl]. unfold hget, rget in *. rewrite A2 by auto. auto.
Qed.
Lemma touch_set : forall ls h a l l' h', In a ls -> hget F h a = Ok l -> hset F h a l' = Ok h' -> sameObj l l' -> touch ls h h'.
Proof.
  intros ls h a l l' h' Ha El Es So. rewrite (hset_ok _ _ _ _ _ El) in Es. inversion Es; subst. pose proof (hget_lt _ _ _ _ El) as La.
  split; [apply length_upd|]. split.
  - intros b Hb. rewrite nth_error_upd. destruct (Nat.eqb_spec a b); [|reflexivity]. subst. destruct Hb as [Hb|Hb]; [contradiction|]. apply hget_ok in El. congruence.
  - intros b lb Hb Eb. rewrite hget_upd by auto. destruct (Nat.eqb_spec a b).
    + subst. exists l'. split; auto. rewrite El in Eb. inversion Eb; subst. auto.
    + exists lb. split; auto. apply sameObj_refl.
Qed.
Lemma rget_In : forall A (l : list A) i a, rget l i = Ok a -> In a l.
Proof. intros A l i a H. unfold rget in H. destruct (nth_error l i) eqn:E; inversion H; subst. eapply nth_error_In; eauto. Qed.

Lemma fwdLayer_touch : forall rs n i h x out h' o, fwdLayer F rs n i h x out = Ok (h', o) -> touch (nlay n) h h'.
Proof.
  intros rs n i h x out h' o E. unfold fwdLayer in E. binp E. inversion E; subst. destruct (forward_obj _ _ _ _ _ _ Ex1) as [S _].
  eapply touch_set; eauto. eapply rget_In; eauto.
Qed.
Lemma predict_touch : forall rs h n x out h' o, predict F rs h n x out = Ok (h', o) -> touch (nlay n) h h'.
Proof.
  intros rs h n x out h' o E. unfold predict in E. binp E. inversion E; subst.
  apply (forN_postI _ (fun _ p => touch (nlay n) h (fst (fst p)))) in Ex; [exact Ex|apply touch_refl|].
  intros i [[h1 a] b] s' _ I Eb. binp Eb. inversion Eb; subst. cbn in *. eapply touch_trans; eauto. eapply fwdLayer_touch; eauto.
Qed.
Lemma setTrain_touch : forall h n v h' n', netSetTrain F h n v = Ok (h', n') -> touch (nlay n) h h' /\ n' = mkNet (nlay n) (nclass n) v.
Proof.
  intros h n v h' n' E. unfold netSetTrain in E. binp E. inversion E; subst. split; auto.
  assert (G : forall ls h h', (forall a, In a ls -> In a (nlay n)) -> forL ls (fun a h => l <- hget F h a ;; hset F h a (setTrain l v)) h = Ok h' -> touch (nlay n) h h').
  { clear. induction ls as [|a ls IH]; intros h h' Hs E; simpl in E; [inversion E; apply touch_refl|]. binp E. binp Ex.
    eapply touch_trans; [|apply (IH _ _ (fun b Hb => Hs b (or_intror Hb)) E)].
    eapply touch_set; eauto; [apply Hs; left; auto|]. repeat split. }
  apply (G (nlay n)); auto.
Qed.

(** * the trainer fields that training does not change *)
Definition frozen (t t' : trainer F) : Prop :=
  tc F t' = tc F t /\ tbal F t' = tbal F t /\ tadj F t' = tadj F t /\ tcur F t' = tcur F t /\ tnl F t' = tnl F t /\ tpw F t' = tpw F t /\ tpb F t' = tpb F t /\
  th F t' = th F t /\ ttrain F t' = ttrain F t /\ tval F t' = tval F t /\ tcallback F t' = tcallback F t /\
  map (olr F) (topts F t') = map (olr F) (topts F t).
Lemma frozen_refl : forall t, frozen t t. Proof. intro; repeat split. Qed.
Lemma frozen_trans : forall a b c, frozen a b -> frozen b c -> frozen a c.
Proof. unfold frozen. intuition congruence. Qed.

Lemma optimize_lr : forall o w g o' w', optimize F cabs o w g = Ok (o', w') -> olr F o' = olr F o.
Proof.
  intros o w g o' w' E. unfold optimize in E. destruct (okind F o); binp E; inversion E; subst; try reflexivity.
Qed.
Lemma map_upd_same : forall A B (f : A -> B) l i x y, nth_error l i = Some x -> f y = f x -> map f (upd l i y) = map f l.
Proof.
  induction l as [|a l IH]; intros i x y H E; [destruct i; reflexivity|]. destruct i; simpl in *.
  - inversion H; subst. f_equal; auto.
  - f_equal. eapply IH; eauto.
Qed.
Lemma optStep_opts : forall t k w g os w' g', optStep F cabs t k w g = Ok (os, w', g') -> map (olr F) os = map (olr F) (topts F t).
Proof.
  intros t k w g os w' g' E. unfold optStep in E. binp E. inversion E; subst. unfold rset in Ex2. destruct (k <? length (topts F t)); inversion Ex2; subst.
  unfold rget in Ex0. destruct (nth_error (topts F t) k) eqn:N; inversion Ex0; subst. eapply map_upd_same; eauto. eapply optimize_lr; eauto.
Qed.
Lemma optWeight_post : forall i h t h' t', optWeight F cabs i (h, t) = Ok (h', t') -> touch (tpw F t) h h' /\ frozen t t' /\ tonl F t' = tonl F t /\ tgood F t' = tgood F t.
Proof.
  intros i h t h' t' E. unfold optWeight in E. binp E. inversion E; subst. split.
  - eapply touch_set; eauto; [eapply rget_In; eauto|repeat split].
  - split; [|split; reflexivity]. repeat split. cbn. eapply optStep_opts; eauto.
Qed.
Lemma optBias_post : forall i h t h' t', optBias F cabs i (h, t) = Ok (h', t') -> touch (tpb F t) h h' /\ frozen t t' /\ tonl F t' = tonl F t /\ tgood F t' = tgood F t.
Proof.
  intros i h t h' t' E. unfold optBias in E. binp E. inversion E; subst. split.
  - eapply touch_set; eauto; [eapply rget_In; eauto|repeat split].
  - split; [|split; reflexivity]. repeat split. cbn. eapply optStep_opts; eauto.
Qed.
Lemma optimizeAll_post : forall h t h' t', optimizeAll F cabs h t = Ok (h', t') -> touch (tpw F t ++ tpb F t) h h' /\ frozen t t' /\ tonl F t' = tonl F t /\ tgood F t' = tgood F t.
Proof.
  intros h t h' t' E. unfold optimizeAll in E. binp E.
  set (I := fun (_ : nat) (p : heap F * trainer F) => touch (tpw F t ++ tpb F t) h (fst p) /\ frozen t (snd p) /\ tonl F (snd p) = tonl F t /\ tgood F (snd p) = tgood F t).
  assert (I1 : I 0 x).
  { apply (forN_postI _ I) in Ex; [exact Ex| |].
    2:{ intros i [h1 t1] [h2 t2] _ (A & B & C & D) Eb. apply optWeight_post in Eb. destruct Eb as (A' & B' & C' & D'). unfold I. cbn in *.
      split; [|split; [eapply frozen_trans; eauto|split; congruence]]. eapply touch_trans; eauto. eapply touch_weaken; [|exact A'].
      destruct B as (_ & _ & _ & _ & _ & B & _). rewrite B. intros; apply in_or_app; auto. }
    split; [apply touch_refl|split; [apply frozen_refl|auto]]. }
  apply (forN_postI _ I) in E; [exact E|exact I1|].
  intros i [h1 t1] [h2 t2] _ (A & B & C & D) Eb. apply optBias_post in Eb. destruct Eb as (A' & B' & C' & D'). unfold I. cbn in *.
  split; [|split; [eapply frozen_trans; eauto|split; congruence]]. eapply touch_trans; eauto. eapply touch_weaken; [|exact A'].
  destruct B as (_ & _ & _ & _ & _ & _ & B & _). rewrite B. intros; apply in_or_app; auto.
Qed.

Lemma backprop_post : forall rs h n t x y h' t', backprop F rs h n t x y = Ok (h', t') -> touch (nlay n) h h' /\ frozen t t' /\ tonl F t' = tonl F t /\ tgood F t' = tgood F t.
Proof.
  intros rs h n t x y h' t' E. unfold backprop in E. binp E. inversion E; subst. split; [|split; [repeat split|split; reflexivity]].
  assert (A : touch (nlay n) h h0).
  { apply (forN_postI _ (fun _ p => touch (nlay n) h (fst p))) in Ex0; [exact Ex0|apply touch_refl|].
    intros i [h1 v1] [h2 v2] _ I Eb. unfold fwdStep in Eb. binp Eb. inversion Eb; subst. cbn in *. eapply touch_trans; eauto. eapply fwdLayer_touch; eauto. }
  eapply touch_trans; eauto.
  apply (forL_postI _ _ (fun p => touch (nlay n) h0 (fst p))) in Ex5; [exact Ex5|apply touch_refl|].
  intros i [h1 v1] [h2 v2] _ I Eb. unfold bwdStep in Eb. binp Eb. inversion Eb; subst. cbn in *. eapply touch_trans; eauto.
  match goal with H : layBackward _ _ _ _ _ = Ok _ |- _ => destruct (backward_obj _ _ _ _ _ _ H) as [S _] end.
  eapply touch_set; eauto. eapply rget_In; eauto.
Qed.
Lemma onlineStats_frozen : forall n t o y t', onlineStats F cabs n t o y = Ok t' -> frozen t t'.
Proof.
  intros n t o y t' E. unfold onlineStats in E. binp E. destruct (negb (nclass n)); [inversion E; subst; repeat split|]. binp E. inversion E; subst. repeat split.
Qed.
Lemma trainBatch_post : forall rs h n t x y h' t', trainBatch F cabs rs h n t x y = Ok (h', t') -> touch (nlay n ++ tpw F t ++ tpb F t) h h' /\ frozen t t'.
Proof.
  intros rs h n t x y h' t' E. unfold trainBatch in E. binp E. inversion E; subst.
  apply backprop_post in Ex. destruct Ex as (A1 & A2 & _). apply optimizeAll_post in Ex0. destruct Ex0 as (B1 & B2 & _). apply onlineStats_frozen in Ex2.
  split; [|eapply frozen_trans; [exact A2|eapply frozen_trans; eauto]].
  eapply touch_trans; [eapply touch_weaken; [|exact A1]|eapply touch_weaken; [|exact B1]]; intros a Ha.
  - apply in_or_app. auto.
  - destruct A2 as (_ & _ & _ & _ & _ & Q1 & Q2 & _). rewrite Q1, Q2 in Ha. apply in_or_app. auto.
Qed.
Lemma trainOneEpoch_post : forall rs h n t x y h' t', trainOneEpoch F cabs rs h n t x y = Ok (h', t') -> touch (nlay n ++ tpw F t ++ tpb F t) h h' /\ frozen t t'.
Proof.
  intros rs h n t x y h' t' E. unfold trainOneEpoch in E. destruct (mrows x =? 0); [inversion E; subst; split; [apply touch_refl|apply frozen_refl]|].
  destruct (tadj F t =? 0); [discriminate|].
  apply (forN_postI _ (fun _ p => touch (nlay n ++ tpw F t ++ tpb F t) h (fst p) /\ frozen t (snd p))) in E; [exact E|split; [apply touch_refl|apply frozen_refl]|].
  - intros i [h1 t1] [h2 t2] _ [A B] Eb. cbn in *. binp Eb. apply trainBatch_post in Eb. destruct Eb as [A' B'].
    destruct B as (Q0 & Q1 & Q2 & Q3 & Q4 & Q5 & Q6 & Q7) eqn:EB. clear EB. rewrite Q5, Q6 in A'. split; [eapply touch_trans; eauto|]. eapply frozen_trans; [|exact B']. unfold frozen; auto.
Qed.
Lemma lossAccuracy_touch : forall rs h n t x y h' l a, lossAccuracy F cabs rs h n t x y = Ok (h', l, a) -> touch (nlay n) h h'.
Proof.
  intros rs h n t x y h' l a E. unfold lossAccuracy in E. destruct ((length (nlay n) =? 0) || (mrows x =? 0)); [inversion E; subst; apply touch_refl|].
  destruct (cValBatch F (tc F t) =? 0); [discriminate|]. binp E. inversion E; subst.
  apply (forN_postI _ (fun _ p => touch (nlay n) h (fst (fst (fst (fst p)))))) in Ex; [exact Ex|apply touch_refl|].
  intros i [[[[h1 o1] ml1] lo1] g1] s' _ I Eb. binp Eb. inversion Eb; subst. cbn in *. eapply touch_trans; eauto. eapply predict_touch; eauto.
Qed.
Lemma epochTrain_post : forall R e h n t x y h' n' t', epochTrain F cabs R e h n t x y = Ok (h', n', t') ->
  touch (nlay n ++ tpw F t ++ tpb F t) h h' /\ frozen t t' /\ n' = mkNet (nlay n) (nclass n) false.
Proof.
  intros R e h n t x y h' n' t' E. unfold epochTrain in E. binp E. inversion E; subst.
  apply setTrain_touch in Ex0. destruct Ex0 as [A1 ->]. apply trainOneEpoch_post in Ex1. destruct Ex1 as [A2 A3]. apply setTrain_touch in Ex2. destruct Ex2 as [A4 ->]. cbn in *.
  split; [|split; auto].
  eapply touch_trans; [eapply touch_weaken; [|exact A1]|]. { intros; apply in_or_app; auto. }
  eapply touch_trans; [exact A2|]. eapply touch_weaken; [|exact A4]. intros; apply in_or_app; auto.
Qed.
End Train.
