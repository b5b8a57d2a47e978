(* NetRule1.v - a rule for what a training batch preserves, from what each layer, the loss and the optimisers do *)
From Coq Require Import List Arith Bool Lia ZArith.
From Verif Require Import Base Scalar Mat SpecMat MatFacts MatLoops Loss Optim Regul LayMat LayImg Layer Net NetTrain NetProofs1 NetProofs2 TrainProofs1 MatProofs.
Import ListNotations.
Local Open Scope nat_scope.

Section Rule.
Variable F : FOps.
Variable cabs : F -> res F.
Notation M := (mat F).
Variables (ls : list nat) (cl : bool) (c0 : settings F) (v0 : option (M * M)).
Hypothesis Hn : NoDup ls.
Variables (K G : nat -> layer F -> Prop)   (* layer i; after a backward pass *)
  (P : nat -> nat -> M -> Prop)            (* nb rows, input of layer i *)
  (Q : nat -> nat -> M -> M -> Prop)       (* nb rows, input of layer i, gradient of the loss for it *)
  (OW OB : nat -> opt F -> Prop)           (* optimisers of the weights and biases of layer i *)
  (TT : nat -> M -> Prop) (SS : F -> Prop). (* truth of nb rows; mean loss of a batch *)
Notation m := (length ls).
(* o is the output of layer i for x *)
Definition Fwd (i : nat) (x o : M) : Prop := exists r l l' out, K i l /\ mwf out /\ layForward F r l x out = Ok (l', o).

Hypothesis K_train : forall i l b, K i l -> K i (setTrain l b).
Hypothesis K_fwd : forall i r l x out l' o, K i l -> layForward F r l x out = Ok (l', o) -> K i l'.
Hypothesis P_wf : forall nb i x, P nb i x -> mwf x.
Hypothesis P_fwd : forall nb i r l x out l' o, i < m -> K i l -> P nb i x -> mwf out -> layForward F r l x out = Ok (l', o) -> P nb (S i) o.
Hypothesis Q_loss : forall nb b o y g0 g, bon F b = false -> P nb m o -> TT nb y -> mwf g0 -> compute_gradient F (cLoss F c0) b o y g0 = Ok g -> mwf g /\ Q nb m o g.
Hypothesis Q_bwd : forall nb i l x o g gin l' gi, i < m -> K i l -> P nb i x -> P nb (S i) o -> Fwd i x o -> Q nb (S i) o g -> mwf gin -> layBackward F l x g gin = Ok (l', gi) ->
  K i l' /\ G i l' /\ mwf gi /\ (0 < i -> Q nb i x gi).
Hypothesis O_w : forall i l o g o' w, K i l -> G i l -> OW i o -> (match cReg F c0 with Some r => reg_apply F r (lw l) (lgw l) | None => Ok (lgw l) end) = Ok g -> optimize F cabs o (lw l) g = Ok (o', w) ->
  K i (setP l w g (lb l) (lgb l)) /\ G i (setP l w g (lb l) (lgb l)) /\ OW i o'.
Hypothesis O_b : forall i l o g o' b, K i l -> G i l -> OB i o -> (match cReg F c0 with Some r => reg_apply F r (lb l) (lgb l) | None => Ok (lgb l) end) = Ok g -> optimize F cabs o (lb l) g = Ok (o', b) ->
  K i (setP l (lw l) (lgw l) b g) /\ G i (setP l (lw l) (lgw l) b g) /\ OB i o'.
Hypothesis S_loss : forall nb b o y out ml s, bon F b = false -> P nb m o -> TT nb y -> mwf out -> compute F cabs (cLoss F c0) b o y out = Ok ml -> mmean F ml = Ok s -> SS s /\ mwf ml.

Definition lays (h : heap F) : Prop := forall i a, nth_error ls i = Some a -> exists l, hget F h a = Ok l /\ K i l.
Definition graded (q : nat) (h : heap F) : Prop := forall i a l, q <= i -> nth_error ls i = Some a -> hget F h a = Ok l -> G i l.
Lemma same_at : forall i j a, nth_error ls i = Some a -> nth_error ls j = Some a -> i = j.
Proof. intros i j a Hi Hj. apply (proj1 (NoDup_nth_error ls) Hn); [apply nth_error_Some; congruence | congruence]. Qed.
Lemma lays_upd : forall h i a l l', lays h -> nth_error ls i = Some a -> hget F h a = Ok l -> K i l' -> lays (upd h a (Some l')).
Proof.
  intros h i a l l' H Ea El Hl j b Eb. rewrite hget_upd by (eapply hget_lt; eauto). destruct (Nat.eqb_spec a b) as [<-|N]; [|auto]. rewrite (same_at _ _ _ Eb Ea). eauto.
Qed.
Lemma graded_upd : forall q h i a l l', graded (S q) h -> i = q -> nth_error ls i = Some a -> hget F h a = Ok l -> G i l' -> graded q (upd h a (Some l')).
Proof.
  intros q h i a l l' H -> Ea El Hl j b lb Hj Eb Elb. rewrite hget_upd in Elb by (eapply hget_lt; eauto). destruct (Nat.eqb_spec a b) as [<-|N]; [injection Elb; intros <-; rewrite (same_at _ _ _ Eb Ea); auto|].
  apply (H j b); auto. assert (j <> q) by (intro; subst; congruence). lia.
Qed.
Lemma graded_upd0 : forall h i a l l', graded 0 h -> nth_error ls i = Some a -> hget F h a = Ok l -> G i l' -> graded 0 (upd h a (Some l')).
Proof.
  intros h i a l l' H Ea El Hl j b lb Hj Eb Elb. rewrite hget_upd in Elb by (eapply hget_lt; eauto). destruct (Nat.eqb_spec a b) as [<-|N]; [injection Elb; intros <-; rewrite (same_at _ _ _ Eb Ea); auto|]. apply (H j b); auto.
Qed.
Lemma hset_upd : forall h a (l : layer F) h', hset F h a l = Ok h' -> h' = upd h a (Some l).
Proof. intros h a l h' E. unfold hset in E. apply bind_inv in E. destruct E as (? & _ & E). unfold rset in E. destruct (a <? length h); [injection E; auto | discriminate]. Qed.
Lemma rget_nth : forall A (v : list A) i x, rget v i = Ok x -> nth_error v i = Some x.
Proof. intros A v i x E. unfold rget in E. destruct (nth_error v i); [injection E; intros; subst; auto | discriminate]. Qed.
Lemma rset_upd : forall A (v : list A) i x v', rset v i x = Ok v' -> v' = upd v i x /\ i < length v.
Proof. intros A v i x v' E. unfold rset in E. destruct (Nat.ltb_spec i (length v)); [injection E; auto | discriminate]. Qed.

(** * forward *)
Notation net_ tr := (mkNet ls cl tr).
Lemma layer_rule : forall rs tr i h x out h' o, lays h -> i < m -> fwdLayer F rs (net_ tr) i h x out = Ok (h', o) -> lays h' /\ forall nb, P nb i x -> mwf out -> P nb (S i) o /\ Fwd i x o.
Proof.
  intros rs tr i h x out h' o H Hi E. unfold fwdLayer in E. apply bind_inv in E. destruct E as (a & Ea & E). apply rget_nth in Ea. cbn [nlay] in Ea. destruct (H i a Ea) as (l & El & Kl). rewrite El in E. cbn [bind] in E.
  apply bind_inv in E. destruct E as ([l' o'] & E1 & E). apply bind_inv in E. destruct E as (h1 & E2 & E). injection E; intros; subst h1 o'. apply hset_upd in E2. subst h'. split; [eapply lays_upd; eauto|].
  intros nb Hx Ho. split; [eapply P_fwd; eauto|]. exists (rs i), l, l', out. auto.
Qed.
Lemma predict_lays : forall rs h tr x out h' o, lays h -> predict F rs h (net_ tr) x out = Ok (h', o) -> lays h'.
Proof.
  intros rs h tr x out h' o H E. unfold predict in E. apply bind_inv in E. destruct E as ([[h1 x1] o1] & E1 & E). injection E; intros; subst. apply (forN_postI _ (fun _ '(h, _, _) => lays h)) in E1; auto.
  intros i [[h2 x2] o2] [[h3 x3] o3] Hi H2 E2. apply bind_inv in E2. destruct E2 as ([h4 o4] & E3 & E2). injection E2; intros; subst. eapply layer_rule; eauto.
Qed.
Lemma predict_rule : forall rs h tr nb x out h' o, 0 < m -> lays h -> P nb 0 x -> mwf out -> predict F rs h (net_ tr) x out = Ok (h', o) -> P nb m o.
Proof.
  intros rs h tr nb x out h' o Hm H Hx Ho E. unfold predict in E. apply bind_inv in E. destruct E as ([[h1 x1] o1] & E1 & E). injection E; intros; subst. clear E.
  apply (forN_postI _ (fun i '(h, x, o) => lays h /\ P nb i x /\ mwf o /\ (0 < i -> o = x))) in E1.
  - destruct E1 as (_ & A & _ & B). cbn [nlay] in *. rewrite B; auto.
  - split; auto. split; auto. split; auto. intro Z. inversion Z.
  - intros i [[h2 x2] o2] [[h3 x3] o3] Hi (H2 & P2 & W2 & _) E2. apply bind_inv in E2. destruct E2 as ([h4 o4] & E3 & E2). injection E2; intros; subst. destruct (layer_rule _ _ _ _ _ _ _ _ H2 Hi E3) as [A B]. destruct (B nb P2 W2) as [C _]. split; auto. split; auto. split; auto. eapply P_wf; eauto.
Qed.
Lemma mode_rule : forall h tr b h' n', lays h -> netSetTrain F h (net_ tr) b = Ok (h', n') -> lays h' /\ n' = net_ b.
Proof.
  intros h tr b h' n' H E. unfold netSetTrain in E. apply bind_inv in E. destruct E as (h1 & E1 & E). injection E; intros; subst. split; auto. clear E. apply (forL_postI _ _ lays) in E1; auto.
  intros a h2 h3 Ha H2 E2. cbn [nlay] in Ha. destruct (In_nth_error _ _ Ha) as (i & Ei). destruct (H2 i a Ei) as (l & El & Kl). rewrite El in E2. cbn [bind] in E2. apply hset_upd in E2. subst h3. eapply lays_upd; eauto.
Qed.

(* the matrices of a pass *)
Definition chain (nb q : nat) (v : list M) : Prop := length v = S m /\ Forall mwf v /\ (forall j x, j <= q -> nth_error v j = Some x -> P nb j x) /\
  forall j x o, j < q -> nth_error v j = Some x -> nth_error v (S j) = Some o -> Fwd j x o.
Lemma Forall_upd_wf : forall (v : list M) i y, Forall mwf v -> mwf y -> Forall mwf (upd v i y).
Proof. intros v. induction v as [|z v IH]; intros [|i] y H Hy; cbn; auto; inversion H; subst; constructor; auto. Qed.
Lemma forward_rule : forall rs h tr nb v h' v', lays h -> chain nb 0 v -> forN m (fwdStep F rs (net_ tr)) (h, v) = Ok (h', v') -> lays h' /\ chain nb m v'.
Proof.
  intros rs h tr nb v h' v' H Hv E. apply (forN_postI _ (fun i '(h, v) => lays h /\ chain nb i v)) in E; auto.
  intros i [h1 v1] [h2 v2] Hi (H1 & L1 & W1 & P1 & F1) E1. unfold fwdStep in E1. cbn [fst snd] in E1. apply bind_inv in E1. destruct E1 as (x & Ex & E1). apply bind_inv in E1. destruct E1 as (o & Eo & E1). apply bind_inv in E1. destruct E1 as ([h3 o3] & E3 & E1).
  apply bind_inv in E1. destruct E1 as (v3 & E4 & E1). injection E1; intros; subst. apply rget_nth in Ex, Eo. apply rset_upd in E4. destruct E4 as [-> Lt]. assert (Wo : mwf o) by (rewrite Forall_forall in W1; apply W1; eapply nth_error_In; eauto).
  destruct (layer_rule _ _ _ _ _ _ _ _ H1 Hi E3) as [A B]. destruct (B nb (P1 i x (le_n _) Ex) Wo) as [C D]. split; auto. split; [rewrite length_upd; auto|]. split; [apply Forall_upd_wf; auto; eapply P_wf; eauto|]. replace (i + 1) with (S i) in * by lia. split.
  - intros j y Hj Ey. rewrite nth_error_upd in Ey. destruct (Nat.eqb_spec (S i) j) as [<-|N]; [rewrite (ltb_true _ _ Lt) in Ey; injection Ey; intros; subst; auto|]. apply P1; auto. lia.
  - intros j y z Hj Ey Ez. rewrite nth_error_upd in Ey, Ez. destruct (Nat.eqb_spec (S i) j); [lia|]. destruct (Nat.eqb_spec (S i) (S j)) as [Q0|N].
    + injection Q0; intros; subst j. rewrite (ltb_true _ _ Lt) in Ez. injection Ez; intros; subst. rewrite Ex in Ey. injection Ey; intros; subst. auto.
    + apply (F1 j); auto. lia.
Qed.

(** * backward *)
Lemma backward_rule : forall nb tr v, chain nb m v -> forall q h gs h' gs', q <= m -> lays h -> graded q h -> length gs = S m -> Forall mwf gs ->
  (forall x g, 0 < q -> nth_error v q = Some x -> nth_error gs q = Some g -> Q nb q x g) -> forL (rev (seq 0 q)) (bwdStep F (net_ tr) v) (h, gs) = Ok (h', gs') ->
  lays h' /\ graded 0 h' /\ length gs' = S m /\ Forall mwf gs'.
Proof.
  intros nb tr v (Lv & Wv & Pv & Fv). induction q as [|q IH]; intros h gs h' gs' Hq H Gr Lg Wg Hg E.
  - cbn in E. injection E; intros; subst. auto.
  - rewrite seq_S, rev_app_distr in E. cbn [rev app forL Nat.add] in E. apply bind_inv in E. destruct E as ([h1 gs1] & E1 & E). unfold bwdStep in E1. cbn [fst snd] in E1.
    apply bind_inv in E1. destruct E1 as (x & Ex & E1). apply bind_inv in E1. destruct E1 as (g & Eg & E1). apply bind_inv in E1. destruct E1 as (gin & Egin & E1). apply bind_inv in E1. destruct E1 as (a & Ea & E1). apply rget_nth in Ex, Eg, Egin, Ea. cbn [nlay] in Ea.
    destruct (H q a Ea) as (l & El & Kl). rewrite El in E1. cbn [bind] in E1. apply bind_inv in E1. destruct E1 as ([l' gi] & E2 & E1). apply bind_inv in E1. destruct E1 as (h2 & E3 & E1). apply bind_inv in E1. destruct E1 as (gs2 & E4 & E1). injection E1; intros; subst h2 gs2. apply hset_upd in E3. subst h1. apply rset_upd in E4. destruct E4 as [-> Lt].
    replace (q + 1) with (S q) in * by lia. destruct (nth_error v (S q)) as [o|] eqn:Eo; [|apply nth_error_None in Eo; lia]. assert (Wgin : mwf gin) by (rewrite Forall_forall in Wg; apply Wg; eapply nth_error_In; eauto).
    assert (Pq : P nb q x) by (apply Pv; auto; lia). assert (Pq' : P nb (S q) o) by (apply Pv; auto). assert (Fq : Fwd q x o) by (apply Fv; auto). assert (Qq : Q nb (S q) o g) by (apply Hg; auto; lia).
    destruct (Q_bwd nb q l x o g gin l' gi) as (A & B & C & D); auto.
    eapply IH in E; auto; try lia.
    + eapply lays_upd; eauto.
    + eapply graded_upd; eauto.
    + rewrite length_upd. auto.
    + apply Forall_upd_wf; auto.
    + intros y g' Hq0 Ey Eg'. rewrite nth_error_upd, Nat.eqb_refl, (ltb_true _ _ Lt) in Eg'. injection Eg'; intros; subst. rewrite Ex in Ey. injection Ey; intros; subst. auto.
Qed.

(** * optimisers *)
Definition optsOk (t : trainer F) : Prop :=
  (forall j a i, nth_error (tpw F t) j = Some a -> nth_error ls i = Some a -> exists o, nth_error (topts F t) j = Some o /\ OW i o) /\
  (forall j a i, nth_error (tpb F t) j = Some a -> nth_error ls i = Some a -> exists o, nth_error (topts F t) (j + length (tpw F t)) = Some o /\ OB i o) /\
  (forall a, In a (tpw F t) -> In a ls) /\ (forall a, In a (tpb F t) -> In a ls).
Definition trI (t : trainer F) : Prop := tnl F t = m /\ tc F t = c0 /\ (tval F t = v0 /\ bon F (tbal F t) = false) /\ length (tinOut F t) = S m /\ Forall mwf (tinOut F t) /\ length (tgrad F t) = S m /\ Forall mwf (tgrad F t) /\ optsOk t.
Lemma weight_rule : forall j h t h' t', lays h -> graded 0 h -> trI t -> optWeight F cabs j (h, t) = Ok (h', t') -> lays h' /\ graded 0 h' /\ trI t' /\ exists os, t' = setOpts F t os.
Proof.
  intros j h t h' t' H Gr (T1 & T2 & T3 & T4 & T5 & T6 & T7 & O1 & O2 & O3 & O4) E. unfold optWeight in E. apply bind_inv in E. destruct E as (a & Ea & E). apply rget_nth in Ea. destruct (In_nth_error _ _ (O3 a (nth_error_In _ _ Ea))) as (i & Ei).
  destruct (H i a Ei) as (l & El & Kl). rewrite El in E. cbn [bind] in E. apply bind_inv in E. destruct E as ([[os w] g] & E1 & E). apply bind_inv in E. destruct E as (h1 & E2 & E). injection E; intros; subst. apply hset_upd in E2. subst h'.
  unfold optStep in E1. apply bind_inv in E1. destruct E1 as (g1 & Eg & E1). rewrite T2 in Eg. destruct (O1 j a i Ea Ei) as (o & Eo & Ho). unfold rget in E1. rewrite Eo in E1. cbn [bind] in E1. apply bind_inv in E1. destruct E1 as ([o' w'] & E3 & E1). apply bind_inv in E1. destruct E1 as (os' & E4 & E1). injection E1; intros; subst. apply rset_upd in E4. destruct E4 as [-> Lt].
  destruct (O_w i l o g o' w Kl (Gr i a l (Nat.le_0_l _) Ei El) Ho Eg E3) as (A & B & C). split; [eapply lays_upd; eauto|]. split; [eapply graded_upd0; eauto|]. split; [|eauto].
  do 7 (split; [assumption|]). split; [|split; [|split; assumption]].
  - intros j2 b i2 Eb Ei2. change (tpw F (setOpts F t ?v)) with (tpw F t) in Eb. change (topts F (setOpts F t ?v)) with v. rewrite nth_error_upd. destruct (Nat.eqb_spec j j2) as [<-|N].
    + rewrite (ltb_true _ _ Lt). rewrite Ea in Eb. injection Eb; intros; subst. rewrite (same_at _ _ _ Ei2 Ei). cbn [andb]. eauto.
    + apply (O1 j2 b i2); auto.
  - intros j2 b i2 Eb Ei2. change (tpb F (setOpts F t ?v)) with (tpb F t) in Eb. change (topts F (setOpts F t ?v)) with v. change (tpw F (setOpts F t ?v)) with (tpw F t). rewrite nth_error_upd. assert (j < length (tpw F t)) by (apply nth_error_Some; congruence). destruct (Nat.eqb_spec j (j2 + length (tpw F t))); [lia|]. apply (O2 j2 b i2); auto.
Qed.
Lemma bias_rule : forall j h t h' t', lays h -> graded 0 h -> trI t -> optBias F cabs j (h, t) = Ok (h', t') -> lays h' /\ graded 0 h' /\ trI t' /\ exists os, t' = setOpts F t os.
Proof.
  intros j h t h' t' H Gr (T1 & T2 & T3 & T4 & T5 & T6 & T7 & O1 & O2 & O3 & O4) E. unfold optBias in E. apply bind_inv in E. destruct E as (a & Ea & E). apply rget_nth in Ea. destruct (In_nth_error _ _ (O4 a (nth_error_In _ _ Ea))) as (i & Ei).
  destruct (H i a Ei) as (l & El & Kl). rewrite El in E. cbn [bind] in E. apply bind_inv in E. destruct E as ([[os w] g] & E1 & E). apply bind_inv in E. destruct E as (h1 & E2 & E). injection E; intros; subst. apply hset_upd in E2. subst h'.
  unfold optStep in E1. apply bind_inv in E1. destruct E1 as (g1 & Eg & E1). rewrite T2 in Eg. destruct (O2 j a i Ea Ei) as (o & Eo & Ho). unfold rget in E1. rewrite Eo in E1. cbn [bind] in E1. apply bind_inv in E1. destruct E1 as ([o' w'] & E3 & E1). apply bind_inv in E1. destruct E1 as (os' & E4 & E1). injection E1; intros; subst. apply rset_upd in E4. destruct E4 as [-> Lt].
  destruct (O_b i l o g o' w Kl (Gr i a l (Nat.le_0_l _) Ei El) Ho Eg E3) as (A & B & C). split; [eapply lays_upd; eauto|]. split; [eapply graded_upd0; eauto|]. split; [|eauto].
  do 7 (split; [assumption|]). split; [|split; [|split; assumption]].
  - intros j2 b i2 Eb Ei2. change (tpw F (setOpts F t ?v)) with (tpw F t) in Eb. change (topts F (setOpts F t ?v)) with v. rewrite nth_error_upd. assert (j2 < length (tpw F t)) by (apply nth_error_Some; congruence). destruct (Nat.eqb_spec (j + length (tpw F t)) j2); [lia|]. apply (O1 j2 b i2); auto.
  - intros j2 b i2 Eb Ei2. change (tpb F (setOpts F t ?v)) with (tpb F t) in Eb. change (topts F (setOpts F t ?v)) with v. change (tpw F (setOpts F t ?v)) with (tpw F t). rewrite nth_error_upd. destruct (Nat.eqb_spec (j + length (tpw F t)) (j2 + length (tpw F t))) as [Q0|N].
    + assert (j = j2) by lia. subst j2. rewrite (ltb_true _ _ Lt). rewrite Ea in Eb. injection Eb; intros; subst. rewrite (same_at _ _ _ Ei2 Ei). cbn [andb]. eauto.
    + apply (O2 j2 b i2); auto.
Qed.
Definition onlyOpts (t t' : trainer F) : Prop := exists os, t' = setOpts F t os.
Lemma onlyOpts_trans : forall a b c, onlyOpts a b -> (exists os, c = setOpts F b os) -> onlyOpts a c.
Proof. intros a b c (x & ->) (y & ->). exists y. reflexivity. Qed.
Lemma optimize_rule : forall h t h' t', lays h -> graded 0 h -> trI t -> optimizeAll F cabs h t = Ok (h', t') -> lays h' /\ trI t' /\ onlyOpts t t'.
Proof.
  intros h t h' t' H Gr Ti E. unfold optimizeAll in E. apply bind_inv in E. destruct E as ([h1 t1] & E1 & E).
  assert (R : onlyOpts t t) by (exists (topts F t); destruct t; reflexivity).
  apply (forN_postI _ (fun _ '(h, t2) => lays h /\ graded 0 h /\ trI t2 /\ onlyOpts t t2)) in E1; auto.
  - destruct E1 as (A & B & C & D). apply (forN_postI _ (fun _ '(h, t2) => lays h /\ graded 0 h /\ trI t2 /\ onlyOpts t t2)) in E; [tauto | auto|].
    intros i [h2 t2] [h3 t3] Hi (A2 & B2 & C2 & D2) E2. destruct (bias_rule _ _ _ _ _ A2 B2 C2 E2) as (A3 & B3 & C3 & D3). split; auto. split; auto. split; auto. eapply onlyOpts_trans; eauto.
  - intros i [h2 t2] [h3 t3] Hi (A2 & B2 & C2 & D2) E2. destruct (weight_rule _ _ _ _ _ A2 B2 C2 E2) as (A3 & B3 & C3 & D3). split; auto. split; auto. split; auto. eapply onlyOpts_trans; eauto.
Qed.

(** * a batch *)
Lemma nth_upd_same : forall A (v : list A) i x, i < length v -> nth_error (upd v i x) i = Some x.
Proof. intros A v i x H. rewrite nth_error_upd, Nat.eqb_refl, (ltb_true _ _ H). reflexivity. Qed.
Theorem batch_rule : forall rs tr h t h' t' nb x y, 0 < m -> lays h -> trI t -> P nb 0 x -> TT nb y -> trainBatch F cabs rs h (net_ tr) t x y = Ok (h', t') ->
  lays h' /\ trI t' /\ th F t' = th F t /\ tadj F t' = tadj F t /\ tcur F t' = tcur F t /\ exists s, SS s /\ tonl F t' = fadd F (tonl F t) s.
Proof.
  intros rs tr h t h' t' nb x y Hm H Ti Hx Hy E. pose proof Ti as (T1 & T2 & T3 & T4 & T5 & T6 & T7 & T8). unfold trainBatch, backprop in E. apply bind_inv in E. destruct E as ([h1 t1] & E1 & E). apply bind_inv in E1. destruct E1 as (v & Ev & E1). apply rset_upd in Ev. destruct Ev as [-> Lt].
  rewrite T1 in E1. apply bind_inv in E1. destruct E1 as ([h2 v2] & E2 & E1). cbv zeta in E1. assert (C0 : chain nb 0 (upd (tinOut F t) 0 x)).
  { split; [rewrite length_upd; auto|]. split; [apply Forall_upd_wf; auto; eapply P_wf; eauto|]. split; [|intros j a b Hj; inversion Hj]. intros j z Hj Ez. assert (j = 0) by lia. subst j. rewrite nth_upd_same in Ez by auto. injection Ez; intros; subst; auto. }
  destruct (forward_rule _ _ _ _ _ _ _ H C0 E2) as [H2 C2]. pose proof C2 as (L2 & W2 & P2 & F2). change (tnl F (setInOut F t v2)) with (tnl F t) in E1. rewrite T1 in E1. apply bind_inv in E1. destruct E1 as (o & Eo & E1). apply bind_inv in E1. destruct E1 as (gl & Egl & E1). apply rget_nth in Eo, Egl.
  apply bind_inv in E1. destruct E1 as (g & Eg & E1). apply bind_inv in E1. destruct E1 as (gs & Egs & E1). apply rset_upd in Egs. destruct Egs as [-> Lg]. apply bind_inv in E1. destruct E1 as ([h3 gs3] & E3 & E1). injection E1; intros; subst h1 t1. clear E1. change (tgrad F (setInOut F t v2)) with (tgrad F t) in *. change (tc F (setInOut F t v2)) with (tc F t) in *. rewrite T2 in Eg.
  assert (Po : P nb m o) by (apply P2; auto). assert (Wgl : mwf gl) by (rewrite Forall_forall in T7; apply T7; eapply nth_error_In; eauto). destruct (Q_loss _ _ _ _ _ _ (proj2 T3) Po Hy Wgl Eg) as [Wg Qg].
  assert (Gm : graded m h2). { intros i a l Hi Ei. apply nth_error_None in Hi. congruence. }
  destruct (backward_rule nb tr v2 C2 m h2 (upd (tgrad F t) m g) h3 gs3) as (H3 & G3 & L3 & W3); auto; [rewrite length_upd; auto | apply Forall_upd_wf; auto | |].
  { intros x' g' _ Ex' Eg'. rewrite nth_upd_same in Eg' by auto. injection Eg'; intros; subst. rewrite Eo in Ex'. injection Ex'; intros; subst; auto. }
  set (t2 := setGrad F (setInOut F t v2) gs3) in *. assert (Ti2 : trI t2) by (do 3 (split; [assumption|]); split; [exact L2|]; split; [exact W2|]; split; [exact L3|]; split; [exact W3|]; exact T8).
  apply bind_inv in E. destruct E as ([h4 t4] & E4 & E). destruct (optimize_rule _ _ _ _ H3 G3 Ti2 E4) as (H4 & Ti4 & os & Eos). pose proof Ti4 as (U1 & U2 & U3 & U4 & U5 & U6 & U7 & U8).
  apply bind_inv in E. destruct E as (o' & Eo' & E). apply bind_inv in E. destruct E as (t5 & E5 & E). injection E; intros; subst h4 t5. clear E. apply rget_nth in Eo'. rewrite U1 in Eo'. assert (tinOut F t4 = v2) by (rewrite Eos; reflexivity). assert (Q0 : o' = o) by congruence. subst o'.
  unfold onlineStats in E5. rewrite U2 in E5. apply bind_inv in E5. destruct E5 as (ml & Eml & E5). apply bind_inv in E5. destruct E5 as (s & Es & E5). cbv zeta in E5. assert (We : mwf (mempty F)) by reflexivity. destruct (S_loss _ _ _ _ _ _ _ (proj2 U3) Po Hy We Eml Es) as [Ss _].
  assert (R : exists g', t' = setOnline F t4 (fadd F (tonl F t4) s) g'). { destruct (negb _); [injection E5; intros <-; eexists; reflexivity|]. binp E5. injection E5; intros <-. eexists. reflexivity. }
  destruct R as (g' & ->). rewrite Eos in *. split; auto. split; [exact Ti4|]. do 3 (split; [reflexivity|]). exists s. split; auto.
Qed.
End Rule.
