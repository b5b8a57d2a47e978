(* NetProofs2.v - cloning layers, assigning networks *)
From Coq Require Import String List Arith Bool Lia ZArith FunctionalExtensionality.
From Verif Require Import Base Scalar Mat SpecMat MatFacts MatProofs MatProofs2 Act ActMono LayMat LayImg LayRnn LayKit LayConv1 Layer Net SpecNet NetRow NetProofs1.
Import ListNotations.
Local Open Scope nat_scope.

Section Net.
Variable F : FOps.
Notation M := (mat F).

Lemma mwf_empty : @mwf F (mempty F). Proof. reflexivity. Qed.
Lemma mresize_wf : forall (m : M) r c, mwf m -> mwf (mresize F m r c).
Proof. intros m r c H. destruct (mresize_gen F m r c H) as [f ->]. apply mwf_gen. Qed.
Lemma setRandom_ok : forall g (m : M), mwf m -> exists w, setRandom F g m = Ok w /\ mwf w /\ mrows w = mrows m /\ mcols w = mcols m.
Proof.
  intros g m H. rewrite (mwf_gen_d _ (fjunk F) m H). rewrite mgen_flat, setRandom_flat. eexists. split; [reflexivity|].
  split; [|split; reflexivity]. unfold mwf, mflat. simpl. rewrite map_length, seq_length. reflexivity.
Qed.
Lemma mscale_ok : forall (m : M) a, mwf m -> exists w, mscale F m a = Ok w /\ mwf w /\ mrows w = mrows m /\ mcols w = mcols m.
Proof.
  intros m a H. rewrite (mwf_gen_d _ (fjunk F) m H). unfold mscale. rewrite (@mapLoop_gen F). eexists. split; [reflexivity|].
  split; [apply mwf_gen|split; reflexivity].
Qed.
Lemma msetConst_ok : forall (m : M) a, mwf m -> exists w, msetConst F m a = Ok w /\ mwf w /\ mrows w = mrows m /\ mcols w = mcols m.
Proof.
  intros m a H. rewrite (mwf_gen_d _ (fjunk F) m H). unfold msetConst. rewrite (@mapLoop_gen F). eexists. split; [reflexivity|].
  split; [apply mwf_gen|split; reflexivity].
Qed.
Lemma initCompute_ok : forall name g (m : M) nI nO, mwf m -> exists w, initCompute F name g m nI nO = Ok w /\ mwf w.
Proof.
  intros name g m nI nO H. unfold initCompute.
  assert (A : exists w, setRandom F g (mresize F m nI nO) = Ok w /\ mwf w).
  { destruct (setRandom_ok g _ (mresize_wf m nI nO H)) as (w & E & W & _). eauto. }
  assert (B : forall a, exists w, (r <- setRandom F g (mresize F m nI nO) ;; mscale F r a) = Ok w /\ mwf w).
  { intro a. destruct A as (w & -> & W). cbn [bind]. destruct (mscale_ok w a W) as (w' & E' & W' & _). eauto. }
  repeat (match goal with |- context [(name =? ?s)%string] => destruct (name =? s)%string; [solve [apply A | apply B |
    unfold msetOnes; rewrite ?msetZero_gen, ?msetConstR_gen by auto; eexists; split; [reflexivity|apply mwf_gen]]|] end).
  eauto.
Qed.

(* objects with these constructor arguments can be built *)
Definition goodKind (k : kind F) : Prop :=
  match k with
  | KAct a => a <> None
  | KMaxPool p | KAvgPool p => poolOk p = Ok tt
  | KConv v _ => convOk v = Ok tt
  | KSimpleRnn _ _ | KSimplestRnn _ => False
  | _ => True
  end.
Lemma layNew_ok : forall r k wi bi, goodKind k ->
  exists n, layNew F r k wi bi = Ok n /\ lk n = k /\ lwi n = wi /\ lbi n = bi /\ ltrain n = false /\ lfirst n = false /\ lmem n = mempty F /\ mwf (lw n) /\ mwf (lb n).
Proof.
  intros r k wi bi G. unfold layNew, layCtor. pose proof mwf_empty as We.
  assert (I : forall name g (m : M) nI nO, mwf m -> exists w, initCompute F name g m nI nO = Ok w /\ mwf w) by (intros; apply initCompute_ok; auto).
  destruct k; cbn [goodKind] in G; try contradiction; cbn [layBase lk setP]; try rewrite G;
    try (destruct a as [a|]; [|congruence]; cbn [notNull assert_]);
    cbn [bind]; try rewrite lut_gen; cbn [bind]; unfold layInit; cbn [layBase lk setP setW setB setWB lwi lbi lw lb lgw lgb];
    try (eexists; split; [reflexivity|]; cbn; repeat split; auto; fail).
  - destruct ((nI =? 0) || (nO =? 0)); [eexists; split; [reflexivity|]; cbn; repeat split; auto|].
    destruct (I wi (rf r) (mempty F) nI nO We) as (w & -> & W). cbn [bind]. destruct (I bi (after F r (nI * nO)) (mempty F) 1 nO We) as (b & -> & B). cbn [bind].
    eexists; split; [reflexivity|]; cbn; repeat split; auto.
  - destruct ((nI =? 0) || (nO =? 0)); [eexists; split; [reflexivity|]; cbn; repeat split; auto|].
    destruct (I wi (rf r) (mempty F) nI nO We) as (w & -> & W). cbn [bind].
    eexists; split; [reflexivity|]; cbn; repeat split; auto.
  - destruct (I bi (rf r) (mempty F) 1 nH We) as (w & -> & W). cbn [bind]. eexists; split; [reflexivity|]; cbn; repeat split; auto.
  - destruct (I bi (rf r) (mempty F) 1 fs We) as (w & -> & W). cbn [bind]. eexists; split; [reflexivity|]; cbn; repeat split; auto.
  - destruct (I wi (rf r) (mempty F) fi fo We) as (w & -> & W). cbn [bind]. eexists; split; [reflexivity|]; cbn; repeat split; auto.
  - destruct (I wi (rf r) (mempty F) fi fo We) as (w & -> & W). cbn [bind]. destruct (I bi (after F r (fi * fo)) (mempty F) 1 fo We) as (b & -> & B). cbn [bind].
    eexists; split; [reflexivity|]; cbn; repeat split; auto.
  - cbv zeta. destruct (setRandom_ok (rf r) _ (mresize_wf (mempty F) (vO v) (vkr v * vkc v * vI v) We)) as (w & -> & W & _). cbn [bind].
    match goal with |- context [mscale F w ?a] => destruct (mscale_ok w a W) as (w' & -> & W' & _) end. cbn [bind].
    match goal with |- context [msetConst F ?m ?a] => destruct (msetConst_ok m a (mresize_wf _ _ _ We)) as (g' & -> & G' & _) end. cbn [bind].
    eexists; split; [reflexivity|]; cbn; repeat split; auto.
Qed.

Lemma det_good : forall l k m, detLayer F l k m -> goodKind (lk l).
Proof. intros l k m D. unfold detLayer in D. destruct (lk l); cbn [goodKind]; auto; try tauto; destruct D; tauto. Qed.
Lemma cloneKind_det : forall l k m, detLayer F l k m ->
  cloneKind F (lk l) = Ok (match lk l with KConv v _ => KConv v true | x => x end).
Proof.
  intros l k m D. unfold detLayer in D. destruct (lk l); try reflexivity.
  - destruct D as [_ D]. destruct a; [|congruence]. cbn. rewrite (proj2 (activations_complete _)). reflexivity.
  - destruct D as (_ & D1 & D2). destruct a1; [|congruence]. destruct a2; [|congruence]. cbn. rewrite !(proj2 (activations_complete _)). reflexivity.
Qed.

(* the clone of a deterministic layer computes the same rows *)
Lemma clone_det : forall r l k m, detLayer F l k m ->
  exists c, layClone F r l = Ok c /\ detLayer F c k m /\ rowFun F c k = rowFun F l k /\ ltrain c = false.
Proof.
  intros r l k m D. unfold layClone. rewrite (cloneKind_det _ _ _ D). cbn [bind].
  set (k' := match lk l with KConv v _ => KConv v true | x => x end).
  assert (G : goodKind k'). { unfold k'. pose proof (det_good _ _ _ D) as G. destruct (lk l); auto. }
  destruct (layNew_ok r k' (match lk l with KDot _ _ => "GlorotUniform"%string | _ => lwi l end) (lbi l) G) as (n & En & N1 & N2 & N3 & N4 & N5 & N6 & N7 & N8).
  rewrite En. cbn [bind]. eexists. split; [reflexivity|]. unfold detLayer in *. subst k'.
  destruct (lk l) eqn:K; try contradiction; (split; [|split]); cbn; rewrite ?N1, ?N3, ?N4, ?N6; auto; try tauto;
    try (extensionality x; extensionality j; unfold rowFun; cbn; rewrite ?N1, ?K; reflexivity).
  - destruct D as (D1 & D2 & D3 & D4 & D5). repeat split; auto; apply D4.
Qed.

(** * assignment *)
Lemma forL_free : forall ls (h : heap F), NoDup ls -> (forall a, In a ls -> exists l, hget F h a = Ok l) ->
  exists h', forL ls (fun a h => hfree F h a) h = Ok h' /\ length h' = length h /\
    (forall a, In a ls -> hget F h' a = Err EFree) /\ (forall a, ~ In a ls -> nth_error h' a = nth_error h a).
Proof.
  induction ls as [|a r IH]; intros h Hd Hl.
  - exists h. simpl. repeat split; auto. tauto.
  - inversion Hd as [|? ? H1 H2]; subst. destruct (Hl a (or_introl eq_refl)) as [l El]. pose proof (hget_lt _ _ _ _ El) as La.
    assert (Ef : hfree F h a = Ok (upd h a None)). { unfold hfree. rewrite El. cbn [bind]. unfold rset. apply Nat.ltb_lt in La. rewrite La. reflexivity. }
    destruct (IH (upd h a None) H2) as (h' & E & L & A & B).
    { intros b Hb. destruct (Hl b (or_intror Hb)) as [lb Eb]. exists lb. apply hget_ok. rewrite nth_error_upd. destruct (Nat.eqb_spec a b); [subst; contradiction|]. apply hget_ok. auto. }
    exists h'. cbn [forL]. rewrite Ef. cbn [bind]. split; auto. split; [rewrite L; apply length_upd|]. split.
    + intros b [<-|Hb]; auto. unfold hget, rget. rewrite B by auto. rewrite nth_error_upd, Nat.eqb_refl. apply Nat.ltb_lt in La. rewrite La. reflexivity.
    + intros b Hb. simpl in Hb. rewrite B by tauto. rewrite nth_error_upd. destruct (Nat.eqb_spec a b); [tauto|reflexivity].
Qed.

Lemma hget_app : forall (h h2 : heap F) a l, hget F h a = Ok l -> hget F (h ++ h2) a = Ok l.
Proof. intros h h2 a l H. apply hget_ok. apply hget_ok in H. rewrite nth_error_app1; auto. apply nth_error_Some. congruence. Qed.

Lemma chain_live : forall h ls k m g, chainRow F h ls k m g -> forall a, In a ls -> exists l, hget F h a = Ok l.
Proof.
  intros h. induction ls as [|x r IH]; intros k m g H a Ha; [destruct Ha|]. simpl in H. destruct H as (l & q & g2 & A & B & C & D).
  destruct Ha as [<-|Ha]; eauto.
Qed.

(* cloning the layers of a chain onto the end of the heap *)
Lemma push_chain : forall rs src ls off h acc k m g, (forall i, i < length ls -> nth_error src (off + i) = nth_error ls i) ->
  chainRow F h ls k m g ->
  exists cs, forL (seq off (length ls)) (pushClone F rs src) (h, acc) = Ok (h ++ cs, acc ++ seq (length h) (length ls)) /\ length cs = length ls /\
    chainRow F (h ++ cs) (seq (length h) (length ls)) k m g.
Proof.
  intros rs src. induction ls as [|a r IH]; intros off h acc k m g Hn Hc.
  - exists []. simpl. rewrite !app_nil_r. destruct Hc. repeat split; auto.
  - simpl in Hc. destruct Hc as (l & p & g' & H1 & H2 & H3 & H4).
    destruct (clone_det (rs off) l k p H2) as (c & Ec & Dc & Rc & _).
    destruct (IH (S off) (h ++ [Some c]) (acc ++ [length h]) p m g') as (cs & E & L & C).
    { intros i Hi. replace (S off + i) with (off + S i) by lia. rewrite Hn by (simpl; lia). reflexivity. }
    { apply (chainRow_frame F h); auto. intros b Hb. 
      destruct (chain_live _ _ _ _ _ H4 b Hb) as [lb Eb].
      rewrite Eb. apply hget_app. auto. }
    exists (Some c :: cs). rewrite app_length in *. simpl length in *. rewrite Nat.add_1_r in *. rewrite <- !app_assoc in *. simpl in E, C |- *.
    split; [|split; [lia|]].
    + unfold pushClone at 1. assert (N : rget src off = Ok a). { unfold rget. specialize (Hn 0). rewrite Nat.add_0_r in Hn. rewrite Hn by lia. reflexivity. }
      rewrite N. cbn [bind fst snd]. rewrite H1. cbn [bind]. rewrite Ec. cbn [bind]. exact E.
    + exists c, p, g'. split; [|split; [|split]]; auto.
      * apply hget_ok. rewrite nth_error_app2, Nat.sub_diag by lia. reflexivity.
      * rewrite Rc. auto.
Qed.

(** C17 *)
Lemma assign_det : forall rs h a b k m g, liveNet F h a -> NoDup (nlay b) -> chainRow F h (nlay b) k m g -> (forall x, In x (nlay a) -> ~ In x (nlay b)) ->
  exists h' a', netAssign F false rs h a b = Ok (h', a') /\ nclass a' = nclass b /\ length (nlay a') = length (nlay b) /\
    chainRow F h' (nlay a') k m g /\ NoDup (nlay a') /\ (forall x, In x (nlay a') -> length h <= x) /\
    (forall x, In x (nlay a) -> hget F h' x = Err EFree) /\
    (forall x, x < length h -> ~ In x (nlay a) -> nth_error h' x = nth_error h x).
Proof.
  intros rs h a b k m g [Ha1 Ha2] Hb Hc Hdis. unfold netAssign, netClear.
  destruct (forL_free (nlay a) h Ha1 Ha2) as (h1 & E1 & L1 & A1 & B1). rewrite E1. cbn [bind nlay].
  assert (C1 : chainRow F h1 (nlay b) k m g).
  { apply (chainRow_frame F h); auto. intros x Hx. unfold hget, rget. rewrite B1; auto. intro Q. apply (Hdis x); auto. }
  destruct (push_chain rs (nlay b) (nlay b) 0 h1 [] k m g) as (cs & E2 & L2 & C2); auto.
  unfold forN. rewrite E2. cbn [bind]. eexists _, _. split; [reflexivity|]. cbn [nlay nclass]. simpl app. rewrite L1 in *.
  split; auto. split; [apply seq_length|]. split; auto. split; [apply seq_NoDup|]. split; [intros x Hx; apply in_seq in Hx; lia|]. split.
  - intros x Hx. specialize (A1 x Hx). unfold hget, rget in *. destruct (Ha2 x Hx) as [lx Ex]. pose proof (hget_lt _ _ _ _ Ex). rewrite nth_error_app1 by lia. exact A1.
  - intros x Hx Nx. rewrite nth_error_app1 by lia. apply B1; auto.
Qed.

(* whatever the layers: predict changes only the objects of its own network *)
Lemma predict_frame : forall rs h n x out h' o, predict F rs h n x out = Ok (h', o) ->
  length h' = length h /\ forall a, ~ In a (nlay n) -> nth_error h' a = nth_error h a.
Proof.
  intros rs h n x out h' o E. unfold predict in E. apply bind_inv in E. destruct E as ([[h2 y] z] & E & Q). inversion Q; subst. clear Q.
  revert E. unfold forN.
  assert (G : forall idx h x out, forL idx (predBody F rs n) (h, x, out) = Ok (h', y, o) -> length h' = length h /\ (forall a, ~ In a (nlay n) -> nth_error h' a = nth_error h a)).
  { induction idx as [|i idx IH]; intros h0 x0 out0 E.
    - simpl in E. inversion E; subst. auto.
    - cbn [forL] in E. apply bind_inv in E. destruct E as ([[h1 y1] z1] & E1 & E2). unfold predBody in E1. apply bind_inv in E1. destruct E1 as ([h3 o3] & E1 & Q). inversion Q; subst. clear Q.
      unfold fwdLayer in E1. apply bind_inv in E1. destruct E1 as (a & Ea & E1). apply bind_inv in E1. destruct E1 as (l & El & E1).
      apply bind_inv in E1. destruct E1 as ([l' o'] & Ef & E1). apply bind_inv in E1. destruct E1 as (h4 & Eh & E1). inversion E1; subst. clear E1.
      rewrite (hset_ok _ _ _ _ _ El) in Eh. inversion Eh; subst. clear Eh. destruct (IH _ _ _ E2) as [I1 I2]. rewrite length_upd in I1. split; auto.
      intros b Hb. rewrite I2 by auto. rewrite nth_error_upd. destruct (Nat.eqb_spec a b); auto. subst. exfalso. apply Hb.
      unfold rget in Ea. destruct (nth_error (nlay n) i) eqn:N; inversion Ea; subst. apply nth_error_In in N. auto. }
  apply G.
Qed.
Lemma netClear_frame : forall h n h' n', netClear F h n = Ok (h', n') -> length h' = length h /\ forall a, ~ In a (nlay n) -> nth_error h' a = nth_error h a.
Proof.
  intros h n h' n' E. unfold netClear in E. apply bind_inv in E. destruct E as (h1 & E & Q). inversion Q; subst. clear Q. revert h E. 
  generalize (nlay n). induction l as [|x r IH]; intros h E; simpl in E; [inversion E; auto|]. apply bind_inv in E. destruct E as (h1 & E1 & E2).
  unfold hfree in E1. apply bind_inv in E1. destruct E1 as (l & El & E1). unfold rset in E1. destruct (x <? length h) eqn:L; [|discriminate]. inversion E1; subst.
  destruct (IH _ E2) as [I1 I2]. rewrite length_upd in I1. split; auto. intros a Ha. simpl in Ha. rewrite I2 by tauto. rewrite nth_error_upd. destruct (Nat.eqb_spec x a); [tauto|reflexivity].
Qed.
Lemma netSetTrain_frame : forall h n v h' n', netSetTrain F h n v = Ok (h', n') -> nlay n' = nlay n /\ nclass n' = nclass n /\ length h' = length h /\ forall a, ~ In a (nlay n) -> nth_error h' a = nth_error h a.
Proof.
  intros h n v h' n' E. unfold netSetTrain in E. apply bind_inv in E. destruct E as (h1 & E & Q). inversion Q; subst. clear Q. cbn [nlay nclass]. split; auto. split; auto. revert h E. 
  generalize (nlay n). induction l as [|x r IH]; intros h E; simpl in E; [inversion E; auto|]. apply bind_inv in E. destruct E as (h1 & E1 & E2).
  apply bind_inv in E1. destruct E1 as (l & El & E1). rewrite (hset_ok _ _ _ _ _ El) in E1. inversion E1; subst.
  destruct (IH _ E2) as [I1 I2]. rewrite length_upd in I1. split; auto. intros a Ha. simpl in Ha. rewrite I2 by tauto. rewrite nth_error_upd. destruct (Nat.eqb_spec x a); [tauto|reflexivity].
Qed.

Theorem assign_equal : forall rs rs1 rs2 h a b k m nb X out, liveNet F h a -> detNet F h b k m -> (forall x, In x (nlay a) -> ~ In x (nlay b)) -> mwf out ->
  exists h' a' h1 h2 Y, netAssign F false rs h a b = Ok (h', a') /\ nclass a' = nclass b /\ detNet F h' a' k m /\
    (forall x, In x (nlay b) -> nth_error h' x = nth_error h x /\ ~ In x (nlay a')) /\
    predict F rs1 h' a' (mgen nb k X) out = Ok (h1, mgen nb m Y) /\ predict F rs2 h b (mgen nb k X) out = Ok (h2, mgen nb m Y).
Proof.
  intros rs rs1 rs2 h a b k m nb X out La (Hne & Hd & Hc) Hdis Ho. apply chainRow_det in Hc. destruct Hc as [g Hc].
  destruct (assign_det rs h a b k m g La Hd Hc Hdis) as (h' & a' & E & C1 & C2 & C3 & C4 & C5 & C6 & C7).
  assert (Hne' : nlay a' <> []). { intro Q. rewrite Q in C2. destruct (nlay b); simpl in C2; [congruence|discriminate]. }
  destruct (predict_row F rs1 h' a' k m g nb X out Hne' C4 C3 Ho) as (h1 & E1 & _).
  destruct (predict_row F rs2 h b k m g nb X out Hne Hd Hc Ho) as (h2 & E2 & _).
  exists h', a', h1, h2, (fun i => g (X i)). split; auto. split; auto. split; [repeat split; auto; apply chainRow_det; eauto|]. split; auto.
  intros x Hx. destruct (chain_live _ _ _ _ _ Hc x Hx) as [lx Ex]. pose proof (hget_lt _ _ _ _ Ex) as Lx. split.
  - apply C7; auto. intro Q. apply (Hdis x); auto.
  - intro Q. apply C5 in Q. lia.
Qed.

(* after a = b nothing done to one network changes what the other predicts: predicting with or destroying a' keeps b, and conversely *)
Theorem assign_independent : forall rs h a b k m, liveNet F h a -> detNet F h b k m -> (forall x, In x (nlay a) -> ~ In x (nlay b)) ->
  exists h' a', netAssign F false rs h a b = Ok (h', a') /\
  (forall h2, (forall x, ~ In x (nlay a') -> nth_error h2 x = nth_error h' x) -> forall rs1 nb X out, mwf out ->
     exists h3 h4 Y, predict F rs1 h2 b (mgen nb k X) out = Ok (h3, mgen nb m Y) /\ predict F rs1 h b (mgen nb k X) out = Ok (h4, mgen nb m Y)) /\
  (forall h2, (forall x, ~ In x (nlay b) -> nth_error h2 x = nth_error h' x) -> forall rs1 nb X out, mwf out ->
     exists h3 h4 Y, predict F rs1 h2 a' (mgen nb k X) out = Ok (h3, mgen nb m Y) /\ predict F rs1 h b (mgen nb k X) out = Ok (h4, mgen nb m Y)).
Proof.
  intros rs h a b k m La (Hne & Hd & Hc) Hdis. apply chainRow_det in Hc. destruct Hc as [g Hc].
  destruct (assign_det rs h a b k m g La Hd Hc Hdis) as (h' & a' & E & C1 & C2 & C3 & C4 & C5 & C6 & C7).
  assert (Hne' : nlay a' <> []). { intro Q. rewrite Q in C2. destruct (nlay b); simpl in C2; [congruence|discriminate]. }
  assert (Sep : forall x, In x (nlay b) -> ~ In x (nlay a') /\ nth_error h' x = nth_error h x).
  { intros x Hx. destruct (chain_live _ _ _ _ _ Hc x Hx) as [lx Ex]. pose proof (hget_lt _ _ _ _ Ex) as Lx. split; [intro Q; apply C5 in Q; lia|].
    apply C7; auto. intro Q. apply (Hdis x); auto. }
  exists h', a'. split; auto. split; intros h2 Fr rs1 nb X out Ho.
  - assert (Cb : chainRow F h2 (nlay b) k m g).
    { apply (chainRow_frame F h); auto. intros x Hx. destruct (Sep x Hx) as [S1 S2]. unfold hget, rget. rewrite Fr by auto. rewrite S2. reflexivity. }
    destruct (predict_row F rs1 h2 b k m g nb X out Hne Hd Cb Ho) as (h3 & E3 & _).
    destruct (predict_row F rs1 h b k m g nb X out Hne Hd Hc Ho) as (h4 & E4 & _). exists h3, h4, (fun i => g (X i)). auto.
  - assert (Ca : chainRow F h2 (nlay a') k m g).
    { apply (chainRow_frame F h'); auto. intros x Hx. assert (~ In x (nlay b)) by (intro Q; destruct (Sep x Q); auto). unfold hget, rget. rewrite Fr by auto. reflexivity. }
    destruct (predict_row F rs1 h2 a' k m g nb X out Hne' C4 Ca Ho) as (h3 & E3 & _).
    destruct (predict_row F rs1 h b k m g nb X out Hne Hd Hc Ho) as (h4 & E4 & _). exists h3, h4, (fun i => g (X i)). auto.
Qed.

(* a = a: the network loses its layers *)
Theorem self_assign_empties : forall rs h a, liveNet F h a ->
  exists h', netAssign F true rs h a a = Ok (h', mkNet [] (nclass a) false) /\ forall x, In x (nlay a) -> hget F h' x = Err EFree.
Proof.
  intros rs h a [H1 H2]. unfold netAssign, netClear. destruct (forL_free (nlay a) h H1 H2) as (h1 & E1 & L1 & A1 & B1). rewrite E1. cbn [bind nlay].
  simpl forN. exists h1. unfold forN. simpl. auto.
Qed.
End Net.
