(* HeapProofs7.v - copies are independent, views are windows *)
From Coq Require Import List Arith Bool Lia.
From Verif Require Import Base Scalar Mat SpecMat MatProofs MatFacts MatHeap SpecHeap HeapProofs1 HeapProofs2 HeapProofs3 HeapProofs4 HeapProofs5 HeapProofs6.
Import ListNotations.
Local Open Scope nat_scope.

Section Heap.
Variable F : FOps.
Notation amem := (amem F). Notation mem := (mem F). Notation aobj := (aobj F).
Notation AOwn := (AOwn F). Notation AView := (AView F). Notation aO := (aO F). Notation aN := (aN F). Notation mO := (mO F). Notation mB := (mB F).
Notation Rel := (Rel F). Notation own := (own F). Notation areg := (areg F).
Notation arows := (arows F). Notation acols := (acols F). Notation aid := (aid F). Notation aoff := (aoff F). Notation asize := (asize F). Notation aget := (aget F).

Lemma reach_rel : forall a m, reach F a m -> exists be, Rel be a m.
Proof. intros a m (ps & H & E). destruct (run_start F ps a H) as (m' & be & E' & R). rewrite E in E'. inversion E'; subst. eauto. Qed.
Lemma arun_app : forall ps qs a, arun F a (ps ++ qs) = match arun F a ps with Some b => arun F b qs | None => None end.
Proof. induction ps as [|p ps IH]; intros qs a; cbn [app arun]; auto. destruct (aexec F a p); auto. Qed.
Lemma run_app : forall ps qs m, run F m (ps ++ qs) = (m <- run F m ps ;; run F m qs).
Proof. induction ps as [|p ps IH]; intros qs m; cbn [app]; auto. unfold run in *. cbn [forL]. destruct (exec F m p); cbn [bind]; auto. Qed.
Lemma reach_run : forall a m qs a', reach F a m -> arun F a qs = Some a' -> exists m', run F m qs = Ok m' /\ reach F a' m'.
Proof.
  intros a m qs a' (ps & H & E) Hq. assert (Hp : arun F (astart F) (ps ++ qs) = Some a') by (rewrite arun_app, H; auto).
  destruct (run_start F _ _ Hp) as (m' & be & E' & _). exists m'. split; [rewrite run_app, E in E'; exact E'|]. exists (ps ++ qs). auto.
Qed.
Lemma reach_exec : forall a m p a', reach F a m -> aexec F a p = Some a' -> exists m', exec F m p = Ok m' /\ reach F a' m'.
Proof.
  intros a m p a' R H. destruct (reach_run a m [p] a' R) as (m' & E & R'); [cbn; rewrite H; auto|]. exists m'. split; auto.
  unfold run in E. cbn [forL] in E. destruct (exec F m p); cbn [bind] in E; auto.
Qed.
Lemma reach_shows : forall a m v o xs, reach F a m -> aget a v = Some o -> acells F a v = Some xs -> shows F m v (arows o) (acols o) xs.
Proof. intros a m v o xs R. destruct (reach_rel _ _ R) as (be & R'). apply (rel_shows F be); auto. Qed.

(** * frame *)
Definition Same (id : nat) (a a' : amem) : Prop := forall u ou, aid ou = id -> (aget a' u = Some ou <-> aget a u = Some ou).
Lemma same_app : forall id n a o, match o with Some o => aid o <> id | None => True end -> Same id a (mkA F n (aO a ++ [o])).
Proof.
  intros id n a o Ho u ou Hi. rewrite !aget_nth. cbn. rewrite nth_app_last. destruct (Nat.eqb_spec u (length (aO a))) as [->|]; [|tauto].
  split; intro X; [inversion X; subst; congruence|]. apply nth_lt in X. lia.
Qed.
Lemma same_upd : forall id n a v o x, aget a v = Some o -> aid o <> id -> match x with Some o => aid o <> id | None => True end -> Same id a (mkA F n (upd (aO a) v x)).
Proof.
  intros id n a v o x H Ho Hx u ou Hi. rewrite !aget_nth. cbn. apply aget_nth in H. split; intro X.
  - apply nth_upd_cases in X. destruct X as [(_ & X & _)|(_ & X)]; auto. subst x. congruence.
  - rewrite nth_upd_ne; auto. intros <-. congruence.
Qed.
Lemma same_write : forall id a o xs a', awrite F a o xs = Some a' -> aid o <> id -> Same id a a'.
Proof.
  intros id a o xs a' H Ho u ou Hi. unfold awrite in H. destruct (asize o =? 0); [inversion H; tauto|]. destruct (region F a (aid o)) as [d|]; [|discriminate]. inversion H; subst a'.
  rewrite !aget_nth. cbn. rewrite nth_error_map. destruct (nth_error (aO a) u) as [[q|]|]; cbn; [|tauto|tauto]. destruct q as [i r c e|]; cbn; [|tauto].
  destruct (Nat.eqb_spec i (aid o)) as [->|]; [|tauto]. split; intro X; inversion X; subst; cbn in *; congruence.
Qed.
Lemma same_trans : forall id a b c, Same id a b -> Same id b c -> Same id a c.
Proof. intros id a b c H1 H2 u ou Hi. rewrite (H2 u ou Hi). apply H1; auto. Qed.
Lemma aexec_N : forall a p a', aexec F a p = Some a' -> aN a <= aN a'.
Proof.
  intros a p a' H.
  assert (W : forall b o xs b', awrite F b o xs = Some b' -> aN b' = aN b).
  { intros b o xs b' E. unfold awrite in E. destruct (asize o =? 0); [inversion E; auto|]. destruct (region F b (aid o)); [|discriminate]. inversion E; auto. }
  assert (V : forall b v off r c b', aview F b v off r c = Some b' -> aN b' = aN b).
  { intros b v off r c b' E. unfold aview in E. destruct (aget b v); [|discriminate]. inversion E; auto. }
  destruct p; cbn [aexec] in H;
    repeat match type of H with
    | match ?x with _ => _ end = _ => destruct x eqn:?; try discriminate
    end; try (inversion H; subst; cbn; lia); try (apply W in H; cbn in H; lia); try (apply V in H; lia).
  all: inversion H; destruct (_ =? _); cbn; lia.
Qed.
Lemma frame_step : forall be a m p a' id, Rel be a m -> aexec F a p = Some a' -> id < aN a ->
  (forall u ou, aget a u = Some ou -> aid ou = id -> touches F p u = false) -> Same id a a'.
Proof.
  intros be a m p a' id R H Hi Ht.
  assert (Tc : forall u ou, aget a u = Some ou -> touches F p u = true -> aid ou <> id) by (intros u ou G T E; rewrite (Ht u ou G E) in T; discriminate).
  assert (V : forall v off r c, (forall u, touches F p u = (v =? u)) -> aview F a v off r c = Some a' -> Same id a a').
  { intros v off r c T E. unfold aview in E. destruct (aget a v) as [o|] eqn:G; [|discriminate]. inversion E; subst. apply (same_app id (aN a) a (Some (AView (aid o) (aoff o + off) r c))).
    cbn. apply (Tc v o G). rewrite T, Nat.eqb_refl. auto. }
  destruct p as [|r c|v|v|v r c|d s|v x|v i x|f v|f d s|d s|v i|v n|v s e|v|v r c]; cbn [aexec] in H; cbn [touches] in Tc, V.
  - inversion H; subst. apply (same_app id (S (aN a)) a (Some (AOwn (aN a) 0 0 []))). cbn. lia.
  - inversion H; subst. apply (same_app id (S (aN a)) a (Some (AOwn (aN a) r c (repeat (fjunk F) (r * c))))). cbn. lia.
  - destruct (aget a v) as [o|] eqn:G; [|discriminate]. destruct (acells F a v) as [d|]; [|discriminate]. inversion H; subst. apply (same_app id (S (aN a)) a (Some (AOwn (aN a) (arows o) (acols o) d))). cbn. lia.
  - destruct (aget a v) as [o|] eqn:G; [|discriminate]. inversion H; subst. eapply same_upd; eauto. eapply Tc; eauto. apply Nat.eqb_refl.
  - destruct (aget a v) as [o|] eqn:G; [|discriminate]. inversion H; subst. assert (No : aid o <> id) by (eapply Tc; eauto; apply Nat.eqb_refl).
    destruct (_ =? _); eapply same_upd; eauto; [rewrite reshape_id; auto|cbn; lia].
  - destruct (aget a d) as [od|] eqn:G; [|discriminate]. destruct (aget a s) as [os|] eqn:Gs; [|discriminate]. destruct (acells F a s) as [xs|]; [|discriminate].
    assert (No : aid od <> id) by (eapply Tc; eauto; apply Nat.eqb_refl). destruct (_ =? _).
    + destruct (clear_ F od os (asize od)); [|discriminate]. eapply same_trans; [eapply (same_upd id (aN a) a d od (Some (reshape F od (arows os) (acols os)))); eauto; rewrite reshape_id; auto|].
      eapply same_write; eauto. rewrite reshape_id; auto.
    + destruct (_ && _ && _); [discriminate|]. inversion H; subst. eapply same_upd; eauto. cbn. lia.
  - destruct (aget a v) as [o|] eqn:G; [|discriminate]. eapply same_write; eauto. eapply Tc; eauto; apply Nat.eqb_refl.
  - destruct (aget a v) as [o|] eqn:G; [|discriminate]. destruct (acells F a v); [|discriminate]. destruct (_ <? _); [|discriminate]. eapply same_write; eauto. eapply Tc; eauto; apply Nat.eqb_refl.
  - destruct (aget a v) as [o|] eqn:G; [|discriminate]. destruct (acells F a v); [|discriminate]. eapply same_write; eauto. eapply Tc; eauto; apply Nat.eqb_refl.
  - destruct (aget a d) as [o|] eqn:G; [|discriminate]. destruct (aget a s); [|discriminate]. destruct (acells F a d); [|discriminate]. destruct (acells F a s); [|discriminate]. destruct (_ && _ && _); [|discriminate].
    eapply same_write; eauto. eapply Tc; eauto; apply Nat.eqb_refl.
  - destruct (aget a d) as [od|] eqn:G; [|discriminate]. destruct (aget a s) as [os|] eqn:Gs; [|discriminate]. destruct (acells F a d); [|discriminate]. destruct (acells F a s); [|discriminate]. destruct (_ && _); [|discriminate].
    destruct (mmul F _ _) as [p|]; [|discriminate]. cbv zeta in H. assert (No : aid od <> id) by (eapply Tc; eauto; apply Nat.eqb_refl).
    assert (S1 : Same id a (mkA F (S (aN a)) (aO a ++ [None]))) by (apply (same_app id (S (aN a)) a None); auto).
    assert (G1 : aget (mkA F (S (aN a)) (aO a ++ [None])) d = Some od) by (destruct a as [n l']; eapply aget_app; eauto).
    eapply same_trans; [exact S1|]. destruct (_ =? _).
    + eapply same_trans; [eapply (same_upd id (S (aN a)) _ d od (Some (reshape F od (arows od) (acols os)))); eauto; rewrite reshape_id; auto|]. eapply same_write; eauto. rewrite reshape_id; auto.
    + inversion H; subst. eapply same_upd; eauto. cbn. lia.
  - destruct (aget a v) as [o|]; [|discriminate]. destruct (_ <? _); [|discriminate]. eapply V; eauto.
  - destruct (aget a v) as [o|]; [|discriminate]. destruct (_ <? _); [|discriminate]. eapply V; eauto.
  - destruct (aget a v) as [o|]; [|discriminate]. destruct (_ && _); [|discriminate]. eapply V; eauto.
  - destruct (aget a v) as [o|]; [|discriminate]. eapply V; eauto.
  - destruct (aget a v) as [o|]; [|discriminate]. destruct (_ =? _); [|discriminate]. eapply V; eauto.
Qed.
Lemma frame_run : forall ps be a m a' id, Rel be a m -> arun F a ps = Some a' -> id < aN a ->
  (forall p u ou, In p ps -> aget a u = Some ou -> aid ou = id -> touches F p u = false) -> Same id a a'.
Proof.
  induction ps as [|p ps IH]; intros be a m a' id R H Hi Ht; cbn [arun] in H.
  - inversion H; subst. intros u ou _. tauto.
  - destruct (aexec F a p) as [b|] eqn:E; [|discriminate]. assert (S1 : Same id a b) by (eapply frame_step; eauto; intros; eapply Ht; eauto; left; auto).
    destruct (exec_rel F be a m p b R E) as (m1 & be1 & _ & R1). eapply same_trans; [exact S1|]. eapply (IH be1 b m1); eauto.
    + pose proof (aexec_N a p b E). lia.
    + intros q u ou Hq G Ei. eapply Ht; eauto; [right; auto|]. apply S1; auto.
Qed.
Lemma same_cells : forall be a m be' a' m' v o xs, Rel be a m -> Rel be' a' m' -> Same (aid o) a a' -> aget a v = Some o -> acells F a v = Some xs -> aget a' v = Some o /\ acells F a' v = Some xs.
Proof.
  intros be a m be' a' m' v o xs R R' S G Hx. assert (G' : aget a' v = Some o) by (apply S; auto). split; auto. eapply acells_ext with (a := a); eauto.
  intros _ d (w & r & c & Hw). exists w, r, c. apply aget_nth. apply S; auto. apply aget_nth; auto.
Qed.
(* C03: an object keeps its cells as long as no object on its storage is touched *)
Theorem untouched_keeps : forall a m v o xs qs a', reach F a m -> aget a v = Some o -> acells F a v = Some xs -> arun F a qs = Some a' ->
  (forall p u, In p qs -> shares F a u v -> touches F p u = false) ->
  exists m', run F m qs = Ok m' /\ shows F m v (arows o) (acols o) xs /\ shows F m' v (arows o) (acols o) xs.
Proof.
  intros a m v o xs qs a' Rc G Hx Hq Ht. destruct (reach_rel _ _ Rc) as (be & R). destruct (reach_run _ _ _ _ Rc Hq) as (m' & E & Rc'). destruct (reach_rel _ _ Rc') as (be' & R').
  exists m'. split; auto. split; [eapply rel_shows; eauto|]. destruct (obj_rel F _ _ _ _ _ R G) as (Hi & _).
  destruct (same_cells be a m be' a' m' v o xs) as [G' Hx']; auto; [|eapply rel_shows; eauto].
  eapply frame_run; eauto. intros p u ou Hp Gu Ei. apply Ht; auto. exists ou, o. auto.
Qed.
Theorem copy_independent : forall a m v a1 qs a2, reach F a m -> aexec F a (OpCopy F v) = Some a1 -> arun F a1 qs = Some a2 ->
  let w := length (aO a) in (forall p, In p qs -> touches F p w = false) ->
  exists r c xs m1 m2, shows F m v r c xs /\ exec F m (OpCopy F v) = Ok m1 /\ shows F m1 w r c xs /\ run F m1 qs = Ok m2 /\ shows F m2 w r c xs.
Proof.
  intros a m v a1 qs a2 Rc H1 Hq w Ht. destruct (reach_exec _ _ _ _ Rc H1) as (m1 & E1 & Rc1). cbn [aexec] in H1. destruct (aget a v) as [o|] eqn:G; [|discriminate].
  destruct (acells F a v) as [xs|] eqn:Hx; [|discriminate]. inversion H1; subst a1. clear H1. destruct (reach_rel _ _ Rc) as (be & R). destruct (reach_rel _ _ Rc1) as (be1 & R1).
  set (ow := AOwn (aN a) (arows o) (acols o) xs). assert (Gw : aget (aown F a (arows o) (acols o) xs) w = Some ow) by (apply aget_nth; cbn; unfold w; rewrite nth_app_last, Nat.eqb_refl; auto).
  pose proof (nv_cells F _ _ _ _ _ _ _ _ R1 Gw) as Hw.
  destruct (untouched_keeps _ _ w ow xs qs a2 Rc1 Gw Hw Hq) as (m2 & E2 & S1 & S2).
  - intros p u Hp (ou & ow' & Gu & Gw' & Ei). rewrite Gw in Gw'. inversion Gw'; subst ow'. apply aget_nth in Gu. cbn in Gu. rewrite nth_app_last in Gu.
    destruct (Nat.eqb_spec u (length (aO a))) as [->|]; [apply Ht; auto|]. apply aget_nth in Gu. destruct (obj_rel F _ _ _ _ _ R Gu) as (Hi & _). cbn in Ei. lia.
  - exists (arows o), (acols o), xs, m1, m2. split; [eapply rel_shows; eauto|]. auto.
Qed.
(* and the original does not depend on the copy: the copy is on another storage *)
Theorem copy_not_shared : forall a m v a1, reach F a m -> aexec F a (OpCopy F v) = Some a1 -> ~ shares F a1 (length (aO a)) v /\ forall u, shares F a1 u (length (aO a)) -> u = length (aO a).
Proof.
  intros a m v a1 Rc H. destruct (reach_rel _ _ Rc) as (be & R). cbn [aexec] in H. destruct (aget a v) as [o|] eqn:G; [|discriminate]. destruct (acells F a v) as [xs|]; [|discriminate]. inversion H; subst a1.
  assert (Gw : aget (aown F a (arows o) (acols o) xs) (length (aO a)) = Some (AOwn (aN a) (arows o) (acols o) xs)) by (apply aget_nth; cbn; rewrite nth_app_last, Nat.eqb_refl; auto).
  assert (K : forall u, shares F (aown F a (arows o) (acols o) xs) u (length (aO a)) -> u = length (aO a)).
  { intros u (ou & ow & Gu & Gw' & Ei). rewrite Gw in Gw'. inversion Gw'; subst ow. apply aget_nth in Gu. cbn in Gu. rewrite nth_app_last in Gu.
    destruct (Nat.eqb_spec u (length (aO a))); auto. apply aget_nth in Gu. destruct (obj_rel F _ _ _ _ _ R Gu) as (Hi & _). cbn in Ei. lia. }
  split; auto. intros (ou & ov & Gu & Gv & Ei). assert (X : v = length (aO a)) by (apply K; exists ov, ou; auto). pose proof (aget_lt F _ _ _ G). lia.
Qed.

(** * views *)
Lemma win_cells : forall be a m w v off xs, Rel be a m -> isWin F a w v off -> acells F a v = Some xs -> exists ow, aget a w = Some ow /\ acells F a w = Some (firstn (asize ow) (skipn off xs)).
Proof.
  intros be a m w v off xs R (ow & ov & Gw & Gv & Ei & Eo & Hs) Hx. exists ow. split; auto. unfold acells, cellsOf in *. rewrite Gw. rewrite Gv in Hx.
  destruct (Nat.eqb_spec (asize ow) 0) as [E|N]; [rewrite E; auto|]. destruct (Nat.eqb_spec (asize ov) 0); [lia|]. rewrite Ei. destruct (region F a (aid ov)) as [d|] eqn:Er; [|discriminate].
  inversion Hx; subst xs. f_equal. apply list_ext. intro i. rewrite !nth_firstn, !nth_skipn, nth_firstn, nth_skipn, Eo. destruct (Nat.ltb_spec i (asize ow)); auto.
  destruct (Nat.ltb_spec (off + i) (asize ov)); [f_equal; lia|lia].
Qed.
Theorem view_is_window : forall a m p v o off r c a' xs, reach F a m -> aget a v = Some o -> acells F a v = Some xs -> window F p (arows o) (acols o) = Some (v, off, r, c) -> aexec F a p = Some a' ->
  let w := length (aO a) in exists m', exec F m p = Ok m' /\ isWin F a' w v off /\ shows F m' w r c (firstn (r * c) (skipn off xs)) /\ shows F m' v (arows o) (acols o) xs.
Proof.
  intros a m p v o off r c a' xs Rc G Hx Hw Ha w. destruct (reach_exec _ _ _ _ Rc Ha) as (m' & E & Rc'). destruct (reach_rel _ _ Rc) as (be & R). destruct (reach_rel _ _ Rc') as (be' & R').
  assert (A : a' = anew F a (AView (aid o) (aoff o + off) r c) /\ off + r * c <= asize o).
  { destruct p; cbn [window] in Hw; try discriminate; cbn [aexec] in Ha.
    - destruct (i <? arows o) eqn:El; [|discriminate]. inversion Hw; subst. rewrite G, El in Ha. unfold aview in Ha. rewrite G in Ha. inversion Ha. split; auto. apply Nat.ltb_lt in El. unfold SpecHeap.asize. nia.
    - destruct (n <? arows o) eqn:El; [|discriminate]. inversion Hw; subst. rewrite G, El in Ha. unfold aview in Ha. rewrite G in Ha. inversion Ha. split; auto. apply Nat.ltb_lt in El. unfold SpecHeap.asize. nia.
    - destruct ((s <? e) && (e <=? arows o)) eqn:El; [|discriminate]. inversion Hw; subst. rewrite G, El in Ha. unfold aview in Ha. rewrite G in Ha. inversion Ha. split; auto.
      apply andb_true_iff in El. destruct El as [E1 E2]. apply Nat.ltb_lt in E1. apply Nat.leb_le in E2. unfold SpecHeap.asize. nia.
    - inversion Hw; subst. rewrite G in Ha. unfold aview in Ha. rewrite G in Ha. inversion Ha. split; auto. 
    - change (arows o * acols o) with (asize o) in Hw. destruct (asize o =? r0 * c0) eqn:El; [|discriminate]. inversion Hw; subst. rewrite G, El in Ha. unfold aview in Ha. rewrite G in Ha. inversion Ha. split; auto.
      apply Nat.eqb_eq in El. lia. }
  destruct A as [-> Hs]. set (ow := AView (aid o) (aoff o + off) r c) in *.
  assert (Gw : aget (anew F a ow) w = Some ow) by (apply aget_nth; cbn; unfold w; rewrite nth_app_last, Nat.eqb_refl; auto).
  assert (Gv : aget (anew F a ow) v = Some o) by (unfold anew; destruct a as [n l]; eapply aget_app; eauto).
  assert (Hx' : acells F (anew F a ow) v = Some xs).
  { eapply acells_ext with (a := a); eauto. intros _ d (u & r' & c' & Hu). exists u, r', c'. cbn. rewrite nth_error_app1; auto. eapply nth_lt; eauto. }
  assert (W : isWin F (anew F a ow) w v off) by (exists ow, o; auto).
  exists m'. split; auto. split; auto. split; [|eapply rel_shows; eauto]. destruct (win_cells _ _ _ _ _ _ _ R' W Hx') as (ow' & Gw' & Hw'). rewrite Gw in Gw'. inversion Gw'; subst ow'.
  exact (rel_shows F _ _ _ _ _ _ R' Gw Hw').
Qed.

(* overwriting the cells of a window *)
Lemma write_win : forall be a m w v off ow xs ys a' be' m', Rel be a m -> Rel be' a' m' -> isWin F a w v off -> aget a w = Some ow -> length ys = asize ow -> acells F a v = Some xs -> awrite F a ow ys = Some a' ->
  acells F a' v = Some (splice F xs off ys) /\ acells F a' w = Some ys /\ isWin F a' w v off /\
  (exists ov ov', aget a v = Some ov /\ aget a' v = Some ov' /\ arows ov' = arows ov /\ acols ov' = acols ov) /\ (exists ow', aget a' w = Some ow' /\ arows ow' = arows ow /\ acols ow' = acols ow).
Proof.
  intros be a m w v off ow xs ys a' be' m' R R' W Gw Ly Hx Hw. destruct W as (ow0 & ov & Gw0 & Gv & Ei & Eo & Hs). rewrite Gw in Gw0. inversion Gw0; subst ow0. clear Gw0.
  destruct (acells_spec F _ _ _ _ _ _ R Gv Hx) as [Lx Cx].
  destruct (Nat.eq_dec (asize ow) 0) as [E|N].
  - unfold awrite in Hw. rewrite E in Hw. cbn in Hw. inversion Hw; subst a'. rewrite E in Ly. destruct ys; [|discriminate]. rewrite splice_nil. split; auto. split; [unfold acells, cellsOf; rewrite Gw, E; auto|].
    split; [exists ow, ov; repeat split; auto|]. split; eauto 8.
  - destruct (awrite_some F _ _ _ _ _ _ R Gw N _ Hw) as (D & HD & LD & ->).
    destruct (areg_get F _ (aid ow) (splice F D (aoff ow) ys) _ _ Gw) as (ow' & Gw' & W1 & W2 & W3 & W4 & _). destruct (areg_get F _ (aid ow) (splice F D (aoff ow) ys) _ _ Gv) as (ov' & Gv' & V1 & V2 & V3 & V4 & _).
    assert (Nv : asize ov <> 0) by lia. destruct (Cx Nv) as (D' & HD' & Exs & _). assert (D' = D) by (rewrite <- Ei in HD'; eapply own_fun; eauto; eapply rl_uniq; eauto). subst D'.
    assert (HD2 : region F (areg a (aid ow) (splice F D (aoff ow) ys)) (aid ow) = Some (splice F D (aoff ow) ys)).
    { apply (region_own F be' _ m' _ _ R'). apply (areg_own F a (aid ow) _ D); auto; [eapply rl_uniq; eauto|]. rewrite Nat.eqb_refl. auto. }
    destruct (obj_rel F _ _ _ _ _ R Gv) as (_ & pv & _ & Pv). destruct (Pv _ HD') as [Lv _].
    split; [|split; [|split; [exists ow', ov'; unfold SpecHeap.asize in *; rewrite W1, W2, W3, W4, V1, V2, V3, V4; auto|split; eauto 8]]].
    + unfold acells, cellsOf. rewrite Gv'. replace (asize ov') with (asize ov) by (unfold SpecHeap.asize; congruence). destruct (Nat.eqb_spec (asize ov) 0); [lia|]. rewrite V3, V4, <- Ei, HD2. f_equal.
      apply list_ext. intro i. rewrite nth_firstn, nth_skipn, nth_splice, nth_splice by lia. subst xs. rewrite nth_firstn, nth_skipn, Eo.
      destruct (Nat.ltb_spec i (asize ov)).
      * destruct (Nat.ltb_spec (aoff ov + i) (aoff ov + off)); destruct (Nat.ltb_spec i off); try lia; auto.
        destruct (Nat.ltb_spec (aoff ov + i) (aoff ov + off + length ys)); destruct (Nat.ltb_spec i (off + length ys)); try lia; auto. f_equal. lia.
      * destruct (Nat.ltb_spec i off); [lia|]. destruct (Nat.ltb_spec i (off + length ys)); [lia|]. auto.
    + unfold acells, cellsOf. rewrite Gw'. replace (asize ow') with (asize ow) by (unfold SpecHeap.asize; congruence). destruct (Nat.eqb_spec (asize ow) 0); [lia|]. rewrite W3, W4, HD2. f_equal.
      apply list_ext. intro i. rewrite nth_firstn, nth_skipn, nth_splice by lia. destruct (Nat.ltb_spec i (asize ow)).
      * destruct (Nat.ltb_spec (aoff ow + i) (aoff ow)); [lia|]. destruct (Nat.ltb_spec (aoff ow + i) (aoff ow + length ys)); [|lia]. f_equal. lia.
      * symmetry. apply nth_error_None. lia.
Qed.
Lemma awrite_ex : forall be a m v o xs ys, Rel be a m -> aget a v = Some o -> acells F a v = Some xs -> exists a', awrite F a o ys = Some a'.
Proof.
  intros be a m v o xs ys R G Hx. unfold acells, cellsOf in Hx. rewrite G in Hx. unfold awrite. destruct (asize o =? 0); [eauto|]. destruct (region F a (aid o)); [eauto|discriminate].
Qed.
Lemma win_step : forall a m w v off ow xs ys p a', reach F a m -> isWin F a w v off -> aget a w = Some ow -> length ys = asize ow -> acells F a v = Some xs ->
  awrite F a ow ys = Some a' -> aexec F a p = Some a' ->
  exists ov m', aget a v = Some ov /\ exec F m p = Ok m' /\ reach F a' m' /\ isWin F a' w v off /\ shows F m v (arows ov) (acols ov) xs /\ shows F m' v (arows ov) (acols ov) (splice F xs off ys) /\ shows F m' w (arows ow) (acols ow) ys.
Proof.
  intros a m w v off ow xs ys p a' Rc W G Ly Hx Hw Hp. destruct (reach_exec _ _ _ _ Rc Hp) as (m' & E & Rc'). destruct (reach_rel _ _ Rc) as (be & R). destruct (reach_rel _ _ Rc') as (be' & R').
  destruct (write_win be a m w v off ow xs ys a' be' m') as (A1 & A2 & A3 & (ov & ov' & B1 & B2 & B3 & B4) & (ow' & C1 & C2 & C3)); auto.
  exists ov, m'. split; auto. split; auto. split; auto. split; auto. split; [eapply rel_shows; eauto|]. rewrite <- B3, <- B4, <- C2, <- C3. split; eapply rel_shows; eauto.
Qed.
Theorem window_put : forall a m w v off ow xs j x, reach F a m -> isWin F a w v off -> aget a w = Some ow -> acells F a v = Some xs -> j < asize ow ->
  exists a' ov m', aexec F a (OpPut F w j x) = Some a' /\ exec F m (OpPut F w j x) = Ok m' /\ aget a v = Some ov /\ isWin F a' w v off /\
  shows F m v (arows ov) (acols ov) xs /\ shows F m' v (arows ov) (acols ov) (upd xs (off + j) x).
Proof.
  intros a m w v off ow xs j x Rc W G Hx Hj. destruct (reach_rel _ _ Rc) as (be & R). destruct (win_cells _ _ _ _ _ _ _ R W Hx) as (ow' & G' & Hw). rewrite G in G'. inversion G'; subst ow'.
  destruct (acells_spec F _ _ _ _ _ _ R G Hw) as [Lw _].
  destruct (awrite_ex be a m w ow _ (upd (firstn (asize ow) (skipn off xs)) j x) R G Hw) as (a' & Ha).
  assert (Hp : aexec F a (OpPut F w j x) = Some a') by (cbn [aexec]; rewrite G, Hw; destruct (Nat.ltb_spec j (asize ow)); [exact Ha|lia]).
  destruct (win_step a m w v off ow xs (upd (firstn (asize ow) (skipn off xs)) j x) (OpPut F w j x) a' Rc W G) as (ov & m' & A1 & A2 & A3 & A4 & A5 & A6 & A7); auto; [rewrite length_upd; auto|].
  destruct W as (ow0 & ov0 & Gw0 & Gv0 & _ & _ & Hs). rewrite G in Gw0. inversion Gw0; subst ow0. destruct (acells_spec F _ _ _ _ _ _ R Gv0 Hx) as [Lx _].
  exists a', ov, m'. rewrite splice_upd in A6 by lia. auto 10.
Qed.
Theorem window_fill : forall a m w v off ow xs x, reach F a m -> isWin F a w v off -> aget a w = Some ow -> acells F a v = Some xs ->
  exists a' ov m', aexec F a (OpFill F w x) = Some a' /\ exec F m (OpFill F w x) = Ok m' /\ aget a v = Some ov /\ isWin F a' w v off /\
  shows F m v (arows ov) (acols ov) xs /\ shows F m' v (arows ov) (acols ov) (splice F xs off (repeat x (asize ow))).
Proof.
  intros a m w v off ow xs x Rc W G Hx. destruct (reach_rel _ _ Rc) as (be & R). destruct (win_cells _ _ _ _ _ _ _ R W Hx) as (ow' & G' & Hw). rewrite G in G'. inversion G'; subst ow'.
  destruct (awrite_ex be a m w ow _ (repeat x (asize ow)) R G Hw) as (a' & Ha).
  assert (Hp : aexec F a (OpFill F w x) = Some a') by (cbn [aexec]; rewrite G; exact Ha).
  destruct (win_step a m w v off ow xs (repeat x (asize ow)) (OpFill F w x) a' Rc W G) as (ov & m' & A1 & A2 & A3 & A4 & A5 & A6 & A7); auto; [apply repeat_length|]. exists a', ov, m'. auto 10.
Qed.
(* assigning as many cells writes through *)
Theorem window_assign : forall a m w v s off ow os xs ys, reach F a m -> isWin F a w v off -> aget a w = Some ow -> aget a s = Some os -> w <> s -> v <> w -> acells F a v = Some xs -> acells F a s = Some ys ->
  asize os = asize ow -> clear_ F ow os (asize ow) = true ->
  exists a' ov m', aexec F a (OpAssign F w s) = Some a' /\ exec F m (OpAssign F w s) = Ok m' /\ aget a v = Some ov /\ isWin F a' w v off /\
  shows F m v (arows ov) (acols ov) xs /\ shows F m' v (arows ov) (acols ov) (splice F xs off ys) /\ shows F m' w (arows os) (acols os) ys.
Proof.
  intros a m w v s off ow os xs ys Rc W G Gs Ns Nv Hx Hy Es Cl. destruct (reach_rel _ _ Rc) as (be & R). destruct (win_cells _ _ _ _ _ _ _ R W Hx) as (ow' & G' & Hw). rewrite G in G'. inversion G'; subst ow'. clear G'.
  destruct (acells_spec F _ _ _ _ _ _ R Gs Hy) as [Ly _].
  destruct (resize_same F be a m w ow (arows os) (acols os) R G Es) as (m1 & _ & R1). set (ow1 := reshape F ow (arows os) (acols os)) in *. set (a1 := aset F a w ow1) in *.
  destruct W as (ow0 & ov & Gw0 & Gv & Ei & Eo & Hs). rewrite G in Gw0. inversion Gw0; subst ow0. clear Gw0.
  assert (G1 : aget a1 w = Some ow1) by (apply aget_upd_eq; eapply aget_lt; eauto). assert (Gv1 : aget a1 v = Some ov) by (unfold a1, aset; rewrite (aget_upd_ne F _ _ (aN a)); auto).
  assert (S1 : asize ow1 = asize ow) by (unfold ow1; rewrite reshape_size; exact Es).
  assert (W1 : isWin F a1 w v off). { exists ow1, ov. unfold ow1 at 2 3. rewrite reshape_id, reshape_off, S1. auto. }
  assert (Hx1 : acells F a1 v = Some xs) by (eapply acells_ext with (a := a); eauto; intros _ d Hd; apply aset_own; auto).
  destruct (win_cells _ _ _ _ _ _ _ R1 W1 Hx1) as (ow2 & G2 & Hw1). rewrite G1 in G2. inversion G2; subst ow2.
  destruct (awrite_ex be a1 m1 w ow1 _ ys R1 G1 Hw1) as (a' & Ha).
  assert (Hp : aexec F a (OpAssign F w s) = Some a') by (cbn [aexec]; rewrite G, Gs, Hy, Es, Nat.eqb_refl, Cl; exact Ha).
  destruct (reach_exec _ _ _ _ Rc Hp) as (m' & E & Rc'). destruct (reach_rel _ _ Rc') as (be' & R').
  destruct (write_win be a1 m1 w v off ow1 xs ys a' be' m') as (A1 & A2 & A3 & (ov1 & ov' & B1 & B2 & B3 & B4) & (ow' & C1 & C2 & C3)); auto; [rewrite S1; lia|].
  rewrite Gv1 in B1. inversion B1; subst ov1. exists a', ov, m'. split; auto. split; auto. split; auto. split; auto. split; [eapply rel_shows; eauto|]. rewrite <- B3, <- B4. split; [eapply rel_shows; eauto|].
  replace (arows os) with (arows ow') by (rewrite C2; apply reshape_rows). replace (acols os) with (acols ow') by (rewrite C3; apply reshape_cols). eapply rel_shows; eauto.
Qed.
(* assigning another number of cells detaches the view *)
Theorem window_detach : forall a m w v s off ow os xs ys, reach F a m -> isWin F a w v off -> aget a w = Some ow -> owner F ow = false -> aget a s = Some os -> v <> w -> acells F a v = Some xs -> acells F a s = Some ys ->
  asize os <> asize ow ->
  exists a' ov m', aexec F a (OpAssign F w s) = Some a' /\ exec F m (OpAssign F w s) = Ok m' /\ aget a v = Some ov /\ ~ shares F a' w v /\
  shows F m v (arows ov) (acols ov) xs /\ shows F m' v (arows ov) (acols ov) xs /\ shows F m' w (arows os) (acols os) ys.
Proof.
  intros a m w v s off ow os xs ys Rc W G Ow Gs Nv Hx Hy Es. destruct (reach_rel _ _ Rc) as (be & R). destruct W as (ow0 & ov & Gw0 & Gv & _).
  assert (Hp : aexec F a (OpAssign F w s) = Some (arenew F a w (arows os) (acols os) ys)).
  { cbn [aexec]. rewrite G, Gs, Hy, Ow. destruct (Nat.eqb_spec (asize os) (asize ow)); [contradiction|]. reflexivity. }
  set (a' := arenew F a w (arows os) (acols os) ys) in *. destruct (reach_exec _ _ _ _ Rc Hp) as (m' & E & Rc'). destruct (reach_rel _ _ Rc') as (be' & R').
  assert (Gv' : aget a' v = Some ov) by (unfold a', arenew; rewrite (aget_upd_ne F _ _ (aN a)); auto).
  assert (Gw' : aget a' w = Some (AOwn (aN a) (arows os) (acols os) ys)) by (apply aget_upd_eq; eapply aget_lt; eauto).
  assert (Hx' : acells F a' v = Some xs). { eapply acells_ext with (a := a); eauto. intros _ d Hd. unfold a'. eapply renew_own; eauto; rewrite Ow; discriminate. }
  exists a', ov, m'. split; auto. split; auto. split; auto. split.
  - intros (o1 & o2 & H1 & H2 & H3). rewrite Gw' in H1. rewrite Gv' in H2. inversion H1; inversion H2; subst. destruct (obj_rel F _ _ _ _ _ R Gv) as (Hi & _). cbn in H3. lia.
  - split; [eapply rel_shows; eauto|]. split; [eapply rel_shows; eauto|]. pose proof (nv_cells F _ _ _ _ _ _ _ _ R' Gw') as Hw'. exact (rel_shows F _ _ _ _ _ _ R' Gw' Hw').
Qed.

(* windows outlast any history that leaves both objects where they are *)
Lemma stay_step : forall a p a' u o, aexec F a p = Some a' -> aget a u = Some o -> moves F p u = false ->
  exists o', aget a' u = Some o' /\ arows o' = arows o /\ acols o' = acols o /\ aid o' = aid o /\ aoff o' = aoff o /\ owner F o' = owner F o.
Proof.
  intros a p a' u o H G Mv.
  assert (Wr : forall b q xs b', awrite F b q xs = Some b' -> forall x, aget b u = Some x -> exists x', aget b' u = Some x' /\ arows x' = arows x /\ acols x' = acols x /\ aid x' = aid x /\ aoff x' = aoff x /\ owner F x' = owner F x).
  { intros b q xs b' E x Gx. unfold awrite in E. destruct (asize q =? 0); [inversion E; subst; exists x; auto 10|]. destruct (region F b (aid q)) as [d|]; [|discriminate]. inversion E; subst.
    destruct (areg_get F _ (aid q) (splice F d (aoff q) xs) _ _ Gx) as (x' & ? & ? & ? & ? & ? & ?). exists x'. auto 10. }
  assert (Ap : forall n z, aget (mkA F n (aO a ++ [z])) u = Some o) by (intros; destruct a as [n' l]; eapply aget_app; eauto).
  assert (Vw : forall v off r c, aview F a v off r c = Some a' -> aget a' u = Some o) by (intros v off r c E; unfold aview in E; destruct (aget a v); [|discriminate]; inversion E; apply Ap).
  assert (Id : aget a' u = Some o -> exists o', aget a' u = Some o' /\ arows o' = arows o /\ acols o' = acols o /\ aid o' = aid o /\ aoff o' = aoff o /\ owner F o' = owner F o) by (intro; exists o; auto 10).
  assert (G0 : nth_error (aO a) u = Some (Some o)) by (apply aget_nth; auto).
  assert (Ap0 : forall z, nth_error (aO a ++ [z]) u = Some (Some o)) by (intro z; apply (aget_nth F (mkA F 0 (aO a ++ [z]))); auto).
  assert (Up : forall l z v, v <> u -> nth_error l u = Some (Some o) -> forall n', aget (mkA F n' (upd l v z)) u = Some o) by (intros l z v Nv E n'; apply aget_nth; cbn; rewrite nth_upd_ne; auto).
  destruct p as [|r c|v|v|v r c|d s|v x|v i x|f v|f d s|d s|v i|v n|v s e|v|v r c]; cbn [aexec moves] in *.
  - inversion H; subst. apply Id, Ap.
  - inversion H; subst. apply Id, Ap.
  - destruct (aget a v); [|discriminate]. destruct (acells F a v); [|discriminate]. inversion H; subst. apply Id, Ap.
  - apply Nat.eqb_neq in Mv. destruct (aget a v); [|discriminate]. inversion H; subst. apply Id. apply Up; auto.
  - apply Nat.eqb_neq in Mv. destruct (aget a v); [|discriminate]. inversion H; subst. apply Id. destruct (_ =? _); apply Up; auto.
  - apply Nat.eqb_neq in Mv. destruct (aget a d) as [od|]; [|discriminate]. destruct (aget a s) as [os|]; [|discriminate]. destruct (acells F a s); [|discriminate]. destruct (_ =? _).
    + destruct (clear_ F od os (asize od)); [|discriminate]. eapply Wr; [exact H|]. apply Up; auto.
    + destruct (_ && _ && _); [discriminate|]. inversion H; subst. apply Id. apply Up; auto.
  - destruct (aget a v); [|discriminate]. eapply Wr; eauto.
  - destruct (aget a v); [|discriminate]. destruct (acells F a v); [|discriminate]. destruct (_ <? _); [|discriminate]. eapply Wr; eauto.
  - destruct (aget a v); [|discriminate]. destruct (acells F a v); [|discriminate]. eapply Wr; eauto.
  - destruct (aget a d); [|discriminate]. destruct (aget a s); [|discriminate]. destruct (acells F a d); [|discriminate]. destruct (acells F a s); [|discriminate]. destruct (_ && _ && _); [|discriminate]. eapply Wr; eauto.
  - apply Nat.eqb_neq in Mv. destruct (aget a d) as [od|]; [|discriminate]. destruct (aget a s) as [os|]; [|discriminate]. destruct (acells F a d); [|discriminate]. destruct (acells F a s); [|discriminate]. destruct (_ && _); [|discriminate].
    destruct (mmul F _ _) as [p|]; [|discriminate]. cbv zeta in H. destruct (arows od * acols os =? asize od).
    + eapply Wr; [exact H|]. apply Up; [auto|apply Ap0].
    + inversion H; subst. apply Id. apply Up; [auto|apply Ap0].
  - destruct (aget a v); [|discriminate]. destruct (_ <? _); [|discriminate]. apply Id. eapply Vw; eauto.
  - destruct (aget a v); [|discriminate]. destruct (_ <? _); [|discriminate]. apply Id. eapply Vw; eauto.
  - destruct (aget a v); [|discriminate]. destruct (_ && _); [|discriminate]. apply Id. eapply Vw; eauto.
  - destruct (aget a v); [|discriminate]. apply Id. eapply Vw; eauto.
  - destruct (aget a v); [|discriminate]. destruct (_ =? _); [|discriminate]. apply Id. eapply Vw; eauto.
Qed.
Theorem window_history : forall ps a a' w v off, arun F a ps = Some a' -> isWin F a w v off -> (forall p, In p ps -> moves F p w = false /\ moves F p v = false) -> isWin F a' w v off.
Proof.
  induction ps as [|p ps IH]; intros a a' w v off H W Hm; cbn [arun] in H; [inversion H; subst; auto|].
  destruct (aexec F a p) as [b|] eqn:E; [|discriminate]. destruct (Hm p) as [M1 M2]; [left; auto|]. eapply IH; eauto; [|intros; apply Hm; right; auto].
  destruct W as (ow & ov & Gw & Gv & Ei & Eo & Hs). destruct (stay_step _ _ _ _ _ E Gw M1) as (ow' & Gw' & W1 & W2 & W3 & W4 & _). destruct (stay_step _ _ _ _ _ E Gv M2) as (ov' & Gv' & V1 & V2 & V3 & V4 & _).
  exists ow', ov'. unfold SpecHeap.asize in *. rewrite W1, W2, W3, W4, V1, V2, V3, V4. auto.
Qed.
Theorem window_shows : forall a m w v off xs, reach F a m -> isWin F a w v off -> acells F a v = Some xs -> exists ow, aget a w = Some ow /\ shows F m w (arows ow) (acols ow) (firstn (asize ow) (skipn off xs)).
Proof. intros a m w v off xs Rc W Hx. destruct (reach_rel _ _ Rc) as (be & R). destruct (win_cells _ _ _ _ _ _ _ R W Hx) as (ow & G & Hw). exists ow. split; auto. eapply rel_shows; eauto. Qed.
End Heap.
