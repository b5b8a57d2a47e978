(* HeapProofs3.v - the pointer model of matrices refines the model without pointers: loops over the cells of one object *)
From Coq Require Import List Arith Bool Lia.
From Verif Require Import Base Scalar Mat MatHeap SpecHeap HeapProofs1 HeapProofs2.
Import ListNotations.
Local Open Scope nat_scope.

Section Heap.
Variable F : FOps.
Notation amem := (amem F). Notation mem := (mem F). Notation aobj := (aobj F).
Notation AOwn := (AOwn F). Notation AView := (AView F). Notation aO := (aO F). Notation aN := (aN F). Notation mO := (mO F). Notation mB := (mB F).
Notation Rel := (Rel F). Notation own := (own F). Notation areg := (areg F).
Notation arows := (arows F). Notation acols := (acols F). Notation aid := (aid F). Notation aoff := (aoff F). Notation asize := (asize F). Notation aget := (aget F).

Lemma at_areg : forall be a m id d0 d v o e i x, uniq F (aO a) -> own (aO a) id d0 -> Rel be (areg a id d) m -> aget a v = Some o -> own (aO a) (aid o) e -> i < asize o ->
  nth_error (if id =? aid o then d else e) (aoff o + i) = Some x -> at_ F m v i = Ok x.
Proof.
  intros be a m id d0 d v o e i x U H0 R H He Hi Hx. destruct (areg_get F _ id d _ _ H) as (o' & H' & Er & Ec & Ei & Eo & _).
  apply (at_rel F be (areg a id d) m v o' (if id =? aid o then d else e) i x R H').
  - rewrite Ei. apply (areg_own F a id d d0); auto. destruct (id =? aid o); auto.
  - unfold SpecHeap.asize in *. rewrite Er, Ec. auto.
  - rewrite Eo. auto.
Qed.

Lemma acells_spec : forall be a m v o xs, Rel be a m -> aget a v = Some o -> acells F a v = Some xs ->
  length xs = asize o /\ (asize o <> 0 -> exists d, own (aO a) (aid o) d /\ xs = firstn (asize o) (skipn (aoff o) d) /\ forall i, i < asize o -> nth_error xs i = nth_error d (aoff o + i)).
Proof.
  intros be a m v o xs R H Hx. unfold acells in Hx. rewrite H in Hx. unfold cellsOf in Hx. destruct (Nat.eqb_spec (asize o) 0) as [E|N].
  - inversion Hx; subst. rewrite E. split; auto. congruence.
  - destruct (region F a (aid o)) as [d|] eqn:Er; [|discriminate]. apply (region_own F be a m _ _ R) in Er. inversion Hx; subst.
    destruct (obj_rel F _ _ _ _ _ R H) as (_ & p & _ & P). destruct (P _ Er) as [P1 _]. split; [rewrite firstn_length, skipn_length; lia|]. intros _. exists d. split; auto. split; auto.
    intros i Hi. rewrite nth_firstn, nth_skipn. destruct (Nat.ltb_spec i (asize o)); [auto|lia].
Qed.

Lemma loop_write : forall be a m v o d xs body, Rel be a m -> aget a v = Some o -> own (aO a) (aid o) d -> length xs = asize o ->
  (forall i x mi, i < asize o -> nth_error xs i = Some x -> Rel be (areg a (aid o) (splice F d (aoff o) (firstn i xs))) mi -> mO mi = mO m -> body i mi = put F mi v i x) ->
  exists m', forN (asize o) body m = Ok m' /\ mO m' = mO m /\ Rel be (areg a (aid o) (splice F d (aoff o) xs)) m'.
Proof.
  intros be a m v o d xs body R H Hd L Hb. pose proof (rl_uniq _ _ _ _ R) as U. destruct (obj_rel F _ _ _ _ _ R H) as (_ & p & _ & P). destruct (P _ Hd) as [P1 _].
  destruct (@forN_inv _ (fun i mi => mO mi = mO m /\ Rel be (areg a (aid o) (splice F d (aoff o) (firstn i xs))) mi) (asize o) body m) as (m' & E & I1 & I2).
  - split; auto. cbn [firstn]. rewrite splice_nil, areg_same; auto.
  - intros i mi Hi [E1 Ri]. destruct (nth_error xs i) as [x|] eqn:Ex; [|apply nth_error_None in Ex; lia]. rewrite (Hb i x mi) by auto.
    destruct (areg_get F _ (aid o) (splice F d (aoff o) (firstn i xs)) _ _ H) as (o' & H' & Er & Ec & Ei & Eo & _).
    destruct (put_rel F be _ mi v o' (splice F d (aoff o) (firstn i xs)) i x Ri H') as (m' & Ep & Em & Rm).
    + rewrite Ei. apply (areg_own F a (aid o) _ d); auto. rewrite Nat.eqb_refl. auto.
    + unfold SpecHeap.asize in *. rewrite Er, Ec. auto.
    + exists m'. split; auto. split; [congruence|]. rewrite Ei, Eo, areg_areg, splice_step in Rm by (auto; lia). exact Rm.
  - exists m'. split; auto. split; auto. rewrite <- L, firstn_all in I2. auto.
Qed.
Lemma loop_awrite : forall be a m v o xs a' body, Rel be a m -> aget a v = Some o -> awrite F a o xs = Some a' -> length xs = asize o ->
  (forall d i x mi, own (aO a) (aid o) d -> i < asize o -> nth_error xs i = Some x -> Rel be (areg a (aid o) (splice F d (aoff o) (firstn i xs))) mi -> mO mi = mO m -> body i mi = put F mi v i x) ->
  exists m', forN (asize o) body m = Ok m' /\ mO m' = mO m /\ Rel be a' m'.
Proof.
  intros be a m v o xs a' body R H Hw L Hb. unfold awrite in Hw. destruct (Nat.eqb_spec (asize o) 0) as [E|N].
  - inversion Hw; subst. rewrite E. exists m. split; auto.
  - destruct (region F a (aid o)) as [d|] eqn:Er; [|discriminate]. apply (region_own F be a m _ _ R) in Er. inversion Hw; subst. apply loop_write with (v := v); eauto.
Qed.
(* a store through the pointer of the object is a write of its cell *)
Lemma store_put : forall (m mi : mem) v q i x, oget F m v = Ok q -> mO mi = mO m -> i < osize q ->
  (b <- store F (mB mi) (oPtr q) i x ;; Ok (mkMem F b (mO mi))) = put F mi v i x.
Proof.
  intros m mi v q i x E Em Hi. unfold put. replace (oget F mi v) with (oget F m v) by (unfold oget; rewrite Em; auto). rewrite E. cbn [bind].
  unfold assert_. destruct (Nat.ltb_spec i (osize q)); [reflexivity|lia].
Qed.

(** * fill, single writes, maps *)
Lemma fill_rel : forall be a m v o x a', Rel be a m -> aget a v = Some o -> awrite F a o (repeat x (asize o)) = Some a' ->
  exists m', fill F m v x = Ok m' /\ mO m' = mO m /\ Rel be a' m'.
Proof.
  intros be a m v o x a' R H Hw. destruct (obj_rel F _ _ _ _ _ R H) as (_ & p & E & _). unfold fill. rewrite E. cbn [bind]. unfold osize at 1. cbn [oR oC].
  change (arows o * acols o) with (asize o). apply loop_awrite with (a := a) (v := v) (xs := repeat x (asize o)); auto; [apply repeat_length|].
  intros d i y mi Hd Hi Hy Rm Em. rewrite (store_put m mi v _ i x E Em) by (unfold osize; cbn; exact Hi). f_equal. apply nth_error_In, repeat_spec in Hy. auto.
Qed.
Lemma map_rel : forall be a m v o f xs a', Rel be a m -> aget a v = Some o -> acells F a v = Some xs -> awrite F a o (map f xs) = Some a' ->
  exists m', mapAssign F f m v = Ok m' /\ mO m' = mO m /\ Rel be a' m'.
Proof.
  intros be a m v o f xs a' R H Hx Hw. destruct (obj_rel F _ _ _ _ _ R H) as (_ & p & E & P). pose proof (rl_uniq _ _ _ _ R) as U.
  destruct (acells_spec _ _ _ _ _ _ R H Hx) as [L C]. unfold mapAssign. rewrite E. cbn [bind]. unfold osize at 1. cbn [oR oC].
  change (arows o * acols o) with (asize o). apply loop_awrite with (a := a) (v := v) (xs := map f xs); auto; [rewrite map_length; auto|].
  intros d i y mi Hd Hi Hy Rm Em. destruct (C ltac:(lia)) as (d' & Hd' & _ & Cn). assert (d' = d) by (eapply own_fun; eauto). subst d'. destruct (P _ Hd) as [P1 _].
  rewrite nth_error_map in Hy. destruct (nth_error xs i) as [z|] eqn:Ez; [|discriminate]. cbn in Hy. inversion Hy; subst y.
  assert (A : at_ F mi v i = Ok z).
  { eapply (at_areg be a mi (aid o) d); eauto. rewrite Nat.eqb_refl. rewrite nth_splice by (rewrite firstn_length, map_length; lia). rewrite firstn_length, map_length.
    destruct (Nat.ltb_spec (aoff o + i) (aoff o)); [lia|]. destruct (Nat.ltb_spec (aoff o + i) (aoff o + Nat.min i (length xs))); [lia|]. rewrite <- Cn; auto. }
  rewrite A. reflexivity.
Qed.
Lemma zip_rel : forall be a m v w o q f xs ys a', Rel be a m -> aget a v = Some o -> aget a w = Some q -> acells F a v = Some xs -> acells F a w = Some ys ->
  arows o = arows q -> acols o = acols q -> apart F o q (asize o) = true -> awrite F a o (zipWith F f xs ys) = Some a' ->
  exists m', zipAssign F f m v w = Ok m' /\ mO m' = mO m /\ Rel be a' m'.
Proof.
  intros be a m v w o q f xs ys a' R H Hq Hx Hy Er Ec Ap Hw. destruct (obj_rel F _ _ _ _ _ R H) as (_ & p & E & P). destruct (obj_rel F _ _ _ _ _ R Hq) as (_ & p' & E' & P').
  pose proof (rl_uniq _ _ _ _ R) as U. destruct (acells_spec _ _ _ _ _ _ R H Hx) as [L C]. destruct (acells_spec _ _ _ _ _ _ R Hq Hy) as [L' C'].
  assert (Es : asize q = asize o) by (unfold SpecHeap.asize; rewrite Er, Ec; auto).
  unfold zipAssign. rewrite E, E'. cbn [bind oR oC]. unfold assert_. rewrite Er, Ec, !Nat.eqb_refl. cbn [bind]. unfold osize at 1. cbn [oR oC]. rewrite <- Er, <- Ec.
  change (arows o * acols o) with (asize o). apply loop_awrite with (a := a) (v := v) (xs := zipWith F f xs ys); auto; [unfold zipWith; rewrite map_length, combine_length; lia|].
  intros d i y mi Hd Hi Hz Rm Em. destruct (C ltac:(lia)) as (d' & Hd' & _ & Cn). assert (d' = d) by (eapply own_fun; eauto). subst d'. destruct (P _ Hd) as [P1 _].
  destruct (C' ltac:(lia)) as (e & He & _ & Cm). destruct (P' _ He) as [P1' _].
  destruct (nth_error xs i) as [z|] eqn:Ez; [|apply nth_error_None in Ez; lia]. destruct (nth_error ys i) as [z'|] eqn:Ez'; [|apply nth_error_None in Ez'; lia].
  assert (Ey : y = f z z').
  { assert (G : forall l l' i, nth_error l i = Some z -> nth_error l' i = Some z' -> nth_error (zipWith F f l l') i = Some (f z z')).
    { induction l as [|b l IH]; intros [|b' l'] [|j]; cbn; try discriminate; [congruence|]. apply IH. }
    rewrite (G _ _ _ Ez Ez') in Hz. congruence. }
  assert (Lz : length (zipWith F f xs ys) = asize o) by (unfold zipWith; rewrite map_length, combine_length; lia).
  assert (A : at_ F mi v i = Ok z).
  { eapply (at_areg be a mi (aid o) d); eauto. rewrite Nat.eqb_refl. rewrite nth_splice by (rewrite firstn_length; lia). rewrite firstn_length, Lz.
    destruct (Nat.ltb_spec (aoff o + i) (aoff o)); [lia|]. destruct (Nat.ltb_spec (aoff o + i) (aoff o + Nat.min i (asize o))); [lia|]. rewrite <- Cn; auto. }
  assert (B : at_ F mi w i = Ok z').
  { eapply (at_areg be a mi (aid o) d); eauto; [lia|]. destruct (Nat.eqb_spec (aid o) (aid q)) as [Ei|]; [|rewrite <- Cm; auto; lia].
    assert (e = d) by (rewrite <- Ei in He; eapply own_fun; eauto). subst e.
    rewrite nth_splice by (rewrite firstn_length; lia). rewrite firstn_length, Lz. unfold apart in Ap. rewrite Ei, Nat.eqb_refl in Ap. cbn [negb orb] in Ap.
    rewrite !orb_true_iff, Nat.eqb_eq, !Nat.leb_le in Ap. rewrite Cm in Ez' by lia.
    destruct (Nat.ltb_spec (aoff q + i) (aoff o)); auto. destruct (Nat.ltb_spec (aoff q + i) (aoff o + Nat.min i (asize o))); auto. lia. }
  rewrite A. cbn [bind]. rewrite B. cbn [bind]. rewrite Ey. reflexivity.
Qed.
(* copying the cells of w to v, in increasing order *)
Lemma copy_rel : forall be a m v w o q xs a' body, Rel be a m -> aget a v = Some o -> aget a w = Some q -> acells F a w = Some xs -> asize q = asize o ->
  clear_ F o q (asize o) = true -> awrite F a o xs = Some a' -> (forall mi i x, i < asize o -> mO mi = mO m -> at_ F mi w i = Ok x -> body i mi = put F mi v i x) ->
  exists m', forN (asize o) body m = Ok m' /\ mO m' = mO m /\ Rel be a' m'.
Proof.
  intros be a m v w o q xs a' body R H Hq Hy Es Ap Hw Hb. destruct (obj_rel F _ _ _ _ _ R H) as (_ & p & E & P). destruct (obj_rel F _ _ _ _ _ R Hq) as (_ & p' & E' & P').
  pose proof (rl_uniq _ _ _ _ R) as U. destruct (acells_spec _ _ _ _ _ _ R Hq Hy) as [L' C'].
  apply loop_awrite with (a := a) (v := v) (xs := xs); auto; [lia|].
  intros d i y mi Hd Hi Hz Rm Em. destruct (P _ Hd) as [P1 _]. destruct (C' ltac:(lia)) as (e & He & _ & Cm). destruct (P' _ He) as [P1' _].
  apply Hb; auto. eapply (at_areg be a mi (aid o) d); eauto; [lia|]. rewrite Cm in Hz by lia. destruct (Nat.eqb_spec (aid o) (aid q)) as [Ei|]; [|auto].
  assert (e = d) by (rewrite <- Ei in He; eapply own_fun; eauto). subst e.
  rewrite nth_splice by (rewrite firstn_length; lia). rewrite firstn_length. unfold clear_ in Ap. rewrite Ei, Nat.eqb_refl in Ap. cbn [negb orb] in Ap.
  rewrite !orb_true_iff, !Nat.leb_le in Ap.
  destruct (Nat.ltb_spec (aoff q + i) (aoff o)); auto. destruct (Nat.ltb_spec (aoff q + i) (aoff o + Nat.min i (length xs))); auto. lia.
Qed.

(** * resize *)
Lemma reshape_same : forall o, reshape F o (arows o) (acols o) = o.
Proof. destruct o; auto. Qed.
Lemma resize_same : forall be a m v o r c, Rel be a m -> aget a v = Some o -> r * c = asize o ->
  exists m', resize F m v r c = Ok m' /\ Rel be (aset F a v (reshape F o r c)) m'.
Proof.
  intros be a m v o r c R H Hs. destruct (obj_rel F _ _ _ _ _ R H) as (_ & p & E & _). unfold resize. rewrite E. cbn [bind oR oC]. apply aget_nth in H.
  destruct (Nat.eqb_spec c (acols o)) as [->|N]; [destruct (Nat.eqb_spec r (arows o)) as [->|N']|]; cbn [andb].
  - exists m. split; auto. rewrite reshape_same. unfold aset. rewrite upd_same by auto. destruct a; auto.
  - unfold osize. cbn [oR oC]. change (arows o * acols o) with (asize o). rewrite Hs, Nat.eqb_refl. eexists. split; [reflexivity|].
    unfold oget in E. destruct (nth_error (mO m) v) as [[q|]|] eqn:Eq; try discriminate. inversion E; subst q. cbn [oPtr oView].
    apply (rel_reshape F be a m v o _ r (acols o) R H Eq Hs).
  - unfold osize. cbn [oR oC]. change (arows o * acols o) with (asize o). rewrite Hs, Nat.eqb_refl. eexists. split; [reflexivity|].
    unfold oget in E. destruct (nth_error (mO m) v) as [[q|]|] eqn:Eq; try discriminate. inversion E; subst q. cbn [oPtr oView].
    apply (rel_reshape F be a m v o _ r c R H Eq Hs).
Qed.
Lemma resize_new : forall be a m v o r c, Rel be a m -> aget a v = Some o -> r * c <> asize o ->
  exists m' be', resize F m v r c = Ok m' /\ Rel be' (arenew F a v r c (repeat (fjunk F) (r * c))) m'.
Proof.
  intros be a m v o r c R H Hs. destruct (obj_rel F _ _ _ _ _ R H) as (_ & p & E & _). apply aget_nth in H.
  destruct (rel_kill F be a m v o R H) as (q & b & Eq & Eb & Lb & Er & Ec & Ev & _ & R').
  unfold oget in E. rewrite Eq in E. inversion E; subst q. cbn [oPtr oView] in Eb. unfold resize, oget. rewrite Eq. cbn [bind oR oC oPtr oView].
  assert (N : (c =? acols o) && (r =? arows o) = false).
  { destruct (Nat.eqb_spec c (acols o)); auto. destruct (Nat.eqb_spec r (arows o)); auto. subst. exfalso. apply Hs. reflexivity. }
  rewrite N. unfold osize. cbn [oR oC]. change (arows o * acols o) with (asize o). destruct (Nat.eqb_spec (r * c) (asize o)); [congruence|].
  rewrite Eb. cbn [bind alloc]. eexists. exists (fupd be (aN a) (Some (length b))). split; [reflexivity|].
  assert (G := rel_fill F be _ _ v r c (repeat (fjunk F) (r * c)) R'). cbn [SpecHeap.aO SpecHeap.aN MatHeap.mO MatHeap.mB] in G. cbv zeta in G.
  rewrite !upd_upd in G. apply G; [|apply repeat_length]. apply nth_upd_eq. eapply nth_lt; eauto.
Qed.
(* writing all the cells of a fresh owner *)
Lemma renew_write : forall be a m v r c d xs, Rel be (arenew F a v r c d) m -> v < length (aO a) -> length d = r * c -> length xs = r * c ->
  (forall w id r' c' d', w <> v -> nth_error (aO a) w = Some (Some (AOwn id r' c' d')) -> id < aN a) ->
  awrite F (arenew F a v r c d) (AOwn (aN a) r c d) xs = Some (arenew F a v r c xs).
Proof.
  intros be a m v r c d xs R Hv Ld Lx Hid. unfold awrite, SpecHeap.asize. cbn [SpecHeap.arows SpecHeap.acols SpecHeap.aid SpecHeap.aoff].
  destruct (Nat.eqb_spec (r * c) 0) as [E|N].
  - rewrite E in *. destruct xs; [|discriminate]. destruct d; [|discriminate]. reflexivity.
  - assert (O : own (aO (arenew F a v r c d)) (aN a) d). { exists v, r, c. cbn. apply nth_upd_eq; auto. }
    apply (region_own F be _ m _ _ R) in O. rewrite O. f_equal. unfold arenew. cbn [SpecHeap.aN SpecHeap.aO]. f_equal.
    apply list_ext. intro w. rewrite nth_error_map, !nth_error_upd. destruct (Nat.eqb_spec v w) as [<-|Nw].
    + replace (v <? length (aO a)) with true by (symmetry; apply Nat.ltb_lt; auto). cbn [andb option_map setId]. rewrite Nat.eqb_refl. do 3 f_equal. unfold splice. cbn [firstn app]. rewrite skipn_all2 by lia. apply app_nil_r.
    + cbn [andb]. destruct (nth_error (aO a) w) as [[[i r' c' e|]|]|] eqn:Ew; auto. cbn [option_map setId]. pose proof (Hid w i r' c' e ltac:(auto) Ew). destruct (Nat.eqb_spec i (aN a)); [lia|auto].
Qed.
End Heap.
