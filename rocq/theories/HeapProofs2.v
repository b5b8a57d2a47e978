(* HeapProofs2.v - the pointer model of matrices refines the model without pointers: every operation *)
From Coq Require Import List Arith Bool Lia.
From Verif Require Import Base Scalar Mat MatHeap SpecHeap HeapProofs1.
Import ListNotations.
Local Open Scope nat_scope.

Lemma upd_same : forall A (l : list A) k x, nth_error l k = Some x -> upd l k x = l.
Proof. induction l; destruct k; simpl; intros; auto; try discriminate; f_equal; auto. inversion H; auto. Qed.
Lemma upd_comm : forall A (l : list A) i j x y, i <> j -> upd (upd l i x) j y = upd (upd l j y) i x.
Proof. induction l; destruct i, j; simpl; intros; auto; try congruence. f_equal. auto. Qed.
Lemma map_upd : forall A B (f : A -> B) l i x, map f (upd l i x) = upd (map f l) i (f x).
Proof. induction l; destruct i; simpl; intros; auto. f_equal; auto. Qed.
Lemma nth_skipn : forall A (l : list A) n i, nth_error (skipn n l) i = nth_error l (n + i).
Proof. induction l; destruct n; simpl; intros; auto. destruct i; auto. Qed.
Lemma nth_firstn : forall A (l : list A) n i, nth_error (firstn n l) i = if i <? n then nth_error l i else None.
Proof. induction l; destruct n, i; simpl; auto. - destruct (S i <? S n); auto. - rewrite IHl. reflexivity. Qed.
Lemma forL_rel : forall I A B (Q : A -> B -> Prop) (l : list I) (body : I -> A -> res A) (step : I -> B -> res B),
  (forall i s p p', In i l -> Q s p -> step i p = Ok p' -> exists s', body i s = Ok s' /\ Q s' p') ->
  forall s p p', Q s p -> forL l step p = Ok p' -> exists s', forL l body s = Ok s' /\ Q s' p'.
Proof.
  induction l as [|i l IH]; intros body step H s p p' HQ E; cbn [forL] in *.
  - inversion E; subst. eauto.
  - destruct (step i p) as [q|e] eqn:Eq; [cbn [bind] in E|discriminate]. destruct (H i s p q) as (s' & E' & Q'); auto; [left; auto|]. rewrite E'. cbn [bind].
    eapply IH; eauto. intros. eapply H; eauto. right; auto.
Qed.
Lemma forN_rel : forall A B (Q : A -> B -> Prop) n (body : nat -> A -> res A) (step : nat -> B -> res B),
  (forall i s p p', i < n -> Q s p -> step i p = Ok p' -> exists s', body i s = Ok s' /\ Q s' p') ->
  forall s p p', Q s p -> forN n step p = Ok p' -> exists s', forN n body s = Ok s' /\ Q s' p'.
Proof. intros A B Q n body step H. apply forL_rel. intros i s p p' Hi. apply in_seq in Hi. apply H. lia. Qed.

Section Heap.
Variable F : FOps.
Notation amem := (amem F). Notation mem := (mem F). Notation aobj := (aobj F).
Notation AOwn := (AOwn F). Notation AView := (AView F). Notation aO := (aO F). Notation aN := (aN F). Notation mO := (mO F). Notation mB := (mB F).
Notation Rel := (Rel F). Notation own := (own F). Notation areg := (areg F).

Lemma nth_splice : forall (d : list F) off xs j, off + length xs <= length d ->
  nth_error (splice F d off xs) j = if j <? off then nth_error d j else if j <? off + length xs then nth_error xs (j - off) else nth_error d j.
Proof.
  intros d off xs j H. unfold splice. assert (L : length (firstn off d) = off) by (rewrite firstn_length; lia).
  destruct (Nat.ltb_spec j off).
  - rewrite nth_error_app1 by lia. rewrite nth_firstn. destruct (Nat.ltb_spec j off); [auto|lia].
  - rewrite nth_error_app2, L by lia. destruct (Nat.ltb_spec j (off + length xs)).
    + rewrite nth_error_app1 by lia. auto.
    + rewrite nth_error_app2 by lia. rewrite nth_skipn. f_equal. lia.
Qed.
Lemma length_splice : forall (d : list F) off xs, off + length xs <= length d -> length (splice F d off xs) = length d.
Proof. intros. unfold splice. rewrite !app_length, firstn_length, skipn_length. lia. Qed.
Lemma splice_nil : forall (d : list F) off, splice F d off [] = d.
Proof. intros. unfold splice. cbn [length app]. rewrite Nat.add_0_r. apply firstn_skipn. Qed.
Lemma splice_step : forall (d : list F) off xs i x, off + length xs <= length d -> nth_error xs i = Some x ->
  upd (splice F d off (firstn i xs)) (off + i) x = splice F d off (firstn (S i) xs).
Proof.
  intros d off xs i x H Hx. pose proof (nth_lt _ _ _ _ Hx) as Hi.
  assert (L1 : length (firstn i xs) = i) by (rewrite firstn_length; lia). assert (L2 : length (firstn (S i) xs) = S i) by (rewrite firstn_length; lia).
  apply list_ext. intro j. rewrite nth_error_upd, !length_splice, !nth_splice by lia. rewrite L1, L2, !nth_firstn.
  destruct (Nat.eqb_spec (off + i) j) as [<-|N].
  - destruct (Nat.ltb_spec (off + i) (length d)); [|lia]. destruct (Nat.ltb_spec (off + i) off); [lia|]. destruct (Nat.ltb_spec (off + i) (off + S i)); [|lia].
    replace (off + i - off) with i by lia. destruct (Nat.ltb_spec i (S i)); [cbn; congruence|lia].
  - destruct (Nat.ltb_spec j off); auto. destruct (Nat.ltb_spec j (off + i)); destruct (Nat.ltb_spec j (off + S i)); try lia; auto.
    destruct (Nat.ltb_spec (j - off) i); destruct (Nat.ltb_spec (j - off) (S i)); try lia; auto.
Qed.
Lemma splice_splice : forall (d : list F) off xs ys, length xs = length ys -> off + length xs <= length d -> splice F (splice F d off xs) off ys = splice F d off ys.
Proof.
  intros. apply list_ext. intro j. rewrite !nth_splice; rewrite ?length_splice; try lia.
  destruct (j <? off) eqn:E; auto. destruct (Nat.ltb_spec j (off + length ys)); auto. destruct (Nat.ltb_spec j (off + length xs)); auto. lia.
Qed.
Lemma splice_upd : forall (d : list F) off n i x, off + n <= length d -> i < n ->
  splice F d off (upd (firstn n (skipn off d)) i x) = upd d (off + i) x.
Proof.
  intros. assert (L : length (firstn n (skipn off d)) = n) by (rewrite firstn_length, skipn_length; lia).
  apply list_ext. intro j. rewrite nth_splice by (rewrite length_upd; lia). rewrite length_upd, L, !nth_error_upd, L, nth_firstn, nth_skipn.
  destruct (Nat.ltb_spec j off); [destruct (Nat.eqb_spec (off + i) j); [lia|auto]|].
  destruct (Nat.ltb_spec j (off + n)).
  - replace (off + (j - off)) with j by lia. destruct (Nat.ltb_spec (j - off) n); [|lia]. destruct (Nat.eqb_spec i (j - off)), (Nat.eqb_spec (off + i) j); try lia; auto.
    destruct (Nat.ltb_spec (off + i) (length d)); [|lia]. destruct (Nat.ltb_spec i n); [auto|lia].
  - destruct (Nat.eqb_spec (off + i) j); [lia|auto].
Qed.

(** * objects *)
Lemma aget_nth : forall (a : amem) v o, aget F a v = Some o <-> nth_error (aO a) v = Some (Some o).
Proof. intros. unfold aget. destruct (nth_error (aO a) v) as [[o'|]|]; split; intro E; inversion E; auto. Qed.
Lemma obj_rel : forall be a m v o, Rel be a m -> aget F a v = Some o -> aid F o < aN a /\ exists p,
  oget F m v = Ok (mkObj (arows F o) (acols F o) p (negb (owner F o))) /\
  (forall d, own (aO a) (aid F o) d -> aoff F o + asize F o <= length d /\ p = shift (base be (aid F o)) (aoff F o)).
Proof.
  intros be a m v o R H. apply aget_nth in H. unfold oget, asize. destruct o as [id r c d|id off r c]; cbn [arows acols aid aoff owner negb].
  - pose proof (rl_own _ _ _ _ R _ _ _ _ _ H) as (H1 & H2 & H3 & H4). split; auto. exists (base be id). rewrite H3. split; auto.
    intros d' Hd. assert (d' = d) by (eapply own_fun; [eapply rl_uniq; eauto|eauto|exists v, r, c; auto]). subst. split; [lia|]. unfold base. destruct (be id); reflexivity.
  - pose proof (rl_view _ _ _ _ R _ _ _ _ _ H) as (H1 & p & H2 & H3). split; auto. exists p. rewrite H2. auto.
Qed.
Lemma own_base : forall be a m id d, Rel be a m -> own (aO a) id d -> d <> [] -> exists k, be id = Some k /\ nth_error (mB m) k = Some (Some d).
Proof. intros be a m id d R (v & r & c & H) N. apply (rl_own _ _ _ _ R) in H. destruct H as (_ & _ & _ & H). unfold holds in H. destruct (be id) as [k|]; [eauto|contradiction]. Qed.

(* reading and writing one cell *)
Lemma load_rel : forall be a m v o d i x, Rel be a m -> aget F a v = Some o -> own (aO a) (aid F o) d -> nth_error d (aoff F o + i) = Some x ->
  exists q, oget F m v = Ok q /\ oR q = arows F o /\ oC q = acols F o /\ load F (mB m) (oPtr q) i = Ok x.
Proof.
  intros be a m v o d i x R H Hd Hx. destruct (obj_rel _ _ _ _ _ R H) as (_ & p & E & P). exists (mkObj (arows F o) (acols F o) p (negb (owner F o))).
  split; auto. split; auto. split; auto. destruct (P _ Hd) as [P1 ->]. destruct (own_base _ _ _ _ _ R Hd) as (k & Ek & Eb). { intros ->. destruct (aoff F o + i); discriminate. }
  unfold base. rewrite Ek. cbn [shift oPtr load]. rewrite Eb. unfold rget. rewrite Nat.add_0_l, Hx. reflexivity.
Qed.
Lemma at_rel : forall be a m v o d i x, Rel be a m -> aget F a v = Some o -> own (aO a) (aid F o) d -> i < asize F o -> nth_error d (aoff F o + i) = Some x -> at_ F m v i = Ok x.
Proof.
  intros be a m v o d i x R H Hd Hi Hx. destruct (load_rel _ _ _ _ _ _ _ _ R H Hd Hx) as (q & E & Er & Ec & El). unfold at_. rewrite E. cbn [bind].
  unfold osize, assert_. rewrite Er, Ec. destruct (Nat.ltb_spec i (arows F o * acols F o)); [|unfold asize in Hi; lia]. exact El.
Qed.
Lemma at2_rel : forall be a m v o d r c x, Rel be a m -> aget F a v = Some o -> own (aO a) (aid F o) d -> r < arows F o -> c < acols F o ->
  nth_error d (aoff F o + (r * acols F o + c)) = Some x -> at2 F m v r c = Ok x.
Proof.
  intros be a m v o d r c x R H Hd Hr Hc Hx. destruct (load_rel _ _ _ _ _ _ _ _ R H Hd Hx) as (q & E & Er & Ec & El). unfold at2. rewrite E. cbn [bind].
  unfold assert_. rewrite Er, Ec. destruct (Nat.ltb_spec r (arows F o)); [|lia]. destruct (Nat.ltb_spec c (acols F o)); [|lia]. exact El.
Qed.
Lemma store_rel : forall be a m v o d i x, Rel be a m -> aget F a v = Some o -> own (aO a) (aid F o) d -> i < asize F o ->
  exists q k, oget F m v = Ok q /\ oR q = arows F o /\ oC q = acols F o /\ be (aid F o) = Some k /\ store F (mB m) (oPtr q) i x = Ok (upd (mB m) k (Some (upd d (aoff F o + i) x))).
Proof.
  intros be a m v o d i x R H Hd Hi. destruct (obj_rel _ _ _ _ _ R H) as (_ & p & E & P). destruct (P _ Hd) as [P1 ->].
  destruct (own_base _ _ _ _ _ R Hd) as (k & Ek & Eb). { intros ->. cbn in P1. lia. }
  exists (mkObj (arows F o) (acols F o) (shift (base be (aid F o)) (aoff F o)) (negb (owner F o))), k. split; auto. split; auto. split; auto. split; auto.
  unfold base. rewrite Ek. cbn [shift oPtr store]. rewrite Eb, Nat.add_0_l. unfold rset. destruct (Nat.ltb_spec (aoff F o + i) (length d)); [reflexivity|lia].
Qed.
Lemma put_rel : forall be a m v o d i x, Rel be a m -> aget F a v = Some o -> own (aO a) (aid F o) d -> i < asize F o ->
  exists m', put F m v i x = Ok m' /\ mO m' = mO m /\ Rel be (areg a (aid F o) (upd d (aoff F o + i) x)) m'.
Proof.
  intros be a m v o d i x R H Hd Hi. destruct (store_rel _ _ _ _ _ _ _ x R H Hd Hi) as (q & k & E & Er & Ec & Ek & Es). unfold put. rewrite E. cbn [bind].
  unfold osize, assert_. rewrite Er, Ec. destruct (Nat.ltb_spec i (arows F o * acols F o)); [|unfold asize in Hi; lia]. rewrite Es. cbn [bind]. eexists. split; [reflexivity|]. split; auto.
  apply rel_write with (d0 := d); auto. apply length_upd.
Qed.
Lemma put2_put : forall be a m v o r c x, Rel be a m -> aget F a v = Some o -> r < arows F o -> c < acols F o -> put2 F m v r c x = put F m v (r * acols F o + c) x.
Proof.
  intros be a m v o r c x R H Hr Hc. destruct (obj_rel _ _ _ _ _ R H) as (_ & p & E & _). unfold put2, put. rewrite E. cbn [bind]. unfold osize, assert_. cbn [oR oC oPtr].
  destruct (Nat.ltb_spec r (arows F o)); [|lia]. destruct (Nat.ltb_spec c (acols F o)); [|lia]. destruct (Nat.ltb_spec (r * acols F o + c) (arows F o * acols F o)); [reflexivity|nia].
Qed.

Lemma areg_get : forall a id d v o, aget F a v = Some o -> exists o', aget F (areg a id d) v = Some o' /\
  arows F o' = arows F o /\ acols F o' = acols F o /\ aid F o' = aid F o /\ aoff F o' = aoff F o /\ owner F o' = owner F o.
Proof.
  intros a id d v o H. apply aget_nth in H. unfold HeapProofs1.areg, aget. cbn. rewrite nth_error_map, H. destruct o as [i r c e|]; cbn; [destruct (i =? id)|]; eexists; repeat split.
Qed.

(* two states agreeing outside one storage *)
Lemma areg_same : forall a id d, uniq F (aO a) -> own (aO a) id d -> areg a id d = a.
Proof.
  intros a id d U Hd. unfold HeapProofs1.areg. destruct a as [n l]. cbn in *. f_equal. rewrite <- (map_id l) at 2. apply map_ext_in. intros o Ho.
  destruct o as [[i r c e|]|]; cbn; auto. destruct (Nat.eqb_spec i id) as [->|]; auto. apply In_nth_error in Ho. destruct Ho as (v & Hv).
  assert (d = e) by (eapply own_fun; eauto; exists v, r, c; auto). subst. auto.
Qed.
Lemma areg_areg : forall a id d e, areg (areg a id d) id e = areg a id e.
Proof.
  intros. unfold HeapProofs1.areg. cbn. f_equal. rewrite map_map. apply map_ext. intros [[i r c x|]|]; cbn; auto. destruct (Nat.eqb_spec i id); cbn; destruct (Nat.eqb_spec i id); auto; congruence.
Qed.
End Heap.
