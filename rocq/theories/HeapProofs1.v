(* HeapProofs1.v - the pointer model of matrices refines the model without pointers: the relation and its preservation *)
From Coq Require Import List Arith Bool Lia.
From Verif Require Import Base Scalar Mat MatHeap SpecHeap.
Import ListNotations.
Local Open Scope nat_scope.

Lemma upd_upd : forall A (l : list A) k x y, upd (upd l k x) k y = upd l k y.
Proof. induction l; destruct k; simpl; intros; f_equal; auto. Qed.
Lemma upd_app : forall A (l : list A) x y, upd (l ++ [x]) (length l) y = l ++ [y].
Proof. induction l; simpl; intros; f_equal; auto. Qed.
Lemma nth_app_last : forall A (l : list A) x v, nth_error (l ++ [x]) v = if v =? length l then Some x else nth_error l v.
Proof.
  intros. destruct (Nat.eqb_spec v (length l)) as [->|N]; [rewrite nth_error_app2, Nat.sub_diag by lia; reflexivity|].
  destruct (lt_dec v (length l)); [apply nth_error_app1; auto|]. rewrite nth_error_app2 by lia.
  rewrite (proj2 (nth_error_None [x] _)) by (cbn; lia). symmetry. apply nth_error_None. lia.
Qed.
Lemma nth_upd_eq : forall A (l : list A) k x, k < length l -> nth_error (upd l k x) k = Some x.
Proof. intros. rewrite nth_error_upd, Nat.eqb_refl. replace (k <? length l) with true by (symmetry; apply Nat.ltb_lt; auto). reflexivity. Qed.
Lemma nth_upd_ne : forall A (l : list A) k x j, k <> j -> nth_error (upd l k x) j = nth_error l j.
Proof. intros. rewrite nth_error_upd. destruct (Nat.eqb_spec k j); [congruence|reflexivity]. Qed.
Lemma nth_lt : forall A (l : list A) k x, nth_error l k = Some x -> k < length l.
Proof. intros. apply nth_error_Some. congruence. Qed.
Lemma nth_upd_cases : forall A (l : list A) v (x : A) v' y, nth_error (upd l v x) v' = Some y -> (v' = v /\ y = x /\ v < length l) \/ (v' <> v /\ nth_error l v' = Some y).
Proof.
  intros A l v x v' y H. rewrite nth_error_upd in H. destruct (Nat.eqb_spec v v') as [->|N]; [|right; auto].
  destruct (Nat.ltb_spec v' (length l)); cbn in H; [left; inversion H; auto|]. exfalso. apply nth_lt in H. lia.
Qed.

Section Heap.
Variable F : FOps.
Notation amem := (amem F). Notation mem := (mem F). Notation aobj := (aobj F).
Notation AOwn := (AOwn F). Notation AView := (AView F). Notation aO := (aO F). Notation aN := (aN F). Notation mO := (mO F). Notation mB := (mB F).

(* an object of l owns storage id, with cells d *)
Definition own (l : list (option aobj)) (id : nat) (d : list F) : Prop := exists v r c, nth_error l v = Some (Some (AOwn id r c d)).
Definition uniq (l : list (option aobj)) : Prop := forall v v' id r c d r' c' d',
  nth_error l v = Some (Some (AOwn id r c d)) -> nth_error l v' = Some (Some (AOwn id r' c' d')) -> v = v'.
Definition base (be : nat -> option nat) (id : nat) : ptr := match be id with Some k => Some (k, 0) | None => None end.
Definition holds (B : blocks F) (be : nat -> option nat) (id : nat) (d : list F) : Prop :=
  match be id with Some k => nth_error B k = Some (Some d) | None => d = [] end.

Record Rel (be : nat -> option nat) (a : amem) (m : mem) : Prop := mkRel {
  rl_len : length (mO m) = length (aO a);
  rl_none : forall v, nth_error (aO a) v = Some None -> nth_error (mO m) v = Some None;
  rl_own : forall v id r c d, nth_error (aO a) v = Some (Some (AOwn id r c d)) ->
     id < aN a /\ length d = r * c /\ nth_error (mO m) v = Some (Some (mkObj r c (base be id) false)) /\ holds (mB m) be id d;
  rl_view : forall v id off r c, nth_error (aO a) v = Some (Some (AView id off r c)) -> id < aN a /\
     exists p, nth_error (mO m) v = Some (Some (mkObj r c p true)) /\
       forall d, own (aO a) id d -> off + r * c <= length d /\ p = shift (base be id) off;
  rl_uniq : uniq (aO a);
  rl_inj : forall i j k, i < aN a -> j < aN a -> be i = Some k -> be j = Some k -> i = j;
  rl_lt : forall i k, i < aN a -> be i = Some k -> k < length (mB m);
  rl_live : forall k d, nth_error (mB m) k = Some (Some d) -> exists id, id < aN a /\ be id = Some k /\ own (aO a) id d }.

Lemma rel_start : Rel (fun _ => None) (astart F) (start F).
Proof. split; cbn; intros; try lia; try (destruct v; discriminate); try (destruct k; discriminate). intros v v' id r c d r' c' d' H. destruct v; discriminate. Qed.

Lemma find_own : forall l id d, uniq l -> (findId F l id = Some d <-> own l id d).
Proof.
  induction l as [|o l IH]; intros id d U.
  - split; [discriminate|]. intros (v & r & c & H). destruct v; discriminate.
  - assert (U' : uniq l). { intros v v' i r c e r' c' e' H H'. assert (S v = S v') by (eapply U; cbn [nth_error]; eauto). lia. }
    assert (Sk : forall P : Prop, (own l id d <-> P) -> (forall r c e, o = Some (AOwn id r c e) -> False) -> (P <-> own (o :: l) id d)).
    { intros P HP Ho. rewrite <- HP. split.
      - intros (v & r & c & H). exists (S v), r, c. exact H.
      - intros (v & r & c & H). destruct v as [|v]; [cbn in H; inversion H; subst; exfalso; eapply Ho; reflexivity|]. exists v, r, c. exact H. }
    destruct o as [[i r c e|i off r c]|].
    + cbn [findId]. destruct (Nat.eqb_spec i id) as [->|N].
      * split; [intro E; inversion E; subst; exists 0, r, c; reflexivity|]. intros (v & r' & c' & H).
        assert (v = 0) by (symmetry; eapply (U 0 v); [reflexivity|exact H]). subst. cbn in H. inversion H; reflexivity.
      * apply Sk; [symmetry; apply IH; auto|]. intros r' c' e' E. inversion E. congruence.
    + cbn [findId]. apply Sk; [symmetry; apply IH; auto|]. intros; discriminate.
    + cbn [findId]. apply Sk; [symmetry; apply IH; auto|]. intros; discriminate.
Qed.
Lemma region_own : forall be a m id d, Rel be a m -> (region F a id = Some d <-> own (aO a) id d).
Proof. intros. apply find_own. eapply rl_uniq; eauto. Qed.
Lemma own_fun : forall l id d d', uniq l -> own l id d -> own l id d' -> d = d'.
Proof. intros l id d d' U (v & r & c & H) (v' & r' & c' & H'). assert (v = v') by (eapply U; eauto). subst. congruence. Qed.

(* P0: a dead slot at the end *)
Lemma rel_pad : forall be a m, Rel be a m -> Rel be (mkA F (aN a) (aO a ++ [None])) (mkMem F (mB m) (mO m ++ [None])).
Proof.
  intros be a m R. pose proof (rl_len _ _ _ R) as L.
  assert (S : forall v o, nth_error (aO a ++ [None]) v = Some (Some o) -> nth_error (aO a) v = Some (Some o) /\ nth_error (mO m ++ [None]) v = nth_error (mO m) v).
  { intros v o H. rewrite nth_app_last in H. rewrite nth_app_last, L. destruct (v =? length (aO a)); [discriminate|auto]. }
  assert (W : forall id d, own (aO a ++ [None]) id d <-> own (aO a) id d).
  { intros id d; split; intros (v & r & c & H); exists v, r, c; [apply S in H; tauto|]. rewrite nth_error_app1; [auto|]. eapply nth_lt; eauto. }
  split; cbn.
  - rewrite !app_length. cbn. lia.
  - intros v H. rewrite nth_app_last in H. rewrite nth_app_last, L. destruct (v =? length (aO a)); auto. apply (rl_none _ _ _ R); auto.
  - intros v id r c d H. apply S in H. destruct H as [H E]. rewrite E. apply (rl_own _ _ _ R) in H. auto.
  - intros v id off r c H. apply S in H. destruct H as [H E]. rewrite E. apply (rl_view _ _ _ R) in H. destruct H as (H1 & p & H2 & H3).
    split; auto. exists p. split; auto. intros d Hd. apply H3. apply W; auto.
  - intros v v' id r c d r' c' d' H H'. apply S in H. apply S in H'. eapply (rl_uniq _ _ _ R); [apply H|apply H'].
  - apply (rl_inj _ _ _ R).
  - apply (rl_lt _ _ _ R).
  - intros k d H. apply (rl_live _ _ _ R) in H. destruct H as (id & H1 & H2 & H3). exists id. split; auto. split; auto. apply W; auto.
Qed.

(* a number is skipped *)
Lemma rel_bump : forall be a m, Rel be a m -> Rel (fupd be (aN a) None) (mkA F (S (aN a)) (aO a)) m.
Proof.
  intros be a m R. assert (Be : forall id, id < aN a -> fupd be (aN a) None id = be id). { intros id H. unfold fupd. destruct (Nat.eqb_spec (aN a) id); [lia|auto]. }
  split; cbn [SpecHeap.aO SpecHeap.aN].
  - apply (rl_len _ _ _ R).
  - apply (rl_none _ _ _ R).
  - intros v id r c d H. apply (rl_own _ _ _ R) in H. destruct H as (H1 & H2 & H3 & H4). unfold base, holds in *. rewrite Be by auto. split; [lia|]. auto.
  - intros v id off r c H. apply (rl_view _ _ _ R) in H. destruct H as (H1 & p & H2 & H3). split; [lia|]. exists p. split; auto. unfold base in *. rewrite Be by auto. auto.
  - apply (rl_uniq _ _ _ R).
  - intros i j k Hi Hj. unfold fupd. destruct (Nat.eqb_spec (aN a) i), (Nat.eqb_spec (aN a) j); try discriminate. intros. eapply (rl_inj _ _ _ R); eauto; lia.
  - intros i k Hi. unfold fupd. destruct (Nat.eqb_spec (aN a) i); [discriminate|]. intro. eapply (rl_lt _ _ _ R); eauto. lia.
  - intros k d H. apply (rl_live _ _ _ R) in H. destruct H as (id & H1 & H2 & H3). exists id. split; [lia|]. split; auto. rewrite Be; auto.
Qed.
(* P1: a dead slot becomes an owner with a new block, or with the null pointer *)
Lemma rel_fill : forall be a m v r c d, Rel be a m -> nth_error (aO a) v = Some None -> length d = r * c ->
  let k := length (mB m) in
  Rel (fupd be (aN a) (Some k)) (mkA F (S (aN a)) (upd (aO a) v (Some (AOwn (aN a) r c d)))) (mkMem F (mB m ++ [Some d]) (upd (mO m) v (Some (mkObj r c (Some (k, 0)) false)))).
Proof.
  intros be a m v r c d R Hv Hd k. pose proof (rl_len _ _ _ R) as L. pose proof (nth_lt _ _ _ _ Hv) as Hl.
  assert (Be : forall id, id < aN a -> fupd be (aN a) (Some k) id = be id). { intros id H. unfold fupd. destruct (Nat.eqb_spec (aN a) id); [lia|auto]. }
  assert (Fr : forall v' id r' c' d', nth_error (aO a) v' = Some (Some (AOwn id r' c' d')) -> id < aN a) by (intros v' id r' c' d' H; apply (rl_own _ _ _ R) in H; tauto).
  assert (W : forall id d', id < aN a -> own (upd (aO a) v (Some (AOwn (aN a) r c d))) id d' -> own (aO a) id d').
  { intros id d' Hi (v' & r' & c' & H). apply nth_upd_cases in H. destruct H as [(-> & E & _)|(_ & H)]; [inversion E; lia|]. exists v', r', c'. auto. }
  assert (W2 : forall id d', own (aO a) id d' -> own (upd (aO a) v (Some (AOwn (aN a) r c d))) id d').
  { intros id d' (v' & r' & c' & H). exists v', r', c'. rewrite nth_upd_ne; auto. intros ->. congruence. }
  assert (Ho : forall id d', id < aN a -> holds (mB m) be id d' -> holds (mB m ++ [Some d]) (fupd be (aN a) (Some k)) id d').
  { intros id d' Hi H. unfold holds in *. rewrite Be by auto. destruct (be id) as [k'|]; auto. rewrite nth_error_app1; auto. eapply nth_lt; eauto. }
  split; cbn [SpecHeap.aO SpecHeap.aN MatHeap.mO MatHeap.mB].
  - rewrite !length_upd. auto.
  - intros v' H. apply nth_upd_cases in H. destruct H as [(-> & E & _)|(N & H)]; [discriminate|]. rewrite nth_upd_ne by auto. apply (rl_none _ _ _ R); auto.
  - intros v' id r' c' d' H. apply nth_upd_cases in H. destruct H as [(-> & E & _)|(N & H)].
    + inversion E; subst. split; [lia|]. split; auto. unfold base, holds. unfold fupd. rewrite Nat.eqb_refl. split; [rewrite nth_upd_eq by lia; reflexivity|].
      unfold k. rewrite nth_app_last, Nat.eqb_refl. reflexivity.
    + rewrite nth_upd_ne by auto. pose proof (Fr _ _ _ _ _ H) as Hi. apply (rl_own _ _ _ R) in H. destruct H as (H1 & H2 & H3 & H4). unfold base. rewrite Be by auto.
      split; [lia|]. split; auto.
  - intros v' id off r' c' H. apply nth_upd_cases in H. destruct H as [(-> & E & _)|(N & H)]; [discriminate|]. rewrite nth_upd_ne by auto.
    apply (rl_view _ _ _ R) in H. destruct H as (H1 & p & H2 & H3). split; [lia|]. exists p. split; auto. intros d' Hd'. unfold base. rewrite Be by auto. apply H3. apply W; auto.
  - intros v1 v2 id r1 c1 d1 r2 c2 d2 H H'. apply nth_upd_cases in H. apply nth_upd_cases in H'.
    destruct H as [(-> & E & _)|(N & H)], H' as [(-> & E' & _)|(N' & H')]; auto.
    + inversion E; subst. apply Fr in H'. lia.
    + inversion E'; subst. apply Fr in H. lia.
    + eapply (rl_uniq _ _ _ R); eauto.
  - intros i j k' Hi Hj. unfold fupd. destruct (Nat.eqb_spec (aN a) i) as [<-|Ni], (Nat.eqb_spec (aN a) j) as [<-|Nj]; auto; intros E1 E2.
    + inversion E1; subst. apply (rl_lt _ _ _ R) in E2; [unfold k in E2; lia|lia].
    + inversion E2; subst. apply (rl_lt _ _ _ R) in E1; [unfold k in E1; lia|lia].
    + eapply (rl_inj _ _ _ R); eauto; lia.
  - intros i k' Hi. unfold fupd. rewrite app_length. cbn [length]. destruct (Nat.eqb_spec (aN a) i); intro E; [inversion E; unfold k; lia|]. apply (rl_lt _ _ _ R) in E; lia.
  - intros k' d' H. rewrite nth_app_last in H. destruct (Nat.eqb_spec k' (length (mB m))) as [->|N].
    + inversion H; subst. exists (aN a). split; [lia|]. split; [unfold fupd; rewrite Nat.eqb_refl; reflexivity|]. exists v, r, c. apply nth_upd_eq; auto.
    + apply (rl_live _ _ _ R) in H. destruct H as (id & H1 & H2 & H3). exists id. split; [lia|]. split; [rewrite Be; auto|]. apply W2; auto.
Qed.
Lemma rel_fill_null : forall be a m v, Rel be a m -> nth_error (aO a) v = Some None ->
  Rel (fupd be (aN a) None) (mkA F (S (aN a)) (upd (aO a) v (Some (AOwn (aN a) 0 0 [])))) (mkMem F (mB m) (upd (mO m) v (Some (mkObj 0 0 None false)))).
Proof.
  intros be a m v R Hv. pose proof (rl_len _ _ _ R) as L. pose proof (nth_lt _ _ _ _ Hv) as Hl.
  assert (Be : forall id, id < aN a -> fupd be (aN a) None id = be id). { intros id H. unfold fupd. destruct (Nat.eqb_spec (aN a) id); [lia|auto]. }
  assert (Fr : forall v' id r' c' d', nth_error (aO a) v' = Some (Some (AOwn id r' c' d')) -> id < aN a) by (intros v' id r' c' d' H; apply (rl_own _ _ _ R) in H; tauto).
  assert (W : forall id d', id < aN a -> own (upd (aO a) v (Some (AOwn (aN a) 0 0 []))) id d' -> own (aO a) id d').
  { intros id d' Hi (v' & r' & c' & H). apply nth_upd_cases in H. destruct H as [(-> & E & _)|(_ & H)]; [inversion E; lia|]. exists v', r', c'. auto. }
  split; cbn [SpecHeap.aO SpecHeap.aN MatHeap.mO MatHeap.mB].
  - rewrite !length_upd. auto.
  - intros v' H. apply nth_upd_cases in H. destruct H as [(-> & E & _)|(N & H)]; [discriminate|]. rewrite nth_upd_ne by auto. apply (rl_none _ _ _ R); auto.
  - intros v' id r' c' d' H. apply nth_upd_cases in H. destruct H as [(-> & E & _)|(N & H)].
    + inversion E; subst. split; [lia|]. split; auto. unfold base, holds, fupd. rewrite Nat.eqb_refl. split; [rewrite nth_upd_eq by lia; reflexivity|reflexivity].
    + rewrite nth_upd_ne by auto. pose proof (Fr _ _ _ _ _ H) as Hi. apply (rl_own _ _ _ R) in H. destruct H as (H1 & H2 & H3 & H4). unfold base, holds in *. rewrite Be by auto.
      split; [lia|]. auto.
  - intros v' id off r' c' H. apply nth_upd_cases in H. destruct H as [(-> & E & _)|(N & H)]; [discriminate|]. rewrite nth_upd_ne by auto.
    apply (rl_view _ _ _ R) in H. destruct H as (H1 & p & H2 & H3). split; [lia|]. exists p. split; auto. intros d' Hd'. unfold base. rewrite Be by auto. apply H3. apply W; auto.
  - intros v1 v2 id r1 c1 d1 r2 c2 d2 H H'. apply nth_upd_cases in H. apply nth_upd_cases in H'.
    destruct H as [(-> & E & _)|(N & H)], H' as [(-> & E' & _)|(N' & H')]; auto.
    + inversion E; subst. apply Fr in H'. lia.
    + inversion E'; subst. apply Fr in H. lia.
    + eapply (rl_uniq _ _ _ R); eauto.
  - intros i j k' Hi Hj. unfold fupd. destruct (Nat.eqb_spec (aN a) i) as [<-|Ni], (Nat.eqb_spec (aN a) j) as [<-|Nj]; try discriminate; auto; intros E1 E2.
    eapply (rl_inj _ _ _ R); eauto; lia.
  - intros i k' Hi. unfold fupd. destruct (Nat.eqb_spec (aN a) i); intro E; [discriminate|]. apply (rl_lt _ _ _ R) in E; lia.
  - intros k' d' H. apply (rl_live _ _ _ R) in H. destruct H as (id & H1 & H2 & H3). exists id. split; [lia|]. split; [rewrite Be; auto|].
    destruct H3 as (v' & r' & c' & H3). exists v', r', c'. rewrite nth_upd_ne; auto. intros ->. congruence.
Qed.

(* P2: a dead slot becomes a view *)
Lemma rel_view_slot : forall be a m v id off r c p, Rel be a m -> nth_error (aO a) v = Some None -> id < aN a ->
  (forall d, own (aO a) id d -> off + r * c <= length d /\ p = shift (base be id) off) ->
  Rel be (mkA F (aN a) (upd (aO a) v (Some (AView id off r c)))) (mkMem F (mB m) (upd (mO m) v (Some (mkObj r c p true)))).
Proof.
  intros be a m v id off r c p R Hv Hid Hp. pose proof (rl_len _ _ _ R) as L. pose proof (nth_lt _ _ _ _ Hv) as Hl.
  assert (W : forall id' d', own (upd (aO a) v (Some (AView id off r c))) id' d' <-> own (aO a) id' d').
  { intros id' d'; split; intros (v' & r' & c' & H).
    - apply nth_upd_cases in H. destruct H as [(-> & E & _)|(_ & H)]; [discriminate|]. exists v', r', c'. auto.
    - exists v', r', c'. rewrite nth_upd_ne; auto. intros ->. congruence. }
  split; cbn [SpecHeap.aO SpecHeap.aN MatHeap.mO MatHeap.mB].
  - rewrite !length_upd. auto.
  - intros v' H. apply nth_upd_cases in H. destruct H as [(-> & E & _)|(N & H)]; [discriminate|]. rewrite nth_upd_ne by auto. apply (rl_none _ _ _ R); auto.
  - intros v' id' r' c' d' H. apply nth_upd_cases in H. destruct H as [(-> & E & _)|(N & H)]; [discriminate|]. rewrite nth_upd_ne by auto. apply (rl_own _ _ _ R) in H. auto.
  - intros v' id' off' r' c' H. apply nth_upd_cases in H. destruct H as [(-> & E & _)|(N & H)].
    + inversion E; subst. split; auto. exists p. rewrite nth_upd_eq by lia. split; auto. intros d Hd. apply Hp. apply W; auto.
    + rewrite nth_upd_ne by auto. apply (rl_view _ _ _ R) in H. destruct H as (H1 & q & H2 & H3). split; auto. exists q. split; auto. intros d Hd. apply H3, W; auto.
  - intros v1 v2 i r1 c1 d1 r2 c2 d2 H H'. apply nth_upd_cases in H. apply nth_upd_cases in H'.
    destruct H as [(-> & E & _)|(N & H)]; [discriminate|]. destruct H' as [(-> & E' & _)|(N' & H')]; [discriminate|]. eapply (rl_uniq _ _ _ R); eauto.
  - apply (rl_inj _ _ _ R).
  - apply (rl_lt _ _ _ R).
  - intros k d H. apply (rl_live _ _ _ R) in H. destruct H as (i & H1 & H2 & H3). exists i. split; auto. split; auto. apply W; auto.
Qed.

(* P3: an object dies; an owner's block is deleted *)
Lemma rel_kill : forall be a m v o, Rel be a m -> nth_error (aO a) v = Some (Some o) -> exists q b,
  nth_error (mO m) v = Some (Some q) /\ (if oView q then Ok (mB m) else delete F (mB m) (oPtr q)) = Ok b /\ length b = length (mB m) /\
  oR q = arows F o /\ oC q = acols F o /\ oView q = negb (owner F o) /\
  (forall k, (exists id d, own (aO a) id d /\ be id = Some k /\ (owner F o = true -> id <> aid F o)) -> nth_error b k = nth_error (mB m) k) /\
  Rel be (mkA F (aN a) (upd (aO a) v None)) (mkMem F b (upd (mO m) v None)).
Proof.
  intros be a m v o R Hv. pose proof (rl_len _ _ _ R) as L. pose proof (nth_lt _ _ _ _ Hv) as Hl.
  destruct o as [id r c d|id off r c].
  - destruct (rl_own _ _ _ R _ _ _ _ _ Hv) as (I1 & I2 & I3 & I4). exists (mkObj r c (base be id) false). cbn [oView oPtr oR oC arows acols owner negb aid].
    assert (W : forall id' d', own (upd (aO a) v None) id' d' <-> own (aO a) id' d' /\ id' <> id).
    { intros id' d'; split.
      - intros (v' & r' & c' & H). apply nth_upd_cases in H. destruct H as [(-> & E & _)|(N & H)]; [discriminate|]. split; [exists v', r', c'; auto|].
        intros ->. apply N. eapply (rl_uniq _ _ _ R); eauto.
      - intros ((v' & r' & c' & H) & N). exists v', r', c'. rewrite nth_upd_ne; auto. intros ->. congruence. }
    assert (Ex : exists b, delete F (mB m) (base be id) = Ok b /\ length b = length (mB m) /\ (forall k, be id <> Some k -> nth_error b k = nth_error (mB m) k) /\
              (forall k d', be id = Some k -> nth_error b k <> Some (Some d'))).
    { unfold base, holds in *. destruct (be id) as [k|] eqn:Ek; cbn [delete].
      - rewrite I4. exists (upd (mB m) k None). split; auto. split; [apply length_upd|]. split; [intros k' N; apply nth_upd_ne; congruence|].
        intros k' d' E. inversion E; subst. rewrite nth_upd_eq by (eapply nth_lt; eauto). discriminate.
      - exists (mB m). split; auto. split; auto. split; auto. intros; discriminate. }
    destruct Ex as (b & E1 & E2 & E3 & E4). exists b. split; auto. split; auto. split; auto. split; auto. split; auto. split; auto.
    split. { intros k (id' & d' & (v' & r' & c' & Hw) & Hb & Hne). apply E3. intro E. apply (Hne eq_refl). apply (rl_own _ _ _ R) in Hw. eapply (rl_inj _ _ _ R); eauto; tauto. }
    split; cbn [SpecHeap.aO SpecHeap.aN MatHeap.mO MatHeap.mB].
    + rewrite !length_upd. auto.
    + intros v' H. apply nth_upd_cases in H. destruct H as [(-> & E & _)|(N & H)]; [apply nth_upd_eq; lia|]. rewrite nth_upd_ne by auto. apply (rl_none _ _ _ R); auto.
    + intros v' id' r' c' d' H. apply nth_upd_cases in H. destruct H as [(-> & E & _)|(N & H)]; [discriminate|]. rewrite nth_upd_ne by auto.
      pose proof (rl_own _ _ _ R _ _ _ _ _ H) as (H1 & H2 & H3 & H4). split; auto. split; auto. split; auto. unfold holds in *. destruct (be id') as [k|] eqn:Ek; auto.
      rewrite E3; auto. intro E. apply N. assert (id' = id) by (eapply (rl_inj _ _ _ R); eauto). subst. eapply (rl_uniq _ _ _ R); eauto.
    + intros v' id' off' r' c' H. apply nth_upd_cases in H. destruct H as [(-> & E & _)|(N & H)]; [discriminate|]. rewrite nth_upd_ne by auto.
      apply (rl_view _ _ _ R) in H. destruct H as (H1 & q & H2 & H3). split; auto. exists q. split; auto. intros d' Hd. apply H3. apply W in Hd. tauto.
    + intros v1 v2 i r1 c1 d1 r2 c2 d2 H H'. apply nth_upd_cases in H. apply nth_upd_cases in H'.
      destruct H as [(-> & E & _)|(N & H)]; [discriminate|]. destruct H' as [(-> & E' & _)|(N' & H')]; [discriminate|]. eapply (rl_uniq _ _ _ R); eauto.
    + apply (rl_inj _ _ _ R).
    + intros i k Hi E. rewrite E2. eapply (rl_lt _ _ _ R); eauto.
    + intros k d' H. assert (Nk : be id <> Some k) by (intro E; eapply E4; eauto). rewrite E3 in H by auto. apply (rl_live _ _ _ R) in H. destruct H as (i & H1 & H2 & H3).
      exists i. split; auto. split; auto. apply W. split; auto. intros ->. congruence.
  - destruct (rl_view _ _ _ R _ _ _ _ _ Hv) as (I1 & p & I2 & I3). exists (mkObj r c p true), (mB m). cbn [oView oPtr oR oC arows acols owner negb aid].
    split; auto. split; auto. split; auto. split; auto. split; auto. split; auto. split; auto.
    assert (W : forall id' d', own (upd (aO a) v None) id' d' <-> own (aO a) id' d').
    { intros id' d'; split.
      - intros (v' & r' & c' & H). apply nth_upd_cases in H. destruct H as [(-> & E & _)|(N & H)]; [discriminate|]. exists v', r', c'; auto.
      - intros (v' & r' & c' & H). exists v', r', c'. rewrite nth_upd_ne; auto. intros ->. congruence. }
    split; cbn [SpecHeap.aO SpecHeap.aN MatHeap.mO MatHeap.mB].
    + rewrite !length_upd. auto.
    + intros v' H. apply nth_upd_cases in H. destruct H as [(-> & E & _)|(N & H)]; [apply nth_upd_eq; lia|]. rewrite nth_upd_ne by auto. apply (rl_none _ _ _ R); auto.
    + intros v' id' r' c' d' H. apply nth_upd_cases in H. destruct H as [(-> & E & _)|(N & H)]; [discriminate|]. rewrite nth_upd_ne by auto. apply (rl_own _ _ _ R) in H. auto.
    + intros v' id' off' r' c' H. apply nth_upd_cases in H. destruct H as [(-> & E & _)|(N & H)]; [discriminate|]. rewrite nth_upd_ne by auto.
      apply (rl_view _ _ _ R) in H. destruct H as (H1 & q & H2 & H3). split; auto. exists q. split; auto. intros d' Hd. apply H3, W; auto.
    + intros v1 v2 i r1 c1 d1 r2 c2 d2 H H'. apply nth_upd_cases in H. apply nth_upd_cases in H'.
      destruct H as [(-> & E & _)|(N & H)]; [discriminate|]. destruct H' as [(-> & E' & _)|(N' & H')]; [discriminate|]. eapply (rl_uniq _ _ _ R); eauto.
    + apply (rl_inj _ _ _ R).
    + apply (rl_lt _ _ _ R).
    + intros k d' H. apply (rl_live _ _ _ R) in H. destruct H as (i & H1 & H2 & H3). exists i. split; auto. split; auto. apply W; auto.
Qed.

(* P4: a new shape of the same size *)
Lemma rel_reshape : forall be a m v o q r c, Rel be a m -> nth_error (aO a) v = Some (Some o) -> nth_error (mO m) v = Some (Some q) -> r * c = asize F o ->
  Rel be (aset F a v (reshape F o r c)) (oset F m v (mkObj r c (oPtr q) (oView q))).
Proof.
  intros be a m v o q r c R Hv Hq Hs. pose proof (rl_len _ _ _ R) as L. pose proof (nth_lt _ _ _ _ Hv) as Hl. unfold aset, oset.
  assert (W : forall id' d', own (upd (aO a) v (Some (reshape F o r c))) id' d' <-> own (aO a) id' d').
  { intros id' d'; split; intros (v' & r' & c' & H).
    - apply nth_upd_cases in H. destruct H as [(-> & E & _)|(_ & H)]; [|exists v', r', c'; auto].
      destruct o as [i r0 c0 d0|]; [|discriminate]. inversion E; subst. exists v, r0, c0. auto.
    - destruct (Nat.eq_dec v v') as [<-|N].
      + rewrite Hv in H. inversion H; subst. exists v, r, c. rewrite nth_upd_eq by auto. reflexivity.
      + exists v', r', c'. rewrite nth_upd_ne; auto. }
  split; cbn [SpecHeap.aO SpecHeap.aN MatHeap.mO MatHeap.mB].
  - rewrite !length_upd. auto.
  - intros v' H. apply nth_upd_cases in H. destruct H as [(-> & E & _)|(N & H)]; [discriminate|]. rewrite nth_upd_ne by auto. apply (rl_none _ _ _ R); auto.
  - intros v' id' r' c' d' H. apply nth_upd_cases in H. destruct H as [(-> & E & _)|(N & H)].
    + destruct o as [i r0 c0 d0|]; [|discriminate]. inversion E; subst. apply (rl_own _ _ _ R) in Hv. destruct Hv as (H1 & H2 & H3 & H4). rewrite H3 in Hq. inversion Hq; subst.
      cbn [oPtr oView]. split; auto. split; [unfold asize in Hs; cbn in Hs; lia|]. split; [rewrite nth_upd_eq by lia; reflexivity|auto].
    + rewrite nth_upd_ne by auto. apply (rl_own _ _ _ R) in H. auto.
  - intros v' id' off' r' c' H. apply nth_upd_cases in H. destruct H as [(-> & E & _)|(N & H)].
    + destruct o as [|i off0 r0 c0]; [discriminate|]. inversion E; subst. apply (rl_view _ _ _ R) in Hv. destruct Hv as (H1 & p & H2 & H3). rewrite H2 in Hq. inversion Hq; subst.
      cbn [oPtr oView]. split; auto. exists p. rewrite nth_upd_eq by lia. split; auto. intros d Hd. apply W in Hd. apply H3 in Hd. unfold asize in Hs; cbn in Hs. destruct Hd; split; auto; lia.
    + rewrite nth_upd_ne by auto. apply (rl_view _ _ _ R) in H. destruct H as (H1 & p & H2 & H3). split; auto. exists p. split; auto. intros d Hd. apply H3, W; auto.
  - intros v1 v2 i r1 c1 d1 r2 c2 d2 H H'.
    assert (G : forall v' r' c' d', nth_error (upd (aO a) v (Some (reshape F o r c))) v' = Some (Some (AOwn i r' c' d')) -> exists r0 c0, nth_error (aO a) v' = Some (Some (AOwn i r0 c0 d'))).
    { intros v' r' c' d' X. apply nth_upd_cases in X. destruct X as [(-> & E & _)|(_ & X)]; [|eauto]. destruct o as [i0 r0 c0 d0|]; [|discriminate]. inversion E; subst. eauto. }
    apply G in H. apply G in H'. destruct H as (? & ? & H), H' as (? & ? & H'). eapply (rl_uniq _ _ _ R); eauto.
  - apply (rl_inj _ _ _ R).
  - apply (rl_lt _ _ _ R).
  - intros k d' H. apply (rl_live _ _ _ R) in H. destruct H as (i & H1 & H2 & H3). exists i. split; auto. split; auto. apply W; auto.
Qed.

(* P5: the cells of a storage are overwritten *)
Definition areg (a : amem) (id : nat) (d : list F) : amem := mkA F (aN a) (map (setId F id d) (aO a)).
Lemma areg_nth : forall a id d v o, nth_error (aO (areg a id d)) v = Some (Some o) -> exists o', nth_error (aO a) v = Some (Some o') /\
  arows F o' = arows F o /\ acols F o' = acols F o /\ aid F o' = aid F o /\ aoff F o' = aoff F o /\ owner F o' = owner F o /\
  (aid F o <> id -> o' = o) /\ (owner F o = false -> o' = o) /\ (forall r c e, o = AOwn id r c e -> e = d /\ exists e', o' = AOwn id r c e').
Proof.
  intros a id d v o H. unfold areg in H. cbn in H. rewrite nth_error_map in H. destruct (nth_error (aO a) v) as [[o'|]|] eqn:E; cbn in H; try discriminate.
  exists o'. split; auto. destruct o' as [i r c e|i off r c].
  - cbn in H. inversion H; subst o. destruct (Nat.eqb_spec i id) as [->|N].
    + cbn. split; [auto|]. split; [auto|]. split; [auto|]. split; [auto|]. split; [auto|]. split; [congruence|]. split; [discriminate|]. intros r' c' e' X. inversion X; subst; eauto.
    + cbn. split; [auto|]. split; [auto|]. split; [auto|]. split; [auto|]. split; [auto|]. split; [auto|]. split; [auto|]. intros r' c' e' X. inversion X; subst. congruence.
  - cbn in H. inversion H; subst o. split; [auto|]. split; [auto|]. split; [auto|]. split; [auto|]. split; [auto|]. split; [auto|]. split; [auto|]. intros; discriminate.
Qed.
Lemma areg_own : forall a id d d0 id' d', uniq (aO a) -> own (aO a) id d0 -> (own (aO (areg a id d)) id' d' <-> if id =? id' then d' = d else own (aO a) id' d').
Proof.
  intros a id d d0 id' d' U Hd. split.
  - intros (v & r & c & H). destruct (Nat.eqb_spec id id') as [->|N].
    + apply areg_nth in H. destruct H as (o' & _ & _ & _ & _ & _ & _ & _ & _ & H). destruct (H _ _ _ eq_refl) as [-> _]. auto.
    + apply areg_nth in H. destruct H as (o' & H & _ & _ & _ & _ & _ & E & _). cbn [aid] in E. rewrite E in H by auto. exists v, r, c. auto.
  - destruct (Nat.eqb_spec id id') as [->|N].
    + intros ->. destruct Hd as (v & r & c & H). exists v, r, c. unfold areg. cbn. rewrite nth_error_map, H. cbn. rewrite Nat.eqb_refl. reflexivity.
    + intros (v & r & c & H). exists v, r, c. unfold areg. cbn. rewrite nth_error_map, H. cbn. destruct (Nat.eqb_spec id' id); [congruence|reflexivity].
Qed.
Lemma rel_write : forall be a m id d0 d k, Rel be a m -> own (aO a) id d0 -> be id = Some k -> length d = length d0 ->
  Rel be (areg a id d) (mkMem F (upd (mB m) k (Some d)) (mO m)).
Proof.
  intros be a m id d0 d k R Hd Hk Hl. pose proof (rl_len _ _ _ R) as L. pose proof (rl_uniq _ _ _ R) as U.
  assert (W : forall id' d', own (aO (areg a id d)) id' d' <-> if id =? id' then d' = d else own (aO a) id' d') by (intros; eapply areg_own; eauto).
  assert (Iid : id < aN a) by (destruct Hd as (v & r & c & H); apply (rl_own _ _ _ R) in H; tauto).
  assert (Kl : k < length (mB m)) by (eapply (rl_lt _ _ _ R); eauto).
  split; cbn [SpecHeap.aN MatHeap.mO MatHeap.mB].
  - unfold areg; cbn. rewrite map_length. auto.
  - intros v H. unfold areg in H. cbn in H. rewrite nth_error_map in H. destruct (nth_error (aO a) v) as [[o|]|] eqn:E; cbn in H; try discriminate; [destruct o; discriminate|]. apply (rl_none _ _ _ R); auto.
  - intros v id' r c d' H. pose proof H as H0. apply areg_nth in H. destruct H as (o' & H & Hr & Hc & Hi & _ & Ho & H1 & _ & H2). cbn [arows acols aid owner] in *.
    destruct o' as [i r0 c0 e|]; [|discriminate]. cbn in *. subst. pose proof (rl_own _ _ _ R _ _ _ _ _ H) as (I1 & I2 & I3 & I4). unfold areg; cbn [SpecHeap.aN]. split; auto.
    destruct (Nat.eq_dec id' id) as [->|N].
    + destruct (H2 _ _ _ eq_refl) as (-> & _). assert (e = d0) by (eapply own_fun; eauto; exists v, r, c; eauto). subst e. split; [lia|]. split; auto.
      unfold holds. rewrite Hk. apply nth_upd_eq; auto.
    + specialize (H1 N). inversion H1; subst. split; auto. split; auto. unfold holds in *. destruct (be id') as [k'|] eqn:Ek'; auto. rewrite nth_upd_ne; auto.
      intros <-. apply N. eapply (rl_inj _ _ _ R); eauto.
  - intros v id' off r c H. apply areg_nth in H. destruct H as (o' & H & _ & _ & _ & _ & _ & _ & E & _). rewrite E in H by auto.
    apply (rl_view _ _ _ R) in H. destruct H as (H1 & p & H2 & H3). split; auto. exists p. split; auto. intros d' Hd'. apply W in Hd'.
    destruct (Nat.eqb_spec id id') as [->|N]; [|auto]. subst. rewrite Hl. auto.
  - intros v v' i r c e r' c' e' H H'. apply areg_nth in H. apply areg_nth in H'. destruct H as (o & H & _ & _ & Hi & _ & Ho & _), H' as (o' & H' & _ & _ & Hi' & _ & Ho' & _).
    destruct o as [i1 r1 c1 d1|]; [|discriminate]. destruct o' as [i2 r2 c2 d2|]; [|discriminate]. cbn in Hi, Hi'. subst. eapply U; eauto.
  - apply (rl_inj _ _ _ R).
  - intros i k' Hi E. rewrite length_upd. eapply (rl_lt _ _ _ R); eauto.
  - intros k' d' H. rewrite nth_error_upd in H. destruct (Nat.eqb_spec k k') as [<-|N].
    + replace (k <? length (mB m)) with true in H by (symmetry; apply Nat.ltb_lt; auto). cbn in H. inversion H; subst. exists id. split; auto. split; auto. apply W. rewrite Nat.eqb_refl. auto.
    + apply (rl_live _ _ _ R) in H. destruct H as (i & H1 & H2 & H3). exists i. split; auto. split; auto. apply W. destruct (Nat.eqb_spec id i) as [<-|]; auto. congruence.
Qed.
End Heap.
