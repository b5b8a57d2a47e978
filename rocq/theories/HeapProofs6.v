(* HeapProofs6.v - consequences of the refinement: programs without views run, nothing leaks; copies are independent *)
From Coq Require Import List Arith Bool Lia.
From Verif Require Import Base Scalar Mat SpecMat MatProofs MatFacts MatHeap SpecHeap HeapProofs1 HeapProofs2 HeapProofs3 HeapProofs4 HeapProofs5.
Import ListNotations.
Local Open Scope nat_scope.

Section Heap.
Variable F : FOps.
Notation amem := (amem F). Notation mem := (mem F). Notation aobj := (aobj F).
Notation AOwn := (AOwn F). Notation AView := (AView F). Notation aO := (aO F). Notation aN := (aN F). Notation mO := (mO F). Notation mB := (mB F).
Notation Rel := (Rel F). Notation own := (own F). Notation areg := (areg F).
Notation arows := (arows F). Notation acols := (acols F). Notation aid := (aid F). Notation aoff := (aoff F). Notation asize := (asize F). Notation aget := (aget F).

Lemma rel_shows : forall be a m v o xs, Rel be a m -> aget a v = Some o -> acells F a v = Some xs -> shows F m v (arows o) (acols o) xs.
Proof.
  intros be a m v o xs R H Hx. destruct (obj_rel F _ _ _ _ _ R H) as (_ & p & E & _). destruct (acells_spec F _ _ _ _ _ _ R H Hx) as [L C].
  split; [eauto|]. split; auto. intros i x Hi. pose proof (nth_lt _ _ _ _ Hi) as Hl. rewrite L in Hl. destruct (C ltac:(lia)) as (d & Hd & _ & Cn).
  eapply at_rel; eauto. rewrite <- Cn; auto.
Qed.
Lemma rel_noLeak : forall be a m, Rel be a m -> allGone F m -> noLeak F m.
Proof.
  intros be a m R G k [d|] H; auto. apply (rl_live _ _ _ _ R) in H. destruct H as (id & _ & _ & v & r & c & Hv).
  apply (rl_own _ _ _ _ R) in Hv. destruct Hv as (_ & _ & Hv & _). apply G in Hv. discriminate.
Qed.
(* every program with a meaning runs, with that meaning; once every object is destroyed no block is left *)
Theorem legal_programs_run : forall ps a, arun F (astart F) ps = Some a -> exists m, run F (start F) ps = Ok m /\
  (forall v o xs, aget a v = Some o -> acells F a v = Some xs -> shows F m v (arows o) (acols o) xs) /\ (allGone F m -> noLeak F m).
Proof. intros ps a H. destruct (run_start F ps a H) as (m & be & E & R). exists m. split; auto. split; [intros; eapply rel_shows; eauto|eapply rel_noLeak; eauto]. Qed.

(** * programs without views *)
Definition shp (o : option aobj) : option (nat * nat) := option_map (fun o => (arows o, acols o)) o.
Definition NV (a : amem) (l : list (option (nat * nat))) : Prop :=
  map shp (aO a) = l /\ forall v o, nth_error (aO a) v = Some (Some o) -> owner F o = true.
Lemma nv_get : forall a l v s, NV a l -> sget l v = Some s -> exists id d, aget a v = Some (AOwn id (fst s) (snd s) d).
Proof.
  intros a l v s [E O] H. subst l. unfold sget in H. rewrite nth_error_map in H. destruct (nth_error (aO a) v) as [[o|]|] eqn:En; cbn in H; try discriminate.
  pose proof (O _ _ En) as Ho. destruct o as [id r c d|]; [|discriminate]. inversion H; subst. cbn. exists id, d. apply aget_nth; auto.
Qed.
Lemma nv_cells : forall be a m v id r c d, Rel be a m -> aget a v = Some (AOwn id r c d) -> acells F a v = Some d.
Proof.
  intros be a m v id r c d R H. unfold acells. rewrite H. apply aget_nth in H. pose proof (rl_own _ _ _ _ R _ _ _ _ _ H) as (_ & L & _). unfold cellsOf, SpecHeap.asize. cbn.
  destruct (Nat.eqb_spec (r * c) 0) as [E|N].
  - rewrite E in L. destruct d; [auto|discriminate].
  - assert (O : region F a id = Some d) by (apply (region_own F be a m); auto; exists v, r, c; auto). rewrite O. rewrite firstn_all2; auto. lia.
Qed.
Lemma nv_app : forall n a l o, NV a l -> match o with Some o => owner F o = true | None => True end -> NV (mkA F n (aO a ++ [o])) (l ++ [shp o]).
Proof.
  intros n a l o [E O] Ho. split; cbn.
  - rewrite map_app, E. reflexivity.
  - intros v q H. rewrite nth_app_last in H. destruct (v =? length (aO a)); [inversion H; subst; auto|eauto].
Qed.
Lemma nv_upd : forall n a l v o, NV a l -> match o with Some o => owner F o = true | None => True end -> NV (mkA F n (upd (aO a) v o)) (upd l v (shp o)).
Proof.
  intros n a l v o [E O] Ho. split; cbn.
  - rewrite map_upd, E. reflexivity.
  - intros w q H. apply nth_upd_cases in H. destruct H as [(_ & X & _)|(_ & H)]; [subst o; auto|eauto].
Qed.
Lemma nv_areg : forall a l id d, NV a l -> NV (areg a id d) l.
Proof.
  intros a l id d [E O]. split.
  - unfold HeapProofs1.areg. cbn. rewrite map_map, <- E. apply map_ext. intros [[i r c e|]|]; cbn; auto. destruct (i =? id); auto.
  - intros v o H. apply areg_nth in H. destruct H as (o' & H & _ & _ & _ & _ & Ho & _). rewrite <- Ho. eauto.
Qed.
Lemma nv_awrite : forall be a m l v id r c d xs, Rel be a m -> aget a v = Some (AOwn id r c d) -> NV a l -> exists a', awrite F a (AOwn id r c d) xs = Some a' /\ NV a' l.
Proof.
  intros be a m l v id r c d xs R H N. unfold awrite. destruct (asize (AOwn id r c d) =? 0); [eauto|]. cbn [SpecHeap.aid].
  assert (O : region F a id = Some d) by (apply (region_own F be a m); auto; exists v, r, c; apply aget_nth; auto). rewrite O. eexists. split; [reflexivity|]. apply nv_areg; auto.
Qed.
Lemma upd_shape_same : forall (l : list (option (nat * nat))) v s, sget l v = Some s -> upd l v (Some s) = l.
Proof. intros l v s H. unfold sget in H. destruct (nth_error l v) as [[x|]|] eqn:E; try discriminate. inversion H; subst. apply upd_same; auto. Qed.

Lemma shape_step : forall be a m l p l', Rel be a m -> NV a l -> shape1 F l p = Some l' -> exists a', aexec F a p = Some a' /\ NV a' l'.
Proof.
  intros be a m l p l' R N H.
  assert (Len : length l = length (aO a)) by (destruct N as [<- _]; apply map_length).
  destruct p as [|r c|v|v|v r c|d s|v x|v i x|f v|f d s|d s|v i|v n|v s e|v|v r c]; cbn [shape1] in H; try discriminate; cbn [aexec].
  - inversion H; subst. eexists. split; [reflexivity|]. apply (nv_app _ a l (Some (AOwn (aN a) 0 0 []))); auto.
  - inversion H; subst. eexists. split; [reflexivity|]. apply (nv_app _ a l (Some (AOwn (aN a) r c (repeat (fjunk F) (r * c))))); auto.
  - destruct (sget l v) as [s|] eqn:Es; [|discriminate]. destruct (nv_get _ _ _ _ N Es) as (id & d & G). rewrite G, (nv_cells _ _ _ _ _ _ _ _ R G). inversion H; subst.
    eexists. split; [reflexivity|]. destruct s as [r c]. apply (nv_app _ a l (Some (AOwn (aN a) r c d))); auto.
  - destruct (sget l v) as [s|] eqn:Es; [|discriminate]. destruct (nv_get _ _ _ _ N Es) as (id & d & G). rewrite G. inversion H; subst. eexists. split; [reflexivity|]. apply (nv_upd _ a l v None); auto.
  - destruct (sget l v) as [s|] eqn:Es; [|discriminate]. destruct (nv_get _ _ _ _ N Es) as (id & d & G). rewrite G. inversion H; subst. eexists. split; [reflexivity|].
    destruct (_ =? _); [apply (nv_upd _ a l v (Some (AOwn id r c d))); auto|apply (nv_upd _ a l v (Some (AOwn (aN a) r c (repeat (fjunk F) (r * c))))); auto].
  - destruct (sget l d) as [sd|] eqn:Ed; [|discriminate]. destruct (sget l s) as [ss|] eqn:Es; [|discriminate]. inversion H; subst. clear H.
    destruct (nv_get _ _ _ _ N Ed) as (id & xd & Gd). destruct (nv_get _ _ _ _ N Es) as (is & xs & Gs). rewrite Gd, Gs, (nv_cells _ _ _ _ _ _ _ _ R Gs). destruct sd as [r c], ss as [r' c']. cbn [fst snd] in *.
    unfold SpecHeap.asize. cbn [SpecHeap.arows SpecHeap.acols owner reshape]. destruct (Nat.eqb_spec (r' * c') (r * c)) as [E|Ne].
    + unfold clear_. cbn [SpecHeap.aid SpecHeap.aoff]. rewrite Nat.leb_refl, orb_true_r. cbn [orb].
      assert (E' : r' * c' = asize (AOwn id r c xd)) by exact E. destruct (resize_same F be a m d _ r' c' R Gd E') as (m1 & _ & R1).
      apply (nv_awrite be (aset F a d (AOwn id r' c' xd)) m1 _ d); auto; [apply aget_upd_eq; eapply aget_lt; eauto|]. apply (nv_upd _ a l d (Some (AOwn id r' c' xd))); auto.
    + assert (Nd : id <> is).
      { intros ->. apply aget_nth in Gd. apply aget_nth in Gs. assert (d = s) by (eapply (rl_uniq _ _ _ _ R); eauto). subst. rewrite Gd in Gs. inversion Gs; subst. apply Ne; reflexivity. }
      cbn [SpecHeap.aid andb]. destruct (Nat.eqb_spec id is); [contradiction|]. cbn [andb]. eexists. split; [reflexivity|]. apply (nv_upd _ a l d (Some (AOwn (aN a) r' c' xs))); auto.
  - destruct (sget l v) as [s|] eqn:Es; [|discriminate]. destruct (nv_get _ _ _ _ N Es) as (id & d & G). rewrite G. inversion H; subst. eapply nv_awrite; eauto.
  - destruct (sget l v) as [[r c]|] eqn:Es; [|discriminate]. destruct (nv_get _ _ _ _ N Es) as (id & d & G). rewrite G, (nv_cells _ _ _ _ _ _ _ _ R G). unfold SpecHeap.asize. cbn [SpecHeap.arows SpecHeap.acols fst snd].
    destruct (i <? r * c) eqn:El; [|discriminate]. inversion H; subst. eapply nv_awrite; eauto.
  - destruct (sget l v) as [s|] eqn:Es; [|discriminate]. destruct (nv_get _ _ _ _ N Es) as (id & d & G). rewrite G, (nv_cells _ _ _ _ _ _ _ _ R G). inversion H; subst. eapply nv_awrite; eauto.
  - destruct (sget l d) as [[r c]|] eqn:Ed; [|discriminate]. destruct (sget l s) as [[r' c']|] eqn:Es; [|discriminate]. destruct ((r =? r') && (c =? c')) eqn:Eq; [|discriminate]. inversion H; subst. clear H.
    destruct (nv_get _ _ _ _ N Ed) as (id & xd & Gd). destruct (nv_get _ _ _ _ N Es) as (is & xs & Gs). rewrite Gd, Gs, (nv_cells _ _ _ _ _ _ _ _ R Gs), (nv_cells _ _ _ _ _ _ _ _ R Gd).
    unfold SpecHeap.asize, apart. cbn [SpecHeap.arows SpecHeap.acols SpecHeap.aoff fst snd]. rewrite Eq. cbn [andb]. rewrite Nat.eqb_refl, !orb_true_r. cbn [orb]. eapply nv_awrite; eauto.
  - destruct (sget l d) as [[r k]|] eqn:Ed; [|discriminate]. destruct (sget l s) as [[k' c]|] eqn:Es; [|discriminate]. destruct (Nat.eqb_spec k k') as [<-|]; [|discriminate].
    destruct (Nat.eqb_spec d s) as [|Nds]; [discriminate|]. cbn [negb andb] in H. inversion H; subst. clear H.
    destruct (nv_get _ _ _ _ N Ed) as (id & xd & Gd). destruct (nv_get _ _ _ _ N Es) as (is & xs & Gs). rewrite Gd, Gs, (nv_cells _ _ _ _ _ _ _ _ R Gs), (nv_cells _ _ _ _ _ _ _ _ R Gd).
    cbn [SpecHeap.arows SpecHeap.acols SpecHeap.aid fst snd]. rewrite Nat.eqb_refl.
    assert (Nd : id <> is) by (intros ->; apply aget_nth in Gd; apply aget_nth in Gs; apply Nds; eapply (rl_uniq _ _ _ _ R); eauto).
    destruct (Nat.eqb_spec id is); [contradiction|]. cbn [negb andb].
    assert (Ld : length xd = r * k) by (apply aget_nth in Gd; apply (rl_own _ _ _ _ R) in Gd; tauto). assert (Ls : length xs = k * c) by (apply aget_nth in Gs; apply (rl_own _ _ _ _ R) in Gs; tauto).
    assert (Mp : exists p, mmul F (mkMat r k xd) (mkMat k c xs) = Ok p).
    { assert (W1 : mwf (mkMat r k xd)) by (unfold mwf; cbn; auto). assert (W2 : mwf (mkMat k c xs)) by (unfold mwf; cbn; auto).
      destruct (mwf_is_gen F _ W1) as (fx & Fx). destruct (mwf_is_gen F _ W2) as (fy & Fy). cbn [mrows mcols] in Fx, Fy. rewrite Fx, Fy. rewrite mmul_gen. eauto. }
    destruct Mp as (p & Mp). rewrite Mp. cbv zeta. set (a1 := mkA F (S (aN a)) (aO a ++ [None])).
    assert (Hd : d < length (aO a)) by (eapply aget_lt; eauto).
    assert (Sw : forall o, upd (aO a ++ [None]) d (Some o) = upd (aO a) d (Some o) ++ [None]).
    { intro o. clear - Hd. revert d Hd. induction (aO a) as [|b t IH]; intros [|d] Hd; cbn in *; try lia; auto. f_equal. apply IH. lia. }
    unfold SpecHeap.asize. cbn [SpecHeap.arows SpecHeap.acols].
    assert (A1 : forall k0 o, owner F o = true -> (arows o, acols o) = (r, c) -> NV (mkA F k0 (upd (aO a1) d (Some o))) (upd l d (Some (r, c)) ++ [None])).
    { intros k0 o Ho Hs. unfold a1. cbn [SpecHeap.aO]. rewrite Sw. apply (nv_app k0 (mkA F k0 (upd (aO a) d (Some o))) (upd l d (Some (r, c))) None); auto.
      rewrite <- Hs. change (Some (arows o, acols o)) with (shp (Some o)). apply (nv_upd k0 a l d (Some o)); auto. }
    destruct (Nat.eqb_spec (r * c) (r * k)) as [E|Ne].
    + cbn [reshape]. assert (NA := A1 (aN a1) (AOwn id r c xd) eq_refl eq_refl). unfold awrite. destruct (asize (AOwn id r c xd) =? 0); [eauto|]. cbn [SpecHeap.aid].
      assert (G : region F (aset F a1 d (AOwn id r c xd)) id = Some xd).
      { apply find_own; [|exists d, r, c; cbn; apply nth_upd_eq; rewrite app_length; cbn; lia].
        assert (E' : r * c = asize (AOwn id r k xd)) by exact E. destruct (resize_same F be a m d _ r c R Gd E') as (m1 & _ & R1). unfold aset, a1. cbn. rewrite Sw. apply (rl_uniq _ _ _ _ (rel_pad F _ _ _ R1)). }
      rewrite G. eexists. split; [reflexivity|]. apply (nv_areg _ _ id _ NA).
    + eexists. split; [reflexivity|]. apply A1; auto.
Qed.
Lemma shapes_legal : forall ps be a m l l', Rel be a m -> NV a l -> shapes F l ps = Some l' -> exists a', arun F a ps = Some a' /\ NV a' l'.
Proof.
  induction ps as [|p ps IH]; intros be a m l l' R N H; cbn [shapes arun] in *.
  - inversion H; subst. eauto.
  - destruct (shape1 F l p) as [l1|] eqn:E; [|discriminate]. destruct (shape_step _ _ _ _ _ _ R N E) as (a1 & E1 & N1). rewrite E1. destruct (exec_rel F be a m p a1 R E1) as (m1 & be1 & _ & R1). eapply IH; eauto.
Qed.
(* C04 *)
Theorem owners_safe : forall ps l, shapes F [] ps = Some l -> exists m, run F (start F) ps = Ok m /\
  (forall v r c, nth_error l v = Some (Some (r, c)) -> exists xs, shows F m v r c xs) /\
  ((forall v s, nth_error l v = Some s -> s = None) -> noLeak F m).
Proof.
  intros ps l H. assert (N0 : NV (astart F) []) by (split; [reflexivity|intros v o Hv; destruct v; discriminate]).
  destruct (shapes_legal ps _ _ _ _ _ (rel_start F) N0 H) as (a & E & N). destruct (run_start F ps a E) as (m & be & Em & R). exists m. split; auto. split.
  - intros v r c Hv. assert (Sg : sget l v = Some (r, c)) by (unfold sget; rewrite Hv; auto). destruct (nv_get _ _ _ _ N Sg) as (id & d & G). exists d. cbn in G.
    exact (rel_shows _ _ _ _ _ _ R G (nv_cells _ _ _ _ _ _ _ _ R G)).
  - intro A. apply (rel_noLeak _ _ _ R). intros v o Hv. destruct o as [o|]; auto. destruct N as [<- _].
    assert (L : v < length (aO a)) by (rewrite <- (rl_len _ _ _ _ R); eapply nth_lt; eauto). destruct (nth_error (aO a) v) as [[q|]|] eqn:En; [|apply (rl_none _ _ _ _ R) in En; congruence|apply nth_error_None in En; lia].
    specialize (A v (shp (Some q))). rewrite nth_error_map, En in A. specialize (A eq_refl). discriminate.
Qed.
End Heap.
