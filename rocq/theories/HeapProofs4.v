(* HeapProofs4.v - the pointer model of matrices refines the model without pointers: copy, assignment, product, views, programs *)
From Coq Require Import List Arith Bool Lia.
From Verif Require Import Base Scalar Mat SpecMat MatProofs MatHeap SpecHeap HeapProofs1 HeapProofs2 HeapProofs3.
Import ListNotations.
Local Open Scope nat_scope.

Section Heap.
Variable F : FOps.
Notation amem := (amem F). Notation mem := (mem F). Notation aobj := (aobj F).
Notation AOwn := (AOwn F). Notation AView := (AView F). Notation aO := (aO F). Notation aN := (aN F). Notation mO := (mO F). Notation mB := (mB F).
Notation Rel := (Rel F). Notation own := (own F). Notation areg := (areg F).
Notation arows := (arows F). Notation acols := (acols F). Notation aid := (aid F). Notation aoff := (aoff F). Notation asize := (asize F). Notation aget := (aget F).

Lemma acells_ext : forall be a m be' a' m' v o xs, Rel be a m -> Rel be' a' m' -> aget a v = Some o -> aget a' v = Some o ->
  (asize o <> 0 -> forall d, own (aO a) (aid o) d -> own (aO a') (aid o) d) -> acells F a v = Some xs -> acells F a' v = Some xs.
Proof.
  intros be a m be' a' m' v o xs R R' H H' W Hx. unfold acells in *. rewrite H in Hx. rewrite H'. unfold cellsOf in *. destruct (Nat.eqb_spec (asize o) 0) as [|N]; auto.
  destruct (region F a (aid o)) as [d|] eqn:Er; [|discriminate]. apply (region_own F be a m _ _ R) in Er. apply W in Er; auto. apply (region_own F be' a' m' _ _ R') in Er. rewrite Er. auto.
Qed.
Lemma own_id : forall be a m id d, Rel be a m -> own (aO a) id d -> id < aN a.
Proof. intros be a m id d R (v & r & c & H). apply (rl_own _ _ _ _ R) in H. tauto. Qed.
Lemma oget_eq : forall (m m' : mem) v, mO m' = mO m -> oget F m' v = oget F m v.
Proof. intros m m' v E. unfold oget. rewrite E. auto. Qed.
Lemma aget_app : forall (n : nat) (l : list (option aobj)) x v o n', aget (mkA F n l) v = Some o -> aget (mkA F n' (l ++ [x])) v = Some o.
Proof. intros. apply aget_nth in H. apply aget_nth. cbn in *. rewrite nth_error_app1; auto. eapply nth_lt; eauto. Qed.

(* a new owner with a new block *)
Lemma aown_rel : forall be a m r c d, Rel be a m -> length d = r * c ->
  Rel (fupd be (aN a) (Some (length (mB m)))) (aown F a r c d) (mkMem F (mB m ++ [Some d]) (mO m ++ [Some (mkObj r c (Some (length (mB m), 0)) false)])).
Proof.
  intros be a m r c d R L. pose proof (rl_len _ _ _ _ R) as Ln.
  pose proof (rel_fill F be _ _ (length (aO a)) r c d (rel_pad F _ _ _ R)) as G. cbn [SpecHeap.aO SpecHeap.aN MatHeap.mO MatHeap.mB] in G. cbv zeta in G.
  rewrite upd_app in G. rewrite <- Ln, upd_app in G. rewrite Ln in G. apply G; auto. rewrite nth_app_last, Nat.eqb_refl. auto.
Qed.
Lemma aown_keep : forall a r c d id e, own (aO a) id e -> own (aO (aown F a r c d)) id e.
Proof. intros a r c d id e (v & r' & c' & H). exists v, r', c'. cbn. rewrite nth_error_app1; auto. eapply nth_lt; eauto. Qed.
Lemma mkCopy_rel : forall be a m v o xs, Rel be a m -> aget a v = Some o -> acells F a v = Some xs ->
  exists m' be', mkCopy F m v = Ok (m', length (mO m)) /\ Rel be' (aown F a (arows o) (acols o) xs) m'.
Proof.
  intros be a m v o xs R H Hx. destruct (obj_rel F _ _ _ _ _ R H) as (Hid & p & E & P). pose proof (rl_len _ _ _ _ R) as Ln.
  destruct (acells_spec F _ _ _ _ _ _ R H Hx) as [L C].
  unfold mkCopy. rewrite E. cbn [bind oR oC alloc onew MatHeap.mO MatHeap.mB]. unfold osize. cbn [oR oC]. change (arows o * acols o) with (asize o).
  set (jk := repeat (fjunk F) (asize o)). assert (Lj : length jk = arows o * acols o) by (unfold jk; rewrite repeat_length; reflexivity).
  pose proof (aown_rel be a m (arows o) (acols o) jk R Lj) as R1. set (m1 := mkMem F _ _) in R1 |- *. set (be1 := fupd be _ _) in R1.
  set (a1 := aown F a (arows o) (acols o) jk) in *. set (w := length (mO m)).
  assert (G1 : aget a1 v = Some o). { unfold a1, aown. destruct a as [n l]. eapply aget_app; eauto. }
  assert (G2 : aget a1 w = Some (AOwn (aN a) (arows o) (acols o) jk)). { apply aget_nth. cbn. unfold w. rewrite Ln, nth_app_last, Nat.eqb_refl. auto. }
  assert (Hx1 : acells F a1 v = Some xs). { eapply acells_ext with (a := a); eauto. intros _ d Hd. apply aown_keep; auto. }
  pose proof (obj_rel F _ _ _ _ _ R1 G2) as (_ & q & Eq & _).
  set (a0 := mkA F (aN a) (aO a ++ [None])).
  assert (Ear : forall d, arenew F a0 w (arows o) (acols o) d = aown F a (arows o) (acols o) d). { intro d. unfold arenew, aown, a0. cbn. unfold w. rewrite Ln, upd_app. auto. }
  assert (Hw : awrite F a1 (AOwn (aN a) (arows o) (acols o) jk) xs = Some (aown F a (arows o) (acols o) xs)).
  { unfold a1. rewrite <- !Ear. eapply (renew_write F be1 a0 m1); auto.
    - rewrite Ear. exact R1.
    - unfold a0, w. cbn. rewrite app_length, Ln. cbn. lia.
    - intros w' id r' c' d' _ Hw'. unfold a0 in Hw'. cbn in Hw'. rewrite nth_app_last in Hw'. destruct (w' =? length (aO a)); [discriminate|]. apply (rl_own _ _ _ _ R) in Hw'. cbn. tauto. }
  destruct (copy_rel F be1 a1 m1 w v _ o xs (aown F a (arows o) (acols o) xs)
    (fun i m => x <- at_ F m v i ;; o <- oget F m w ;; b <- store F (mB m) (oPtr o) i x ;; Ok (mkMem F b (mO m))) R1 G2 G1 Hx1 eq_refl) as (m' & E' & Em & R'); auto.
  - unfold clear_. cbn [SpecHeap.aid SpecHeap.aoff]. destruct (Nat.eqb_spec (aN a) (aid o)); [lia|]. reflexivity.
  - intros mi i x Hi Em Ea. rewrite Ea. cbn [bind]. rewrite (oget_eq _ _ _ Em), Eq. cbn [bind]. eapply store_put; eauto.
  - exists m', be1. change (asize (AOwn (aN a) (arows o) (acols o) jk)) with (asize o) in E'. rewrite E'. cbn [bind]. auto.
Qed.

(** * assignment *)
Lemma aset_own : forall a v o r c id d, aget a v = Some o -> own (aO a) id d -> own (aO (aset F a v (reshape F o r c))) id d.
Proof.
  intros a v o r c id d H (v' & r' & c' & Hv). apply aget_nth in H. cbn. destruct (Nat.eq_dec v v') as [<-|N].
  - exists v, r, c. rewrite H in Hv. inversion Hv; subst. rewrite nth_upd_eq by (eapply nth_lt; eauto). reflexivity.
  - exists v', r', c'. rewrite nth_upd_ne; auto.
Qed.
Lemma renew_own : forall a v o r c e id d, aget a v = Some o -> own (aO a) id d -> (owner F o = true -> aid o <> id) -> own (aO (arenew F a v r c e)) id d.
Proof.
  intros a v o r c e id d H (v' & r' & c' & Hv) N. apply aget_nth in H. cbn. exists v', r', c'. rewrite nth_upd_ne; auto. intros <-. rewrite H in Hv. inversion Hv; subst. apply N; auto.
Qed.
Lemma aget_upd_ne : forall n (l : list (option aobj)) n' v w x, v <> w -> aget (mkA F n (upd l v x)) w = aget (mkA F n' l) w.
Proof. intros. unfold SpecHeap.aget. cbn. rewrite nth_upd_ne; auto. Qed.
Lemma aget_upd_eq : forall n (l : list (option aobj)) v o, v < length l -> aget (mkA F n (upd l v (Some o))) v = Some o.
Proof. intros. apply aget_nth. cbn. apply nth_upd_eq; auto. Qed.
Lemma aget_eta : forall a n v, aget (mkA F n (aO a)) v = aget a v.
Proof. reflexivity. Qed.
Lemma aget_lt : forall a v o, aget a v = Some o -> v < length (aO a).
Proof. intros. apply aget_nth in H. eapply nth_lt; eauto. Qed.
Lemma reshape_size : forall o r c, asize (reshape F o r c) = r * c.
Proof. destruct o; auto. Qed.
Lemma reshape_id : forall o r c, aid (reshape F o r c) = aid o. Proof. destruct o; auto. Qed.
Lemma reshape_off : forall o r c, aoff (reshape F o r c) = aoff o. Proof. destruct o; auto. Qed.
Lemma reshape_rows : forall o r c, arows (reshape F o r c) = r. Proof. destruct o; auto. Qed.
Lemma reshape_cols : forall o r c, acols (reshape F o r c) = c. Proof. destruct o; auto. Qed.

Lemma assign_rel : forall be a m d s a', Rel be a m -> aexec F a (OpAssign F d s) = Some a' -> exists m' be', assign F m d s = Ok m' /\ Rel be' a' m'.
Proof.
  intros be a m d s a' R X. cbn [aexec] in X. destruct (aget a d) as [od|] eqn:Hd; [|discriminate]. destruct (aget a s) as [os|] eqn:Hs; [|discriminate].
  destruct (acells F a s) as [xs|] eqn:Hx; [|discriminate]. destruct (obj_rel F _ _ _ _ _ R Hs) as (Hid & p & E & P). destruct (acells_spec F _ _ _ _ _ _ R Hs Hx) as [L C].
  unfold assign. rewrite E. cbn [bind oR oC]. destruct (Nat.eqb_spec (asize os) (asize od)) as [Es|Ns].
  - destruct (clear_ F od os (asize od)) eqn:Cl; [|discriminate].
    destruct (resize_same F be a m d od (arows os) (acols os) R Hd Es) as (m1 & E1 & R1). rewrite E1. cbn [bind].
    set (od1 := reshape F od (arows os) (acols os)) in *. set (a1 := aset F a d od1) in *.
    assert (G1 : aget a1 d = Some od1) by (apply aget_upd_eq; eapply aget_lt; eauto).
    assert (G2 : aget a1 s = Some os /\ acells F a1 s = Some xs).
    { destruct (Nat.eq_dec d s) as [<-|N].
      - assert (od = os) by congruence. subst os. unfold a1, od1. rewrite reshape_same. unfold aset. rewrite upd_same by (apply aget_nth; auto). destruct a; auto.
      - assert (G : aget a1 s = Some os) by (unfold a1, aset; rewrite (aget_upd_ne _ _ (aN a)); auto).
        split; auto. eapply acells_ext with (a := a); eauto. intros _ e He. apply aset_own; auto. }
    destruct G2 as [G2 Hx1]. destruct (obj_rel F _ _ _ _ _ R1 G1) as (_ & q & Eq & _). rewrite Eq. cbn [bind]. unfold osize. cbn [oR oC]. change (arows od1 * acols od1) with (asize od1).
    destruct (copy_rel F be a1 m1 d s od1 os xs a' (fun i m => x <- at_ F m s i ;; put F m d i x) R1 G1 G2 Hx1) as (m' & E' & _ & R'); auto.
    + unfold od1. rewrite reshape_size. auto.
    + unfold clear_, od1 in *. rewrite reshape_id, reshape_off, reshape_size. replace (arows os * acols os) with (asize od) by (symmetry; exact Es). exact Cl.
    + intros mi i x Hi Em Ea. rewrite Ea. reflexivity.
    + exists m', be. auto.
  - destruct (owner F od && (aid od =? aid os) && negb (asize os =? 0)) eqn:Ow; [discriminate|]. inversion X; subst a'. clear X.
    destruct (resize_new F be a m d od (arows os) (acols os) R Hd Ns) as (m1 & be1 & E1 & R1). rewrite E1. cbn [bind].
    set (jk := repeat (fjunk F) (arows os * acols os)) in *. set (a1 := arenew F a d (arows os) (acols os) jk) in *.
    assert (Lj : length jk = arows os * acols os) by apply repeat_length. assert (Hl : d < length (aO a)) by (eapply aget_lt; eauto).
    assert (N : d <> s) by (intros ->; congruence).
    set (od1 := AOwn (aN a) (arows os) (acols os) jk).
    assert (G1 : aget a1 d = Some od1) by (apply aget_upd_eq; auto).
    assert (G2 : aget a1 s = Some os) by (unfold a1, arenew; rewrite (aget_upd_ne _ _ (aN a)); auto).
    assert (Hx1 : acells F a1 s = Some xs).
    { eapply acells_ext with (a := a); eauto. intros Nz e He. unfold a1. eapply renew_own; eauto. intros Ho Ei.
      rewrite Ho, Ei, Nat.eqb_refl in Ow. destruct (Nat.eqb_spec (asize os) 0); [lia|discriminate]. }
    assert (Hw : awrite F a1 od1 xs = Some (arenew F a d (arows os) (acols os) xs)).
    { eapply (renew_write F be1 a m1); eauto. intros w id r c e _ Hw. apply (rl_own _ _ _ _ R) in Hw. tauto. }
    destruct (obj_rel F _ _ _ _ _ R1 G1) as (_ & q & Eq & _). rewrite Eq. cbn [bind]. unfold osize. cbn [oR oC]. change (arows od1 * acols od1) with (asize od1).
    destruct (copy_rel F be1 a1 m1 d s od1 os xs (arenew F a d (arows os) (acols os) xs) (fun i m => x <- at_ F m s i ;; put F m d i x) R1 G1 G2 Hx1) as (m' & E' & _ & R'); auto.
    + unfold clear_, od1. cbn [SpecHeap.aid]. destruct (Nat.eqb_spec (aN a) (aid os)); [lia|reflexivity].
    + intros mi i x Hi Em Ea. rewrite Ea. reflexivity.
    + exists m', be1. auto.
Qed.

(** * product *)
Lemma mgen_const : forall r c (x : F), mgen r c (fun _ _ => x) = mkMat r c (repeat x (r * c)).
Proof.
  intros. unfold mgen. f_equal. assert (G : forall l : list nat, map (fun _ => x) l = repeat x (length l)) by (induction l; cbn; f_equal; auto).
  rewrite (flat_map_ext _ (fun _ => repeat x c)) by (intro; rewrite G, seq_length; auto).
  rewrite <- (seq_length r 0) at 2. induction (seq 0 r); cbn; auto. rewrite repeat_app. f_equal; auto.
Qed.
Lemma upd_splice : forall (D : list F) off xs i v, off + length xs <= length D -> i < length xs -> upd (splice F D off xs) (off + i) v = splice F D off (upd xs i v).
Proof.
  intros. apply list_ext. intro j. rewrite nth_error_upd, length_splice, !nth_splice, length_upd, nth_error_upd by (rewrite ?length_upd; lia).
  destruct (Nat.eqb_spec (off + i) j) as [<-|N].
  - destruct (Nat.ltb_spec (off + i) (length D)); [|lia]. destruct (Nat.ltb_spec (off + i) off); [lia|]. destruct (Nat.ltb_spec (off + i) (off + length xs)); [|lia].
    replace (off + i - off) with i by lia. rewrite Nat.eqb_refl. destruct (Nat.ltb_spec i (length xs)); [auto|lia].
  - cbn [andb]. destruct (Nat.ltb_spec j off); auto. destruct (Nat.ltb_spec j (off + length xs)); auto. destruct (Nat.eqb_spec i (j - off)); [lia|auto].
Qed.
Lemma awrite_some : forall be A m d od xs, Rel be A m -> aget A d = Some od -> asize od <> 0 -> forall A', awrite F A od xs = Some A' ->
  exists D, own (aO A) (aid od) D /\ aoff od + asize od <= length D /\ A' = areg A (aid od) (splice F D (aoff od) xs).
Proof.
  intros be A m d od xs R H N A' E. unfold awrite in E. destruct (Nat.eqb_spec (asize od) 0); [lia|]. destruct (region F A (aid od)) as [D|] eqn:Er; [|discriminate].
  apply (region_own F be A m _ _ R) in Er. exists D. split; auto. destruct (obj_rel F _ _ _ _ _ R H) as (_ & p & _ & P). destruct (P _ Er). split; auto. inversion E. reflexivity.
Qed.
Lemma mul_core : forall be A m d w s od os iw R K C x y p A', Rel be A m -> aget A d = Some od -> aget A w = Some (AOwn iw R K x) -> aget A s = Some os ->
  arows od = R -> acols od = C -> arows os = K -> acols os = C -> aid od <> iw -> aid os <> aid od -> acells F A s = Some y ->
  mmul F (mkMat R K x) (mkMat K C y) = Ok p -> awrite F A od (mdata p) = Some A' ->
  exists m', (m <- fill F m d (f0 F) ;;
    forN R (fun r m => forN K (fun k m => af <- at2 F m w r k ;; o <- oget F m d ;; forN (oC o) (fun c m =>
        x <- at2 F m d r c ;; y <- at2 F m s k c ;; put2 F m d r c (fadd F x (fmul F af y))) m) m) m) = Ok m' /\ mO m' = mO m /\ Rel be A' m'.
Proof.
  intros be A m d w s od os iw R K C x y p A' Rl Gd Gw Gs Er Ec Esr Esc Niw Nid Hy Hp Hw.
  pose proof (rl_uniq _ _ _ _ Rl) as U.
  assert (Ow : own (aO A) iw x) by (apply aget_nth in Gw; exists w, R, K; auto).
  assert (Lx : length x = R * K) by (apply aget_nth in Gw; apply (rl_own _ _ _ _ Rl) in Gw; tauto).
  assert (Sd : asize od = R * C) by (unfold SpecHeap.asize; congruence).
  destruct (acells_spec F _ _ _ _ _ _ Rl Gs Hy) as [Ly Cy]. assert (Ss : asize os = K * C) by (unfold SpecHeap.asize; congruence).
  unfold mmul, assert_ in Hp. cbn [mcols mrows] in Hp. rewrite Nat.eqb_refl in Hp. cbn [bind] in Hp.
  rewrite msetZero_gen in Hp by (unfold mwf; cbn; auto). cbn [bind] in Hp. rewrite mgen_const in Hp. cbn [mrows mcols] in Hp.
  set (z0 := mkMat R C (repeat (f0 F) (R * C))) in Hp.
  assert (Z : exists A0, awrite F A od (repeat (f0 F) (asize od)) = Some A0). { unfold awrite in Hw |- *. destruct (asize od =? 0); eauto. destruct (region F A (aid od)); [eauto|discriminate]. }
  destruct Z as (A0 & Z). destruct (fill_rel F be A m d od (f0 F) A0 Rl Gd Z) as (m0 & E0 & Em0 & R0). rewrite E0. cbn [bind].
  set (Q := fun (mi : mem) (out : mat F) => mO mi = mO m /\ mrows out = R /\ mcols out = C /\ length (mdata out) = R * C /\ exists Ai, awrite F A od (mdata out) = Some Ai /\ Rel be Ai mi).
  assert (G : exists m', forN R (fun r m => forN K (fun k m => af <- at2 F m w r k ;; o <- oget F m d ;; forN (oC o) (fun c m =>
        x <- at2 F m d r c ;; y <- at2 F m s k c ;; put2 F m d r c (fadd F x (fmul F af y))) m) m) m0 = Ok m' /\ Q m' p).
  { refine (forN_rel _ _ Q R _ _ _ m0 z0 p _ Hp).
    2:{ split; auto. split; auto. split; auto. split; [apply repeat_length|]. cbn [mdata z0]. rewrite Sd in Z. eauto. }
    intros r mr outr outr' Hr Qr Hr'. refine (forN_rel _ _ Q K _ _ _ mr outr outr' Qr Hr'). clear mr outr outr' Qr Hr'.
    intros k mk outk outk' Hk Qk Hk'. destruct Qk as (Q1 & Q2 & Q3 & Q4 & Ak & Q5 & Q6).
    assert (Xrk : exists xv, nth_error x (r * K + k) = Some xv). { destruct (nth_error x (r * K + k)) eqn:En; eauto. apply nth_error_None in En. nia. }
    destruct Xrk as (xv & Hxv).
    assert (Get : forall Ai mi (out : mat F), awrite F A od (mdata out) = Some Ai -> Rel be Ai mi -> length (mdata out) = R * C ->
        (exists o', aget Ai w = Some o' /\ arows o' = R /\ acols o' = K /\ aoff o' = 0 /\ aid o' = iw) /\
        (exists o', aget Ai d = Some o' /\ arows o' = R /\ acols o' = C /\ aid o' = aid od /\ aoff o' = aoff od) /\
        (exists o', aget Ai s = Some o' /\ arows o' = K /\ acols o' = C /\ aid o' = aid os /\ aoff o' = aoff os) /\
        (forall id e, id <> aid od -> own (aO A) id e -> own (aO Ai) id e)).
    { intros Ai mi out Ew Ri Lo. destruct (Nat.eq_dec (asize od) 0) as [Ez|Nz].
      - unfold awrite in Ew. rewrite Ez in Ew. cbn in Ew. inversion Ew; subst Ai. split; [exists (AOwn iw R K x); auto|]. split; [exists od; auto|]. split; [exists os; auto|]. auto.
      - destruct (awrite_some _ _ _ _ _ _ Rl Gd Nz _ Ew) as (D & HD & LD & ->).
        destruct (areg_get F _ (aid od) (splice F D (aoff od) (mdata out)) _ _ Gw) as (o1 & ? & ? & ? & ? & ? & ?).
        destruct (areg_get F _ (aid od) (splice F D (aoff od) (mdata out)) _ _ Gd) as (o2 & ? & ? & ? & ? & ? & ?).
        destruct (areg_get F _ (aid od) (splice F D (aoff od) (mdata out)) _ _ Gs) as (o3 & ? & ? & ? & ? & ? & ?).
        split; [exists o1; cbn in *; auto|]. split; [exists o2; repeat split; congruence|]. split; [exists o3; repeat split; congruence|].
        intros id e Ni He. apply (areg_own F A (aid od) _ D); auto. destruct (Nat.eqb_spec (aid od) id); [congruence|auto]. }
    assert (Aw : at2 F mk w r k = Ok xv).
    { destruct (Get _ _ _ Q5 Q6 Q4) as ((o' & G1 & G2 & G3 & G4 & G5) & _ & _ & Gk). eapply at2_rel with (o := o') (d := x); eauto; try lia.
      - rewrite G5. apply Gk; auto.
      - rewrite G4, G3. exact Hxv. }
    rewrite Aw. cbn [bind]. destruct (Get _ _ _ Q5 Q6 Q4) as (_ & (o2 & H1 & H2 & H3 & _) & _). destruct (obj_rel F _ _ _ _ _ Q6 H1) as (_ & q & Eq & _). rewrite Eq. cbn [bind oC]. rewrite H3.
    cbn [mget2] in Hk'. unfold mget2 in Hk' at 1. cbn [mrows mcols mdata] in Hk'. unfold assert_ in Hk' at 1 2.
    destruct (Nat.ltb_spec r R); [|lia]. destruct (Nat.ltb_spec k K); [|lia]. cbn [bind] in Hk'. unfold rget in Hk' at 1. rewrite Hxv in Hk'. cbn [bind] in Hk'. rewrite Q3 in Hk'.
    refine (forN_rel _ _ Q C _ _ _ mk outk outk' _ Hk'). 2:{ split; auto. split; auto. split; auto. split; auto. eauto. }
    clear mk outk outk' Hk' Q1 Q2 Q3 Q4 Ak Q5 Q6 Aw H1 H2 H3 o2 q Eq.
    intros c mc outc outc' Hc Qc Hc'. destruct Qc as (Q1 & Q2 & Q3 & Q4 & Ac & Q5 & Q6).
    destruct (Get _ _ _ Q5 Q6 Q4) as (_ & (o2 & D1 & D2 & D3 & D4 & D5) & (o3 & S1 & S2 & S3 & S4 & S5) & Gk).
    assert (Nz : asize od <> 0) by nia. destruct (awrite_some _ _ _ _ _ _ Rl Gd Nz _ Q5) as (D & HD & LD & ->).
    destruct (Cy ltac:(nia)) as (e & He & _ & Ce).
    unfold mget2, assert_ in Hc'. cbn [mrows mcols mdata] in Hc'. rewrite Q2, Q3 in Hc'. destruct (Nat.ltb_spec r R); [|lia]. destruct (Nat.ltb_spec c C); [|lia]. destruct (Nat.ltb_spec k K); [|lia].
    cbn [bind] in Hc'. unfold rget in Hc'. destruct (nth_error (mdata outc) (r * C + c)) as [xc|] eqn:Exc; [|discriminate]. destruct (nth_error y (k * C + c)) as [yc|] eqn:Eyc; [|discriminate].
    cbn [bind] in Hc'. unfold mset2, assert_, rset in Hc'. rewrite Q2, Q3 in Hc'. destruct (Nat.ltb_spec r R); [|lia]. destruct (Nat.ltb_spec c C); [|lia]. cbn [bind] in Hc'.
    destruct (Nat.ltb_spec (r * C + c) (length (mdata outc))); [|nia]. cbn [bind] in Hc'. inversion Hc'; subst outc'. clear Hc'.
    assert (Od : own (aO (areg A (aid od) (splice F D (aoff od) (mdata outc)))) (aid o2) (splice F D (aoff od) (mdata outc))).
    { apply (areg_own F A (aid od) _ D); auto. rewrite D4, Nat.eqb_refl. auto. }
    assert (Ad : at2 F mc d r c = Ok xc).
    { eapply at2_rel with (o := o2); eauto; try lia. rewrite D5, D3, nth_splice by lia. destruct (Nat.ltb_spec (aoff od + (r * C + c)) (aoff od)); [lia|].
      destruct (Nat.ltb_spec (aoff od + (r * C + c)) (aoff od + length (mdata outc))); [|lia]. rewrite <- Exc. f_equal. lia. }
    assert (As : at2 F mc s k c = Ok yc).
    { eapply at2_rel with (o := o3) (d := e); eauto; try lia. - rewrite S4. apply Gk; auto. - rewrite S5, S3, <- Ce; auto. nia. }
    rewrite Ad. cbn [bind]. rewrite As. cbn [bind].
    rewrite (put2_put F _ _ _ _ _ _ _ _ Q6 D1) by lia.
    destruct (put_rel F _ _ _ _ _ _ (r * acols o2 + c) (fadd F xc (fmul F xv yc)) Q6 D1 Od) as (m' & P1 & P2 & P3). { unfold SpecHeap.asize. rewrite D2, D3. nia. }
    exists m'. split; auto. unfold Q. cbn [mrows mcols mdata]. split; [congruence|]. split; auto. split; auto. split; [rewrite length_upd; auto|].
    rewrite D4, D5, D3, areg_areg, upd_splice in P3 by lia. eexists. split; [|exact P3].
    unfold awrite. destruct (Nat.eqb_spec (asize od) 0); [lia|]. apply (region_own F be A m _ _ Rl) in HD. rewrite HD. reflexivity. }
  destruct G as (m' & E' & Q1 & _ & _ & _ & Ai & Q5 & Q6). exists m'. split; auto. split; auto. rewrite Hw in Q5. inversion Q5; subst. auto.
Qed.
End Heap.
