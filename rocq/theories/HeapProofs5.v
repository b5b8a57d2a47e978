(* HeapProofs5.v - the pointer model of matrices refines the model without pointers: every program *)
From Coq Require Import List Arith Bool Lia.
From Verif Require Import Base Scalar Mat SpecMat MatProofs MatFacts MatHeap SpecHeap HeapProofs1 HeapProofs2 HeapProofs3 HeapProofs4.
Import ListNotations.
Local Open Scope nat_scope.

Section Heap.
Variable F : FOps.
Notation amem := (amem F). Notation mem := (mem F). Notation aobj := (aobj F).
Notation AOwn := (AOwn F). Notation AView := (AView F). Notation aO := (aO F). Notation aN := (aN F). Notation mO := (mO F). Notation mB := (mB F).
Notation Rel := (Rel F). Notation own := (own F). Notation areg := (areg F).
Notation arows := (arows F). Notation acols := (acols F). Notation aid := (aid F). Notation aoff := (aoff F). Notation asize := (asize F). Notation aget := (aget F).

Definition akill (a : amem) (v : nat) : amem := mkA F (aN a) (upd (aO a) v None).
Lemma destroy_rel : forall be a m v o, Rel be a m -> aget a v = Some o -> exists m', destroy F m v = Ok m' /\ Rel be (akill a v) m'.
Proof.
  intros be a m v o R H. apply aget_nth in H. destruct (rel_kill F be a m v o R H) as (q & b & Eq & Eb & _ & _ & _ & _ & _ & R').
  unfold destroy, oget. rewrite Eq. cbn [bind]. rewrite Eb. cbn [bind]. eauto.
Qed.
Lemma kill_own : forall a v i r c e id d, uniq F (aO a) -> nth_error (aO a) v = Some (Some (AOwn i r c e)) -> i <> id -> (own (aO (akill a v)) id d <-> own (aO a) id d).
Proof.
  intros a v i r c e id d U H N. cbn. split; intros (v' & r' & c' & Hv).
  - apply nth_upd_cases in Hv. destruct Hv as [(_ & X & _)|(_ & Hv)]; [discriminate|]. exists v', r', c'. auto.
  - exists v', r', c'. rewrite nth_upd_ne; auto. intros <-. congruence.
Qed.
Lemma kill_uniq : forall a v, uniq F (aO a) -> uniq F (aO (akill a v)).
Proof.
  intros a v U v1 v2 id r1 c1 d1 r2 c2 d2 H1 H2. cbn in *. apply nth_upd_cases in H1. apply nth_upd_cases in H2.
  destruct H1 as [(_ & X & _)|(_ & H1)]; [discriminate|]. destruct H2 as [(_ & X & _)|(_ & H2)]; [discriminate|]. eapply U; eauto.
Qed.
Lemma kill_awrite : forall a v i r c e o xs, uniq F (aO a) -> nth_error (aO a) v = Some (Some (AOwn i r c e)) -> i <> aid o ->
  awrite F (akill a v) o xs = option_map (fun b => akill b v) (awrite F a o xs).
Proof.
  intros a v i r c e o xs U H N. unfold awrite. destruct (asize o =? 0); auto.
  assert (E : region F (akill a v) (aid o) = region F a (aid o)).
  { unfold region. destruct (findId F (aO a) (aid o)) as [d|] eqn:Ef.
    - apply find_own in Ef; auto. apply find_own; [apply kill_uniq; auto|]. eapply kill_own; eauto.
    - destruct (findId F (aO (akill a v)) (aid o)) as [d|] eqn:Eg; auto. apply find_own in Eg; [|apply kill_uniq; auto]. apply (kill_own a v i r c e) in Eg; auto.
      apply find_own in Eg; auto. congruence. }
  rewrite E. destruct (region F a (aid o)) as [d|]; auto. cbn [option_map]. unfold akill. cbn. rewrite map_upd. reflexivity.
Qed.

Lemma mul_rel : forall be a m d s a', Rel be a m -> aexec F a (OpMul F d s) = Some a' -> exists m' be', mulAssign F m d s = Ok m' /\ Rel be' a' m'.
Proof.
  intros be a m d s a' Rl X. cbn [aexec] in X. destruct (aget a d) as [od|] eqn:Hd; [|discriminate]. destruct (aget a s) as [os|] eqn:Hs; [|discriminate].
  destruct (acells F a d) as [x|] eqn:Hx; [|discriminate]. destruct (acells F a s) as [y|] eqn:Hy; [|discriminate].
  destruct (Nat.eqb_spec (acols od) (arows os)) as [EK|]; [|discriminate]. destruct (Nat.eqb_spec (aid od) (aid os)) as [|Nid]; [cbn in X; discriminate|]. cbn [negb andb] in X.
  destruct (mmul F _ _) as [p|] eqn:Hp; [|discriminate].
  destruct (obj_rel F _ _ _ _ _ Rl Hd) as (Iod & pd & Ed & _). destruct (obj_rel F _ _ _ _ _ Rl Hs) as (Ios & ps & Es & _). pose proof (rl_len _ _ _ _ Rl) as Ln.
  destruct (mkCopy_rel F be a m d od x Rl Hd Hx) as (m1 & be1 & E1 & R1).
  destruct (acells_spec F _ _ _ _ _ _ Rl Hd Hx) as [Lx _].
  set (R := arows od) in *. set (K := acols od) in *. set (C := acols os) in *. set (a1 := aown F a R K x) in *. set (w := length (aO a)) in *.
  assert (Hp' : mmul F (mkMat R K x) (mkMat K C y) = Ok p) by (rewrite <- EK in Hp; exact Hp).
  assert (Lt : d < w) by (eapply aget_lt; eauto). assert (Lt' : s < w) by (eapply aget_lt; eauto).
  assert (Gd1 : aget a1 d = Some od) by (unfold a1, aown; destruct a as [n l]; eapply aget_app; eauto).
  assert (Gs1 : aget a1 s = Some os) by (unfold a1, aown; destruct a as [n l]; eapply aget_app; eauto).
  assert (Gw1 : aget a1 w = Some (AOwn (aN a) R K x)) by (apply aget_nth; cbn; unfold w; rewrite nth_app_last, Nat.eqb_refl; auto).
  assert (Hy1 : acells F a1 s = Some y) by (eapply acells_ext with (a := a); eauto; intros _ e He; apply aown_keep; auto).
  assert (Kill : akill a1 w = mkA F (S (aN a)) (aO a ++ [None])) by (unfold akill, a1, aown, w; cbn; rewrite upd_app; auto).
  assert (Nds : d <> s) by (intros ->; congruence).
  destruct (obj_rel F _ _ _ _ _ R1 Gs1) as (_ & ps1 & Es1 & _).
  unfold mulAssign. rewrite Ed, Es. cbn [bind oR oC]. unfold assert_. rewrite EK. fold K. rewrite <- EK, Nat.eqb_refl. cbn [bind]. rewrite E1. cbn [bind]. rewrite Es1. cbn [bind oC].
  fold R. fold C. rewrite Ln. fold w.
  assert (Core : forall be2 A2 m2 od2 A', Rel be2 A2 m2 -> resize F m1 d R C = Ok m2 -> aget A2 d = Some od2 -> aget A2 w = Some (AOwn (aN a) R K x) -> aget A2 s = Some os ->
     arows od2 = R -> acols od2 = C -> aid od2 <> aN a -> aid os <> aid od2 -> acells F A2 s = Some y -> awrite F A2 od2 (mdata p) = Some A' -> akill A' w = a' ->
     exists m' be', (m <- resize F m1 d R C ;; m <- fill F m d (f0 F) ;;
      m <- forN R (fun r m => forN K (fun k m => af <- at2 F m w r k ;; o <- oget F m d ;; forN (oC o) (fun c m =>
        x <- at2 F m d r c ;; y <- at2 F m s k c ;; put2 F m d r c (fadd F x (fmul F af y))) m) m) m ;; destroy F m w) = Ok m' /\ Rel be' a' m').
  { intros be2 A2 m2 od2 A' R2 Er G1 G2 G3 S1 S2 N1 N2 Hy2 Hw Hk. rewrite Er. cbn [bind].
    destruct (mul_core F be2 A2 m2 d w s od2 os (aN a) R K C x y p A' R2 G1 G2 G3 S1 S2) as (m3 & E3 & Em & R3); auto.
    destruct (fill F m2 d (f0 F)) as [mf|] eqn:Ef; [|discriminate]. cbn [bind] in E3 |- *. rewrite E3. cbn [bind].
    assert (Gw : exists o, aget A' w = Some o).
    { unfold awrite in Hw. destruct (asize od2 =? 0); [inversion Hw; subst; eauto|]. destruct (region F A2 (aid od2)) as [D|]; [|discriminate]. inversion Hw; subst A'.
      destruct (areg_get F _ (aid od2) (splice F D (aoff od2) (mdata p)) _ _ G2) as (o' & H' & _). eauto. }
    destruct Gw as (ow & Gw). destruct (destroy_rel _ _ _ _ _ R3 Gw) as (m' & E' & R'). exists m', be2. rewrite Hk in R'. auto. }
  destruct (Nat.eqb_spec (R * C) (asize od)) as [Esz|Nsz].
  - destruct (resize_same F be1 a1 m1 d od R C R1 Gd1 Esz) as (m2 & E2 & R2). set (od2 := reshape F od R C) in *. set (A2 := aset F a1 d od2) in *.
    rewrite <- Kill in X. replace (aset F (akill a1 w) d od2) with (akill A2 w) in X by (unfold akill, A2, aset; cbn; rewrite upd_comm by lia; auto).
    assert (Gw2 : aget A2 w = Some (AOwn (aN a) R K x)) by (unfold A2, aset; rewrite (aget_upd_ne F _ _ (aN a1)) by lia; exact Gw1).
    rewrite (kill_awrite A2 w (aN a) R K x) in X; [|eapply rl_uniq; eauto|apply aget_nth; auto|unfold od2; rewrite reshape_id; lia].
    destruct (awrite F A2 od2 (mdata p)) as [A'|] eqn:Hw; [|discriminate]. cbn in X. assert (H0 : akill A' w = a') by congruence.
    assert (Gs2 : aget A2 s = Some os) by (unfold A2, aset; rewrite (aget_upd_ne F _ _ (aN a1)) by lia; exact Gs1).
    apply (Core be1 A2 m2 od2 A'); auto.
    + apply aget_upd_eq. eapply aget_lt; eauto.
    + apply reshape_rows.
    + apply reshape_cols.
    + unfold od2. rewrite reshape_id. lia.
    + unfold od2. rewrite reshape_id. lia.
    + eapply acells_ext with (a := a1); eauto. intros _ e He. apply aset_own; auto.
  - destruct (resize_new F be1 a1 m1 d od R C R1 Gd1 Nsz) as (m2 & be2 & E2 & R2). set (jk := repeat (fjunk F) (R * C)) in *. set (A2 := arenew F a1 d R C jk) in *.
    assert (Lj : length jk = R * C) by apply repeat_length. set (od2 := AOwn (aN a1) R C jk).
    assert (Gw2 : aget A2 w = Some (AOwn (aN a) R K x)) by (unfold A2, arenew; rewrite (aget_upd_ne F _ _ (aN a1)) by lia; exact Gw1).
    assert (Gs2 : aget A2 s = Some os) by (unfold A2, arenew; rewrite (aget_upd_ne F _ _ (aN a1)) by lia; exact Gs1).
    assert (Ex : akill (arenew F a1 d R C (mdata p)) w = a').
    { inversion X. unfold akill, arenew, a1, aown. cbn. f_equal. rewrite upd_comm by lia. unfold w. rewrite upd_app. auto. }
    assert (Lp : length (mdata p) = R * C).
    { destruct (acells_spec F _ _ _ _ _ _ Rl Hs Hy) as [Ly _]. assert (W1 : mwf (mkMat R K x)) by (unfold mwf; cbn; exact Lx). assert (W2 : mwf (mkMat (arows os) C y)) by (unfold mwf; cbn; exact Ly).
      destruct (mwf_is_gen F _ W1) as (fx & Fx). destruct (mwf_is_gen F _ W2) as (fy & Fy). cbn [mrows mcols] in Fx, Fy. rewrite Fx, Fy, <- EK in Hp. fold K in Hp. rewrite mmul_gen in Hp. inversion Hp. apply mwf_gen. }
    apply (Core be2 A2 m2 od2 (arenew F a1 d R C (mdata p))); auto.
    + apply aget_upd_eq. eapply aget_lt; eauto.
    + unfold od2, a1. cbn. lia.
    + unfold od2, a1. cbn. lia.
    + eapply acells_ext with (a := a1); eauto. intros _ e He. unfold A2. eapply renew_own; eauto.
    + eapply (renew_write F be2 a1 m2); eauto; [eapply aget_lt; eauto|]. intros v id r c e _ Hv. apply (rl_own _ _ _ _ R1) in Hv. tauto.
Qed.

(** * views *)
Lemma view_rel : forall be a m v o off r c, Rel be a m -> aget a v = Some o -> off + r * c <= asize o ->
  exists q, oget F m v = Ok q /\ oR q = arows o /\ oC q = acols o /\ Rel be (anew F a (AView (aid o) (aoff o + off) r c)) (fst (mkView F m q off r c)).
Proof.
  intros be a m v o off r c R H Hs. destruct (obj_rel F _ _ _ _ _ R H) as (Hid & p & E & P). eexists. split; [exact E|]. split; auto. split; auto.
  unfold mkView, onew, anew. cbn [fst oPtr]. pose proof (rl_len _ _ _ _ R) as Ln.
  pose proof (rel_view_slot F be _ _ (length (aO a)) (aid o) (aoff o + off) r c (shift p off) (rel_pad F _ _ _ R)) as G. cbn [SpecHeap.aO SpecHeap.aN MatHeap.mO MatHeap.mB] in G.
  rewrite upd_app in G. rewrite <- Ln, upd_app in G. rewrite Ln in G. apply G; auto; [rewrite nth_app_last, Nat.eqb_refl; auto|].
  intros d Hd. assert (Hd' : own (aO a) (aid o) d).
  { destruct Hd as (v' & r' & c' & Hv). rewrite nth_app_last in Hv. destruct (v' =? length (aO a)); [discriminate|]. exists v', r', c'. auto. }
  destruct (P _ Hd') as [P1 ->]. split; [lia|]. unfold base. destruct (be (aid o)); cbn [shift]; auto.
Qed.

Theorem exec_rel : forall be a m p a', Rel be a m -> aexec F a p = Some a' -> exists m' be', exec F m p = Ok m' /\ Rel be' a' m'.
Proof.
  intros be a m p a' R X. destruct p as [|r c|v|v|v r c|d s|v x|v i x|f v|f d s|d s|v i|v n|v s e|v|v r c]; cbn [exec].
  - cbn in X. inversion X; subst. unfold mkEmpty, onew. cbn [fst].
    pose proof (rel_fill_null F be _ _ (length (aO a)) (rel_pad F _ _ _ R)) as G. pose proof (rl_len _ _ _ _ R) as Ln. cbn [SpecHeap.aO SpecHeap.aN MatHeap.mO MatHeap.mB] in G.
    rewrite upd_app in G. rewrite <- Ln, upd_app in G. rewrite Ln in G. do 2 eexists. split; [reflexivity|]. apply G. rewrite nth_app_last, Nat.eqb_refl. auto.
  - cbn [aexec] in X. inversion X; subst. unfold mkSized, alloc, onew. cbn [fst MatHeap.mO MatHeap.mB]. do 2 eexists. split; [reflexivity|]. apply aown_rel with (be := be); auto. apply repeat_length.
  - cbn [aexec] in X. destruct (aget a v) as [o|] eqn:H; [|discriminate]. destruct (acells F a v) as [d|] eqn:Hd; [|discriminate]. inversion X; subst.
    destruct (mkCopy_rel F be a m v o d R H Hd) as (m' & be' & E & R'). rewrite E. cbn [bind fst]. eauto.
  - cbn [aexec] in X. destruct (aget a v) as [o|] eqn:H; [|discriminate]. inversion X; subst. destruct (destroy_rel _ _ _ _ _ R H) as (m' & E & R'). eauto.
  - cbn [aexec] in X. destruct (aget a v) as [o|] eqn:H; [|discriminate]. inversion X; subst. destruct (Nat.eqb_spec (r * c) (asize o)) as [E|N].
    + destruct (resize_same F _ _ _ _ _ _ _ R H E) as (m' & E' & R'). eauto.
    + destruct (resize_new F _ _ _ _ _ _ _ R H N) as (m' & be' & E' & R'). eauto.
  - apply (assign_rel F be a m d s a'); auto.
  - cbn [aexec] in X. destruct (aget a v) as [o|] eqn:H; [|discriminate]. destruct (fill_rel F _ _ _ _ _ _ _ R H X) as (m' & E & _ & R'). eauto.
  - cbn [aexec] in X. destruct (aget a v) as [o|] eqn:H; [|discriminate]. destruct (acells F a v) as [d|] eqn:Hd; [|discriminate].
    destruct (Nat.ltb_spec i (asize o)) as [Hi|]; [|discriminate]. destruct (acells_spec F _ _ _ _ _ _ R H Hd) as [L C]. destruct (C ltac:(lia)) as (D & HD & Ed & _).
    destruct (put_rel F be a m v o D i x R H HD Hi) as (m' & E & _ & R'). exists m', be. split; auto.
    destruct (awrite_some F _ _ _ _ _ _ R H ltac:(lia) _ X) as (D' & HD' & LD & ->). assert (D' = D) by (eapply own_fun; eauto; eapply rl_uniq; eauto). subst D'.
    rewrite Ed, splice_upd by lia. exact R'.
  - cbn [aexec] in X. destruct (aget a v) as [o|] eqn:H; [|discriminate]. destruct (acells F a v) as [d|] eqn:Hd; [|discriminate]. destruct (map_rel F _ _ _ _ _ _ _ _ R H Hd X) as (m' & E & _ & R'). eauto.
  - cbn [aexec] in X. destruct (aget a d) as [od|] eqn:H; [|discriminate]. destruct (aget a s) as [os|] eqn:Hs; [|discriminate].
    destruct (acells F a d) as [x|] eqn:Hx; [|discriminate]. destruct (acells F a s) as [y|] eqn:Hy; [|discriminate].
    destruct (Nat.eqb_spec (arows od) (arows os)); [|discriminate]. destruct (Nat.eqb_spec (acols od) (acols os)); [|discriminate]. cbn [andb] in X.
    destruct (apart F od os (asize od)) eqn:Ap; [|discriminate]. destruct (zip_rel F be a m d s od os f x y a') as (m' & E & _ & R'); auto. eauto.
  - apply (mul_rel be a m d s a'); auto.
  - cbn [aexec] in X. destruct (aget a v) as [o|] eqn:H; [|discriminate]. destruct (Nat.ltb_spec i (arows o)) as [Hi|]; [|discriminate]. unfold aview in X. rewrite H in X. inversion X; subst.
    destruct (view_rel be a m v o (i * acols o) 1 (acols o) R H) as (q & E & Er & Ec & R'); [unfold SpecHeap.asize; nia|]. unfold rowView. rewrite E. cbn [bind]. unfold assert_. rewrite Er, Ec.
    destruct (Nat.ltb_spec i (arows o)); [|lia]. cbn [bind]. eauto.
  - cbn [aexec] in X. destruct (aget a v) as [o|] eqn:H; [|discriminate]. destruct (Nat.ltb_spec n (arows o)) as [Hi|]; [|discriminate]. unfold aview in X. rewrite H in X. inversion X; subst.
    destruct (view_rel be a m v o 0 n (acols o) R H) as (q & E & Er & Ec & R'); [unfold SpecHeap.asize; nia|]. unfold topView. rewrite E. cbn [bind]. unfold assert_. rewrite Er, Ec.
    destruct (Nat.ltb_spec n (arows o)); [|lia]. cbn [bind]. eauto.
  - cbn [aexec] in X. destruct (aget a v) as [o|] eqn:H; [|discriminate]. destruct (Nat.ltb_spec s e) as [Hi|]; [|discriminate]. destruct (Nat.leb_spec e (arows o)) as [He|]; [|discriminate].
    cbn [andb] in X. unfold aview in X. rewrite H in X. inversion X; subst.
    destruct (view_rel be a m v o (s * acols o) (e - s) (acols o) R H) as (q & E & Er & Ec & R'); [unfold SpecHeap.asize; nia|]. unfold rowsView. rewrite E. cbn [bind]. unfold assert_. rewrite Er, Ec.
    destruct (Nat.ltb_spec s e); [|lia]. cbn [bind]. destruct (Nat.leb_spec e (arows o)); [|lia]. cbn [bind]. eauto.
  - cbn [aexec] in X. destruct (aget a v) as [o|] eqn:H; [|discriminate]. unfold aview in X. rewrite H in X. inversion X; subst.
    destruct (view_rel be a m v o 0 (arows o) (acols o) R H) as (q & E & Er & Ec & R'); [unfold SpecHeap.asize; lia|]. unfold wholeView. rewrite E. cbn [bind]. rewrite Er, Ec. eauto.
  - cbn [aexec] in X. destruct (aget a v) as [o|] eqn:H; [|discriminate]. destruct (Nat.eqb_spec (asize o) (r * c)) as [Es|]; [|discriminate]. unfold aview in X. rewrite H in X. inversion X; subst.
    destruct (view_rel be a m v o 0 r c R H) as (q & E & Er & Ec & R'); [lia|]. unfold sizeView. rewrite E. cbn [bind]. unfold assert_, osize. rewrite Er, Ec.
    change (arows o * acols o) with (asize o). rewrite Es, Nat.eqb_refl. cbn [bind]. eauto.
Qed.
Theorem run_rel : forall ps be a m a', Rel be a m -> arun F a ps = Some a' -> exists m' be', run F m ps = Ok m' /\ Rel be' a' m'.
Proof.
  induction ps as [|p ps IH]; intros be a m a' R X; cbn [arun] in X.
  - inversion X; subst. exists m, be. auto.
  - destruct (aexec F a p) as [b|] eqn:E; [|discriminate]. destruct (exec_rel be a m p b R E) as (m1 & be1 & E1 & R1). unfold run. cbn [forL]. rewrite E1. cbn [bind]. eapply IH; eauto.
Qed.
Theorem run_start : forall ps a', arun F (astart F) ps = Some a' -> exists m' be', run F (start F) ps = Ok m' /\ Rel be' a' m'.
Proof. intros. eapply run_rel; eauto. apply rel_start. Qed.
End Heap.
