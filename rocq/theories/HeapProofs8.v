(* HeapProofs8.v - the product in place: separate operands, the same object twice, shared storage *)
From Coq Require Import List Arith Bool Lia ZArith Reals Lra.
From Verif Require Import Base Scalar Mat SpecMat MatProofs MatFacts MatHeap SpecHeap HeapProofs1 HeapProofs2 HeapProofs3 HeapProofs4 HeapProofs5 HeapProofs6 HeapProofs7.
Import ListNotations.
Local Open Scope nat_scope.

Section Heap.
Variable F : FOps.
Notation amem := (amem F). Notation mem := (mem F). Notation aobj := (aobj F).
Notation AOwn := (AOwn F). Notation AView := (AView F). Notation aO := (aO F). Notation aN := (aN F). Notation mO := (mO F). Notation mB := (mB F).
Notation Rel := (Rel F). Notation own := (own F). Notation areg := (areg F).
Notation arows := (arows F). Notation acols := (acols F). Notation aid := (aid F). Notation aoff := (aoff F). Notation asize := (asize F). Notation aget := (aget F).

Lemma win_self : forall a v o, aget a v = Some o -> isWin F a v v 0.
Proof. intros a v o G. exists o, o. repeat split; auto; lia. Qed.
Lemma awrite_self : forall be a m v o ys a' be' m', Rel be a m -> Rel be' a' m' -> aget a v = Some o -> length ys = asize o -> awrite F a o ys = Some a' -> acells F a v <> None ->
  acells F a' v = Some ys /\ exists o', aget a' v = Some o' /\ arows o' = arows o /\ acols o' = acols o.
Proof.
  intros be a m v o ys a' be' m' R R' G L Hw Nx. destruct (acells F a v) as [xs|] eqn:Hx; [|congruence].
  destruct (write_win F be a m v v 0 o xs ys a' be' m' R R' (win_self _ _ _ G) G L Hx Hw) as (_ & A & _ & _ & B). auto.
Qed.
(* C02: operands on different storages *)
Theorem product_in_place : forall a m d s od os x y, reach F a m -> aget a d = Some od -> aget a s = Some os -> acells F a d = Some x -> acells F a s = Some y ->
  acols od = arows os -> ~ shares F a d s ->
  exists a' m' p, aexec F a (OpMul F d s) = Some a' /\ exec F m (OpMul F d s) = Ok m' /\ shows F m d (arows od) (acols od) x /\ shows F m s (arows os) (acols os) y /\
    mmul F (mkMat (arows od) (acols od) x) (mkMat (arows os) (acols os) y) = Ok p /\
    shows F m' d (arows od) (acols os) (mdata p) /\ shows F m' s (arows os) (acols os) y.
Proof.
  intros a m d s od os x y Rc Gd Gs Hx Hy EK Nsh. destruct (reach_rel F _ _ Rc) as (be & R). assert (Nid : aid od <> aid os) by (intro E; apply Nsh; exists od, os; auto).
  destruct (acells_spec F _ _ _ _ _ _ R Gd Hx) as [Lx _]. destruct (acells_spec F _ _ _ _ _ _ R Gs Hy) as [Ly _]. assert (Nds : d <> s) by (intros ->; congruence).
  destruct (obj_rel F _ _ _ _ _ R Gd) as (Id & _). destruct (obj_rel F _ _ _ _ _ R Gs) as (Is & _).
  assert (Mp : exists p, mmul F (mkMat (arows od) (acols od) x) (mkMat (arows os) (acols os) y) = Ok p /\ length (mdata p) = arows od * acols os).
  { rewrite <- EK in *. assert (W1 : mwf (mkMat (arows od) (acols od) x)) by (unfold mwf; cbn; auto). assert (W2 : mwf (mkMat (acols od) (acols os) y)) by (unfold mwf; cbn; unfold SpecHeap.asize in Ly; rewrite <- EK in Ly; auto).
    destruct (mwf_is_gen F _ W1) as (fx & Fx). destruct (mwf_is_gen F _ W2) as (fy & Fy). cbn [mrows mcols] in Fx, Fy. rewrite Fx, Fy, mmul_gen. eexists. split; [reflexivity|]. apply mwf_gen. }
  destruct Mp as (p & Mp0 & Lp). pose proof Mp0 as Mp. rewrite EK in Mp.
  set (a1 := mkA F (S (aN a)) (aO a ++ [None])).
  (* the spec is defined *)
  assert (Pad : forall v o, aget a v = Some o -> aget a1 v = Some o) by (intros v o G; unfold a1; destruct a as [n l]; eapply aget_app; eauto).
  assert (Reg : forall id, region F a1 id = region F a id).
  { intro id. unfold region, a1. cbn. clear. induction (aO a) as [|o l IH]; cbn; auto. destruct o as [[i r c e|]|]; auto. destruct (i =? id); auto. }
  assert (Ex : exists a', aexec F a (OpMul F d s) = Some a').
  { cbn [aexec]. rewrite Gd, Gs, Hx, Hy, EK, Nat.eqb_refl. destruct (Nat.eqb_spec (aid od) (aid os)); [contradiction|]. cbn [negb andb]. rewrite Mp. cbv zeta.
    destruct (Nat.eqb_spec (arows od * acols os) (asize od)) as [Es|Ns]; [|eauto]. fold a1. unfold awrite. rewrite reshape_size, reshape_id. destruct (Nat.eqb_spec (arows od * acols os) 0); [eauto|].
    assert (Rg : exists D, own (aO a) (aid od) D). { destruct (acells_spec F _ _ _ _ _ _ R Gd Hx) as [_ C]. destruct (C ltac:(lia)) as (D & HD & _). eauto. }
    destruct Rg as (D & v & r & c & HD).
    assert (O1 : own (aO a1) (aid od) D) by (exists v, r, c; apply aget_nth; apply Pad; apply aget_nth; auto).
    pose proof (aset_own F a1 d od (arows od) (acols os) (aid od) D (Pad _ _ Gd) O1) as O2.
    destruct (region F (aset F a1 d (reshape F od (arows od) (acols os))) (aid od)) as [D'|] eqn:Er; [eauto|]. exfalso.
    assert (Y : forall l id e, own l id e -> findId F l id <> None).
    { clear. induction l as [|o l IH]; intros id e (v & r & c & H); [destruct v; discriminate|]. destruct v as [|v].
      - cbn in H. inversion H; subst. cbn. rewrite Nat.eqb_refl. discriminate.
      - cbn in H. cbn. assert (Z : findId F l id <> None) by (eapply IH; exists v, r, c; eauto). destruct o as [[i r' c' e'|]|]; auto. destruct (i =? id); [discriminate|auto]. }
    exact (Y _ _ _ O2 Er). }
  destruct Ex as (a' & Ha). destruct (reach_exec F _ _ _ _ Rc Ha) as (m' & E & Rc'). destruct (reach_rel F _ _ Rc') as (be' & R').
  exists a', m', p. split; auto. split; auto. split; [eapply rel_shows; eauto|]. split; [eapply rel_shows; eauto|]. split; auto.
  (* the right operand keeps its cells *)
  assert (Sm : Same F (aid os) a a').
  { eapply frame_step; eauto. intros u ou Gu Ei. cbn [touches]. apply Nat.eqb_neq. intros ->. congruence. }
  destruct (same_cells F be a m be' a' m' s os y R R' Sm Gs Hy) as [Gs' Hy']. split; [|eapply rel_shows; eauto].
  (* the left operand *)
  cbn [aexec] in Ha. rewrite Gd, Gs, Hx, Hy, EK, Nat.eqb_refl in Ha. destruct (Nat.eqb_spec (aid od) (aid os)); [contradiction|]. cbn [negb andb] in Ha. rewrite Mp in Ha. cbv zeta in Ha. fold a1 in Ha.
  destruct (Nat.eqb_spec (arows od * acols os) (asize od)) as [Es|Ns].
  - destruct (resize_same F be a m d od (arows od) (acols os) R Gd Es) as (m1 & _ & R1). pose proof (rel_pad F _ _ _ R1) as R2.
    set (od1 := reshape F od (arows od) (acols os)) in *. assert (Hd : d < length (aO a)) by (eapply aget_lt; eauto).
    assert (Sw : aO (aset F a d od1) ++ [None] = upd (aO a1) d (Some od1)).
    { unfold a1. cbn. clear - Hd. revert d Hd. induction (aO a) as [|b t IH]; intros [|d] Hd; cbn in *; try lia; auto. f_equal. apply IH. lia. }
    set (a2 := aset F a1 d od1) in *.
    assert (G2 : aget a2 d = Some od1) by (apply aget_upd_eq; unfold a1; cbn; rewrite app_length; lia).
    assert (R3 : exists be3 m3, Rel be3 a2 m3).
    { (* pad with an unused number *) exists (fupd be (aN a) None). eexists. unfold a2, aset. rewrite <- Sw. exact (rel_bump F _ _ _ R2). }
    destruct R3 as (be3 & m3 & R3).
    assert (N2 : acells F a2 d <> None).
    { unfold acells, cellsOf. rewrite G2. unfold awrite in Ha. destruct (asize od1 =? 0); [discriminate|]. destruct (region F a2 (aid od1)); discriminate. }
    destruct (awrite_self be3 a2 m3 d od1 (mdata p) a' be' m' R3 R' G2) as (A & od' & G' & B1 & B2); auto; [unfold od1; rewrite reshape_size; auto|].
    replace (arows od) with (arows od') by (rewrite B1; apply reshape_rows). replace (acols os) with (acols od') by (rewrite B2; apply reshape_cols). eapply rel_shows; eauto.
  - inversion Ha; subst a'. assert (G' : aget (arenew F a1 d (arows od) (acols os) (mdata p)) d = Some (AOwn (S (aN a)) (arows od) (acols os) (mdata p))).
    { apply aget_upd_eq. unfold a1. cbn. rewrite app_length. apply Nat.lt_lt_add_r. eapply aget_lt; eauto. }
    pose proof (nv_cells F _ _ _ _ _ _ _ _ R' G') as H'. exact (rel_shows F _ _ _ _ _ _ R' G' H').
Qed.

(** * the same object twice *)
Lemma forN_const : forall A n (body : nat -> A -> res A) s, (forall i, i < n -> body i s = Ok s) -> forN n body s = Ok s.
Proof. intros A n body s H. destruct (@forN_inv _ (fun _ t => t = s) n body s eq_refl) as (t & E & ->); auto. intros i t Hi ->. exists s. auto. Qed.
Lemma put2_same : forall be a m v o d r c x, Rel be a m -> aget a v = Some o -> own (aO a) (aid o) d -> r < arows o -> c < acols o -> nth_error d (aoff o + (r * acols o + c)) = Some x -> put2 F m v r c x = Ok m.
Proof.
  intros be a m v o d r c x R G Hd Hr Hc Hx. rewrite (put2_put F _ _ _ _ _ _ _ _ R G) by auto. assert (Hi : r * acols o + c < asize o) by (unfold SpecHeap.asize; nia).
  destruct (store_rel F _ _ _ _ _ _ _ x R G Hd Hi) as (q & k & E & Er & Ec & Ek & Es). unfold put. rewrite E. cbn [bind]. unfold osize, assert_. rewrite Er, Ec.
  destruct (Nat.ltb_spec (r * acols o + c) (arows o * acols o)); [|unfold SpecHeap.asize in Hi; lia]. rewrite Es. cbn [bind]. rewrite (upd_same _ d) by auto.
  destruct (own_base F _ _ _ _ _ R Hd) as (k' & Ek' & Eb); [intros ->; destruct (aoff o + (r * acols o + c)); discriminate|]. rewrite Ek in Ek'. inversion Ek'; subst k'.
  rewrite upd_same by auto. destruct m; auto.
Qed.
Theorem self_product : forall a m d od n xs, reach F a m -> aget a d = Some od -> arows od = n -> acols od = n -> acells F a d = Some xs ->
  (forall x, In x xs -> fadd F (f0 F) (fmul F x (f0 F)) = f0 F) ->
  exists m', exec F m (OpMul F d d) = Ok m' /\ shows F m d n n xs /\ shows F m' d n n (repeat (f0 F) (n * n)).
Proof.
  intros a m d od n xs Rc G Er Ec Hx Hz. destruct (reach_rel F _ _ Rc) as (be & R). pose proof (rl_len _ _ _ _ R) as Ln.
  destruct (obj_rel F _ _ _ _ _ R G) as (Hid & p & E & _). destruct (mkCopy_rel F be a m d od xs R G Hx) as (m1 & be1 & E1 & R1). rewrite Er, Ec in R1, E. rewrite Ln in E1.
  set (a1 := aown F a n n xs) in *. set (w := length (aO a)) in *. assert (Lt : d < w) by (eapply aget_lt; eauto).
  assert (G1 : aget a1 d = Some od) by (unfold a1, aown; destruct a as [k l]; eapply aget_app; eauto).
  assert (Gw1 : aget a1 w = Some (AOwn (aN a) n n xs)) by (apply aget_nth; cbn; unfold w; rewrite nth_app_last, Nat.eqb_refl; auto).
  assert (Hx1 : acells F a1 d = Some xs) by (eapply acells_ext with (a := a); eauto; intros _ e He; apply aown_keep; auto).
  assert (Sz : asize od = n * n) by (unfold SpecHeap.asize; congruence).
  destruct (awrite_ex F be1 a1 m1 d od xs (repeat (f0 F) (asize od)) R1 G1 Hx1) as (a2 & Hw). destruct (fill_rel F be1 a1 m1 d od (f0 F) a2 R1 G1 Hw) as (m2 & E2 & Em & R2).
  destruct (obj_rel F _ _ _ _ _ R1 G1) as (_ & p1 & Ed1 & _). rewrite Er, Ec in Ed1.
  destruct (awrite_self be1 a1 m1 d od _ a2 be1 m2 R1 R2 G1 (repeat_length _ _) Hw) as (A & od2 & G2 & B1 & B2); [congruence|]. rewrite Er in B1. rewrite Ec in B2.
  assert (Sz2 : asize od2 = n * n) by (unfold SpecHeap.asize; congruence).
  assert (Keep : own (aO a2) (aN a) xs /\ aget a2 w = Some (AOwn (aN a) n n xs) /\ aid od2 = aid od).
  { unfold awrite in Hw. destruct (Nat.eqb_spec (asize od) 0) as [E0|N0].
    - inversion Hw; subst a2. rewrite G1 in G2. inversion G2; subst od2. split; [exists w, n, n; apply aget_nth; auto|auto].
    - destruct (region F a1 (aid od)) as [D|] eqn:Rg; [|discriminate]. inversion Hw; subst a2. destruct (areg_get F _ (aid od) (splice F D (aoff od) (repeat (f0 F) (asize od))) _ _ G1) as (o' & H' & _ & _ & I' & _).
      assert (o' = od2) by (unfold HeapProofs1.areg in H'; cbn [SpecHeap.aN SpecHeap.aO] in *; congruence). subst o'.
      assert (Q : nth_error (map (setId F (aid od) (splice F D (aoff od) (repeat (f0 F) (asize od)))) (aO a1)) w = Some (Some (AOwn (aN a) n n xs))).
      { rewrite nth_error_map. apply aget_nth in Gw1. rewrite Gw1. cbn. destruct (Nat.eqb_spec (aN a) (aid od)); [lia|auto]. }
      split; [exists w, n, n; exact Q|]. split; [apply aget_nth; exact Q|auto]. }
  destruct Keep as (Ow & Gw2 & Ei2). destruct (acells_spec F _ _ _ _ _ _ R2 G2 A) as [_ C2]. destruct (acells_spec F _ _ _ _ _ _ R G Hx) as [Lx _].
  assert (Loop : forN n (fun r m => forN n (fun k m => af <- at2 F m w r k ;; o <- oget F m d ;; forN (oC o) (fun c m =>
        x <- at2 F m d r c ;; y <- at2 F m d k c ;; put2 F m d r c (fadd F x (fmul F af y))) m) m) m2 = Ok m2).
  { apply forN_const. intros r Hr. apply forN_const. intros k Hk.
    destruct (nth_error xs (r * n + k)) as [xv|] eqn:Ex; [|apply nth_error_None in Ex; nia].
    rewrite (at2_rel F be1 a2 m2 w (AOwn (aN a) n n xs) xs r k xv R2 Gw2 Ow Hr Hk) by exact Ex. cbn [bind].
    destruct (obj_rel F _ _ _ _ _ R2 G2) as (_ & p2 & Ed2 & _). rewrite Ed2. cbn [bind oC]. rewrite B2. destruct (C2 ltac:(nia)) as (D & HD & _ & Cn). rewrite Sz2 in Cn.
    assert (Z : forall i j, i < n -> j < n -> nth_error D (aoff od2 + (i * acols od2 + j)) = Some (f0 F)).
    { intros i j Hi Hj. rewrite B2, <- Cn by nia. rewrite Sz. destruct (nth_error (repeat (f0 F) (n * n)) (i * n + j)) as [z|] eqn:Ez.
      - apply nth_error_In, repeat_spec in Ez. congruence.
      - apply nth_error_None in Ez. rewrite repeat_length in Ez. nia. }
    apply forN_const. intros c Hc. rewrite (at2_rel F be1 a2 m2 d od2 D r c (f0 F)) by (auto; lia). cbn [bind]. rewrite (at2_rel F be1 a2 m2 d od2 D k c (f0 F)) by (auto; lia). cbn [bind].
    rewrite Hz by (eapply nth_error_In; eauto). apply (put2_same be1 a2 m2 d od2 D); auto; lia. }
  destruct (destroy_rel F _ _ _ _ _ R2 Gw2) as (m' & E' & R').
  exists m'. cbn [exec]. unfold mulAssign. rewrite E. cbn [bind oR oC]. unfold assert_. rewrite Nat.eqb_refl. cbn [bind]. rewrite E1. cbn [bind]. rewrite Ed1. cbn [bind oC].
  assert (Rz : resize F m1 d n n = Ok m1) by (unfold resize; rewrite Ed1; cbn [bind oR oC]; rewrite !Nat.eqb_refl; reflexivity).
  rewrite Rz. cbn [bind]. rewrite E2. cbn [bind]. rewrite Loop. cbn [bind]. split; auto. split; [rewrite <- Er at 1; rewrite <- Ec; eapply rel_shows; eauto|].
  assert (Gd' : aget (akill F a2 w) d = Some od2) by (unfold akill; rewrite (aget_upd_ne F _ _ (aN a2)) by lia; auto).
  assert (A' : acells F (akill F a2 w) d = Some (repeat (f0 F) (asize od))).
  { eapply acells_ext with (a := a2); eauto. intros _ e He. eapply (kill_own F a2 w (aN a) n n xs); eauto; [eapply rl_uniq; eauto|apply aget_nth; auto|lia]. }
  rewrite Sz in A'. rewrite <- B1 at 1. rewrite <- B2 at 1. eapply rel_shows; eauto.
Qed.
End Heap.

(* over the reals the condition holds: m *= m always gives the zero matrix *)
Theorem self_product_real : forall j a m d od n xs, reach (ROps j) a m -> aget (ROps j) a d = Some od -> arows (ROps j) od = n -> acols (ROps j) od = n -> acells (ROps j) a d = Some xs ->
  exists m', exec (ROps j) m (OpMul (ROps j) d d) = Ok m' /\ shows (ROps j) m d n n xs /\ shows (ROps j) m' d n n (repeat 0%R (n * n)).
Proof. intros. apply (self_product (ROps j) a m d od n xs); auto. intros x _. cbn. lra. Qed.

(** * witnesses *)
(* the 1 x 1 matrix 3, multiplied by itself, is 0 *)
Theorem self_product_refuted : exists ps : list (op ZOps), exists m m', run ZOps (start ZOps) ps = Ok m /\ shows ZOps m 0 1 1 [3%Z] /\ mmul ZOps (mkMat 1 1 [3%Z]) (mkMat 1 1 [3%Z]) = Ok (mkMat 1 1 [9%Z]) /\
  exec ZOps m (OpMul ZOps 0 0) = Ok m' /\ shows ZOps m' 0 1 1 [0%Z].
Proof.
  exists [OpSized ZOps 1 1; OpFill ZOps 0 3%Z]. do 2 eexists. split; [vm_compute; reflexivity|]. split.
  - split; [eexists; split; [vm_compute; reflexivity|auto]|]. split; auto. intros i x H. destruct i as [|[|i]]; inversion H; reflexivity.
  - split; [reflexivity|]. split; [vm_compute; reflexivity|]. split; [eexists; split; [vm_compute; reflexivity|auto]|]. split; auto. intros i x H. destruct i as [|[|i]]; inversion H; reflexivity.
Qed.
(* a 2 x 1 matrix times a 1 x 2 view of itself: the product is larger, the storage is deleted while the view is still read *)
Theorem view_product_refuted : run ZOps (start ZOps) [OpSized ZOps 2 1; OpFill ZOps 0 3%Z; OpSize ZOps 0 1 2; OpMul ZOps 0 1] = Err EFree.
Proof. vm_compute. reflexivity. Qed.
(* assigning to a matrix one of its own rows: the storage is deleted, then read *)
Theorem own_row_refuted : run ZOps (start ZOps) [OpSized ZOps 2 2; OpFill ZOps 0 3%Z; OpRow ZOps 0 1; OpAssign ZOps 0 1] = Err EFree.
Proof. vm_compute. reflexivity. Qed.
(* two rows overlapping three: copying upwards repeats the first row *)
Theorem overlap_refuted : exists m, run ZOps (start ZOps) [OpSized ZOps 3 1; OpPut ZOps 0 0 1%Z; OpPut ZOps 0 1 2%Z; OpPut ZOps 0 2 3%Z; OpRows ZOps 0 0 2; OpRows ZOps 0 1 3; OpAssign ZOps 2 1] = Ok m /\
  shows ZOps m 0 3 1 [1; 1; 1]%Z.
Proof.
  eexists. split; [vm_compute; reflexivity|]. split; [eexists; split; [vm_compute; reflexivity|auto]|]. split; auto. intros i x H. destruct i as [|[|[|[|i]]]]; inversion H; reflexivity.
Qed.
