(* GradProofs6.v - the chain rule over a network, all parameters moving together *)
From Coq Require Import List Arith Bool Lia Reals Lra ZArith QArith String.
From Coquelicot Require Import Coquelicot.
From Verif Require Import Base Scalar Mat SpecMat SpecReal RSum MatFacts MatProofs RDeriv Loss SpecLoss LossProofs LossProofs2 Act SpecAct LayMat LayImg SpecLayer LayGrad LayCurve Layer Net NetProofs1 NetTrain TrainProofs1 SpecGrad GradProofs1 GradProofs2 GradProofs5.
Import ListNotations.
Local Open Scope R_scope.

Definition lsum (f : nat -> R) (ls : list nat) : R := fold_right (fun a s => f a + s) 0 ls.
Lemma lsum_ext : forall f g ls, (forall a, In a ls -> f a = g a) -> lsum f ls = lsum g ls.
Proof. intros f g. induction ls as [|a r IH]; intros H; simpl; auto. rewrite H, IH; simpl; auto. intros. apply H. simpl. auto. Qed.

Section Joint.
Variable jk : R.
Notation F := (ROps jk).

Lemma differentiable_simple : forall (l : layer F) n k m X, differentiable jk l n k m X -> simpleKind F l /\ mwf (lmem l).
Proof. intros l n k m X (_ & _ & Hm & H). split; [|exact Hm]. unfold simpleKind. destruct (lk l); auto. Qed.

Variable rs : nat -> rnd F.
Variable nt : net.
Variable n : nat.
Hypothesis Hn : (0 < n)%nat.
Definition params := nat -> nat -> nat -> R.

(* h1 holds the layers of h with parameters W, b *)
Definition variant (ls : list nat) (h h1 : heap F) (rw cw rb cb : nat -> nat) (W b : params) : Prop :=
  forall a l, In a ls -> hget F h a = Ok l -> exists l1, hget F h1 a = Ok l1 /\ alike F (setWB l (mgen (rw a) (cw a) (W a)) (mgen (rb a) (cb a) (b a))) l1.

Definition bwdAll (off : nat) (ls : list nat) (h : heap F) (ks : list nat) (k m : nat) (X : nat -> nat -> R) (fZ : params -> params -> (nat -> nat -> R) -> nat -> nat -> R)
  (post : nat -> res (layer F)) (ins : nat -> mat F) (rw cw rb cb : nat -> nat) (W0 b0 : params) : Prop :=
  forall (G : nat -> nat -> R) h1 (v gs : list (mat F)), (forall b, In b ls -> hget F h1 b = post b) -> (forall i, (i <= List.length ls)%nat -> nth_error v (off + i) = Some (ins i)) ->
  nth_error gs (off + List.length ls) = Some (mgen n m G) -> List.Forall mwf gs ->
  exists hB gsB gi (tw tb : params), forL (rev (seq off (List.length ls))) (bwdStep F nt v) (h1, gs) = Ok (hB, gsB) /\
    (forall b, ~ In b ls -> hget F hB b = hget F h1 b) /\ List.length gsB = List.length gs /\ List.Forall mwf gsB /\
    ((forall a l, hd_error ls = Some a -> hget F h a = Ok l -> lfirst l = false) -> exists g0 : nat -> nat -> R, nth_error gsB off = Some (mgen n k g0) /\
       forall i j, (i < n)%nat -> (j < k)%nat -> gi i j = scaleProd jk h ls * g0 i j) /\
    (forall (Wc bc : R -> params) Xc t (dW db : params) dX, (forall a, In a ls -> Wc t a = W0 a /\ bc t a = b0 a) -> Xc t = X ->
       (forall a, In a ls -> dcurve (rw a) (cw a) (fun x => Wc x a) t (dW a) /\ dcurve (rb a) (cb a) (fun x => bc x a) t (db a)) -> dcurve n k Xc t dX ->
       exists dZ, dcurve n m (fun x => fZ (Wc x) (bc x) (Xc x)) t dZ /\
         dot n m G dZ = dot n k gi dX + lsum (fun a => dot (rw a) (cw a) (tw a) (dW a) + dot (rb a) (cb a) (tb a) (db a)) ls) /\
    (forall p a l kp, nth_error ls p = Some a -> hget F h a = Ok l -> nth_error ks p = Some kp -> exists l2, hget F hB a = Ok l2 /\ alike F l l2 /\
       (forall s, weightScale jk l n kp = Some s -> exists gw : nat -> nat -> R, lgw l2 = mgen (rw a) (cw a) gw /\
          forall i j, (i < rw a)%nat -> (j < cw a)%nat -> tw a i j = scaleProd jk h (skipn (S p) ls) * s * gw i j) /\
       (forall s, biasScale jk l n kp = Some s -> exists gb : nat -> nat -> R, lgb l2 = mgen (rb a) (cb a) gb /\
          forall i j, (i < rb a)%nat -> (j < cb a)%nat -> tb a i j = scaleProd jk h (skipn (S p) ls) * s * gb i j)).

Definition at_ {A} (a : nat) (x : A) (f : nat -> A) (c : nat) : A := if Nat.eqb c a then x else f c.
Lemma at_eq : forall A a (x : A) f, at_ a x f a = x.
Proof. intros. unfold at_. rewrite Nat.eqb_refl. reflexivity. Qed.
Lemma at_ne : forall A a (x : A) f c, c <> a -> at_ a x f c = f c.
Proof. intros A a x f c H. unfold at_. apply Nat.eqb_neq in H. rewrite H. reflexivity. Qed.

Lemma chainAll : forall ls off (h : heap F) ks X Z k m, placed nt off ls -> NoDup ls -> stack jk rs off h ls n ks X Z -> hd_error ks = Some k -> last ks 0%nat = m ->
  exists rw cw rb cb (W0 b0 : params) fZ post ins,
    (forall a l, In a ls -> hget F h a = Ok l -> lw l = mgen (rw a) (cw a) (W0 a) /\ lb l = mgen (rb a) (cb a) (b0 a)) /\
    (forall W b W' b' X', (forall a, In a ls -> W a = W' a /\ b a = b' a) -> fZ W b X' = fZ W' b' X') /\
    (forall i j, (i < n)%nat -> (j < m)%nat -> fZ W0 b0 X i j = Z i j) /\
    (forall W b X' h1, variant ls h h1 rw cw rb cb W b -> runs jk rs nt n off ls h1 k m X' (fZ W b X')) /\
    fwdOk jk rs nt n off ls h k X post ins /\ ins (List.length ls) = mgen n m (fZ W0 b0 X) /\ bwdAll off ls h ks k m X fZ post ins rw cw rb cb W0 b0.
Proof.
  induction ls as [|a r IH]; intros off h ks X Z k m P Nd HS Hk Hm.
  - simpl in HS. destruct ks as [|k0 [|]]; try contradiction. simpl in Hk, Hm. inversion Hk; subst k0. subst m.
    exists (fun _ => 0%nat), (fun _ => 0%nat), (fun _ => 0%nat), (fun _ => 0%nat), (fun _ _ _ => 0), (fun _ _ _ => 0), (fun _ _ X => X), (fun _ => Err ENull), (fun _ => mgen n k X).
    split; [intros ? ? []|]. split; [reflexivity|]. split; [intros; symmetry; apply HS; auto|]. split; [|split; [|split]].
    + intros W b X' h1 _ h' out Ho Ha. exists h'. reflexivity.
    + intros h' v Ha Hv Hlen HW. exists h', v. simpl. repeat split; auto; try contradiction. intros i Hi. replace (off + i)%nat with off by lia. exact Hv.
    + reflexivity.
    + intros G h1 v gs Hp Hi Hg HW. cbn [List.length] in *. rewrite Nat.add_0_r in *. exists h1, gs, G, (fun _ _ _ => 0), (fun _ _ _ => 0). simpl. repeat split; auto.
      * intros _. exists G. split; [exact Hg|]. intros. ring.
      * intros Wc bc Xc t dW db dX _ E _ D. exists dX. split; [exact D|]. ring.
      * intros p a l kp Hp'. destruct p; discriminate.
  - simpl in HS. destruct ks as [|k0 [|q ks]]; try contradiction. simpl in Hk. inversion Hk; subst k0. clear Hk.
    destruct HS as (l & l' & Y & Hl & HD & Hf & HF & HS). inversion Nd as [|? ? Na Nd']; subst. destruct (placed_cons _ _ Hn _ _ _ P) as [N P'].
    destruct (contract_all jk (rs off) l n k q X Hn HD) as (rw & cw & W & rb & cb & b & fY & lf & EW & Eb & CF & CP & CG & CB).
    destruct (differentiable_simple l n k q X HD) as [Sk Hmem].
    pose proof (CF (mempty F) eq_refl) as HF0. rewrite HF0 in HF. injection HF as El EY. subst l'.
    destruct (forward_obj _ _ _ _ _ _ _ HF0) as [SO ST]. pose proof (forward_mem _ _ _ _ _ _ _ Sk Hmem (mwf_gen _ _ _ _) HF0) as Smem.
    assert (EY' : forall i j, (i < n)%nat -> (j < q)%nat -> Y i j = fY W b X i j). { intros i j Hi Hj. symmetry. apply (LayProofs2.mgen_inj R n q _ _ i j); auto. unfold mgen. f_equal. exact EY. }
    assert (HS' : stack jk rs (S off) h r n (q :: ks) (fY W b X) Z).
    { eapply stack_ext; [|exact HS]. intros k0 i j E0. inversion E0. subst k0. apply EY'. }
    set (m := last (q :: ks) 0%nat).
    destruct (IH (S off) h (q :: ks) (fY W b X) Z q m P' Nd' HS' eq_refl eq_refl) as (rw1 & cw1 & rb1 & cb1 & W1 & b1 & fZ & post & ins & HP & HX & HZ & HR & HFw & Hins & HB).
    assert (NE : forall c, In c r -> c <> a) by (intros c Hc ->; contradiction).
    set (W0 := at_ a W W1). set (b0 := at_ a b b1).
    assert (EX : forall X', fZ W0 b0 X' = fZ W1 b1 X'). { intros X'. apply HX. intros c Hc. unfold W0, b0. rewrite !at_ne by auto. auto. }
    exists (at_ a rw rw1), (at_ a cw cw1), (at_ a rb rb1), (at_ a cb cb1), W0, b0, (fun W' b' X' => fZ W' b' (fY (W' a) (b' a) X')), (fun c => if Nat.eqb c a then Ok lf else post c), (fun i => match i with O => mgen n k X | S j => ins j end).
    split; [|split; [|split; [|split; [|split; [|split]]]]].
    + intros c lc [->|Hc] Hlc.
      * unfold W0, b0. rewrite !at_eq. rewrite Hl in Hlc. inversion Hlc; subst. auto.
      * unfold W0, b0. rewrite !at_ne by auto. apply HP; auto.
    + intros W' b' W'' b'' X' H. destruct (H a (or_introl eq_refl)) as [-> ->]. apply HX. intros c Hc. apply H. simpl. auto.
    + unfold W0 at 2, b0 at 2. rewrite !at_eq. intros i j Hi Hj. rewrite EX. apply HZ; auto.
    + intros W' b' X' h1 V. destruct (V a l (or_introl eq_refl) Hl) as (la & La & AL). rewrite !at_eq in AL.
      apply (runs_cons jk rs nt n Hn off a r h1 la k q m X' (fY (W' a) (b' a) X')); auto.
      * intros out Ho. destruct (CG (W' a) (b' a) X' out Ho) as [l' E]. refine (forward_alike F _ _ _ _ _ _ _ _ AL (mwf_gen _ _ _ _) E). exact Sk.
      * apply HR. intros c lc Hc Hlc. destruct (V c lc (or_intror Hc) Hlc) as (l1 & A1 & A2). rewrite !at_ne in A2 by auto. eauto.
    + (* forward *)
      intros h' v Ha Hv Hlen HW. cbn [List.length] in *.
      assert (La : hget F h' a = Ok l) by (rewrite Ha; simpl; auto). pose proof (hget_lt F _ _ _ La) as Lt.
      destruct (nth_ex _ v (off + 1)%nat) as [o Eo]; [eapply Nat.le_lt_trans; [|exact Hlen]; lia|].
      set (h1 := upd h' a (Some lf)). set (v1 := upd v (off + 1) (mgen n q (fY W b X) : mat F)).
      destruct (HFw h1 v1) as (hF & vF & E & F1 & F2 & F3 & F4 & F5 & F6).
      { intros c Hc. unfold h1. rewrite (hget_upd F) by auto. destruct (Nat.eqb_spec a c); [subst; contradiction|]. apply Ha. simpl. auto. }
      { unfold v1. rewrite Nat.add_1_r. apply nth_upd_eq. eapply Nat.le_lt_trans; [|exact Hlen]; lia. }
      { unfold v1. rewrite length_upd. eapply Nat.le_lt_trans; [|exact Hlen]; lia. }
      { unfold v1. apply Forall_upd; auto. apply mwf_gen. }
      exists hF, vF. split; [|split; [|split; [|split; [|split; [|split]]]]].
      * simpl seq. cbn [forL]. unfold fwdStep at 1. cbn [fst snd]. rewrite (rget_ok _ _ _ _ Hv), (rget_ok _ _ _ _ Eo). cbn [bind]. unfold fwdLayer. rewrite N. cbn [bind]. rewrite La. cbn [bind].
        rewrite (CF o (Forall_nth _ _ _ _ _ HW Eo)). cbn [bind]. rewrite (hset_ok F _ _ _ _ La). cbn [bind]. rewrite rset_ok by (eapply Nat.le_lt_trans; [|exact Hlen]; lia). cbn [bind]. exact E.
      * intros c Hc. simpl in Hc. rewrite F1 by tauto. unfold h1. rewrite (hget_upd F) by auto. destruct (Nat.eqb_spec a c); [tauto|reflexivity].
      * intros c Hc. destruct (Nat.eqb_spec c a) as [->|Ne].
        -- rewrite F1 by auto. unfold h1. rewrite (hget_upd F), Nat.eqb_refl by auto. reflexivity.
        -- destruct Hc as [->|Hc]; [congruence|]. apply F2; auto.
      * rewrite F3. unfold v1. apply length_upd.
      * exact F4.
      * intros i Hi. rewrite F5 by lia. unfold v1. apply nth_upd_ne. lia.
      * intros [|j] Hj.
        -- rewrite Nat.add_0_r, F5 by lia. unfold v1. rewrite nth_upd_ne by lia. exact Hv.
        -- replace (off + S j)%nat with (S off + j)%nat by lia. apply F6. lia.
    + simpl. unfold W0 at 2, b0 at 2. rewrite !at_eq, EX. exact Hins.
    + (* backward *)
      intros G h1 v gs Hpost Hv Hg HW. cbn [List.length] in *.
      destruct (HB G h1 v gs) as (h2 & gs2 & giT & tw1 & tb1 & E & B1 & B2 & B3 & B4 & B5 & B6).
      { intros c Hc. rewrite Hpost by (simpl; auto). destruct (Nat.eqb_spec c a); [subst; contradiction|reflexivity]. }
      { intros i Hi. replace (S off + i)%nat with (off + S i)%nat by lia. rewrite Hv by lia. reflexivity. }
      { replace (S off + List.length r)%nat with (off + S (List.length r))%nat by lia. exact Hg. }
      { exact HW. }
      destruct B4 as (g1 & Eg1 & Sg1).
      { intros c lc Hc Hlc. destruct r as [|c0 r']; [discriminate|]. simpl in Hc. inversion Hc; subst c0. simpl in HS. destruct ks as [|? ?]; [contradiction|].
        destruct HS as (lc' & ? & ? & Q1 & _ & [Q2|Q2] & _); [discriminate|]. rewrite Q1 in Hlc. inversion Hlc; subst. exact Q2. }
      assert (Lg : (off < List.length gs2)%nat). { pose proof (nth_lt (mat F) gs _ _ Hg) as Lg0. eapply Nat.lt_le_trans; [|rewrite B2; apply Nat.lt_le_incl; exact Lg0]. lia. }
      destruct (nth_ex _ gs2 off Lg) as [gin Egin]. assert (Wgin := Forall_nth _ _ _ _ _ B3 Egin).
      assert (La : hget F h2 a = Ok lf) by (rewrite B1 by auto; rewrite Hpost, Nat.eqb_refl by (simpl; auto); reflexivity). pose proof (hget_lt F _ _ _ La) as Lt.
      destruct (CB g1 gin Wgin) as (l2 & g & gi & tw & tb & EB & Wg & (L1 & L2) & Fg & Sw & Sb & DC).
      exists (upd h2 a (Some l2)), (upd gs2 off g), (fun i j => scaleProd jk h r * gi i j),
        (at_ a (fun i j => scaleProd jk h r * tw i j) tw1), (at_ a (fun i j => scaleProd jk h r * tb i j) tb1).
      split; [|split; [|split; [|split; [|split; [|split]]]]].
      * simpl seq. simpl rev. rewrite forL_app, E. cbn [bind forL]. unfold bwdStep. cbn [fst snd]. rewrite (rget_ok _ v off (mgen n k X)) by (specialize (Hv 0%nat); rewrite Nat.add_0_r in Hv; apply Hv; lia).
        rewrite (rget_ok _ gs2 (off + 1) (mgen n q g1)) by (rewrite Nat.add_1_r; exact Eg1). rewrite (rget_ok _ _ _ _ Egin), N. cbn [bind]. rewrite La. cbn [bind]. rewrite (bindE _ _ _ _ _ EB).
        rewrite (hset_ok F _ _ _ _ La). cbn [bind]. rewrite rset_ok by exact Lg. reflexivity.
      * intros c Hc. simpl in Hc. rewrite (hget_upd F) by auto. destruct (Nat.eqb_spec a c); [tauto|]. apply B1. tauto.
      * rewrite length_upd. exact B2.
      * apply Forall_upd; auto.
      * intros Hfst. destruct (Fg (Hfst a l eq_refl Hl)) as (g0 & -> & Sg). exists g0. split; [apply nth_upd_eq; exact Lg|].
        intros i j Hi Hj. simpl. rewrite Hl, (Sg i j Hi Hj). ring.
      * intros Wc bc Xc t dW db dX E1 E3 D1 D3. destruct (E1 a (or_introl eq_refl)) as [Ea1 Ea2]. destruct (D1 a (or_introl eq_refl)) as [Da1 Da2].
        unfold W0 in Ea1. unfold b0 in Ea2. rewrite at_eq in Ea1, Ea2. repeat rewrite at_eq in Da1. repeat rewrite at_eq in Da2.
        destruct (DC (fun x => Wc x a) (fun x => bc x a) Xc t (dW a) (db a) dX Ea1 Ea2 E3 Da1 Da2 D3) as (dY & DY & QY).
        destruct (B5 Wc bc (fun x => fY (Wc x a) (bc x a) (Xc x)) t dW db dY) as (dZ & DZ & QZ).
        { intros c Hc. destruct (E1 c (or_intror Hc)) as [Ec1 Ec2]. unfold W0 in Ec1. unfold b0 in Ec2. rewrite at_ne in Ec1, Ec2 by auto. auto. }
        { cbv beta. rewrite Ea1, Ea2, E3. reflexivity. }
        { intros c Hc. destruct (D1 c (or_intror Hc)) as [Dc1 Dc2]. repeat rewrite at_ne in Dc1 by auto; repeat rewrite at_ne in Dc2 by auto. auto. }
        { exact DY. }
        exists dZ. split; [exact DZ|]. refine (eq_trans QZ _). rewrite (dot_scaled n q _ giT g1 dY Sg1), QY. simpl lsum. rewrite !at_eq, !dot_scal.
        rewrite (lsum_ext (fun a0 => dot (at_ a rw rw1 a0) (at_ a cw cw1 a0) (at_ a (fun i j => scaleProd jk h r * tw i j) tw1 a0) (dW a0) + dot (at_ a rb rb1 a0) (at_ a cb cb1 a0) (at_ a (fun i j => scaleProd jk h r * tb i j) tb1 a0) (db a0))
          (fun a0 => dot (rw1 a0) (cw1 a0) (tw1 a0) (dW a0) + dot (rb1 a0) (cb1 a0) (tb1 a0) (db a0)) r) by (intros c Hc; rewrite !at_ne by auto; reflexivity).
        ring.
      * intros [|p] a0 l0 kp Hp Hl0 Hkp.
        -- simpl in Hp, Hkp. inversion Hp; subst a0. inversion Hkp; subst kp. rewrite Hl in Hl0. inversion Hl0; subst l0.
           exists l2. split; [rewrite (hget_upd F), Nat.eqb_refl by auto; reflexivity|]. split.
           ++ destruct (backward_obj _ _ _ _ _ _ _ EB) as [(O1 & _ & O2 & _) O3]. destruct SO as (O4 & _ & O5 & _). unfold alike. rewrite O1, O4, O2, O5, O3, ST, L1, L2, (backward_mem _ _ _ _ _ _ _ EB). auto 10.
           ++ rewrite !at_eq. simpl skipn. split; intros s Hs; [destruct (Sw s Hs) as (gw & Q1 & Q2); exists gw|destruct (Sb s Hs) as (gw & Q1 & Q2); exists gw]; (split; [exact Q1|]; intros i j Hi Hj; rewrite (Q2 i j Hi Hj); ring).
        -- simpl in Hp. simpl in Hkp. destruct (B6 p a0 l0 kp Hp Hl0 Hkp) as (m2 & Q1 & Q2 & Q3 & Q4).
           assert (Ne : a0 <> a) by (apply NE; eapply nth_error_In; eauto).
           exists m2. split; [rewrite (hget_upd F) by auto; destruct (Nat.eqb_spec a a0); [congruence|exact Q1]|]. split; [exact Q2|]. rewrite !at_ne by auto. simpl skipn. auto.
Qed.
End Joint.
