(* GradProofs2.v - the chain rule over a network: forward loop, backward loop, derivatives *)
From Coq Require Import List Arith Bool Lia Reals Lra ZArith QArith String.
From Coquelicot Require Import Coquelicot.
From Verif Require Import Base Scalar Mat SpecMat SpecReal RSum MatFacts MatProofs RDeriv Loss SpecLoss LossProofs LossProofs2 Act SpecAct LayMat LayImg SpecLayer LayGrad LayCurve Layer Net NetProofs1 NetTrain SpecGrad GradProofs1.
Import ListNotations.
Local Open Scope R_scope.

Section Chain.
Variable jk : R.
Notation F := (ROps jk).

Lemma differentiable_ext : forall (l : layer F) n k m X X', (forall i j, (i < n)%nat -> (j < k)%nat -> X i j = X' i j) -> differentiable jk l n k m X -> differentiable jk l n k m X'.
Proof.
  intros l n k m X X' E (A & B & C & H). split; [exact A|]. split; [exact B|]. split; [exact C|].
  assert (Q : forall P : R -> Prop, cells n k X P -> cells n k X' P) by (intros P HP i j Hi Hj; rewrite <- E; auto).
  destruct (lk l) as [] eqn:K; auto.
  - destruct a; [|contradiction]. intuition.
  - destruct a1; [|contradiction]. destruct a2; [|contradiction]. destruct H as (Hk & H1 & H2 & H3 & H4). split; [exact Hk|]. split; [exact H1|]. split; [exact H2|].
    split; intros i j Hi Hj; [rewrite <- E by lia; apply H3; auto|rewrite <- E by lia; apply (H4 i j); auto].
  - intuition.
  - intuition.
  - intuition.
  - intuition.
  - intuition.
Qed.

Lemma stack_ext : forall rs ls off (h : heap F) n ks X X' Z, (forall k i j, hd_error ks = Some k -> (i < n)%nat -> (j < k)%nat -> X i j = X' i j) ->
  stack jk rs off h ls n ks X Z -> stack jk rs off h ls n ks X' Z.
Proof.
  intros rs [|a r] off h n ks X X' Z E H; simpl in *.
  - destruct ks as [|k [|]]; try contradiction. intros i j Hi Hj. rewrite <- E with (k := k); auto.
  - destruct ks as [|k [|m ks]]; try contradiction. destruct H as (l & l' & Y & H1 & H2 & H3 & H4 & H5). exists l, l', Y.
    assert (Q : forall i j, (i < n)%nat -> (j < k)%nat -> X i j = X' i j) by (intros; apply (E k); auto).
    split; [exact H1|]. split; [eapply differentiable_ext; eauto|]. split; [exact H3|]. split; [|exact H5]. rewrite <- (mgen_ext R n k X X' Q). exact H4.
Qed.

Lemma stack_frame : forall rs ls off (h h' : heap F) n ks X Z, (forall b, In b ls -> hget F h' b = hget F h b) -> stack jk rs off h ls n ks X Z -> stack jk rs off h' ls n ks X Z.
Proof.
  intros rs. induction ls as [|a r IH]; intros off h h' n ks X Z E H; simpl in *; auto.
  destruct ks as [|k [|m ks]]; try contradiction. destruct H as (l & l' & Y & H1 & H2 & H3 & H4 & H5). exists l, l', Y.
  rewrite E by auto. repeat (split; [assumption|]). eapply IH; [|exact H5]. intros b Hb. apply E. auto.
Qed.
Lemma scaleProd_frame : forall ls (h h' : heap F), (forall b, In b ls -> hget F h' b = hget F h b) -> scaleProd jk h' ls = scaleProd jk h ls.
Proof.
  induction ls as [|a r IH]; intros h h' E; simpl; auto. rewrite E by (simpl; auto). rewrite (IH h h'); auto. intros. apply E. simpl. auto.
Qed.

Lemma dot_scaled : forall a b s A A' B, (forall i j, (i < a)%nat -> (j < b)%nat -> A i j = s * A' i j) -> dot a b A B = s * dot a b A' B.
Proof. intros a b s A A' B H. rewrite <- dot_scal. apply dot_ext. intros. rewrite H by auto. ring. Qed.

Lemma Forall_upd : forall (P : mat F -> Prop) v i x, List.Forall P v -> P x -> List.Forall P (upd v i x).
Proof. intros P v. induction v; intros [|i] x H Hx; simpl; auto; inversion H; subst; constructor; auto. Qed.
Lemma nth_upd_eq : forall A (v : list A) i x, (i < List.length v)%nat -> nth_error (upd v i x) i = Some x.
Proof. intros A v i x H. rewrite nth_error_upd, Nat.eqb_refl. apply Nat.ltb_lt in H. rewrite H. reflexivity. Qed.
Lemma nth_upd_ne : forall A (v : list A) i j x, i <> j -> nth_error (upd v i x) j = nth_error v j.
Proof. intros A v i j x H. rewrite nth_error_upd. apply Nat.eqb_neq in H. rewrite H. reflexivity. Qed.
Lemma rset_ok : forall A (v : list A) i x, (i < List.length v)%nat -> rset v i x = Ok (upd v i x).
Proof. intros A v i x H. unfold rset. apply Nat.ltb_lt in H. rewrite H. reflexivity. Qed.
Lemma rget_ok : forall A (v : list A) i x, nth_error v i = Some x -> rget v i = Ok x.
Proof. intros A v i x H. unfold rget. rewrite H. reflexivity. Qed.
Lemma nth_lt : forall A (v : list A) i x, nth_error v i = Some x -> (i < List.length v)%nat.
Proof. intros A v i x H. apply nth_error_Some. congruence. Qed.
Lemma nth_ex : forall A (v : list A) i, (i < List.length v)%nat -> exists x, nth_error v i = Some x.
Proof. intros A v i H. destruct (nth_error v i) eqn:E; eauto. apply nth_error_None in E. lia. Qed.
Lemma Forall_nth : forall A (P : A -> Prop) v i x, List.Forall P v -> nth_error v i = Some x -> P x.
Proof. intros A P v i x H E. apply nth_error_In in E. rewrite List.Forall_forall in H. auto. Qed.

Variable rs : nat -> rnd F.
Variable nt : net.
Variable n : nat.
Hypothesis Hn : (0 < n)%nat.

Definition placed (off : nat) (ls : list nat) : Prop := forall i, (i < List.length ls)%nat -> nth_error (nlay nt) (off + i) = nth_error ls i.
Lemma placed_cons : forall off a r, placed off (a :: r) -> rget (nlay nt) off = Ok a /\ placed (S off) r.
Proof.
  intros off a r H. split.
  - unfold rget. specialize (H 0%nat). rewrite Nat.add_0_r in H. rewrite H by (simpl; lia). reflexivity.
  - intros i Hi. replace (S off + i)%nat with (off + S i)%nat by lia. rewrite H by (simpl; lia). reflexivity.
Qed.

Definition agree (ls : list nat) (h' h : heap F) : Prop := forall b, In b ls -> hget F h' b = hget F h b.

(* what the prediction loop does on heaps with the given layers *)
Definition runs (off : nat) (ls : list nat) (h : heap F) (k m : nat) (X Z : nat -> nat -> R) : Prop :=
  forall h' out, mwf out -> agree ls h' h -> exists h'', forL (seq off (List.length ls)) (predBody F rs nt) (h', mgen n k X, out) =
    Ok (h'', mgen n m Z, match ls with [] => out | _ => mgen n m Z end).

Lemma runs_cons : forall off a r (h : heap F) l k q m (X Y Z : nat -> nat -> R), placed off (a :: r) -> ~ In a r -> hget F h a = Ok l ->
  (forall out, mwf out -> exists l', layForward F (rs off) l (mgen n k X) out = Ok (l', mgen n q Y)) -> runs (S off) r h q m Y Z ->
  runs off (a :: r) h k m X Z.
Proof.
  intros off a r h l k q m X Y Z P Na Hl HF HR h' out Ho Ha. destruct (placed_cons _ _ _ P) as [N P']. destruct (HF out Ho) as [l' E].
  assert (La : hget F h' a = Ok l) by (rewrite Ha; simpl; auto). pose proof (hget_lt F _ _ _ La) as Lt.
  destruct (HR (upd h' a (Some l')) (mgen n q Y) (mwf_gen _ _ _ _)) as (h2 & E2).
  { intros b Hb. rewrite (hget_upd F) by auto. destruct (Nat.eqb_spec a b); [subst; contradiction|]. apply Ha. simpl. auto. }
  exists h2. cbn [List.length]. simpl seq. cbn [forL]. unfold predBody at 1. unfold fwdLayer. rewrite N. cbn [bind]. rewrite La. cbn [bind].
  rewrite E. cbn [bind]. rewrite (hset_ok F _ _ _ _ La). cbn [bind]. refine (eq_trans E2 _). destruct r; auto. pose proof (f_equal (fun z => match z with Ok (_, o, _) => o | Err _ => mgen n q Y end) E2) as Q. cbn in Q. apply f_equal. apply f_equal2; auto.
Qed.

Definition fwdOk (off : nat) (ls : list nat) (h : heap F) (k : nat) (X : nat -> nat -> R) (post : nat -> res (layer F)) (ins : nat -> mat F) : Prop :=
  forall h' (v : list (mat F)), agree ls h' h -> nth_error v off = Some (mgen n k X) -> (off + List.length ls < List.length v)%nat -> List.Forall mwf v ->
  exists hF vF, forL (seq off (List.length ls)) (fwdStep F rs nt) (h', v) = Ok (hF, vF) /\
    (forall b, ~ In b ls -> hget F hF b = hget F h' b) /\ (forall b, In b ls -> hget F hF b = post b) /\ List.length vF = List.length v /\ List.Forall mwf vF /\
    (forall i, (i <= off)%nat -> nth_error vF i = nth_error v i) /\ (forall i, (i <= List.length ls)%nat -> nth_error vF (off + i) = Some (ins i)).

(* layer number p of the stack: stored gradients against the derivative along curves of its parameters *)
Definition paramOk (off : nat) (ls : list nat) (h : heap F) (ks : list nat) (k m : nat) (X Z G : nat -> nat -> R) (hB : heap F) (p : nat) : Prop :=
  forall a l kp, nth_error ls p = Some a -> hget F h a = Ok l -> nth_error ks p = Some kp ->
  exists l2 rw cw W rb cb b (tw tb : nat -> nat -> R) (fP : (nat -> nat -> R) -> (nat -> nat -> R) -> nat -> nat -> R),
    hget F hB a = Ok l2 /\ lw l = mgen rw cw W /\ lb l = mgen rb cb b /\ (lw l2 = lw l /\ lb l2 = lb l) /\
    (forall s, weightScale jk l n kp = Some s -> exists gw : nat -> nat -> R, lgw l2 = mgen rw cw gw /\ forall i j, (i < rw)%nat -> (j < cw)%nat -> tw i j = s * gw i j) /\
    (forall s, biasScale jk l n kp = Some s -> exists gb : nat -> nat -> R, lgb l2 = mgen rb cb gb /\ forall i j, (i < rb)%nat -> (j < cb)%nat -> tb i j = s * gb i j) /\
    (forall i j, (i < n)%nat -> (j < m)%nat -> fP W b i j = Z i j) /\
    (forall W' b' h1, (forall c, In c ls -> hget F h1 c = if Nat.eqb a c then Ok (setWB l (mgen rw cw W') (mgen rb cb b')) else hget F h c) -> runs off ls h1 k m X (fP W' b')) /\
    (forall Wc bc t dW db, Wc t = W -> bc t = b -> dcurve rw cw Wc t dW -> dcurve rb cb bc t db ->
      exists dZ, dcurve n m (fun x => fP (Wc x) (bc x)) t dZ /\ dot n m G dZ = scaleProd jk h (skipn (S p) ls) * (dot rw cw tw dW + dot rb cb tb db)).

Definition bwdOk (off : nat) (ls : list nat) (h : heap F) (ks : list nat) (k m : nat) (X Z : nat -> nat -> R) (fZ : (nat -> nat -> R) -> nat -> nat -> R)
  (post : nat -> res (layer F)) (ins : nat -> mat F) : Prop :=
  forall (G : nat -> nat -> R) h1 (v gs : list (mat F)), (forall b, In b ls -> hget F h1 b = post b) -> (forall i, (i <= List.length ls)%nat -> nth_error v (off + i) = Some (ins i)) ->
  nth_error gs (off + List.length ls) = Some (mgen n m G) -> List.Forall mwf gs ->
  exists hB gsB gi, forL (rev (seq off (List.length ls))) (bwdStep F nt v) (h1, gs) = Ok (hB, gsB) /\
    (forall b, ~ In b ls -> hget F hB b = hget F h1 b) /\ List.length gsB = List.length gs /\ List.Forall mwf gsB /\
    ((forall a l, hd_error ls = Some a -> hget F h a = Ok l -> lfirst l = false) -> exists g0 : nat -> nat -> R, nth_error gsB off = Some (mgen n k g0) /\
       forall i j, (i < n)%nat -> (j < k)%nat -> gi i j = scaleProd jk h ls * g0 i j) /\
    (forall Xc t dX, Xc t = X -> dcurve n k Xc t dX -> exists dZ, dcurve n m (fun x => fZ (Xc x)) t dZ /\ dot n m G dZ = dot n k gi dX) /\
    (forall p, paramOk off ls h ks k m X Z G hB p).

Lemma chain : forall ls off (h : heap F) ks X Z k m, placed off ls -> NoDup ls -> stack jk rs off h ls n ks X Z -> hd_error ks = Some k -> last ks 0%nat = m ->
  exists fZ post ins, (forall i j, (i < n)%nat -> (j < m)%nat -> fZ X i j = Z i j) /\ (forall X', runs off ls h k m X' (fZ X')) /\
    fwdOk off ls h k X post ins /\ ins (List.length ls) = mgen n m (fZ X) /\ bwdOk off ls h ks k m X Z fZ post ins.
Proof.
  induction ls as [|a r IH]; intros off h ks X Z k m P Nd HS Hk Hm.
  - simpl in HS. destruct ks as [|k0 [|]]; try contradiction. simpl in Hk, Hm. inversion Hk; subst k0. subst m.
    exists (fun X => X), (fun _ => Err ENull), (fun _ => mgen n k X). split; [intros; symmetry; apply HS; auto|]. split; [|split; [|split]].
    + intros X' h' out Ho Ha. exists h'. reflexivity.
    + intros h' v Ha Hv Hlen HW. exists h', v. simpl. repeat split; auto; try contradiction. intros i Hi. replace (off + i)%nat with off by lia. exact Hv.
    + reflexivity.
    + intros G h1 v gs Hp Hi Hg HW. cbn [List.length] in *. rewrite Nat.add_0_r in *. exists h1, gs, G. simpl. repeat split; auto.
      * intros _. exists G. split; [exact Hg|]. intros. ring.
      * intros Xc t dX E D. exists dX. auto.
      * intros p a l kp Hp'. destruct p; discriminate.
  - simpl in HS. destruct ks as [|k0 [|q ks]]; try contradiction. simpl in Hk. inversion Hk; subst k0. clear Hk.
    destruct HS as (l & l' & Y & Hl & HD & Hf & HF & HS). inversion Nd as [|? ? Na Nd']; subst. destruct (placed_cons _ _ _ P) as [N P'].
    destruct (contract_all jk (rs off) l n k q X Hn HD) as (rw & cw & W & rb & cb & b & fY & lf & EW & Eb & CF & CP & CG & CB).
    rewrite (CF (mempty F) eq_refl) in HF. injection HF as El EY. subst l'.
    assert (EY' : forall i j, (i < n)%nat -> (j < q)%nat -> Y i j = fY W b X i j). { intros i j Hi Hj. symmetry. apply (LayProofs2.mgen_inj R n q _ _ i j); auto. unfold mgen. f_equal. exact EY. }
    assert (HS' : stack jk rs (S off) h r n (q :: ks) (fY W b X) Z).
    { eapply stack_ext; [|exact HS]. intros k0 i j E0. inversion E0. subst k0. apply EY'. }
    set (m := last (q :: ks) 0%nat).
    destruct (IH (S off) h (q :: ks) (fY W b X) Z q m P' Nd' HS' eq_refl eq_refl) as (fZ & post & ins & HZ & HR & HFw & Hins & HB).
    assert (CGl : forall X' out, mwf out -> exists l', layForward F (rs off) l (mgen n k X') out = Ok (l', mgen n q (fY W b X'))).
    { intros X' out Ho. destruct (CG W b X' out Ho) as [l' E]. exists l'. rewrite <- EW, <- Eb in E. replace (setWB l (lw l) (lb l)) with l in E by (destruct l; reflexivity). exact E. }
    exists (fun X' => fZ (fY W b X')), (fun c => if Nat.eqb c a then Ok lf else post c), (fun i => match i with O => mgen n k X | S j => ins j end).
    split; [exact HZ|]. split; [|split; [|split]].
    + intros X'. apply (runs_cons off a r h l k q m X' (fY W b X')); auto.
    + (* forward *)
      intros h' v Ha Hv Hlen HW. cbn [List.length] in *.
      assert (La : hget F h' a = Ok l) by (rewrite Ha; simpl; auto). pose proof (hget_lt F _ _ _ La) as Lt.
      destruct (nth_ex _ v (off + 1)%nat) as [o Eo]; [eapply Nat.le_lt_trans; [|exact Hlen]; lia|].
      set (h1 := upd h' a (Some lf)). set (v1 := upd v (off + 1) (mgen n q (fY W b X) : mat F)).
      destruct (HFw h1 v1) as (hF & vF & E & F1 & F2 & F3 & F4 & F5 & F6).
      { intros c Hc. unfold h1. rewrite (hget_upd F) by auto. destruct (Nat.eqb_spec a c); [subst; contradiction|]. apply Ha. simpl. auto. }
      { unfold v1. rewrite Nat.add_1_r. apply nth_upd_eq. eapply Nat.le_lt_trans; [|exact Hlen]; lia. }
      { unfold v1. rewrite length_upd. eapply Nat.le_lt_trans; [|exact Hlen]; lia. }
      { unfold v1. apply Forall_upd; auto. apply mwf_gen. }
      exists hF, vF. split; [|split; [|split; [|split; [|split; [|split]]]]].
      * simpl seq. cbn [forL]. unfold fwdStep at 1. cbn [fst snd]. rewrite (rget_ok _ _ _ _ Hv), (rget_ok _ _ _ _ Eo). cbn [bind]. unfold fwdLayer. rewrite N. cbn [bind]. rewrite La. cbn [bind].
        rewrite (CF o (Forall_nth _ _ _ _ _ HW Eo)). cbn [bind]. rewrite (hset_ok F _ _ _ _ La). cbn [bind]. rewrite rset_ok by (eapply Nat.le_lt_trans; [|exact Hlen]; lia). cbn [bind]. exact E.
      * intros c Hc. simpl in Hc. rewrite F1 by tauto. unfold h1. rewrite (hget_upd F) by auto. destruct (Nat.eqb_spec a c); [tauto|reflexivity].
      * intros c Hc. destruct (Nat.eqb_spec c a) as [->|Ne].
        -- rewrite F1 by auto. unfold h1. rewrite (hget_upd F), Nat.eqb_refl by auto. reflexivity.
        -- destruct Hc as [->|Hc]; [congruence|]. apply F2; auto.
      * rewrite F3. unfold v1. apply length_upd.
      * exact F4.
      * intros i Hi. rewrite F5 by lia. unfold v1. apply nth_upd_ne. lia.
      * intros [|j] Hj.
        -- rewrite Nat.add_0_r, F5 by lia. unfold v1. rewrite nth_upd_ne by lia. exact Hv.
        -- replace (off + S j)%nat with (S off + j)%nat by lia. apply F6. lia.
    + simpl. exact Hins.
    + (* backward *)
      intros G h1 v gs Hpost Hv Hg HW. cbn [List.length] in *.
      destruct (HB G h1 v gs) as (h2 & gs2 & giT & E & B1 & B2 & B3 & B4 & B5 & B6).
      { intros c Hc. rewrite Hpost by (simpl; auto). destruct (Nat.eqb_spec c a); [subst; contradiction|reflexivity]. }
      { intros i Hi. replace (S off + i)%nat with (off + S i)%nat by lia. rewrite Hv by lia. reflexivity. }
      { replace (S off + List.length r)%nat with (off + S (List.length r))%nat by lia. exact Hg. }
      { exact HW. }
      destruct B4 as (g1 & Eg1 & Sg1).
      { intros c lc Hc Hlc. destruct r as [|c0 r']; [discriminate|]. simpl in Hc. inversion Hc; subst c0. simpl in HS. destruct ks as [|? ?]; [contradiction|].
        destruct HS as (lc' & ? & ? & Q1 & _ & [Q2|Q2] & _); [discriminate|]. rewrite Q1 in Hlc. inversion Hlc; subst. exact Q2. }
      assert (Lg : (off < List.length gs2)%nat). { pose proof (nth_lt (mat F) gs _ _ Hg) as Lg0. eapply Nat.lt_le_trans; [|rewrite B2; apply Nat.lt_le_incl; exact Lg0]. lia. }
      destruct (nth_ex _ gs2 off Lg) as [gin Egin]. assert (Wgin := Forall_nth _ _ _ _ _ B3 Egin).
      assert (La : hget F h2 a = Ok lf) by (rewrite B1 by auto; rewrite Hpost, Nat.eqb_refl by (simpl; auto); reflexivity). pose proof (hget_lt F _ _ _ La) as Lt.
      destruct (CB g1 gin Wgin) as (l2 & g & gi & tw & tb & EB & Wg & (L1 & L2) & Fg & Sw & Sb & DC).
      exists (upd h2 a (Some l2)), (upd gs2 off g), (fun i j => scaleProd jk h r * gi i j).
      assert (DT : forall Wc bc Xc t dW db dX, Wc t = W -> bc t = b -> Xc t = X -> dcurve rw cw Wc t dW -> dcurve rb cb bc t db -> dcurve n k Xc t dX ->
        exists dZ, dcurve n m (fun x => fZ (fY (Wc x) (bc x) (Xc x))) t dZ /\ dot n m G dZ = scaleProd jk h r * (dot n k gi dX + dot rw cw tw dW + dot rb cb tb db)).
      { intros Wc bc Xc t dW db dX E1 E2 E3 D1 D2 D3. destruct (DC Wc bc Xc t dW db dX E1 E2 E3 D1 D2 D3) as (dY & DY & QY).
        destruct (B5 (fun x => fY (Wc x) (bc x) (Xc x)) t dY) as (dZ & DZ & QZ); [rewrite E1, E2, E3; reflexivity|exact DY|].
        exists dZ. split; [exact DZ|]. rewrite QZ, (dot_scaled n q _ giT g1 dY Sg1), QY. reflexivity. }
      split; [|split; [|split; [|split; [|split; [|split]]]]].
      * simpl seq. simpl rev. rewrite forL_app, E. cbn [bind forL]. unfold bwdStep. cbn [fst snd]. rewrite (rget_ok _ v off (mgen n k X)) by (specialize (Hv 0%nat); rewrite Nat.add_0_r in Hv; apply Hv; lia).
        rewrite (rget_ok _ gs2 (off + 1) (mgen n q g1)) by (rewrite Nat.add_1_r; exact Eg1). rewrite (rget_ok _ _ _ _ Egin), N. cbn [bind]. rewrite La. cbn [bind]. rewrite (bindE _ _ _ _ _ EB).
        rewrite (hset_ok F _ _ _ _ La). cbn [bind]. rewrite rset_ok by exact Lg. reflexivity.
      * intros c Hc. simpl in Hc. rewrite (hget_upd F) by auto. destruct (Nat.eqb_spec a c); [tauto|]. apply B1. tauto.
      * rewrite length_upd. exact B2.
      * apply Forall_upd; auto.
      * intros Hfst. destruct (Fg (Hfst a l eq_refl Hl)) as (g0 & -> & Sg). exists g0. split; [apply nth_upd_eq; exact Lg|].
        intros i j Hi Hj. simpl. rewrite Hl, (Sg i j Hi Hj). ring.
      * intros Xc t dX E1 D. destruct (DT (fun _ => W) (fun _ => b) Xc t (fun _ _ => 0) (fun _ _ => 0) dX eq_refl eq_refl E1 (LayCurve.dcurve_const _ _ _ _) (LayCurve.dcurve_const _ _ _ _) D) as (dZ & A1 & A2).
        exists dZ. split; [exact A1|]. refine (eq_trans A2 _). rewrite !LayCurve.dot_zero, dot_scal. ring.
      * intros [|p] a0 l0 kp Hp Hl0 Hkp.
        -- simpl in Hp, Hkp. inversion Hp; subst a0. inversion Hkp; subst kp. rewrite Hl in Hl0. inversion Hl0; subst l0.
           exists l2, rw, cw, W, rb, cb, b, tw, tb, (fun W' b' => fZ (fY W' b' X)).
           split; [rewrite (hget_upd F), Nat.eqb_refl by auto; reflexivity|]. split; [exact EW|]. split; [exact Eb|]. split; [auto|]. split; [exact Sw|]. split; [exact Sb|]. split; [exact HZ|]. split.
           ++ intros W' b' h3 H3. eapply runs_cons with (Y := fY W' b' X); [exact P|exact Na|rewrite H3 by (simpl; auto); rewrite Nat.eqb_refl; reflexivity|exact (CG W' b' X)|].
              intros h' out Ho Ha. apply HR; auto. intros c Hc. rewrite Ha by auto. rewrite H3 by (simpl; auto). destruct (Nat.eqb_spec a c); [subst; contradiction|reflexivity].
           ++ intros Wc bc t dW db E1 E2 D1 D2. destruct (DT Wc bc (fun _ => X) t dW db (fun _ _ => 0) E1 E2 eq_refl D1 D2 (LayCurve.dcurve_const _ _ _ _)) as (dZ & A1 & A2).
              exists dZ. split; [exact A1|]. refine (eq_trans A2 _). rewrite LayCurve.dot_zero. simpl skipn. ring.
        -- simpl in Hp. simpl in Hkp. destruct (B6 p a0 l0 kp Hp Hl0 Hkp) as (m2 & rw' & cw' & W1 & rb' & cb' & b1 & tw1 & tb1 & fP & Q1 & Q2 & Q3 & Q4 & Q5 & Q6 & Q7 & Q8 & Q9).
           assert (Ne : a <> a0) by (intro; subst; apply Na; eapply nth_error_In; eauto).
           exists m2, rw', cw', W1, rb', cb', b1, tw1, tb1, fP. split; [rewrite (hget_upd F) by auto; destruct (Nat.eqb_spec a a0); [congruence|exact Q1]|].
           repeat (split; [assumption|]). split; [|exact Q9].
           intros W' b' h3 H3. eapply runs_cons with (Y := fY W b X); [exact P|exact Na| |apply CGl|].
           ++ rewrite H3 by (simpl; auto). destruct (Nat.eqb_spec a0 a); [congruence|exact Hl].
           ++ apply Q8. intros c Hc. apply H3. simpl. auto.
Qed.
End Chain.
