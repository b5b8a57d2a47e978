(* NetProofs1.v - inference over a whole network *)
From Coq Require Import String List Arith Bool Lia ZArith.
From Verif Require Import Base Scalar Mat SpecMat MatFacts MatProofs MatProofs2 LayMat Layer Net SpecNet NetRow.
Import ListNotations.
Local Open Scope nat_scope.

Section Net.
Variable F : FOps.
Notation M := (mat F).

Lemma hget_ok : forall (h : heap F) a l, hget F h a = Ok l <-> nth_error h a = Some (Some l).
Proof.
  intros. unfold hget, rget. destruct (nth_error h a) as [[x|]|]; cbn [bind]; split; intro H; inversion H; auto.
Qed.
Lemma hset_ok : forall (h : heap F) a l l', hget F h a = Ok l -> hset F h a l' = Ok (upd h a (Some l')).
Proof.
  intros h a l l' H. unfold hset. rewrite H. cbn [bind]. unfold rset. apply hget_ok in H.
  assert (L : a < length h) by (apply nth_error_Some; congruence). apply Nat.ltb_lt in L. rewrite L. reflexivity.
Qed.
Lemma hget_upd : forall (h : heap F) a l b, a < length h -> hget F (upd h a (Some l)) b = if a =? b then Ok l else hget F h b.
Proof.
  intros h a l b H. unfold hget, rget. rewrite nth_error_upd. apply Nat.ltb_lt in H. rewrite H, andb_true_r. destruct (a =? b); reflexivity.
Qed.
Lemma hget_lt : forall (h : heap F) a l, hget F h a = Ok l -> a < length h.
Proof. intros h a l H. apply hget_ok in H. apply nth_error_Some. congruence. Qed.

(* g is the row function of the layers at these addresses *)
Fixpoint chainRow (h : heap F) (ls : list nat) (k m : nat) (g : (nat -> F) -> nat -> F) : Prop :=
  match ls with
  | [] => k = m /\ g = fun x => x
  | a :: r => exists l p g', hget F h a = Ok l /\ detLayer F l k p /\ g = (fun x => g' (rowFun F l k x)) /\ chainRow h r p m g'
  end.
Lemma chainRow_det : forall h ls k m, detChain F h ls k m <-> exists g, chainRow h ls k m g.
Proof.
  intros h. induction ls as [|a r IH]; intros k m; simpl.
  - split; [intros ->; exists (fun x => x); auto | intros (g & H & _); auto].
  - split.
    + intros (l & p & H1 & H2 & H3). apply IH in H3. destruct H3 as [g' H3]. exists (fun x => g' (rowFun F l k x)), l, p, g'. auto.
    + intros (g & l & p & g' & H1 & H2 & _ & H3). exists l, p. repeat split; auto. apply IH. eauto.
Qed.
Lemma chainRow_frame : forall h h' ls k m g, (forall a, In a ls -> hget F h' a = hget F h a) -> chainRow h ls k m g -> chainRow h' ls k m g.
Proof.
  intros h h'. induction ls as [|a r IH]; intros k m g HF H; simpl in *; auto.
  destruct H as (l & p & g' & H1 & H2 & H3 & H4). exists l, p, g'. rewrite HF by auto. repeat split; auto.
Qed.

Definition predBody (rs : nat -> rnd F) (n : net) : nat -> heap F * M * M -> res (heap F * M * M) :=
  fun i '(h, mTemp, mOut) => ' (h, o) <- fwdLayer F rs n i h mTemp mOut ;; Ok (h, o, o).

Definition sameKinds (h h' : heap F) : Prop := forall a l, hget F h a = Ok l -> exists l', hget F h' a = Ok l' /\ lk l' = lk l /\ ltrain l' = ltrain l.

Lemma chain_forward : forall rs n nb ls off h k m g X out,
  (forall i, i < length ls -> nth_error (nlay n) (off + i) = nth_error ls i) ->
  NoDup ls -> chainRow h ls k m g -> mwf out ->
  exists h', forL (seq off (length ls)) (predBody rs n) (h, mgen nb k X, out) =
               Ok (h', mgen nb m (fun i => g (X i)), match ls with [] => out | _ => mgen nb m (fun i => g (X i)) end) /\
             chainRow h' ls k m g /\ length h' = length h /\ (forall a, ~ In a ls -> nth_error h' a = nth_error h a) /\ sameKinds h h'.
Proof.
  intros rs n nb. induction ls as [|a r IH]; intros off h k m g X out Hn Hd Hc Ho.
  - simpl in Hc. destruct Hc as [-> ->]. exists h. simpl. repeat split; auto. intros a l H. eauto.
  - simpl in Hc. destruct Hc as (l & p & g' & H1 & H2 & -> & H4). inversion Hd as [|? ? Hd1 Hd2]; subst.
    destruct (row_forward F l k p nb X (rs off) out H2 Ho) as (l' & E & D & R & K1 & K2).
    pose proof (hget_lt _ _ _ H1) as La.
    set (h1 := upd h a (Some l')).
    assert (G1 : hget F h1 a = Ok l') by (unfold h1; rewrite hget_upd, Nat.eqb_refl by auto; auto).
    assert (G2 : forall b, In b r -> hget F h1 b = hget F h b).
    { intros b Hb. unfold h1. rewrite hget_upd by auto. destruct (Nat.eqb_spec a b); auto. subst. contradiction. }
    destruct (IH (S off) h1 p m g' (fun i => rowFun F l k (X i)) (mgen nb p (fun i => rowFun F l k (X i)))) as (h' & E' & C' & L' & Fr & SK).
    { intros i Hi. replace (S off + i) with (off + S i) by lia. rewrite Hn by (simpl; lia). reflexivity. }
    { auto. }
    { apply (chainRow_frame h); auto. }
    { apply mwf_gen. }
    exists h'. split; [|split; [|split; [|split]]].
    + simpl length. simpl seq. cbn [forL]. unfold predBody at 1. unfold fwdLayer.
      assert (N : rget (nlay n) off = Ok a). { unfold rget. specialize (Hn 0). rewrite Nat.add_0_r in Hn. rewrite Hn by (simpl; lia). reflexivity. }
      rewrite N. cbn [bind]. rewrite H1. cbn [bind]. rewrite E. cbn [bind]. rewrite (hset_ok _ _ _ _ H1). cbn [bind]. fold h1. rewrite E'.
      destruct r; auto. simpl in H4. destruct H4 as [-> ->]. reflexivity.
    + simpl. exists l', p, g'. rewrite R. repeat split; auto. rewrite <- G1. unfold hget, rget. rewrite Fr by auto. reflexivity.
    + rewrite L'. unfold h1. apply length_upd.
    + intros b Hb. simpl in Hb. rewrite Fr by tauto. unfold h1. rewrite nth_error_upd. destruct (Nat.eqb_spec a b); [tauto|]. reflexivity.
    + intros b lb Eb. destruct (Nat.eq_dec a b) as [<-|Ne].
      * destruct (SK a l' G1) as (l2 & Q1 & Q2 & Q3). rewrite H1 in Eb. inversion Eb; subst. exists l2. rewrite Q2, Q3. auto.
      * assert (G3 : hget F h1 b = Ok lb) by (unfold h1; rewrite hget_upd by auto; destruct (Nat.eqb_spec a b); congruence). destruct (SK b lb G3) as (l2 & Q). eauto.
Qed.

Lemma predict_row : forall rs h n k m g nb X out, nlay n <> [] -> NoDup (nlay n) -> chainRow h (nlay n) k m g -> mwf out ->
  exists h', predict F rs h n (mgen nb k X) out = Ok (h', mgen nb m (fun i => g (X i))) /\
             chainRow h' (nlay n) k m g /\ length h' = length h /\ (forall a, ~ In a (nlay n) -> nth_error h' a = nth_error h a) /\ sameKinds h h'.
Proof.
  intros rs h n k m g nb X out Hne Hd Hc Ho.
  destruct (chain_forward rs n nb (nlay n) 0 h k m g X out) as (h' & E & R); auto.
  exists h'. split; auto. unfold predict, forN. unfold predBody in E. rewrite E. cbn [bind]. destruct (nlay n); [congruence|reflexivity].
Qed.

(** C15 *)
Theorem predict_batch : forall rs h n k m nb X out, detNet F h n k m -> mwf out ->
  exists h' Y, predict F rs h n (mgen nb k X) out = Ok (h', mgen nb m Y) /\ detNet F h' n k m /\
  forall rs' out' i, mwf out' -> i < nb ->
    (exists h1, predict F rs' h n (mgen 1 k (fun _ => X i)) out' = Ok (h1, mgen 1 m (fun _ => Y i))) /\
    (exists h1, predict F rs' h' n (mgen 1 k (fun _ => X i)) out' = Ok (h1, mgen 1 m (fun _ => Y i))).
Proof.
  intros rs h n k m nb X out (Hne & Hd & Hc) Ho. apply chainRow_det in Hc. destruct Hc as [g Hc].
  destruct (predict_row rs h n k m g nb X out Hne Hd Hc Ho) as (h' & E & C' & _).
  exists h', (fun i => g (X i)). split; auto. split; [repeat split; auto; apply chainRow_det; eauto|].
  intros rs' out' i Ho' Hi. split.
  - destruct (predict_row rs' h n k m g 1 (fun _ => X i) out' Hne Hd Hc Ho') as (h1 & E1 & _). eauto.
  - destruct (predict_row rs' h' n k m g 1 (fun _ => X i) out' Hne Hd C' Ho') as (h1 & E1 & _). eauto.
Qed.
(* row i of the result depends on row i of the input only *)
Theorem predict_rows_independent : forall rs rs' h n k m nb nb' X X' out out', detNet F h n k m -> mwf out -> mwf out' ->
  exists h1 h2 Y Y', predict F rs h n (mgen nb k X) out = Ok (h1, mgen nb m Y) /\ predict F rs' h n (mgen nb' k X') out' = Ok (h2, mgen nb' m Y') /\
  forall i i', (forall j, X i j = X' i' j) -> forall j, Y i j = Y' i' j.
Proof.
  intros rs rs' h n k m nb nb' X X' out out' (Hne & Hd & Hc) Ho Ho'. apply chainRow_det in Hc. destruct Hc as [g Hc].
  destruct (predict_row rs h n k m g nb X out Hne Hd Hc Ho) as (h1 & E1 & _).
  destruct (predict_row rs' h n k m g nb' X' out' Hne Hd Hc Ho') as (h2 & E2 & _).
  exists h1, h2, (fun i => g (X i)), (fun i => g (X' i)). repeat split; auto. intros i i' H j.
  assert (Q : X i = X' i') by (apply FunctionalExtensionality.functional_extensionality; auto). rewrite Q. reflexivity.
Qed.
End Net.
