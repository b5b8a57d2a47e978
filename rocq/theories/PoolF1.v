(* PoolF1.v - the search for the maximum in single precision, NaN included *)
From Coq Require Import List Arith Bool Lia Reals Lra ZArith.
From Flocq Require Import Core IEEE754.BinarySingleNaN.
From Verif Require Import Base Scalar Mat SpecMat MatFacts MatProofs MatLoops Scatter Loss LayMat LayImg LayKit LayTens ImgKit LayPool1 LayPool2 NetRow SpecNaN B32Facts B32Int SpecPool.
Import ListNotations.
Local Open Scope nat_scope.

Lemma isnan_num : forall x : b32, num x -> b32_isnan x = false. Proof. intros [s|s| |s m e H]; unfold num; auto. Qed.
Lemma lt_iff : forall x y : b32, num x -> num y -> (b32_lt x y = true <-> (b32_val x < b32_val y)%R).
Proof. intros. rewrite b32_lt_val by (apply isnan_num; auto). apply Rltb_true. Qed.
Lemma lt_nan_r : forall x y : b32, nan y -> b32_lt x y = false. Proof. intros x [s|s| |s m e H] N; try discriminate N. destruct x; reflexivity. Qed.
Lemma lt_nan_l : forall x y : b32, nan x -> b32_lt x y = false. Proof. intros [s|s| |s m e H] y N; try discriminate N. destruct y; reflexivity. Qed.
Lemma num_dec : forall x : b32, num x \/ nan x. Proof. intros [s|s| |s m e H]; unfold num, nan; auto. Qed.
Lemma lt_num : forall x y : b32, b32_lt x y = true -> num x /\ num y.
Proof.
  intros x y H. destruct (num_dec x) as [A|A]; [|rewrite lt_nan_l in H by auto; discriminate].
  destruct (num_dec y) as [B|B]; [auto|rewrite lt_nan_r in H by auto; discriminate].
Qed.
(* not above means at most, between numbers *)
Lemma le_not_lt : forall x y : b32, num x -> num y -> b32_lt y x = false -> b32_le x y = true.
Proof.
  intros x y Hx Hy H. unfold b32_lt in H. unfold b32_le. rewrite Bcompare_swap.
  destruct x as [?|?| |]; try discriminate Hx; destruct y as [?|?| |]; try discriminate Hy; destruct (Bcompare _ _) as [[]|] eqn:E; simpl; auto; try discriminate H; exfalso; revert E; clear; simpl;
  repeat match goal with s : bool |- _ => destruct s end; try discriminate; repeat match goal with |- context [match ?d with _ => _ end] => destruct d end; discriminate.
Qed.

Section Scan.
Variables (I : Type) (x : I -> b32) (code : I -> Z).
Definition stepF (v : b32 * Z) (i : I) : b32 * Z := if b32_lt (fst v) (x i) then (x i, code i) else v.
Lemma scanF : forall l v, num (fst v) -> let w := fold_left stepF l v in
  (w = v /\ forall i, In i l -> b32_lt (fst v) (x i) = false) \/
  (exists l1 i l2, l = l1 ++ i :: l2 /\ w = (x i, code i) /\ b32_lt (fst v) (x i) = true /\
     (forall j, In j l1 -> num (x j) -> b32_lt (x j) (x i) = true) /\ (forall j, In j l -> b32_lt (x i) (x j) = false)).
Proof.
  induction l as [|a l IH]; intros v Nv; cbv zeta; simpl fold_left; [left; split; auto; intros i []|].
  assert (Nv' : num (fst (stepF v a))). { unfold stepF. destruct (b32_lt (fst v) (x a)) eqn:L; auto. apply lt_num in L. apply L. }
  specialize (IH (stepF v a) Nv'). cbv zeta in IH.
  destruct IH as [[E H]|(l1 & i & l2 & E1 & E2 & E3 & E4 & E5)].
  - rewrite E. clear E. unfold stepF in *. destruct (b32_lt (fst v) (x a)) eqn:L.
    + right. exists [], a, l. split; [reflexivity|]. split; [reflexivity|]. split; auto. split; [intros j []|].
      intros j [->|Hj]; [|apply H; auto]. destruct (b32_lt (x j) (x j)) eqn:Q; auto. destruct (lt_num _ _ Q) as [N _]. apply lt_iff in Q; auto. lra.
    + left. split; auto. intros i [->|Hi]; auto.
  - right. exists (a :: l1), i, l2. rewrite E1 at 1. split; [reflexivity|]. split; auto. destruct (lt_num _ _ E3) as [_ Ni].
    unfold stepF in E3, Nv'. destruct (b32_lt (fst v) (x a)) eqn:L; simpl fst in *.
    + destruct (lt_num _ _ L) as [_ Na]. apply lt_iff in L; auto. pose proof E3 as E3'. apply lt_iff in E3'; auto. split; [apply lt_iff; auto; lra|].
      split; intros j [<-|Hj]; auto. destruct (b32_lt (x i) (x a)) eqn:Q; auto. apply lt_iff in Q; auto. lra.
    + pose proof E3 as E3'. apply lt_iff in E3'; auto. split; auto.
      split; intros j [<-|Hj]; auto.
      * intro Na. apply lt_iff; auto. destruct (Rlt_dec (b32_val (fst v)) (b32_val (x a))) as [K|K]; [apply lt_iff in K; auto; congruence|lra].
      * destruct (num_dec (x a)) as [Na|Na]; [|apply lt_nan_r; auto]. destruct (b32_lt (x i) (x a)) eqn:Q; auto. apply lt_iff in Q; auto.
        assert (K : (b32_val (fst v) < b32_val (x a))%R) by lra. apply lt_iff in K; auto. congruence.
Qed.
End Scan.

Section P.
Variables (lm : libm -> b32 -> b32) (pw : b32 -> b32 -> b32) (jk : b32).
Notation F := (B32Ops lm pw jk).
Lemma bigNeg_B : bigNeg F = floor38. Proof. reflexivity. Qed.
Lemma floor38_num : num floor38. Proof. vm_compute. reflexivity. Qed.

Lemma winScan_F : forall fr fc (w : nat -> nat -> b32) (code : nat -> nat -> Z),
  (noTop (cellsOf w fc) (fr * fc) /\ winScan F fr fc w code = (floor38, (-1)%Z)) \/
  (exists p, topCell (cellsOf w fc) (fr * fc) p /\ winScan F fr fc w code = (cellsOf w fc p, code (p / fc) (p mod fc))).
Proof.
  intros fr fc w code. set (x := fun i : nat * nat => w (fst i) (snd i)). set (cd := fun i : nat * nat => code (fst i) (snd i)).
  assert (E : winScan F fr fc w code = fold_left (stepF _ x cd) (pairs fr fc) (floor38, (-1)%Z)).
  { unfold winScan. rewrite (fold_pairs _ fr fc (fun r c v => stepF _ x cd v (r, c))). apply (@fold_left_ext_in (b32 * Z) (nat * nat)). intros v [a b] _. reflexivity. }
  assert (IP : forall q, q < fr * fc -> In (q / fc, q mod fc) (pairs fr fc)).
  { intros q Hq. apply in_pairs. split; [apply (@div_lt_r _ _ _ Hq)|apply (@mod_lt_c _ _ _ Hq)]. }
  rewrite E. destruct (scanF _ x cd (pairs fr fc) (floor38, (-1)%Z) floor38_num) as [[E1 H]|(l1 & i & l2 & E1 & E2 & E3 & E4 & E5)].
  - left. split; auto. intros q Hq Nq. apply le_not_lt; auto; [apply floor38_num|]. apply (H _ (IP q Hq)).
  - right. assert (Hi : fst i < fr /\ snd i < fc) by (apply in_pairs; rewrite E1; apply in_or_app; right; left; auto). destruct Hi as [Hi1 Hi2].
    destruct (lt_num _ _ E3) as [_ Ni].
    exists (fst i * fc + snd i). unfold topCell, cellsOf. rewrite idx_div, idx_mod by auto. split; [|exact E2].
    split; [apply idx_lt; auto|]. split; [exact Ni|]. split; [exact E3|]. split.
    + intros q Hq Nq. apply le_not_lt; auto. apply (E5 _ (IP q Hq)).
    + intros q Hq Nq. assert (Hq' : q < fr * fc) by (pose proof (@idx_lt _ _ _ _ Hi1 Hi2); lia).
      apply (E4 (q / fc, q mod fc)); auto. apply (pairs_split _ _ _ _ _ E1); [apply (@div_lt_r _ _ _ Hq')|apply (@mod_lt_c _ _ _ Hq')|]. rewrite idx_eq by lia. auto.
Qed.
End P.

(* there is only one such cell *)
Lemma topCell_uniq : forall f n p q, topCell f n p -> topCell f n q -> p = q.
Proof.
  assert (K : forall f n p q, topCell f n p -> topCell f n q -> ~ p < q).
  { intros f n p q (Hp & Np & _ & Ap & _) (Hq & Nq & _ & _ & Bq) L. specialize (Bq p L Np). specialize (Ap q Hq Nq).
    unfold b32_lt in Bq. unfold b32_le in Ap. rewrite Bcompare_swap in Ap. destruct (Bcompare (f p) (f q)) as [[]|]; discriminate. }
  intros f n p q A B. pose proof (K _ _ _ _ A B). pose proof (K _ _ _ _ B A). lia.
Qed.
Lemma topCell_noTop : forall f n p, topCell f n p -> ~ noTop f n.
Proof.
  intros f n p (Hp & Np & Lp & _) H. specialize (H p Hp Np). unfold b32_lt in Lp. unfold b32_le in H. rewrite Bcompare_swap in H.
  destruct (Bcompare floor38 (f p)) as [[]|]; discriminate.
Qed.
