(* KMeansProofs.v - nearest reference, accuracy *)
From Coq Require Import List Arith Lia Bool ZArith Reals Lra QArith.
From Flocq Require Import IEEE754.BinarySingleNaN.
From Verif Require Import Base Scalar B32Facts Mat SpecMat SpecReal RSum SpecData MatFacts MatProofs MatLoops Loss SpecLoss LossProofs LossProofs2 MatProofs2 MetricsProofs KMeans.
Import ListNotations.
Local Open Scope nat_scope.

(* the search as a fold over the distances *)
Definition bestOf (F : FOps) (big : F) (n : nat) (d : nat -> F) : F * option nat :=
  fold_left (fun s r => if flt F (d r) (fst s) then (d r, Some r) else s) (seq 0 n) (big, None).

(* first minimum below big, for any ordering that compares like reals *)
Lemma bestOf_spec : forall (F : FOps) (val : F -> R) big n d,
  (forall r, r < n -> flt F (d r) big = Rltb (val (d r)) (val big)) ->
  (forall r r', r < n -> r' < n -> flt F (d r) (d r') = Rltb (val (d r)) (val (d r'))) ->
  (bestOf F big n d = (big, None) /\ forall r, r < n -> (val big <= val (d r))%R) \/
  (exists i, bestOf F big n d = (d i, Some i) /\ i < n /\ (val (d i) < val big)%R /\
     (forall r, r < n -> (val (d i) <= val (d r))%R) /\ (forall r, r < i -> (val (d i) < val (d r))%R)).
Proof.
  intros F val big n d HB HD.
  assert (G : forall m, m <= n ->
    (bestOf F big m d = (big, None) /\ forall r, r < m -> (val big <= val (d r))%R) \/
    (exists i, bestOf F big m d = (d i, Some i) /\ i < m /\ (val (d i) < val big)%R /\
     (forall r, r < m -> (val (d i) <= val (d r))%R) /\ (forall r, r < i -> (val (d i) < val (d r))%R))).
  { induction m as [|m IH]; intros Hm; [left; split; [reflexivity|lia]|].
    unfold bestOf in *. rewrite seq_S, fold_left_app. cbn [fold_left Nat.add].
    destruct IH as [(E & A)|(i & E & Hi & L & M & S)]; [lia| |]; rewrite E; cbn [fst].
    - rewrite HB by lia. unfold Rltb. destruct (Rlt_dec (val (d m)) (val big)) as [H|H].
      + right. exists m. split; [reflexivity|]. split; [lia|]. split; [lra|]. split.
        * intros r Hr. destruct (Nat.eq_dec r m) as [->|]; [lra|]. assert (val big <= val (d r))%R by (apply A; lia). lra.
        * intros r Hr. assert (val big <= val (d r))%R by (apply A; lia). lra.
      + left. split; [reflexivity|]. intros r Hr. destruct (Nat.eq_dec r m) as [->|]; [lra|]. apply A; lia.
    - rewrite HD by lia. unfold Rltb. destruct (Rlt_dec (val (d m)) (val (d i))) as [H|H].
      + right. exists m. split; [reflexivity|]. split; [lia|]. split; [lra|]. split.
        * intros r Hr. destruct (Nat.eq_dec r m) as [->|]; [lra|]. assert (val (d i) <= val (d r))%R by (apply M; lia). lra.
        * intros r Hr. assert (val (d i) <= val (d r))%R by (apply M; lia). lra.
      + right. exists i. split; [reflexivity|]. split; [lia|]. split; [lra|]. split.
        * intros r Hr. destruct (Nat.eq_dec r m) as [->|]; [lra|]. apply M; lia.
        * intros r Hr. apply S; lia. }
  apply G; auto.
Qed.

Section Gen.
Variable F : FOps.
Variable cabs : F -> res F.

Lemma kmSearch_gen : forall nR c V cls l x d,
  (forall r, r < nR -> kmDist F cabs l x (mgen 1 c (fun _ => V r)) = Ok (d r)) ->
  kmSearch F cabs (mkKM (mgen nR c V) cls l) x = Ok (bestOf F (farAway F) nR d).
Proof.
  intros nR c V cls l x d H. unfold kmSearch. cbn [kVec kLoss]. change (mrows (mgen nR c V)) with nR.
  rewrite (@forN_fold _ nR _ (fun r s => if flt F (d r) (fst s) then (d r, Some r) else s)).
  - reflexivity.
  - intros r s Hr. rewrite mrow_gen by auto. cbn [bind]. rewrite H by auto. reflexivity.
Qed.

Lemma kmPredict_rows : forall nR c V C l n X out (d : nat -> nat -> F) (idx : nat -> nat), 0 < nR -> 0 < c -> mwf out ->
  (forall i r, i < n -> r < nR -> kmDist F cabs l (mgen 1 c (fun _ => X i)) (mgen 1 c (fun _ => V r)) = Ok (d i r)) ->
  (forall i, i < n -> snd (bestOf F (farAway F) nR (d i)) = Some (idx i) /\ idx i < nR) ->
  kmPredict F cabs (mkKM (mgen nR c V) (mgen nR 1 C) l) (mgen n c X) out = Ok (mgen n 1 (fun i _ => C (idx i) 0)).
Proof.
  intros nR c V C l n X out d idx HR Hc W HD HI. unfold kmPredict. change (mrows (mgen n c X)) with n. cbn [kVec kCls].
  unfold msize. change (mrows (mgen nR c V)) with nR. change (mcols (mgen nR c V)) with c.
  destruct (Nat.eqb_spec (nR * c) 0); [nia|]. destruct (mresize_gen F out n 1 W) as (p & ->).
  rewrite (@col_fill_gen F n _ (fun i => C (idx i) 0)); [reflexivity|].
  intros i q Hi. rewrite mrow_gen by auto. cbn [bind]. rewrite (@kmSearch_gen nR c V (mgen nR 1 C) l _ (d i)) by auto. cbn [bind].
  destruct (HI i Hi) as (-> & Hx). rewrite mget1_col by auto. cbn [bind]. rewrite mset1_col by auto. reflexivity.
Qed.

(* one sample out of reach of all references: the assert fails *)
Lemma kmPredict_far : forall nR c V C l n X out (d : nat -> nat -> F) i, 0 < nR -> 0 < c -> i < n -> mwf out ->
  (forall i r, i < n -> r < nR -> kmDist F cabs l (mgen 1 c (fun _ => X i)) (mgen 1 c (fun _ => V r)) = Ok (d i r)) ->
  (forall i', i' < i -> exists x, snd (bestOf F (farAway F) nR (d i')) = Some x /\ x < nR) ->
  snd (bestOf F (farAway F) nR (d i)) = None ->
  kmPredict F cabs (mkKM (mgen nR c V) (mgen nR 1 C) l) (mgen n c X) out = Err EAssert.
Proof.
  intros nR c V C l n X out d i HR Hc Hi W HD HI HN. unfold kmPredict. change (mrows (mgen n c X)) with n. cbn [kVec kCls].
  unfold msize. change (mrows (mgen nR c V)) with nR. change (mcols (mgen nR c V)) with c.
  destruct (Nat.eqb_spec (nR * c) 0); [nia|]. destruct (mresize_gen F out n 1 W) as (p & ->).
  unfold forN. replace n with (i + S (n - i - 1)) at 1 by lia. rewrite seq_app. simpl Nat.add. rewrite forL_app.
  rewrite (@forL_sim nat _ _ (mgen n 1)) with (step := fun i q => upd2 q i 0 (C (match snd (bestOf F (farAway F) nR (d i)) with Some x => x | None => 0 end) 0)).
  2:{ intros i' q Hi'. apply in_seq in Hi'. destruct (HI i') as (x & E & Hx); [lia|].
      rewrite mrow_gen by lia. cbn [bind]. rewrite (@kmSearch_gen nR c V (mgen nR 1 C) l _ (d i')) by (intros; apply HD; lia). cbn [bind].
      rewrite E. rewrite mget1_col by auto. cbn [bind]. rewrite mset1_col by lia. reflexivity. }
  cbn [bind]. simpl seq. cbn [forL]. rewrite mrow_gen by auto. cbn [bind]. rewrite (@kmSearch_gen nR c V (mgen nR 1 C) l _ (d i)) by auto. cbn [bind].
  rewrite HN. reflexivity.
Qed.

Lemma kmPredict_empty : forall k m n c X, mwf m -> msize (kVec k) = 0 -> kmPredict F cabs k (mgen n c X) m = Ok (mgen n 1 (fun _ _ => f0 F)).
Proof.
  intros k m n c X W E. unfold kmPredict. rewrite E. simpl Nat.eqb. cbv iota. change (mrows (mgen n c X)) with n.
  apply (msetConstR_gen F m n 1 (f0 F) W).
Qed.

Lemma count_shift : forall (p : nat -> bool) a b, count (a + b) p = count a p + count b (fun i => p (a + i)).
Proof. induction b; simpl; [rewrite Nat.add_0_r; lia|]. rewrite Nat.add_succ_r. simpl. rewrite IHb. lia. Qed.

Lemma count_loop : forall n (p : nat -> bool) g, fold_left (fun g i => g + if p i then 1 else 0) (seq 0 n) g = g + count n p.
Proof. induction n as [|n IH]; intros p g; simpl count; [simpl; lia|]. rewrite seq_S, fold_left_app, IH. simpl. lia. Qed.

(* the accuracy counts the samples whose predicted class equals the truth, whatever the batch size *)
Lemma kmAccuracy_gen : forall vb nR c V C l n X T (d : nat -> nat -> F) (idx : nat -> nat), 0 < vb -> 0 < nR -> 0 < c ->
  (forall i r, i < n -> r < nR -> kmDist F cabs l (mgen 1 c (fun _ => X i)) (mgen 1 c (fun _ => V r)) = Ok (d i r)) ->
  (forall i, i < n -> snd (bestOf F (farAway F) nR (d i)) = Some (idx i) /\ idx i < nR) ->
  kmAccuracy F cabs vb (mkKM (mgen nR c V) (mgen nR 1 C) l) (mgen n c X) (mgen n 1 T) =
  Ok (fdiv F (fmul F (fofZ F 100) (fofN F (count n (fun i => feq F (C (idx i) 0) (T i 0))))) (fofN F n)).
Proof.
  intros vb nR c V C l n X T d idx Hvb HR Hc HD HI. unfold kmAccuracy. change (mrows (mgen n c X)) with n.
  destruct (Nat.eqb_spec vb 0); [lia|]. set (p := fun i => feq F (C (idx i) 0) (T i 0)).
  destruct (@forN_inv (mat F * nat) (fun b s => mwf (fst s) /\ snd s = count (Nat.min n (b * vb)) p) ((n + (vb - 1)) / vb)
    (fun b s => let iStart := b * vb in let iEnd := if n <? iStart + vb then n else iStart + vb in
      sb <- viewRow F (mgen n c X) iStart iEnd ;; tb <- viewRow F (mgen n 1 T) iStart iEnd ;;
      out <- kmPredict F cabs (mkKM (mgen nR c V) (mgen nR 1 C) l) sb (fst s) ;;
      good <- forN (iEnd - iStart) (fun i g => x <- mget1 out i ;; y <- mget1 tb i ;; Ok (g + if feq F x y then 1 else 0)) (snd s) ;;
      Ok (out, good)) (mempty F, 0)) as (s & E & W & G).
  - split; [reflexivity|]. simpl. rewrite Nat.min_0_r. reflexivity.
  - intros b s Hb (W & G). cbv zeta. set (st := b * vb). set (en := if n <? st + vb then n else st + vb).
    assert (Hst : st < n). { assert (b * vb + 1 <= n); [|unfold st; lia]. pose proof (Nat.div_mod (n + (vb - 1)) vb ltac:(lia)). pose proof (Nat.mod_upper_bound (n + (vb - 1)) vb ltac:(lia)). assert (S b <= (n + (vb - 1)) / vb) by lia. nia. }
    assert (Hen : st < en /\ en <= n /\ en = Nat.min n (S b * vb)). { unfold en. destruct (Nat.ltb_spec n (st + vb)); unfold st in *; simpl; lia. }
    rewrite !viewRow_gen by lia. cbn [bind].
    rewrite (@kmPredict_rows nR c V C l (en - st) (fun i j => X (st + i) j) (fst s) (fun i => d (st + i)) (fun i => idx (st + i))); auto; [|intros; apply HD; lia|intros; apply HI; lia].
    cbn [bind]. rewrite (@forN_fold _ (en - st) _ (fun i g => g + if p (st + i) then 1 else 0)).
    2:{ intros i g Hi. rewrite !mget1_col by auto. reflexivity. }
    cbn [bind]. rewrite (count_loop (en - st) (fun i => p (st + i)) (snd s)). eexists. split; [reflexivity|]. cbn [fst snd]. split; [apply mwf_gen|].
    rewrite G. replace (Nat.min n (b * vb)) with st by (unfold st in *; lia). rewrite <- count_shift. f_equal. lia.
  - cbv zeta in E |- *. rewrite E. cbn [bind]. rewrite G. replace (Nat.min n ((n + (vb - 1)) / vb * vb)) with n; [reflexivity|].
    pose proof (Nat.div_mod (n + (vb - 1)) vb ltac:(lia)). pose proof (Nat.mod_upper_bound (n + (vb - 1)) vb ltac:(lia)). nia.
Qed.
End Gen.
