(* ImgKit.v - loop nests over the flat buffer of a matrix *)
From Coq Require Import List Arith Bool Lia.
From Verif Require Import Base Scalar Mat SpecMat MatFacts MatProofs MatLoops Scatter LayMat LayImg LayKit LayTens.
Import ListNotations.
Local Open Scope nat_scope.

(** the body changes cell k as a function of cell k *)
Lemma kloop : forall A r c n (body : nat -> mat A -> res (mat A)) (H : nat -> nat -> A -> A) p,
  (forall i q, i < n -> body i (mflat r c q) = Ok (mflat r c (fun k => H i k (q k)))) ->
  forN n body (mflat r c p) = Ok (mflat r c (fun k => fold_left (fun v i => H i k v) (seq 0 n) (p k))).
Proof.
  intros A r c n body H p HB. rewrite (@forN_sim _ _ (mflat r c)) with (step := fun i (q : nat -> A) => fun k => H i k (q k)); auto.
  apply Ok_eq, mflat_ext. intros k _. rewrite (@fold_point nat A nat (fun i (q : nat -> A) => fun k => H i k (q k)) (fun i v => H i k v)); auto.
Qed.
Lemma kloop2 : forall A r c n m (body : nat -> nat -> mat A -> res (mat A)) (H : nat -> nat -> nat -> A -> A) p,
  (forall i j q, i < n -> j < m -> body i j (mflat r c q) = Ok (mflat r c (fun k => H i j k (q k)))) ->
  loop2 n m body (mflat r c p) = Ok (mflat r c (fun k => fold_left (fun v i => fold_left (fun v j => H i j k v) (seq 0 m) v) (seq 0 n) (p k))).
Proof.
  intros A r c n m body H p HB. unfold loop2. apply (kloop A r c n _ (fun i k v => fold_left (fun v j => H i j k v) (seq 0 m) v)).
  intros i q Hi. apply kloop. intros. apply HB; auto.
Qed.
(* an accumulator that only reads *)
Lemma aloop : forall S n (body : nat -> S -> res S) (H : nat -> S -> S) s,
  (forall i q, i < n -> body i q = Ok (H i q)) -> forN n body s = Ok (fold_left (fun v i => H i v) (seq 0 n) s).
Proof. intros S n body H s HB. rewrite (@forN_sim _ _ (fun x => x)) with (step := H); auto. Qed.
Lemma aloop2 : forall S n m (body : nat -> nat -> S -> res S) (H : nat -> nat -> S -> S) s,
  (forall i j q, i < n -> j < m -> body i j q = Ok (H i j q)) ->
  loop2 n m body s = Ok (fold_left (fun v i => fold_left (fun v j => H i j v) (seq 0 m) v) (seq 0 n) s).
Proof. intros S n m body H s HB. unfold loop2. apply (aloop S n _ (fun i v => fold_left (fun v j => H i j v) (seq 0 m) v)). intros. apply aloop; auto. Qed.

(** nests of assignments: f either leaves a cell or stores V in it *)
Definition keeps {A} (V : A) (f : A -> A) := forall v, f v = v \/ f v = V.
Definition hits {A} (V : A) (f : A -> A) := forall v, f v = V.
Lemma hits_keeps : forall A (V : A) f, hits V f -> keeps V f. Proof. intros A V f H v. right. apply H. Qed.
Lemma keeps_V : forall A (V : A) f, keeps V f -> f V = V. Proof. intros A V f H. destruct (H V); auto. Qed.
Lemma fold_keeps : forall A I (V : A) (H : I -> A -> A) l, (forall i, In i l -> keeps V (H i)) -> keeps V (fun v => fold_left (fun v i => H i v) l v).
Proof.
  intros A I V H l. induction l as [|i l IH]; intros HK v; simpl; auto.
  assert (E : forall j, In j l -> keeps V (H j)) by (intros; apply HK; right; auto).
  destruct (HK i (or_introl eq_refl) v) as [->| ->].
  - apply IH; auto.
  - right. apply (keeps_V A V (fun v => fold_left (fun v i => H i v) l v)). apply IH; auto.
Qed.
Lemma fold_hits : forall A I (V : A) (H : I -> A -> A) l i0, (forall i, In i l -> keeps V (H i)) -> In i0 l -> hits V (H i0) ->
  hits V (fun v => fold_left (fun v i => H i v) l v).
Proof.
  intros A I V H l i0. induction l as [|i l IH]; intros HK Hin Hh v; [contradiction|].
  assert (E : forall j, In j l -> keeps V (H j)) by (intros; apply HK; right; auto). simpl. destruct Hin as [->|Hin].
  - rewrite Hh. apply (keeps_V A V (fun v => fold_left (fun v i => H i v) l v)). apply fold_keeps; auto.
  - apply IH; auto.
Qed.
Lemma seq_keeps : forall A (V : A) n (H : nat -> A -> A), (forall i, i < n -> keeps V (H i)) -> keeps V (fun v => fold_left (fun v i => H i v) (seq 0 n) v).
Proof. intros. apply fold_keeps. intros i Hi. apply in_seq in Hi. apply H0. lia. Qed.
Lemma seq_hits : forall A (V : A) n i0 (H : nat -> A -> A), (forall i, i < n -> keeps V (H i)) -> i0 < n -> hits V (H i0) ->
  hits V (fun v => fold_left (fun v i => H i v) (seq 0 n) v).
Proof. intros A V n i0 H HK Hi Hh. apply fold_hits with (i0 := i0); auto; [intros i Hx; apply in_seq in Hx; apply HK; lia|apply in_seq; lia]. Qed.
Lemma if_keeps : forall A (V : A) (b : bool) x, (b = true -> x = V) -> keeps V (fun v => if b then x else v).
Proof. intros A V b x H v. destruct b; auto. Qed.
Lemma if_hits : forall A (V : A) (b : bool) x, b = true -> x = V -> hits V (fun v => if b then x else v).
Proof. intros A V b x -> -> v. reflexivity. Qed.

(** folds where at most one iteration acts *)
Lemma fold_hit_lt : forall A (h : nat -> A -> A) j n v,
  fold_left (fun v i => if i =? j then h i v else v) (seq 0 n) v = if j <? n then h j v else v.
Proof. intros. rewrite fold_hit. simpl. reflexivity. Qed.
Lemma fold_const_if : forall A I (b : bool) (h : I -> A -> A) l v,
  fold_left (fun v i => if b then h i v else v) l v = if b then fold_left (fun v i => h i v) l v else v.
Proof. intros. destruct b; auto. apply fold_left_id; auto. Qed.
(* a window of width k: position x lies in window x/k *)
Lemma fold_win : forall A (h : A -> A) x c k v,
  fold_left (fun v b => if x =? c * k + b then h v else v) (seq 0 k) v = if (0 <? k) && (x / k =? c) then h v else v.
Proof.
  intros A h x c k v. destruct (Nat.ltb_spec 0 k) as [Hk|Hk]; simpl.
  - destruct (Nat.eqb_spec (x / k) c) as [E|E].
    + rewrite (@fold_left_ext_in _ _ _ (fun v b => if b =? x mod k then h v else v)).
      * rewrite (fold_hit0 (fun _ v => h v)); auto. apply Nat.mod_upper_bound; lia.
      * intros a b Hb. apply in_seq in Hb. subst c. assert (E0 : x / k * k + x mod k = x) by (apply idx_eq; lia).
        destruct (Nat.eqb_spec x (x / k * k + b)), (Nat.eqb_spec b (x mod k)); auto; lia.
    + apply fold_left_id. intros a b Hb. apply in_seq in Hb. destruct (Nat.eqb_spec x (c * k + b)) as [Ex|]; auto.
      exfalso. apply E. subst x. apply idx_div. lia.
  - replace k with 0 by lia. reflexivity.
Qed.

(** accesses *)
Lemma rowGet_flat : forall (F : FOps) r c (g : nat -> F) s k, s < r -> s * c + k < r * c -> rowGet F (mflat r c g) s k = Ok (g (s * c + k)).
Proof.
  intros. unfold rowGet, assert_. change (mrows (mflat r c g)) with r. change (mcols (mflat r c g)) with c.
  rewrite ltb_true by auto. cbn [bind]. apply rget_flat; auto.
Qed.
Lemma rowSet_flat : forall (F : FOps) r c (g : nat -> F) s k v, s < r -> s * c + k < r * c ->
  rowSet F (mflat r c g) s k v = Ok (mflat r c (fun x => if s * c + k =? x then v else g x)).
Proof.
  intros. unfold rowSet, assert_. change (mrows (mflat r c g)) with r. change (mcols (mflat r c g)) with c.
  rewrite ltb_true by auto. cbn [bind]. rewrite rset_flat by auto. reflexivity.
Qed.
Lemma rowGet_tens : forall (F : FOps) nS nH nR nC (t : nat -> nat -> nat -> nat -> F) s h r c p, s < nS -> h < nH -> r < nR -> c < nC ->
  p = pix nR nC h r c -> rowGet F (tens nS nH nR nC t) s p = Ok (t s h r c).
Proof.
  intros F nS nH nR nC t s h r c p Hs Hh Hr Hc ->. destruct (tens_is_flat F nS nH nR nC t) as (g & E & Hg). rewrite E.
  rewrite rowGet_flat; auto.
  - rewrite <- addr4_pix, Hg; auto.
  - rewrite <- addr4_pix. apply addr4_lt; auto.
Qed.
Lemma mget2_tens : forall A nS nH nR nC (t : nat -> nat -> nat -> nat -> A) s h r c p, s < nS -> h < nH -> r < nR -> c < nC ->
  p = pix nR nC h r c -> mget2 (tens nS nH nR nC t) s p = Ok (t s h r c).
Proof.
  intros A nS nH nR nC t s h r c p Hs Hh Hr Hc ->. rewrite tens_gen. rewrite mget2_gen by (auto; apply pix_lt; auto).
  rewrite pix_h, pix_r, pix_c by auto. reflexivity.
Qed.
Lemma addr_pix : forall nH nR nC s h r c k, h < nH -> r < nR -> c < nC -> k = pix nR nC h r c -> s * (nH * nR * nC) + k = addr4 nH nR nC s h r c.
Proof. intros. subst. rewrite addr4_pix. reflexivity. Qed.
Lemma rowSet_tflat : forall (F : FOps) nS nH nR nC (g : nat -> F) s h r c p v, s < nS -> h < nH -> r < nR -> c < nC -> p = pix nR nC h r c ->
  rowSet F (mflat nS (nH * nR * nC) g) s p v = Ok (mflat nS (nH * nR * nC) (fun x => if addr4 nH nR nC s h r c =? x then v else g x)).
Proof.
  intros F nS nH nR nC g s h r c p v Hs Hh Hr Hc ->. rewrite rowSet_flat; auto.
  - rewrite addr4_pix. reflexivity.
  - rewrite <- addr4_pix. apply addr4_lt; auto.
Qed.
(* all cells of a tensor *)
Lemma eq4 : forall nH nR nC s h r c s' h' r' c', h < nH -> r < nR -> c < nC -> h' < nH -> r' < nR -> c' < nC ->
  (addr4 nH nR nC s h r c =? addr4 nH nR nC s' h' r' c') = (s =? s') && ((h =? h') && ((r =? r') && (c =? c'))).
Proof.
  intros. destruct (Nat.eqb_spec (addr4 nH nR nC s h r c) (addr4 nH nR nC s' h' r' c')) as [E|E].
  - apply addr4_inj in E; auto. destruct E as (-> & -> & -> & ->). rewrite !Nat.eqb_refl. reflexivity.
  - symmetry. destruct (Nat.eqb_spec s s'), (Nat.eqb_spec h h'), (Nat.eqb_spec r r'), (Nat.eqb_spec c c'); auto. subst. contradiction.
Qed.

(* a loop nest writing every cell of a tensor once *)
Lemma tens_write : forall (F : FOps) nS nH nR nC (body : nat -> nat -> nat -> nat -> mat F -> res (mat F)) (t : nat -> nat -> nat -> nat -> F) m,
  (exists g, m = mflat nS (nH * nR * nC) g) ->
  (forall s h r c g, s < nS -> h < nH -> r < nR -> c < nC ->
     body s h r c (mflat nS (nH * nR * nC) g) = Ok (mflat nS (nH * nR * nC) (fun x => if addr4 nH nR nC s h r c =? x then t s h r c else g x))) ->
  loop2 nS nH (fun s h m => loop2 nR nC (fun r c m => body s h r c m) m) m = Ok (tens nS nH nR nC t).
Proof.
  intros F nS nH nR nC body t m [g ->] HB.
  rewrite (kloop2 F nS (nH * nR * nC) nS nH _ (fun s h k v => fold_left (fun v r => fold_left (fun v c => if addr4 nH nR nC s h r c =? k then t s h r c else v) (seq 0 nC) v) (seq 0 nR) v)).
  2:{ intros s h q Hs Hh. apply (kloop2 F nS (nH * nR * nC) nR nC _ (fun r c k v => if addr4 nH nR nC s h r c =? k then t s h r c else v)).
      intros. apply HB; auto. }
  apply Ok_eq, flat_tens. intros s h r c Hs Hh Hr Hc.
  set (V := t s h r c).
  assert (K : forall s' h' r' c', h' < nH -> r' < nR -> c' < nC -> keeps V (fun v => if addr4 nH nR nC s' h' r' c' =? addr4 nH nR nC s h r c then t s' h' r' c' else v)).
  { intros s' h' r' c' Hh' Hr' Hc'. apply if_keeps. intro E. apply Nat.eqb_eq, addr4_inj in E; auto. destruct E as (-> & -> & -> & ->). reflexivity. }
  apply (seq_hits F V nS s); auto.
  - intros s' _. apply seq_keeps. intros h' Hh'. apply seq_keeps. intros r' Hr'. apply seq_keeps. intros c' Hc'. apply K; auto.
  - apply (seq_hits F V nH h); auto.
    + intros h' Hh'. apply seq_keeps. intros r' Hr'. apply seq_keeps. intros c' Hc'. apply K; auto.
    + apply (seq_hits F V nR r); auto.
      * intros r' Hr'. apply seq_keeps. intros c' Hc'. apply K; auto.
      * apply (seq_hits F V nC c); auto. apply if_hits; auto. apply Nat.eqb_refl.
Qed.
Lemma resize_tflat : forall (F : FOps) (m : mat F) r c r' c', mwf m -> r = r' -> c = c' -> exists g, mresize F m r c = mflat r' c' g.
Proof. intros F m r c r' c' H -> ->. apply mresize_flat; auto. Qed.
