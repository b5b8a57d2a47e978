(* Base.v - outcomes, bounded loops, buffers.  Nothing here is specific to BeeDNN. *)
From Coq Require Import List Arith Lia Bool ZArith.
Import ListNotations.
Set Implicit Arguments.

(** * Outcomes of a C++ computation *)
Inductive err :=
| EOob      (* access outside a buffer *)
| EAssert   (* a failed assert(); undefined behaviour in a release build *)
| ENull     (* null pointer dereference *)
| EFree     (* use after free, double free *)
| EUninit   (* use of an indeterminate value *)
| EDiv      (* integer division by zero *)
| ECast     (* float to int conversion out of range (undefined) *)
| EThrow    (* a C++ exception *)
| EFuel.    (* the loop does not end *)

Inductive res (A : Type) := Ok (a : A) | Err (e : err).
Arguments Ok {A}. Arguments Err {A}.

Definition bind {A B} (m : res A) (k : A -> res B) : res B :=
  match m with Ok a => k a | Err e => Err e end.
Notation "x <- e ;; k" := (bind e (fun x => k)) (at level 61, e at next level, right associativity).
Notation "' p <- e ;; k" := (bind e (fun p => k)) (at level 61, p pattern, e at next level, right associativity).
Notation "e1 ;;; k" := (bind e1 (fun _ => k)) (at level 61, right associativity).

Definition assert_ (b : bool) : res unit := if b then Ok tt else Err EAssert.

(** * for loops *)
Fixpoint forL {I S} (l : list I) (body : I -> S -> res S) (s : S) : res S :=
  match l with
  | [] => Ok s
  | i :: l' => s' <- body i s ;; forL l' body s'
  end.

(* for (i = 0; i < n; i++) *)
Definition forN {S} (n : nat) (body : nat -> S -> res S) (s : S) : res S := forL (seq 0 n) body s.

(** * Buffers *)
Definition rget {A} (b : list A) (i : nat) : res A :=
  match nth_error b i with Some x => Ok x | None => Err EOob end.

Fixpoint upd {A} (b : list A) (i : nat) (v : A) : list A :=
  match b, i with
  | [], _ => []
  | _ :: t, O => v :: t
  | h :: t, S i' => h :: upd t i' v
  end.

Definition rset {A} (b : list A) (i : nat) (v : A) : res (list A) :=
  if i <? length b then Ok (upd b i v) else Err EOob.

(** * Facts *)
Lemma bind_ok : forall A B (a : A) (k : A -> res B), bind (Ok a) k = k a.
Proof. reflexivity. Qed.

Lemma bind_inv : forall A B (m : res A) (k : A -> res B) b,
  bind m k = Ok b -> exists a, m = Ok a /\ k a = Ok b.
Proof. intros A B [a|e] k b H; simpl in H; [exists a; auto | discriminate]. Qed.

Lemma forL_app : forall I S (l1 l2 : list I) (body : I -> S -> res S) s,
  forL (l1 ++ l2) body s = (s' <- forL l1 body s ;; forL l2 body s').
Proof.
  induction l1 as [|i l1 IH]; intros; simpl; auto.
  destruct (body i s); simpl; auto.
Qed.

Lemma forL_ext : forall I S (l : list I) (b1 b2 : I -> S -> res S) s,
  (forall i s, In i l -> b1 i s = b2 i s) -> forL l b1 s = forL l b2 s.
Proof.
  induction l as [|i l IH]; intros b1 b2 s H; simpl; auto.
  rewrite H by (left; auto). destruct (b2 i s); simpl; auto.
  apply IH. intros; apply H; right; auto.
Qed.

(* The loop rule: a state function [step] simulates the body on the image of [emb]. *)
Lemma forL_sim : forall I S P (emb : P -> S) (l : list I) (body : I -> S -> res S) (step : I -> P -> P) p,
  (forall i p, In i l -> body i (emb p) = Ok (emb (step i p))) ->
  forL l body (emb p) = Ok (emb (fold_left (fun q i => step i q) l p)).
Proof.
  induction l as [|i l IH]; intros body step p H; simpl; auto.
  rewrite H by (left; auto). simpl. apply IH. intros; apply H; right; auto.
Qed.

Lemma forN_sim : forall S P (emb : P -> S) n (body : nat -> S -> res S) (step : nat -> P -> P) p,
  (forall i p, i < n -> body i (emb p) = Ok (emb (step i p))) ->
  forN n body (emb p) = Ok (emb (fold_left (fun q i => step i q) (seq 0 n) p)).
Proof. intros. apply forL_sim. intros i q Hi. apply in_seq in Hi. apply H; lia. Qed.

(* Invariant rule *)
Lemma forN_inv : forall S (I : nat -> S -> Prop) n (body : nat -> S -> res S) s,
  I 0 s ->
  (forall i s, i < n -> I i s -> exists s', body i s = Ok s' /\ I (Datatypes.S i) s') ->
  exists s', forN n body s = Ok s' /\ I n s'.
Proof.
  intros S I n body s H0 Hs. unfold forN.
  assert (G : forall m k s, k + m = n -> I k s -> exists s', forL (seq k m) body s = Ok s' /\ I n s').
  { induction m as [|m IH]; intros k s' Hk HI; simpl.
    - exists s'. split; auto. replace n with k by lia; auto.
    - destruct (Hs k s') as (s'' & E & HI'); try lia; auto. rewrite E; simpl.
      apply IH; auto; lia. }
  apply (G n 0 s); auto.
Qed.

Lemma forL_inv : forall I S (Inv : list I -> S -> Prop) (l : list I) (body : I -> S -> res S) s,
  Inv [] s ->
  (forall done i s, (exists rest, l = done ++ i :: rest) -> Inv done s ->
      exists s', body i s = Ok s' /\ Inv (done ++ [i]) s') ->
  exists s', forL l body s = Ok s' /\ Inv l s'.
Proof.
  intros I S Inv l body s H0 Hs.
  assert (G : forall rest done s, l = done ++ rest -> Inv done s ->
     exists s', forL rest body s = Ok s' /\ Inv l s').
  { induction rest as [|i rest IH]; intros done s' E HI; simpl.
    - exists s'. rewrite app_nil_r in E. subst; auto.
    - destruct (Hs done i s') as (s'' & Eb & HI'); eauto. rewrite Eb; simpl.
      apply IH with (done := done ++ [i]); auto. rewrite <- app_assoc; auto. }
  apply (G l [] s); auto.
Qed.

(* A fold over functions, looked at in one point. *)
Lemma fold_point : forall I A P (G : I -> (P -> A) -> (P -> A)) (g : I -> A -> A) p l S,
  (forall x S, In x l -> G x S p = g x (S p)) ->
  fold_left (fun S x => G x S) l S p = fold_left (fun v x => g x v) l (S p).
Proof.
  induction l as [|x l IH]; intros S H; simpl; auto.
  rewrite IH by (intros; apply H; right; auto). f_equal. apply H; left; auto.
Qed.

Lemma fold_left_ext_in : forall A B (f g : A -> B -> A) l a,
  (forall a b, In b l -> f a b = g a b) -> fold_left f l a = fold_left g l a.
Proof.
  induction l as [|b l IH]; intros a H; simpl; auto.
  rewrite H by (left; auto). apply IH. intros; apply H; right; auto.
Qed.

Lemma fold_left_id : forall A B (f : A -> B -> A) l a,
  (forall a b, In b l -> f a b = a) -> fold_left f l a = a.
Proof.
  induction l as [|b l IH]; intros a H; simpl; auto.
  rewrite H by (left; auto). apply IH. intros; apply H; right; auto.
Qed.

(* a loop whose body acts only for index j *)
Lemma fold_hit : forall A (h : nat -> A -> A) j n s v,
  fold_left (fun v i => if i =? j then h i v else v) (seq s n) v =
  if (s <=? j) && (j <? s + n) then h j v else v.
Proof.
  intros A h j n. induction n as [|n IH]; intros s v; simpl.
  - destruct (s <=? j) eqn:E1; simpl; auto.
    destruct (j <? s + 0) eqn:E2; auto.
    apply Nat.leb_le in E1. apply Nat.ltb_lt in E2. lia.
  - rewrite IH. destruct (s =? j) eqn:E.
    + apply Nat.eqb_eq in E; subst.
      replace (S j <=? j) with false by (symmetry; apply Nat.leb_gt; lia).
      replace (j <=? j) with true by (symmetry; apply Nat.leb_le; lia).
      replace (j <? j + S n) with true by (symmetry; apply Nat.ltb_lt; lia). reflexivity.
    + apply Nat.eqb_neq in E.
      replace (s + S n) with (S s + n) by lia.
      destruct (j <? S s + n) eqn:E2; destruct (S s <=? j) eqn:E3; destruct (s <=? j) eqn:E4; simpl; auto;
      apply Nat.leb_le in E3 || apply Nat.leb_gt in E3; apply Nat.leb_le in E4 || apply Nat.leb_gt in E4; lia.
Qed.

Lemma fold_hit0 : forall A (h : nat -> A -> A) j n v, j < n ->
  fold_left (fun v i => if i =? j then h i v else v) (seq 0 n) v = h j v.
Proof.
  intros. rewrite fold_hit. simpl.
  replace (j <? n) with true by (symmetry; apply Nat.ltb_lt; lia). reflexivity.
Qed.

(** lists *)
Lemma nth_error_map_seq : forall A (f : nat -> A) n s i, i < n ->
  nth_error (map f (seq s n)) i = Some (f (s + i)).
Proof.
  induction n as [|n IH]; intros s i H; [lia|]. destruct i; simpl.
  - f_equal; f_equal; lia.
  - rewrite IH by lia. f_equal; f_equal; lia.
Qed.

Lemma rget_seq : forall A (f : nat -> A) n i, i < n -> rget (map f (seq 0 n)) i = Ok (f i).
Proof. intros. unfold rget. rewrite nth_error_map_seq by auto. reflexivity. Qed.

Lemma length_upd : forall A (b : list A) i v, length (upd b i v) = length b.
Proof. induction b; destruct i; simpl; auto. Qed.

Lemma nth_error_upd : forall A (b : list A) i v j,
  nth_error (upd b i v) j = if (i =? j) && (i <? length b) then Some v else nth_error b j.
Proof.
  induction b as [|h b IH]; intros i v j.
  - simpl. rewrite andb_false_r. destruct i; reflexivity.
  - destruct i; destruct j; try reflexivity. simpl upd. simpl nth_error. rewrite IH. reflexivity.
Qed.

Lemma list_ext : forall A (l1 l2 : list A),
  (forall i, nth_error l1 i = nth_error l2 i) -> l1 = l2.
Proof.
  induction l1 as [|a l1 IH]; intros [|b l2] H; auto.
  - specialize (H 0); discriminate.
  - specialize (H 0); discriminate.
  - f_equal. + specialize (H 0); simpl in H; congruence.
    + apply IH. intro i. apply (H (S i)).
Qed.

Definition fupd {A} (f : nat -> A) (i : nat) (v : A) : nat -> A := fun k => if i =? k then v else f k.

Lemma upd_seq : forall A (f : nat -> A) n i v,
  upd (map f (seq 0 n)) i v = map (fupd f i v) (seq 0 n).
Proof.
  intros. apply list_ext. intro j.
  rewrite nth_error_upd, map_length, seq_length.
  destruct (lt_dec j n).
  - rewrite !nth_error_map_seq by auto. simpl. unfold fupd.
    destruct (i =? j) eqn:E; simpl; auto.
    apply Nat.eqb_eq in E; subst. replace (j <? n) with true; auto. symmetry; apply Nat.ltb_lt; auto.
  - destruct (i =? j) eqn:E; simpl.
    + apply Nat.eqb_eq in E; subst. replace (j <? n) with false by (symmetry; apply Nat.ltb_ge; lia).
      rewrite !(proj2 (nth_error_None _ _)); auto; rewrite map_length, seq_length; lia.
    + rewrite !(proj2 (nth_error_None _ _)); auto; rewrite map_length, seq_length; lia.
Qed.

Lemma rset_seq : forall A (f : nat -> A) n i v, i < n ->
  rset (map f (seq 0 n)) i v = Ok (map (fupd f i v) (seq 0 n)).
Proof.
  intros. unfold rset. rewrite map_length, seq_length.
  replace (i <? n) with true by (symmetry; apply Nat.ltb_lt; auto). rewrite upd_seq; auto.
Qed.

Lemma map_seq_ext : forall A (f g : nat -> A) n,
  (forall i, i < n -> f i = g i) -> map f (seq 0 n) = map g (seq 0 n).
Proof. intros. apply map_ext_in. intros a Ha. apply in_seq in Ha. apply H; lia. Qed.

Lemma list_as_map : forall A (d : A) (l : list A), l = map (fun i => nth i l d) (seq 0 (length l)).
Proof.
  intros. apply list_ext. intro i. destruct (lt_dec i (length l)).
  - rewrite nth_error_map_seq by auto. simpl. apply nth_error_nth'; auto.
  - rewrite !(proj2 (nth_error_None _ _)); auto; try rewrite map_length, seq_length; lia.
Qed.

(** index arithmetic *)
Lemma idx_lt : forall i j r c, i < r -> j < c -> i * c + j < r * c.
Proof. intros. nia. Qed.

Lemma idx_div : forall i j c, j < c -> (i * c + j) / c = i.
Proof. intros. rewrite Nat.div_add_l by lia. rewrite Nat.div_small by auto. lia. Qed.

Lemma idx_mod : forall i j c, j < c -> (i * c + j) mod c = j.
Proof. intros. rewrite Nat.add_comm, Nat.mod_add by lia. apply Nat.mod_small; auto. Qed.

Lemma div_lt_r : forall k r c, k < r * c -> k / c < r.
Proof. intros. apply Nat.div_lt_upper_bound; try nia. Qed.

Lemma mod_lt_c : forall k r c, k < r * c -> k mod c < c.
Proof. intros. apply Nat.mod_upper_bound. nia. Qed.

Lemma idx_eq : forall k c, c <> 0 -> k / c * c + k mod c = k.
Proof. intros. rewrite (Nat.div_mod_eq k c) at 3. lia. Qed.

Lemma idx_inj : forall i j i' j' c, j < c -> j' < c -> i * c + j = i' * c + j' -> i = i' /\ j = j'.
Proof.
  intros. split.
  - rewrite <- (idx_div i H), <- (idx_div i' H0). congruence.
  - rewrite <- (idx_mod i H), <- (idx_mod i' H0). congruence.
Qed.
