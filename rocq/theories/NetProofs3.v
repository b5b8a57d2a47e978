(* NetProofs3.v - predicted classes; networks that do not keep the promise *)
From Coq Require Import String List Arith Bool Lia ZArith QArith Reals Lra.
From Verif Require Import Base Scalar Mat SpecMat MatFacts MatProofs MatProofs2 MatProps Act LayMat LayImg Layer Net SpecNet NetRow NetProofs1 NetProofs2.
Import ListNotations.
Local Open Scope nat_scope.

Lemma classes_several : forall (F : FOps) rs h n x cls h' nb m Y, mwf cls -> 2 <= m ->
  predict F rs h n x (mempty F) = Ok (h', mgen nb m Y) ->
  exists c, predictClasses F rs h n x cls = Ok (h', mgen nb 1 (fun i _ => fofN F (c i))) /\
  forall i, i < nb -> c i < m /\ argmax F (mgen 1 m (fun _ => Y i)) = Ok (c i).
Proof.
  intros F rs h n x cls h' nb m Y Hc Hm E. exists (fun i => argmaxPure F m (Y i)). unfold predictClasses. rewrite E. cbn [bind].
  change (mcols (mgen nb m Y)) with m. replace (m =? 1) with false by (symmetry; apply Nat.eqb_neq; lia). cbn [negb].
  rewrite rowsArgmax_gen by (auto; lia). cbn [bind]. split; auto. intros i Hi. split; [apply argmaxPure_range; lia|]. rewrite argmax_gen by lia. reflexivity.
Qed.
Lemma classes_several_real : forall jk rs h n x cls h' nb m Y, mwf cls -> 2 <= m ->
  predict (ROps jk) rs h n x (mempty (ROps jk)) = Ok (h', mgen nb m Y) ->
  exists c, predictClasses (ROps jk) rs h n x cls = Ok (h', mgen nb 1 (fun i _ => INR (c i))) /\
  forall i, i < nb -> c i < m /\ (forall j, j < m -> (Y i j <= Y i (c i))%R) /\ (forall j, j < c i -> (Y i j < Y i (c i))%R).
Proof.
  intros jk rs h n x cls h' nb m Y Hc Hm E. destruct (classes_several (ROps jk) rs h n x cls h' nb m Y Hc Hm E) as (c & E1 & E2).
  exists c. split.
  - rewrite E1. apply f_equal, f_equal, mgen_ext. intros. unfold fofN. simpl. rewrite <- INR_IZR_INZ. reflexivity.
  - intros i Hi. destruct (E2 i Hi) as [H1 H2]. split; auto.
    destruct (argmax_first_real jk m (fun _ => Y i)) as (k & K1 & K2 & K3 & K4); [lia|]. rewrite K1 in H2. inversion H2; subst. auto.
Qed.
Lemma classes_single : forall (F : FOps) rs h n x cls h' nb Y, mwf cls ->
  predict F rs h n x (mempty F) = Ok (h', mgen nb 1 Y) ->
  predictClasses F rs h n x cls = Ok (h', mgen nb 1 (fun i _ => flm F Lround (Y i 0))).
Proof.
  intros F rs h n x cls h' nb Y Hc E. unfold predictClasses. rewrite E. cbn [bind]. change (mcols (mgen nb 1 Y)) with 1. simpl negb. cbn iota.
  change (mrows (mgen nb 1 Y)) with nb. destruct (mresize_gen F cls nb 1 Hc) as [f ->].
  set (emb := fun p : nat -> F => mgen nb 1 (fun i _ => p i)).
  change (mgen nb 1 f) with (mgen nb 1 f). replace (mgen nb 1 f) with (emb (fun i => f i 0)) by (apply mgen_ext; intros i j _ Hj; replace j with 0 by lia; reflexivity).
  rewrite (@forN_sim _ _ emb nb _ (fun i p => fupd p i (flm F Lround (Y i 0)))).
  - cbn [bind]. apply f_equal, f_equal. unfold emb. apply mgen_ext. intros i j Hi _.
    rewrite (@fold_point nat F nat (fun i p => fupd p i (flm F Lround (Y i 0))) (fun q v => if q =? i then flm F Lround (Y q 0) else v)).
    + apply (@fold_hit0 F (fun i _ => flm F Lround (Y i 0))). auto.
    + intros q S _. unfold fupd. reflexivity.
  - intros i p Hi. unfold emb. rewrite mget2_gen by (auto; lia). cbn [bind]. rewrite mset2_gen by (auto; lia). apply f_equal, mgen_ext.
    intros a b Ha Hb. unfold upd2, fupd. replace b with 0 by lia. rewrite Nat.eqb_refl, andb_true_r, (Nat.eqb_sym a i). destruct (i =? a); reflexivity.
Qed.
