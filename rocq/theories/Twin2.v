(* Twin2.v - equal units: a layer of equal units, concrete runs, and where equal units part *)
From Coq Require Import String List Arith Bool Lia ZArith QArith.
From Verif Require Import Base Scalar Mat SpecMat MatFacts MatProofs Act Loss Optim Regul LayMat LayImg Layer Net NetTrain SpecNet SpecTrain SpecFit SpecResume SpecFixed SpecZero Fixed4 Zero2 Dead2 TrainProofs14 NetProofs4 LayProofs2 SpecTwin Twin1.
Import ListNotations.
Local Open Scope nat_scope.

Section Any.
Variable F : FOps.
Notation cabs := (absFloat F).
(* if all the units of a hidden layer start equal, they end equal *)
Theorem clones : forall J (R0 : fitRnd F) h n (t : trainer F) k mo x y a ka qa kb pb b0 b1 b2 l0 l1 l2,
  trainable h n t k mo -> allPassive h n -> allSized F h n -> ttrain F t = Some (x, y) -> 0 < mrows x ->
  nth_error (nlay n) J = Some b0 -> nth_error (nlay n) (J + 1) = Some b1 -> nth_error (nlay n) (J + 2) = Some b2 ->
  hget F h b0 = Ok l0 -> hget F h b1 = Ok l1 -> hget F h b2 = Ok l2 -> lk l0 = KDense ka qa -> lk l1 = KAct (Some a) -> lk l2 = KDense kb pb -> 0 < mcols (lw l0) ->
  (forall u v, u < mcols (lw l0) -> v < mcols (lw l0) -> sameCols u v (lw l0) /\ sameCols u v (lb l0) /\ sameRows u v (lw l2)) ->
  exists h' n' t' calls c0 c2 d0 d2, fit F cabs R0 h n t = Ok (h', n', t', calls) /\ nth_error (nlay n') J = Some c0 /\ nth_error (nlay n') (J + 2) = Some c2 /\
  hget F h' c0 = Ok d0 /\ hget F h' c2 = Ok d2 /\ lk d0 = KDense ka qa /\ lk d2 = KDense kb pb /\
  (forall u v, u < mcols (lw l0) -> v < mcols (lw l0) -> sameCols u v (lw d0) /\ sameCols u v (lb d0) /\ sameRows u v (lw d2)).
Proof.
  intros J R0 h n t k mo x y a ka qa kb pb b0 b1 b2 l0 l1 l2 Ht Pl Sz Hx HN N0 N1 N2 H0 H1 H2 K0 K1 K2 Hq T.
  assert (Z : forall u v, u < mcols (lw l0) -> v < mcols (lw l0) -> exists h' n' t' calls c0 c2 d0 d2, fit F cabs R0 h n t = Ok (h', n', t', calls) /\ nth_error (nlay n') J = Some c0 /\ nth_error (nlay n') (J + 2) = Some c2 /\
    hget F h' c0 = Ok d0 /\ hget F h' c2 = Ok d2 /\ lk d0 = KDense ka qa /\ lk d2 = KDense kb pb /\ sameCols u v (lw d0) /\ sameCols u v (lb d0) /\ sameRows u v (lw d2)).
  { intros u v Hu Hv. destruct (T u v Hu Hv) as (T1 & T2 & T3). eapply (twins F u v J R0 h n t k mo x y a ka qa kb pb); eauto. }
  destruct (Z 0 0 Hq Hq) as (h' & n' & t' & calls & c0 & c2 & d0 & d2 & E & E1 & E2 & E3 & E4 & E5 & E6 & _). exists h', n', t', calls, c0, c2, d0, d2. do 7 (split; auto).
  intros u v Hu Hv. destruct (Z u v Hu Hv) as (h1 & n1 & t1 & calls1 & c1 & c3 & d1 & d3 & F0 & F1 & F2 & F3 & F4 & _ & _ & F5). assert (h1 = h' /\ n1 = n') as [-> ->] by (rewrite E in F0; split; congruence). assert (c1 = c0) as -> by congruence. assert (c3 = c2) as -> by congruence. assert (d1 = d0) as -> by congruence. assert (d3 = d2) as -> by congruence. exact F5.
Qed.

(** * a concrete network: Dense(1,2) with weights w, w, an activation, Dense(2,1) with weights x, x *)
Definition eq1 (w b : F) : layer F := setWB (layBase F (KDense 1 2) "Ones" "Zeros") (mgen 1 2 (fun _ _ => w)) (mgen 1 2 (fun _ _ => b)).
Definition eq3 (W : nat -> nat -> F) : layer F := setWB (layBase F (KDense 2 1) "Ones" "Zeros") (mgen 2 1 W) (mgen 1 1 (fun _ _ => f0 F)).
Definition eqHeap (w b : F) (a : actKind) (W : nat -> nat -> F) : heap F := [Some (eq1 w b); Some (fxAct F a); Some (eq3 W)].
Lemma eq_trainable : forall w b0 a W opt lr b e N rg Y, create_optimizer opt <> None -> trainable (eqHeap w b0 a W) ddNet (ddTr F opt lr b e N rg Y) 1 1.
Proof.
  intros w b0 a W opt lr b e N rg Y Ho. unfold trainable. split; [repeat constructor; cbn; intuition discriminate|].
  split. { eexists. exists 2. split; [reflexivity|]. split; [repeat split; auto|]. eexists. exists 2. split; [reflexivity|]. split; [split; [auto|]; split; [auto|]; do 3 (split; [reflexivity|]); cbn; split; auto; split; [discriminate|]; repeat split|]. eexists. exists 1. split; [reflexivity|]. split; [|reflexivity]. repeat split; auto. }
  split. { intros [|[|[|i]]] c l E El; try discriminate E; injection E as <-; injection El as <-; reflexivity. }
  split; [exact Ho|]. split; [reflexivity|]. split; [left; reflexivity|]. split; [cbn; lia|]. split; [constructor|]. split; [constructor|].
  split; [|intros d E; discriminate E]. eexists. split; [reflexivity|]. split; [apply mwf_gen|]. split; [apply mwf_gen|]. split; [reflexivity|]. split; reflexivity.
Qed.
Lemma twin_case : forall (R0 : fitRnd F) w b0 a W opt lr b e N rg Y, create_optimizer opt <> None -> 0 < N -> W 0 0 = W 1 0 ->
  exists h' n' t' calls c0 c2 d0 d2, fit F cabs R0 (eqHeap w b0 a W) ddNet (ddTr F opt lr b e N rg Y) = Ok (h', n', t', calls) /\ nth_error (nlay n') 0 = Some c0 /\ nth_error (nlay n') 2 = Some c2 /\
  hget F h' c0 = Ok d0 /\ hget F h' c2 = Ok d2 /\ lk d0 = KDense 1 2 /\ lk d2 = KDense 2 1 /\ sameCols 0 1 (lw d0) /\ sameCols 0 1 (lb d0) /\ sameRows 0 1 (lw d2).
Proof.
  intros R0 w b0 a W opt lr b e N rg Y Ho HN HW. apply (twins F 0 1 0 R0 (eqHeap w b0 a W) ddNet (ddTr F opt lr b e N rg Y) 1 1 (fxX F N) (mgen N 1 Y) a 1 2 2 1 0 1 2 (eq1 w b0) (fxAct F a) (eq3 W)); try reflexivity; auto.
  - apply eq_trainable; auto.
  - intros c l [<-|[<-|[<-|[]]]] E; injection E as <-; exact I.
  - intros c l [<-|[<-|[<-|[]]]] E; injection E as <-; exact I.
  - cbn; lia.
  - intros i Hi. change (i < 1) in Hi. change (mget2 (mgen 1 2 (fun _ _ => w)) i 0 = mget2 (mgen 1 2 (fun _ _ => w)) i 1). rewrite !mget2_gen by lia. reflexivity.
  - intros i Hi. change (i < 1) in Hi. change (mget2 (mgen 1 2 (fun _ _ => b0)) i 0 = mget2 (mgen 1 2 (fun _ _ => b0)) i 1). rewrite !mget2_gen by lia. reflexivity.
  - intros i Hi. change (i < 1) in Hi. change (mget2 (mgen 2 1 W) 0 i = mget2 (mgen 2 1 W) 1 i). rewrite !mget2_gen by lia. replace i with 0 by lia. congruence.
Qed.
End Any.

(** * computed runs *)
Definition eqRun (opt : string) (a : actKind) (W : nat -> nat -> QOps) := around (eqHeap QOps 1%Q 0%Q a W) ddNet (ddTr QOps opt (1 # 100)%Q 4 1 3 None (fun _ _ => 0%Q)).
(* the two weights of the first layer and the two of the last, after training *)
Definition pair_ (r : option (list (option (list QArith_base.Q * list QArith_base.Q)) * list (option (list QArith_base.Q * list QArith_base.Q)) * list QArith_base.Q)) : option (QArith_base.Q * QArith_base.Q * (QArith_base.Q * QArith_base.Q)) :=
  match r with Some (_, [Some ([a; b], _); _; Some ([c; d], _)], _) => Some (a, b, (c, d)) | _ => None end.
(* both units learn, and learn the same *)
Lemma twin_run : forall opt, In opt ["SGD"; "Momentum"; "RPROP-"; "Nesterov"; "Step"]%string ->
  match pair_ (eqRun opt ARelu (fun _ _ => 1%Q)) with Some (a, b, (c, d)) => a = b /\ a <> 1%Q /\ c = d /\ c <> 1%Q | None => False end.
Proof. intros opt H. repeat (destruct H as [<-|H]; [vm_compute; split; [reflexivity|split; [discriminate|split; [reflexivity|discriminate]]]|]). destruct H. Qed.
(* equal incoming weights are not enough: with different outgoing weights the units part *)
Theorem outgoing_refuted : match pair_ (eqRun "SGD" ARelu (fun i _ => if i =? 0 then 1%Q else 2%Q)) with Some (a, b, (c, d)) => a <> b | None => False end.
Proof. vm_compute. discriminate. Qed.
