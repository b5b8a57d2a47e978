(* TrainProofs3.v - registration of the parameters, the sequence of epochs, histories *)
From Coq Require Import String List Arith Bool Lia ZArith.
From Verif Require Import Base Scalar Mat Loss Optim Regul Act LayMat LayImg LayRnn Layer Net NetTrain SpecNet SpecTrain NetProofs1 NetProofs2 TrainProofs1 TrainProofs2.
Import ListNotations.
Local Open Scope nat_scope.

(* the states a successful loop goes through *)
Lemma forN_states : forall S n (body : nat -> S -> res S) s s', forN n body s = Ok s' ->
  exists ss : nat -> S, ss 0 = s /\ ss n = s' /\ forall i, i < n -> body i (ss i) = Ok (ss (Datatypes.S i)).
Proof.
  intros S n body s s' E. unfold forN in E.
  assert (G : forall m k s, forL (seq k m) body s = Ok s' -> exists ss : nat -> S, ss k = s /\ ss (k + m) = s' /\ forall i, k <= i -> i < k + m -> body i (ss i) = Ok (ss (Datatypes.S i))).
  { induction m as [|m IH]; intros k s1 E1; simpl in E1.
    - inversion E1; subst. exists (fun _ => s'). repeat split; auto. intros; lia.
    - apply bind_inv in E1. destruct E1 as (s2 & E2 & E3). destruct (IH _ _ E3) as (ss & A & B & C).
      exists (fun i => if i =? k then s1 else ss i). rewrite Nat.eqb_refl. split; auto. split.
      + destruct (Nat.eqb_spec (k + Datatypes.S m) k); [lia|]. rewrite <- B. f_equal. lia.
      + intros i H1 H2. destruct (Nat.eqb_spec (Datatypes.S i) k); [lia|]. destruct (Nat.eqb_spec i k).
        * subst. auto.
        * apply C; lia. }
  destruct (G n 0 s E) as (ss & A & B & C). exists ss. split; auto. split; auto. intros; apply C; lia.
Qed.

Section Train.
Variable F : FOps.
Variable cabs : F -> res F.
Notation M := (mat F).
Notation copyOf := (copyOf F). Notation fastKind := (fastKind F). Notation sameParams := (sameParams F). Notation sameKindsAt := (sameKindsAt F).

(** * registration *)
Lemma collect_post : forall h n has p, collect F h n has = Ok p ->
  (forall a, In a (nlay n) -> exists l, hget F h a = Ok l) /\
  p = filter (fun a => match hget F h a with Ok l => has l | Err _ => false end) (nlay n).
Proof.
  intros h n has p E. unfold collect in E.
  apply (forN_postI _ (fun k p => (forall a, In a (firstn k (nlay n)) -> exists l, hget F h a = Ok l) /\
    p = filter (fun a => match hget F h a with Ok l => has l | Err _ => false end) (firstn k (nlay n)))) in E.
  - rewrite firstn_all in E. exact E.
  - split; [intros a []|reflexivity].
  - intros i p0 p1 Hi [I1 I2] Eb. binp Eb. inversion Eb; subst. clear Eb.
    assert (Sk : firstn (S i) (nlay n) = firstn i (nlay n) ++ [x]).
    { unfold rget in Ex. destruct (nth_error (nlay n) i) eqn:N; inversion Ex; subst. clear - N. revert i N. generalize (nlay n). induction l as [|b l IH]; intros [|i] N; simpl in *; try discriminate.
      - inversion N; reflexivity.
      - f_equal. apply IH; auto. }
    rewrite Sk. split.
    + intros a Ha. apply in_app_iff in Ha. destruct Ha as [Ha|[<-|[]]]; eauto.
    + rewrite filter_app. cbn [filter]. rewrite Ex0. destruct (has x0); [reflexivity|rewrite app_nil_r; reflexivity].
Qed.
Lemma setNet_post : forall h n t h1 t1, setNet F h n t = Ok (h1, t1) ->
  length h1 = length h /\ (forall a, hd_error (nlay n) <> Some a -> nth_error h1 a = nth_error h a) /\
  (forall a, hd_error (nlay n) = Some a -> exists l, hget F h a = Ok l /\ hget F h1 a = Ok (setFirst l true)) /\
  (forall a, In a (nlay n) -> exists l, hget F h1 a = Ok l) /\
  tpw F t1 = filter (fun a => match hget F h1 a with Ok l => hasWeights l | Err _ => false end) (nlay n) /\
  tpb F t1 = filter (fun a => match hget F h1 a with Ok l => hasBiases l | Err _ => false end) (nlay n) /\
  tc F t1 = tc F t /\ tnl F t1 = length (nlay n) /\ ttrain F t1 = ttrain F t /\ tval F t1 = tval F t /\ tcallback F t1 = tcallback F t /\ th F t1 = th F t /\
  (exists k, (topts F t1 <> [] -> create_optimizer (cOpt F (tc F t)) = Some k) /\
     topts F t1 = repeat (set_params F (newOpt F k) (cLr F (tc F t)) (cDecay F (tc F t)) (cMom F (tc F t))) (length (tpw F t1) + length (tpb F t1))).
Proof.
  intros h n t h1 t1 E. unfold setNet in E. cbv zeta in E. binp E. inversion E; subst. clear E. cbn.
  apply collect_post in Ex0. apply collect_post in Ex1. destruct Ex0 as [C1 ->], Ex1 as [C2 ->].
  assert (H : length h1 = length h /\ (forall a, hd_error (nlay n) <> Some a -> nth_error h1 a = nth_error h a) /\
     (forall a, hd_error (nlay n) = Some a -> exists l, hget F h a = Ok l /\ hget F h1 a = Ok (setFirst l true))).
  { destruct (nlay n) as [|a r]; cbn [hd_error].
    - inversion Ex; subst. repeat split; auto. intros a Ha. discriminate.
    - binp Ex. rewrite (hset_ok _ _ _ _ _ Ex0) in Ex. inversion Ex; subst. split; [apply length_upd|]. split.
      + intros b Hb. rewrite nth_error_upd. destruct (Nat.eqb_spec a b); [subst; congruence|reflexivity].
      + intros b Hb. inversion Hb; subst. exists x. split; auto. rewrite hget_upd, Nat.eqb_refl by (eapply hget_lt; eauto). reflexivity. }
  destruct H as (H1 & H2 & H3). repeat (split; [solve [auto]|]).
  revert Ex2. generalize (length (filter (fun a => match hget F h1 a with Ok l => hasWeights l | Err _ => false end) (nlay n)) + length (filter (fun a => match hget F h1 a with Ok l => hasBiases l | Err _ => false end) (nlay n))). intros m Ex2.
  destruct (create_optimizer (cOpt F (tc F t))) as [k|] eqn:K.
  - exists k. split; auto. apply (forN_postI _ (fun i os => os = repeat (set_params F (newOpt F k) (cLr F (tc F t)) (cDecay F (tc F t)) (cMom F (tc F t))) i)) in Ex2; auto.
    intros i s s1 _ -> Eb. inversion Eb; subst. rewrite <- repeat_cons. reflexivity.
  - destruct m as [|m]; [|unfold forN in Ex2; simpl in Ex2; discriminate]. unfold forN in Ex2. simpl in Ex2. inversion Ex2; subst.
    exists OSGD. split; [congruence|reflexivity].
Qed.

(** * the choice of the best network, case by case *)
Lemma epochBest_cases : forall R e h n t best A L reb calls selL selA s2,
  epochBest F R e (mkFS F h n t best A L reb calls) selL selA = Ok s2 ->
  (cKeep F (tc F t) = false /\ cPatience F (tc F t) = (-1)%Z /\ s2 = mkFS F h n t best A L reb calls) \/
  ((cKeep F (tc F t) = true \/ cPatience F (tc F t) <> (-1)%Z) /\
   exists better h1 best1 c, better = (if nclass n then flt F A selA else flt F selL L) /\
    (if better then netAssign F false (oSnap F R e) h best n = Ok (h1, best1) /\ c = 0%Z else h1 = h /\ best1 = best /\ c = (tcur F t + 1)%Z) /\
    let A' := if better && nclass n then selA else A in let L' := if better && negb (nclass n) then selL else L in
    ((((cPatience F (tc F t) < c)%Z /\ cPatience F (tc F t) <> (-1)%Z) /\ exists h2 n2, netAssign F false (oRoll F R e) h1 n best1 = Ok (h2, n2) /\
        s2 = mkFS F h2 n2 (trSetLr F (setCur F t 0) (fdiv F (trGetLr F t) (fofN F 2))) best1 A' L' reb calls) \/
     (~ ((cPatience F (tc F t) < c)%Z /\ cPatience F (tc F t) <> (-1)%Z) /\ s2 = mkFS F h1 n (setCur F t c) best1 A' L' reb calls))).
Proof.
  intros R e h n t best A L reb calls selL selA s2 E. unfold epochBest in E.
  destruct (negb (cKeep F (tc F t)) && (cPatience F (tc F t) =? -1)%Z) eqn:B.
  - left. apply andb_true_iff in B. destruct B as [B1 B2]. apply negb_true_iff in B1. apply Z.eqb_eq in B2. inversion E. auto.
  - right. split.
    { apply andb_false_iff in B. destruct B as [B|B]; [left; apply negb_false_iff in B; auto|right; apply Z.eqb_neq in B; auto]. }
    cbv zeta in E. remember (if nclass n then flt F A selA else flt F selL L) as better eqn:Hb in E. exists better.
    assert (Fin : forall h1 best1 c, 
      (if (cPatience F (tc F t) <? c)%Z && negb (cPatience F (tc F t) =? -1)%Z then
         ' (h2, n2) <- netAssign F false (oRoll F R e) h1 n best1 ;;
         Ok (mkFS F h2 n2 (trSetLr F (setCur F t 0) (fdiv F (trGetLr F t) (fofN F 2))) best1 (if better && nclass n then selA else A) (if better && negb (nclass n) then selL else L) reb calls)
       else Ok (mkFS F h1 n (setCur F t c) best1 (if better && nclass n then selA else A) (if better && negb (nclass n) then selL else L) reb calls)) = Ok s2 ->
      let A' := if better && nclass n then selA else A in let L' := if better && negb (nclass n) then selL else L in
    ((((cPatience F (tc F t) < c)%Z /\ cPatience F (tc F t) <> (-1)%Z) /\ exists h2 n2, netAssign F false (oRoll F R e) h1 n best1 = Ok (h2, n2) /\
        s2 = mkFS F h2 n2 (trSetLr F (setCur F t 0) (fdiv F (trGetLr F t) (fofN F 2))) best1 A' L' reb calls) \/
     (~ ((cPatience F (tc F t) < c)%Z /\ cPatience F (tc F t) <> (-1)%Z) /\ s2 = mkFS F h1 n (setCur F t c) best1 A' L' reb calls))).
    { intros h1 best1 c E1. cbv zeta. destruct ((cPatience F (tc F t) <? c)%Z && negb (cPatience F (tc F t) =? -1)%Z) eqn:B1.
      - apply andb_true_iff in B1. destruct B1 as [B1 B2]. apply Z.ltb_lt in B1. apply negb_true_iff, Z.eqb_neq in B2. left. split; auto. binp E1. inversion E1; subst. eauto.
      - right. split; [|inversion E1; auto]. intros [B2 B3]. apply Z.ltb_lt in B2. apply Z.eqb_neq in B3. rewrite B2, B3 in B1. discriminate. }
    destruct better.
    + apply bind_inv in E. destruct E as ([[h1 best1] t1] & Ex & E). binp Ex. inversion Ex; subst. exists h1, best1, 0%Z. refine (conj Hb (conj (conj Ex0 eq_refl) _)). apply Fin. exact E.
    + cbn [bind] in E. exists h, best, (tcur F t + 1)%Z. refine (conj Hb (conj (conj eq_refl (conj eq_refl eq_refl)) _)). apply Fin. exact E.
Qed.
End Train.
