(* P_Json.v - property theorems about the JSON writer and saved networks (C67, C71, C72) *)
From Coq Require Import String List Arith Bool Ascii ZArith.
From Verif Require Import Base Scalar Mat SpecMat Act LayMat LayImg LayRnn Loss Optim Regul Layer Net NetTrain SpecText SpecJson SpecSave Json JsonProofs JsonSave JsonSaveProofs JsonUniq JsonSaveProofs2.
Import ListNotations.
Local Open Scope nat_scope.

(** C67.  The full statement, for all keys and strings, is false: nothing is escaped and nan and inf are written as they print.  It
    holds for strings without quotes, backslashes and control characters and for numbers that print as JSON numbers. *)
Theorem C67_written_partial : forall (I F : Type) (showI : I -> text) (showF : F -> text), forall is, Forall (cleanItem I F showI showF) is -> exists j, (jRun I F showI showF) (flat_map (calls I F) is) jNew = Ok j /\ jPend j = negb (match is with [] => true | _ => false end) /\ jInd j = sp 4 /\ jvalue (jText j) (JObj (map (meaning I F showI showF) is)).
Proof. exact written_json. Qed.
Print Assumptions C67_written_partial.

(* any call sequence that leaves every section it entered is of that form *)
Theorem C67_balanced : forall (I F : Type), forall cs, (balanced I F) 0 cs <-> exists is, cs = flat_map (calls I F) is.
Proof. exact balanced_items. Qed.
Print Assumptions C67_balanced.

(* and the text has no other reading *)
Theorem C67_unambiguous : forall t v v', jvalue t v -> jvalue t v' -> v = v'.
Proof. exact json_uniq. Qed.
Print Assumptions C67_unambiguous.

Theorem C67_quote_refuted : exists cs : list (call unit unit), balanced _ _ 0 cs /\ cs = [AddS (lit "key") [quote]] /\ forall s1 s2, exists j, jRun unit unit s1 s2 cs jNew = Ok j /\ ~ exists v, jvalue (jText j) v.
Proof. exact quote_refuted. Qed.
Print Assumptions C67_quote_refuted.

Theorem C67_backslash_refuted : exists cs : list (call unit unit), balanced _ _ 0 cs /\ cs = [AddS (lit "file") (lit "C:\")] /\ forall s1 s2, exists j, jRun unit unit s1 s2 cs jNew = Ok j /\ ~ exists v, jvalue (jText j) v.
Proof. exact backslash_refuted. Qed.
Print Assumptions C67_backslash_refuted.

Theorem C67_nan_refuted : forall (F : Type) (showF : F -> text) (x : F), In (showF x) [lit "nan"; lit "-nan"; lit "inf"; lit "-inf"] -> forall k, Forall cleanC k -> exists j,
  jRun unit F (fun _ => []) showF [AddF k x] jNew = Ok j /\ ~ exists v, jvalue (jText j) v.
Proof. exact nan_refuted. Qed.
Print Assumptions C67_nan_refuted.

(* one call of leave_section too many is not detected; the second throws *)
Theorem C67_leave_twice : forall (I F : Type) (showI : I -> text) (showF : F -> text), forall cs j, (jRun I F showI showF) cs jNew = Ok j -> (balanced I F) 0 cs -> exists j', (jRun I F showI showF) (cs ++ [Leave]) jNew = Ok j' /\ (jRun I F showI showF) (cs ++ [Leave; Leave]) jNew = Err EThrow.
Proof. exact leave_twice. Qed.
Print Assumptions C67_leave_twice.

Example C67_case : let is := [IStr Z Z (lit "a") (lit "b c"); ISec Z Z (lit "s") [IArr Z Z (lit "x") [1; -20]%Z; IBool Z Z (lit "y") true]; IInt Z Z (lit "z") 0%Z] in
  Forall (cleanItem Z Z showInt showInt) is /\ balanced Z Z 0 (flat_map (calls Z Z) is) /\
  map (meaning Z Z showInt showInt) is = [(lit "a", JStr (lit "b c")); (lit "s", JObj [(lit "x", JArr [JNum (lit "1"); JNum (lit "-20")]); (lit "y", JTrue)]); (lit "z", JNum (lit "0"))].
Proof.
  cbv zeta. split; [|split; reflexivity].
  repeat (apply Forall_cons; [cbn [cleanItem fold_right]; repeat split; try apply showInt_number; try (apply cleanB_ok; reflexivity); repeat (apply Forall_cons; [apply showInt_number|]); apply Forall_nil|]). apply Forall_nil.
Qed.

(** C71.  The full statement would list every constructor argument; savedInts and savedFloats (SpecSave.v) are the ones listed.  A Dot
    layer is read through a pointer cast to the unrelated class LayerDense; dc says how the call ends. *)
Theorem C71_saved_partial : forall (F : FOps) (dc : res unit) (showF : F -> text), forall h n t ls, (layersOf F) h n ls -> Forall (layerOk F dc showF) ls -> (trainerOk F showF) t -> exists text ms opt,
  save F dc showF h n t = Ok text /\ jvalue text (JObj ms) /\ length ms = 4 + length ls /\
  nth_error ms 0 = Some (lit "Engine", JStr (lit "BeeDNN")) /\ nth_error ms 1 = Some (lit "Problem", JStr (lit (if nclass n then "Classification" else "Regression"))) /\
  nth_error ms 2 = Some (lit "Optimizer", JObj opt) /\ nth_error ms 3 = Some (lit "NbLayers", JNum (showInt (Z.of_nat (length ls)))) /\
  In (lit "Optimizer", JStr (lit (cOpt F (tc F t)))) opt /\ In (lit "LearningRate", (fun x => JNum (showF x)) (trGetLr F t)) opt /\ In (lit "Epochs", JNum (showInt (cEpochs F (tc F t)))) opt /\
  In (lit "Decay", (fun x => JNum (showF x)) (cDecay F (tc F t))) opt /\ In (lit "Momentum", (fun x => JNum (showF x)) (cMom F (tc F t))) opt /\ In (lit "Patience", JNum (showInt (cPatience F (tc F t)))) opt /\
  In (lit "BatchSize", JNum (showInt (Z.of_nat (cBatch F (tc F t))))) opt /\ In (lit "Loss", JStr (lit (loss_name (cLoss F (tc F t))))) opt /\
  In (lit "KeepBest", if cKeep F (tc F t) then JTrue else JFalse) opt /\ In (lit "ReboostEveryEpochs", JNum (showInt (cReboost F (tc F t)))) opt /\
  In (lit "ClassBalancingWeightLoss", if cBalancing F (tc F t) then JTrue else JFalse) opt /\
  (forall r, cReg F (tc F t) = Some r -> In (lit "Regularizer", JStr (lit (reg_name (rkind F r)))) opt /\ In (lit "RegularizerParameter", (fun x => JNum (showF x)) (rparam F r)) opt) /\
  forall i l, nth_error ls i = Some l -> exists fs, nth_error ms (4 + i) = Some (layerKey i, JObj fs) /\ (describes F showF) l fs.
Proof. exact saved_file. Qed.
Print Assumptions C71_saved_partial.

Theorem C71_dot_refuted : forall (F : FOps) e showF h n ls t, layersOf F h n ls -> Exists (fun l => isDot (lk l) = true) ls -> save F (Err e) showF h n t = Err e.
Proof. exact dot_refuted. Qed.
Print Assumptions C71_dot_refuted.

Definition c71_heap : heap ZOps := [Some (setWB (layBase ZOps (KDense 2 1) "GlorotUniform" "Zeros") (mkMat 2 1 [4; -5]%Z) (mkMat 1 1 [6%Z])); Some (layBase ZOps (KAct (Some ARelu)) "" "")].
Example C71_case : layersOf ZOps c71_heap (mkNet [0; 1] true false) [setWB (layBase ZOps (KDense 2 1) "GlorotUniform" "Zeros") (mkMat 2 1 [4; -5]%Z) (mkMat 1 1 [6%Z]); layBase ZOps (KAct (Some ARelu)) "" ""] /\
  trainerOk ZOps showInt (trNew ZOps) /\ layerOk ZOps (Ok tt) showInt (setWB (layBase ZOps (KDense 2 1) "GlorotUniform" "Zeros") (mkMat 2 1 [4; -5]%Z) (mkMat 1 1 [6%Z])) /\ layerOk ZOps (Ok tt) showInt (layBase ZOps (KAct (Some ARelu)) "" "") /\
  exists a b, save ZOps (Ok tt) showInt c71_heap (mkNet [0; 1] true false) (trNew ZOps) = Ok (a ++ lit """Weight_0"":[4,-5]," ++ b).
Proof.
  split; [constructor; [reflexivity|constructor; [reflexivity|constructor]]|].
  split; [unfold trainerOk; split; [apply cleanB_ok; reflexivity|]; repeat (split; [apply showInt_number|]); intros; apply showInt_number|].
  split; [split; [discriminate|]; split; [|split; [|intros ? ? []]]; intros _; (split; [apply cleanB_ok; reflexivity|repeat (apply Forall_cons; [apply showInt_number|]); apply Forall_nil])|].
  split; [split; [discriminate|]; split; [|split; [|intros ? ? []]]; intros C; exfalso; apply C; reflexivity|].
  exists (firstn 494 (match save ZOps (Ok tt) showInt c71_heap (mkNet [0; 1] true false) (trNew ZOps) with Ok s => s | _ => [] end)), (skipn 512 (match save ZOps (Ok tt) showInt c71_heap (mkNet [0; 1] true false) (trNew ZOps) with Ok s => s | _ => [] end)).
  vm_compute. reflexivity.
Qed.

(** C72.  Full statement: the same file means the same problem kind, settings and layers.  It is false for the classes whose arguments
    are not written (savedFully, SpecSave.v); C72_same_file_partial is the statement for the others. *)
Theorem C72_same_file_partial : forall (F : FOps) (showF : F -> text), (forall x y, showF x = showF y -> x = y) -> forall dc h n t ls h' n' t' ls' f, layersOf F h n ls -> Forall (layerOk F dc showF) ls -> trainerOk F showF t -> layersOf F h' n' ls' -> Forall (layerOk F dc showF) ls' -> trainerOk F showF t' ->
  save F dc showF h n t = Ok f -> save F dc showF h' n' t' = Ok f ->
  nclass n = nclass n' /\ (sameSettings F) t t' /\ Forall2 (fun l l' => savedFully (lk l) = true -> (sameLayer F) l l') ls ls'.
Proof. exact same_file. Qed.
Print Assumptions C72_same_file_partial.

Theorem C72_gated_refuted : exists h h' n x y y', (forall t, save ZOps (Ok tt) showInt h n t = save ZOps (Ok tt) showInt h' n t) /\
  predict ZOps noRand h n x (mempty ZOps) = Ok (h, y) /\ predict ZOps noRand h' n x (mempty ZOps) = Ok (h', y') /\ y <> y'.
Proof. exact gated_refuted. Qed.
Print Assumptions C72_gated_refuted.

Theorem C72_zero_padding_refuted : exists h h' n x y y', (forall t, save ZOps (Ok tt) showInt h n t = save ZOps (Ok tt) showInt h' n t) /\
  predict ZOps noRand h n x (mempty ZOps) = Ok (h, y) /\ predict ZOps noRand h' n x (mempty ZOps) = Ok (h', y') /\ y <> y'.
Proof. exact pool_refuted. Qed.
Print Assumptions C72_zero_padding_refuted.

Theorem C72_rnn_refuted : exists (h h' : heap ZOps) l l' n, hget ZOps h 0 = Ok l /\ hget ZOps h' 0 = Ok l' /\ wX (lrnn l) <> wX (lrnn l') /\ nlay n = [0] /\
  forall t, save ZOps (Ok tt) showInt h n t = save ZOps (Ok tt) showInt h' n t.
Proof. exact rnn_refuted. Qed.
Print Assumptions C72_rnn_refuted.

Example C72_case : (forall x y, showInt x = showInt y -> x = y) /\ savedFully (@KDense ZOps 2 1) = true /\ (exists f, save ZOps (Ok tt) showInt c71_heap (mkNet [0; 1] true false) (trNew ZOps) = Ok f) /\
  sameLayer ZOps (layBase ZOps (KDense 2 1) "" "") (layBase ZOps (KDense 2 1) "" "") /\ ~ sameLayer ZOps (layBase ZOps (KDense 2 1) "" "") (layBase ZOps (KDense 1 2) "" "").
Proof.
  split; [exact showInt_inj|]. split; [reflexivity|]. split; [eexists; vm_compute; reflexivity|]. split; [repeat split; intros; discriminate|]. intros (C & _). discriminate C.
Qed.
