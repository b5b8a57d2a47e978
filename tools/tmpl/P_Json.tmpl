(* P_Json.v - property theorems about the JSON writer and saved networks (C67, C71, C72) *)
From Coq Require Import String List Arith Bool Ascii ZArith.
From Verif Require Import Base Scalar Mat SpecMat Act LayMat LayImg LayRnn Loss Optim Regul Layer Net NetTrain SpecText SpecJson SpecSave Json JsonProofs JsonSave JsonSaveProofs JsonUniq JsonSaveProofs2.
Import ListNotations.
Local Open Scope nat_scope.

(** C67.  The full statement, for all keys and strings, is false: nothing is escaped and nan and inf are written as they print.  It
    holds for strings without quotes, backslashes and control characters and for numbers that print as JSON numbers. *)
@thm C67_written_partial = written_json | forall (I F : Type) (showI : I -> text) (showF : F -> text), | clean = (cleanItem I F showI showF); run = (jRun I F showI showF); calls = (calls I F); meaning = (meaning I F showI showF); balanced = (balanced I F)
(* any call sequence that leaves every section it entered is of that form *)
@thm C67_balanced = balanced_items | forall (I F : Type), | calls = (calls I F); balanced = (balanced I F)
(* and the text has no other reading *)
@thm C67_unambiguous = json_uniq
@thm C67_quote_refuted = quote_refuted
@thm C67_backslash_refuted = backslash_refuted
@thm C67_nan_refuted = nan_refuted
(* one call of leave_section too many is not detected; the second throws *)
@thm C67_leave_twice = leave_twice | forall (I F : Type) (showI : I -> text) (showF : F -> text), | clean = (cleanItem I F showI showF); run = (jRun I F showI showF); calls = (calls I F); meaning = (meaning I F showI showF); balanced = (balanced I F)
Example C67_case : let is := [IStr Z Z (lit "a") (lit "b c"); ISec Z Z (lit "s") [IArr Z Z (lit "x") [1; -20]%Z; IBool Z Z (lit "y") true]; IInt Z Z (lit "z") 0%Z] in
  Forall (cleanItem Z Z showInt showInt) is /\ balanced Z Z 0 (flat_map (calls Z Z) is) /\
  map (meaning Z Z showInt showInt) is = [(lit "a", JStr (lit "b c")); (lit "s", JObj [(lit "x", JArr [JNum (lit "1"); JNum (lit "-20")]); (lit "y", JTrue)]); (lit "z", JNum (lit "0"))].
Proof.
  cbv zeta. split; [|split; reflexivity].
  repeat (apply Forall_cons; [cbn [cleanItem fold_right]; repeat split; try apply showInt_number; try (apply cleanB_ok; reflexivity); repeat (apply Forall_cons; [apply showInt_number|]); apply Forall_nil|]). apply Forall_nil.
Qed.

(** C71.  The full statement would list every constructor argument; savedInts and savedFloats (SpecSave.v) are the ones listed.  A Dot
    layer is read through a pointer cast to the unrelated class LayerDense; dc says how the call ends. *)
@thm C71_saved_partial = saved_file | forall (F : FOps) (dc : res unit) (showF : F -> text), | layersOf = (layersOf F); layerOk = (layerOk F dc showF); trainerOk = (trainerOk F showF); describes = (describes F showF); num = (fun x => JNum (showF x)); dotCast = dc; sameSettings = (sameSettings F); sameLayer = (sameLayer F); fields = (fields F showF); sameKind = (sameKind F)
@thm C71_dot_refuted = dot_refuted
Definition c71_heap : heap ZOps := [Some (setWB (layBase ZOps (KDense 2 1) "GlorotUniform" "Zeros") (mkMat 2 1 [4; -5]%Z) (mkMat 1 1 [6%Z])); Some (layBase ZOps (KAct (Some ARelu)) "" "")].
Example C71_case : layersOf ZOps c71_heap (mkNet [0; 1] true false) [setWB (layBase ZOps (KDense 2 1) "GlorotUniform" "Zeros") (mkMat 2 1 [4; -5]%Z) (mkMat 1 1 [6%Z]); layBase ZOps (KAct (Some ARelu)) "" ""] /\
  trainerOk ZOps showInt (trNew ZOps) /\ layerOk ZOps (Ok tt) showInt (setWB (layBase ZOps (KDense 2 1) "GlorotUniform" "Zeros") (mkMat 2 1 [4; -5]%Z) (mkMat 1 1 [6%Z])) /\ layerOk ZOps (Ok tt) showInt (layBase ZOps (KAct (Some ARelu)) "" "") /\
  exists a b, save ZOps (Ok tt) showInt c71_heap (mkNet [0; 1] true false) (trNew ZOps) = Ok (a ++ lit """Weight_0"":[4,-5]," ++ b).
Proof.
  split; [constructor; [reflexivity|constructor; [reflexivity|constructor]]|].
  split; [unfold trainerOk; split; [apply cleanB_ok; reflexivity|]; repeat (split; [apply showInt_number|]); intros; apply showInt_number|].
  split; [split; [discriminate|]; split; [|split; [|intros ? ? []]]; intros _; (split; [apply cleanB_ok; reflexivity|repeat (apply Forall_cons; [apply showInt_number|]); apply Forall_nil])|].
  split; [split; [discriminate|]; split; [|split; [|intros ? ? []]]; intros C; exfalso; apply C; reflexivity|].
  exists (firstn 494 (match save ZOps (Ok tt) showInt c71_heap (mkNet [0; 1] true false) (trNew ZOps) with Ok s => s | _ => [] end)), (skipn 512 (match save ZOps (Ok tt) showInt c71_heap (mkNet [0; 1] true false) (trNew ZOps) with Ok s => s | _ => [] end)).
  vm_compute. reflexivity.
Qed.

(** C72.  Full statement: the same file means the same problem kind, settings and layers.  It is false for the classes whose arguments
    are not written (savedFully, SpecSave.v); C72_same_file_partial is the statement for the others. *)
@thm C72_same_file_partial = same_file | forall (F : FOps) (showF : F -> text), (forall x y, showF x = showF y -> x = y) -> | layersOf = (layersOf F); layerOk = (layerOk F dc showF); trainerOk = (trainerOk F showF); describes = (describes F showF); num = (fun x => JNum (showF x)); dotCast = dc; sameSettings = (sameSettings F); sameLayer = (sameLayer F); fields = (fields F showF); sameKind = (sameKind F)
@thm C72_gated_refuted = gated_refuted
@thm C72_zero_padding_refuted = pool_refuted
@thm C72_rnn_refuted = rnn_refuted
Example C72_case : (forall x y, showInt x = showInt y -> x = y) /\ savedFully (@KDense ZOps 2 1) = true /\ (exists f, save ZOps (Ok tt) showInt c71_heap (mkNet [0; 1] true false) (trNew ZOps) = Ok f) /\
  sameLayer ZOps (layBase ZOps (KDense 2 1) "" "") (layBase ZOps (KDense 2 1) "" "") /\ ~ sameLayer ZOps (layBase ZOps (KDense 2 1) "" "") (layBase ZOps (KDense 1 2) "" "").
Proof.
  split; [exact showInt_inj|]. split; [reflexivity|]. split; [eexists; vm_compute; reflexivity|]. split; [repeat split; intros; discriminate|]. intros (C & _). discriminate C.
Qed.
