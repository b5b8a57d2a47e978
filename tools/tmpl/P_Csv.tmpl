(* P_Csv.v - property theorems about the CSV reader (C81, C82) *)
From Coq Require Import String List Arith Bool Ascii ZArith.
From Verif Require Import Base Scalar Mat SpecMat SpecText SpecCsv Text TextCase Csv CsvProofs.
Import ListNotations.
Local Open Scope nat_scope.

(** C81.  The full statement, without the hypotheses that the names contain no other of the words train, test, data and truth, is false. *)
@thm C81_names_partial = csv_names | forall (F : FOps) (conv : text -> F * bool) (ind : res F) (fuel : nat) (fs : text -> option text),
@thm C81_one_file = csv_one_file | forall (F : FOps) (conv : text -> F * bool) (ind : res F) (fuel : nat) (fs : text -> option text),
@thm C81_directory_refuted = csv_directory_refuted
@thm C81_replace_last = replaceLast_there
@thm C81_replace_last_absent = replaceLast_absent
Example C81_case : siblings wTrain wTest (chars "iris/train_data.csv") (chars "iris/test_data.csv") /\
  siblings wTrain wTest (chars "iris/train_truth.csv") (chars "iris/test_truth.csv") /\
  siblings wData wTruth (chars "iris/train_data.csv") (chars "iris/train_truth.csv") /\
  siblings wData wTruth (chars "iris/test_data.csv") (chars "iris/test_truth.csv") /\ ~ occurs wTest (chars "iris.csv").
Proof.
  split; [|split; [|split; [|split]]]; try (apply rfind_none; reflexivity);
  match goal with |- siblings ?w ?w' ?s ?s' =>
    let p := eval vm_compute in (match rfind w s with Some p => p | None => O end) in
    exists (firstn p s), (skipn (p + length w) s);
    split; [exact (proj1 (rfind_some w s p eq_refl))|split; [exact (proj1 (rfind_some w' s' p eq_refl))|split; apply rfind_none; reflexivity]]
  end.
Qed.

(** C82.  The flags are right, but nothing compares the numbers of samples and truths. *)
@thm C82_flags_partial = csv_flags | forall (F : FOps) (conv : text -> F * bool) (ind : res F) (fuel : nat) (fs : text -> option text),
@thm C82_rows_refuted = csv_rows_refuted
Example C82_case : exists d, csvLoad ZOps convZ (Err EUninit) 5 wit2 (chars "train_data.csv") (mkDS (mempty ZOps) (mempty ZOps) (mempty ZOps) (mempty ZOps) false false) = Ok (true, d) /\
  dHasT d = true /\ dHasV d = false /\ dTrD d = mkMat 2 1 [1; 2]%Z.
Proof. eexists. split; [vm_compute; reflexivity|]. split; [reflexivity|]. split; reflexivity. Qed.
