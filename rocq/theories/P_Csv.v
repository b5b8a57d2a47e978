(* P_Csv.v - property theorems about the CSV reader (C81, C82) *)
From Coq Require Import String List Arith Bool Ascii ZArith.
From Verif Require Import Base Scalar Mat SpecMat SpecText SpecCsv Text TextCase Csv CsvProofs.
Import ListNotations.
Local Open Scope nat_scope.

(** C81.  The full statement, without the hypotheses that the names contain no other of the words train, test, data and truth, is false. *)
Theorem C81_names_partial : forall (F : FOps) (conv : text -> F * bool) (ind : res F) (fuel : nat) (fs : text -> option text), forall td tt vd vt, siblings wTrain wTest td vd -> siblings wTrain wTest tt vt -> siblings wData wTruth td tt -> siblings wData wTruth vd vt ->
  forall a b c e, fromFile F conv ind fuel (fs td) = Ok a -> fromFile F conv ind fuel (fs tt) = Ok b -> fromFile F conv ind fuel (fs vd) = Ok c -> fromFile F conv ind fuel (fs vt) = Ok e ->
  forall s d, In s [td; tt; vd; vt] ->
  csvLoad F conv ind fuel fs s d = Ok (nonEmpty F a && nonEmpty F b || nonEmpty F c && nonEmpty F e,
                 mkDS a b c e (nonEmpty F a && nonEmpty F b) (nonEmpty F c && nonEmpty F e)).
Proof. exact csv_names. Qed.
Print Assumptions C81_names_partial.

Theorem C81_one_file : forall (F : FOps) (conv : text -> F * bool) (ind : res F) (fuel : nat) (fs : text -> option text), forall s d m, ~ occurs wTrain s -> ~ occurs wTest s -> ~ occurs wData s -> ~ occurs wTruth s -> fromFile F conv ind fuel (fs s) = Ok m ->
  exists c e, csvLoad F conv ind fuel fs s d = Ok (nonEmpty F m, mkDS m m c e (nonEmpty F m) false) /\ msize c = 0 /\ msize e = 0.
Proof. exact csv_one_file. Qed.
Print Assumptions C81_one_file.

Theorem C81_directory_refuted : exists (fs : text -> option text) td tt,
  td = chars "latest/train_data.csv" /\ tt = chars "latest/train_truth.csv" /\
  fromFile ZOps convZ (Err EUninit) 5 (fs td) = Ok (mkMat 1 2 [1; 2]%Z) /\ fromFile ZOps convZ (Err EUninit) 5 (fs tt) = Ok (mkMat 1 1 [3]%Z) /\
  forall d, exists d', csvLoad ZOps convZ (Err EUninit) 5 fs td d = Ok (false, d') /\ msize (dTrD d') = 0 /\ msize (dTrT d') = 0.
Proof. exact csv_directory_refuted. Qed.
Print Assumptions C81_directory_refuted.

Theorem C81_replace_last : forall s old new a b, lastAt old s a b -> replaceLast s old new = a ++ new ++ b.
Proof. exact replaceLast_there. Qed.
Print Assumptions C81_replace_last.

Theorem C81_replace_last_absent : forall s old new, ~ occurs old s -> replaceLast s old new = s.
Proof. exact replaceLast_absent. Qed.
Print Assumptions C81_replace_last_absent.

Example C81_case : siblings wTrain wTest (chars "iris/train_data.csv") (chars "iris/test_data.csv") /\
  siblings wTrain wTest (chars "iris/train_truth.csv") (chars "iris/test_truth.csv") /\
  siblings wData wTruth (chars "iris/train_data.csv") (chars "iris/train_truth.csv") /\
  siblings wData wTruth (chars "iris/test_data.csv") (chars "iris/test_truth.csv") /\ ~ occurs wTest (chars "iris.csv").
Proof.
  split; [|split; [|split; [|split]]]; try (apply rfind_none; reflexivity);
  match goal with |- siblings ?w ?w' ?s ?s' =>
    let p := eval vm_compute in (match rfind w s with Some p => p | None => O end) in
    exists (firstn p s), (skipn (p + length w) s);
    split; [exact (proj1 (rfind_some w s p eq_refl))|split; [exact (proj1 (rfind_some w' s' p eq_refl))|split; apply rfind_none; reflexivity]]
  end.
Qed.

(** C82.  The flags are right, but nothing compares the numbers of samples and truths. *)
Theorem C82_flags_partial : forall (F : FOps) (conv : text -> F * bool) (ind : res F) (fuel : nat) (fs : text -> option text), forall s d r d', csvLoad F conv ind fuel fs s d = Ok (r, d') ->
  dHasT d' = (nonEmpty F (dTrD d') && nonEmpty F (dTrT d')) /\ dHasV d' = (nonEmpty F (dVaD d') && nonEmpty F (dVaT d')) /\ r = (dHasT d' || dHasV d').
Proof. exact csv_flags. Qed.
Print Assumptions C82_flags_partial.

Theorem C82_rows_refuted : exists (fs : text -> option text) s, forall d, exists d',
  csvLoad ZOps convZ (Err EUninit) 5 fs s d = Ok (true, d') /\ dHasT d' = true /\ mrows (dTrD d') = 2 /\ mrows (dTrT d') = 1.
Proof. exact csv_rows_refuted. Qed.
Print Assumptions C82_rows_refuted.

Example C82_case : exists d, csvLoad ZOps convZ (Err EUninit) 5 wit2 (chars "train_data.csv") (mkDS (mempty ZOps) (mempty ZOps) (mempty ZOps) (mempty ZOps) false false) = Ok (true, d) /\
  dHasT d = true /\ dHasV d = false /\ dTrD d = mkMat 2 1 [1; 2]%Z.
Proof. eexists. split; [vm_compute; reflexivity|]. split; [reflexivity|]. split; reflexivity. Qed.
