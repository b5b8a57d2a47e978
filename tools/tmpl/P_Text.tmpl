(* P_Text.v - property theorems about matrices written to and read from text (C09, C10) *)
From Coq Require Import String List Arith Bool Ascii ZArith.
From Verif Require Import Base Scalar Mat SpecMat SpecText Text TextProofs TextCase TextLex.
Import ListNotations.
Local Open Scope nat_scope.

(** C09.  The full statement, fromFile (toFile m) = m with printed values, is false for every matrix with a row and a column, because
    of the blank toFile puts after the last number of a line: an indeterminate value is used, and whatever that value is the
    result has one more column. *)
@thm C09_round_trip_undefined = round_trip | forall (F : FOps) (conv : text -> F * bool) (ind : res F) (show : F -> text) (printed : F -> F), (forall x, number F conv (show x) (printed x)) ->
@thm C09_round_trip_refuted = file_round_refuted
(* what holds: files of lines of numbers without blanks at the ends are read as written, with commas or blanks *)
@thm C09_read_partial = fromFile_rect | forall (F : FOps) (conv : text -> F * bool) (ind : res F), | number = (number F conv)
@thm C09_written_text = toFile_gen | forall (F : FOps) (show : F -> text), | fileRow = (fileRow F show)
@thm C09_no_file = fromFile_missing | forall (F : FOps) (conv : text -> F * bool) (ind : res F),
@thm C09_ragged_overflow = fromFile_ragged | forall (F : FOps) (conv : text -> F * bool) (ind : res F), | number = (number F conv)
@thm C09_ragged_refuted = file_ragged_refuted
(* words such as nan or inf: reading does not end, whatever the number of steps *)
@thm C09_words_never_end = word_file_never_ends_spec | forall (F : FOps) (conv : text -> F * bool),
(* one number read: the longest beginning of a numeral, and nothing else, is converted *)
@thm C09_taken = taken | forall (F : FOps),
@thm C09_only_numerals = same_reading | forall (F : FOps),
@thm C09_cut_case = cut_case
(* integers in decimal meet the hypothesis on show and conv *)
Example C09_case : (forall z, number ZOps convZ (showZ z) z) /\ showZ (-120) = str "-120" /\ fromFile ZOps convZ (Err EUninit) 5 (Some (str ("1,-2 ,3" ++ eol ++ " 40 5 6" ++ eol))) = Ok (mkMat 2 3 [1; -2; 3; 40; 5; 6]%Z) /\
  numbers (number ZOps convZ) sepLine (str "1,-2") [1; -2]%Z.
Proof.
  split; [exact showZ_ok|]. split; [reflexivity|]. split; [vm_compute; reflexivity|].
  apply (nums_more (number ZOps convZ) sepLine [] (str "1") 1%Z ","%char (str "-2") [(-2)%Z]); [constructor|exact (showZ_ok 1)|right; reflexivity|].
  apply (nums_last (number ZOps convZ) sepLine [] (str "-2")); [constructor|exact (showZ_ok (-2))].
Qed.

(** C10.  r lines of c numbers: the values in reading order, but in a matrix of c rows and r columns *)
@thm C10_values_partial = fromString_rect | forall (F : FOps) (conv : text -> F * bool) (ind : res F), | number = (number F conv)
@thm C10_rows_refuted = string_rows_refuted
(* lines of different lengths: memory is overwritten unless the number of values is a multiple of the number of lines *)
@thm C10_ragged_overflow = fromString_ragged | forall (F : FOps) (conv : text -> F * bool) (ind : res F), | number = (number F conv)
@thm C10_ragged_reshaped = fromString_reshaped | forall (F : FOps) (conv : text -> F * bool) (ind : res F), | number = (number F conv)
@thm C10_ragged_refuted = string_ragged_refuted
(* trailing blanks or newlines: an indeterminate value is used *)
@thm C10_trailing_blank = fromString_trailing_spec | forall (F : FOps) (conv : text -> F * bool) (ind : res F), | number = (number F conv)
@thm C10_of_toString_undefined = string_round_trip | forall (F : FOps) (conv : text -> F * bool) (ind : res F) (show : F -> text) (printed : F -> F), (forall x, number F conv (show x) (printed x)) ->
@thm C10_words_never_end = word_never_ends_spec | forall (F : FOps) (conv : text -> F * bool),
Example C10_case : fromString ZOps convZ (Err EUninit) 5 (str ("1 2" ++ eol ++ "-3 4")) = Ok (mkMat 2 2 [1; 2; -3; 4]%Z) /\ ~ starts "n"%char /\ convZ [] = (0%Z, false).
Proof. split; [vm_compute; reflexivity|]. split; [intros [H|[H|[H|H]]]; [cbn in H|discriminate..]; repeat destruct H as [H|H]; try discriminate; auto|reflexivity]. Qed.
