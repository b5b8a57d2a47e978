(* P_Text.v - property theorems about matrices written to and read from text (C09, C10) *)
From Coq Require Import String List Arith Bool Ascii ZArith.
From Verif Require Import Base Scalar Mat SpecMat SpecText Text TextProofs TextCase TextLex.
Import ListNotations.
Local Open Scope nat_scope.

(** C09.  The full statement, fromFile (toFile m) = m with printed values, is false for every matrix with a row and a column, because
    of the blank toFile puts after the last number of a line: an indeterminate value is used, and whatever that value is the
    result has one more column. *)
Theorem C09_round_trip_undefined : forall (F : FOps) (conv : text -> F * bool) (ind : res F) (show : F -> text) (printed : F -> F), (forall x, number F conv (show x) (printed x)) -> forall r c f fuel x, 1 <= r -> 1 <= c -> c < fuel -> exists s, toFile F show (mgen r c f) = Ok s /\
  (ind = Err EUninit -> fromFile F conv ind fuel (Some s) = Err EUninit) /\
  (ind = Ok x -> fromFile F conv ind fuel (Some s) = Ok (mgen r (c + 1) (fun i j => if j <? c then printed (f i j) else x))).
Proof. exact round_trip. Qed.
Print Assumptions C09_round_trip_undefined.

Theorem C09_round_trip_refuted : exists (m : mat ZOps) (s : text), mwf m /\ toFile ZOps showZ m = Ok s /\ fromFile ZOps convZ (Err EUninit) 5 (Some s) = Err EUninit /\
  forall x, fromFile ZOps convZ (Ok x) 5 (Some s) = Ok (mkMat 2 3 [1; -2; x; 30; 4; x]%Z) /\ m = mkMat 2 2 [1; -2; 30; 4]%Z.
Proof. exact file_round_refuted. Qed.
Print Assumptions C09_round_trip_refuted.

(* what holds: files of lines of numbers without blanks at the ends are read as written, with commas or blanks *)
Theorem C09_read_partial : forall (F : FOps) (conv : text -> F * bool) (ind : res F), forall fuel ls vss c, ls <> [] -> c <= fuel -> Forall2 (fun l vs => numbers (number F conv) sepLine l vs /\ length vs = c) ls vss ->
  fromFile F conv ind fuel (Some (fileOf ls)) = Ok (mkMat (length ls) c (concat vss)) /\ fromFile F conv ind fuel (Some (joined ls)) = Ok (mkMat (length ls) c (concat vss)).
Proof. exact fromFile_rect. Qed.
Print Assumptions C09_read_partial.

Theorem C09_written_text : forall (F : FOps) (show : F -> text), forall r c f, toFile F show (mgen r c f) = Ok (fileOf (map (fun i => (fileRow F show) c (f i)) (seq 0 r))).
Proof. exact toFile_gen. Qed.
Print Assumptions C09_written_text.

Theorem C09_no_file : forall (F : FOps) (conv : text -> F * bool) (ind : res F), forall fuel, fromFile F conv ind fuel None = Ok (mempty F).
Proof. exact fromFile_missing. Qed.
Print Assumptions C09_no_file.

Theorem C09_ragged_overflow : forall (F : FOps) (conv : text -> F * bool) (ind : res F), forall fuel ls vss, ls <> [] -> Forall2 (fun l vs => numbers (number F conv) sepLine l vs /\ length vs <= fuel) ls vss -> length (concat vss) mod length ls <> 0 ->
  fromFile F conv ind fuel (Some (fileOf ls)) = Err EOob.
Proof. exact fromFile_ragged. Qed.
Print Assumptions C09_ragged_overflow.

Theorem C09_ragged_refuted : exists s : text, s = str ("1" ++ eol ++ "2,3" ++ eol) /\ fromFile ZOps convZ (Err EUninit) 9 (Some s) = Err EOob.
Proof. exact file_ragged_refuted. Qed.
Print Assumptions C09_ragged_refuted.

(* words such as nan or inf: reading does not end, whatever the number of steps *)
Theorem C09_words_never_end : forall (F : FOps) (conv : text -> F * bool), forall fuel w c l z x ls, Forall blankC w -> ~ In newline l -> ~ starts c -> ~ spaceC c -> c <> ","%char -> conv [] = (z, false) ->
  fromFile F conv (Ok x) fuel (Some (w ++ c :: l ++ newline :: ls)) = Err EFuel.
Proof. exact word_file_never_ends_spec. Qed.
Print Assumptions C09_words_never_end.

(* one number read: the longest beginning of a numeral, and nothing else, is converted *)
Theorem C09_taken : forall (F : FOps), forall (conv : text -> F * bool) w l, Forall spaceC w -> l <> [] -> (forall c r, l = c :: r -> ~ spaceC c) ->
  exists t r, l = t ++ r /\ begins t /\ (forall c r', r = c :: r' -> ~ begins (t ++ [c])) /\
    extract F conv (mkI (w ++ l) false false) = (mkI r (match r with [] => true | _ => false end) (negb (snd (conv t))), Some (fst (conv t))).
Proof. exact taken. Qed.
Print Assumptions C09_taken.

Theorem C09_only_numerals : forall (F : FOps), forall c1 c2 ind fuel, (forall t, begins t -> c1 t = c2 t) ->
  (forall s, fromString F c1 ind fuel s = fromString F c2 ind fuel s) /\ (forall f, fromFile F c1 ind fuel f = fromFile F c2 ind fuel f).
Proof. exact same_reading. Qed.
Print Assumptions C09_only_numerals.

Theorem C09_cut_case : begins ["-"%char] /\ ~ begins ["-"; "e"]%char /\ begins ["1"; "."; "2"]%char /\ ~ begins ["1"; "."; "2"; "."]%char /\ begins ["1"; "e"; "-"]%char /\ ~ begins ["1"; "e"; "-"; "-"]%char /\ ~ begins ["1"; "e"; "."]%char.
Proof. exact cut_case. Qed.
Print Assumptions C09_cut_case.

(* integers in decimal meet the hypothesis on show and conv *)
Example C09_case : (forall z, number ZOps convZ (showZ z) z) /\ showZ (-120) = str "-120" /\ fromFile ZOps convZ (Err EUninit) 5 (Some (str ("1,-2 ,3" ++ eol ++ " 40 5 6" ++ eol))) = Ok (mkMat 2 3 [1; -2; 3; 40; 5; 6]%Z) /\
  numbers (number ZOps convZ) sepLine (str "1,-2") [1; -2]%Z.
Proof.
  split; [exact showZ_ok|]. split; [reflexivity|]. split; [vm_compute; reflexivity|].
  apply (nums_more (number ZOps convZ) sepLine [] (str "1") 1%Z ","%char (str "-2") [(-2)%Z]); [constructor|exact (showZ_ok 1)|right; reflexivity|].
  apply (nums_last (number ZOps convZ) sepLine [] (str "-2")); [constructor|exact (showZ_ok (-2))].
Qed.

(** C10.  r lines of c numbers: the values in reading order, but in a matrix of c rows and r columns *)
Theorem C10_values_partial : forall (F : FOps) (conv : text -> F * bool) (ind : res F), forall fuel ls vss c, ls <> [] -> Forall2 (fun l vs => numbers (number F conv) blankC l vs /\ length vs = c) ls vss -> length ls * c <= fuel ->
  fromString F conv ind fuel (joined ls) = Ok (mkMat c (length ls) (concat vss)).
Proof. exact fromString_rect. Qed.
Print Assumptions C10_values_partial.

Theorem C10_rows_refuted : exists (s : text) (m : mat ZOps), s = str ("1 2 3" ++ eol ++ "4 5 6") /\ fromString ZOps convZ (Err EUninit) 9 s = Ok m /\ mrows m = 3 /\ mcols m = 2.
Proof. exact string_rows_refuted. Qed.
Print Assumptions C10_rows_refuted.

(* lines of different lengths: memory is overwritten unless the number of values is a multiple of the number of lines *)
Theorem C10_ragged_overflow : forall (F : FOps) (conv : text -> F * bool) (ind : res F), forall fuel ls vss, ls <> [] -> Forall2 (fun l vs => numbers (number F conv) blankC l vs) ls vss -> length (concat vss) <= fuel -> length (concat vss) mod length ls <> 0 ->
  fromString F conv ind fuel (joined ls) = Err EOob.
Proof. exact fromString_ragged. Qed.
Print Assumptions C10_ragged_overflow.

Theorem C10_ragged_reshaped : forall (F : FOps) (conv : text -> F * bool) (ind : res F), forall fuel ls vss, ls <> [] -> Forall2 (fun l vs => numbers (number F conv) blankC l vs) ls vss -> length (concat vss) <= fuel -> length (concat vss) mod length ls = 0 ->
  fromString F conv ind fuel (joined ls) = Ok (mkMat (length (concat vss) / length ls) (length ls) (concat vss)).
Proof. exact fromString_reshaped. Qed.
Print Assumptions C10_ragged_reshaped.

Theorem C10_ragged_refuted : exists s : text, s = str ("1" ++ eol ++ "2 3") /\ fromString ZOps convZ (Err EUninit) 9 s = Err EOob.
Proof. exact string_ragged_refuted. Qed.
Print Assumptions C10_ragged_refuted.

(* trailing blanks or newlines: an indeterminate value is used *)
Theorem C10_trailing_blank : forall (F : FOps) (conv : text -> F * bool) (ind : res F), forall fuel s b w vs x, numbers (number F conv) spaceC s vs -> spaceC b -> Forall spaceC w -> length vs < fuel ->
  (ind = Err EUninit -> fromString F conv ind fuel (s ++ b :: w) = Err EUninit) /\
  (ind = Ok x -> fromString F conv ind fuel (s ++ b :: w) = let k := count_occ ascii_dec (s ++ b :: w) newline + 1 in if (length vs + 1) mod k =? 0 then Ok (mkMat ((length vs + 1) / k) k (vs ++ [x])) else Err EOob).
Proof. exact fromString_trailing_spec. Qed.
Print Assumptions C10_trailing_blank.

Theorem C10_of_toString_undefined : forall (F : FOps) (conv : text -> F * bool) (ind : res F) (show : F -> text) (printed : F -> F), (forall x, number F conv (show x) (printed x)) -> forall r c f fuel, 1 <= r -> 1 <= c -> r * c < fuel -> ind = Err EUninit -> exists s, toString F show (mgen r c f) = Ok s /\ fromString F conv ind fuel s = Err EUninit.
Proof. exact string_round_trip. Qed.
Print Assumptions C10_of_toString_undefined.

Theorem C10_words_never_end : forall (F : FOps) (conv : text -> F * bool), forall fuel w c l z x, Forall spaceC w -> ~ starts c -> ~ spaceC c -> conv [] = (z, false) ->
  fromString F conv (Ok x) fuel (w ++ c :: l) = Err EFuel.
Proof. exact word_never_ends_spec. Qed.
Print Assumptions C10_words_never_end.

Example C10_case : fromString ZOps convZ (Err EUninit) 5 (str ("1 2" ++ eol ++ "-3 4")) = Ok (mkMat 2 2 [1; 2; -3; 4]%Z) /\ ~ starts "n"%char /\ convZ [] = (0%Z, false).
Proof. split; [vm_compute; reflexivity|]. split; [intros [H|[H|[H|H]]]; [cbn in H|discriminate..]; repeat destruct H as [H|H]; try discriminate; auto|reflexivity]. Qed.
