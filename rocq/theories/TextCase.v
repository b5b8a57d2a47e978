(* TextCase.v - integers in decimal: an instance of the parameters of Text.v, and the refutations *)
From Coq Require Import String List Arith Bool Ascii Lia ZArith Decimal DecimalString DecimalZ DecimalPos.
From Verif Require Import Base Scalar Mat SpecMat MatFacts SpecText Text TextProofs.
Import ListNotations.
Local Open Scope nat_scope.

Definition str (s : string) : text := list_ascii_of_string s.
Definition showZ (z : Z) : text := str (NilZero.string_of_int (Z.to_int z)).
Definition convZ (t : text) : Z * bool := match NilZero.int_of_string (string_of_list_ascii t) with Some d => (Z.of_int d, true) | None => (0%Z, false) end.

Lemma uint_digits : forall d, Forall digitC (str (NilEmpty.string_of_uint d)).
Proof. induction d; cbn; constructor; auto; unfold digitC; cbn; tauto. Qed.
Lemma uint_zero : forall d, d <> Nil -> NilZero.string_of_uint d = NilEmpty.string_of_uint d /\ str (NilEmpty.string_of_uint d) <> [].
Proof. intros [] N; try congruence; split; try reflexivity; discriminate. Qed.
Lemma showZ_ok : forall z, number ZOps convZ (showZ z) z.
Proof.
  intro z. assert (N : exists d, d <> Nil /\ (Z.to_int z = Pos d \/ Z.to_int z = Neg d)).
  { destruct z as [|p|p]; cbn [Z.to_int]; [exists (D0 Nil); split; [discriminate|auto]|exists (Pos.to_uint p)|exists (Pos.to_uint p)]; split; auto; apply Unsigned.to_uint_nonnil. }
  destruct N as (d & Nd & Hd). destruct (uint_zero d Nd) as [E1 E2]. split.
  - unfold showZ, NilZero.string_of_int. destruct Hd as [-> | ->].
    + exists [], (str (NilEmpty.string_of_uint d)), [], []. rewrite E1. cbn [app]. rewrite app_nil_r. split; auto. split; [left; auto|]. split; [apply uint_digits|]. split; left; auto.
    + exists ["-"%char], (str (NilEmpty.string_of_uint d)), [], []. rewrite E1. split; [rewrite !app_nil_r; reflexivity|]. split; [right; right; auto|]. split; [apply uint_digits|]. split; left; auto.
  - unfold convZ, showZ, str. rewrite string_of_list_ascii_of_string, NilZero.isi.
    + rewrite DecimalZ.of_to. reflexivity.
    + destruct Hd as [-> | ->]; congruence.
    + destruct Hd as [-> | ->]; congruence.
Qed.

Definition eol : string := String newline EmptyString.
(* C09: no matrix survives *)
Lemma file_round_refuted : exists (m : mat ZOps) (s : text), mwf m /\ toFile ZOps showZ m = Ok s /\ fromFile ZOps convZ (Err EUninit) 5 (Some s) = Err EUninit /\
  forall x, fromFile ZOps convZ (Ok x) 5 (Some s) = Ok (mkMat 2 3 [1; -2; x; 30; 4; x]%Z) /\ m = mkMat 2 2 [1; -2; 30; 4]%Z.
Proof.
  exists (mkMat 2 2 [1; -2; 30; 4]%Z : mat ZOps), (str ("1 -2 " ++ eol ++ "30 4 " ++ eol)). split; [reflexivity|]. split; [vm_compute; reflexivity|]. split; [vm_compute; reflexivity|]. intro x. split; [vm_compute; reflexivity|reflexivity].
Qed.
(* C10: rows and columns are swapped *)
Lemma string_rows_refuted : exists (s : text) (m : mat ZOps), s = str ("1 2 3" ++ eol ++ "4 5 6") /\ fromString ZOps convZ (Err EUninit) 9 s = Ok m /\ mrows m = 3 /\ mcols m = 2.
Proof. eexists. eexists. split; [reflexivity|]. split; [vm_compute; reflexivity|]. split; reflexivity. Qed.
(* C10: a ragged text is written outside the matrix *)
Lemma string_ragged_refuted : exists s : text, s = str ("1" ++ eol ++ "2 3") /\ fromString ZOps convZ (Err EUninit) 9 s = Err EOob.
Proof. eexists. split; [reflexivity|]. vm_compute. reflexivity. Qed.
(* ... and so is a ragged file *)
Lemma file_ragged_refuted : exists s : text, s = str ("1" ++ eol ++ "2,3" ++ eol) /\ fromFile ZOps convZ (Err EUninit) 9 (Some s) = Err EOob.
Proof. eexists. split; [reflexivity|]. vm_compute. reflexivity. Qed.
