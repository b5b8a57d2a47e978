(* ReaderProofs2.v - the CIFAR-10 reader *)
From Coq Require Import List Arith Bool NArith ZArith Lia.
From Coq.Init Require Import Byte.
From Coq.Strings Require Import Byte.
From Verif Require Import Base Scalar Mat SpecMat MatFacts MatProofs SpecReader Reader ReaderProofs1.
Import ListNotations.

Section Reader.
Variable F : FOps.
Notation M := (mat F).
Notation fByte := (fByte F).

Lemma rowFill : forall n px f i q bs, i < n -> (forall j, j < px -> ubyte q j = Ok (bs j)) ->
  forN px (fun j (data : M) => b <- ubyte q j ;; mset2 data i j (fByte b)) (mgen n px f) = Ok (mgen n px (fun r c => if r =? i then fByte (bs c) else f r c)).
Proof.
  intros n px f i q bs Hi Hq.
  destruct (@forN_inv _ (fun j m => m = mgen n px (fun r c => if (r =? i) && (c <? j) then fByte (bs c) else f r c)) px (fun j (data : M) => b <- ubyte q j ;; mset2 data i j (fByte b)) (mgen n px f)) as (m & E & ->).
  - apply mgen_ext. intros r c Hr Hc. rewrite andb_false_r. reflexivity.
  - intros j m Hj ->. rewrite Hq by auto. cbn [bind]. rewrite mset2_gen by auto. eexists. split; [reflexivity|].
    apply mgen_ext. intros r c Hr Hc. unfold upd2. destruct (Nat.eqb_spec r i); cbn [andb]; auto.
    destruct (Nat.eqb_spec c j); [subst; rewrite ltb_true by lia; auto|]. destruct (Nat.ltb_spec c j), (Nat.ltb_spec c (S j)); auto; lia.
  - rewrite E. f_equal. apply mgen_ext. intros r c Hr Hc. rewrite ltb_true by auto. rewrite andb_true_r. reflexivity.
Qed.
Lemma rowFill_uninit : forall n px f i k q bs, i < n -> k < px -> (forall j, j < k -> ubyte q j = Ok (bs j)) -> ubyte q k = Err EUninit ->
  forN px (fun j (data : M) => b <- ubyte q j ;; mset2 data i j (fByte b)) (mgen n px f) = Err EUninit.
Proof.
  intros n px f i k q bs Hi Hk Hp He. apply forN_err with (k := k) (I := fun _ m => exists g, m = mgen n px g); auto.
  - exists f. auto.
  - intros j m Hj (g & ->). rewrite Hp by auto. cbn [bind]. rewrite mset2_gen by (auto; lia). eexists. split; [reflexivity|]. eexists. reflexivity.
  - intros m (g & ->). rewrite He. reflexivity.
Qed.

Lemma ok4 : forall A B C D (a a' : A) (b b' : B) (c c' : C) (d d' : D), a = a' -> b = b' -> c = c' -> d = d' -> Ok (a, b, c, d) = Ok (a', b', c', d').
Proof. intros. subst. reflexivity. Qed.
Lemma ok3 : forall A B C (a a' : A) (b b' : B) (c c' : C), a = a' -> b = b' -> c = c' -> Ok (a, b, c) = Ok (a', b', c').
Proof. intros. subst. reflexivity. Qed.
(* the body of the loop *)
Definition step (px : nat) (i : nat) (st : stream * list (option byte) * M * M) : res (stream * list (option byte) * M * M) :=
  let '(s, line, data, truth) := st in
  let '(s, c) := sread s 1 (fresh 1) in
  cls <- ubyte c 0 ;;
  truth <- mset1 truth i (fByte cls) ;;
  let '(s, line) := sread s px line in
  data <- forN px (fun j data => b <- ubyte line j ;; mset2 data i j (fByte b)) data ;;
  Ok (s, line, data, truth).
(* after i records *)
Definition st_at (nb px : nat) (p : list byte) (f g : nat -> nat -> F) (i : nat) : stream * list (option byte) * M * M :=
  (after p (1 + px) i, lineAt p (1 + px) 1 px i, mgen nb px (fun r c => if r <? i then fByte (held p (1 + px) 1 r c) else f r c),
   mgen nb 1 (fun r c => if r <? i then fByte (at_byte p (r * (1 + px))) else g r c)).
Lemma step_ok : forall nb px p f g i, i < nb -> 1 + px <= length p -> i * (1 + px) < length p -> step px i (st_at nb px p f g i) = Ok (st_at nb px p f g (S i)).
Proof.
  intros nb px p f g i Hi H0 Hp. unfold step, st_at. unfold after at 1. replace (i * (1 + px) <=? length p) with true by (symmetry; apply Nat.leb_le; lia).
  rewrite (sread_full p (i * (1 + px)) 1 (fresh 1)) by (auto; lia).
  assert (Ec : firstn 1 (skipn (i * (1 + px)) p) = [at_byte p (i * (1 + px))]).
  { apply list_ext. intro k. rewrite nth_error_firstn, nth_error_skipn. destruct k as [|k]; cbn [Nat.ltb Nat.leb]; [rewrite Nat.add_0_r, at_byte_nth by auto; reflexivity|destruct k; reflexivity]. }
  rewrite Ec. cbn [map ubyte rget nth_error bind]. rewrite mset1_col by auto. cbn [bind]. rewrite sread_line by lia.
  rewrite (rowFill nb px _ i _ (fun j => held p (1 + px) 1 i j)) by (auto; intros; apply line_byte; auto). cbn [bind]. apply ok4; auto.
  - unfold after. replace (S i * (1 + px)) with (i * (1 + px) + 1 + px) by lia. reflexivity.
  - apply mgen_ext. intros r c Hr Hc. destruct (Nat.eqb_spec r i); [subst; rewrite ltb_true by lia; auto|]. destruct (Nat.ltb_spec r i), (Nat.ltb_spec r (S i)); auto; lia.
  - apply mgen_ext. intros r c Hr Hc. unfold upd2. replace (c =? 0) with true by (symmetry; apply Nat.eqb_eq; lia). rewrite andb_true_r.
    destruct (Nat.eqb_spec r i); [subst; rewrite ltb_true by lia; auto|]. destruct (Nat.ltb_spec r i), (Nat.ltb_spec r (S i)); auto; lia.
Qed.
Lemma readRecords_step : forall nb px s d t, readRecords F nb px s d t = (' (s, l, d, t) <- forN nb (step px) (s, fresh px, d, t) ;; Ok (d, t)).
Proof. reflexivity. Qed.
Lemma st_0 : forall nb px p f g, st_at nb px p f g 0 = (mkStream p true, fresh px, mgen nb px f, mgen nb 1 g).
Proof. reflexivity. Qed.
(* enough bytes for the class of every record, and for the whole first record *)
Lemma records_any : forall nb px p f g, nb = 0 \/ (1 + px <= length p /\ (nb - 1) * (1 + px) < length p) ->
  readRecords F nb px (mkStream p true) (mgen nb px f) (mgen nb 1 g) =
  Ok (mgen nb px (fun i j => fByte (held p (1 + px) 1 i j)), mgen nb 1 (fun i _ => fByte (at_byte p (i * (1 + px))))).
Proof.
  intros nb px p f g Hp. rewrite readRecords_step, <- (st_0 nb px p f g).
  destruct (@forN_inv _ (fun i st => st = st_at nb px p f g i) nb (step px) (st_at nb px p f g 0) eq_refl) as (st & E & ->).
  - intros i st Hi ->. destruct Hp as [->|[H1 H2]]; [lia|]. exists (st_at nb px p f g (S i)). split; auto. apply step_ok; auto. assert (i * (1 + px) <= (nb - 1) * (1 + px)) by (apply Nat.mul_le_mono_r; lia). lia.
  - rewrite E. cbn [bind]. unfold st_at. cbn [bind]. apply f_equal. apply f_equal2; apply mgen_ext; intros r c Hr Hc; rewrite ltb_true by auto; reflexivity.
Qed.
(* otherwise a byte that was never read is used *)
Lemma records_short : forall nb px p f g, nb <> 0 -> length p < 1 + px \/ length p <= (nb - 1) * (1 + px) ->
  readRecords F nb px (mkStream p true) (mgen nb px f) (mgen nb 1 g) = Err EUninit.
Proof.
  intros nb px p f g N0 H. rewrite readRecords_step, <- (st_0 nb px p f g). destruct (le_lt_dec (1 + px) (length p)) as [L|L].
  - set (k := (length p + px) / (1 + px)).
    assert (K : k * (1 + px) <= length p + px /\ length p <= k * (1 + px)).
    { unfold k. pose proof (Nat.div_mod (length p + px) (1 + px) ltac:(lia)). pose proof (Nat.mod_upper_bound (length p + px) (1 + px) ltac:(lia)). nia. }
    assert (k < nb) by (destruct (le_lt_dec nb k); auto; assert ((nb - 1) * (1 + px) + (1 + px) <= k * (1 + px)) by nia; lia).
    rewrite forN_err with (k := k) (e := EUninit) (I := fun i st => st = st_at nb px p f g i); auto.
    + intros i st Hi ->. exists (st_at nb px p f g (S i)). split; auto. apply step_ok; try lia. assert (S i * (1 + px) <= k * (1 + px)) by (apply Nat.mul_le_mono_r; lia). lia.
    + intros st ->. unfold step, st_at. unfold after at 1. destruct (Nat.leb_spec (k * (1 + px)) (length p)) as [Q|Q]; [|reflexivity]. rewrite (skipn_all2 p) by lia. reflexivity.
  - rewrite forN_err with (k := 0) (e := EUninit) (I := fun i st => st = st_at nb px p f g 0); auto; [lia|intros; lia|].
    intros st ->. rewrite st_0. unfold step. destruct p as [|b p]; [reflexivity|]. cbn [length] in L.
    assert (E : sread (mkStream (b :: p) true) 1 (fresh 1) = (mkStream p true, [Some b])) by reflexivity. rewrite E. cbn [ubyte rget nth_error bind]. rewrite mset1_col by lia. cbn [bind].
    destruct (sread (mkStream p true) px (fresh px)) as [s2 q] eqn:Es. rewrite (rowFill_uninit nb px f 0 (length p) q (at_byte p)); auto; try lia; change q with (snd (s2, q)); rewrite <- Es; [intros; apply short_ok; lia|apply short_byte; lia].
Qed.

(* CIFAR-10 batches: 10000 records of one class byte and 3072 pixels *)
Variables nb px : nat.
Hypothesis nb_two : 2 <= nb.
Hypothesis px_pos : 1 <= px.
Lemma nb_pos : nb <> 0. Proof. lia. Qed.
Notation recLen := (1 + px).
Theorem batch_read : forall recs rest d t, mwf d -> mwf t -> length recs = nb * recLen ->
  readBatch F nb px (Some (recs ++ rest)) d t = Ok (true, mgen nb px (fun i j => fByte (at_byte recs (i * recLen + (1 + j)))), mgen nb 1 (fun i _ => fByte (at_byte recs (i * recLen)))).
Proof.
  intros recs rest d t Wd Wt L. unfold readBatch. destruct (mresize_gen F d nb px Wd) as [f Ef]. rewrite Ef. clear Ef. destruct (mresize_gen F t nb 1 Wt) as [g Eg]. rewrite Eg. clear Eg. pose proof nb_pos. 
  rewrite records_any.
  - cbn [bind]. apply ok3; [reflexivity|apply mgen_ext; intros i j Hi Hj|apply mgen_ext; intros i j Hi Hj].
    + assert (i * recLen + (1 + j) < length recs) by (rewrite L; apply idx_lt; auto; lia). rewrite held_in by (rewrite app_length; lia). unfold at_byte. rewrite app_nth1 by lia. reflexivity.
    + assert (i * recLen + 0 < length recs) by (rewrite L; apply idx_lt; auto; lia). unfold at_byte. rewrite app_nth1 by lia. reflexivity.
  - right. rewrite app_length, L.  nia.
Qed.
(* a file cut in the pixels of its last record is accepted *)
Theorem batch_cut : forall p d t, mwf d -> mwf t -> (nb - 1) * recLen < length p -> length p < nb * recLen ->
  readBatch F nb px (Some p) d t = Ok (true, mgen nb px (fun i j => fByte (held p recLen 1 i j)), mgen nb 1 (fun i _ => fByte (at_byte p (i * recLen)))).
Proof.
  intros p d t Wd Wt H1 H2. unfold readBatch. destruct (mresize_gen F d nb px Wd) as [f Ef]. rewrite Ef. clear Ef. destruct (mresize_gen F t nb 1 Wt) as [g Eg]. rewrite Eg. clear Eg.
  rewrite records_any; [reflexivity|]. right. split; auto.  nia.
Qed.
(* cut earlier, indeterminate bytes are used *)
Theorem batch_short : forall p d t, mwf d -> mwf t -> length p <= (nb - 1) * recLen -> readBatch F nb px (Some p) d t = Err EUninit.
Proof.
  intros p d t Wd Wt H. unfold readBatch. destruct (mresize_gen F d nb px Wd) as [f Ef]. rewrite Ef. clear Ef. destruct (mresize_gen F t nb 1 Wt) as [g Eg]. rewrite Eg. clear Eg.
  rewrite records_short; [reflexivity|apply nb_pos|auto].
Qed.
(* no file content is ever rejected *)
Theorem batch_never_rejects : forall p d t d' t', readBatch F nb px (Some p) d t <> Ok (false, d', t').
Proof. intros p d t d' t' E. unfold readBatch in E. apply bind_inv in E. destruct E as ([a b] & _ & E). inversion E. Qed.

(** * loading *)
Definition imgOf (recs : list (list byte)) (i j : nat) : F := fByte (at_byte (nth (i / nb) recs []) ((i mod nb) * recLen + (1 + j))).
Definition clsOf (recs : list (list byte)) (i : nat) : F := fByte (at_byte (nth (i / nb) recs []) ((i mod nb) * recLen)).
Lemma nth_skip : forall (l : list (list byte)) k r t, skipn k l = r :: t -> nth k l [] = r /\ skipn (S k) l = t /\ k < length l.
Proof.
  intros l. induction l as [|x l IH]; intros k r t H; [destruct k; discriminate|]. destruct k as [|k]; [inversion H; cbn; split; auto; split; auto; lia|]. cbn [skipn] in *. destruct (IH _ _ _ H) as (A & B & C). cbn. split; auto. split; auto. lia.
Qed.
Lemma train_files : forall rest recs k n img tru f g, mwf img -> mwf tru -> (length recs * nb <= n) -> (forall r, In r recs -> length r = nb * recLen) -> skipn k recs = rest -> k <= length recs ->
  (forall i j, i < k * nb -> j < px -> f i j = imgOf recs i j) -> (forall i, i < k * nb -> g i 0 = clsOf recs i) ->
  exists f' g', readTrain F nb px k (map Some rest) img tru (mgen n px f) (mgen n 1 g) = Ok (true, mgen n px f', mgen n 1 g') /\
  (forall i j, i < length recs * nb -> j < px -> f' i j = imgOf recs i j) /\ (forall i, i < length recs * nb -> g' i 0 = clsOf recs i).
Proof.
  induction rest as [|r rest IH]; intros recs k n img tru f g W1 W2 Hn Hl Hs Hk Hf Hg.
  - exists f, g. split; [reflexivity|]. assert (length recs = k). { assert (length (skipn k recs) = 0) by (rewrite Hs; auto). rewrite skipn_length in H. lia. } subst k. auto.
  - destruct (nth_skip _ _ _ _ Hs) as (Er & Hs' & Lk). cbn [map readTrain]. pose proof nb_pos as NP.
    assert (Lr : length r = nb * recLen) by (apply Hl; rewrite <- Er; apply nth_In; auto). pose proof (batch_read r [] img tru W1 W2 Lr) as B. rewrite app_nil_r in B. rewrite B. cbn [bind negb].
    assert (Hc : k * nb + nb <= n) by (assert ((k + 1) * nb <= length recs * nb) by (apply Nat.mul_le_mono_r; lia); lia).
    rewrite copyInto_gen by auto. cbn [bind]. rewrite copyInto_gen by auto. cbn [bind].
    apply IH; [apply mwf_gen|apply mwf_gen|exact Hn|exact Hl|exact Hs'|lia| |].
    + intros i j Hi Hj. destruct (Nat.leb_spec (k * nb) i) as [Q|Q]; cbn [andb].
      * rewrite ltb_true by lia. assert (Hd : i / nb = k) by (symmetry; apply (Nat.div_unique i nb k (i - k * nb)); lia). assert (Hm : i mod nb = i - k * nb) by (symmetry; apply (Nat.mod_unique i nb k (i - k * nb)); lia).
        unfold imgOf. rewrite Hd, Hm, Er. reflexivity.
      * apply Hf; auto.
    + intros i Hi. destruct (Nat.leb_spec (k * nb) i) as [Q|Q]; cbn [andb].
      * rewrite ltb_true by lia. assert (Hd : i / nb = k) by (symmetry; apply (Nat.div_unique i nb k (i - k * nb)); lia). assert (Hm : i mod nb = i - k * nb) by (symmetry; apply (Nat.mod_unique i nb k (i - k * nb)); lia).
        unfold clsOf. rewrite Hd, Hm, Er. reflexivity.
      * apply Hg; auto.
Qed.
Theorem cifar_load : forall recs test d, length recs = 5 -> (forall r, In r (test :: recs) -> length r = nb * recLen) -> mwf (dTrain F d) -> mwf (dTrainT F d) -> mwf (dVal F d) -> mwf (dValT F d) ->
  exists d', cifarLoadN F nb px (5 * nb) (map Some recs) (Some test) d = Ok (true, d') /\
    dTrain F d' = mgen (5 * nb) px (fun i j => fdiv F (imgOf recs i j) (fofZ F 255)) /\ dTrainT F d' = mgen (5 * nb) 1 (fun i _ => clsOf recs i) /\
    dVal F d' = mgen nb px (fun i j => fdiv F (imgOf [test] i j) (fofZ F 255)) /\ dValT F d' = mgen nb 1 (fun i _ => clsOf [test] i) /\
    dHasTrain F d' = dHasTrain F d /\ dHasVal F d' = dHasVal F d.
Proof.
  intros recs test d L5 Hl W1 W2 W3 W4. unfold cifarLoadN.
  destruct (mresize_gen F (dTrain F d) (5 * nb) px W1) as [f ->]. destruct (mresize_gen F (dTrainT F d) (5 * nb) 1 W2) as [g ->].
  destruct (train_files recs recs 0 (5 * nb) (mempty F) (mempty F) f g) as (f' & g' & E & Hf & Hg); [reflexivity|reflexivity|rewrite L5; apply le_n|intros r Hr; apply Hl; right; exact Hr|reflexivity|lia|intros; lia|intros; lia|].
  rewrite E. cbn [bind negb dVal dValT]. pose proof (batch_read test [] (dVal F d) (dValT F d) W3 W4 (Hl test (or_introl eq_refl))) as B. rewrite app_nil_r in B. rewrite B. cbn [bind negb dTrain dVal]. unfold mdivS. rewrite !mapLoop_gen. cbn [bind].
  eexists. split; [reflexivity|]. cbn [dTrain dTrainT dVal dValT dHasTrain dHasVal]. pose proof nb_pos as NP.
  assert (Sm : forall i, i < nb -> i / nb = 0 /\ i mod nb = i) by (intros; split; [apply Nat.div_small|apply Nat.mod_small]; auto).
  split; [apply mgen_ext; intros i j Hi Hj; rewrite Hf; auto; lia|]. split; [apply mgen_ext; intros i j Hi Hj; replace j with 0 by lia; rewrite Hg; auto; lia|].
  split; [apply mgen_ext; intros i j Hi Hj; unfold imgOf; destruct (Sm i Hi) as [-> ->]; reflexivity|]. split; [apply mgen_ext; intros i j Hi Hj; unfold clsOf; destruct (Sm i Hi) as [-> ->]; reflexivity|]. auto.
Qed.
(* the flags are never set: a freshly made reader has no data after any load *)
Theorem cifar_flags : forall fs ft d b d', cifarLoadN F nb px (5 * nb) fs ft d = Ok (b, d') -> dHasTrain F d' = dHasTrain F d /\ dHasVal F d' = dHasVal F d.
Proof.
  intros fs ft d b d' E. unfold cifarLoadN in E. apply bind_inv in E. destruct E as ([[o a] t] & _ & E). destruct o; cbn [negb] in E; [|inversion E; subst; auto].
  apply bind_inv in E. destruct E as ([[o v] vt] & _ & E). destruct o; cbn [negb] in E; [|inversion E; subst; auto]. apply bind_inv in E. destruct E as (x & _ & E). apply bind_inv in E. destruct E as (y & _ & E). inversion E; subst; auto.
Qed.
Theorem cifar_has_no_data : forall fs ft b d', cifarLoadN F nb px (5 * nb) fs ft (dsNew F) = Ok (b, d') -> hasData F d' = false.
Proof. intros fs ft b d' E. destruct (cifar_flags _ _ _ _ _ E) as [A B]. unfold hasData. rewrite A, B. reflexivity. Qed.
End Reader.
