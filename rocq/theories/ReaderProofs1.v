(* ReaderProofs1.v - the MNIST reader *)
From Coq Require Import List Arith Bool NArith ZArith Lia.
From Coq.Init Require Import Byte.
From Coq.Strings Require Import Byte.
From Verif Require Import Base Scalar Mat SpecMat MatFacts MatProofs SpecReader Reader.
Import ListNotations.

Lemma forN_err : forall S (I : nat -> S -> Prop) n k (body : nat -> S -> res S) s e, k < n -> I 0 s ->
  (forall i s, i < k -> I i s -> exists s', body i s = Ok s' /\ I (Datatypes.S i) s') -> (forall s, I k s -> body k s = Err e) -> forN n body s = Err e.
Proof.
  intros S I n k body s e Hk H0 Hs He. unfold forN. replace n with (k + (1 + (n - k - 1))) by lia. rewrite seq_app, forL_app.
  destruct (@forN_inv _ I k body s H0 Hs) as (s' & E & HI). unfold forN in E. rewrite E. cbn [bind]. cbn. rewrite He; auto.
Qed.
Lemma nth_error_skipn : forall A (l : list A) k i, nth_error (skipn k l) i = nth_error l (k + i).
Proof. intros A l k. revert l. induction k as [|k IH]; intros l i; [reflexivity|]. destruct l; cbn; [destruct i; auto|auto]. Qed.
Lemma nth_error_firstn : forall A (l : list A) k i, nth_error (firstn k l) i = if i <? k then nth_error l i else None.
Proof.
  intros A l k. revert l. induction k as [|k IH]; intros l i; [destruct i; auto|]. destruct l; cbn [firstn]; [destruct (i <? S k), i; auto|].
  destruct i; cbn; auto. rewrite IH. reflexivity.
Qed.
Lemma skipn_skipn : forall A (l : list A) a b, skipn a (skipn b l) = skipn (a + b) l.
Proof. intros. apply list_ext. intro i. rewrite !nth_error_skipn. f_equal. lia. Qed.
Lemma at_byte_nth : forall p k, k < length p -> nth_error p k = Some (at_byte p k).
Proof. intros. unfold at_byte. apply nth_error_nth'. auto. Qed.

(** * the stream *)
Lemma sread_full : forall p k n buf, k + n <= length p -> length buf = n ->
  sread (mkStream (skipn k p) true) n buf = (mkStream (skipn (k + n) p) true, map Some (firstn n (skipn k p))).
Proof.
  intros. unfold sread. cbn [sGood sLeft]. rewrite firstn_length, !skipn_length, (Nat.add_comm k n), <- (skipn_skipn _ p n k).
  replace (n <=? length p - k) with true by (symmetry; apply Nat.leb_le; lia). rewrite Nat.min_l by lia. rewrite (skipn_all2 buf) by lia. rewrite app_nil_r. reflexivity.
Qed.
Lemma ubyte_some : forall bs i b, nth_error bs i = Some b -> ubyte (map Some bs) i = Ok b.
Proof. intros. unfold ubyte, rget. rewrite nth_error_map, H. reflexivity. Qed.
(* reading record i of n bytes into a buffer that holds the earlier ones *)
Definition after (p : list byte) (st : nat) (i : nat) : stream := mkStream (skipn (i * st) p) (i * st <=? length p).
Definition lineAt (p : list byte) (st base n i : nat) : list (option byte) := match i with 0 => fresh n | S i' => map Some (map (held p st base i') (seq 0 n)) end.
Lemma line_len : forall p st b n i, length (lineAt p st b n i) = n.
Proof. intros. destruct i; cbn; unfold fresh; rewrite ?repeat_length, ?map_length, ?seq_length; auto. Qed.
Lemma held_in : forall p st b i j, i * st + (b + j) < length p -> held p st b i j = at_byte p (i * st + (b + j)).
Proof. intros. destruct i; cbn [held]; auto. destruct (Nat.ltb_spec (S i * st + (b + j)) (length p)); [auto|lia]. Qed.
Lemma held_out : forall p st b i j, length p <= S i * st + (b + j) -> held p st b (S i) j = held p st b i j.
Proof. intros. cbn [held]. destruct (Nat.ltb_spec (S i * st + (b + j)) (length p)); [lia|auto]. Qed.
Lemma sread_line : forall p st b n i, (b + n <= length p) -> i * st + b <= length p ->
  sread (mkStream (skipn (i * st + b) p) true) n (lineAt p st b n i) = (mkStream (skipn (i * st + b + n) p) (i * st + b + n <=? length p), lineAt p st b n (S i)).
Proof.
  intros p st b n i H0 Hi. unfold sread. cbn [sGood sLeft]. f_equal.
  - f_equal; [rewrite skipn_skipn; f_equal; lia|]. rewrite skipn_length. apply eq_true_iff_eq. rewrite !Nat.leb_le. lia.
  - apply list_ext. intro j. set (g := firstn n (skipn (i * st + b) p)). assert (Lg : length g = min n (length p - (i * st + b))) by (unfold g; rewrite firstn_length, skipn_length; auto).
    cbn [lineAt]. rewrite nth_error_map, nth_error_map. destruct (le_lt_dec n j) as [Hj|Hj].
    + rewrite nth_error_app2 by (rewrite map_length; lia). rewrite nth_error_skipn, map_length.
      assert (nth_error (seq 0 n) j = None) as -> by (apply nth_error_None; rewrite seq_length; lia). apply nth_error_None. rewrite line_len. lia.
    + assert (nth_error (seq 0 n) j = Some j) as -> by (rewrite (nth_error_nth' _ 0) by (rewrite seq_length; auto); rewrite seq_nth; auto). cbn [option_map].
      destruct (le_lt_dec (length g) j) as [Hg|Hg].
      * rewrite nth_error_app2 by (rewrite map_length; lia). rewrite nth_error_skipn, map_length. replace (length g + (j - length g)) with j by lia.
        destruct i as [|i]; [lia|]. cbn [lineAt]. rewrite nth_error_map, nth_error_map. assert (nth_error (seq 0 n) j = Some j) as -> by (rewrite (nth_error_nth' _ 0) by (rewrite seq_length; auto); rewrite seq_nth; auto).
        cbn [option_map]. rewrite held_out by lia. reflexivity.
      * rewrite nth_error_app1 by (rewrite map_length; lia). rewrite nth_error_map. unfold g. rewrite nth_error_firstn. destruct (Nat.ltb_spec j n); [|lia]. rewrite nth_error_skipn.
        rewrite at_byte_nth by lia. cbn [option_map]. rewrite held_in by lia. do 3 f_equal. lia.
Qed.
Lemma line_byte : forall p st b n i j, j < n -> ubyte (lineAt p st b n (S i)) j = Ok (held p st b i j).
Proof.
  intros. cbn [lineAt]. apply ubyte_some. rewrite nth_error_map. rewrite (nth_error_nth' _ 0) by (rewrite seq_length; auto). rewrite seq_nth by auto. reflexivity.
Qed.

(** * integers *)
Lemma byte_lt : forall b, (to_N b < 256)%N.
Proof. intro b. pose proof (to_N_bounded b). lia. Qed.
Lemma swap_spec : forall a b c d : N, (a < 256 -> b < 256 -> c < 256 -> d < 256 -> swapInt (a + 256 * b + 65536 * c + 16777216 * d) = 16777216 * a + 65536 * b + 256 * c + d)%N.
Proof.
  intros a b c d Ha Hb Hc Hd. unfold swapInt, wrap32. change 255%N with (N.ones 8). rewrite !N.land_ones, !N.shiftr_div_pow2, !N.shiftl_mul_pow2.
  change (2 ^ 8)%N with 256%N. change (2 ^ 16)%N with 65536%N. change (2 ^ 24)%N with 16777216%N.
  assert (A : ((a + 256 * b + 65536 * c + 16777216 * d) mod 256 = a)%N) by (symmetry; apply (N.mod_unique _ _ (b + 256 * c + 65536 * d)); lia).
  assert (B0 : ((a + 256 * b + 65536 * c + 16777216 * d) / 256 = b + 256 * c + 65536 * d)%N) by (symmetry; apply (N.div_unique _ _ _ a); lia).
  assert (C0 : ((a + 256 * b + 65536 * c + 16777216 * d) / 65536 = c + 256 * d)%N) by (symmetry; apply (N.div_unique _ _ _ (a + 256 * b)); lia).
  assert (D0 : ((a + 256 * b + 65536 * c + 16777216 * d) / 16777216 = d)%N) by (symmetry; apply (N.div_unique _ _ _ (a + 256 * b + 65536 * c)); lia).
  rewrite A, B0, C0, D0.
  assert (B : ((b + 256 * c + 65536 * d) mod 256 = b)%N) by (symmetry; apply (N.mod_unique _ _ (c + 256 * d)); lia).
  assert (C : ((c + 256 * d) mod 256 = c)%N) by (symmetry; apply (N.mod_unique _ _ d); lia).
  rewrite B, C, (N.mod_small d) by lia. rewrite N.mod_small; lia.
Qed.
Lemma readInt_be : forall h x t, be4 h x -> readInt (mkStream (h ++ t) true) = Ok (mkStream t true, x).
Proof.
  intros h x t (b0 & b1 & b2 & b3 & -> & ->). unfold readInt. change ([b0; b1; b2; b3] ++ t) with (skipn 0 ([b0; b1; b2; b3] ++ t)). rewrite sread_full by (cbn; auto; lia).
  cbn [app firstn skipn map Nat.add]. unfold loadInt, ubyte, rget. cbn [nth_error bind]. unfold bN. rewrite swap_spec by apply byte_lt. reflexivity.
Qed.
Lemma be4_lt : forall h x, be4 h x -> (x < 4294967296)%N.
Proof. intros h x (b0 & b1 & b2 & b3 & _ & ->). pose proof (byte_lt b0). pose proof (byte_lt b1). pose proof (byte_lt b2). pose proof (byte_lt b3). lia. Qed.
Lemma be4_len : forall h x, be4 h x -> length h = 4.
Proof. intros h x (b0 & b1 & b2 & b3 & -> & _). reflexivity. Qed.

Section Reader.
Variable F : FOps.
Notation M := (mat F).
Notation fByte := (fByte F).

Lemma storeBytes_row : forall n sz f i p bs, i < n -> (forall j, j < sz -> ubyte p j = Ok (bs j)) ->
  storeBytes F (mgen n sz f) (i * sz) sz p = Ok (mgen n sz (fun r c => if r =? i then fByte (bs c) else f r c)).
Proof.
  intros n sz f i p bs Hi Hp. unfold storeBytes.
  destruct (@forN_inv _ (fun j m => m = mgen n sz (fun r c => if (r =? i) && (c <? j) then fByte (bs c) else f r c)) sz
    (fun k m => b <- ubyte p k ;; d <- rset (mdata m) (i * sz + k) (fByte b) ;; Ok (mkMat (mrows m) (mcols m) d)) (mgen n sz f)) as (m & E & ->).
  - apply mgen_ext. intros r c Hr Hc. rewrite andb_false_r. reflexivity.
  - intros j m Hj ->. rewrite Hp by auto. cbn [bind]. rewrite rset_mgen by (apply idx_lt; auto). cbn [bind]. eexists. split; [reflexivity|].
    change (mkMat (mrows (mgen n sz (fun r c => if (r =? i) && (c <? j) then fByte (bs c) else f r c))) (mcols (mgen n sz (fun r c => if (r =? i) && (c <? j) then fByte (bs c) else f r c)))
      (mdata (mgen n sz (upd2 (fun r c => if (r =? i) && (c <? j) then fByte (bs c) else f r c) ((i * sz + j) / sz) ((i * sz + j) mod sz) (fByte (bs j)))))) with
      (mgen n sz (upd2 (fun r c => if (r =? i) && (c <? j) then fByte (bs c) else f r c) ((i * sz + j) / sz) ((i * sz + j) mod sz) (fByte (bs j)))).
    apply mgen_ext. intros r c Hr Hc. rewrite idx_div, idx_mod by auto. unfold upd2. destruct (Nat.eqb_spec r i); cbn [andb]; auto.
    destruct (Nat.eqb_spec c j); [subst; replace (j <? S j) with true by (symmetry; apply Nat.ltb_lt; lia); auto|].
    destruct (Nat.ltb_spec c j), (Nat.ltb_spec c (S j)); auto; lia.
  - rewrite E. f_equal. apply mgen_ext. intros r c Hr Hc. replace (c <? sz) with true by (symmetry; apply Nat.ltb_lt; auto). rewrite andb_true_r. reflexivity.
Qed.
Lemma storeBytes_uninit : forall n sz f i k p bs, i < n -> k < sz -> (forall j, j < k -> ubyte p j = Ok (bs j)) -> ubyte p k = Err EUninit ->
  storeBytes F (mgen n sz f) (i * sz) sz p = Err EUninit.
Proof.
  intros n sz f i k p bs Hi Hk Hp He. unfold storeBytes. apply forN_err with (k := k) (I := fun _ m => exists g, m = mgen n sz g); auto.
  - exists f. auto.
  - intros j m Hj (g & ->). rewrite Hp by auto. cbn [bind]. rewrite rset_mgen by (apply idx_lt; auto; lia). cbn [bind]. eexists. split; [reflexivity|]. eexists. reflexivity.
  - intros m (g & ->). rewrite He. reflexivity.
Qed.

(** * the header *)
Definition images (m : M) (s : stream) : res (bool * M) :=
  ' (s, nbImages) <- readInt s ;;
  ' (s, nbRows) <- readInt s ;;
  ' (s, nbCols) <- readInt s ;;
  let n := N.to_nat nbImages in
  let sz := N.to_nat (wrap32 (nbRows * nbCols)) in
  let m := mresize F m n sz in
  ' (s, p, m) <- forN n (fun i st => let '(s, p, m) := st in
    let '(s, p) := sread s sz p in
    assert_ (i <? mrows m) ;;;
    m <- storeBytes F m (i * sz) sz p ;; Ok (s, p, m)) (s, fresh sz, m) ;;
  Ok (true, m).
Definition labels (m : M) (s : stream) : res (bool * M) :=
  ' (s, size) <- readInt s ;;
  let n := N.to_nat size in
  let m := mresize F m n 1 in
  let '(s, p) := sread s n (fresh n) in
  m <- storeBytes F m 0 n p ;; Ok (true, m).
Lemma header : forall lo hi ty d t m, readMatrix F (Some (lo :: hi :: ty :: d :: t)) m =
  if negb (bN lo + 256 * bN hi =? 0)%N then Ok (false, m) else if negb (bN ty =? 8)%N then Ok (false, m) else
  if (bN d =? 1)%N then labels m (mkStream t true) else if (bN d =? 3)%N then images m (mkStream t true) else Ok (false, m).
Proof. reflexivity. Qed.
(* a wrong magic number, element type or number of dimensions *)
Theorem wrong_magic : forall lo hi t m, (lo, hi) <> (x00, x00) -> readMatrix F (Some (lo :: hi :: t)) m = Ok (false, m).
Proof.
  intros lo hi t m H. unfold readMatrix. assert (E : sread (mkStream (lo :: hi :: t) true) 2 (fresh 2) = (mkStream t true, [Some lo; Some hi])) by reflexivity. rewrite E. cbn [ubyte rget nth_error bind].
  destruct (N.eqb_spec (bN lo + 256 * bN hi) 0) as [Z|Z]; [|reflexivity]. exfalso. apply H. unfold bN in Z. assert (A : to_N lo = 0%N /\ to_N hi = 0%N) by lia. destruct A as [A B].
  apply (f_equal of_N) in A, B. rewrite of_to_N in A, B. cbn in A, B. congruence.
Qed.
Theorem wrong_type : forall ty t m, ty <> x08 -> readMatrix F (Some (x00 :: x00 :: ty :: t)) m = Ok (false, m).
Proof.
  intros ty t m H. unfold readMatrix. assert (E : sread (mkStream (x00 :: x00 :: ty :: t) true) 2 (fresh 2) = (mkStream (ty :: t) true, [Some x00; Some x00])) by reflexivity. rewrite E. cbn [ubyte rget nth_error bind].
  change (negb (bN x00 + 256 * bN x00 =? 0)%N) with false. cbv iota. assert (E2 : sread (mkStream (ty :: t) true) 1 (fresh 1) = (mkStream t true, [Some ty])) by reflexivity. rewrite E2. cbn [ubyte rget nth_error bind].
  destruct (N.eqb_spec (bN ty) 8) as [Z|Z]; [|reflexivity]. exfalso. apply H. unfold bN in Z. apply (f_equal of_N) in Z. rewrite of_to_N in Z. cbn in Z. congruence.
Qed.
Theorem wrong_dim : forall d t m, d <> x01 -> d <> x03 -> readMatrix F (Some (x00 :: x00 :: x08 :: d :: t)) m = Ok (false, m).
Proof.
  intros d t m H1 H3. rewrite header. change (negb (bN x00 + 256 * bN x00 =? 0)%N) with false. change (negb (bN x08 =? 8)%N) with false. cbv iota.
  destruct (N.eqb_spec (bN d) 1) as [Z|Z]; [exfalso; apply H1; unfold bN in Z; apply (f_equal of_N) in Z; rewrite of_to_N in Z; cbn in Z; congruence|].
  destruct (N.eqb_spec (bN d) 3) as [Z3|Z3]; [exfalso; apply H3; unfold bN in Z3; apply (f_equal of_N) in Z3; rewrite of_to_N in Z3; cbn in Z3; congruence|]. reflexivity.
Qed.
Theorem no_file : forall m, readMatrix F None m = Ok (false, m).
Proof. reflexivity. Qed.

(** * images *)
Lemma ltb_true : forall a b, a < b -> (a <? b) = true. Proof. intros. apply Nat.ltb_lt. auto. Qed.
Lemma images_loop : forall n sz m p, mwf m -> (n = 0 \/ sz <= length p) ->
  (' (s, q, m) <- forN n (fun i st => let '(s, q, m) := st in
    let '(s, q) := sread s sz q in
    assert_ (i <? mrows m) ;;;
    m <- storeBytes F m (i * sz) sz q ;; Ok (s, q, m)) (mkStream p true, fresh sz, mresize F m n sz) ;;
  Ok (true, m)) = Ok (true, mgen n sz (fun i j => fByte (held p sz 0 i j))).
Proof.
  intros n sz m p Hm Hp. destruct (mresize_gen F m n sz Hm) as [f ->].
  destruct (@forN_inv _ (fun i st => st = (after p sz i, lineAt p sz 0 sz i, mgen n sz (fun r c => if r <? i then fByte (held p sz 0 r c) else f r c))) n
    (fun i st => let '(s, q, m) := st in let '(s, q) := sread s sz q in assert_ (i <? mrows m) ;;; m <- storeBytes F m (i * sz) sz q ;; Ok (s, q, m))
    (mkStream p true, fresh sz, mgen n sz f)) as (st & E & ->).
  - reflexivity.
  - intros i st Hi ->. destruct Hp as [->|Hp]; [lia|].
    assert (Sr : sread (after p sz i) sz (lineAt p sz 0 sz i) = (after p sz (S i), lineAt p sz 0 sz (S i))).
    { unfold after. destruct (Nat.leb_spec (i * sz) (length p)) as [L|L].
      - pose proof (sread_line p sz 0 sz i Hp) as Q. rewrite Nat.add_0_r in Q. rewrite Q by lia. replace (i * sz + sz) with (S i * sz) by lia. reflexivity.
      - unfold sread. cbn [sGood]. destruct i as [|i]; [lia|]. rewrite (skipn_all2 p) by lia. rewrite (skipn_all2 p) by lia. replace (S (S i) * sz <=? length p) with false by (symmetry; apply Nat.leb_gt; lia).
        f_equal. cbn [lineAt]. f_equal. apply map_seq_ext. intros j Hj. symmetry. apply held_out. lia. }
    rewrite Sr. change (mrows (mgen n sz (fun r c => if r <? i then fByte (held p sz 0 r c) else f r c))) with n. unfold assert_. rewrite ltb_true by auto. cbn [bind].
    rewrite (storeBytes_row n sz _ i _ (fun j => held p sz 0 i j)) by (auto; intros; apply line_byte; auto). cbn [bind]. eexists. split; [reflexivity|]. f_equal. apply mgen_ext. intros r c Hr Hc.
    destruct (Nat.eqb_spec r i); [subst; rewrite ltb_true by lia; auto|]. destruct (Nat.ltb_spec r i), (Nat.ltb_spec r (S i)); auto; lia.
  - rewrite E. cbn [bind]. do 2 f_equal. apply mgen_ext. intros r c Hr Hc. rewrite ltb_true by auto. reflexivity.
Qed.
Lemma images_head : forall hN hR hC t m nI nR nC, be4 hN nI -> be4 hR nR -> be4 hC nC ->
  let n := N.to_nat nI in let sz := N.to_nat ((nR * nC) mod 4294967296) in
  readMatrix F (Some (idxImages hN hR hC t)) m =
  (' (s, q, m) <- forN n (fun i st => let '(s, q, m) := st in
    let '(s, q) := sread s sz q in
    assert_ (i <? mrows m) ;;;
    m <- storeBytes F m (i * sz) sz q ;; Ok (s, q, m)) (mkStream t true, fresh sz, mresize F m n sz) ;;
  Ok (true, m)).
Proof.
  intros hN hR hC t m nI nR nC H1 H2 H3 n sz. unfold idxImages. cbn [app]. rewrite header. change (negb (bN x00 + 256 * bN x00 =? 0)%N) with false. change (negb (bN x08 =? 8)%N) with false.
  change (bN x03 =? 1)%N with false. change (bN x03 =? 3)%N with true. cbv iota. unfold images. rewrite (readInt_be hN nI) by auto. cbn [bind]. rewrite (readInt_be hR nR) by auto. cbn [bind].
  rewrite (readInt_be hC nC) by auto. cbn [bind]. reflexivity.
Qed.
(* whatever follows the header, as soon as it has one image *)
Theorem images_any : forall hN hR hC p m nI nR nC, be4 hN nI -> be4 hR nR -> be4 hC nC -> mwf m ->
  let n := N.to_nat nI in let sz := N.to_nat ((nR * nC) mod 4294967296) in (n = 0 \/ sz <= length p) ->
  readMatrix F (Some (idxImages hN hR hC p)) m = Ok (true, mgen n sz (fun i j => fByte (held p sz 0 i j))).
Proof. intros hN hR hC p m nI nR nC H1 H2 H3 Hm n sz Hp. rewrite (images_head hN hR hC p m nI nR nC) by auto. apply images_loop; auto. Qed.
(* a well-formed file, possibly followed by more *)
Theorem images_read : forall hN hR hC pix rest m n r c, be4 hN (N.of_nat n) -> be4 hR (N.of_nat r) -> be4 hC (N.of_nat c) -> mwf m -> (N.of_nat (r * c) < 4294967296)%N ->
  length pix = n * (r * c) ->
  readMatrix F (Some (idxImages hN hR hC (pix ++ rest))) m = Ok (true, mgen n (r * c) (fun i j => fByte (at_byte pix (i * (r * c) + j)))).
Proof.
  intros hN hR hC pix rest m n r c H1 H2 H3 Hm Hs L.
  assert (Ez : N.to_nat ((N.of_nat r * N.of_nat c) mod 4294967296) = r * c) by (rewrite <- Nat2N.inj_mul, N.mod_small by auto; apply Nat2N.id).
  rewrite (images_any hN hR hC (pix ++ rest) m _ _ _ H1 H2 H3 Hm).
  - rewrite Ez, Nat2N.id. do 2 f_equal. apply mgen_ext. intros i j Hi Hj. assert (i * (r * c) + j < length pix) by (rewrite L; apply idx_lt; auto).
    rewrite held_in by (rewrite app_length; lia). unfold at_byte. rewrite app_nth1 by lia. reflexivity.
  - rewrite Ez, Nat2N.id, app_length, L. destruct n; [left; auto|right]. nia.
Qed.
(* a file cut after its first image: accepted, the missing pixels are those of the image before *)
Theorem images_cut : forall hN hR hC pix m n r c k, be4 hN (N.of_nat n) -> be4 hR (N.of_nat r) -> be4 hC (N.of_nat c) -> mwf m -> (N.of_nat (r * c) < 4294967296)%N ->
  length pix = n * (r * c) -> r * c <= k -> k < n * (r * c) ->
  readMatrix F (Some (firstn (16 + k) (idxImages hN hR hC pix))) m = Ok (true, mgen n (r * c) (fun i j => fByte (held (firstn k pix) (r * c) 0 i j))).
Proof.
  intros hN hR hC pix m n r c k H1 H2 H3 Hm Hs L Hk Hk2.
  assert (Ez : N.to_nat ((N.of_nat r * N.of_nat c) mod 4294967296) = r * c) by (rewrite <- Nat2N.inj_mul, N.mod_small by auto; apply Nat2N.id).
  assert (Ef : firstn (16 + k) (idxImages hN hR hC pix) = idxImages hN hR hC (firstn k pix)).
  { unfold idxImages. rewrite !app_assoc. rewrite firstn_app. assert (Lh : length ((([x00; x00; x08; x03] ++ hN) ++ hR) ++ hC) = 16) by (rewrite !app_length, (be4_len _ _ H1), (be4_len _ _ H2), (be4_len _ _ H3); reflexivity).
    rewrite Lh. rewrite firstn_all2 by lia. do 2 f_equal. lia. }
  rewrite Ef, (images_any hN hR hC (firstn k pix) m _ _ _ H1 H2 H3 Hm).
  - rewrite Ez, Nat2N.id. reflexivity.
  - right. rewrite Ez, firstn_length. lia.
Qed.

(** * labels *)
Lemma storeBytes_shape : forall r c r' c' d off n p, storeBytes F (mkMat r c d) off n p = match storeBytes F (mkMat r' c' d) off n p with Ok m => Ok (mkMat r c (mdata m)) | Err e => Err e end.
Proof.
  intros r c r' c' d off n p. unfold storeBytes, forN. generalize (seq 0 n). intro l. revert d. induction l as [|i l IH]; intro d; [reflexivity|]. cbn [forL]. destruct (ubyte p i); cbn [bind]; auto. cbn [mdata mrows mcols].
  destruct (rset d (off + i) (fByte a)); cbn [bind]; auto.
Qed.
Lemma col_row : forall n f, mdata (mgen n 1 f) = mdata (mgen 1 n (fun _ j => f j 0) : mat F).
Proof. intros. rewrite !mgen_flat. unfold mflat. cbn [mdata]. rewrite Nat.mul_1_r, Nat.mul_1_l. apply map_seq_ext. intros k Hk. rewrite Nat.div_1_r, Nat.mod_1_r, Nat.mod_small by auto. reflexivity. Qed.
Lemma labels_head : forall hN t m n, be4 hN (N.of_nat n) -> mwf m -> exists f,
  readMatrix F (Some (idxLabels hN t)) m = (m <- storeBytes F (mkMat n 1 (mdata (mgen 1 n f : mat F))) 0 n (snd (sread (mkStream t true) n (fresh n))) ;; Ok (true, m)).
Proof.
  intros hN t m n H Hm. destruct (mresize_gen F m n 1 Hm) as [f Ef]. exists (fun _ j => f j 0). unfold idxLabels. cbn [app]. rewrite header. change (negb (bN x00 + 256 * bN x00 =? 0)%N) with false. change (negb (bN x08 =? 8)%N) with false.
  change (bN x01 =? 1)%N with true. cbv iota. unfold labels. rewrite (readInt_be hN _) by eauto. cbn [bind]. rewrite Nat2N.id, Ef. destruct (sread (mkStream t true) n (fresh n)). cbn [snd]. rewrite <- col_row. reflexivity.
Qed.
Theorem labels_read : forall hN lab rest m n, be4 hN (N.of_nat n) -> mwf m -> length lab = n ->
  readMatrix F (Some (idxLabels hN (lab ++ rest))) m = Ok (true, mgen n 1 (fun i _ => fByte (at_byte lab i))).
Proof.
  intros hN lab rest m n H Hm L. destruct (labels_head hN (lab ++ rest) m n H Hm) as (f & ->).
  pose proof (sread_full (lab ++ rest) 0 n (fresh n)) as Q. cbn [skipn Nat.add] in Q. rewrite Q by (unfold fresh; rewrite ?app_length, ?repeat_length; lia). cbn [snd]. rewrite (storeBytes_shape n 1 1 n).
  change (mkMat 1 n (mdata (mgen 1 n f : mat F))) with (mgen 1 n f : mat F). rewrite firstn_app, L, Nat.sub_diag. cbn [firstn]. rewrite app_nil_r. rewrite firstn_all2 by lia.
  pose proof (storeBytes_row 1 n f 0 (map Some lab) (at_byte lab)) as S. cbn [Nat.mul] in S. rewrite S; [|lia|intros j Hj; apply ubyte_some, at_byte_nth; lia]. cbn [bind]. do 2 f_equal.
  change (mkMat n 1 (mdata (mgen 1 n (fun r c => if r =? 0 then fByte (at_byte lab c) else f r c) : mat F)) = mgen n 1 (fun i _ => fByte (at_byte lab i))). rewrite !mgen_flat. unfold mflat. cbn [mdata]. rewrite Nat.mul_1_r, Nat.mul_1_l.
  f_equal. apply map_seq_ext. intros k Hk. rewrite Nat.div_1_r, Nat.mod_small, Nat.div_small by auto. reflexivity.
Qed.

(** * files that end too early: indeterminate bytes are used *)
Lemma short_byte : forall t n k, length t <= k -> k < n -> ubyte (snd (sread (mkStream t true) n (fresh n))) k = Err EUninit.
Proof.
  intros t n k H1 H2. unfold sread. cbn [sGood sLeft snd]. rewrite firstn_all2 by lia. unfold ubyte, rget. rewrite nth_error_app2 by (rewrite map_length; auto). rewrite nth_error_skipn, map_length. unfold fresh.
  rewrite (nth_error_nth' _ None) by (rewrite repeat_length; lia). rewrite nth_repeat. reflexivity.
Qed.
Lemma short_ok : forall t n k, k < length t -> length t <= n -> ubyte (snd (sread (mkStream t true) n (fresh n))) k = Ok (at_byte t k).
Proof.
  intros t n k H1 H2. unfold sread. cbn [sGood sLeft snd]. rewrite firstn_all2 by lia. unfold ubyte, rget. rewrite nth_error_app1 by (rewrite map_length; auto). rewrite nth_error_map, at_byte_nth by auto. reflexivity.
Qed.
Lemma readInt_short : forall t, length t < 4 -> readInt (mkStream t true) = Err EUninit.
Proof. intros t H. destruct t as [|a [|b [|c [|d t]]]]; try reflexivity. cbn in H. lia. Qed.
Lemma magic_short : forall t m, length t < 4 -> (exists u, [x00; x00; x08] = t ++ u) -> readMatrix F (Some t) m = Err EUninit.
Proof.
  intros t m H (u & E). destruct t as [|a [|b [|c [|d t]]]]; try reflexivity; inversion E; subst; reflexivity.
Qed.
Lemma firstn_pre : forall (h t : list byte) k, length h <= k -> firstn k (h ++ t) = h ++ firstn (k - length h) t.
Proof. intros. rewrite firstn_app, firstn_all2 by auto. reflexivity. Qed.
Lemma short4 : forall h (t : list byte) k, length h = 4 -> k < 4 -> length (firstn k (h ++ t)) < 4.
Proof. intros. rewrite firstn_length, app_length. lia. Qed.
Theorem labels_short : forall hN lab m n k, be4 hN (N.of_nat n) -> mwf m -> length lab = n -> k < length (idxLabels hN lab) -> readMatrix F (Some (firstn k (idxLabels hN lab))) m = Err EUninit.
Proof.
  intros hN lab m n k H Hm L Hk. pose proof (be4_len _ _ H) as L4. unfold idxLabels in *. rewrite !app_length, L4, L in Hk. cbn [length] in Hk. destruct (le_lt_dec 4 k) as [K4|K4].
  - rewrite firstn_pre by auto. cbn [length app]. destruct (le_lt_dec 8 k) as [K8|K8].
    + rewrite firstn_pre by lia. rewrite L4. set (t := firstn (k - 4 - 4) lab). assert (Lt : length t < n) by (unfold t; rewrite firstn_length; lia). destruct (labels_head hN t m n H Hm) as (f & E). unfold idxLabels in E. cbn [app] in E. rewrite E.
      rewrite (storeBytes_shape n 1 1 n). pose proof (storeBytes_uninit 1 n f 0 (length t) (snd (sread (mkStream t true) n (fresh n))) (at_byte t)) as S. cbn [Nat.mul] in S.
      change (mkMat 1 n (mdata (mgen 1 n f : mat F))) with (mgen 1 n f : mat F). rewrite S; auto; [intros; apply short_ok; lia|apply short_byte; lia].
    + rewrite header. change (negb (bN x00 + 256 * bN x00 =? 0)%N) with false. change (negb (bN x08 =? 8)%N) with false. change (bN x01 =? 1)%N with true. cbv iota. unfold labels. rewrite readInt_short by (apply short4; auto; lia). reflexivity.
  - apply magic_short; [rewrite firstn_length; lia|]. destruct k as [|[|[|[|k]]]]; try lia; cbn; eexists; reflexivity.
Qed.
Theorem images_short : forall hN hR hC pix m n r c k, be4 hN (N.of_nat n) -> be4 hR (N.of_nat r) -> be4 hC (N.of_nat c) -> mwf m -> (N.of_nat (r * c) < 4294967296)%N ->
  length pix = n * (r * c) -> k < length (idxImages hN hR hC pix) -> k < 16 + r * c -> readMatrix F (Some (firstn k (idxImages hN hR hC pix))) m = Err EUninit.
Proof.
  intros hN hR hC pix m n r c k H1 H2 H3 Hm Hs L Hk Hk2. pose proof (be4_len _ _ H1) as L1. pose proof (be4_len _ _ H2) as L2. pose proof (be4_len _ _ H3) as L3.
  assert (Ez : N.to_nat ((N.of_nat r * N.of_nat c) mod 4294967296) = r * c) by (rewrite <- Nat2N.inj_mul, N.mod_small by auto; apply Nat2N.id).
  unfold idxImages in *. rewrite !app_length, L1, L2, L3, L in Hk. cbn [length] in Hk. destruct (le_lt_dec 4 k) as [K4|K4].
  - rewrite firstn_pre by auto. cbn [length]. destruct (le_lt_dec 16 k) as [K|K].
    + rewrite firstn_pre by lia. rewrite L1. rewrite firstn_pre by lia. rewrite L2. rewrite firstn_pre by lia. rewrite L3. set (t := firstn (k - 4 - 4 - 4 - 4) pix). assert (Lt : length t < r * c) by (unfold t; rewrite firstn_length; lia).
      pose proof (images_head hN hR hC t m _ _ _ H1 H2 H3) as E. unfold idxImages in E. cbv zeta in E. rewrite E, Ez, Nat2N.id. destruct n as [|n]; [lia|]. destruct (mresize_gen F m (S n) (r * c) Hm) as [f ->].
      rewrite forN_err with (k := 0) (e := EUninit) (I := fun _ st => st = (mkStream t true, fresh (r * c), mgen (S n) (r * c) f)); auto; [lia|intros; lia|].
      intros st ->. destruct (sread (mkStream t true) (r * c) (fresh (r * c))) as [s2 q] eqn:Es. change (mrows (mgen (S n) (r * c) f)) with (S n). unfold assert_. rewrite ltb_true by lia. cbn [bind].
      rewrite (storeBytes_uninit (S n) (r * c) f 0 (length t) q (at_byte t)); auto; [lia| |]; change q with (snd (s2, q)); rewrite <- Es; [intros; apply short_ok; lia|apply short_byte; lia].
    + cbn [app]. rewrite header. change (negb (bN x00 + 256 * bN x00 =? 0)%N) with false. change (negb (bN x08 =? 8)%N) with false. change (bN x03 =? 1)%N with false. change (bN x03 =? 3)%N with true. cbv iota. unfold images.
      destruct (le_lt_dec 8 k) as [K8|K8]; [|rewrite readInt_short by (apply short4; auto; lia); reflexivity]. rewrite firstn_pre by lia. rewrite L1, (readInt_be hN _) by eauto. cbn [bind].
      destruct (le_lt_dec 12 k) as [K12|K12]; [|rewrite readInt_short by (apply short4; auto; lia); reflexivity]. rewrite firstn_pre by lia. rewrite L2, (readInt_be hR _) by eauto. cbn [bind].
      rewrite readInt_short by (apply short4; auto; lia). reflexivity.
  - apply magic_short; [rewrite firstn_length; lia|]. destruct k as [|[|[|[|k]]]]; try lia; cbn; eexists; reflexivity.
Qed.

(** * the whole data set *)
Theorem mnist_load : forall f1 f2 f3 f4 d a at' v vt n p n' p' q q', mwf (dTrain F d) -> mwf (dTrainT F d) -> mwf (dVal F d) -> mwf (dValT F d) ->
  readMatrix F f1 (dTrain F d) = Ok (true, mgen n p a) -> readMatrix F f2 (dTrainT F d) = Ok (true, mgen n q at') ->
  readMatrix F f3 (dVal F d) = Ok (true, mgen n' p' v) -> readMatrix F f4 (dValT F d) = Ok (true, mgen n' q' vt) ->
  exists d', mnistLoad F f1 f2 f3 f4 d = Ok (true, d') /\ hasData F d' = true /\ dHasTrain F d' = true /\ dHasVal F d' = true /\
    dTrain F d' = mgen n p (fun i j => fdiv F (a i j) (fofZ F 256)) /\ dTrainT F d' = mgen n q at' /\ dVal F d' = mgen n' p' (fun i j => fdiv F (v i j) (fofZ F 256)) /\ dValT F d' = mgen n' q' vt.
Proof.
  intros f1 f2 f3 f4 d a at' v vt n p n' p' q q' W1 W2 W3 W4 E1 E2 E3 E4. unfold mnistLoad. rewrite E1. cbn [bind negb dTrainT]. rewrite E2. cbn [bind negb dVal]. rewrite E3. cbn [bind negb dValT]. rewrite E4. cbn [bind negb dTrain dVal].
  unfold mdivS. rewrite !mapLoop_gen. cbn [bind]. eexists. split; [reflexivity|]. repeat split.
Qed.
(** DataSource::has_data *)
Theorem has_data_either : forall d, hasData F d = false <-> (dHasTrain F d = false /\ dHasVal F d = false).
Proof. intros d. unfold hasData. apply orb_false_iff. Qed.
Theorem mnist_missing : forall f1 f2 f3 f4 d b d', f1 = None \/ f2 = None \/ f3 = None \/ f4 = None -> mnistLoad F f1 f2 f3 f4 d = Ok (b, d') -> b = false /\ dHasTrain F d' = dHasTrain F d /\ dHasVal F d' = dHasVal F d.
Proof.
  intros f1 f2 f3 f4 d b d' H E. unfold mnistLoad in E.
  apply bind_inv in E. destruct E as ([o1 m1] & E1 & E). cbn [dTrain dTrainT dVal dValT dHasTrain dHasVal] in E. destruct o1; cbn [negb] in E; [|inversion E; subst; auto].
  apply bind_inv in E. destruct E as ([o2 m2] & E2 & E). cbn [dTrain dTrainT dVal dValT dHasTrain dHasVal] in E. destruct o2; cbn [negb] in E; [|inversion E; subst; auto].
  apply bind_inv in E. destruct E as ([o3 m3] & E3 & E). cbn [dTrain dTrainT dVal dValT dHasTrain dHasVal] in E. destruct o3; cbn [negb] in E; [|inversion E; subst; auto].
  apply bind_inv in E. destruct E as ([o4 m4] & E4 & E). cbn [dTrain dTrainT dVal dValT dHasTrain dHasVal] in E. destruct o4; cbn [negb] in E; [|inversion E; subst; auto].
  exfalso. destruct H as [-> | [-> | [-> | ->]]]; discriminate.
Qed.
End Reader.
