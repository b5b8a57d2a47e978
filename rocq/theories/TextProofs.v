(* TextProofs.v - reading and writing matrices as text *)
From Coq Require Import List Arith Bool Ascii Lia.
From Verif Require Import Base Scalar Mat SpecMat MatFacts MatProofs SpecText Text.
Import ListNotations.
Local Open Scope nat_scope.

(** * characters *)
Lemma char_facts : forall c q, isSpace c = true -> lexStep q c = None.
Proof. intros [[] [] [] [] [] [] [] []] q H; try discriminate; destruct q as [|d p| |]; reflexivity. Qed.
Lemma step_not_comma : forall c q q', lexStep q c = Some q' -> Ascii.eqb c ","%char = false.
Proof.
  intros c q q' H. destruct (Ascii.eqb_spec c ","%char) as [->|]; auto. destruct q as [|d p| |]; discriminate.
Qed.
Lemma step_not_nl : forall c q q', lexStep q c = Some q' -> Ascii.eqb c nl = false.
Proof. intros c q q' H. destruct (Ascii.eqb_spec c nl) as [->|]; auto. destruct q as [|d p| |]; discriminate. Qed.
Lemma step_not_space : forall c q q', lexStep q c = Some q' -> isSpace c = false.
Proof. intros c q q' H. destruct (isSpace c) eqn:E; auto. rewrite (char_facts c q E) in H. discriminate. Qed.
Fixpoint lexTo (q : lexState) (t : text) : option lexState := match t with [] => Some q | c :: t => match lexStep q c with Some q' => lexTo q' t | None => None end end.
Lemma lexTo_app : forall a b q, lexTo q (a ++ b) = match lexTo q a with Some q' => lexTo q' b | None => None end.
Proof. induction a as [|c a IH]; intros b q; cbn; auto. destruct (lexStep q c); auto. Qed.
Lemma lexRun_to : forall t q q' r, lexTo q t = Some q' -> (r = [] \/ exists b l, r = b :: l /\ isSpace b = true) -> lexRun q (t ++ r) = (t, r).
Proof.
  induction t as [|c t IH]; intros q q' r H Hr; cbn in *.
  - destruct Hr as [->|(b & l & -> & Hb)]; auto. cbn. rewrite char_facts by auto. reflexivity.
  - destruct (lexStep q c) eqn:E; [|discriminate]. rewrite (IH l q' r H Hr). reflexivity.
Qed.
Lemma digit_step : forall c, digitC c -> isDigit c = true /\ isSign c = false.
Proof. intros c H. repeat (destruct H as [<-|H]; [split; reflexivity|]). destruct H. Qed.
Lemma digits_mant : forall d p t, Forall digitC t -> lexTo (LMant d p) t = Some (LMant (d || negb (match t with [] => true | _ => false end)) p).
Proof.
  intros d p t. revert d. induction t as [|c t IH]; intros d H; cbn; [rewrite orb_false_r; auto|]. inversion H; subst. destruct (digit_step c H2) as [-> _]. rewrite IH by auto. cbn [orb negb]. rewrite orb_true_r. reflexivity.
Qed.
Lemma digits_exp : forall t, Forall digitC t -> lexTo LExp1 t = Some LExp1.
Proof. induction t as [|c t IH]; intros H; cbn; auto. inversion H; subst. destruct (digit_step c H2) as [-> _]. auto. Qed.
(* any numeral is accumulated entirely *)
Lemma numeral_lex : forall t, numeral t -> t <> [] /\ exists q, lexTo LStart t = Some q.
Proof.
  intros t (s & ip & fp & ex & -> & Hs & Hi & Hf & He).
  assert (Tail : forall p, exists q, lexTo (LMant true p) ex = Some q).
  { intro p. destruct He as [->|(e & s' & d & Ee & -> & Hs' & Hd & Nd)]; [eexists; reflexivity|]. exists LExp1.
    assert (E1 : lexStep (LMant true p) e = Some LExp0) by (destruct Ee as [->| ->]; reflexivity). cbn [lexTo]. rewrite E1, lexTo_app.
    destruct Hs' as [->|[->| ->]]; cbn [lexTo lexStep isSign]; [|cbn; apply digits_exp; auto|cbn; apply digits_exp; auto].
    destruct d as [|c d]; [congruence|]. inversion Hd; subst. destruct (digit_step c H1) as [D S]. cbn [lexTo lexStep]. rewrite S, D. apply digits_exp; auto. }
  (* after the sign and the integer part *)
  assert (Mid : forall d0, exists q, lexTo (LMant d0 false) (ip ++ fp ++ ex) = Some q).
  { intro d0. rewrite lexTo_app, digits_mant by auto. rewrite lexTo_app. destruct Hf as [[-> Ni]|(d & -> & Hd & Nd)].
    - destruct ip as [|c ip]; [congruence|]. cbn [negb]. rewrite orb_true_r. cbn [lexTo]. apply Tail.
    - cbn [lexTo lexStep]. change (isDigit ".") with false. cbv iota. change (Ascii.eqb "." ".") with true. cbv iota. rewrite digits_mant by auto.
      assert ((d0 || negb match ip with [] => true | _ => false end) || negb match d with [] => true | _ => false end = true) as ->.
      { destruct ip; [destruct d; [cbn in Nd; congruence|]|]; cbn [negb]; rewrite ?orb_true_r; auto. }
      apply Tail. }
  split.
  - intro E. apply app_eq_nil in E. destruct E as [_ E]. apply app_eq_nil in E. destruct E as [-> E]. apply app_eq_nil in E. destruct E as [-> _]. destruct Hf as [[_ Ni]|(d & E & _)]; [auto|discriminate].
  - destruct Hs as [->|[->| ->]]; [|apply Mid|apply Mid]. cbn [app]. destruct ip as [|c ip].
    + destruct Hf as [[_ Ni]|(d & -> & Hd & Nd)]; [congruence|]. cbn [app lexTo lexStep]. change (isSign ".") with false. change (isDigit ".") with false. change (Ascii.eqb "." ".") with true. cbv iota.
      rewrite lexTo_app, digits_mant by auto. destruct d; [cbn in Nd; congruence|]. cbn [orb negb]. apply Tail.
    + inversion Hi; subst. destruct (digit_step c H1) as [D S]. cbn [app lexTo lexStep]. rewrite S, D. destruct (Mid true) as [q Hq]. cbn [app lexTo lexStep] in Hq. rewrite D in Hq. eauto.
Qed.
Lemma lexTo_forall : forall t q q', lexTo q t = Some q' -> Forall (fun c => isSpace c = false /\ Ascii.eqb c "," = false /\ Ascii.eqb c nl = false) t.
Proof.
  induction t as [|c t IH]; intros q q' H; auto. cbn in H. destruct (lexStep q c) eqn:E; [|discriminate]. constructor; eauto. split; [eapply step_not_space; eauto|]. split; [eapply step_not_comma; eauto|eapply step_not_nl; eauto].
Qed.
Lemma skip_app : forall w r, Forall (fun c => isSpace c = true) w -> skipSpaces (w ++ r) = skipSpaces r.
Proof. induction w as [|c w IH]; intros r H; auto. inversion H; subst. cbn. rewrite H2. auto. Qed.
Lemma skip_tok : forall t r, t <> [] -> (exists q, lexTo LStart t = Some q) -> skipSpaces (t ++ r) = t ++ r.
Proof. intros [|c t] r N (q & H); [congruence|]. apply lexTo_forall in H. inversion H; subst. cbn. destruct H2 as [-> _]. reflexivity. Qed.

Section Text.
Variable F : FOps.
Notation M := (mat F).
Variable conv : text -> F * bool.
Variable ind : res F.
Definition number (t : text) (v : F) : Prop := numeral t /\ conv t = (v, true).
Notation isSp := (fun c => isSpace c = true).

Lemma extract_more : forall w t v b l, Forall isSp w -> number t v -> isSp b -> extract F conv (mkI (w ++ t ++ b :: l) false false) = (mkI (b :: l) false false, Some v).
Proof.
  intros w t v b l Hw (Ht & Hc) Hb. destruct (numeral_lex t Ht) as (N & q & Hq). unfold extract. cbn [iEof iFail iLeft orb]. rewrite skip_app by auto. rewrite skip_tok by eauto.
  destruct (t ++ b :: l) as [|x y] eqn:E; [destruct t; discriminate|]. rewrite <- E. rewrite (lexRun_to t LStart q (b :: l) Hq) by eauto. rewrite Hc. reflexivity.
Qed.
Lemma extract_last : forall w t v, Forall isSp w -> number t v -> extract F conv (mkI (w ++ t) false false) = (mkI [] true false, Some v).
Proof.
  intros w t v Hw (Ht & Hc). destruct (numeral_lex t Ht) as (N & q & Hq). unfold extract. cbn [iEof iFail iLeft orb]. rewrite skip_app by auto. pose proof (skip_tok t [] N (ex_intro _ q Hq)) as E0. rewrite app_nil_r in E0. rewrite E0.
  destruct t as [|x y] eqn:E; [congruence|]. rewrite <- E in *. pose proof (lexRun_to t LStart q [] Hq (or_introl eq_refl)) as Q. rewrite app_nil_r in Q. rewrite Q, Hc. reflexivity.
Qed.
Lemma extract_blank : forall w, Forall isSp w -> extract F conv (mkI w false false) = (mkI [] true true, None).
Proof. intros w Hw. unfold extract. cbn [iEof iFail iLeft orb]. pose proof (skip_app w [] Hw) as E. rewrite app_nil_r in E. rewrite E. reflexivity. Qed.
Lemma readAll_eof : forall fuel l b vf, readAll F conv ind fuel (mkI l true b) vf = Ok vf.
Proof. intros. destruct fuel; reflexivity. Qed.
Lemma readAll_numbers : forall l vs, numbers number isSp l vs -> forall fuel vf, length vs <= fuel -> readAll F conv ind fuel (mkI l false false) vf = Ok (vf ++ vs).
Proof.
  intros l vs H. induction H as [w t v Hw Hn|w t v b l vs Hw Hn Hb Hl IH]; intros fuel vf Hf; (destruct fuel as [|fuel]; [cbn in Hf; lia|]); cbn [readAll iEof].
  - rewrite (extract_last w t v) by auto. cbn [bind]. apply readAll_eof.
  - rewrite (extract_more w t v b l) by auto. cbn [bind].
    assert (E : readAll F conv ind fuel (mkI (b :: l) false false) (vf ++ [v]) = readAll F conv ind fuel (mkI l false false) (vf ++ [v])).
    { destruct fuel as [|fuel]; [reflexivity|]. cbn [readAll iEof]. unfold extract. cbn [iEof iFail iLeft orb skipSpaces]. rewrite Hb. reflexivity. }
    rewrite E, IH by (cbn in Hf; lia). rewrite <- app_assoc. reflexivity.
Qed.
Lemma readAll_trail : forall l vs b w, numbers number isSp l vs -> isSp b -> Forall isSp w -> forall fuel vf, length vs < fuel ->
  readAll F conv ind fuel (mkI (l ++ b :: w) false false) vf = (x <- ind ;; Ok (vf ++ vs ++ [x])).
Proof.
  intros l vs b w H Hb Hw. induction H as [w0 t v Hw0 Hn|w0 t v b0 l vs Hw0 Hn Hb0 Hl IH]; intros fuel vf Hf; (destruct fuel as [|fuel]; [cbn in Hf; lia|]); cbn [readAll iEof].
  - rewrite <- app_assoc. rewrite (extract_more w0 t v b w) by auto. cbn [bind]. destruct fuel as [|fuel]; [cbn in Hf; lia|]. cbn [readAll iEof].
    rewrite extract_blank by (constructor; auto). destruct ind as [x|e] eqn:Ei; cbn [bind]; auto. rewrite <- Ei. rewrite readAll_eof. rewrite <- app_assoc. reflexivity.
  - rewrite <- !app_assoc. cbn [app]. rewrite (extract_more w0 t v b0 (l ++ b :: w)) by auto. cbn [bind].
    assert (E : readAll F conv ind fuel (mkI (b0 :: l ++ b :: w) false false) (vf ++ [v]) = readAll F conv ind fuel (mkI (l ++ b :: w) false false) (vf ++ [v])).
    { destruct fuel as [|fuel]; [reflexivity|]. cbn [readAll iEof]. unfold extract. cbn [iEof iFail iLeft orb skipSpaces]. rewrite Hb0. reflexivity. }
    rewrite E, IH by (cbn in Hf; lia). destruct ind; cbn [bind]; auto. rewrite <- !app_assoc. reflexivity.
Qed.
(* a word that is no number: the loop never ends *)
Lemma readAll_stuck : forall fuel l vf x, readAll F conv (Ok x) fuel (mkI l false true) vf = Err EFuel.
Proof. intros fuel l. induction fuel as [|fuel IH]; intros vf x; [reflexivity|]. cbn [readAll iEof]. unfold extract. cbn [iEof iFail iLeft orb bind]. apply IH. Qed.

(** * std::copy into the matrix *)
Lemma copy_fits : forall r c vf d, length d = r * c -> length vf = r * c -> copyAll F vf (mkMat r c d) = Ok (mkMat r c vf).
Proof.
  intros r c vf d Ld Lv. unfold copyAll. cbn [mdata mrows mcols].
  destruct (@forN_inv _ (fun i e => length e = length vf /\ forall k, nth_error e k = if k <? i then nth_error vf k else nth_error d k) (length vf) (fun i d => x <- rget vf i ;; rset d i x) d) as (e & E & Le & He).
  - split; [congruence|]. intro k. reflexivity.
  - intros i e Hi [Le He]. unfold rget. destruct (nth_error vf i) as [x|] eqn:Ex; [|apply nth_error_None in Ex; lia]. cbn [bind]. unfold rset. replace (i <? length e) with true by (symmetry; apply Nat.ltb_lt; lia).
    eexists. split; [reflexivity|]. rewrite length_upd. split; auto. intro k. rewrite nth_error_upd. replace (i <? length e) with true by (symmetry; apply Nat.ltb_lt; lia). rewrite andb_true_r, He.
    destruct (Nat.eqb_spec i k); [subst; replace (k <? S k) with true by (symmetry; apply Nat.ltb_lt; lia); auto|]. destruct (Nat.ltb_spec k i), (Nat.ltb_spec k (S i)); auto; lia.
  - rewrite E. cbn [bind]. f_equal. f_equal. apply list_ext. intro k. rewrite He. destruct (Nat.ltb_spec k (length vf)) as [Q|Q]; auto.
    assert (nth_error d k = None) as -> by (apply nth_error_None; lia). symmetry. apply nth_error_None. auto.
Qed.
Lemma copy_over : forall vf m, length (mdata m) < length vf -> copyAll F vf m = Err EOob.
Proof.
  intros vf m H. unfold copyAll. replace (forN (length vf) (fun i d => x <- rget vf i ;; rset d i x) (mdata m)) with (Err EOob : res (list F)); [reflexivity|]. symmetry.
  unfold forN. replace (length vf) with (length (mdata m) + (1 + (length vf - length (mdata m) - 1))) by lia. rewrite seq_app, forL_app.
  destruct (@forN_inv _ (fun i e => length e = length (mdata m)) (length (mdata m)) (fun i d => x <- rget vf i ;; rset d i x) (mdata m) eq_refl) as (e & E & Le).
  { intros i e Hi Le. unfold rget. destruct (nth_error vf i) as [x|] eqn:Ex; [|apply nth_error_None in Ex; lia]. cbn [bind]. unfold rset. rewrite Le. replace (i <? length (mdata m)) with true by (symmetry; apply Nat.ltb_lt; lia). eexists. split; [reflexivity|]. rewrite length_upd. auto. }
  unfold forN in E. rewrite E. cbn [bind]. cbn. unfold rget. destruct (nth_error vf (length (mdata m))) as [x|] eqn:Ex; [|apply nth_error_None in Ex; lia]. cbn [bind]. unfold rset.
  rewrite Le, Nat.ltb_irrefl. reflexivity.
Qed.
Lemma malloc_len : forall r c, length (mdata (malloc F r c)) = r * c.
Proof. intros. cbn. apply repeat_length. Qed.
Lemma copy_new : forall vf n m, n <> 0 -> length (mdata m) = n * (length vf / n) -> mrows m * mcols m = n * (length vf / n) ->
  copyAll F vf m = if length vf mod n =? 0 then Ok (mkMat (mrows m) (mcols m) vf) else Err EOob.
Proof.
  intros vf n m N L S. pose proof (Nat.div_mod (length vf) n N) as D. destruct (Nat.eqb_spec (length vf mod n) 0) as [Z|Z].
  - destruct m as [r c d]. cbn [mdata mrows mcols] in *. apply copy_fits; lia.
  - apply copy_over. lia.
Qed.

(** * fromString *)
Lemma fromString_values : forall fuel s vs, readAll F conv ind fuel (mkI s false false) [] = Ok vs ->
  fromString F conv ind fuel s = let k := countNl s + 1 in if length vs mod k =? 0 then Ok (mkMat (length vs / k) k vs) else Err EOob.
Proof.
  intros fuel s vs E. unfold fromString. rewrite E. cbn [bind]. cbv zeta. set (k := countNl s + 1). assert (Nk : k <> 0) by (unfold k; lia).
  rewrite (copy_new vs k); auto.
  - assert (Sh : mrows (mresize F (mempty F) (length vs / k) k) = length vs / k /\ mcols (mresize F (mempty F) (length vs / k) k) = k).
    { unfold mresize. cbn [mcols mrows mempty]. destruct (Nat.eqb_spec k 0); [lia|]. cbn [andb]. destruct (_ =? _); auto. }
    destruct Sh as [-> ->]. reflexivity.
  - unfold mresize. cbn [mcols mrows mempty]. destruct (Nat.eqb_spec k 0); [lia|]. cbn [andb]. destruct (Nat.eqb_spec (length vs / k * k) (msize (mempty F))) as [Q|Q]; [cbn in Q |- *; lia|]. rewrite malloc_len. lia.
  - unfold mresize. cbn [mcols mrows mempty]. destruct (Nat.eqb_spec k 0); [lia|]. cbn [andb]. destruct (Nat.eqb_spec (length vs / k * k) (msize (mempty F))); cbn [mrows mcols malloc]; lia.
Qed.
Theorem fromString_text : forall fuel s vs, numbers number isSp s vs -> length vs <= fuel ->
  fromString F conv ind fuel s = let k := countNl s + 1 in if length vs mod k =? 0 then Ok (mkMat (length vs / k) k vs) else Err EOob.
Proof. intros fuel s vs H Hf. apply fromString_values. rewrite (readAll_numbers s vs H fuel []) by auto. reflexivity. Qed.
Theorem fromString_trailing : forall fuel s b w vs x, numbers number isSp s vs -> isSp b -> Forall isSp w -> length vs < fuel ->
  (ind = Err EUninit -> fromString F conv ind fuel (s ++ b :: w) = Err EUninit) /\
  (ind = Ok x -> fromString F conv ind fuel (s ++ b :: w) = let k := countNl (s ++ b :: w) + 1 in if (length vs + 1) mod k =? 0 then Ok (mkMat ((length vs + 1) / k) k (vs ++ [x])) else Err EOob).
Proof.
  intros fuel s b w vs x H Hb Hw Hf. pose proof (readAll_trail s vs b w H Hb Hw fuel [] Hf) as E. split; intro Hi.
  - unfold fromString. rewrite E, Hi. reflexivity.
  - rewrite Hi in E at 2. cbn [bind app] in E. rewrite (fromString_values _ _ _ E), app_length. reflexivity.
Qed.

(** * lines *)
Definition plain (l : text) : Prop := Forall (fun c => Ascii.eqb c nl = false) l.
Lemma pieces_ne : forall s, pieces s <> [].
Proof. destruct s as [|c s]; cbn; [discriminate|]. destruct (Ascii.eqb c nl); [discriminate|]. destruct (pieces s); discriminate. Qed.
Lemma pieces_cons : forall l s, plain l -> pieces (l ++ nl :: s) = l :: pieces s.
Proof. induction l as [|c l IH]; intros s H; cbn; [auto|]. inversion H; subst. rewrite H2, IH by auto. reflexivity. Qed.
Lemma pieces_file : forall ls, Forall plain ls -> pieces (fileOf ls) = ls ++ [[]].
Proof. induction ls as [|l ls IH]; intro H; [reflexivity|]. inversion H; subst. change (fileOf (l :: ls)) with ((l ++ [newline]) ++ fileOf ls). rewrite <- app_assoc. cbn [app]. change newline with nl. rewrite pieces_cons by auto. rewrite IH by auto. reflexivity. Qed.
Lemma pieces_one : forall l, plain l -> pieces l = [l].
Proof. induction l as [|c l IH]; intro H; [reflexivity|]. inversion H; subst. cbn. rewrite H2, IH by auto. reflexivity. Qed.
Lemma pieces_joined : forall ls, Forall plain ls -> ls <> [] -> pieces (joined ls) = ls.
Proof.
  induction ls as [|l ls IH]; intros H N; [congruence|]. inversion H; subst. destruct ls as [|l2 ls]; [apply pieces_one; auto|]. cbn [joined]. change newline with nl. rewrite pieces_cons by auto. f_equal. apply IH; auto. discriminate.
Qed.
Lemma countNl_plain : forall l r, plain l -> countNl (l ++ r) = countNl r.
Proof. induction l as [|c l IH]; intros r H; auto. inversion H; subst. cbn. rewrite H2. apply IH. auto. Qed.
Lemma countNl_joined : forall ls, Forall plain ls -> ls <> [] -> countNl (joined ls) + 1 = length ls.
Proof.
  induction ls as [|l ls IH]; intros H N; [congruence|]. inversion H; subst. destruct ls as [|l2 ls].
  - pose proof (countNl_plain l [] H2) as Q. rewrite app_nil_r in Q. cbn [joined]. rewrite Q. reflexivity.
  - change (joined (l :: l2 :: ls)) with (l ++ newline :: joined (l2 :: ls)). rewrite countNl_plain by auto. cbn [countNl]. change (Ascii.eqb newline nl) with true. cbv iota. specialize (IH H3 ltac:(discriminate)). cbn [length] in *. lia.
Qed.

(* a line: numbers separated by blanks or commas *)
Lemma numeral_plain : forall t, numeral t -> plain t /\ noCommas t = t /\ t <> [].
Proof.
  intros t H. destruct (numeral_lex t H) as (N & q & Hq). apply lexTo_forall in Hq. split; [|split; auto].
  - unfold plain. eapply Forall_impl; [|exact Hq]. intros c (_ & _ & Q). auto.
  - clear N H. induction Hq as [|c t (_ & Hc & _) Ht IH]; auto. cbn [noCommas map]. fold (noCommas t). rewrite Hc, IH. reflexivity.
Qed.
Lemma sep_space : forall c, sepLine c -> isSp (if Ascii.eqb c "," then " " else c)%char /\ Ascii.eqb c nl = false.
Proof. intros c [H| ->]; [|split; reflexivity]. destruct H as [->|[->|[->|[->| ->]]]]; split; reflexivity. Qed.
Lemma seps_spaces : forall w, Forall sepLine w -> Forall isSp (noCommas w) /\ plain w.
Proof. induction 1 as [|c w Hc Hw [A B]]; [split; constructor|]. destruct (sep_space c Hc). split; constructor; auto. Qed.
Lemma noCommas_app : forall a b, noCommas (a ++ b) = noCommas a ++ noCommas b.
Proof. intros. unfold noCommas. apply map_app. Qed.
Lemma line_numbers : forall l vs, numbers number sepLine l vs -> numbers number isSp (noCommas l) vs /\ plain l /\ l <> [].
Proof.
  intros l vs H. induction H as [w t v Hw (Ht & Hc)|w t v b l vs Hw (Ht & Hc) Hb Hl (IH & Pl & Nl)].
  - destruct (seps_spaces w Hw) as [A B]. destruct (numeral_plain t Ht) as (C & D & E). rewrite noCommas_app, D. split; [constructor; [auto|split; auto]|]. split; [apply Forall_app; auto|]. intro Q. apply app_eq_nil in Q. tauto.
  - destruct (seps_spaces w Hw) as [A B]. destruct (numeral_plain t Ht) as (C & D & E). destruct (sep_space b Hb) as [Sb Nb]. rewrite !noCommas_app, D. cbn [noCommas map]. fold (noCommas l). split; [constructor; auto; split; auto|].
    split; [apply Forall_app; split; auto; apply Forall_app; split; auto; constructor; auto|]. intro Q. apply app_eq_nil in Q. destruct Q as [_ Q]. apply app_eq_nil in Q. tauto.
Qed.

(** * fromFile *)
Definition lineStep (fuel : nat) (l : text) (st : nat * list F) : res (nat * list F) :=
  let '(n, vf) := st in match l with [] => Ok (n, vf) | _ => vf <- readAll F conv ind fuel (mkI (noCommas l) false false) vf ;; Ok (S n, vf) end.
Lemma lines_read : forall fuel (g : list F -> list F) ls vss n vf, Forall2 (fun l vs => l <> [] /\ forall vf, readAll F conv ind fuel (mkI (noCommas l) false false) vf = Ok (vf ++ g vs)) ls vss ->
  forL ls (lineStep fuel) (n, vf) = Ok (n + length ls, vf ++ flat_map g vss).
Proof.
  intros fuel g ls vss n vf H. revert n vf. induction H as [|l vs ls vss (Nl & Hl) H IH]; intros n vf; cbn [forL].
  - rewrite Nat.add_0_r, app_nil_r. reflexivity.
  - unfold lineStep at 1. destruct l as [|c l]; [congruence|]. rewrite Hl. cbn [bind]. rewrite IH. cbn [length flat_map]. rewrite <- app_assoc. f_equal. f_equal. lia.
Qed.
Lemma fromFile_lines : forall fuel (g : list F -> list F) s ls vss tail, pieces s = ls ++ tail -> (tail = [] \/ tail = [[]]) -> ls <> [] ->
  Forall2 (fun l vs => l <> [] /\ forall vf, readAll F conv ind fuel (mkI (noCommas l) false false) vf = Ok (vf ++ g vs)) ls vss ->
  fromFile F conv ind fuel (Some s) = let k := length ls in let vf := flat_map g vss in if length vf mod k =? 0 then Ok (mkMat k (length vf / k) vf) else Err EOob.
Proof.
  intros fuel g s ls vss tail Hp Ht N H. unfold fromFile. rewrite Hp. change (forL (ls ++ tail) _ (0, [])) with (forL (ls ++ tail) (lineStep fuel) (0, [])). rewrite forL_app, (lines_read fuel g ls vss) by auto. cbn [bind].
  assert (E : forL tail (lineStep fuel) (0 + length ls, [] ++ flat_map g vss) = Ok (length ls, flat_map g vss)) by (destruct Ht as [->| ->]; reflexivity). rewrite E. cbn [bind]. cbv zeta.
  destruct (Nat.eqb_spec (length ls) 0) as [Z|Z]; [destruct ls; [congruence|discriminate]|]. rewrite (copy_new _ (length ls)); auto. apply malloc_len.
Qed.
(* a file of lines of numbers: one row per line if the lines have the same number of values *)
Theorem fromFile_rect : forall fuel ls vss c, ls <> [] -> c <= fuel -> Forall2 (fun l vs => numbers number sepLine l vs /\ length vs = c) ls vss ->
  fromFile F conv ind fuel (Some (fileOf ls)) = Ok (mkMat (length ls) c (concat vss)) /\ fromFile F conv ind fuel (Some (joined ls)) = Ok (mkMat (length ls) c (concat vss)).
Proof.
  intros fuel ls vss c N Hf H.
  assert (P : Forall plain ls). { clear N. induction H as [|l vs ls vss (Hl & _) H IH]; constructor; auto. apply (line_numbers l vs Hl). }
  assert (R : Forall2 (fun l vs => l <> [] /\ forall vf, readAll F conv ind fuel (mkI (noCommas l) false false) vf = Ok (vf ++ vs)) ls vss).
  { clear N P. induction H as [|l vs ls vss (Hl & Lc) H IH]; constructor; auto. destruct (line_numbers l vs Hl) as (A & _ & B). split; auto. intro vf. apply readAll_numbers; auto. lia. }
  assert (L : length (flat_map (fun x => x) vss) = length ls * c). { clear N P R. induction H as [|l vs ls vss (_ & Lc) H IH]; auto. cbn. rewrite app_length, IH. lia. }
  assert (E : flat_map (fun x : list F => x) vss = concat vss) by (rewrite flat_map_concat_map, map_id; reflexivity).
  assert (Nl : length ls <> 0) by (destruct ls; [congruence|discriminate]).
  split; [rewrite (fromFile_lines fuel (fun x => x) _ ls vss [[]])|rewrite (fromFile_lines fuel (fun x => x) _ ls vss [])]; auto; try (apply pieces_file; auto); try (rewrite app_nil_r; apply pieces_joined; auto);
    cbv zeta; rewrite L, (Nat.mul_comm (length ls)), Nat.mod_mul, Nat.div_mul, E by auto; reflexivity.
Qed.
Theorem fromFile_ragged : forall fuel ls vss, ls <> [] -> Forall2 (fun l vs => numbers number sepLine l vs /\ length vs <= fuel) ls vss -> length (concat vss) mod length ls <> 0 ->
  fromFile F conv ind fuel (Some (fileOf ls)) = Err EOob.
Proof.
  intros fuel ls vss N H Hm. assert (P : Forall plain ls). { clear N Hm. induction H as [|l vs ls vss (Hl & _) H IH]; constructor; auto. apply (line_numbers l vs Hl). }
  rewrite (fromFile_lines fuel (fun x => x) _ ls vss [[]]); auto; [|apply pieces_file; auto|].
  - cbv zeta. rewrite flat_map_concat_map, map_id. destruct (Nat.eqb_spec (length (concat vss) mod length ls) 0); [lia|auto].
  - clear N P Hm. induction H as [|l vs ls vss (Hl & Lc) H IH]; constructor; auto. destruct (line_numbers l vs Hl) as (A & _ & B). split; auto. intro vf. apply readAll_numbers; auto.
Qed.
Theorem fromFile_missing : forall fuel, fromFile F conv ind fuel None = Ok (mempty F).
Proof. reflexivity. Qed.

(** * toFile, then fromFile *)
Section Round.
Variable show : F -> text.
Variable printed : F -> F.
Hypothesis show_ok : forall x, number (show x) (printed x).
Definition fileRow (c : nat) (f : nat -> F) : text := flat_map (fun j => show (f j) ++ [" "%char]) (seq 0 c).
Lemma toFile_gen : forall r c f, toFile F show (mgen r c f) = Ok (fileOf (map (fun i => fileRow c (f i)) (seq 0 r))).
Proof.
  intros r c f. unfold toFile. change (mrows (mgen r c f)) with r. change (mcols (mgen r c f)) with c.
  destruct (@forN_inv _ (fun i o => o = fileOf (map (fun i => fileRow c (f i)) (seq 0 i))) r
    (fun i o => o <- forN c (fun j o => x <- mget2 (mgen r c f) i j ;; Ok (o ++ show x ++ [" "%char])) o ;; Ok (o ++ [nl])) []) as (o & E & ->); auto.
  intros i o Hi ->. set (o0 := fileOf (map (fun i => fileRow c (f i)) (seq 0 i))).
  destruct (@forN_inv _ (fun j o => o = o0 ++ flat_map (fun j => show (f i j) ++ [" "%char]) (seq 0 j)) c (fun j o => x <- mget2 (mgen r c f) i j ;; Ok (o ++ show x ++ [" "%char])) o0) as (o1 & E1 & ->).
  - rewrite app_nil_r. reflexivity.
  - intros j o1 Hj ->. rewrite mget2_gen by auto. cbn [bind]. eexists. split; [reflexivity|]. rewrite seq_S, flat_map_app. cbn [flat_map Nat.add]. rewrite app_nil_r, <- app_assoc. reflexivity.
  - rewrite E1. cbn [bind]. eexists. split; [reflexivity|]. rewrite seq_S, map_app. unfold fileOf at 1. rewrite flat_map_app. cbn [map flat_map Nat.add]. rewrite app_nil_r. fold (fileOf (map (fun i => fileRow c (f i)) (seq 0 i))). fold o0. unfold fileRow.
    change newline with nl. rewrite <- app_assoc. reflexivity.
Qed.
Lemma row_trail : forall c f, 1 <= c -> exists l, fileRow c f = l ++ [" "%char] /\ numbers number isSp l (map (fun j => printed (f j)) (seq 0 c)) /\ plain (fileRow c f) /\ noCommas (fileRow c f) = fileRow c f.
Proof.
  intros c f Hc. unfold fileRow.
  assert (G : forall n s, exists l, flat_map (fun j => show (f j) ++ [" "%char]) (seq s (S n)) = l ++ [" "%char] /\ numbers number isSp l (map (fun j => printed (f j)) (seq s (S n)))).
  { induction n as [|n IH]; intro s.
    - exists (show (f s)). cbn. rewrite app_nil_r. split; auto. apply (nums_last number isSp [] (show (f s))); auto.
    - destruct (IH (S s)) as (l & E & Hl). exists (show (f s) ++ " "%char :: l). cbn [seq flat_map] in *. rewrite E. split; [rewrite <- !app_assoc; reflexivity|].
      apply (nums_more number isSp [] (show (f s)) (printed (f s)) " "%char l); auto. }
  destruct c as [|n]; [lia|]. destruct (G n 0) as (l & E & Hl). exists l. split; auto. split; auto.
  assert (P : forall s n, plain (flat_map (fun j => show (f j) ++ [" "%char]) (seq s n)) /\ noCommas (flat_map (fun j => show (f j) ++ [" "%char]) (seq s n)) = flat_map (fun j => show (f j) ++ [" "%char]) (seq s n)).
  { intros s m. revert s. induction m as [|m IH]; intro s; [split; [constructor|reflexivity]|]. cbn [seq flat_map]. destruct (IH (S s)) as [A B]. destruct (show_ok (f s)) as [Hn _]. destruct (numeral_plain _ Hn) as (C & D & _).
    split; [apply Forall_app; split; auto; apply Forall_app; split; auto; constructor; auto|]. rewrite !noCommas_app, B, D. reflexivity. }
  apply P.
Qed.
Theorem round_trip : forall r c f fuel x, 1 <= r -> 1 <= c -> c < fuel -> exists s, toFile F show (mgen r c f) = Ok s /\
  (ind = Err EUninit -> fromFile F conv ind fuel (Some s) = Err EUninit) /\
  (ind = Ok x -> fromFile F conv ind fuel (Some s) = Ok (mgen r (c + 1) (fun i j => if j <? c then printed (f i j) else x))).
Proof.
  intros r c f fuel x Hr Hc Hf. eexists. split; [apply toFile_gen|].
  assert (Pl : Forall plain (map (fun i => fileRow c (f i)) (seq 0 r))) by (apply Forall_map; apply Forall_forall; intros i _; destruct (row_trail c (f i) Hc) as (l & _ & _ & P & _); auto).
  assert (Rd : forall i vf, readAll F conv ind fuel (mkI (noCommas (fileRow c (f i))) false false) vf = (y <- ind ;; Ok (vf ++ map (fun j => printed (f i j)) (seq 0 c) ++ [y]))).
  { intros i vf. destruct (row_trail c (f i) Hc) as (l & E & Hl & _ & Nc). rewrite Nc, E. apply readAll_trail; auto. rewrite map_length, seq_length. auto. }
  assert (Ne : forall i, fileRow c (f i) <> []) by (intros i Q; destruct (row_trail c (f i) Hc) as (l & E & _); rewrite Q in E; destruct l; discriminate).
  split; intro Hi.
  - unfold fromFile. rewrite pieces_file by auto. change (forL ?l _ (0, [])) with (forL l (lineStep fuel) (0, [])). destruct r as [|r]; [lia|]. cbn [seq map app forL]. unfold lineStep at 1. destruct (fileRow c (f 0)) eqn:E0; [exfalso; apply (Ne 0); auto|].
    rewrite <- E0, Rd, Hi. reflexivity.
  - rewrite (fromFile_lines fuel (fun vs => vs ++ [x]) _ (map (fun i => fileRow c (f i)) (seq 0 r)) (map (fun i => map (fun j => printed (f i j)) (seq 0 c)) (seq 0 r)) [[]]).
    + cbv zeta. rewrite map_length, seq_length. set (vf := flat_map _ _).
      assert (Lf : forall s, length (flat_map (fun vs => vs ++ [x]) (map (fun i => map (fun j => printed (f i j)) (seq 0 c)) (seq s r))) = r * (c + 1)).
      { clear. intro s. revert s. induction r as [|r IH]; intro s; auto. cbn [seq map flat_map]. rewrite app_length, IH, app_length, map_length, seq_length. cbn [length]. lia. }
      unfold vf. rewrite Lf, (Nat.mul_comm r), Nat.mod_mul, Nat.div_mul by lia. cbn [Nat.eqb]. apply f_equal. unfold mgen. f_equal.
      rewrite !flat_map_concat_map, map_map. f_equal. apply map_ext. intro i. rewrite seq_app, map_app. cbn [Nat.add seq map]. f_equal.
      * apply map_ext_in. intros j Hj. apply in_seq in Hj. replace (j <? c) with true by (symmetry; apply Nat.ltb_lt; lia). reflexivity.
      * rewrite Nat.ltb_irrefl. reflexivity.
    + apply pieces_file; auto.
    + right. auto.
    + destruct r; [lia|]. discriminate.
    + clear Pl. generalize (seq 0 r) as is. induction is as [|i is IH]; [constructor|]. cbn [map]. constructor; [|apply IH]. split; [apply Ne|]. intro vf. rewrite Rd, Hi. reflexivity.
Qed.
(* toString separates the rows by newlines and ends each with a blank *)
Lemma toString_gen : forall r c f, 1 <= r -> toString F show (mgen r c f) = Ok (joined (map (fun i => fileRow c (f i)) (seq 0 r))).
Proof.
  intros r c f Hr. unfold toString. change (mrows (mgen r c f)) with r. change (mcols (mgen r c f)) with c.
  assert (J : forall (l : text) ls, ls <> [] -> joined (ls ++ [l]) = joined ls ++ newline :: l).
  { intros l ls. induction ls as [|a ls IH]; intro N; [congruence|]. destruct ls as [|b ls]; [reflexivity|]. change (joined ((a :: b :: ls) ++ [l])) with (a ++ newline :: joined ((b :: ls) ++ [l])). rewrite IH by discriminate.
    change (joined (a :: b :: ls)) with (a ++ newline :: joined (b :: ls)). rewrite <- app_assoc. reflexivity. }
  destruct (@forN_inv _ (fun i o => o = joined (map (fun i => fileRow c (f i)) (seq 0 i)) ++ if (0 <? i) && (i <? r) then [nl] else []) r
    (fun i o => o <- forN c (fun j o => x <- mget2 (mgen r c f) i j ;; Ok (o ++ show x ++ [" "%char])) o ;; Ok (if i + 1 <? r then o ++ [nl] else o)) []) as (o & E & ->).
  - reflexivity.
  - intros i o Hi ->. set (o0 := _ ++ _).
    destruct (@forN_inv _ (fun j o => o = o0 ++ flat_map (fun j => show (f i j) ++ [" "%char]) (seq 0 j)) c (fun j o => x <- mget2 (mgen r c f) i j ;; Ok (o ++ show x ++ [" "%char])) o0) as (o1 & E1 & ->).
    + rewrite app_nil_r. reflexivity.
    + intros j o1 Hj ->. rewrite mget2_gen by auto. cbn [bind]. eexists. split; [reflexivity|]. rewrite seq_S, flat_map_app. cbn [flat_map Nat.add]. rewrite app_nil_r, <- app_assoc. reflexivity.
    + rewrite E1. cbn [bind]. eexists. split; [reflexivity|]. rewrite seq_S, map_app. cbn [map Nat.add]. change (flat_map _ (seq 0 c)) with (fileRow c (f i)).
      assert (E0 : joined (map (fun i => fileRow c (f i)) (seq 0 i) ++ [fileRow c (f i)]) = o0 ++ fileRow c (f i)).
      { unfold o0. destruct i as [|i]; [reflexivity|]. rewrite J by discriminate. replace (S i <? r) with true by (symmetry; apply Nat.ltb_lt; auto). cbn [Nat.ltb Nat.leb andb]. rewrite <- app_assoc. reflexivity. }
      rewrite E0. replace (i + 1) with (S i) by lia. replace (0 <? S i) with true by reflexivity. cbn [andb]. destruct (S i <? r); rewrite ?app_nil_r; reflexivity.
  - rewrite E, Nat.ltb_irrefl, andb_false_r, app_nil_r. reflexivity.
Qed.
Lemma numbers_join : forall l vs b l2 vs2, numbers number isSp l vs -> isSp b -> numbers number isSp l2 vs2 -> numbers number isSp (l ++ b :: l2) (vs ++ vs2).
Proof.
  intros l vs b l2 vs2 H Hb H2. induction H as [w t v Hw Hn|w t v b0 l vs Hw Hn Hb0 Hl IH].
  - rewrite <- app_assoc. cbn [app]. apply nums_more; auto.
  - rewrite <- !app_assoc. cbn [app]. apply nums_more; auto.
Qed.
Lemma numbers_blank : forall l vs b, numbers number isSp l vs -> isSp b -> numbers number isSp (b :: l) vs.
Proof. intros l vs b H Hb. destruct H as [w t v Hw Hn|w t v b0 l vs Hw Hn Hb0 Hl]; [apply (nums_last number isSp (b :: w) t)|apply (nums_more number isSp (b :: w) t v b0 l vs)]; auto. Qed.
Theorem string_round_trip : forall r c f fuel, 1 <= r -> 1 <= c -> r * c < fuel -> ind = Err EUninit -> exists s, toString F show (mgen r c f) = Ok s /\ fromString F conv ind fuel s = Err EUninit.
Proof.
  intros r c f fuel Hr Hc Hf Hi. eexists. split; [apply toString_gen; auto|].
  assert (G : forall n s, exists l, joined (map (fun i => fileRow c (f i)) (seq s (S n))) = l ++ [" "%char] /\ exists vs, numbers number isSp l vs /\ length vs = S n * c).
  { induction n as [|n IH]; intro s.
    - destruct (row_trail c (f s) Hc) as (l & E & Hl & _). exists l. split; auto. eexists. split; eauto. rewrite map_length, seq_length. lia.
    - destruct (IH (S s)) as (l2 & E2 & vs2 & H2 & L2). destruct (row_trail c (f s) Hc) as (l & E & Hl & _). exists (l ++ " "%char :: nl :: l2).
      change (joined (map (fun i => fileRow c (f i)) (seq s (S (S n))))) with (fileRow c (f s) ++ newline :: joined (map (fun i => fileRow c (f i)) (seq (S s) (S n)))). rewrite E2, E. split; [rewrite <- !app_assoc; reflexivity|].
      exists (map (fun j => printed (f s j)) (seq 0 c) ++ vs2). split; [apply numbers_join; auto; apply numbers_blank; auto|]. rewrite app_length, map_length, seq_length, L2. lia. }
  destruct r as [|r]; [lia|]. destruct (G r 0) as (l & E & vs & Hl & Lv). rewrite E. apply (fromString_trailing fuel l " "%char [] vs (fst (conv []))); auto. lia.
Qed.
End Round.

(** * one line per row? *)
Lemma blank_space : forall c, blankC c -> isSp c /\ sepLine c.
Proof. intros c H. split; [|left; auto]. destruct H as [->|[->|[->|[->| ->]]]]; reflexivity. Qed.
Lemma numbers_sub : forall (p q : ascii -> Prop) l vs, (forall c, p c -> q c) -> numbers number p l vs -> numbers number q l vs.
Proof. intros p q l vs S H. induction H as [w t v Hw Hn|w t v b l vs Hw Hn Hb Hl IH]; constructor; auto; eapply Forall_impl; eauto. Qed.
Lemma lines_joined : forall ls vss, ls <> [] -> Forall2 (fun l vs => numbers number blankC l vs) ls vss -> numbers number isSp (joined ls) (concat vss) /\ Forall plain ls.
Proof.
  intros ls vss N H. induction H as [|l vs ls vss Hl H IH]; [congruence|].
  assert (Pl : plain l) by (apply (line_numbers l vs); apply (numbers_sub blankC); auto; intros c Hc; apply blank_space; auto).
  assert (Sl : numbers number isSp l vs) by (apply (numbers_sub blankC); auto; intros c Hc; apply blank_space; auto).
  destruct H as [|l2 vs2 ls vss Hl2 H].
  - cbn [concat joined]. rewrite app_nil_r. auto.
  - destruct IH as [A B]; [discriminate|]. change (joined (l :: l2 :: ls)) with (l ++ newline :: joined (l2 :: ls)). cbn [concat] in *. split; auto. apply numbers_join; auto.
Qed.
Theorem fromString_rect : forall fuel ls vss c, ls <> [] -> Forall2 (fun l vs => numbers number blankC l vs /\ length vs = c) ls vss -> length ls * c <= fuel ->
  fromString F conv ind fuel (joined ls) = Ok (mkMat c (length ls) (concat vss)).
Proof.
  intros fuel ls vss c N H Hf.
  assert (H1 : Forall2 (fun l vs => numbers number blankC l vs) ls vss) by (clear N Hf; induction H as [|? ? ? ? (? & ?)]; constructor; auto).
  assert (L : length (concat vss) = c * length ls). { clear N H1 Hf. induction H as [|l vs ls vss (_ & Lc) H IH]; cbn; [lia|]. rewrite app_length, IH. lia. }
  destruct (lines_joined ls vss N H1) as [A P]. rewrite (fromString_text fuel _ _ A) by lia. cbv zeta. rewrite countNl_joined, L by auto.
  assert (Nl : length ls <> 0) by (destruct ls; [congruence|discriminate]). rewrite Nat.mod_mul, Nat.div_mul by auto. reflexivity.
Qed.
Theorem fromString_ragged : forall fuel ls vss, ls <> [] -> Forall2 (fun l vs => numbers number blankC l vs) ls vss -> length (concat vss) <= fuel -> length (concat vss) mod length ls <> 0 ->
  fromString F conv ind fuel (joined ls) = Err EOob.
Proof.
  intros fuel ls vss N H Hf Hm. destruct (lines_joined ls vss N H) as [A P]. rewrite (fromString_text fuel _ _ A) by lia. cbv zeta. rewrite countNl_joined by auto. destruct (Nat.eqb_spec (length (concat vss) mod length ls) 0); [lia|auto].
Qed.
(* a ragged text whose number of values is a multiple of the number of lines is reshaped *)
Theorem fromString_reshaped : forall fuel ls vss, ls <> [] -> Forall2 (fun l vs => numbers number blankC l vs) ls vss -> length (concat vss) <= fuel -> length (concat vss) mod length ls = 0 ->
  fromString F conv ind fuel (joined ls) = Ok (mkMat (length (concat vss) / length ls) (length ls) (concat vss)).
Proof.
  intros fuel ls vss N H Hf Hm. destruct (lines_joined ls vss N H) as [A P]. rewrite (fromString_text fuel _ _ A) by lia. cbv zeta. rewrite countNl_joined, Hm by auto. reflexivity.
Qed.

(** * words that are no numbers *)
Lemma no_start : forall c, ~ starts c -> lexStep LStart c = None.
Proof.
  intros c H. destruct (lexStep LStart c) eqn:E; auto. exfalso. apply H. clear H. destruct c as [[] [] [] [] [] [] [] []]; try discriminate E; unfold starts, digitC; cbn; tauto.
Qed.
Theorem word_never_ends : forall fuel w c l z x, Forall isSp w -> ~ starts c -> isSpace c = false -> conv [] = (z, false) ->
  fromString F conv (Ok x) fuel (w ++ c :: l) = Err EFuel.
Proof.
  intros fuel w c l z x Hw Hc Hs Hz. unfold fromString. assert (E : readAll F conv (Ok x) fuel (mkI (w ++ c :: l) false false) [] = Err EFuel); [|rewrite E; reflexivity].
  destruct fuel as [|fuel]; [reflexivity|]. cbn [readAll iEof]. unfold extract. cbn [iEof iFail iLeft orb]. rewrite skip_app by auto. cbn [skipSpaces]. rewrite Hs. cbn [lexRun]. rewrite no_start by auto. rewrite Hz. cbn [bind negb]. apply readAll_stuck.
Qed.
Theorem word_file_never_ends : forall fuel w c l z x ls, Forall blankC w -> plain (c :: l) -> ~ starts c -> isSpace c = false -> c <> ","%char -> conv [] = (z, false) ->
  fromFile F conv (Ok x) fuel (Some (w ++ c :: l ++ nl :: ls)) = Err EFuel.
Proof.
  intros fuel w c l z x ls Hw Pl Hc Hs Hk Hz. unfold fromFile. replace (w ++ c :: l ++ nl :: ls) with ((w ++ c :: l) ++ nl :: ls) by (rewrite <- app_assoc; reflexivity).
  assert (Pw : plain w /\ noCommas w = w /\ Forall isSp w). { clear - Hw. induction Hw as [|b w Hb Hw (A & B & C)]; [repeat split; constructor|]. cbn [noCommas map]. fold (noCommas w). rewrite B. destruct Hb as [->|[->|[->|[->| ->]]]]; repeat split; try constructor; auto. }
  destruct Pw as (Pw & Nw & Sw). rewrite pieces_cons by (apply Forall_app; auto). cbn [forL]. destruct (w ++ c :: l) eqn:E; [destruct w; discriminate|]. rewrite <- E. clear E. rewrite noCommas_app, Nw. cbn [noCommas map]. destruct (Ascii.eqb_spec c ","%char); [congruence|].
  assert (R : readAll F conv (Ok x) fuel (mkI (w ++ c :: noCommas l) false false) [] = Err EFuel).
  { destruct fuel as [|fuel]; [reflexivity|]. cbn [readAll iEof]. unfold extract. cbn [iEof iFail iLeft orb]. rewrite skip_app by auto. cbn [skipSpaces]. rewrite Hs. cbn [lexRun]. rewrite no_start by auto. rewrite Hz. cbn [bind negb]. apply readAll_stuck. }
  unfold noCommas in R. rewrite R. reflexivity.
Qed.

(** * the same without the model's character classes *)
Lemma space_spec : forall c, spaceC c <-> isSpace c = true.
Proof.
  intro c. split.
  - intros [H| ->]; [apply blank_space; auto|reflexivity].
  - destruct c as [[] [] [] [] [] [] [] []]; intro H; try discriminate H; unfold spaceC, blankC, newline; tauto.
Qed.
Theorem fromString_trailing_spec : forall fuel s b w vs x, numbers number spaceC s vs -> spaceC b -> Forall spaceC w -> length vs < fuel ->
  (ind = Err EUninit -> fromString F conv ind fuel (s ++ b :: w) = Err EUninit) /\
  (ind = Ok x -> fromString F conv ind fuel (s ++ b :: w) = let k := count_occ ascii_dec (s ++ b :: w) newline + 1 in if (length vs + 1) mod k =? 0 then Ok (mkMat ((length vs + 1) / k) k (vs ++ [x])) else Err EOob).
Proof.
  intros fuel s b w vs x H Hb Hw Hf. assert (E : forall l, count_occ ascii_dec l newline = countNl l).
  { induction l as [|c l IH]; auto. cbn [count_occ countNl]. destruct (ascii_dec c newline) as [->|N]; [rewrite IH; reflexivity|]. destruct (Ascii.eqb_spec c nl); [exfalso; apply N; auto|auto]. }
  rewrite E. apply fromString_trailing; auto; [|apply space_spec; auto|eapply Forall_impl; [|exact Hw]; intros c; apply space_spec]. eapply numbers_sub; [|exact H]. intros c; apply space_spec.
Qed.
Lemma plain_spec : forall l, ~ In newline l -> plain l.
Proof. intros l H. apply Forall_forall. intros c Hc. destruct (Ascii.eqb_spec c nl) as [->|]; auto. contradiction. Qed.
Theorem word_never_ends_spec : forall fuel w c l z x, Forall spaceC w -> ~ starts c -> ~ spaceC c -> conv [] = (z, false) ->
  fromString F conv (Ok x) fuel (w ++ c :: l) = Err EFuel.
Proof.
  intros fuel w c l z x Hw Hc Hs Hz. apply (word_never_ends fuel w c l z x); auto; [eapply Forall_impl; [|exact Hw]; intros d; apply space_spec|]. rewrite space_spec in Hs. destruct (isSpace c); congruence.
Qed.
Theorem word_file_never_ends_spec : forall fuel w c l z x ls, Forall blankC w -> ~ In newline l -> ~ starts c -> ~ spaceC c -> c <> ","%char -> conv [] = (z, false) ->
  fromFile F conv (Ok x) fuel (Some (w ++ c :: l ++ newline :: ls)) = Err EFuel.
Proof.
  intros fuel w c l z x ls Hw Hl Hc Hs Hk Hz. apply (word_file_never_ends fuel w c l z x); auto.
  - apply plain_spec. intros [->|H]; [|auto]. apply Hs. right. auto.
  - rewrite space_spec in Hs. destruct (isSpace c); congruence.
Qed.
End Text.
