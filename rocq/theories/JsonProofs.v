(* JsonProofs.v - the writer produces JSON *)
From Coq Require Import String List Arith Bool Ascii Lia.
From Verif Require Import Base Scalar SpecText SpecJson Json.
Import ListNotations.
Local Open Scope nat_scope.

Section J.
Variables (I F : Type) (showI : I -> text) (showF : F -> text).
Notation item := (item I F).
Notation call := (call I F).
Notation run := (jRun I F showI showF).
Notation meaning := (meaning I F showI showF).
Notation clean := (cleanItem I F showI showF).

(* the calls that write an item *)
Fixpoint calls (i : item) : list call :=
  match i with
  | ISec k is => Enter k :: flat_map calls is ++ [Leave]
  | IStr k v => [AddS k v] | IInt k i => [AddI k i] | IFlt k x => [AddF k x] | IBool k b => [AddB k b] | IArr k xs => [AddA k xs]
  end.
(* sections are entered and left in pairs *)
Fixpoint balanced (d : nat) (cs : list call) : Prop :=
  match cs with
  | [] => d = 0
  | Enter _ :: r => balanced (S d) r
  | Leave :: r => match d with 0 => False | S d => balanced d r end
  | _ :: r => balanced d r
  end.

Section ItemInd.
Variable P : item -> Prop.
Hypothesis Psec : forall k is, Forall P is -> P (ISec _ _ k is).
Hypothesis Pstr : forall k v, P (IStr _ _ k v).
Hypothesis Pint : forall k v, P (IInt _ _ k v).
Hypothesis Pflt : forall k v, P (IFlt _ _ k v).
Hypothesis Pbool : forall k v, P (IBool _ _ k v).
Hypothesis Parr : forall k v, P (IArr _ _ k v).
Fixpoint item_rect' (i : item) : P i :=
  match i with
  | ISec k is => Psec k is ((fix go l : Forall P l := match l with [] => Forall_nil P | a :: l => Forall_cons a (item_rect' a) (go l) end) is)
  | IStr k v => Pstr k v | IInt k v => Pint k v | IFlt k v => Pflt k v | IBool k v => Pbool k v | IArr k v => Parr k v
  end.
End ItemInd.

Definition sp (n : nat) : text := repeat " "%char n.
Definition keyOf (i : item) : text := fst (meaning i).
(* comma-separated *)
Fixpoint sepBy (ts : list text) : text := match ts with [] => [] | [t] => t | t :: r => t ++ ","%char :: sepBy r end.
Fixpoint vtext (n : nat) (i : item) : text :=
  match i with
  | ISec k is => "{"%char :: sepBy (map (fun i => jnl ++ sp (n + 4) ++ jq ++ keyOf i ++ jq ++ lit ":" ++ vtext (n + 4) i) is) ++ jnl ++ sp n ++ ["}"%char]
  | IStr k v => jq ++ v ++ jq
  | IInt k i => showI i
  | IFlt k x => showF x
  | IBool k b => if b then lit "true" else lit "false"
  | IArr k xs => lit "[" ++ jArray F showF xs ++ lit "]"
  end.
Definition mtext (n : nat) (i : item) : text := jnl ++ sp n ++ jq ++ keyOf i ++ jq ++ lit ":" ++ vtext n i.

Lemma run_app : forall a b j, run (a ++ b) j = (j <- run a j ;; run b j).
Proof. intros. unfold jRun. apply forL_app. Qed.
Definition pre (b : bool) (ts : list text) : text := match ts with [] => [] | _ => (if b then lit "," else []) ++ sepBy ts end.
Lemma pre_cons : forall b t ts, pre b (t :: ts) = (if b then lit "," else []) ++ t ++ pre true ts.
Proof. intros b t [|u ts]; cbn [pre sepBy]; rewrite ?app_nil_r; reflexivity. Qed.
Lemma run_items : forall n is p o, Forall (fun i => forall n p o, run (calls i) (mkJw p (sp n) o) = Ok (mkJw true (sp n) (o ++ (if p then lit "," else []) ++ mtext n i))) is ->
  run (flat_map calls is) (mkJw p (sp n) o) = Ok (mkJw (p || negb (match is with [] => true | _ => false end)) (sp n) (o ++ pre p (map (mtext n) is))).
Proof.
  intros n is p o H. revert p o. induction H as [|i is Hi H IH]; intros p o.
  - cbn. rewrite orb_false_r, app_nil_r. reflexivity.
  - cbn [flat_map]. rewrite run_app, Hi. cbn [bind]. rewrite IH. cbn [negb map]. rewrite orb_true_r, pre_cons, <- !app_assoc. reflexivity.
Qed.
Lemma run_item : forall i n p o, run (calls i) (mkJw p (sp n) o) = Ok (mkJw true (sp n) (o ++ (if p then lit "," else []) ++ mtext n i)).
Proof.
  apply (item_rect' (fun i => forall n p o, run (calls i) (mkJw p (sp n) o) = Ok (mkJw true (sp n) (o ++ (if p then lit "," else []) ++ mtext n i)))); try (intros; reflexivity).
  intros k is H n p o. cbn [calls]. change (run (Enter k :: flat_map calls is ++ [Leave]) (mkJw p (sp n) o)) with (run (flat_map calls is ++ [Leave]) (jEnter k (mkJw p (sp n) o))).
  unfold jEnter. cbn [jPend jInd jOut comma]. assert (E : sp n ++ lit "    " = sp (n + 4)) by (unfold sp; rewrite repeat_app; reflexivity). rewrite E, run_app, run_items by auto. cbn [bind orb].
  unfold jRun at 1. cbn [forL jCall]. unfold jLeave. cbn [jInd jOut]. assert (L : length (sp (n + 4)) <? 4 = false) by (apply Nat.ltb_ge; unfold sp; rewrite repeat_length; lia). rewrite L. cbv zeta.
  assert (E2 : skipn 4 (sp (n + 4)) = sp n) by (rewrite Nat.add_comm; reflexivity). rewrite E2. cbn [bind]. f_equal. f_equal.
  unfold mtext, keyOf. cbn [meaning fst vtext]. fold keyOf. change (map (fun i => jnl ++ sp (n + 4) ++ jq ++ keyOf i ++ jq ++ lit ":" ++ vtext (n + 4) i) is) with (map (mtext (n + 4)) is).
  unfold comma. cbn [jPend]. rewrite <- !app_assoc. do 7 f_equal. cbn [app lit list_ascii_of_string]. do 2 f_equal. destruct is; reflexivity.
Qed.

(** * the text is JSON *)
Lemma ws_sp : forall n, Forall jws (jnl ++ sp n).
Proof. intro n. constructor; [cbn; tauto|]. unfold sp. apply Forall_forall. intros c H. apply repeat_spec in H. subst. cbn. tauto. Qed.
Lemma chars_clean : forall s, Forall cleanC s -> jchars s s.
Proof. induction 1; constructor; auto. Qed.
Lemma key_clean : forall i, clean i -> Forall cleanC (keyOf i).
Proof. intros [] H; cbn in *; tauto. Qed.
Lemma array_elements : forall xs, xs <> [] -> Forall (fun x => jnumber (showF x)) xs -> jelements (jArray F showF xs) (map (fun x => JNum (showF x)) xs).
Proof.
  assert (E1 : forall x, jnumber (showF x) -> jelement (showF x) (JNum (showF x))).
  { intros x H. rewrite <- (app_nil_r (showF x)) at 1. apply (je [] (showF x) []); auto. constructor. auto. }
  induction xs as [|x xs IH]; intros N H; [congruence|]. inversion H; subst. destruct xs as [|y xs]; [cbn [map jArray]; constructor; apply E1; auto|].
  change (jArray F showF (x :: y :: xs)) with (showF x ++ ","%char :: jArray F showF (y :: xs)). cbn [map]. apply jes_more; auto. apply IH; auto. discriminate.
Qed.
Lemma members_ok : forall n is w, is <> [] -> Forall jws w -> Forall (fun i => clean i /\ forall n, jvalue (vtext n i) (snd (meaning i))) is -> jmembers (sepBy (map (mtext n) is) ++ w) (map meaning is).
Proof.
  assert (M1 : forall n i w, Forall jws w -> clean i -> (forall n, jvalue (vtext n i) (snd (meaning i))) -> jmember (mtext n i ++ w) (meaning i)).
  { intros n i w Hw Hc Hv. unfold mtext. replace (meaning i) with (keyOf i, snd (meaning i)) by (unfold keyOf; destruct (meaning i); reflexivity).
    replace ((jnl ++ sp n ++ jq ++ keyOf i ++ jq ++ lit ":" ++ vtext n i) ++ w) with ((jnl ++ sp n) ++ quote :: keyOf i ++ quote :: [] ++ ":"%char :: ([] ++ vtext n i ++ w)) by (rewrite <- !app_assoc; reflexivity).
    apply jm; [apply ws_sp|apply chars_clean; apply key_clean; auto|constructor|]. constructor; auto. }
  intros n is w N Hw H. induction H as [|i is [Hc Hv] H IH]; [congruence|]. destruct is as [|i2 is].
  - cbn [map sepBy]. constructor. auto.
  - change (sepBy (map (mtext n) (i :: i2 :: is)) ++ w) with ((mtext n i ++ ","%char :: sepBy (map (mtext n) (i2 :: is))) ++ w). rewrite <- app_assoc. cbn [app]. change (map meaning (i :: i2 :: is)) with (meaning i :: map meaning (i2 :: is)).
    apply jms_more; [|apply IH; discriminate]. rewrite <- (app_nil_r (mtext n i)). auto.
Qed.
Lemma obj_ok : forall m n is, Forall (fun i => clean i /\ forall n, jvalue (vtext n i) (snd (meaning i))) is -> jvalue ("{"%char :: sepBy (map (mtext m) is) ++ jnl ++ sp n ++ ["}"%char]) (JObj (map meaning is)).
Proof.
  intros m n is H. destruct is as [|i is].
  - cbn [map sepBy app]. replace (jnl ++ sp n ++ ["}"%char]) with ((jnl ++ sp n) ++ ["}"%char]) by (rewrite <- app_assoc; reflexivity). constructor. apply ws_sp.
  - replace (sepBy (map (mtext m) (i :: is)) ++ jnl ++ sp n ++ ["}"%char]) with ((sepBy (map (mtext m) (i :: is)) ++ jnl ++ sp n) ++ ["}"%char]) by (rewrite <- !app_assoc; reflexivity).
    constructor. apply members_ok; [discriminate|apply ws_sp|auto].
Qed.
Lemma value_ok : forall i n, clean i -> jvalue (vtext n i) (snd (meaning i)).
Proof.
  apply (item_rect' (fun i => forall n, clean i -> jvalue (vtext n i) (snd (meaning i)))).
  - intros k is H n [Hk Hc]. cbn [vtext meaning snd]. change (map (fun i => jnl ++ sp (n + 4) ++ jq ++ keyOf i ++ jq ++ lit ":" ++ vtext (n + 4) i) is) with (map (mtext (n + 4)) is).
    apply obj_ok. clear Hk n. induction H as [|i is Hi H IH]; constructor; [|apply IH; apply Hc]. destruct Hc as [Hc _]. auto.
  - intros k v n [_ Hv]. apply (jv_str v v). apply chars_clean. auto.
  - intros k v n [_ Hv]. constructor. auto.
  - intros k v n [_ Hv]. constructor. auto.
  - intros k [] n _; constructor.
  - intros k xs n [_ Hx]. cbn [vtext meaning snd]. destruct xs as [|x xs]; [apply (jv_arr0 []); constructor|]. apply jv_arr. apply array_elements; auto. discriminate.
Qed.
Theorem written_json : forall is, Forall clean is -> exists j, run (flat_map calls is) jNew = Ok j /\ jPend j = negb (match is with [] => true | _ => false end) /\ jInd j = sp 4 /\ jvalue (jText j) (JObj (map meaning is)).
Proof.
  intros is H. change jNew with (mkJw false (sp 4) []). rewrite run_items by (apply Forall_forall; intros; apply run_item). eexists. split; [reflexivity|]. split; [reflexivity|]. split; [reflexivity|].
  unfold jText. cbn [jOut app]. replace (pre false (map (mtext 4) is)) with (sepBy (map (mtext 4) is)) by (destruct is; reflexivity).
  apply (obj_ok 4 0). eapply Forall_impl; [|exact H]. intros i Hi. split; auto. intro n. apply value_ok. auto.
Qed.

(** * balanced sequences are the calls of items *)
Lemma balanced_split : forall cs d, balanced (S d) cs -> exists is r, cs = flat_map calls is ++ Leave :: r /\ balanced d r.
Proof.
  intro cs. remember (length cs) as m eqn:Em. assert (Hm : length cs <= m) by lia. clear Em. revert cs Hm. induction m as [|m IH]; intros cs Hm d H.
  { destruct cs; [cbn in H; lia|cbn in Hm; lia]. }
  destruct cs as [|c cs]; [cbn in H; lia|]. cbn [length] in Hm.
  assert (One : forall i, calls i = [c] -> balanced (S d) cs -> exists is r, c :: cs = flat_map calls is ++ Leave :: r /\ balanced d r).
  { intros i Ei Hb. destruct (IH cs ltac:(lia) d Hb) as (is & r & -> & Hr). exists (i :: is), r. split; auto. cbn [flat_map]. rewrite Ei. reflexivity. }
  destruct c as [k| |k v|k v|k v|k v|k v]; cbn [balanced] in H.
  - destruct (IH cs ltac:(lia) (S d) H) as (is & r & -> & Hr). rewrite app_length in Hm. cbn [length] in Hm. destruct (IH r ltac:(lia) d Hr) as (is' & r' & -> & Hr').
    exists (ISec _ _ k is :: is'), r'. split; auto. cbn [flat_map calls]. rewrite <- !app_assoc. cbn [app]. rewrite <- app_assoc. reflexivity.
  - exists [], cs. split; auto.
  - apply (One (IStr _ _ k v)); auto.
  - apply (One (IInt _ _ k v)); auto.
  - apply (One (IFlt _ _ k v)); auto.
  - apply (One (IBool _ _ k v)); auto.
  - apply (One (IArr _ _ k v)); auto.
Qed.
Theorem balanced_items : forall cs, balanced 0 cs <-> exists is, cs = flat_map calls is.
Proof.
  intro cs. split.
  - remember (length cs) as m eqn:Em. assert (Hm : length cs <= m) by lia. clear Em. revert cs Hm. induction m as [|m IH]; intros cs Hm H.
    { destruct cs; [exists []; auto|cbn in Hm; lia]. }
    destruct cs as [|c cs]; [exists []; auto|]. cbn [length] in Hm.
    assert (One : forall i, calls i = [c] -> balanced 0 cs -> exists is, c :: cs = flat_map calls is).
    { intros i Ei Hb. destruct (IH cs ltac:(lia) Hb) as (is & ->). exists (i :: is). cbn [flat_map]. rewrite Ei. reflexivity. }
    destruct c as [k| |k v|k v|k v|k v|k v]; cbn [balanced] in H.
    + destruct (balanced_split cs 0 H) as (is & r & -> & Hr). rewrite app_length in Hm. cbn [length] in Hm. destruct (IH r ltac:(lia) Hr) as (is' & ->).
      exists (ISec _ _ k is :: is'). cbn [flat_map calls app]. rewrite <- app_assoc. reflexivity.
    + destruct H.
    + apply (One (IStr _ _ k v)); auto.
    + apply (One (IInt _ _ k v)); auto.
    + apply (One (IFlt _ _ k v)); auto.
    + apply (One (IBool _ _ k v)); auto.
    + apply (One (IArr _ _ k v)); auto.
  - intros (is & ->). assert (G : forall i d r, balanced d (calls i ++ r) <-> balanced d r).
    { apply (item_rect' (fun i => forall d r, balanced d (calls i ++ r) <-> balanced d r)); try (intros; reflexivity).
      intros k is0 H d r. cbn [calls app balanced]. rewrite <- app_assoc. cbn [app].
      assert (Q : forall r', balanced (S d) (flat_map calls is0 ++ r') <-> balanced (S d) r').
      { induction H as [|i is1 Hi H IH]; intro r'; [reflexivity|]. cbn [flat_map]. rewrite <- app_assoc, Hi. apply IH. }
      rewrite Q. reflexivity. }
    induction is as [|i is IH]; [reflexivity|]. cbn [flat_map]. apply G. auto.
Qed.
(* leaving more sections than were entered throws the second time *)
Theorem leave_twice : forall cs j, run cs jNew = Ok j -> balanced 0 cs -> exists j', run (cs ++ [Leave]) jNew = Ok j' /\ run (cs ++ [Leave; Leave]) jNew = Err EThrow.
Proof.
  intros cs j H Hb. apply balanced_items in Hb. destruct Hb as (is & ->).
  assert (E : run (flat_map calls is) jNew = Ok (mkJw (negb (match is with [] => true | _ => false end)) (sp 4) (pre false (map (mtext 4) is)))).
  { change jNew with (mkJw false (sp 4) []). rewrite run_items by (apply Forall_forall; intros; apply run_item). reflexivity. }
  eexists. rewrite !run_app, E. cbn [bind]. split; reflexivity.
Qed.
End J.

(** * a necessary condition for JSON: an automaton *)
Inductive scanState := Out | Str | Esc | Lit (t : text).
Definition outC : text := [" "; "009"; "010"; "013"; "{"; "}"; "["; "]"; ","; ":"; "0"; "1"; "2"; "3"; "4"; "5"; "6"; "7"; "8"; "9"; "+"; "-"; "."; "e"; "E"]%char.
Definition mem (c : ascii) (t : text) : bool := existsb (Ascii.eqb c) t.
Definition scan (q : scanState) (c : ascii) : option scanState :=
  match q with
  | Out => if Ascii.eqb c quote then Some Str else if Ascii.eqb c "t" then Some (Lit (tl tTrue)) else if Ascii.eqb c "f" then Some (Lit (tl tFalse)) else if Ascii.eqb c "n" then Some (Lit (tl tNull))
           else if mem c outC then Some Out else None
  | Str => if Ascii.eqb c quote then Some Out else if Ascii.eqb c backslash then Some Esc else if 32 <=? nat_of_ascii c then Some Str else None
  | Esc => Some Str
  | Lit [] => None
  | Lit [d] => if Ascii.eqb c d then Some Out else None
  | Lit (d :: r) => if Ascii.eqb c d then Some (Lit r) else None
  end.
Fixpoint scanAll (q : scanState) (t : text) : option scanState := match t with [] => Some q | c :: t => match scan q c with Some q => scanAll q t | None => None end end.
Lemma scan_app : forall a b q, scanAll q (a ++ b) = match scanAll q a with Some q => scanAll q b | None => None end.
Proof. induction a as [|c a IH]; intros b q; auto. cbn. destruct (scan q c); auto. Qed.
Lemma scan_out : forall t, Forall (fun c => scan Out c = Some Out) t -> scanAll Out t = Some Out.
Proof. induction 1 as [|c t H Ht IH]; auto. cbn [scanAll]. rewrite H. auto. Qed.
Lemma scan_ws : forall w, Forall jws w -> scanAll Out w = Some Out.
Proof. intros w H. apply scan_out. eapply Forall_impl; [|exact H]. intros c Hc. repeat (destruct Hc as [<-|Hc]; [reflexivity|]). destruct Hc. Qed.
Lemma scan_digits : forall d, Forall digitC d -> scanAll Out d = Some Out.
Proof. intros w H. apply scan_out. eapply Forall_impl; [|exact H]. intros c Hc. repeat (destruct Hc as [<-|Hc]; [reflexivity|]). destruct Hc. Qed.
Lemma scan_number : forall t, jnumber t -> scanAll Out t = Some Out.
Proof.
  intros t (m & ip & fp & ex & -> & Hm & Hi & Hf & He).
  assert (Em : scanAll Out m = Some Out) by (destruct Hm as [->| ->]; reflexivity). rewrite scan_app, Em.
  assert (Ei : scanAll Out ip = Some Out) by (destruct Hi as [->|(c & d & -> & H1 & _ & H2)]; [reflexivity|apply scan_digits; constructor; auto]). rewrite scan_app, Ei.
  assert (Ef : scanAll Out fp = Some Out) by (destruct Hf as [->|(d & -> & _ & H)]; [reflexivity|cbn; apply scan_digits; auto]). rewrite scan_app, Ef.
  destruct He as [->|(e & s & d & -> & He & Hs & _ & Hd)]; [reflexivity|]. cbn [scanAll]. assert (scan Out e = Some Out) as -> by (destruct He as [->| ->]; reflexivity). rewrite scan_app.
  assert (Es : scanAll Out s = Some Out) by (destruct Hs as [->|[->| ->]]; reflexivity). rewrite Es. apply scan_digits. auto.
Qed.
Lemma clean_scan : forall c, cleanC c -> scan Str c = Some Str.
Proof.
  intros c (H1 & H2 & H3). cbn [scan]. destruct (Ascii.eqb_spec c quote); [congruence|]. destruct (Ascii.eqb_spec c backslash); [congruence|]. replace (32 <=? nat_of_ascii c) with true by (symmetry; apply Nat.leb_le; auto). reflexivity.
Qed.
Lemma hex_clean : forall c, hexC c -> cleanC c.
Proof. intros c [H|H]; repeat (destruct H as [<-|H]; [unfold cleanC, quote, backslash; vm_compute; repeat split; try lia; discriminate|]); destruct H. Qed.
Lemma scan_chars : forall s u, jchars s u -> scanAll Str s = Some Str.
Proof.
  induction 1 as [|c s u Hc H IH|c d s u Hc H IH|a b c d s u Ha Hb Hc Hd H IH]; auto.
  - cbn [scanAll]. rewrite clean_scan; auto.
  - cbn [scanAll]. change (scan Str backslash) with (Some Esc). cbn [scan]. auto.
  - assert (E : forall c t, cleanC c -> scanAll Str (c :: t) = scanAll Str t) by (intros c0 t Hc0; cbn [scanAll]; rewrite clean_scan; auto).
    transitivity (scanAll Str (a :: b :: c :: d :: s)); [reflexivity|]. rewrite (E a), (E b), (E c), (E d) by (apply hex_clean; auto). auto.
Qed.
Scheme jv_min := Minimality for jvalue Sort Prop with je_min := Minimality for jelement Sort Prop with jes_min := Minimality for jelements Sort Prop with jm_min := Minimality for jmember Sort Prop with jms_min := Minimality for jmembers Sort Prop.
Lemma scan_value : forall t v, jvalue t v -> scanAll Out t = Some Out.
Proof.
  apply (jv_min (fun t _ => scanAll Out t = Some Out) (fun t _ => scanAll Out t = Some Out) (fun t _ => scanAll Out t = Some Out) (fun t _ => scanAll Out t = Some Out) (fun t _ => scanAll Out t = Some Out)).
  - intros w H. cbn [scanAll]. change (scan Out "{") with (Some Out). cbv iota. rewrite scan_app, scan_ws; auto.
  - intros t ms _ H. cbn [scanAll]. change (scan Out "{") with (Some Out). cbv iota. rewrite scan_app, H. reflexivity.
  - intros w H. cbn [scanAll]. change (scan Out "[") with (Some Out). cbv iota. rewrite scan_app, scan_ws; auto.
  - intros t ms _ H. cbn [scanAll]. change (scan Out "[") with (Some Out). cbv iota. rewrite scan_app, H. reflexivity.
  - intros s u H. cbn [scanAll]. change (scan Out quote) with (Some Str). cbv iota. rewrite scan_app, (scan_chars s u H). reflexivity.
  - apply scan_number.
  - reflexivity.
  - reflexivity.
  - reflexivity.
  - intros w1 t w2 v H1 _ H H2. rewrite scan_app, scan_ws by auto. rewrite scan_app, H. apply scan_ws. auto.
  - auto.
  - intros t v t' vs _ H _ H'. rewrite scan_app, H. cbn [scanAll]. change (scan Out ",") with (Some Out). auto.
  - intros w1 s k w2 t v H1 Hs H2 _ H. rewrite scan_app, scan_ws by auto. cbn [scanAll]. change (scan Out quote) with (Some Str). cbv iota. rewrite scan_app, (scan_chars s k Hs). cbn [scanAll]. change (scan Str quote) with (Some Out). cbv iota. rewrite scan_app, scan_ws by auto. cbn [scanAll].
    change (scan Out ":") with (Some Out). auto.
  - auto.
  - intros t m t' ms _ H _ H'. rewrite scan_app, H. cbn [scanAll]. change (scan Out ",") with (Some Out). auto.
Qed.
Lemma not_json : forall t, scanAll Out t <> Some Out -> ~ exists v, jvalue t v.
Proof. intros t H (v & Hv). apply H. eapply scan_value; eauto. Qed.

Lemma quote_refuted : exists cs : list (call unit unit), balanced _ _ 0 cs /\ cs = [AddS (lit "key") [quote]] /\ forall s1 s2, exists j, jRun unit unit s1 s2 cs jNew = Ok j /\ ~ exists v, jvalue (jText j) v.
Proof. eexists. split; [|split; [reflexivity|]]; [reflexivity|]. intros s1 s2. eexists. split; [reflexivity|]. apply not_json. vm_compute. discriminate. Qed.
Lemma backslash_refuted : exists cs : list (call unit unit), balanced _ _ 0 cs /\ cs = [AddS (lit "file") (lit "C:\")] /\ forall s1 s2, exists j, jRun unit unit s1 s2 cs jNew = Ok j /\ ~ exists v, jvalue (jText j) v.
Proof. eexists. split; [|split; [reflexivity|]]; [reflexivity|]. intros s1 s2. eexists. split; [reflexivity|]. apply not_json. vm_compute. discriminate. Qed.
(* one section left too many: the text is not JSON *)
(* nan and inf: what operator<< prints for them *)
Lemma nan_refuted : forall (F : Type) (showF : F -> text) (x : F), In (showF x) [lit "nan"; lit "-nan"; lit "inf"; lit "-inf"] -> forall k, Forall cleanC k -> exists j,
  jRun unit F (fun _ => []) showF [AddF k x] jNew = Ok j /\ ~ exists v, jvalue (jText j) v.
Proof.
  intros F showF x H k Hk. eexists. split; [reflexivity|]. apply not_json. unfold jText, jRaw, comma. cbn [jOut jPend jInd app jNew]. 
  change (lit "{" ++ (jnl ++ lit "    " ++ jq ++ k ++ jq ++ lit ":" ++ showF x) ++ jnl ++ lit "}") with ((lit "{" ++ jnl ++ lit "    ") ++ jq ++ ((k ++ jq ++ lit ":" ++ showF x) ++ jnl ++ lit "}")).
  rewrite scan_app. change (scanAll Out (lit "{" ++ jnl ++ lit "    ")) with (Some Out). cbv iota. rewrite scan_app. change (scanAll Out jq) with (Some Str). cbv iota. rewrite <- !app_assoc. rewrite scan_app, (scan_chars k k) by (apply chars_clean; auto).
  rewrite scan_app. change (scanAll Str jq) with (Some Out). cbv iota. rewrite scan_app. change (scanAll Out (lit ":")) with (Some Out). cbv iota. rewrite scan_app.
  assert (E : scanAll Out (showF x) = None) by (repeat (destruct H as [<-|H]; [reflexivity|]); destruct H). rewrite E. discriminate.
Qed.
