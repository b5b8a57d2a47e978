(* TextLex.v - which texts reach the conversion to a number *)
From Coq Require Import String List Arith Bool Ascii Lia.
From Verif Require Import Base Scalar Mat SpecMat SpecText Text TextProofs.
Import ListNotations.
Local Open Scope nat_scope.

Lemma isDigit_spec : forall c, isDigit c = true -> digitC c.
Proof. intros c H. destruct c as [[] [] [] [] [] [] [] []]; try discriminate H; unfold digitC; cbn; tauto. Qed.
Lemma isSign_spec : forall c, isSign c = true -> signC [c].
Proof. intros c H. unfold isSign in H. apply orb_true_iff in H. destruct H as [H|H]; apply Ascii.eqb_eq in H; subst; [right; left|right; right]; reflexivity. Qed.
Lemma isExp_spec : forall c, isExp c = true -> c = "e"%char \/ c = "E"%char.
Proof. intros c H. unfold isExp in H. apply orb_true_iff in H. destruct H as [H|H]; apply Ascii.eqb_eq in H; subst; auto. Qed.

(* mantissa: sign, digits, point, digits *)
Definition mant (d p : bool) (t : text) : Prop := exists s ip fp, t = s ++ ip ++ fp /\ signC s /\ Forall digitC ip /\
  (p = false /\ fp = [] /\ (d = true -> ip <> []) \/ p = true /\ exists f, fp = "."%char :: f /\ Forall digitC f /\ (d = true -> ip ++ f <> [])).
Definition seen (q : lexState) (t : text) : Prop :=
  match q with
  | LStart => t = []
  | LMant d p => mant d p t
  | LExp0 => exists m e p, t = m ++ [e] /\ mant true p m /\ (e = "e"%char \/ e = "E"%char)
  | LExp1 => exists m e s d p, t = m ++ e :: s ++ d /\ mant true p m /\ (e = "e"%char \/ e = "E"%char) /\ signC s /\ Forall digitC d
  end.
Lemma seen_to : forall t q, lexTo LStart t = Some q -> seen q t.
Proof.
  intro t. induction t as [|c t IH] using rev_ind; intros q H.
  - cbn in H. injection H as <-. reflexivity.
  - rewrite lexTo_app in H. destruct (lexTo LStart t) as [q0|] eqn:E0; [|discriminate]. specialize (IH q0 eq_refl). cbn [lexTo] in H.
    destruct (lexStep q0 c) as [q1|] eqn:E1; [|discriminate]. injection H as <-. destruct q0 as [|d p| |]; cbn [lexStep] in E1; cbn [seen] in IH.
    + subst t. cbn [app]. destruct (isSign c) eqn:S; [injection E1 as <-|].
      { exists [c], [], []. split; auto. split; [apply isSign_spec; auto|]. split; [constructor|]. left; repeat split; auto; discriminate. }
      destruct (isDigit c) eqn:D; [injection E1 as <-|].
      { exists [], [c], []. split; auto. split; [left; auto|]. split; [constructor; [apply isDigit_spec; auto|constructor]|]. left; repeat split; auto; discriminate. }
      destruct (Ascii.eqb c ".") eqn:P; [injection E1 as <-|discriminate]. apply Ascii.eqb_eq in P. subst c.
      exists [], [], ["."%char]. split; auto. split; [left; auto|]. split; [constructor|]. right. split; [auto|]. exists []. split; [auto|]. split; [constructor|discriminate].
    + destruct IH as (s & ip & fp & -> & Hs & Hi & Hf). destruct (isDigit c) eqn:D; [injection E1 as <-|].
      { apply isDigit_spec in D. destruct Hf as [(-> & -> & Hn)|(-> & f & -> & Hf & Hn)].
        - exists s, (ip ++ [c]), []. split; [rewrite !app_nil_r, app_assoc; auto|]. split; auto. split; [apply Forall_app; auto|]. left. split; [auto|]. split; [auto|]. intros _ E. apply app_eq_nil in E. destruct E as [_ E]. discriminate.
        - exists s, ip, ("."%char :: f ++ [c]). split; [rewrite <- !app_assoc; auto|]. split; auto. split; auto. right. split; auto. exists (f ++ [c]). split; auto. split; [apply Forall_app; auto|]. intros _ E.
          apply app_eq_nil in E. destruct E as [_ E]. apply app_eq_nil in E. destruct E as [_ E]. discriminate. }
      destruct (Ascii.eqb c ".") eqn:P.
      { apply Ascii.eqb_eq in P. subst c. destruct p; [discriminate|]. injection E1 as <-. destruct Hf as [(_ & -> & Hn)|(Ep & _)]; [|discriminate].
        exists s, ip, ["."%char]. split; [rewrite !app_nil_r, app_assoc; auto|]. split; auto. split; auto. right. split; [auto|]. exists []. split; [auto|]. split; [constructor|]. rewrite app_nil_r. auto. }
      destruct (isExp c) eqn:X; [|discriminate]. destruct d; [injection E1 as <-|discriminate]. apply isExp_spec in X.
      exists (s ++ ip ++ fp), c, p. split; auto. split; auto. exists s, ip, fp. auto.
    + destruct IH as (m & e & p & -> & Hm & He). destruct (isSign c) eqn:S; [injection E1 as <-|].
      { exists m, e, [c], [], p. split; [rewrite <- app_assoc; auto|]. split; auto. split; auto. split; [apply isSign_spec; auto|constructor]. }
      destruct (isDigit c) eqn:D; [injection E1 as <-|discriminate].
      exists m, e, [], [c], p. split; [rewrite <- app_assoc; auto|]. split; auto. split; auto. split; [left; auto|constructor; [apply isDigit_spec; auto|constructor]].
    + destruct IH as (m & e & s & d & p & -> & Hm & He & Hs & Hd). destruct (isDigit c) eqn:D; [injection E1 as <-|discriminate].
      exists m, e, s, (d ++ [c]), p. split; [rewrite <- !app_assoc; cbn; rewrite <- app_assoc; auto|]. split; auto. split; auto. split; auto. apply Forall_app; split; auto. constructor; [apply isDigit_spec; auto|constructor].
Qed.
Lemma mant_numeral : forall p m ex, mant true p m ->
  (ex = [] \/ exists e s' d, (e = "e"%char \/ e = "E"%char) /\ ex = e :: s' ++ d /\ signC s' /\ Forall digitC d /\ d <> []) -> numeral (m ++ ex).
Proof.
  intros p m ex (s & ip & fp & -> & Hs & Hi & Hf) He. exists s, ip, fp, ex. split; [rewrite <- !app_assoc; auto|]. split; auto. split; auto. split; auto.
  destruct Hf as [(_ & -> & Hn)|(_ & f & -> & Hf & Hn)]; [left; auto|]. right. exists f. auto.
Qed.
Lemma dig0 : digitC "0"%char.
Proof. left. reflexivity. Qed.
Lemma seen_begins : forall q t, seen q t -> exists r, numeral (t ++ r).
Proof.
  intros [|d p| |] t H; cbn [seen] in H.
  - subst. exists ["0"%char]. exists [], ["0"%char], [], []. split; auto. split; [left; auto|]. split; [constructor; [apply dig0|constructor]|]. split; [left; split; [auto|discriminate]|left; auto].
  - destruct H as (s & ip & fp & -> & Hs & Hi & Hf). exists ["0"%char]. destruct Hf as [(_ & -> & Hn)|(_ & f & -> & Hf & Hn)].
    + exists s, (ip ++ ["0"%char]), [], []. split; [rewrite !app_nil_r, <- app_assoc; auto|]. split; auto. split; [apply Forall_app; split; auto; constructor; [apply dig0|constructor]|]. split; [|left; auto]. left. split; auto.
      intro E. apply app_eq_nil in E. destruct E. discriminate.
    + exists s, ip, ("."%char :: f ++ ["0"%char]), []. split; [rewrite app_nil_r, <- !app_assoc; auto|]. split; auto. split; auto. split; [|left; auto]. right. exists (f ++ ["0"%char]). split; auto.
      split; [apply Forall_app; split; auto; constructor; [apply dig0|constructor]|]. intro E. apply app_eq_nil in E. destruct E as [_ E]. apply app_eq_nil in E. destruct E. discriminate.
  - destruct H as (m & e & p & -> & Hm & He). exists ["0"%char]. rewrite <- app_assoc. apply (mant_numeral p); auto. right. exists e, [], ["0"%char]. split; auto. split; auto. split; [left; auto|].
    split; [constructor; [apply dig0|constructor]|discriminate].
  - destruct H as (m & e & s & d & p & -> & Hm & He & Hs & Hd). exists ["0"%char]. rewrite <- app_assoc. apply (mant_numeral p); auto. right. exists e, s, (d ++ ["0"%char]). split; auto.
    split; [cbn; rewrite <- app_assoc; auto|]. split; auto. split; [apply Forall_app; split; auto; constructor; [apply dig0|constructor]|]. intro E. apply app_eq_nil in E. destruct E. discriminate.
Qed.
Lemma begins_lex : forall t, begins t <-> exists q, lexTo LStart t = Some q.
Proof.
  intro t. split.
  - intros (r & H). destruct (numeral_lex _ H) as (_ & q & E). rewrite lexTo_app in E. destruct (lexTo LStart t); [eauto|discriminate].
  - intros (q & E). eapply seen_begins. apply seen_to. eauto.
Qed.
Lemma lexRun_split : forall l q t r, lexRun q l = (t, r) -> l = t ++ r /\ exists q', lexTo q t = Some q' /\ match r with [] => True | c :: _ => lexStep q' c = None end.
Proof.
  induction l as [|c l IH]; intros q t r H; cbn in H.
  - injection H as <- <-. split; auto. exists q. auto.
  - destruct (lexStep q c) as [q1|] eqn:E.
    + destruct (lexRun q1 l) as [a b] eqn:E1. injection H as <- <-. destruct (IH _ _ _ E1) as (-> & q' & E2 & E3). split; auto. exists q'. cbn [lexTo]. rewrite E. auto.
    + injection H as <- <-. split; auto. exists q. auto.
Qed.
Section Lex.
Variable F : FOps.
(* ss >> x where there is something to read: blanks are dropped, the longest beginning of a numeral is taken and converted *)
Lemma taken : forall (conv : text -> F * bool) w l, Forall spaceC w -> l <> [] -> (forall c r, l = c :: r -> ~ spaceC c) ->
  exists t r, l = t ++ r /\ begins t /\ (forall c r', r = c :: r' -> ~ begins (t ++ [c])) /\
    extract F conv (mkI (w ++ l) false false) = (mkI r (match r with [] => true | _ => false end) (negb (snd (conv t))), Some (fst (conv t))).
Proof.
  intros conv w l Hw Nl Hl. destruct (lexRun LStart l) as [t r] eqn:E. destruct (lexRun_split _ _ _ _ E) as (Hs & q & Ht & Hr). exists t, r. split; auto. split; [apply begins_lex; eauto|]. split.
  - intros c r' -> B. apply begins_lex in B. destruct B as (q2 & B). rewrite lexTo_app, Ht in B. cbn [lexTo] in B. rewrite Hr in B. discriminate.
  - unfold extract. cbn [iEof iFail iLeft orb].
    assert (Sk : skipSpaces (w ++ l) = l).
    { clear - Hw Nl Hl. induction Hw as [|c w Hc _ IH]; cbn.
      - destruct l as [|c l]; [congruence|]. cbn. destruct (isSpace c) eqn:S; auto. exfalso. apply (Hl c l eq_refl). revert S. clear. intro S. destruct c as [[] [] [] [] [] [] [] []]; try discriminate S; unfold spaceC, blankC, newline; tauto.
      - assert (isSpace c = true) as ->; auto. destruct Hc as [[->|[->|[->|[->| ->]]]]| ->]; reflexivity. }
    rewrite Sk. destruct l as [|c l]; [congruence|]. rewrite E. destruct (conv t); reflexivity.
Qed.
(* nothing else of the conversion matters *)
Lemma extract_same : forall c1 c2 s, (forall t, begins t -> c1 t = c2 t) -> extract F c1 s = extract F c2 s.
Proof.
  intros c1 c2 s H. unfold extract. destruct (iEof s || iFail s); auto. destruct (skipSpaces (iLeft s)) as [|c l]; auto. destruct (lexRun LStart (c :: l)) as [t r] eqn:E.
  destruct (lexRun_split _ _ _ _ E) as (_ & q & Ht & _). rewrite H; auto. apply begins_lex. eauto.
Qed.
Lemma readAll_same : forall c1 c2 ind, (forall t, begins t -> c1 t = c2 t) -> forall fuel s vf, readAll F c1 ind fuel s vf = readAll F c2 ind fuel s vf.
Proof.
  intros c1 c2 ind H fuel. induction fuel as [|n IH]; intros s vf; cbn [readAll]; auto. destruct (iEof s); auto. rewrite (extract_same c1 c2 s H). destruct (extract F c2 s) as [s' [v|]]; cbn [bind]; auto.
  destruct ind; cbn; auto.
Qed.
Lemma same_reading : forall c1 c2 ind fuel, (forall t, begins t -> c1 t = c2 t) ->
  (forall s, fromString F c1 ind fuel s = fromString F c2 ind fuel s) /\ (forall f, fromFile F c1 ind fuel f = fromFile F c2 ind fuel f).
Proof.
  intros c1 c2 ind fuel H. split.
  - intro s. unfold fromString. rewrite (readAll_same c1 c2 ind H). reflexivity.
  - intros [s|]; auto. unfold fromFile.
    match goal with |- bind (forL _ ?f ?a) _ = bind (forL _ ?g _) _ => assert (E : forall ls x, forL ls f x = forL ls g x) end.
    { induction ls as [|l ls IH]; intros [n vf]; auto. destruct l as [|c l].
      - change (forL ([] :: ls) ?f (n, vf)) with (forL ls f (n, vf)). cbn [forL]. apply IH.
      - cbn [forL]. rewrite (readAll_same c1 c2 ind H). destruct (readAll F c2 ind fuel (mkI (noCommas (c :: l)) false false) vf); cbn [bind]; auto. }
    rewrite E. reflexivity.
Qed.
End Lex.
(* a sign alone, a sign before an exponent, a second point: where the text is cut *)
Lemma cut_case : begins ["-"%char] /\ ~ begins ["-"; "e"]%char /\ begins ["1"; "."; "2"]%char /\ ~ begins ["1"; "."; "2"; "."]%char /\ begins ["1"; "e"; "-"]%char /\ ~ begins ["1"; "e"; "-"; "-"]%char /\ ~ begins ["1"; "e"; "."]%char.
Proof.
  repeat split; try (apply begins_lex; eexists; reflexivity); intro H; apply begins_lex in H; destruct H as (q & H); discriminate.
Qed.
