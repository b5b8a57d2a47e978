(* JsonUniq.v - a text has at most one JSON value *)
From Coq Require Import List Arith Bool Ascii Lia.
From Verif Require Import SpecText SpecJson.
Import ListNotations.
Local Open Scope char_scope.

Scheme jvalue_m := Minimality for jvalue Sort Prop with jelement_m := Minimality for jelement Sort Prop with jelements_m := Minimality for jelements Sort Prop
  with jmember_m := Minimality for jmember Sort Prop with jmembers_m := Minimality for jmembers Sort Prop.
Combined Scheme json_mut from jvalue_m, jelement_m, jelements_m, jmember_m, jmembers_m.

Definition wsB (c : ascii) : bool := existsb (Ascii.eqb c) [" "; "009"; "010"; "013"].
Definition delB (c : ascii) : bool := existsb (Ascii.eqb c) [","; "]"; "}"].
Definition numB (c : ascii) : bool := existsb (Ascii.eqb c) ["0"; "1"; "2"; "3"; "4"; "5"; "6"; "7"; "8"; "9"; "-"; "+"; "."; "e"; "E"].
Definition headB (f : ascii -> bool) (r : text) : bool := match r with [] => true | c :: _ => f c end.
Lemma inB : forall c l, In c l <-> existsb (Ascii.eqb c) l = true.
Proof. intros. rewrite existsb_exists. split; [intro; exists c; split; auto; apply Ascii.eqb_refl|intros (x & H & E); apply Ascii.eqb_eq in E; subst; auto]. Qed.
Lemma jws_B : forall c, jws c <-> wsB c = true.
Proof. intros. apply inB. Qed.
Lemma digit_num : forall c, digitC c -> numB c = true.
Proof. intros c H. unfold digitC in H. cbn [In] in H. repeat (destruct H as [<-|H]; [reflexivity|]). contradiction. Qed.
(* the longest prefix of characters satisfying f *)
Lemma span : forall f a a' r r', Forall (fun c => f c = true) a -> Forall (fun c => f c = true) a' -> headB (fun c => negb (f c)) r = true -> headB (fun c => negb (f c)) r' = true -> a ++ r = a' ++ r' -> a = a'.
Proof.
  intros f a. induction a as [|c a IH]; intros [|c' a'] r r' H H' N N' E; auto; cbn [app] in E.
  - subst r. inversion H'; subst. cbn in N. rewrite H2 in N. discriminate.
  - subst r'. inversion H; subst. cbn in N'. rewrite H2 in N'. discriminate.
  - injection E as -> E. inversion H; inversion H'; subst. f_equal. apply (IH a' r r'); auto.
Qed.
Lemma ws_span : forall w w' r r', Forall jws w -> Forall jws w' -> headB (fun c => negb (wsB c)) r = true -> headB (fun c => negb (wsB c)) r' = true -> w ++ r = w' ++ r' -> w = w' /\ r = r'.
Proof.
  intros w w' r r' H H' N N' E. assert (w = w').
  { apply (span wsB w w' r r'); auto; eapply Forall_impl; try eassumption; intros; apply jws_B; auto. }
  subst. split; auto. eapply app_inv_head; eauto.
Qed.
Lemma number_chars : forall t, jnumber t -> Forall (fun c => numB c = true) t /\ exists c s, t = c :: s /\ (c = "-" \/ digitC c).
Proof.
  intros t (m & ip & fp & ex & -> & Hm & Hi & Hf & He).
  assert (D : forall d, Forall digitC d -> Forall (fun c => numB c = true) d) by (intros; eapply Forall_impl; [exact digit_num|auto]).
  split.
  - rewrite !Forall_app. repeat split.
    + destruct Hm as [->| ->]; repeat constructor.
    + destruct Hi as [->|(c & d & -> & Hc & _ & Hd)]; repeat constructor; auto using digit_num.
    + destruct Hf as [->|(d & -> & _ & Hd)]; repeat constructor; auto.
    + destruct He as [->|(e & s & d & -> & He & Hs & _ & Hd)]; [constructor|]. constructor; [destruct He as [->| ->]; reflexivity|]. apply Forall_app. split; auto.
      destruct Hs as [->|[->| ->]]; repeat constructor.
  - destruct Hm as [->| ->]; [|cbn; eauto]. cbn [app]. destruct Hi as [->|(c & d & -> & Hc & _)]; cbn [app]; eexists; eexists; (split; [reflexivity|]); auto.
    right. unfold digitC. cbn. auto.
Qed.
Lemma number_head : forall t, jnumber t -> exists c s, t = c :: s /\ numB c = true.
Proof. intros t H. destruct (number_chars t H) as (A & c & s & -> & _). inversion A; subst. eauto. Qed.
Definition startB (c : ascii) : bool := existsb (Ascii.eqb c) ["{"; "["; quote; "t"; "f"; "n"] || numB c.
Lemma value_head : forall t v, jvalue t v -> exists c s, t = c :: s /\ startB c = true.
Proof.
  intros t v H. destruct H; try (eexists; eexists; split; [reflexivity|reflexivity]). destruct (number_head _ H) as (c & s & -> & E). exists c, s. split; auto. unfold startB. rewrite E. apply orb_true_r.
Qed.
Lemma start_ws : forall c, startB c = true -> wsB c = false /\ delB c = false.
Proof.
  intros c H. unfold startB in H. apply orb_prop in H. assert (A : In c (["{"; "["; quote; "t"; "f"; "n"] ++ ["0"; "1"; "2"; "3"; "4"; "5"; "6"; "7"; "8"; "9"; "-"; "+"; "."; "e"; "E"])).
  { apply in_or_app. destruct H as [H|H]; [left|right]; apply inB; exact H. }
  cbn [app In] in A. repeat (destruct A as [<-|A]; [split; reflexivity|]). contradiction.
Qed.
Lemma del_ws : forall c, delB c = true -> wsB c = false /\ numB c = false.
Proof. intros c H. apply inB in H. cbn [In] in H. repeat (destruct H as [<-|H]; [split; reflexivity|]). contradiction. Qed.
Lemma ws_num : forall c, wsB c = true -> numB c = false.
Proof. intros c H. apply inB in H. cbn [In] in H. repeat (destruct H as [<-|H]; [reflexivity|]). contradiction. Qed.

Lemma chars_uniq : forall s u, jchars s u -> forall s' u' r r', jchars s' u' -> s ++ quote :: r = s' ++ quote :: r' -> s = s' /\ u = u' /\ r = r'.
Proof.
  assert (CQ : ~ cleanC quote) by (intros (_ & C & _); apply C; reflexivity). assert (CB : ~ cleanC backslash) by (intros (_ & _ & C); apply C; reflexivity).
  intros s u H. induction H as [|c s u Hc H IH|c d s u Hi H IH|a b c d s u Ha Hb Hc Hd H IH]; intros s' u' r r' H' E.
  - destruct H'; cbn [app] in E; injection E as E; try discriminate; subst; auto. contradiction.
  - destruct H' as [|c' s' u' Hc' H'|c' d' s' u' Hi' H'|]; cbn [app] in E; injection E as E E2; subst; try contradiction. destruct (IH _ _ _ _ H' E2) as (-> & -> & ->). auto.
  - destruct H' as [|c' s' u' Hc' H'|c' d' s' u' Hi' H'|]; cbn [app] in E; [discriminate E|injection E as E E2; subst; contradiction| |].
    + injection E as E E2; subst. destruct (IH _ _ _ _ H' E2) as (-> & -> & ->). replace d' with d; auto.
      cbn [In] in Hi, Hi'. repeat (destruct Hi as [Hi|Hi]; [injection Hi as <- <-; repeat (destruct Hi' as [Hi'|Hi']; [try discriminate Hi'; injection Hi' as <-; reflexivity|]); contradiction|]). contradiction.
    + injection E as E E2; subst. exfalso. cbn [In] in Hi. repeat (destruct Hi as [Hi|Hi]; [discriminate Hi|]). contradiction.
  - destruct H' as [|c' s' u' Hc' H'|c' d' s' u' Hi' H'|a' b' c' d' s' u' Ha' Hb' Hc' Hd' H']; cbn [app] in E; [discriminate E|injection E as E E2; subst; contradiction| |].
    + injection E as E E2; subst. exfalso. cbn [In] in Hi'. repeat (destruct Hi' as [Hi'|Hi']; [discriminate Hi'|]). contradiction.
    + injection E as -> -> -> -> E2. destruct (IH _ _ _ _ H' E2) as (-> & -> & ->). auto.
Qed.

Definition fol (r : text) : Prop := headB (fun c => wsB c || delB c) r = true.
Definition del (r : text) : Prop := headB delB r = true.
Lemma fol_num : forall r, fol r -> headB (fun c => negb (numB c)) r = true.
Proof. intros [|c r] H; auto. unfold fol in H. cbn [headB] in *. apply orb_prop in H. destruct H as [H|H]; [rewrite ws_num|apply del_ws in H; rewrite (proj2 H)]; auto. Qed.
Lemma del_nws : forall r, del r -> headB (fun c => negb (wsB c)) r = true.
Proof. intros [|c r] H; auto. unfold del in H. cbn [headB] in *. apply del_ws in H. rewrite (proj1 H). auto. Qed.
Lemma fol_app : forall w r, Forall jws w -> del r -> fol (w ++ r).
Proof. intros [|c w] r H D. - cbn [app]. unfold fol, del in *. destruct r; auto. cbn [headB] in *. rewrite D. apply orb_true_r. - inversion H; subst. unfold fol. cbn [app headB]. apply jws_B in H2. rewrite H2. reflexivity. Qed.
Lemma value_nws : forall t v r, jvalue t v -> headB (fun c => negb (wsB c)) (t ++ r) = true.
Proof. intros t v r H. destruct (value_head _ _ H) as (c & s & -> & E). cbn [app headB]. rewrite (proj1 (start_ws c E)). reflexivity. Qed.
(* white space then a closing bracket is not the start of elements or members *)
Lemma element_bracket : forall t v w r c s, jelement t v -> Forall jws w -> delB c = true -> t ++ r = w ++ c :: s -> False.
Proof.
  intros t v w r c s [w1 t0 w2 v0 H1 H2 H3] Hw Hc E. rewrite <- !app_assoc in E. destruct (value_head _ _ H2) as (c0 & s0 & -> & E0). apply start_ws in E0. cbn [app] in E.
  apply ws_span in E; auto; [|cbn [headB]; rewrite (proj1 E0); auto|cbn [headB]; rewrite (proj1 (del_ws c Hc)); auto]. destruct E as (_ & E). injection E as -> _. rewrite Hc in E0. destruct E0. discriminate.
Qed.
Lemma elements_bracket : forall t vs w r c s, jelements t vs -> Forall jws w -> delB c = true -> t ++ r = w ++ c :: s -> False.
Proof. intros t vs w r c s [t0 v H|t0 v t' vs' H H'] Hw Hc E; [|rewrite <- app_assoc in E]; eapply element_bracket; eauto. Qed.
Lemma members_bracket : forall t vs w r c s, jmembers t vs -> Forall jws w -> delB c = true -> t ++ r = w ++ c :: s -> False.
Proof.
  assert (M : forall t m w r c s, jmember t m -> Forall jws w -> delB c = true -> t ++ r = w ++ c :: s -> False).
  { intros t m w r c s [w1 s0 k w2 t0 v H1 H2 H3 H4] Hw Hc E. rewrite <- !app_assoc in E. cbn [app] in E. apply ws_span in E; auto; [|cbn [headB]; rewrite (proj1 (del_ws c Hc)); auto]. destruct E as (_ & E). injection E as <- _. discriminate Hc. }
  intros t vs w r c s [t0 m H|t0 m t' ms H H'] Hw Hc E; [|rewrite <- app_assoc in E]; eapply M; eauto.
Qed.

Ltac heads := try (exfalso; match goal with N : jnumber _ |- _ => destruct (number_head _ N) as (? & ? & -> & ?) end; cbn [app tTrue tFalse tNull] in *; match goal with E : _ :: _ = _ :: _ |- _ => injection E as ? ?; subst; discriminate end).
Theorem prefix_uniq :
  (forall t v, jvalue t v -> forall t' v' r r', jvalue t' v' -> t ++ r = t' ++ r' -> fol r -> fol r' -> t = t' /\ v = v') /\
  (forall t v, jelement t v -> forall t' v' r r', jelement t' v' -> t ++ r = t' ++ r' -> del r -> del r' -> t = t' /\ v = v') /\
  (forall t v, jelements t v -> forall t' v' r r', jelements t' v' -> t ++ "]" :: r = t' ++ "]" :: r' -> t = t' /\ v = v') /\
  (forall t v, jmember t v -> forall t' v' r r', jmember t' v' -> t ++ r = t' ++ r' -> del r -> del r' -> t = t' /\ v = v') /\
  (forall t v, jmembers t v -> forall t' v' r r', jmembers t' v' -> t ++ "}" :: r = t' ++ "}" :: r' -> t = t' /\ v = v').
Proof.
  apply json_mut.
  - intros w Hw t' v' r r' H' E _ _. destruct H' as [w' Hw'|t' ms Hm| | | |t' Hn| | |]; try discriminate E; heads.
    + cbn [app] in E. injection E as E. rewrite <- !app_assoc in E. apply ws_span in E; auto. destruct E as (-> & _). auto.
    + cbn [app] in E. injection E as E. rewrite <- !app_assoc in E. cbn [app] in E. exfalso. eapply members_bracket; [exact Hm|exact Hw| |symmetry; exact E]. reflexivity.
  - intros t ms Hm IH t' v' r r' H' E _ _. destruct H' as [w' Hw'|t' ms' Hm'| | | |t' Hn| | |]; try discriminate E; heads.
    + cbn [app] in E. injection E as E. rewrite <- !app_assoc in E. cbn [app] in E. exfalso. eapply members_bracket; [exact Hm|exact Hw'| |exact E]. reflexivity.
    + cbn [app] in E. injection E as E. rewrite <- !app_assoc in E. cbn [app] in E. destruct (IH _ _ _ _ Hm' E) as (-> & ->). auto.
  - intros w Hw t' v' r r' H' E _ _. destruct H' as [| |w' Hw'|t' vs Hm| |t' Hn| | |]; try discriminate E; heads.
    + cbn [app] in E. injection E as E. rewrite <- !app_assoc in E. apply ws_span in E; auto. destruct E as (-> & _). auto.
    + cbn [app] in E. injection E as E. rewrite <- !app_assoc in E. cbn [app] in E. exfalso. eapply elements_bracket; [exact Hm|exact Hw| |symmetry; exact E]. reflexivity.
  - intros t ms Hm IH t' v' r r' H' E _ _. destruct H' as [| |w' Hw'|t' ms' Hm'| |t' Hn| | |]; try discriminate E; heads.
    + cbn [app] in E. injection E as E. rewrite <- !app_assoc in E. cbn [app] in E. exfalso. eapply elements_bracket; [exact Hm|exact Hw'| |exact E]. reflexivity.
    + cbn [app] in E. injection E as E. rewrite <- !app_assoc in E. cbn [app] in E. destruct (IH _ _ _ _ Hm' E) as (-> & ->). auto.
  - intros s u Hs t' v' r r' H' E _ _. destruct H' as [| | | |s' u' Hs'|t' Hn| | |]; try discriminate E; heads.
    cbn [app] in E. injection E as E. rewrite <- !app_assoc in E. cbn [app] in E. destruct (chars_uniq _ _ Hs _ _ _ _ Hs' E) as (-> & -> & _). auto.
  - intros t Hn t' v' r r' H' E Fr Fr'. destruct H' as [| | | | |t' Hn'| | |];
      try (exfalso; destruct (number_head _ Hn) as (c & s0 & -> & C); cbn [app tTrue tFalse tNull] in E; injection E as -> _; discriminate C).
    assert (t = t') by (eapply (span numB); [apply number_chars; exact Hn|apply number_chars; exact Hn'|apply fol_num; exact Fr|apply fol_num; exact Fr'|exact E]). subst. auto.
  - intros t' v' r r' H' E _ _. destruct H' as [| | | | |t' Hn| | |]; try discriminate E; heads; auto.
  - intros t' v' r r' H' E _ _. destruct H' as [| | | | |t' Hn| | |]; try discriminate E; heads; auto.
  - intros t' v' r r' H' E _ _. destruct H' as [| | | | |t' Hn| | |]; try discriminate E; heads; auto.
  - intros w1 t w2 v H1 Hv IH H2 t' v' r r' H' E D D'. destruct H' as [w1' t' w2' v' H1' Hv' H2']. rewrite <- !app_assoc in E.
    apply ws_span in E; auto; try (eapply value_nws; eauto). destruct E as (-> & E). destruct (IH _ _ _ _ Hv' E) as (-> & ->); auto using fol_app. apply app_inv_head in E. apply ws_span in E; auto using del_nws. destruct E as (-> & _). auto.
  - intros t v He IH t' v' r r' H' E. destruct H' as [t' v' He'|t' v' t2 vs He' Hs'].
    + destruct (IH _ _ _ _ He' E) as (-> & ->); auto; reflexivity.
    + rewrite <- app_assoc in E. cbn [app] in E. destruct (IH _ _ _ _ He' E) as (-> & ->); try reflexivity. apply app_inv_head in E. discriminate.
  - intros t v t2 vs He IH Hs IHs t' v' r r' H' E. rewrite <- app_assoc in E. cbn [app] in E. destruct H' as [t' v' He'|t' v' t2' vs' He' Hs'].
    + destruct (IH _ _ _ _ He' E) as (-> & ->); try reflexivity. apply app_inv_head in E. discriminate.
    + rewrite <- app_assoc in E. cbn [app] in E. destruct (IH _ _ _ _ He' E) as (-> & ->); try reflexivity. apply app_inv_head in E. injection E as E. destruct (IHs _ _ _ _ Hs' E) as (-> & ->). auto.
  - intros w1 s k w2 t v H1 Hk H2 He IH t' v' r r' H' E D D'. destruct H' as [w1' s' k' w2' t' v' H1' Hk' H2' He']. rewrite <- !app_assoc in E. cbn [app] in E.
    apply ws_span in E; auto. destruct E as (-> & E). injection E as E. rewrite <- !app_assoc in E. cbn [app] in E. destruct (chars_uniq _ _ Hk _ _ _ _ Hk' E) as (-> & -> & E2). rewrite <- !app_assoc in E2. cbn [app] in E2.
    apply ws_span in E2; auto. destruct E2 as (-> & E2). injection E2 as E2. destruct (IH _ _ _ _ He' E2) as (-> & ->); auto.
  - intros t v He IH t' v' r r' H' E. destruct H' as [t' v' He'|t' v' t2 vs He' Hs'].
    + destruct (IH _ _ _ _ He' E) as (-> & ->); auto; reflexivity.
    + rewrite <- app_assoc in E. cbn [app] in E. destruct (IH _ _ _ _ He' E) as (-> & ->); try reflexivity. apply app_inv_head in E. discriminate.
  - intros t v t2 vs He IH Hs IHs t' v' r r' H' E. rewrite <- app_assoc in E. cbn [app] in E. destruct H' as [t' v' He'|t' v' t2' vs' He' Hs'].
    + destruct (IH _ _ _ _ He' E) as (-> & ->); try reflexivity. apply app_inv_head in E. discriminate.
    + rewrite <- app_assoc in E. cbn [app] in E. destruct (IH _ _ _ _ He' E) as (-> & ->); try reflexivity. apply app_inv_head in E. injection E as E. destruct (IHs _ _ _ _ Hs' E) as (-> & ->). auto.
Qed.
Theorem json_uniq : forall t v v', jvalue t v -> jvalue t v' -> v = v'.
Proof. intros t v v' H H'. apply (proj1 prefix_uniq t v H t v' [] [] H'); reflexivity. Qed.
