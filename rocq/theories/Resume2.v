(* Resume2.v - fit called twice does what one call does *)
From Coq Require Import String List Arith Bool Lia ZArith.
From Verif Require Import Base Scalar Mat SpecMat LayMat LayImg Layer Net MatProofs NetProofs1 NetProofs2 Loss Optim Regul NetTrain TrainProofs1 TrainProofs2 SpecFit StaleNet FitLay1 FitNet1 FitNet2 FitNet3 FitRun SpecResume Resume1.
Import ListNotations.
Local Open Scope nat_scope.

Section Resume.
Variable F : FOps.
Notation cabs := (absFloat F).
Notation M := (mat F).

Lemma forN_add : forall S (body : nat -> S -> res S) a b s, forN (a + b) body s = bind (forN a body s) (forN b (fun i => body (a + i))).
Proof.
  intros S body a b s. unfold forN. rewrite seq_app, forL_app. destruct (forL (seq 0 a) body s) as [s1|]; cbn [bind]; [|reflexivity]. cbn [Nat.add].
  assert (G : forall m k s, forL (seq (a + k) m) body s = forL (seq k m) (fun i => body (a + i)) s).
  { induction m as [|m IH]; intros k q; cbn [seq forL]; [reflexivity|]. destruct (body (a + k) q); cbn [bind]; [|reflexivity]. rewrite <- IH. rewrite Nat.add_succ_r. reflexivity. }
  specialize (G b 0 s1). rewrite Nat.add_0_r in G. exact G.
Qed.
(* the registered parameters *)
Definition hasAt (has : layer F -> bool) (h : heap F) (a : nat) : bool := match hget F h a with Ok l => has l | Err _ => false end.
Lemma collect_filter : forall h n has, (forall a, In a (nlay n) -> exists l, hget F h a = Ok l) -> collect F h n has = Ok (filter (hasAt has h) (nlay n)).
Proof.
  intros h [ls c tr] has Al. unfold collect. cbn [nlay] in *. unfold forN.
  assert (G : forall l2 l1 p, ls = l1 ++ l2 -> forL (seq (length l1) (length l2)) (fun i p => a <- rget ls i ;; l <- hget F h a ;; Ok (if has l then p ++ [a] else p)) p = Ok (p ++ filter (hasAt has h) l2)).
  { induction l2 as [|a l2 IH]; intros l1 p El; cbn [length seq forL]; [rewrite app_nil_r; reflexivity|].
    assert (Ea : rget ls (length l1) = Ok a). { unfold rget. rewrite El, nth_error_app2, Nat.sub_diag by lia. reflexivity. } rewrite Ea. cbn [bind].
    destruct (Al a) as [l E]. { rewrite El. apply in_or_app. right. left. auto. } rewrite E. cbn [bind]. specialize (IH (l1 ++ [a])). rewrite app_length in IH. cbn [length] in IH. rewrite Nat.add_1_r in IH. rewrite IH by (rewrite El, <- app_assoc; reflexivity).
    cbn [filter]. unfold hasAt at 2. rewrite E. destruct (has l); [rewrite <- app_assoc|]; reflexivity. }
  rewrite (G ls []) by reflexivity. reflexivity.
Qed.
Lemma shp_size : forall r c (m m' : M), shp r c m -> shp r c m' -> msize m' = msize m.
Proof. intros r c m m' (_ & A & B) (_ & A' & B'). unfold msize. congruence. Qed.
Lemma size0 : forall m : M, none m -> msize m = 0. Proof. intros m [_ H]. auto. Qed.
(* two states of a layer that is sized in the first: the same parameters are there *)
Lemma sized_w : forall l l' k m, fits l k m -> fits l' k m -> lk l' = lk l -> sized F l -> hasWeights l = false -> hasWeights l' = false.
Proof.
  intros l l' k m (_ & _ & _ & _ & _ & A) (_ & _ & _ & _ & _ & B) E S. unfold hasWeights. intro Hf. rewrite E in B. unfold sized in S.
  assert (Z : msize (lw l) = 0) by (destruct (Nat.eqb_spec (msize (lw l)) 0); [auto|discriminate]).
  destruct (lk l); try tauto; try (exfalso; apply S; exact Z).
  all: match goal with |- negb (?u =? 0) = false => replace u with 0; [reflexivity|] end.
  all: repeat match goal with H : _ /\ _ |- _ => destruct H end.
  all: solve [symmetry; apply size0; auto | match goal with H : shp ?r ?c (lw ?x), H' : shp ?r ?c (lw ?y), Z : msize (lw ?x) = 0 |- 0 = msize (lw ?y) => rewrite (shp_size _ _ _ _ H H'); auto end].
Qed.
Lemma sized_b : forall l l' k m, fits l k m -> fits l' k m -> lk l' = lk l -> sized F l -> hasBiases l = false -> hasBiases l' = false.
Proof.
  intros l l' k m (_ & _ & _ & _ & _ & A) (_ & _ & _ & _ & _ & B) E S. unfold hasBiases. intro Hf. rewrite E in B. unfold sized in S.
  assert (Z : msize (lb l) = 0) by (destruct (Nat.eqb_spec (msize (lb l)) 0); [auto|discriminate]).
  destruct (lk l); try tauto; try (exfalso; apply S; exact Z).
  all: match goal with |- negb (?u =? 0) = false => replace u with 0; [reflexivity|] end.
  all: repeat match goal with H : _ /\ _ |- _ => destruct H end.
  all: try solve [symmetry; apply size0; auto | match goal with H : shp ?r ?c (lb ?x), H' : shp ?r ?c (lb ?y), Z : msize (lb ?x) = 0 |- 0 = msize (lb ?y) => rewrite (shp_size _ _ _ _ H H'); auto end].
  (* LayerAffine *)
  match goal with H : _ \/ _ |- _ => destruct H as [[Q _]|[Q Q']]; [exfalso; apply S; apply (size0 _ Q)|] end.
  match goal with H : _ \/ _ |- _ => destruct H as [[_ P]|[_ P]]; [symmetry; apply (size0 _ P)|] end. rewrite (shp_size _ _ _ _ Q' P). auto.
Qed.
Lemma vresize_full : forall (v : list M) k, length v = k -> vresize F v k = v.
Proof. intros v k <-. unfold vresize. rewrite firstn_all, Nat.sub_diag. cbn. apply app_nil_r. Qed.

(** * setNet on a trainer that has been given this network *)
Definition freshOpts (t : trainer F) (k : nat) : res (list (opt F)) :=
  forN k (fun _ os => match create_optimizer (cOpt F (tc F t)) with Some k => Ok (os ++ [set_params F (newOpt F k) (cLr F (tc F t)) (cDecay F (tc F t)) (cMom F (tc F t))]) | None => Err ENull end) [].
Lemma fresh_steady : forall t k os o, create_optimizer (cOpt F (tc F t)) = Some o -> stateless o -> freshOpts t k = Ok os -> List.Forall (steady (F := F)) os.
Proof.
  intros t k os o Ho Hs E. unfold freshOpts in E. apply (forN_postI _ (fun _ os => List.Forall (steady (F := F)) os)) in E; [exact E|constructor|].
  intros i l l' _ I Eb. cbn beta in *. rewrite Ho in Eb. injection Eb as <-. apply Forall_app. split; auto. constructor; [|constructor]. unfold set_params. apply init_steady. exact Hs.
Qed.
Lemma setNet_again : forall h n (t : trainer F) a0 l0 r, nlay n = a0 :: r -> hget F h a0 = Ok l0 -> lfirst l0 = true -> (forall a, In a (nlay n) -> exists l, hget F h a = Ok l) ->
  tnl F t = length (nlay n) -> length (tinOut F t) = S (length (nlay n)) -> length (tgrad F t) = S (length (nlay n)) ->
  tpw F t = filter (hasAt hasWeights h) (nlay n) -> tpb F t = filter (hasAt hasBiases h) (nlay n) -> freshOpts t (length (tpw F t) + length (tpb F t)) = Ok (topts F t) ->
  setNet F h n t = Ok (h, t).
Proof.
  intros h n t a0 l0 r En E0 Fl Al Tn Ti Tg Tw Tb To. unfold setNet. cbv zeta. rewrite En at 1. rewrite E0. cbn [bind]. rewrite (hset_ok _ _ _ _ _ E0). cbn [bind].
  replace (upd h a0 (Some (setFirst l0 true))) with h.
  2:{ symmetry. apply upd_same. unfold hget, rget in E0. destruct (nth_error h a0) as [[q|]|]; cbn [bind] in E0; try discriminate. injection E0 as ->. f_equal. f_equal. destruct l0; cbn in *. rewrite Fl. reflexivity. }
  rewrite !collect_filter by auto. cbn [bind]. rewrite <- Tw, <- Tb.
  match goal with |- bind ?a _ = _ => change a with (freshOpts t (length (tpw F t) + length (tpb F t))) end. rewrite To. cbn [bind]. rewrite Nat.add_1_r, !vresize_full by auto. rewrite <- Tn. destruct t; reflexivity.
Qed.
End Resume.
