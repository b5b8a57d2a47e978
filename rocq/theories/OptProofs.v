(* OptProofs.v - the optimisers, coordinate by coordinate *)
From Coq Require Import List Arith Bool ZArith Lia.
From Verif Require Import Base Scalar Mat SpecMat MatFacts MatProofs MatLoops Loss LossProofs Optim SpecOpt.
Import ListNotations.
Local Open Scope nat_scope.

Section Opt.
Variable F : FOps.
Notation M := (mat F).

(* state of one coordinate *)
Record cst := mkC { cm : F; cv : F; cp : F }.

(* the state with which the first step starts *)
Definition cinit (k : optKind) (g : F) : cst :=
  match k with
  | OMomentumNg => mkC (f0 F) g (f0 F)
  | ORPROPm | OiRPROPm => mkC (f0 F) (flit F 125 10000) g
  | _ => mkC (f0 F) (f0 F) (f0 F)
  end.

Definition floor8 (x : F) : F := stdmax F x (eps F).
Definition sqr (x : F) : F := fmul F x x.
Definition mix (b x g : F) : F := fadd F (fmul F x b) (fmul F g (oneMinus F b)).

Definition cstep (k : optKind) (lr dec mom b1 b2 : F) (s : cst) (w g : F) : cst * F :=
  match k with
  | ONone => (s, w)
  | OStep => (s, fsub F w (fmul F (fsign F g) lr))
  | OSGD => (s, fsub F w (fmul F g lr))
  | OMomentum => let v := fadd F (fmul F (cv s) mom) (fmul F g lr) in (mkC (cm s) v (cp s), fsub F w v)
  | OMomentumNg => let v := mix mom (cv s) g in (mkC (cm s) v (cp s), fsub F w (fmul F v lr))
  | ONesterov => let v := fsub F (fmul F (cv s) mom) (fmul F g lr) in
      (mkC (cm s) v (cv s), fadd F w (fadd F (fmul F (fopp F (cv s)) mom) (fmul F v (fadd F (f1 F) mom))))
  | OAdagrad => let c := fadd F (cv s) (sqr g) in
      (mkC (cm s) c (cp s), fadd F w (fmul F (fdiv F g (floor8 (flm F Lsqrt c))) (fopp F lr)))
  | ORMSProp => let c := mix dec (cv s) (sqr g) in
      (mkC (cm s) c (cp s), fadd F w (fmul F (fdiv F g (floor8 (flm F Lsqrt c))) (fopp F lr)))
  | OAdam | OAdamW =>
      let m := mix (beta1 F) (cm s) g in let v := mix (beta2 F) (cv s) (sqr g) in
      let d := fmul F (fdiv F m (floor8 (flm F Lsqrt (fmul F v (fdiv F (f1 F) (oneMinus F b2)))))) (fdiv F lr (oneMinus F b1)) in
      (mkC m v (cp s), fsub F w (match k with OAdamW => fadd F d (fmul F w (lambda_regul F)) | _ => d end))
  | OAmsgrad =>
      let m := mix (beta1 F) (cm s) g in let v := mix (beta2 F) (cv s) (sqr g) in let h := stdmax F v (cp s) in
      (mkC m v h, fsub F w (fmul F (fdiv F m (floor8 (flm F Lsqrt h))) lr))
  | ONadam =>
      let m := mix (beta1 F) (cm s) g in let v := mix (beta2 F) (cv s) (sqr g) in
      let n := fadd F (fmul F m (beta1 F)) (fdiv F (fmul F g (oneMinus F (beta1 F))) (oneMinus F b1)) in
      (mkC m v (cp s), fadd F w (fmul F (fdiv F n (floor8 (flm F Lsqrt v))) (fopp F lr)))
  | OAdamax =>
      let m := mix (beta1 F) (cm s) g in let u := stdmax F (fmul F (cv s) (beta2 F)) (fabs F g) in
      (mkC m u (cp s), fadd F w (fmul F (fdiv F m (floor8 u)) (fdiv F (fopp F lr) (oneMinus F b1))))
  | ORPROPm => let u := muUpdate F (fmul F g (cp s)) (cv s) in (mkC (cm s) u g, rpropMove F w g u)
  | OiRPROPm => let f := fmul F g (cp s) in let u := muUpdate F f (cv s) in
      let g' := if flt F f (f0 F) then f0 F else g in (mkC (cm s) u g', rpropMove F w g' u)
  end.

Definition next1 (k : optKind) (b1 : F) : F :=
  match k with OAdam | OAdamW | ONadam | OAdamax => fmul F b1 (beta1 F) | _ => b1 end.
Definition next2 (k : optKind) (b2 : F) : F :=
  match k with OAdam | OAdamW | ONadam => fmul F b2 (beta2 F) | _ => b2 end.

(* the matrices held by the object are those of the coordinate states *)
Definition stored (r c : nat) (o : opt F) (st : nat -> nat -> cst) : Prop :=
  match okind F o with
  | ONone | OStep | OSGD => True
  | OMomentum | OMomentumNg | ONesterov | OAdagrad | ORMSProp => s_v F o = mgen r c (fun i j => cv (st i j))
  | OAdam | OAdamW | ONadam | OAdamax =>
      s_m F o = mgen r c (fun i j => cm (st i j)) /\ s_v F o = mgen r c (fun i j => cv (st i j))
  | OAmsgrad => s_m F o = mgen r c (fun i j => cm (st i j)) /\ s_v F o = mgen r c (fun i j => cv (st i j)) /\
      s_p F o = mgen r c (fun i j => cp (st i j))
  | ORPROPm | OiRPROPm => s_v F o = mgen r c (fun i j => cv (st i j)) /\ s_p F o = mgen r c (fun i j => cp (st i j))
  end.

(* what the tests "size()==0" at the beginning of optimize() load *)
Definition loaded (r c : nat) (o : opt F) (g : nat -> nat -> F) (st : nat -> nat -> cst) : Prop :=
  let z := zeroIfEmpty F (s_v F o) in
  match okind F o with
  | ONone | OStep | OSGD => True
  | OMomentum | ONesterov | OAdagrad | ORMSProp => z (s_v F o) r c = Ok (mgen r c (fun i j => cv (st i j)))
  | OMomentumNg => (if msize (s_v F o) =? 0 then mgen r c g else s_v F o) = mgen r c (fun i j => cv (st i j))
  | OAdam | OAdamW | ONadam | OAdamax =>
      z (s_m F o) r c = Ok (mgen r c (fun i j => cm (st i j))) /\ z (s_v F o) r c = Ok (mgen r c (fun i j => cv (st i j)))
  | OAmsgrad =>
      z (s_m F o) r c = Ok (mgen r c (fun i j => cm (st i j))) /\ z (s_v F o) r c = Ok (mgen r c (fun i j => cv (st i j))) /\
      z (s_p F o) r c = Ok (mgen r c (fun i j => cp (st i j)))
  | ORPROPm | OiRPROPm =>
      (if msize (s_p F o) =? 0 then msetConst F (mresize F (s_v F o) r c) (flit F 125 10000) else Ok (s_v F o)) =
        Ok (mgen r c (fun i j => cv (st i j))) /\
      (if msize (s_p F o) =? 0 then mgen r c g else s_p F o) = mgen r c (fun i j => cp (st i j))
  end.

Definition fresh (o : opt F) : Prop :=
  mwf (s_m F o) /\ mwf (s_v F o) /\ mwf (s_p F o) /\
  match okind F o with
  | ONone | OStep | OSGD => True
  | ORPROPm | OiRPROPm => msize (s_p F o) = 0
  | _ => msize (s_v F o) = 0
  end.

Lemma msize_mgen : forall A r c (f : nat -> nat -> A), msize (mgen r c f) = r * c.
Proof. reflexivity. Qed.

Lemma mgen_empty : forall A r c (f g : nat -> nat -> A), r * c = 0 -> mgen r c f = mgen r c g.
Proof. intros. apply mgen_ext. intros. nia. Qed.

Lemma stored_loaded : forall r c o st g, stored r c o st -> loaded r c o g st.
Proof.
  intros r c o st g S. unfold stored, loaded, zeroIfEmpty in *.
  destruct (Nat.eqb_spec (r * c) 0) as [H|H].
  - destruct (okind F o); auto; repeat match goal with H : _ /\ _ |- _ => destruct H end;
    repeat match goal with H : _ = mgen _ _ _ |- _ => rewrite H; clear H end; rewrite ?msize_mgen, ?H; cbn [Nat.eqb];
    rewrite ?(msetZero_gen F) by apply mwf_gen; repeat split; try apply Ok_eq; try apply mgen_empty; auto.
    + destruct (mresize_gen F (mgen r c (fun i j => cv (st i j))) r c (mwf_gen _ _ _ _)) as (f & ->).
      unfold msetConst. rewrite (@mapLoop_gen F). apply Ok_eq, mgen_empty; auto.
    + destruct (mresize_gen F (mgen r c (fun i j => cv (st i j))) r c (mwf_gen _ _ _ _)) as (f & ->).
      unfold msetConst. rewrite (@mapLoop_gen F). apply Ok_eq, mgen_empty; auto.
  - assert (E : (r * c =? 0) = false) by (apply Nat.eqb_neq; auto).
    destruct (okind F o); auto; repeat match goal with H : _ /\ _ |- _ => destruct H end;
    repeat match goal with H : _ = mgen _ _ _ |- _ => rewrite H; clear H end; rewrite ?msize_mgen, ?E; auto.
Qed.

Lemma zero_fresh : forall (v m : M) r c, msize v = 0 -> mwf m ->
  zeroIfEmpty F v m r c = Ok (mgen r c (fun _ _ => f0 F)).
Proof. intros. unfold zeroIfEmpty. rewrite H. simpl. apply msetZero_gen; auto. Qed.

Lemma fresh_loaded : forall r c o g, fresh o -> loaded r c o g (fun i j => cinit (okind F o) (g i j)).
Proof.
  intros r c o g (Wm & Wv & Wp & H). unfold loaded.
  destruct (okind F o); auto; cbn [cinit cm cv cp]; rewrite ?zero_fresh by auto; auto; rewrite H; simpl; auto.
  - split; auto. apply (msetConstR_gen F (s_v F o)); auto.
  - split; auto. apply (msetConstR_gen F (s_v F o)); auto.
Qed.

Ltac ops := unfold msign, msqrt, mabs2, mmaxS, mscale, mdivS, mneg;
  repeat (rewrite ?(@mapLoop_gen F), ?(msubM_gen F), ?(maddM_gen F), ?(mcwiseQuotient_gen F); cbn [bind]).

Lemma mmaxM_gen : forall r c f g, mmaxM F (mgen r c f) (mgen r c g) = Ok (mgen r c (fun i j => stdmax F (f i j) (g i j))).
Proof. intros. unfold mmaxM, sameDims. cbn [mrows mcols mgen]. rewrite !Nat.eqb_refl. cbn [assert_ bind]. apply zipLoop_gen. Qed.

Lemma rprop_loop : forall r c (body : nat -> M * M -> res (M * M)) (h : nat -> F * F -> F * F) (mu w : nat -> F),
  (forall i p q, i < r * c -> body i (mflat r c p, mflat r c q) =
     Ok (mflat r c (fupd p i (fst (h i (p i, q i)))), mflat r c (fupd q i (snd (h i (p i, q i)))))) ->
  forN (r * c) body (mflat r c mu, mflat r c w) =
  Ok (mflat r c (fun i => fst (h i (mu i, w i))), mflat r c (fun i => snd (h i (mu i, w i)))).
Proof.
  intros r c body h mu w H.
  pose (emb := fun p : nat -> F * F => (mflat r c (fun i => fst (p i)), mflat r c (fun i => snd (p i)))).
  change (mflat r c mu, mflat r c w) with (emb (fun i => (mu i, w i))).
  rewrite (@forN_sim _ _ emb) with (step := fun i p => fupd p i (h i (p i))).
  2:{ intros i p Hi. unfold emb. rewrite H by auto. apply Ok_eq. f_equal; apply mflat_ext; intros k Hk; unfold fupd;
      destruct (i =? k) eqn:E; auto; cbn; rewrite <- surjective_pairing; auto. }
  apply Ok_eq. unfold emb. f_equal; apply mflat_ext; intros k Hk;
  rewrite (@fold_point nat (F * F) nat (fun x q => fupd q x (h x (q x))) (fun x v => if x =? k then h x v else v)) by
    (intros x q; unfold fupd; destruct (Nat.eqb_spec x k); subst; auto);
  rewrite (@fold_hit0 _ h) by auto; reflexivity.
Qed.

Lemma irprop_loop : forall r c (body : nat -> M * M * M -> res (M * M * M)) (h : nat -> F * F * F -> F * F * F) (mu w old : nat -> F),
  (forall i p q o, i < r * c -> body i (mflat r c p, mflat r c q, mflat r c o) =
     Ok (mflat r c (fupd p i (fst (fst (h i (p i, q i, o i))))), mflat r c (fupd q i (snd (fst (h i (p i, q i, o i))))),
         mflat r c (fupd o i (snd (h i (p i, q i, o i)))))) ->
  forN (r * c) body (mflat r c mu, mflat r c w, mflat r c old) =
  Ok (mflat r c (fun i => fst (fst (h i (mu i, w i, old i)))), mflat r c (fun i => snd (fst (h i (mu i, w i, old i)))),
      mflat r c (fun i => snd (h i (mu i, w i, old i)))).
Proof.
  intros r c body h mu w old H.
  pose (emb := fun p : nat -> F * F * F => (mflat r c (fun i => fst (fst (p i))), mflat r c (fun i => snd (fst (p i))),
     mflat r c (fun i => snd (p i)))).
  change (mflat r c mu, mflat r c w, mflat r c old) with (emb (fun i => (mu i, w i, old i))).
  rewrite (@forN_sim _ _ emb) with (step := fun i p => fupd p i (h i (p i))).
  2:{ intros i p Hi. unfold emb. rewrite H by auto. apply Ok_eq.
      f_equal; [f_equal|]; apply mflat_ext; intros k Hk; unfold fupd;
      destruct (i =? k) eqn:E; auto; cbn; rewrite <- !surjective_pairing; auto. }
  apply Ok_eq. unfold emb. f_equal; [f_equal|]; apply mflat_ext; intros k Hk;
  rewrite (@fold_point nat (F * F * F) nat (fun x q => fupd q x (h x (q x))) (fun x v => if x =? k then h x v else v)) by
    (intros x q; unfold fupd; destruct (Nat.eqb_spec x k); subst; auto);
  rewrite (@fold_hit0 _ h) by auto; reflexivity.
Qed.

Lemma flat_back : forall r c (f : nat -> nat -> F), mflat r c (fun k => f (k / c) (k mod c)) = mgen r c f.
Proof. intros. symmetry. apply mgen_flat. Qed.

Lemma optimize_step : forall r c o st (w g : nat -> nat -> F), loaded r c o g st ->
  exists o', let st' i j := cstep (okind F o) (olr F o) (odecay F o) (omom F o) (b1p F o) (b2p F o) (st i j) (w i j) (g i j) in
  optimize F (absFloat F) o (mgen r c w) (mgen r c g) = Ok (o', mgen r c (fun i j => snd (st' i j))) /\
  stored r c o' (fun i j => fst (st' i j)) /\
  okind F o' = okind F o /\ olr F o' = olr F o /\ odecay F o' = odecay F o /\ omom F o' = omom F o /\
  b1p F o' = next1 (okind F o) (b1p F o) /\ b2p F o' = next2 (okind F o) (b2p F o).
Proof.
  intros r c o st w g L. unfold loaded in L. unfold optimize, cstep, stored, next1, next2.
  change (mrows (mgen r c w)) with r; change (mrows (mgen r c g)) with r;
  change (mcols (mgen r c w)) with c; change (mcols (mgen r c g)) with c. rewrite !Nat.eqb_refl. cbn [assert_ bind].
  destruct (okind F o) eqn:K; repeat match goal with H : _ /\ _ |- _ => destruct H end;
    repeat match goal with H : zeroIfEmpty _ _ _ _ _ = _ |- _ => rewrite H; clear H end;
    repeat match goal with H : (if _ then _ else _) = _ |- _ => rewrite H; clear H end; cbn [bind]; ops;
    try (rewrite (@mapLoopR_gen F (absFloat F) (fabs F)) by reflexivity; cbn [bind]);
    try (rewrite mmaxM_gen; cbn [bind]; ops);
    try (eexists; split; [reflexivity|]; cbn [okind olr odecay omom b1p b2p s_m s_v s_p]; rewrite ?K; repeat split; reflexivity).
  - (* RPROP- *)
    rewrite (mgen_flat _ r c g), (mgen_flat _ r c w), (mgen_flat _ r c (fun i j => cv (st i j))),
      (mgen_flat _ r c (fun i j => cp (st i j))).
    change (msize (mflat r c ?f)) with (r * c).
    rewrite rprop_loop with (h := fun k p => let gk := g (k / c) (k mod c) in
        let u := muUpdate F (fmul F gk (cp (st (k / c) (k mod c)))) (fst p) in (u, rpropMove F (snd p) gk u)).
    2:{ intros i p q Hi. cbv beta iota zeta. rewrite !mget1_flat by auto. cbn [bind]. rewrite ?mset1_flat by auto. cbn [bind].
        rewrite ?mget1_flat by auto. cbn [bind]. rewrite ?mset1_flat by auto. reflexivity. }
    cbn [bind fst snd]. eexists. split.
    { apply Ok_eq. f_equal. apply (flat_back r c (fun i j => rpropMove F (w i j) (g i j)
        (muUpdate F (fmul F (g i j) (cp (st i j))) (cv (st i j))))). }
    cbn [okind olr odecay omom b1p b2p s_m s_v s_p]. repeat split; auto.
    + apply (flat_back r c (fun i j => muUpdate F (fmul F (g i j) (cp (st i j))) (cv (st i j)))).
    + apply flat_back.
  - (* iRPROP- *)
    rewrite (mgen_flat _ r c g), (mgen_flat _ r c w), (mgen_flat _ r c (fun i j => cv (st i j))),
      (mgen_flat _ r c (fun i j => cp (st i j))).
    change (msize (mflat r c ?f)) with (r * c).
    rewrite irprop_loop with (h := fun k '(mu, x, old) => let gk := g (k / c) (k mod c) in
        let f := fmul F gk old in let u := muUpdate F f mu in
        let g' := if flt F f (f0 F) then f0 F else gk in (u, rpropMove F x g' u, g')).
    2:{ intros i p q o' Hi. cbv beta iota zeta. rewrite !mget1_flat by auto. cbn [bind]. rewrite ?mset1_flat by auto. cbn [bind].
        rewrite ?mget1_flat by auto. cbn [bind]. rewrite ?mset1_flat by auto. cbn [bind]. rewrite ?mset1_flat by auto. reflexivity. }
    cbn [bind fst snd]. eexists. split.
    { apply Ok_eq. f_equal. apply (flat_back r c (fun i j => let f := fmul F (g i j) (cp (st i j)) in
        rpropMove F (w i j) (if flt F f (f0 F) then f0 F else g i j) (muUpdate F f (cv (st i j))))). }
    cbn [okind olr odecay omom b1p b2p s_m s_v s_p]. repeat split; auto.
    + apply (flat_back r c (fun i j => muUpdate F (fmul F (g i j) (cp (st i j))) (cv (st i j)))).
    + apply (flat_back r c (fun i j => if flt F (fmul F (g i j) (cp (st i j))) (f0 F) then f0 F else g i j)).
Qed.

(* a whole run of one coordinate *)
Fixpoint crun (k : optKind) (lr dec mom b1 b2 : F) (s : cst) (w : F) (gs : list F) : cst * F :=
  match gs with
  | [] => (s, w)
  | g :: gs => let p := cstep k lr dec mom b1 b2 s w g in crun k lr dec mom (next1 k b1) (next2 k b2) (fst p) (snd p) gs
  end.
Definition crun0 (k : optKind) (lr dec mom b1 b2 : F) (w : F) (gs : list F) : cst * F :=
  crun k lr dec mom b1 b2 (cinit k (hd (f0 F) gs)) w gs.

Lemma run_stored : forall r c gs o st (w : nat -> nat -> F), stored r c o st ->
  exists o', let res i j := crun (okind F o) (olr F o) (odecay F o) (omom F o) (b1p F o) (b2p F o) (st i j) (w i j)
                               (map (fun g => g i j) gs) in
  optRun F (absFloat F) o (mgen r c w) (map (mgen r c) gs) = Ok (o', mgen r c (fun i j => snd (res i j))) /\
  stored r c o' (fun i j => fst (res i j)) /\ okind F o' = okind F o /\ olr F o' = olr F o.
Proof.
  intros r c. induction gs as [|g gs IH]; intros o st w S.
  - exists o. simpl. auto.
  - destruct (optimize_step r c o st w g (stored_loaded r c o st g S)) as (o1 & E & S1 & K & Elr & Ed & Em & E1 & E2).
    destruct (IH o1 _ (fun i j => snd (cstep (okind F o) (olr F o) (odecay F o) (omom F o) (b1p F o) (b2p F o) (st i j) (w i j) (g i j))) S1)
      as (o' & E' & S' & K' & L').
    exists o'. cbn [map crun]. cbv zeta in E', S'. rewrite K, Elr, Ed, Em, E1, E2 in *. split; [|split; [exact S'|split; congruence]].
    unfold optRun in *. cbn [forL map]. cbv beta iota zeta in E |- *. rewrite E. cbn [bind]. exact E'.
Qed.

Lemma run_fresh : forall r c gs o (w : nat -> nat -> F), fresh o ->
  exists o', let res i j := crun0 (okind F o) (olr F o) (odecay F o) (omom F o) (b1p F o) (b2p F o) (w i j)
                               (map (fun g => g i j) gs) in
  optRun F (absFloat F) o (mgen r c w) (map (mgen r c) gs) = Ok (o', mgen r c (fun i j => snd (res i j))) /\
  (gs <> [] -> stored r c o' (fun i j => fst (res i j))) /\ okind F o' = okind F o /\ olr F o' = olr F o.
Proof.
  intros r c gs o w Fr. destruct gs as [|g gs].
  - exists o. simpl. split; auto. split; auto. congruence.
  - destruct (optimize_step r c o _ w g (fresh_loaded r c o g Fr)) as (o1 & E & S1 & K & Elr & Ed & Em & E1 & E2).
    destruct (run_stored r c gs o1 _ (fun i j => snd (cstep (okind F o) (olr F o) (odecay F o) (omom F o) (b1p F o) (b2p F o)
      (cinit (okind F o) (g i j)) (w i j) (g i j))) S1) as (o' & E' & S' & K' & L').
    exists o'. unfold crun0. cbn [map crun hd]. cbv zeta in E', S'. rewrite K, Elr, Ed, Em, E1, E2 in *.
    split; [|split; [intros; exact S'|split; congruence]].
    unfold optRun in *. cbn [forL map]. cbv beta iota zeta in E |- *. rewrite E. cbn [bind]. exact E'.
Qed.

(* init() leaves a fresh object *)
Lemma mresize_00 : forall m : M, mwf m -> msize (mresize F m 0 0) = 0.
Proof. intros m H. destruct (mresize_gen F m 0 0 H) as (f & ->). reflexivity. Qed.


Lemma fresh_init : forall o, wfOpt F o -> fresh (init F o).
Proof.
  intros o (Wm & Wv & Wp). unfold fresh, init. destruct (okind F o) eqn:K; cbn [okind s_m s_v s_p]; rewrite ?K;
  repeat split; auto using mresize_wf, mresize_00.
Qed.
Lemma wf_new : forall k, wfOpt F (newOpt F k).
Proof. intros; repeat split; reflexivity. Qed.
Lemma fresh_new : forall k, fresh (newOpt F k).
Proof. intros; destruct k; repeat split; reflexivity. Qed.
Lemma fresh_set_params : forall k lr dec mom, fresh (set_params F (newOpt F k) lr dec mom).
Proof. intros. apply fresh_init. apply wf_new. Qed.

(** C30 *)
Lemma coordinatewise : forall k lr dec mom r c (w : nat -> nat -> F) (gs : list (nat -> nat -> F)),
  exists o' (w' : nat -> nat -> F),
  optRun F (absFloat F) (set_params F (newOpt F k) lr dec mom) (mgen r c w) (map (mgen r c) gs) = Ok (o', mgen r c w') /\
  forall i j, i < r -> j < c -> exists o1,
  optRun F (absFloat F) (set_params F (newOpt F k) lr dec mom) (mgen 1 1 (fun _ _ => w i j))
    (map (fun g => mgen 1 1 (fun _ _ => g i j)) gs) = Ok (o1, mgen 1 1 (fun _ _ => w' i j)).
Proof.
  intros k lr dec mom r c w gs. set (o := set_params F (newOpt F k) lr dec mom).
  assert (Fr : fresh o) by apply fresh_set_params.
  destruct (run_fresh r c gs o w Fr) as (o' & E & _). exists o'. eexists. split; [exact E|].
  intros i j Hi Hj.
  destruct (run_fresh 1 1 (map (fun (g : nat -> nat -> F) => fun _ _ : nat => g i j) gs) o (fun _ _ => w i j) Fr) as (o1 & E1 & _).
  exists o1. rewrite map_map in E1. rewrite E1. apply Ok_eq. f_equal. apply mgen_ext. intros. rewrite map_map. reflexivity.
Qed.

Lemma shape_kept : forall k lr dec mom r c (w : nat -> nat -> F) (gs : list (nat -> nat -> F)),
  exists o' w', optRun F (absFloat F) (set_params F (newOpt F k) lr dec mom) (mgen r c w) (map (mgen r c) gs) = Ok (o', w') /\
  mrows w' = r /\ mcols w' = c /\ okind F o' = k.
Proof.
  intros k lr dec mom r c w gs.
  destruct (run_fresh r c gs (set_params F (newOpt F k) lr dec mom) w (fresh_set_params _ _ _ _)) as (o' & E & _ & K & _).
  exists o'. eexists. split; [exact E|]. split; auto. split; auto. rewrite K. destruct k; reflexivity.
Qed.
End Opt.
