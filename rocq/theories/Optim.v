(* Optim.v - model of src/Optimizer.cpp *)
From Coq Require Import List Arith Bool ZArith String.
From Verif Require Import Base Scalar Mat Loss.
Import ListNotations.

(* the fifteen classes of Optimizer.cpp *)
Inductive optKind :=
| ONone | OStep | OSGD | OMomentum | OMomentumNg | ONesterov | OAdagrad | ORMSProp | OAdam | OAdamW | OAmsgrad
| ONadam | OAdamax | ORPROPm | OiRPROPm.

Section Model.
Variable F : FOps.
Notation M := (mat F).

(* Optimizer.h:35-38 and the private members of the subclasses.  beta1, beta2, lambda_regul are constants set by the
   constructors (never modified), see below.  A member that a class does not have stays at its initial value. *)
Record opt := mkOpt {
  okind : optKind;
  olr : F; odecay : F; omom : F;           (* _fLearningRate, _fDecay, _fMomentum *)
  s_m : M; s_v : M;                        (* _m, _v (Adagrad, RMSProp: _cache; Adamax: _u; RPROP: _mu) *)
  s_p : M;                                 (* Nesterov: _v_prev; Amsgrad: _v_hat; RPROP: _oldgradw *)
  b1p : F; b2p : F }.                      (* beta1_prod, beta2_prod *)

Definition minus1 : F := fopp F (f1 F).
Definition beta1 : F := flit F 9 10.                 (* 0.9f *)
Definition beta2 : F := flit F 999 1000.             (* 0.999f *)
Definition lambda_regul : F := flit F 1 1000000.     (* 0.000001f, Optimizer.cpp:469 *)
Definition oneMinus (x : F) : F := fsub F (f1 F) x.

(* Optimizer.cpp:18-23 base constructor; 585-592 Nadam, 653-659 Adamax set a learning rate; products start at 0 *)
Definition newOpt (k : optKind) : opt :=
  mkOpt k (match k with ONadam => flit F 1 1000 | OAdamax => flit F 2 1000 | _ => minus1 end) minus1 minus1
        (mempty F) (mempty F) (mempty F) (f0 F) (f0 F).

Definition dflt (x d : F) : F := if feq F x minus1 then d else x.

(* default learning rate of init(); None: init() does not touch it *)
Definition defaultLR (k : optKind) : option F :=
  match k with
  | ONone | ORPROPm | OiRPROPm => None
  | OStep => Some (flit F 1 10)          (* :101 *)
  | OSGD => Some (flit F 1 100)          (* :138 *)
  | OMomentum => Some (flit F 1 100)     (* :179 *)
  | OMomentumNg => Some (flit F 1 10)    (* :228 *)
  | ONesterov => Some (flit F 1 100)     (* :276 *)
  | OAdagrad => Some (flit F 1 1000)     (* :322 *)
  | ORMSProp => Some (flit F 1 100)      (* :370 *)
  | OAdam => Some (flit F 1 1000)        (* :425 *)
  | OAdamW => Some (flit F 1 1000)       (* :491 *)
  | OAmsgrad => Some (flit F 1 100)      (* :552 *)
  | ONadam => Some (flit F 2 1000)       (* :611 *)
  | OAdamax => Some (flit F 1 1000)      (* :678 *)
  end.

(* the virtual functions init() *)
Definition init (o : opt) : opt :=
  let lr := match defaultLR (okind o) with Some d => dflt (olr o) d | None => olr o end in
  match okind o with
  | ONone | OStep | OSGD => mkOpt (okind o) lr (odecay o) (omom o) (s_m o) (s_v o) (s_p o) (b1p o) (b2p o)
  | OMomentum | OMomentumNg | ONesterov =>                                   (* :177-183, :226-232, :274-280 *)
      mkOpt (okind o) lr (odecay o) (dflt (omom o) (flit F 9 10)) (s_m o) (mresize F (s_v o) 0 0) (s_p o) (b1p o) (b2p o)
  | OAdagrad =>                                                              (* :319-325 *)
      mkOpt (okind o) lr (odecay o) (omom o) (s_m o) (mresize F (s_v o) 0 0) (s_p o) (b1p o) (b2p o)
  | ORMSProp =>                                                              (* :368-374 *)
      mkOpt (okind o) lr (dflt (odecay o) (flit F 99 100)) (omom o) (s_m o) (mresize F (s_v o) 0 0) (s_p o) (b1p o) (b2p o)
  | OAdam | OAdamW | ONadam | OAdamax =>                     (* :422-432, :488-498, :609-618, :676-684 (no beta2_prod there) *)
      mkOpt (okind o) lr (odecay o) (omom o) (mresize F (s_m o) 0 0) (mresize F (s_v o) 0 0) (s_p o) beta1 beta2
  | OAmsgrad =>                                                              (* :549-555 *)
      mkOpt (okind o) lr (odecay o) (omom o) (s_m o) (mresize F (s_v o) 0 0) (s_p o) (b1p o) (b2p o)
  | ORPROPm | OiRPROPm =>                                                    (* :735-739, :806-810 *)
      mkOpt (okind o) lr (odecay o) (omom o) (s_m o) (mresize F (s_v o) 0 0) (mresize F (s_p o) 0 0) (b1p o) (b2p o)
  end.

(* Optimizer.cpp:28-32 set_learningrate: calls init(), which drops the accumulated state *)
Definition set_learningrate (o : opt) (lr : F) : opt :=
  init (mkOpt (okind o) lr (odecay o) (omom o) (s_m o) (s_v o) (s_p o) (b1p o) (b2p o)).
(* Optimizer.cpp:39-46 set_params *)
Definition set_params (o : opt) (lr decay mom : F) : opt :=
  init (mkOpt (okind o) lr decay mom (s_m o) (s_v o) (s_p o) (b1p o) (b2p o)).

(* the virtual functions clone(): a new object, with the listed parameters copied *)
Definition clone (o : opt) : opt :=
  let withp k lr dec mom := let n := newOpt k in mkOpt k lr dec mom (s_m n) (s_v n) (s_p n) (b1p n) (b2p n) in
  match okind o with
  | ONone => newOpt ONone                                                    (* :58-61 *)
  | OStep | OSGD | OAdagrad | OAdam | OAdamW | OAmsgrad | ONadam | OAdamax =>
      withp (okind o) (olr o) minus1 minus1                                  (* :87-92, :124-129, :307-312, :409-414 ... *)
  | OMomentum | OMomentumNg | ONesterov => withp (okind o) (olr o) minus1 (omom o)  (* :163-169, :212-218, :260-266 *)
  | ORMSProp => withp (okind o) (olr o) (odecay o) minus1                    (* :355-361 *)
  | ORPROPm => newOpt ORPROPm                                                (* :721-724 *)
  | OiRPROPm => newOpt ORPROPm                                               (* :791-794: new OptimizerRPROPm *)
  end.

(* cwiseMax(1.e-8f), cwiseMax(Matrix), cwiseSqrt, cwiseAbs2, cwiseSign: Matrix.h:416-570 *)
Definition mmaxS (m : M) (x : F) : res M := mapLoop (fun a => stdmax F a x) m.
Definition mmaxM (m b : M) : res M := sameDims m b ;;; zipLoop (stdmax F) m b.
Definition msqrt (m : M) : res M := mapLoop (flm F Lsqrt) m.
Definition mabs2 (m : M) : res M := mapLoop (fun x => fmul F x x) m.
Definition msign (m : M) : res M := mapLoop (fsign F) m.

(* if (_v.size()==0) _v.setZero(rows,cols) *)
Definition zeroIfEmpty (test m : M) (r c : nat) : res M := if msize test =? 0 then msetZero F m r c else Ok m.

(* one pass of the loops Optimizer.cpp:754-777 (RPROP-) and :824-848 (iRPROP-): new mu, gradient used, new weight *)
Definition muUpdate (f mu : F) : F :=
  if flt F f (f0 F) then let mu := fmul F mu (half F) in if flt F mu (flit F 1 1000000) then flit F 1 1000000 else mu
  else if flt F (f0 F) f then let mu := fmul F mu (flit F 12 10) in if flt F (fofZ F 50) mu then fofZ F 50 else mu
  else mu.
Definition rpropMove (w g mu : F) : F :=
  if flt F (f0 F) g then fsub F w mu else if flt F g (f0 F) then fadd F w mu else w.

Section Abs.
Variable cabs : F -> res F.   (* the overload of ::abs, see Loss.v *)

(* the virtual functions optimize(w, dw): new object and new weights *)
Definition optimize (o : opt) (w dw : M) : res (opt * M) :=
  let upd m v p x y := mkOpt (okind o) (olr o) (odecay o) (omom o) m v p x y in
  let dims := assert_ (mrows w =? mrows dw) ;;; assert_ (mcols w =? mcols dw) in
  match okind o with
  | ONone => Ok (o, w)                                                       (* :71-75 *)
  | OStep => dims ;;;                                                        (* :104-112 *)
      s <- msign dw ;; s <- mscale F s (olr o) ;; w' <- msubM F w s ;; Ok (o, w')
  | OSGD => dims ;;;                                                         (* :141-149 *)
      s <- mscale F dw (olr o) ;; w' <- msubM F w s ;; Ok (o, w')
  | OMomentum => dims ;;;                                                    (* :185-197 *)
      v <- zeroIfEmpty (s_v o) (s_v o) (mrows w) (mcols w) ;;
      a <- mscale F v (omom o) ;; b <- mscale F dw (olr o) ;; v' <- maddM F a b ;;
      w' <- msubM F w v' ;; Ok (upd (s_m o) v' (s_p o) (b1p o) (b2p o), w')
  | OMomentumNg => dims ;;;                                                  (* :234-246 *)
      let v := if msize (s_v o) =? 0 then dw else s_v o in
      a <- mscale F v (omom o) ;; b <- mscale F dw (oneMinus (omom o)) ;; v' <- maddM F a b ;;
      s <- mscale F v' (olr o) ;; w' <- msubM F w s ;; Ok (upd (s_m o) v' (s_p o) (b1p o) (b2p o), w')
  | ONesterov => dims ;;;                                                    (* :282-295 *)
      v <- zeroIfEmpty (s_v o) (s_v o) (mrows w) (mcols w) ;;
      a <- mscale F v (omom o) ;; b <- mscale F dw (olr o) ;; v' <- msubM F a b ;;
      n <- mneg F v ;; n <- mscale F n (omom o) ;; p <- mscale F v' (fadd F (f1 F) (omom o)) ;; d <- maddM F n p ;;
      w' <- maddM F w d ;; Ok (upd (s_m o) v' v (b1p o) (b2p o), w')
  | OAdagrad => dims ;;;                                                     (* :327-341 *)
      c <- zeroIfEmpty (s_v o) (s_v o) (mrows dw) (mcols dw) ;;
      s <- mabs2 dw ;; c' <- maddM F c s ;;
      q <- msqrt c' ;; q <- mmaxS q (eps F) ;; d <- mcwiseQuotient F dw q ;; d <- mscale F d (fopp F (olr o)) ;;
      w' <- maddM F w d ;; Ok (upd (s_m o) c' (s_p o) (b1p o) (b2p o), w')
  | ORMSProp => dims ;;;                                                     (* :376-390 *)
      c <- zeroIfEmpty (s_v o) (s_v o) (mrows dw) (mcols dw) ;;
      a <- mscale F c (odecay o) ;; s <- mabs2 dw ;; s <- mscale F s (oneMinus (odecay o)) ;; c' <- maddM F a s ;;
      q <- msqrt c' ;; q <- mmaxS q (eps F) ;; d <- mcwiseQuotient F dw q ;; d <- mscale F d (fopp F (olr o)) ;;
      w' <- maddM F w d ;; Ok (upd (s_m o) c' (s_p o) (b1p o) (b2p o), w')
  | OAdam | OAdamW => dims ;;;                                               (* :434-455, :500-520 *)
      m <- zeroIfEmpty (s_v o) (s_m o) (mrows dw) (mcols dw) ;;
      v <- zeroIfEmpty (s_v o) (s_v o) (mrows dw) (mcols dw) ;;
      let invBeta2 := fdiv F (f1 F) (oneMinus (b2p o)) in
      a <- mscale F m beta1 ;; b <- mscale F dw (oneMinus beta1) ;; m' <- maddM F a b ;;
      a <- mscale F v beta2 ;; s <- mabs2 dw ;; s <- mscale F s (oneMinus beta2) ;; v' <- maddM F a s ;;
      q <- mscale F v' invBeta2 ;; q <- msqrt q ;; q <- mmaxS q (eps F) ;;
      d <- mcwiseQuotient F m' q ;; d <- mscale F d (fdiv F (olr o) (oneMinus (b1p o))) ;;
      d <- (match okind o with
            | OAdamW => r <- mscale F w lambda_regul ;; maddM F d r          (* :516 *)
            | _ => Ok d end) ;;
      w' <- msubM F w d ;;
      Ok (upd m' v' (s_p o) (fmul F (b1p o) beta1) (fmul F (b2p o) beta2), w')
  | OAmsgrad => dims ;;;                                                     (* :557-575 *)
      v <- zeroIfEmpty (s_v o) (s_v o) (mrows dw) (mcols dw) ;;
      h <- zeroIfEmpty (s_v o) (s_p o) (mrows dw) (mcols dw) ;;
      m <- zeroIfEmpty (s_v o) (s_m o) (mrows dw) (mcols dw) ;;
      a <- mscale F m beta1 ;; b <- mscale F dw (oneMinus beta1) ;; m' <- maddM F a b ;;
      a <- mscale F v beta2 ;; s <- mabs2 dw ;; s <- mscale F s (oneMinus beta2) ;; v' <- maddM F a s ;;
      h' <- mmaxM v' h ;;
      q <- msqrt h' ;; q <- mmaxS q (eps F) ;; d <- mcwiseQuotient F m' q ;; d <- mscale F d (olr o) ;;
      w' <- msubM F w d ;; Ok (upd m' v' h' (b1p o) (b2p o), w')
  | ONadam =>                                                                (* :620-642 *)
      m <- zeroIfEmpty (s_v o) (s_m o) (mrows dw) (mcols dw) ;;
      v <- zeroIfEmpty (s_v o) (s_v o) (mrows dw) (mcols dw) ;;
      a <- mscale F m beta1 ;; b <- mscale F dw (oneMinus beta1) ;; m' <- maddM F a b ;;
      a <- mscale F v beta2 ;; s <- mabs2 dw ;; s <- mscale F s (oneMinus beta2) ;; v' <- maddM F a s ;;
      a <- mscale F m' beta1 ;; b <- mscale F dw (oneMinus beta1) ;; b <- mdivS F b (oneMinus (b1p o)) ;; n <- maddM F a b ;;
      q <- msqrt v' ;; q <- mmaxS q (eps F) ;; d <- mcwiseQuotient F n q ;; d <- mscale F d (fopp F (olr o)) ;;
      w' <- maddM F w d ;;
      Ok (upd m' v' (s_p o) (fmul F (b1p o) beta1) (fmul F (b2p o) beta2), w')
  | OAdamax =>                                                               (* :686-704 *)
      m <- zeroIfEmpty (s_v o) (s_m o) (mrows dw) (mcols dw) ;;
      u <- zeroIfEmpty (s_v o) (s_v o) (mrows dw) (mcols dw) ;;
      a <- mscale F m beta1 ;; b <- mscale F dw (oneMinus beta1) ;; m' <- maddM F a b ;;
      a <- mscale F u beta2 ;; s <- mapLoopR F cabs dw ;; u' <- mmaxM a s ;;
      q <- mmaxS u' (eps F) ;; d <- mcwiseQuotient F m' q ;;
      d <- mscale F d (fdiv F (fopp F (olr o)) (oneMinus (b1p o))) ;;
      w' <- maddM F w d ;; Ok (upd m' u' (s_p o) (fmul F (b1p o) beta1) (b2p o), w')
  | ORPROPm => dims ;;;                                                      (* :741-780 *)
      mu <- (if msize (s_p o) =? 0 then msetConst F (mresize F (s_v o) (mrows dw) (mcols dw)) (flit F 125 10000) else Ok (s_v o)) ;;
      let old := if msize (s_p o) =? 0 then dw else s_p o in
      ' (mu', w') <- forN (msize mu) (fun i '(mu, w) =>
          g <- mget1 dw i ;; g0 <- mget1 old i ;; u <- mget1 mu i ;;
          let u := muUpdate (fmul F g g0) u in
          mu <- mset1 mu i u ;;
          x <- mget1 w i ;; w <- mset1 w i (rpropMove x g u) ;; Ok (mu, w)) (mu, w) ;;
      Ok (upd (s_m o) mu' dw (b1p o) (b2p o), w')
  | OiRPROPm => dims ;;;                                                     (* :812-848 *)
      mu <- (if msize (s_p o) =? 0 then msetConst F (mresize F (s_v o) (mrows dw) (mcols dw)) (flit F 125 10000) else Ok (s_v o)) ;;
      let old := if msize (s_p o) =? 0 then dw else s_p o in
      ' (mu', w', old') <- forN (msize mu) (fun i '(mu, w, old) =>
          g <- mget1 dw i ;; g0 <- mget1 old i ;; u <- mget1 mu i ;;
          let f := fmul F g g0 in
          let u := muUpdate f u in
          let g := if flt F f (f0 F) then f0 F else g in
          mu <- mset1 mu i u ;;
          x <- mget1 w i ;; w <- mset1 w i (rpropMove x g u) ;; old <- mset1 old i g ;; Ok (mu, w, old)) (mu, w, old) ;;
      Ok (upd (s_m o) mu' old' (b1p o) (b2p o), w')
  end.

(* a sequence of calls optimize(w, g) on the same object *)
Definition optRun (o : opt) (w : M) (gs : list M) : res (opt * M) :=
  forL gs (fun g '(o, w) => optimize o w g) (o, w).
End Abs.
End Model.

Local Open Scope string_scope.
Definition opt_name (k : optKind) : string :=
  match k with
  | ONone => "None" | OStep => "Step" | OSGD => "SGD" | OMomentum => "Momentum" | OMomentumNg => "MomentumNg"
  | ONesterov => "Nesterov" | OAdagrad => "Adagrad" | ORMSProp => "RMSProp" | OAdam => "Adam" | OAdamW => "AdamW"
  | OAmsgrad => "Amsgrad" | ONadam => "Nadam" | OAdamax => "Adamax" | ORPROPm => "RPROP-" | OiRPROPm => "iRPROP-"
  end.

(* Optimizer.cpp:854-902 create_optimizer *)
Definition create_optimizer (s : string) : option optKind :=
  if s =? "None" then Some ONone else
  if s =? "Adagrad" then Some OAdagrad else
  if s =? "Adam" then Some OAdam else
  if s =? "AdamW" then Some OAdamW else
  if s =? "Amsgrad" then Some OAmsgrad else
  if s =? "Adamax" then Some OAdamax else
  if s =? "Momentum" then Some OMomentum else
  if s =? "MomentumNg" then Some OMomentumNg else
  if s =? "Nesterov" then Some ONesterov else
  if s =? "Nadam" then Some ONadam else
  if s =? "RMSProp" then Some ORMSProp else
  if s =? "RPROP-" then Some ORPROPm else
  if s =? "iRPROP-" then Some OiRPROPm else
  if s =? "SGD" then Some OSGD else
  if s =? "Step" then Some OStep else None.

(* Optimizer.cpp:904-923 list_optimizers_available *)
Definition list_optimizers_available : list string :=
  ["None"; "Adagrad"; "Adam"; "AdamW"; "Amsgrad"; "Nadam"; "Adamax"; "Momentum"; "MomentumNg"; "Nesterov"; "RMSProp";
   "RPROP-"; "iRPROP-"; "SGD"; "Step"].
