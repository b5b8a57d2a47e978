(* MatHeap.v - pointer model of class Matrix (src/Matrix.h, branch without Eigen): blocks obtained by new[], objects with a
   pointer and the view flag.  Used for aliasing, views and ownership; Mat.v is the value model of the same class.
   _iSize is always _iRows*_iColumns.  A prvalue view returned by value is taken to be the object built (copy elision). *)
From Coq Require Import List Arith Bool.
From Verif Require Import Base Scalar Mat.
Import ListNotations.
Local Open Scope nat_scope.

Section Model.
Variable F : FOps.

(* block k: its cells, or None once deleted.  A pointer is a block and an offset; None is the null pointer. *)
Definition blocks := list (option (list F)).
Definition ptr := option (nat * nat).
(* Matrix.h: _iRows, _iColumns, _data, _bIsView *)
Record obj := mkObj { oR : nat; oC : nat; oPtr : ptr; oView : bool }.
Definition osize (o : obj) := oR o * oC o.
(* the objects of the program; None once destroyed *)
Record mem := mkMem { mB : blocks; mO : list (option obj) }.

(* *(p+i) *)
Definition load (b : blocks) (p : ptr) (i : nat) : res F :=
  match p with
  | None => Err ENull
  | Some (k, off) => match nth_error b k with Some (Some d) => rget d (off + i) | Some None => Err EFree | None => Err EOob end
  end.
Definition store (b : blocks) (p : ptr) (i : nat) (v : F) : res blocks :=
  match p with
  | None => Err ENull
  | Some (k, off) => match nth_error b k with
      | Some (Some d) => d' <- rset d (off + i) v ;; Ok (upd b k (Some d')) | Some None => Err EFree | None => Err EOob end
  end.
(* delete[] p: of the null pointer nothing, of anything but the start of a live block undefined *)
Definition delete (b : blocks) (p : ptr) : res blocks :=
  match p with
  | None => Ok b
  | Some (k, 0) => match nth_error b k with Some (Some _) => Ok (upd b k None) | Some None => Err EFree | None => Err EOob end
  | Some (_, S _) => Err EFree
  end.
(* new T[n]: cells not initialised *)
Definition alloc (b : blocks) (n : nat) : blocks * ptr := (b ++ [Some (repeat (fjunk F) n)], Some (length b, 0)).
Definition shift (p : ptr) (n : nat) : ptr := match p with None => None | Some (k, off) => Some (k, off + n) end.

Definition oget (m : mem) (v : nat) : res obj :=
  match nth_error (mO m) v with Some (Some o) => Ok o | Some None => Err EFree | None => Err EOob end.
Definition oset (m : mem) (v : nat) (o : obj) : mem := mkMem (mB m) (upd (mO m) v (Some o)).
Definition onew (m : mem) (o : obj) : mem * nat := (mkMem (mB m) (mO m ++ [Some o]), length (mO m)).

(* Matrix.h:250-260 operator()(Index) *)
Definition at_ (m : mem) (v i : nat) : res F := o <- oget m v ;; assert_ (i <? osize o) ;;; load (mB m) (oPtr o) i.
Definition put (m : mem) (v i : nat) (x : F) : res mem :=
  o <- oget m v ;; assert_ (i <? osize o) ;;; b <- store (mB m) (oPtr o) i x ;; Ok (mkMem b (mO m)).
(* Matrix.h:236-248 operator()(Index,Index) *)
Definition at2 (m : mem) (v r c : nat) : res F :=
  o <- oget m v ;; assert_ (r <? oR o) ;;; assert_ (c <? oC o) ;;; load (mB m) (oPtr o) (r * oC o + c).
Definition put2 (m : mem) (v r c : nat) (x : F) : res mem :=
  o <- oget m v ;; assert_ (r <? oR o) ;;; assert_ (c <? oC o) ;;; b <- store (mB m) (oPtr o) (r * oC o + c) x ;; Ok (mkMem b (mO m)).

(* Matrix.h:36-43 Matrix() *)
Definition mkEmpty (m : mem) : mem * nat := onew m (mkObj 0 0 None false).
(* Matrix.h:45-52 Matrix(rows,cols) *)
Definition mkSized (m : mem) (r c : nat) : mem * nat :=
  let '(b, p) := alloc (mB m) (r * c) in onew (mkMem b (mO m)) (mkObj r c p false).
(* Matrix.h:76-87 Matrix(const Matrix&) *)
Definition mkCopy (m : mem) (v : nat) : res (mem * nat) :=
  o <- oget m v ;;
  let '(b, p) := alloc (mB m) (oR o * oC o) in
  let '(m, w) := onew (mkMem b (mO m)) (mkObj (oR o) (oC o) p false) in
  m <- forN (osize o) (fun i m => x <- at_ m v i ;; o <- oget m w ;; b <- store (mB m) (oPtr o) i x ;; Ok (mkMem b (mO m))) m ;;
  Ok (m, w).
(* Matrix.h:89-93 ~Matrix() *)
Definition destroy (m : mem) (v : nat) : res mem :=
  o <- oget m v ;;
  b <- (if oView o then Ok (mB m) else delete (mB m) (oPtr o)) ;;
  Ok (mkMem b (upd (mO m) v None)).
(* Matrix.h:147-166 resize *)
Definition resize (m : mem) (v r c : nat) : res mem :=
  o <- oget m v ;;
  if (c =? oC o) && (r =? oR o) then Ok m
  else if r * c =? osize o then Ok (oset m v (mkObj r c (oPtr o) (oView o)))
  else b <- (if oView o then Ok (mB m) else delete (mB m) (oPtr o)) ;;
       let '(b, p) := alloc b (r * c) in
       Ok (mkMem b (upd (mO m) v (Some (mkObj r c p false)))).
(* Matrix.h:104-112 operator= *)
Definition assign (m : mem) (d s : nat) : res mem :=
  o <- oget m s ;;
  m <- resize m d (oR o) (oC o) ;;
  o <- oget m d ;;
  forN (osize o) (fun i m => x <- at_ m s i ;; put m d i x) m.
(* Matrix.h:183-186 setConstant: std::fill over the _iSize cells *)
Definition fill (m : mem) (v : nat) (x : F) : res mem :=
  o <- oget m v ;; forN (osize o) (fun i m => b <- store (mB m) (oPtr o) i x ;; Ok (mkMem b (mO m))) m.

(* Matrix.h:54-61, Matrix.cpp:23-50: an object on cells that belong to another *)
Definition mkView (m : mem) (o : obj) (off r c : nat) : mem * nat := onew m (mkObj r c (shift (oPtr o) off) true).
(* Matrix.h:629-641 row, 643-657 topRows; Matrix.cpp:442-448 viewRow, 48-51 createView, 33-38 viewResize *)
Definition rowView (m : mem) (v i : nat) : res (mem * nat) :=
  o <- oget m v ;; assert_ (i <? oR o) ;;; Ok (mkView m o (i * oC o) 1 (oC o)).
Definition topView (m : mem) (v n : nat) : res (mem * nat) :=
  o <- oget m v ;; assert_ (n <? oR o) ;;; Ok (mkView m o 0 n (oC o)).
Definition rowsView (m : mem) (v s e : nat) : res (mem * nat) :=
  o <- oget m v ;; assert_ (s <? e) ;;; assert_ (e <=? oR o) ;;; Ok (mkView m o (s * oC o) (e - s) (oC o)).
Definition wholeView (m : mem) (v : nat) : res (mem * nat) := o <- oget m v ;; Ok (mkView m o 0 (oR o) (oC o)).
Definition sizeView (m : mem) (v r c : nat) : res (mem * nat) :=
  o <- oget m v ;; assert_ (osize o =? r * c) ;;; Ok (mkView m o 0 r c).

(* Matrix.h:353-388 operator*=: *this is object d, the argument object s (possibly the same) *)
Definition mulAssign (m : mem) (d s : nat) : res mem :=
  od <- oget m d ;; os <- oget m s ;;
  assert_ (oC od =? oR os) ;;;
  ' (m, a) <- mkCopy m d ;;
  os <- oget m s ;;
  m <- resize m d (oR od) (oC os) ;;
  m <- fill m d (f0 F) ;;
  m <- forN (oR od) (fun r m =>
    forN (oC od) (fun k m =>
      af <- at2 m a r k ;;
      o <- oget m d ;;
      forN (oC o) (fun c m =>
        x <- at2 m d r c ;; y <- at2 m s k c ;; put2 m d r c (fadd F x (fmul F af y))) m) m) m ;;
  destroy m a.
(* Matrix.h:262-270, 298-306 operator+=, -= ; 320-336 operator*=(T), /=(T) *)
Definition zipAssign (f : F -> F -> F) (m : mem) (d s : nat) : res mem :=
  od <- oget m d ;; os <- oget m s ;; assert_ (oR od =? oR os) ;;; assert_ (oC od =? oC os) ;;;
  forN (osize od) (fun i m => x <- at_ m d i ;; y <- at_ m s i ;; put m d i (f x y)) m.
Definition mapAssign (f : F -> F) (m : mem) (d : nat) : res mem :=
  o <- oget m d ;; forN (osize o) (fun i m => x <- at_ m d i ;; put m d i (f x)) m.

(** * Programs: any sequence of these operations on numbered objects (numbers in the order of creation) *)
Inductive op :=
| OpEmpty | OpSized (r c : nat) | OpCopy (v : nat) | OpDestroy (v : nat)
| OpResize (v r c : nat) | OpAssign (d s : nat) | OpFill (v : nat) (x : F) | OpPut (v i : nat) (x : F)
| OpMap (f : F -> F) (v : nat) | OpZip (f : F -> F -> F) (d s : nat) | OpMul (d s : nat)
| OpRow (v i : nat) | OpTop (v n : nat) | OpRows (v s e : nat) | OpWhole (v : nat) | OpSize (v r c : nat).
Definition exec (m : mem) (p : op) : res mem :=
  match p with
  | OpEmpty => Ok (fst (mkEmpty m))
  | OpSized r c => Ok (fst (mkSized m r c))
  | OpCopy v => x <- mkCopy m v ;; Ok (fst x)
  | OpDestroy v => destroy m v
  | OpResize v r c => resize m v r c
  | OpAssign d s => assign m d s
  | OpFill v x => fill m v x
  | OpPut v i x => put m v i x
  | OpMap f v => mapAssign f m v
  | OpZip f d s => zipAssign f m d s
  | OpMul d s => mulAssign m d s          (* the number of the temporary copy stays used *)
  | OpRow v i => x <- rowView m v i ;; Ok (fst x)
  | OpTop v n => x <- topView m v n ;; Ok (fst x)
  | OpRows v s e => x <- rowsView m v s e ;; Ok (fst x)
  | OpWhole v => x <- wholeView m v ;; Ok (fst x)
  | OpSize v r c => x <- sizeView m v r c ;; Ok (fst x)
  end.
Definition run (m : mem) (ps : list op) : res mem := forL ps (fun p m => exec m p) m.
Definition start : mem := mkMem [] [].
End Model.
