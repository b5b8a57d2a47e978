(* SpecHeap.v - what a program over matrices means, without pointers: an owner holds its cells, a view is a window on an owner.
   Each storage an owner gets has a new number; a view names the storage it looks at, and is dead once no owner has it. *)
From Coq Require Import List Arith Bool.
From Verif Require Import Base Scalar Mat MatHeap.
Import ListNotations.
Local Open Scope nat_scope.

Section Spec.
Variable F : FOps.

Inductive aobj := AOwn (id r c : nat) (d : list F) | AView (id off r c : nat).
Record amem := mkA { aN : nat; aO : list (option aobj) }.
Definition aget (a : amem) (v : nat) : option aobj := match nth_error (aO a) v with Some (Some o) => Some o | _ => None end.
Definition aid (o : aobj) := match o with AOwn id _ _ _ | AView id _ _ _ => id end.
Definition aoff (o : aobj) := match o with AOwn _ _ _ _ => 0 | AView _ off _ _ => off end.
Definition arows (o : aobj) := match o with AOwn _ r _ _ | AView _ _ r _ => r end.
Definition acols (o : aobj) := match o with AOwn _ _ c _ | AView _ _ _ c => c end.
Definition asize (o : aobj) := arows o * acols o.

(* the cells of storage id *)
Fixpoint findId (l : list (option aobj)) (id : nat) : option (list F) :=
  match l with
  | [] => None
  | Some (AOwn i _ _ d) :: t => if i =? id then Some d else findId t id
  | _ :: t => findId t id
  end.
Definition region (a : amem) (id : nat) : option (list F) := findId (aO a) id.
(* the cells an object shows; None: it is dead *)
Definition cellsOf (a : amem) (o : aobj) : option (list F) :=
  if asize o =? 0 then Some [] else match region a (aid o) with Some d => Some (firstn (asize o) (skipn (aoff o) d)) | None => None end.
Definition acells (a : amem) (v : nat) : option (list F) := match aget a v with Some o => cellsOf a o | None => None end.
(* replace the cells off, off+1, ... by xs *)
Definition splice (d : list F) (off : nat) (xs : list F) : list F := firstn off d ++ xs ++ skipn (off + length xs) d.
Definition setId (id : nat) (d : list F) (o : option aobj) : option aobj :=
  match o with Some (AOwn i r c e) => Some (if i =? id then AOwn i r c d else AOwn i r c e) | _ => o end.
(* overwrite the cells of o *)
Definition awrite (a : amem) (o : aobj) (xs : list F) : option amem :=
  if asize o =? 0 then Some a
  else match region a (aid o) with Some d => Some (mkA (aN a) (map (setId (aid o) (splice d (aoff o) xs)) (aO a))) | None => None end.

Definition aset (a : amem) (v : nat) (o : aobj) : amem := mkA (aN a) (upd (aO a) v (Some o)).
Definition anew (a : amem) (o : aobj) : amem := mkA (aN a) (aO a ++ [Some o]).
(* object v gets a new storage; a new object with a new storage *)
Definition arenew (a : amem) (v r c : nat) (d : list F) : amem := mkA (S (aN a)) (upd (aO a) v (Some (AOwn (aN a) r c d))).
Definition aown (a : amem) (r c : nat) (d : list F) : amem := mkA (S (aN a)) (aO a ++ [Some (AOwn (aN a) r c d)]).
Definition reshape (o : aobj) (r c : nat) : aobj := match o with AOwn id _ _ d => AOwn id r c d | AView id off _ _ => AView id off r c end.
Definition owner (o : aobj) : bool := match o with AOwn _ _ _ _ => true | AView _ _ _ _ => false end.

(* reading window s while writing window d of n cells in increasing order reads the old cells: other storage, the same
   window or a later one, or no overlap *)
Definition clear_ (d s : aobj) (n : nat) : bool := negb (aid d =? aid s) || (aoff d <=? aoff s) || (aoff s + n <=? aoff d).
(* exactly the same window, or no overlap *)
Definition apart (d s : aobj) (n : nat) : bool :=
  negb (aid d =? aid s) || (aoff d =? aoff s) || (aoff d + n <=? aoff s) || (aoff s + n <=? aoff d).

Definition aview (a : amem) (v off r c : nat) : option amem :=
  match aget a v with Some o => Some (anew a (AView (aid o) (aoff o + off) r c)) | None => None end.
Definition zipWith (f : F -> F -> F) (x y : list F) : list F := map (fun p => f (fst p) (snd p)) (combine x y).

(* one operation; None: the program uses a dead object or a dead view, an index out of range, shapes that do not fit, or
   overlapping windows *)
Definition aexec (a : amem) (p : op F) : option amem :=
  match p with
  | OpEmpty => Some (aown a 0 0 [])
  | OpSized r c => Some (aown a r c (repeat (fjunk F) (r * c)))
  | OpCopy v => match aget a v, acells a v with Some o, Some d => Some (aown a (arows o) (acols o) d) | _, _ => None end
  | OpDestroy v => match aget a v with Some _ => Some (mkA (aN a) (upd (aO a) v None)) | None => None end
  | OpResize v r c => match aget a v with Some o =>
      Some (if r * c =? asize o then aset a v (reshape o r c) else arenew a v r c (repeat (fjunk F) (r * c))) | None => None end
  | OpAssign d s => match aget a d, aget a s, acells a s with
      | Some od, Some os, Some xs =>
          if asize os =? asize od
          then if clear_ od os (asize od) then awrite (aset a d (reshape od (arows os) (acols os))) (reshape od (arows os) (acols os)) xs else None
          else if owner od && (aid od =? aid os) && negb (asize os =? 0) then None else Some (arenew a d (arows os) (acols os) xs)
      | _, _, _ => None end
  | OpFill v x => match aget a v with Some o => awrite a o (repeat x (asize o)) | None => None end
  | OpPut v i x => match aget a v, acells a v with Some o, Some d => if i <? asize o then awrite a o (upd d i x) else None | _, _ => None end
  | OpMap f v => match aget a v, acells a v with Some o, Some d => awrite a o (map f d) | _, _ => None end
  | OpZip f d s => match aget a d, aget a s, acells a d, acells a s with
      | Some od, Some os, Some x, Some y =>
          if (arows od =? arows os) && (acols od =? acols os) && apart od os (asize od) then awrite a od (zipWith f x y) else None
      | _, _, _, _ => None end
  | OpMul d s => match aget a d, aget a s, acells a d, acells a s with
      | Some od, Some os, Some x, Some y =>
          if (acols od =? arows os) && negb (aid od =? aid os)
          then match mmul F (mkMat (arows od) (acols od) x) (mkMat (arows os) (acols os) y) with
               | Ok p => let a1 := mkA (S (aN a)) (aO a ++ [None]) in      (* the temporary copy is gone again *)
                         if arows od * acols os =? asize od then awrite (aset a1 d (reshape od (arows od) (acols os))) (reshape od (arows od) (acols os)) (mdata p)
                         else Some (arenew a1 d (arows od) (acols os) (mdata p))
               | Err _ => None end
          else None
      | _, _, _, _ => None end
  | OpRow v i => match aget a v with Some o => if i <? arows o then aview a v (i * acols o) 1 (acols o) else None | None => None end
  | OpTop v n => match aget a v with Some o => if n <? arows o then aview a v 0 n (acols o) else None | None => None end
  | OpRows v s e => match aget a v with Some o => if (s <? e) && (e <=? arows o) then aview a v (s * acols o) (e - s) (acols o) else None | None => None end
  | OpWhole v => match aget a v with Some o => aview a v 0 (arows o) (acols o) | None => None end
  | OpSize v r c => match aget a v with Some o => if asize o =? r * c then aview a v 0 r c else None | None => None end
  end.
Fixpoint arun (a : amem) (ps : list (op F)) : option amem :=
  match ps with [] => Some a | p :: t => match aexec a p with Some a' => arun a' t | None => None end end.
Definition astart : amem := mkA 0 [].
End Spec.

(** * What can be observed *)
Section Obs.
Variable F : FOps.
(* object v is live, of r rows and c columns, and its cells read xs *)
Definition shows (m : mem F) (v r c : nat) (xs : list F) : Prop :=
  (exists o, oget F m v = Ok o /\ oR o = r /\ oC o = c) /\ length xs = r * c /\ forall i x, nth_error xs i = Some x -> at_ F m v i = Ok x.
(* every object is destroyed; every block is deleted *)
Definition allGone (m : mem F) : Prop := forall v o, nth_error (mO F m) v = Some o -> o = None.
Definition noLeak (m : mem F) : Prop := forall k b, nth_error (mB F m) k = Some b -> b = None.

(* programs without views: shapes can be followed without running; None: an object used after its destruction, an index out
   of range, operands that do not fit, a product of an object by itself, or a view *)
Definition sget (l : list (option (nat * nat))) (v : nat) := match nth_error l v with Some (Some s) => Some s | _ => None end.
Definition shape1 (l : list (option (nat * nat))) (p : op F) : option (list (option (nat * nat))) :=
  match p with
  | OpEmpty => Some (l ++ [Some (0, 0)])
  | OpSized r c => Some (l ++ [Some (r, c)])
  | OpCopy v => match sget l v with Some s => Some (l ++ [Some s]) | None => None end
  | OpDestroy v => match sget l v with Some _ => Some (upd l v None) | None => None end
  | OpResize v r c => match sget l v with Some _ => Some (upd l v (Some (r, c))) | None => None end
  | OpAssign d s => match sget l d, sget l s with Some _, Some x => Some (upd l d (Some x)) | _, _ => None end
  | OpFill v _ | OpMap _ v => match sget l v with Some _ => Some l | None => None end
  | OpPut v i _ => match sget l v with Some (r, c) => if i <? r * c then Some l else None | None => None end
  | OpZip _ d s => match sget l d, sget l s with Some (r, c), Some (r', c') => if (r =? r') && (c =? c') then Some l else None | _, _ => None end
  | OpMul d s => match sget l d, sget l s with Some (r, k), Some (k', c) => if (k =? k') && negb (d =? s) then Some (upd l d (Some (r, c)) ++ [None]) else None | _, _ => None end
  | _ => None
  end.
Fixpoint shapes (l : list (option (nat * nat))) (ps : list (op F)) : option (list (option (nat * nat))) :=
  match ps with [] => Some l | p :: t => match shape1 l p with Some l' => shapes l' t | None => None end end.

(* p writes to object u, resizes or destroys it, or makes a view of it (reading it, or copying it, does not count) *)
Definition touches (p : op F) (u : nat) : bool :=
  match p with
  | OpDestroy v | OpResize v _ _ | OpAssign v _ | OpFill v _ | OpPut v _ _ | OpMap _ v | OpZip _ v _ | OpMul v _
  | OpRow v _ | OpTop v _ | OpRows v _ _ | OpWhole v | OpSize v _ _ => v =? u
  | _ => false
  end.
End Obs.

(** * States, sharing, windows *)
Section Win.
Variable F : FOps.
(* a and m: what a program with a meaning leads to *)
Definition reach (a : amem F) (m : mem F) : Prop := exists ps, arun F (astart F) ps = Some a /\ run F (start F) ps = Ok m.
(* u and v are live objects on the same storage *)
Definition shares (a : amem F) (u v : nat) : Prop := exists ou ov, aget F a u = Some ou /\ aget F a v = Some ov /\ aid F ou = aid F ov.
(* the cells of w are the cells off, off+1, ... of v *)
Definition isWin (a : amem F) (w v off : nat) : Prop := exists ow ov, aget F a w = Some ow /\ aget F a v = Some ov /\
  aid F ow = aid F ov /\ aoff F ow = aoff F ov + off /\ off + asize F ow <= asize F ov.
(* the window a view operation asks for, on an object of r rows and c columns: object, first cell, rows, columns *)
Definition window (p : op F) (r c : nat) : option (nat * nat * nat * nat) :=
  match p with
  | OpRow v i => if i <? r then Some (v, i * c, 1, c) else None
  | OpTop v n => if n <? r then Some (v, 0, n, c) else None
  | OpRows v s e => if (s <? e) && (e <=? r) then Some (v, s * c, e - s, c) else None
  | OpWhole v => Some (v, 0, r, c)
  | OpSize v r' c' => if r * c =? r' * c' then Some (v, 0, r', c') else None
  | _ => None
  end.
(* p may give object u another storage or end it *)
Definition moves (p : op F) (u : nat) : bool := match p with OpDestroy v | OpResize v _ _ | OpAssign v _ | OpMul v _ => v =? u | _ => false end.
End Win.
