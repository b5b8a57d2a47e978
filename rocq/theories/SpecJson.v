(* SpecJson.v - JSON texts (RFC 8259) as a relation between characters and values.  Strings: bytes of 0x80 and above count as ordinary
   characters; escapes \uXXXX are kept as written.  Numbers are kept as their text. *)
From Coq Require Import List Arith Bool Ascii.
From Verif Require Import SpecText.
Import ListNotations.

Inductive json := JObj (ms : list (text * json)) | JArr (vs : list json) | JStr (s : text) | JNum (t : text) | JTrue | JFalse | JNull.
Definition quote : ascii := """"%char.
Definition backslash : ascii := "\"%char.
Definition jws (c : ascii) : Prop := In c [" "; "009"; "010"; "013"]%char.
(* unescaped characters of strings *)
Definition cleanC (c : ascii) : Prop := 32 <= nat_of_ascii c /\ c <> quote /\ c <> backslash.
Definition hexC (c : ascii) : Prop := digitC c \/ In c ["a"; "b"; "c"; "d"; "e"; "f"; "A"; "B"; "C"; "D"; "E"; "F"]%char.
Inductive jchars : text -> text -> Prop :=
| jc_nil : jchars [] []
| jc_char : forall c s u, cleanC c -> jchars s u -> jchars (c :: s) (c :: u)
| jc_esc : forall c d s u, In (c, d) [(quote, quote); (backslash, backslash); ("/"%char, "/"%char); ("b"%char, "008"%char); ("f"%char, "012"%char); ("n"%char, "010"%char); ("r"%char, "013"%char); ("t"%char, "009"%char)] ->
    jchars s u -> jchars (backslash :: c :: s) (d :: u)
| jc_uni : forall a b c d s u, hexC a -> hexC b -> hexC c -> hexC d -> jchars s u -> jchars (backslash :: "u"%char :: a :: b :: c :: d :: s) (backslash :: "u"%char :: a :: b :: c :: d :: u).
Definition jnumber (t : text) : Prop := exists m ip fp ex, t = m ++ ip ++ fp ++ ex /\ (m = [] \/ m = ["-"%char]) /\
  (ip = ["0"%char] \/ exists c d, ip = c :: d /\ digitC c /\ c <> "0"%char /\ Forall digitC d) /\
  (fp = [] \/ exists d, fp = "."%char :: d /\ d <> [] /\ Forall digitC d) /\
  (ex = [] \/ exists e s d, ex = e :: s ++ d /\ (e = "e"%char \/ e = "E"%char) /\ signC s /\ d <> [] /\ Forall digitC d).
Definition tTrue : text := ["t"; "r"; "u"; "e"]%char.
Definition tFalse : text := ["f"; "a"; "l"; "s"; "e"]%char.
Definition tNull : text := ["n"; "u"; "l"; "l"]%char.

(* jvalue: without white space around it; jelement: with *)
Inductive jvalue : text -> json -> Prop :=
| jv_obj0 : forall w, Forall jws w -> jvalue ("{"%char :: w ++ ["}"%char]) (JObj [])
| jv_obj : forall t ms, jmembers t ms -> jvalue ("{"%char :: t ++ ["}"%char]) (JObj ms)
| jv_arr0 : forall w, Forall jws w -> jvalue ("["%char :: w ++ ["]"%char]) (JArr [])
| jv_arr : forall t vs, jelements t vs -> jvalue ("["%char :: t ++ ["]"%char]) (JArr vs)
| jv_str : forall s u, jchars s u -> jvalue (quote :: s ++ [quote]) (JStr u)
| jv_num : forall t, jnumber t -> jvalue t (JNum t)
| jv_true : jvalue tTrue JTrue
| jv_false : jvalue tFalse JFalse
| jv_null : jvalue tNull JNull
with jelement : text -> json -> Prop :=
| je : forall w1 t w2 v, Forall jws w1 -> jvalue t v -> Forall jws w2 -> jelement (w1 ++ t ++ w2) v
with jelements : text -> list json -> Prop :=
| jes_last : forall t v, jelement t v -> jelements t [v]
| jes_more : forall t v t' vs, jelement t v -> jelements t' vs -> jelements (t ++ ","%char :: t') (v :: vs)
with jmember : text -> text * json -> Prop :=
| jm : forall w1 s k w2 t v, Forall jws w1 -> jchars s k -> Forall jws w2 -> jelement t v -> jmember (w1 ++ quote :: s ++ quote :: w2 ++ ":"%char :: t) (k, v)
with jmembers : text -> list (text * json) -> Prop :=
| jms_last : forall t m, jmember t m -> jmembers t [m]
| jms_more : forall t m t' ms, jmember t m -> jmembers t' ms -> jmembers (t ++ ","%char :: t') (m :: ms).

(** * what a sequence of calls means *)
Section Items.
Variables (I F : Type) (showI : I -> text) (showF : F -> text).
Inductive item := ISec (k : text) (is : list item) | IStr (k v : text) | IInt (k : text) (i : I) | IFlt (k : text) (x : F) | IBool (k : text) (b : bool) | IArr (k : text) (xs : list F).
Fixpoint meaning (i : item) : text * json :=
  match i with
  | ISec k is => (k, JObj (map meaning is))
  | IStr k v => (k, JStr v)
  | IInt k i => (k, JNum (showI i))
  | IFlt k x => (k, JNum (showF x))
  | IBool k b => (k, if b then JTrue else JFalse)
  | IArr k xs => (k, JArr (map (fun x => JNum (showF x)) xs))
  end.
(* keys and strings without quotes, backslashes and control characters; numbers that print as numbers *)
Fixpoint cleanItem (i : item) : Prop :=
  match i with
  | ISec k is => Forall cleanC k /\ fold_right (fun i P => cleanItem i /\ P) True is
  | IStr k v => Forall cleanC k /\ Forall cleanC v
  | IInt k i => Forall cleanC k /\ jnumber (showI i)
  | IFlt k x => Forall cleanC k /\ jnumber (showF x)
  | IBool k b => Forall cleanC k
  | IArr k xs => Forall cleanC k /\ Forall (fun x => jnumber (showF x)) xs
  end.
End Items.
