(** keys() and items() of JSObject and JSArray. JSObject (jstypes/jsobject.py:38) inherits them from collections.abc.Mapping: KeysView and
    ItemsView of Python's Lib/_collections_abc.py, whose operators come from its Set. [in] of keys() is [try: obj[key]], so any spelling of a
    property's name is a key; iterating gives the normalised ones. The operators & | - ^ return a Python set, as KeysView._from_iterable is set(it).
    Simplified: the generator given to set() is run to its end first; iterating a sparse array sorts its indexes, which changes nothing one can see
    (C36) and is left out. *)
From Coq Require Import List NArith ZArith Bool.
From Verif Require Import Base SpecNumber ModelValue ModelArray ModelObject ModelViewEq.
Import ListNotations.
Open Scope Z_scope.

Section Generators.
Context {A : Type}.
Variable test : A -> result bool.
(** all(test(x) for x in l), not any(test(x) for x in l) and [x for x in l if test(x)] *)
Fixpoint every (l : list A) : result bool :=
  match l with [] => Ok true | x :: l => do b <- test x; if b then every l else Ok false end.
Fixpoint no_one (l : list A) : result bool :=
  match l with [] => Ok true | x :: l => do b <- test x; if b then Ok false else no_one l end.
Fixpoint those (l : list A) : result (list A) :=
  match l with [] => Ok [] | x :: l => do b <- test x; do r <- those l; Ok (if b then x :: r else r) end.
End Generators.

(** Python's == between keys *)
Definition key_number (k : key) : option number :=
  match k with KInt z => Some (Finite z 0) | KFloat b => Some (ieee b) | KStr _ => None end.
Definition key_eqb (a b : key) : bool :=
  match a, b with
  | KStr s, KStr t => listN_eqb s t
  | KInt y, KInt z => y =? z
  | _, _ => match key_number a, key_number b with Some x, Some y => num_eqb x y | _, _ => false end
  end.
(** [k in s] and set(l) for Python sets of keys: of equal members the first is kept *)
Definition in_set (l : list key) (k : key) : bool := existsb (key_eqb k) l.
Definition set_of (l : list key) : list key := fold_left (fun s k => if in_set s k then s else s ++ [k]) l [].

Section Views.
Context {T : Type}.
Variable float_repr : N -> list N.
Variable veq : T -> T -> bool.
Notation obj := (jsobj T).

(** [obj[key]], jsobject.py:144-158 *)
Definition look_up (o : obj) (k : key) : result T := do p <- normalise_property_key float_repr k; jo_get o p.
(** Mapping.__contains__, which KeysView.__contains__ calls: only KeyError means absent *)
Definition has (o : obj) (k : key) : result bool :=
  match look_up o k with Ok _ => Ok true | Err EKey => Ok false | Err e => Err e end.
(** list(obj.keys()), jsobject.py:216-217 *)
Definition names (o : obj) : list key := map key_of (fst (jo_iter o)).

(** Set.__le__, __lt__, __eq__, isdisjoint between the keys() of two objects *)
Definition names_le (a b : obj) : result bool := if jo_len b <? jo_len a then Ok false else every (has b) (names a).
Definition names_lt (a b : obj) : result bool := if jo_len a <? jo_len b then names_le a b else Ok false.
Definition names_eq (a b : obj) : result bool := if jo_len a =? jo_len b then names_le a b else Ok false.
Definition names_isdisjoint (a b : obj) : result bool := no_one (has a) (names b).
(** Set.__and__, __or__, __sub__, __xor__ between the keys() of two objects *)
Definition names_and (a b : obj) : result (list key) := do l <- those (has a) (names b); Ok (set_of l).
Definition names_or (a b : obj) : result (list key) := Ok (set_of (names a ++ names b)).
Definition names_sub (a b : obj) : result (list key) :=
  do l <- those (fun k => do x <- has b k; Ok (negb x)) (names a); Ok (set_of l).
(** (self - other) | (other - self): both are sets by now *)
Definition names_xor (a b : obj) : result (list key) := do x <- names_sub a b; do y <- names_sub b a; Ok (set_of (x ++ y)).

(** Set.__and__ with any iterable *)
Definition names_and_iterable (a : obj) (l : list key) : result (list key) := do r <- those (has a) l; Ok (set_of r).
(** Set.__sub__ with an iterable or Python set: a Python set answers [in] *)
Definition names_sub_iterable (a : obj) (l : list key) : list key := set_of (filter (fun k => negb (in_set (set_of l) k)) (names a)).
(** Set.__le__, __ge__ and __eq__ with a Python set *)
Definition names_le_set (a : obj) (s : list key) : bool :=
  if Z.of_nat (length s) <? jo_len a then false else forallb (in_set s) (names a).
Definition names_ge_set (a : obj) (s : list key) : result bool :=
  if jo_len a <? Z.of_nat (length s) then Ok false else every (has a) s.
Definition names_eq_set (a : obj) (s : list key) : bool :=
  if jo_len a =? Z.of_nat (length s) then names_le_set a s else false.

(** ItemsView: iteration [(key, obj[key]) for key in obj], [in], and Set.__eq__ between the items() of two objects.
    [v is value or v == value] is [veq]. *)
Definition item_in (o : obj) (p : key * T) : result bool :=
  match look_up o (fst p) with Ok w => Ok (veq w (snd p)) | Err EKey => Ok false | Err e => Err e end.
Fixpoint items_of (o : obj) (l : list key) : result (list (key * T)) :=
  match l with [] => Ok [] | k :: l => do v <- look_up o k; do r <- items_of o l; Ok ((k, v) :: r) end.
Definition same_items (a b : obj) : result bool :=
  if jo_len a =? jo_len b then
    if jo_len b <? jo_len a then Ok false else (do l <- items_of a (names a); every (item_in b) l)
  else Ok false.
End Views.
