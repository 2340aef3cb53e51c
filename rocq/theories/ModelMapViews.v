(** keys() and items() of JSMap. JSMap (jstypes/jsmap.py:31) inherits them from collections.abc.Mapping: KeysView and ItemsView of Python's
    Lib/_collections_abc.py, whose operators come from its Set. [in] of keys() is the map's own, by same-value-zero (jsmap.py:195-196). The operators
    & | - ^ return a Python set, as KeysView._from_iterable is set(it).
    Simplified: the generator given to set() is run to its end first; what raises is the same. [dict_key]: what Python's sets compare, None for
    unhashable values (as in C72). *)
From Coq Require Import List NArith ZArith Bool.
From Verif Require Import Base Dict ModelValue SpecMap ModelMap ModelSetOps.
Import ListNotations.
Open Scope Z_scope.

Section Views.
Context {V K : Type}.
Variable bytes_of : nat -> option bytes.
Variable keqb : K -> K -> bool.
Variable dict_key : val -> option K.
Variable veq : V -> V -> bool.
Local Notation jsmap := (list (svz * (val * V))).
Local Notation contains := (jm_contains bytes_of).

(** [v in s] for a Python set with the given members *)
Definition pyset_contains (l : list val) (v : val) : result bool :=
  match dict_key v with
  | None => Err EType
  | Some k => Ok (existsb (fun w => match dict_key w with Some k' => keqb k k' | None => false end) l)
  end.
(** set(l): of equal members the first is kept *)
Fixpoint pyset_from (acc l : list val) : result (list val) :=
  match l with
  | [] => Ok acc
  | v :: l => do x <- pyset_contains acc v; pyset_from (if x then acc else acc ++ [v]) l
  end.
Definition pyset (l : list val) : result (list val) := pyset_from [] l.

(** Set.__le__, __lt__, __eq__, isdisjoint between the keys() of two JSMaps *)
Definition keys_le (a b : jsmap) : result bool := if jm_len b <? jm_len a then Ok false else all_in (contains b) (jm_iter a).
Definition keys_lt (a b : jsmap) : result bool := if jm_len a <? jm_len b then keys_le a b else Ok false.
Definition keys_eq (a b : jsmap) : result bool := if jm_len a =? jm_len b then keys_le a b else Ok false.
Definition keys_isdisjoint (a b : jsmap) : result bool := none_in (contains a) (jm_iter b).
(** Set.__and__, __or__, __sub__, __xor__ between the keys() of two JSMaps *)
Definition keys_and (a b : jsmap) : result (list val) := do l <- select (contains a) (jm_iter b); pyset l.
Definition keys_or (a b : jsmap) : result (list val) := pyset (jm_iter a ++ jm_iter b).
Definition keys_sub (a b : jsmap) : result (list val) := do l <- select (negated (contains b)) (jm_iter a); pyset l.
(** (self - other) | (other - self): both are sets by now *)
Definition keys_xor (a b : jsmap) : result (list val) := do x <- keys_sub a b; do y <- keys_sub b a; pyset (x ++ y).
(** Set.__sub__ with an iterable that is no Set: [other = self._from_iterable(other)], so a Python set answers [in] *)
Definition keys_sub_iterable (a : jsmap) (l : list val) : result (list val) :=
  do o <- pyset l; do r <- select (negated (pyset_contains o)) (jm_iter a); pyset r.

(** ItemsView.__contains__: [v is value or v == value] is [veq] *)
Definition items_contains (a : jsmap) (p : val * V) : result bool :=
  match jm_get bytes_of a (fst p) with Ok w => Ok (veq w (snd p)) | Err EKey => Ok false | Err e => Err e end.
Fixpoint all_items_in (test : val * V -> result bool) (l : list (val * V)) : result bool :=
  match l with [] => Ok true | p :: l => do x <- test p; if x then all_items_in test l else Ok false end.
(** Set.__eq__ between the items() of two JSMaps *)
Definition items_eq (a b : jsmap) : result bool :=
  if jm_len a =? jm_len b then (do l <- jm_items bytes_of a; all_items_in (items_contains b) l) else Ok false.
End Views.
