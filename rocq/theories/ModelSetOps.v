(** The operators of JSSet. JSSet (jstypes/jsset.py) inherits them from collections.abc.Set and MutableSet, apart from
    |= (jsset.py:180-182); they are modelled after Python's Lib/_collections_abc.py. cls._from_iterable(it) is JSSet(it).
    Simplification: the generator given to _from_iterable is run to its end first. Both it and JSSet() only raise what
    same_value_zero or the other set's [in] raise, and the new set is dropped then. *)
From Coq Require Import List NArith ZArith Bool.
From Verif Require Import Base Dict ModelValue SpecMap ModelMap ModelEncode ModelContainers.
Import ListNotations.
Open Scope Z_scope.

(** The right operand: the set itself ([it is self]), another JSSet, a collections.abc.Set of another class (what iterating
    gives, and its [in]), or an iterable that is not a Set. *)
Inductive operand : Type :=
| OItself
| OJSSet (m : jsset)
| OOtherSet (l : list val) (contains : val -> result bool)
| OIterable (l : list val).

(** A Python set or frozenset with the given members: [in] hashes, so it is by == and raises TypeError for unhashable values.
    Simplifications: a NaN is in no such set (it is when the very object is a member); a tuple, wrapper or view that holds a
    NaN counts as unhashable, as in ModelContainers. *)
Definition python_set (H : ModelHeap.heap) (l : list val) : operand :=
  OOtherSet l (fun v => if hashable H v then Ok (existsb (same_dkey (dkey H) v) l) else Err EType).

Section Ops.
Variable bytes_of : nat -> option bytes.
Notation contains := (js_contains bytes_of).

(** JSSet(iterable), jsset.py:123-126 *)
Definition from_iterable (l : list val) : result jsset :=
  match js_union bytes_of [] l with (Ok _, m) => Ok m | (Err e, _) => Err e end.
Definition iterate (a : jsset) (o : operand) : list val :=
  match o with OItself => js_iter a | OJSSet m => js_iter m | OOtherSet l _ => l | OIterable l => l end.
(** A set to test membership in: [if not isinstance(other, Set): other = self._from_iterable(other)] *)
Definition as_set (a : jsset) (o : operand) : result (list val * (val -> result bool)) :=
  match o with
  | OItself => Ok (js_iter a, contains a)
  | OJSSet m => Ok (js_iter m, contains m)
  | OOtherSet l c => Ok (l, c)
  | OIterable l => do m <- from_iterable l; Ok (js_iter m, contains m)
  end.
(** (value for value in l if test(value)) *)
Fixpoint select (test : val -> result bool) (l : list val) : result (list val) :=
  match l with
  | [] => Ok []
  | v :: l => do x <- test v; do r <- select test l; Ok (if x then v :: r else r)
  end.
Definition negated (test : val -> result bool) (v : val) : result bool := do x <- test v; Ok (negb x).

(** Set.__and__ and __rand__ *)
Definition set_and (a : jsset) (o : operand) : result jsset :=
  do l <- select (contains a) (iterate a o); from_iterable l.
(** Set.__or__ and __ror__ *)
Definition set_or (a : jsset) (o : operand) : result jsset := from_iterable (js_iter a ++ iterate a o).
(** Set.__sub__ *)
Definition set_sub (a : jsset) (o : operand) : result jsset :=
  do b <- as_set a o; do l <- select (negated (snd b)) (js_iter a); from_iterable l.
(** Set.__rsub__, for a left operand that is not a JSSet *)
Definition set_rsub (a : jsset) (o : operand) : result jsset :=
  do b <- as_set a o; do l <- select (negated (contains a)) (fst b); from_iterable l.
(** Set.__xor__ and __rxor__: (self - other) | (other - self). With a Set of another class, other - self is that class's
    own difference; here it keeps other's members that are not in self. *)
Definition set_xor (a : jsset) (o : operand) : result jsset :=
  do b <- as_set a o; do l <- select (negated (snd b)) (js_iter a); do x <- from_iterable l;
  do r <- select (negated (contains a)) (fst b); from_iterable (js_iter x ++ r).
(** Set.isdisjoint *)
Fixpoint none_in (test : val -> result bool) (l : list val) : result bool :=
  match l with [] => Ok true | v :: l => do x <- test v; if x then Ok false else none_in test l end.
Definition isdisjoint (a : jsset) (o : operand) : result bool := none_in (contains a) (iterate a o).
(** Set.__le__, __lt__, __ge__, __gt__ between JSSets *)
Fixpoint all_in (test : val -> result bool) (l : list val) : result bool :=
  match l with [] => Ok true | v :: l => do x <- test v; if x then all_in test l else Ok false end.
Definition set_le (a b : jsset) : result bool := if js_len b <? js_len a then Ok false else all_in (contains b) (js_iter a).
Definition set_ge (a b : jsset) : result bool := if js_len a <? js_len b then Ok false else all_in (contains a) (js_iter b).
Definition set_lt (a b : jsset) : result bool := if js_len a <? js_len b then set_le a b else Ok false.
Definition set_gt (a b : jsset) : result bool := if js_len b <? js_len a then set_ge a b else Ok false.

(** The operators that change the set. What raises leaves the set as far as it got. *)
Fixpoint discard_all (a : jsset) (l : list val) : result unit * jsset :=
  match l with
  | [] => (Ok tt, a)
  | v :: l => match js_discard bytes_of a v with Ok a => discard_all a l | Err e => (Err e, a) end
  end.
(** MutableSet.__iand__ *)
Definition set_iand (a : jsset) (o : operand) : result unit * jsset :=
  match set_sub a o with Err e => (Err e, a) | Ok d => discard_all a (js_iter d) end.
(** MutableSet.__isub__ *)
Definition set_isub (a : jsset) (o : operand) : result unit * jsset :=
  match o with OItself => (Ok tt, []) | _ => discard_all a (iterate a o) end.
(** MutableSet.__ixor__ *)
Fixpoint toggle_all (a : jsset) (l : list val) : result unit * jsset :=
  match l with
  | [] => (Ok tt, a)
  | v :: l =>
      match contains a v with
      | Err e => (Err e, a)
      | Ok x => match (if x then js_discard bytes_of a v else js_add bytes_of a v) with
                | Ok a => toggle_all a l
                | Err e => (Err e, a)
                end
      end
  end.
Definition set_ixor (a : jsset) (o : operand) : result unit * jsset :=
  match o with
  | OItself => (Ok tt, [])
  | _ => match as_set a o with Err e => (Err e, a) | Ok b => toggle_all a (fst b) end
  end.
(** JSSet.__ior__, jsset.py:180-182. Iterating the set itself while updating it does not change its keys. *)
Definition set_ior (a : jsset) (o : operand) : result unit * jsset := js_union bytes_of a (iterate a o).
End Ops.
