(** The comparisons of a JSSet with a Python set or frozenset. JSSet (jstypes/jsset.py:27) inherits them from collections.abc.Set; those with the
    Python set on the left are the same ones turned round, as set's own return NotImplemented. The members of the Python set are given as a list
    without equal members, so that its length is the set's. *)
From Coq Require Import List NArith ZArith Bool.
From Verif Require Import Base Dict ModelValue SpecMap ModelMap ModelHeap ModelEncode ModelContainers ModelSetOps.
Import ListNotations.
Open Scope Z_scope.

Section Compare.
Variable bytes_of : nat -> option bytes.
Variable H : heap.
(** [v in s], as in python_set of ModelSetOps *)
Definition py_in (l : list val) (v : val) : result bool :=
  if hashable H v then Ok (existsb (same_dkey (dkey H) v) l) else Err EType.
(** Set.__le__, __ge__, __lt__, __gt__ *)
Definition le_python (a : jsset) (l : list val) : result bool :=
  if Z.of_nat (length l) <? js_len a then Ok false else all_in (py_in l) (js_iter a).
Definition ge_python (a : jsset) (l : list val) : result bool :=
  if js_len a <? Z.of_nat (length l) then Ok false else all_in (js_contains bytes_of a) l.
Definition lt_python (a : jsset) (l : list val) : result bool :=
  if js_len a <? Z.of_nat (length l) then le_python a l else Ok false.
Definition gt_python (a : jsset) (l : list val) : result bool :=
  if Z.of_nat (length l) <? js_len a then ge_python a l else Ok false.
End Compare.
