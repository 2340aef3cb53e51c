(** Python's == between what loads returned and what was dumped.

    JSMap, JSSet, JSObject, JSArray, JSError, dict and set are compared as in ModelMixedEq; here are the other values:
    - numbers, strings and constants, by value
    - JSRegExp (jsregexp.py:14-55), JSSharedArrayBuffer and JSArrayBufferTransfer (jsbuffers.py:245-289) and
      V8SharedObjectReference (_v8.py:12-22), dataclasses: field by field
    - datetime: equal dates
    - JSArrayBuffer and views as in ModelViewEq
    - everything else: the classes return NotImplemented for each other, so the operator answers by identity

    Simplifications: two wrapper objects, two lists or tuples, two dicts and two sets are not compared (identity stands for
    their ==): what loads returns has none of them. The same float object on both sides, which dicts and tuples take for equal even
    when it is a NaN, does not occur for the same reason. A bytearray or a memoryview and a buffer are not compared. *)
From Coq Require Import List NArith ZArith Bool Arith.
From Verif Require Import Base ModelTags SpecNumber ModelArray ModelValue ModelBuffer ModelHeap ModelEncode ModelTyped ModelViewEq ModelEq ModelMixedEq.
Import ListNotations.
Open Scope nat_scope.

Section PyEq.
(** as in ModelViewEq *)
Variable cast32 : N -> N.
Variable widen : nat -> N -> N.
Variable py312 : bool.
Variable H : heap.

(** The number that a bool, an int or a float is *)
Definition number_of (v : val) : option number :=
  match v with
  | VBool b => Some (Finite (if b then 1 else 0) 0)
  | VInt z => Some (Finite z 0)
  | VFloat b => Some (ieee b)
  | _ => None
  end.
(** Two objects of the classes above *)
Definition other_eq (a b : nat) : bool :=
  match nth_error H a, nth_error H b with
  | Some (ORegExp s f), Some (ORegExp s' f') => listN_eqb s s' && (f =? f')%N
  | Some (ODate d), Some (ODate d') => (d =? d')%N
  | Some (OBuffer x), Some (OBuffer y) => buffer_eq x y
  | Some (OShared i), Some (OShared i') => (i =? i')%N
  | Some (OTransfer i), Some (OTransfer i') => (i =? i')%N
  | Some (OSharedRef i), Some (OSharedRef i') => (i =? i')%N
  | Some (OView k v), Some (OView k' v') => view_eq cast32 widen py312 (backing_of H k) v (a =? b) (AView (backing_of H k') v')
  | _, _ => a =? b
  end.
Definition leaf_op (v w : val) : bool :=
  match v, w with
  | VRef a, VRef b => other_eq a b
  | VStr s, VStr s' => listN_eqb s s'
  | VNone, VNone | VUndef, VUndef | VHole, VHole => true
  | _, _ => match number_of v, number_of w with Some a, Some b => num_eqb a b | _, _ => false end
  end.
(** The key that a value is in a dict or set *)
Definition dict_key (v : val) : option hkey := hash H (S (length H)) v.
(** [v == w] in thread [t], where [s] are the comparisons that are running: the outcome and the running ones afterwards *)
Definition equals (t : nat) (v w : val) (s : kset) : outcome bool * kset :=
  match v, w with
  | VRef a, VRef b =>
      if followed H a b then run (mixed_compare hkey_eqb H dict_key leaf_op leaf_op t a b) s
      else (Returned (leaf_op v w), s)
  | _, _ => (Returned (leaf_op v w), s)
  end.
End PyEq.
