(** What it means that a JSMap or JSSet equals a dict or set, for C72. *)
From Coq Require Import List Bool Arith.
From Verif Require Import Base ModelValue ModelHeap ModelEq ModelMixedEq.
Import ListNotations.

(** The answer of a class's __eq__ when [op] is the result of == for the objects it asks about. *)
Fixpoint decide (op : nat -> nat -> bool) (w : tree) : option answer :=
  match w with Done r => Some r | Raise _ => None | Ask a b k => decide op (k (op a b)) end.
(** [v == w]: for objects whose == is followed, the answer [op]; otherwise the given comparison. *)
Definition equal_to (H : heap) (op : nat -> nat -> bool) (leaf : val -> val -> bool) (v w : val) : bool :=
  match v, w with
  | VRef a, VRef b => if followed H a b then op a b else leaf v w
  | _, _ => leaf v w
  end.
Definition same (H : heap) (op : nat -> nat -> bool) (leaf : val -> val -> bool) (v w : val) : Prop := equal_to H op leaf v w = true.
