(** Specifications of equality that do not mention the guard. *)
From Coq Require Import List NArith ZArith Bool Arith.
From Verif Require Import Base Dict ModelTags ModelArray ModelValue ModelObject ModelMap ModelHeap ModelEq ArrayFacts3.
Import ListNotations.
Open Scope nat_scope.

(** Every comparison a class's __eq__ can ask for, whatever the answers, satisfies [P]. *)
Fixpoint asks (P : nat -> nat -> Prop) (w : tree) : Prop :=
  match w with Ask a b f => P a b /\ forall x, asks P (f x) | _ => True end.
(** A class's __eq__ returns True, given that the pairs it asks about, all related by [R] or identical, are equal. *)
Inductive agrees (R : nat -> nat -> Prop) : tree -> Prop :=
| ag_done : agrees R (Done Yes)
| ag_ask a b f : a = b \/ R a b -> agrees R (f true) -> agrees R (Ask a b f).
(** A pairing of two structures: one-to-one, and no object is in both structures unless it is paired with itself. *)
Record pairing (R : nat -> nat -> Prop) : Prop := {
  p_fun : forall a b c, R a b -> R a c -> b = c;
  p_inj : forall a b c, R a c -> R b c -> a = b;
  p_sides : forall a b c, R a b -> R b c -> a = b \/ b = c }.

(** Comparison without a guard: Python's == with the undecorated methods. It may not terminate. *)
Section Plain.
Variable wrapped : nat -> nat -> tree.
Variable subclass : nat -> nat -> bool.
Definition ordering (a b x y : nat) : Prop := if subclass a b then x = b /\ y = a else x = a /\ y = b.
Inductive decided : outcome answer -> outcome bool -> Prop :=
| dc_yes : decided (Returned Yes) (Returned true)
| dc_no : decided (Returned No) (Returned false)
| dc_raise e : decided (Raised e) (Raised e).
Inductive plain : nat -> nat -> outcome answer -> Prop :=
| pl_same a : plain a a (Returned Yes)
| pl_run a b r : a <> b -> pfollow (wrapped a b) r -> plain a b r
with pfollow : tree -> outcome answer -> Prop :=
| pf_done r : pfollow (Done r) (Returned r)
| pf_raise e : pfollow (Raise e) (Raised e)
| pf_ask a b f x r : pop a b (Returned x) -> pfollow (f x) r -> pfollow (Ask a b f) r
| pf_ask_raise a b f e : pop a b (Raised e) -> pfollow (Ask a b f) (Raised e)
with pop : nat -> nat -> outcome bool -> Prop :=
| po_first a b x y r1 r : ordering a b x y -> plain x y r1 -> decided r1 r -> pop a b r
| po_second a b x y r2 r : ordering a b x y -> plain x y (Returned NotImpl) -> plain y x r2 -> decided r2 r -> pop a b r
| po_neither a b x y : ordering a b x y -> plain x y (Returned NotImpl) -> plain y x (Returned NotImpl) -> pop a b (Returned (a =? b)).
End Plain.

(** * The library's classes: node by node equality of two objects, the objects they refer to being related by [R]. *)
Section Nodes.
Variable H : heap.
Variable leaf_eq leaf_same : val -> val -> bool.
Variable R : nat -> nat -> Prop.
Definition same_val (leaf : val -> val -> bool) (v w : val) : Prop :=
  match v, w with
  | VRef a, VRef b => if is_decorated H a && is_decorated H b then a = b \/ R a b else leaf v w = true
  | _, _ => leaf v w = true
  end.
Definition same_elem (x y : option val) : Prop :=
  match x, y with Some v, Some w => same_val leaf_eq v w | None, None => True | _, _ => False end.
Definition same_props (l m : list (list N * val)) : Prop :=
  length l = length m /\ forall n v, In (n, v) l -> exists w, dget listN_eqb n m = Some w /\ same_val leaf_same v w.
Definition same_jsobj (x y : jsobj val) : Prop :=
  Forall2 same_elem (aabs (jo_arr x)) (aabs (jo_arr y)) /\ same_props (jo_props x) (jo_props y).
Definition same_node (x y : obj) : Prop :=
  match x, y with
  | OMap m, OMap m' => Forall2 (fun p q => same_val leaf_same (fst p) (fst q) /\ same_val leaf_same (snd p) (snd q)) (map snd m) (map snd m')
  | OSet m, OSet m' => Forall2 (same_val leaf_eq) (map snd m) (map snd m')
  | OObject x, OObject y | OArray x, OArray y => same_jsobj x y
  | OError n m s c, OError n' m' s' c' => n = n' /\ m = m' /\ s = s' /\ same_val leaf_same c c'
  | _, _ => False
  end.
End Nodes.
(** [c] is directly inside the object *)
Definition holds (x : obj) (v : val) : Prop :=
  match x with
  | OMap m => exists k, In (k, v) (map snd m) \/ In (v, k) (map snd m)
  | OSet m => In v (map snd m)
  | OObject o | OArray o => In (Some v) (aabs (jo_arr o)) \/ exists n, In (n, v) (jo_props o)
  | OError _ _ _ c => v = c
  | _ => False
  end.
