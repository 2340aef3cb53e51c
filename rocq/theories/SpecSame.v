(** When two graphs are the same but for the identity of their objects, and for Python containers in place of JavaScript's. *)
From Coq Require Import List NArith ZArith Bool.
From Verif Require Import Base Dict ModelTags SpecArray ModelArray ArrayFacts3 ModelValue ModelObject ModelMap ModelBuffer ModelHeap ModelEncode SpecEncode.
Import ListNotations.

Section Same.
Variables H H' : heap.
(** How values without identity correspond (equality, or as they are decoded), and which objects correspond. *)
Variable leaf : val -> val -> Prop.
Variable R : nat -> nat -> Prop.

Definition same_val (v v' : val) : Prop :=
  match v, v' with
  | VRef o, VRef o' => R o o'
  | VRef _, _ | _, VRef _ => False
  | _, _ => leaf v v'
  end.
Definition same_pair (p q : val * val) : Prop := same_val (fst p) (fst q) /\ same_val (snd p) (snd q).
Definition same_prop (p q : val * val) : Prop := fst p = fst q /\ same_val (snd p) (snd q).
(** The same window onto corresponding buffers. *)
Definition same_view (b : nat) (v : view) (b' : nat) (v' : view) : Prop :=
  R b b' /\ vw_tag v' = vw_tag v /\
  view_byte_offset (backing_of H' b') v' = view_byte_offset (backing_of H b) v /\
  view_memory (backing_of H' b') v' = view_memory (backing_of H b) v /\
  view_tracking (backing_of H' b') v' = view_tracking (backing_of H b) v.
(** The same class, the same data and corresponding parts in the same order. A dict, a Python set or a list
    without holes may also be the Map, the Set or the array it is written as. *)
Definition same_obj (x y : obj) : Prop :=
  match x, y with
  | OMap m, OMap m' => Forall2 same_pair (map snd m) (map snd m')
  | ODict l, ODict l' => Forall2 same_pair l l'
  | ODict l, OMap m' => Forall2 same_pair l (map snd m')
  | OSet m, OSet m' => Forall2 same_val (map snd m) (map snd m')
  | OPySet l, OPySet l' => Forall2 same_val l l'
  | OPySet l, OSet m' => Forall2 same_val l (map snd m')
  | OSeq t l, OSeq t' l' => t = t' /\ Forall2 same_val l l'
  | OSeq t l, OArray y => t = false /\ Forall2 same_val l (elements y) /\ named_items y = [] /\ ~ In VHole l
  | OObject x, OObject y => Forall2 same_prop (own_items x) (own_items y)
  | OArray x, OArray y => Forall2 same_val (elements x) (elements y) /\ Forall2 same_prop (named_items x) (named_items y)
  | OError n m s c, OError n' m' s' c' => n = n' /\ m = m' /\ s = s' /\ same_val c c'
  | OPrim t v, OPrim t' v' => t = t' /\ v = v'
  | OView b v, OView b' v' => same_view b v b' v'
  | ORegExp s f, ORegExp s' f' => s = s' /\ f = f'
  | OBuffer b, OBuffer b' => b = b'
  | ODate d, ODate d' => d = d'
  | OShared i, OShared i' | OTransfer i, OTransfer i' | OSharedRef i, OSharedRef i' => i = i'
  | OBytes d, OBytes d' | OByteArray d, OByteArray d' => d = d'
  | OOpaque, OOpaque => True
  | _, _ => False
  end.
(** The roots correspond, corresponding objects are the same, and the correspondence is one-to-one. *)
Definition same_graph (root root' : val) : Prop :=
  same_val root root' /\
  (forall o o', R o o' -> exists x y, nth_error H o = Some x /\ nth_error H' o' = Some y /\ same_obj x y) /\
  (forall o a b, R o a -> R o b -> a = b) /\ (forall a b o, R a o -> R b o -> a = b).
End Same.
