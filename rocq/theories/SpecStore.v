(** How much memory an object graph takes, for C71. *)
From Coq Require Import List NArith ZArith Bool.
From Verif Require Import Base ModelArray ModelValue SpecObject ModelObject ModelMap ModelBuffer ModelHeap.
Import ListNotations.
Open Scope nat_scope.

(** The cells of a container: the places that hold a value, a key or a byte, used or not.
    - a dense array is a list: one cell for every index up to its length, hole or not;
    - a sparse array is a dict of indexes and values and a sorted list of the indexes;
    - a property of an object is a name and a value;
    - an entry of a JSMap is a key, a value and the key's surrogate; a member of a JSSet is the
      member and its surrogate. *)
Definition arr_cells {T} (a : arr T) : nat :=
  match a with
  | ADense d => length (d_items d)
  | ASparse s => 2 * length (s_items s) + match s_sorted s with Some l => length l | None => 0 end
  end.
Definition jo_cells {T} (o : jsobj T) : nat := arr_cells (jo_arr o) + 2 * length (jo_props o).
Definition obj_cells (o : obj) : nat :=
  match o with
  | OMap m => 3 * length m
  | OSet m => 2 * length m
  | OObject o | OArray o => jo_cells o
  | OBuffer b => length (jb_data b)
  | OError _ _ _ _ => 3
  | ODict l => 2 * length l
  | OPySet l | OSeq _ l => length l
  | OBytes d | OByteArray d => length d
  | _ => 0
  end.
(** Every object counts one more cell for itself. *)
Definition cells (h : heap) : nat := fold_right (fun o n => S (obj_cells o) + n) 0 h.

(** Strings and ints are objects that several cells can share. [held h v]: the cell of some
    object of [h] holds the string or int [v]; a property name is a string. *)
Definition sized (v : val) : bool := match v with VStr _ | VInt _ => true | _ => false end.
Definition arr_vals {T} (a : arr T) : list T :=
  match a with
  | ADense d => flat_map (fun x => match x with Some v => [v] | None => [] end) (d_items d)
  | ASparse s => map snd (s_items s)
  end.
Definition jo_vals (o : jsobj val) : list val :=
  arr_vals (jo_arr o) ++ map (fun p => VStr (fst p)) (jo_props o) ++ map snd (jo_props o).
Definition opt_str (s : option (list N)) : list val := match s with Some s => [VStr s] | None => [] end.
(** The name of an error is one of seven constants and is left out. *)
Definition obj_vals (o : obj) : list val :=
  match o with
  | OMap m => map (fun p => fst (snd p)) m ++ map (fun p => snd (snd p)) m
  | OSet m => map snd m
  | OObject o | OArray o => jo_vals o
  | ORegExp s _ => [VStr s]
  | OError _ m s c => opt_str m ++ opt_str s ++ [c]
  | ODict l => map fst l ++ map snd l
  | OPySet l | OSeq _ l => l
  | OPrim _ v => [v]
  | _ => []
  end.
Definition held (h : heap) (v : val) : Prop := sized v = true /\ exists o, In o h /\ In v (obj_vals o).
(** Characters of a string; bytes of an int. *)
Definition text_size (v : val) : nat :=
  match v with
  | VStr s => length s
  | VInt z => N.to_nat (N.size (Z.abs_N z) / 8 + 1)
  | _ => 0
  end.
Definition total_text (l : list val) : nat := fold_right (fun v n => text_size v + n) 0 l.

(** The assignments a list of operations on a JSObject or JSArray can make. *)
Definition op_assignments {T} (op : mop T) : nat :=
  match op with MSet _ _ | MSetDefault _ _ => 1 | MUpdate ps => length ps | _ => 0 end.
Definition assignments {T} (ops : list (mop T)) : nat := list_sum (map op_assignments ops).
