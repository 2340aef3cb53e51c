(** JSMap and JSSet compared with dict and set: jsmap.py:204-237, jsset.py:139-165.

    As in ModelEq, a class's own __eq__ is a tree of the comparisons it asks for; here the objects inside may
    also be a JSMap and a dict, or a JSSet and a set. dict.__eq__ and set.__eq__ return NotImplemented for them,
    so Python asks the method of JSMap or JSSet next.

    Simplifications: [ODict] stands for dict and [OPySet] for set and frozenset; other Mappings give the same through
    Mapping.__eq__, which makes a dict of its items. Hashing and == of keys do not change state and == of keys does not raise:
    [dict_key] gives the key a value is in a dict or set, None when hash() raises TypeError. dict.__eq__ asks
    for its values in one order of the operands only. [leaf_eq] (==) and [leaf_same] ("is or ==", which tuples and
    dicts use) decide all the values other than these objects, as in ModelEq. *)
From Coq Require Import List NArith ZArith Bool Arith.
From Verif Require Import Base Dict ModelTags ModelArray ModelValue ModelObject ModelMap ModelHeap ModelEq.
Import ListNotations.
Open Scope nat_scope.

Section Mixed.
Context {K : Type}.
Variable keqb : K -> K -> bool.
Variable H : heap.
Variable dict_key : val -> option K.
Variable leaf_eq leaf_same : val -> val -> bool.

(** Pairs whose == is followed: two decorated objects, or a JSMap or JSSet and what it is compared with. *)
Definition followed (a b : nat) : bool :=
  match nth_error H a, nth_error H b with
  | Some (OMap _), Some (ODict _) | Some (ODict _), Some (OMap _) => true
  | Some (OSet _), Some (OPySet _) | Some (OPySet _), Some (OSet _) => true
  | _, _ => is_decorated H a && is_decorated H b
  end.
Definition mask (leaf : val -> val -> bool) (v w : val) (k : bool -> tree) : tree :=
  match v, w with
  | VRef a, VRef b => if followed a b then Ask a b k else k (leaf v w)
  | _, _ => k (leaf v w)
  end.
(** all(x == y for x, y in pairs) *)
Fixpoint mall (leaf : val -> val -> bool) (l : list (val * val)) (k : tree) : tree :=
  match l with
  | [] => k
  | (v, w) :: r => mask leaf v w (fun x => if x then mall leaf r k else Done No)
  end.
(** ArrayProperties.__eq__, jsarrayproperties.py:91-105 *)
Definition marrays (a b : arr val) (k : tree) : tree :=
  if negb (arr_len a =? arr_len b)%Z then Done No
  else if negb (arr_used a =? arr_used b)%Z then Done No
  else mall leaf_eq (map (fun i => (of_element (arr_get a i), of_element (arr_get b i))) (arr_indexes_unordered a)) k.
(** dict.__eq__ of the named properties *)
Fixpoint mprops (l m : list (list N * val)) : tree :=
  match l with
  | [] => Done Yes
  | (n, v) :: l =>
      match dget listN_eqb n m with
      | Some w => mask leaf_same v w (fun x => if x then mprops l m else Done No)
      | None => Done No
      end
  end.
(** JSObject.__eq__ for objects of the same class, jsobject.py:222-248 *)
Definition mobjects (x y : jsobj val) : tree :=
  if negb (jo_len x =? jo_len y)%Z then Done No
  else marrays (jo_arr x) (jo_arr y)
         (if negb (length (jo_props x) =? length (jo_props y)) then Done No else mprops (jo_props x) (jo_props y)).

(** dict(pairs): the first of equal keys stays, the last value; None when a key is not hashable. *)
Fixpoint dict_of (d : list (K * val)) (l : list (val * val)) : option (list (K * val)) :=
  match l with
  | [] => Some d
  | (k, v) :: l => match dict_key k with Some x => dict_of (dset keqb x v d) l | None => None end
  end.
(** d[key] of a dict *)
Fixpoint dict_find (x : K) (l : list (val * val)) : option val :=
  match l with
  | [] => None
  | (k, w) :: l => if match dict_key k with Some y => keqb x y | None => false end then Some w else dict_find x l
  end.
(** dict.__eq__ after the lengths: every key of [d] is in the dict [l] and the values are the same *)
Fixpoint mdict (d : list (K * val)) (l : list (val * val)) : tree :=
  match d with
  | [] => Done Yes
  | (x, v) :: d =>
      match dict_find x l with
      | Some w => mask leaf_same v w (fun r => if r then mdict d l else Done No)
      | None => Done No
      end
  end.
(** JSMap.__eq__ with a dict, jsmap.py:226-236; [ms] are the items of the JSMap *)
Definition map_vs_dict (ms l : list (val * val)) : tree :=
  if negb (length ms =? length l) then Done No
  else match dict_of [] ms with
       | Some d => if negb (length d =? length l) then Done No else mdict d l
       | None => mall leaf_same (flat_pairs (combine ms l)) (Done Yes)
       end.
(** set(members) *)
Fixpoint set_of (s : list K) (l : list val) : option (list K) :=
  match l with
  | [] => Some s
  | v :: l => match dict_key v with Some x => set_of (if existsb (keqb x) s then s else s ++ [x]) l | None => None end
  end.
(** JSSet.__eq__ with a set, jsset.py:154-164 *)
Definition set_vs_set (ms l : list val) : tree :=
  if negb (length ms =? length l) then Done No
  else match set_of [] ms with
       | Some s =>
           Done (if (length s =? length l) && forallb (fun x => existsb (fun w => match dict_key w with Some y => keqb x y | None => false end) l) s
                 then Yes else No)
       | None => mall leaf_eq (combine ms l) (Done Yes)
       end.

(** The __eq__ of each class. *)
Definition mixed_eq (a b : nat) : tree :=
  match nth_error H a, nth_error H b with
  | Some (OMap m), Some (OMap m') =>                                  (* jsmap.py:217-225 *)
      if negb (length m =? length m') then Done No
      else mall leaf_same (flat_pairs (combine (map snd m) (map snd m'))) (Done Yes)
  | Some (OMap m), Some (ODict l) => map_vs_dict (map snd m) l
  | Some (OMap _), Some (OObject _) | Some (OMap _), Some (OArray _) => Done No
  | Some (OSet m), Some (OSet m') =>                                  (* jsset.py:145-153 *)
      if negb (length m =? length m') then Done No
      else mall leaf_eq (combine (map snd m) (map snd m')) (Done Yes)
  | Some (OSet m), Some (OPySet l) => set_vs_set (map snd m) l
  | Some (OObject x), Some (OObject y) | Some (OArray x), Some (OArray y) => mobjects x y
  | Some (OError n m s c), Some (OError n' m' s' c') =>               (* jserror.py:219-225, no tracebacks *)
      if listN_eqb n n' && opt_str_eqb m m' && opt_str_eqb s s' then mask leaf_same c c' (fun x => Done (if x then Yes else No))
      else Done No
  | _, _ => Done NotImpl
  end.
(** [a == b] in thread [t] *)
Definition mixed_compare (t a b : nat) : prog := compare mixed_eq (class_sub H) (S (length H)) t a b.
End Mixed.
