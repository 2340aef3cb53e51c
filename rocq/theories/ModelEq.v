(** Recursive equality: _recursive_eq.py:12-72 and the __eq__ methods it decorates (jsobject.py:222-248,
    jsmap.py:204-237, jsset.py:139-165, jsarrayproperties.py:91-105, jserror.py:211-226).

    The decorated class's own __eq__ is external to the decorator: here a tree of the comparisons it asks
    for. What the decorator does to the shared set of running keys is a program of set operations, so that
    the operations of several threads can be interleaved.

    Simplifications: Python's recursion limit is not modelled (fuel bounds the recursion; exhausting it is
    excluded by theorem), nor are exceptions raised between two operations of the decorator itself. *)
From Coq Require Import List NArith ZArith Bool Arith.
From Verif Require Import Base Dict ModelTags ModelArray ModelValue ModelObject ModelMap ModelHeap.
Import ListNotations.
Open Scope nat_scope.

(** What a call of an __eq__ method gives. *)
Inductive answer : Type := Yes | No | NotImpl.
Inductive outcome (A : Type) : Type := Returned (a : A) | Raised (e : exn) | NoFuel.
Arguments Returned {A} a. Arguments Raised {A} e. Arguments NoFuel {A}.
(** A class's own __eq__: it returns, raises, or compares two objects with [==] and goes on. *)
Inductive tree : Type := Done (r : answer) | Raise (e : exn) | Ask (a b : nat) (k : bool -> tree).

(** (id(object), thread id) *)
Definition key : Type := nat * nat.
Definition key_eqb (x y : key) : bool := (fst x =? fst y) && (snd x =? snd y).
Definition kset : Type := list key.
Definition kmem (k : key) (s : kset) : bool := existsb (key_eqb k) s.
Definition kadd (k : key) (s : kset) : kset := if kmem k s then s else k :: s.
Definition kdel (k : key) (s : kset) : kset := filter (fun x => negb (key_eqb k x)) s.

(** Operations on _RUNNING_EQ_KEYS. [Remove]'s second continuation is for a missing key (KeyError). *)
Inductive prog : Type :=
| Finish (r : outcome bool)
| Mem (k : key) (c : bool -> prog)
| Add (k : key) (c : prog)
| Remove (k : key) (c missing : prog).

Section Guard.
Variable wrapped : nat -> nat -> tree.     (* wrapped_eq(self, other) *)
Variable subclass : nat -> nat -> bool.    (* type(a) is a proper superclass of type(b) *)

(** Follow a class's __eq__; [op] is the operator ==. *)
Fixpoint follow (op : nat -> nat -> (outcome bool -> prog) -> prog) (w : tree) (k : outcome answer -> prog) : prog :=
  match w with
  | Done r => k (Returned r)
  | Raise e => k (Raised e)
  | Ask a b f =>
      op a b (fun r => match r with
                       | Returned x => follow op (f x) k
                       | Raised e => k (Raised e)
                       | NoFuel => k NoFuel
                       end)
  end.
(** Python's [a == b]: type(a).__eq__ first (type(b)'s if it is a subclass), the other if that returns
    NotImplemented, else identity. [call] is the decorated method. *)
Definition operator (call : nat -> nat -> (outcome answer -> prog) -> prog) (a b : nat) (k : outcome bool -> prog) : prog :=
  let '(x, y) := if subclass a b then (b, a) else (a, b) in
  call x y (fun r => match r with
    | Returned Yes => k (Returned true)
    | Returned No => k (Returned false)
    | Returned NotImpl =>
        call y x (fun r => match r with
          | Returned Yes => k (Returned true)
          | Returned No => k (Returned false)
          | Returned NotImpl => k (Returned (a =? b))
          | Raised e => k (Raised e)
          | NoFuel => k NoFuel
          end)
    | Raised e => k (Raised e)
    | NoFuel => k NoFuel
    end).
(** decorator(self, other) in thread [t], _recursive_eq.py:33-69 *)
Fixpoint decorated (fuel t a b : nat) (k : outcome answer -> prog) : prog :=
  match fuel with
  | O => k NoFuel
  | S fuel =>
      if a =? b then k (Returned Yes) else
      Mem (a, t) (fun self_running => Mem (b, t) (fun other_running =>
        if self_running || other_running then k (Returned (if self_running && other_running then Yes else No))
        else
          Add (a, t) (Add (b, t)
            (follow (operator (decorated fuel t)) (wrapped a b) (fun r =>
               Remove (a, t) (Remove (b, t) (k r) (k (Raised EKey))) (k (Raised EKey)))))))
  end.
(** [a == b] in thread [t] *)
Definition compare (fuel t a b : nat) : prog := operator (decorated fuel t) a b Finish.
End Guard.

(** * Running programs *)
(** One thread alone *)
Fixpoint run (p : prog) (s : kset) : outcome bool * kset :=
  match p with
  | Finish r => (r, s)
  | Mem k c => run (c (kmem k s)) s
  | Add k c => run c (kadd k s)
  | Remove k c m => if kmem k s then run c (kdel k s) else run m s
  end.
(** Several threads over one set: a schedule is the list of the threads that do the next operation. *)
Definition step1 (p : prog) (s : kset) : prog * kset :=
  match p with
  | Finish r => (Finish r, s)
  | Mem k c => (c (kmem k s), s)
  | Add k c => (c, kadd k s)
  | Remove k c m => if kmem k s then (c, kdel k s) else (m, s)
  end.
Definition step (i : nat) (c : list prog * kset) : list prog * kset :=
  match nth_error (fst c) i with
  | Some p => let '(p, s) := step1 p (snd c) in (replace_nth i p (fst c), s)
  | None => c
  end.
Definition schedule (sch : list nat) (c : list prog * kset) : list prog * kset := fold_left (fun c i => step i c) sch c.

(** * The __eq__ methods of the decorated classes
    Simplifications: a JSMap is never equal to a JSObject or JSArray (the code converts the JSMap to a dict
    or compares its items in order; the keys that make it choose the latter are not str or int). Objects of
    other classes, and constants, numbers and strings, are compared by oracles: [leaf_eq] is ==, [leaf_same]
    is "is or ==", which tuples and dicts use. *)
Section Classes.
Variable H : heap.
Variable leaf_eq leaf_same : val -> val -> bool.
Definition is_decorated (o : nat) : bool :=
  match nth_error H o with
  | Some (OMap _) | Some (OSet _) | Some (OObject _) | Some (OArray _) | Some (OError _ _ _ _) => true
  | _ => false
  end.
Definition ask (leaf : val -> val -> bool) (v w : val) (k : bool -> tree) : tree :=
  match v, w with
  | VRef a, VRef b => if is_decorated a && is_decorated b then Ask a b k else k (leaf v w)
  | _, _ => k (leaf v w)
  end.
(** all(x == y for x, y in pairs) *)
Fixpoint all_equal (leaf : val -> val -> bool) (l : list (val * val)) (k : tree) : tree :=
  match l with
  | [] => k
  | (v, w) :: r => ask leaf v w (fun x => if x then all_equal leaf r k else Done No)
  end.
Definition of_element (r : result (option val)) : val := match r with Ok (Some v) => v | _ => VHole end.
(** ArrayProperties.__eq__, jsarrayproperties.py:91-105 *)
Definition arrays_equal (a b : arr val) (k : tree) : tree :=
  if negb (arr_len a =? arr_len b)%Z then Done No
  else if negb (arr_used a =? arr_used b)%Z then Done No
  else all_equal leaf_eq (map (fun i => (of_element (arr_get a i), of_element (arr_get b i))) (arr_indexes_unordered a)) k.
(** dict.__eq__: the same number of keys, and each key's values the same *)
Fixpoint dict_items_equal (l m : list (list N * val)) : tree :=
  match l with
  | [] => Done Yes
  | (n, v) :: l =>
      match dget listN_eqb n m with
      | Some w => ask leaf_same v w (fun x => if x then dict_items_equal l m else Done No)
      | None => Done No
      end
  end.
Definition dicts_equal (l m : list (list N * val)) : tree :=
  if negb (length l =? length m) then Done No else dict_items_equal l m.
(** JSObject.__eq__ for objects of the same class, jsobject.py:222-248 *)
Definition objects_equal (x y : jsobj val) : tree :=
  if negb (jo_len x =? jo_len y)%Z then Done No
  else arrays_equal (jo_arr x) (jo_arr y) (dicts_equal (jo_props x) (jo_props y)).
Definition opt_str_eqb (x y : option (list N)) : bool :=
  match x, y with Some x, Some y => listN_eqb x y | None, None => true | _, _ => false end.
Fixpoint flat_pairs (l : list ((val * val) * (val * val))) : list (val * val) :=
  match l with [] => [] | ((k, v), (k', v')) :: r => (k, k') :: (v, v') :: flat_pairs r end.
Definition class_eq (a b : nat) : tree :=
  match nth_error H a, nth_error H b with
  | Some (OMap m), Some (OMap m') =>                                  (* jsmap.py:217-225 *)
      if negb (length m =? length m') then Done No
      else all_equal leaf_same (flat_pairs (combine (map snd m) (map snd m'))) (Done Yes)
  | Some (OMap _), Some (OObject _) | Some (OMap _), Some (OArray _) => Done No
  | Some (OSet m), Some (OSet m') =>                                  (* jsset.py:145-153 *)
      if negb (length m =? length m') then Done No
      else all_equal leaf_eq (combine (map snd m) (map snd m')) (Done Yes)
  | Some (OObject x), Some (OObject y) | Some (OArray x), Some (OArray y) => objects_equal x y
  | Some (OError n m s c), Some (OError n' m' s' c') =>               (* jserror.py:219-225, no tracebacks *)
      if listN_eqb n n' && opt_str_eqb m m' && opt_str_eqb s s' then ask leaf_same c c' (fun x => Done (if x then Yes else No))
      else Done No
  | _, _ => Done NotImpl
  end.
(** JSArray is a subclass of JSObject. *)
Definition class_sub (a b : nat) : bool :=
  match nth_error H a, nth_error H b with Some (OObject _), Some (OArray _) => true | _, _ => false end.
Definition js_compare (t a b : nat) : prog := compare class_eq class_sub (S (length H)) t a b.
End Classes.
