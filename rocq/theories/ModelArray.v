(** Model of /repo/src/v8serialize/jstypes/jsarrayproperties.py.
    A value of type [option T] is an element ([Some]) or JSHole ([None]).
    Mutating methods return what they return or raise together with the state they leave,
    because some of them raise after having changed the object. Slice arguments
    (NotImplementedError in the source) are not modelled. *)
From Coq Require Import List ZArith Bool.
From Verif Require Import Base Dict SpecArray.
Import ListNotations.
Open Scope Z_scope.

(** jsarrayproperties.py:208 *)
Definition MAX_LEN : Z := 2 ^ 32 - 1.

Definition zlen {A} (l : list A) : Z := Z.of_nat (length l).

(** Python list primitives on an index known to be non-negative. *)
Definition znth {A} (l : list A) (i : Z) : option A :=
  if i <? 0 then None else nth_error l (Z.to_nat i).
Fixpoint replace_nth {A} (n : nat) (x : A) (l : list A) : list A :=
  match l, n with
  | [], _ => []
  | _ :: r, O => x :: r
  | a :: r, S n => a :: replace_nth n x r
  end.
Definition remove_nth {A} (n : nat) (l : list A) : list A := firstn n l ++ skipn (S n) l.
(** list.insert: an index past the end inserts at the end *)
Definition insert_nth {A} (n : nat) (x : A) (l : list A) : list A := firstn n l ++ x :: skipn n l.

Definition is_some {A} (o : option A) : bool := match o with Some _ => true | None => false end.

Section Arr.
Context {T : Type}.
Notation elem := (option T).

(** Number of elements that are not holes. *)
Definition count_used (l : list elem) : Z := zlen (filter is_some l).

(** Indexes of the non-holes of a list, counting from [i]. *)
Fixpoint indexes_from (i : Z) (l : list elem) : list Z :=
  match l with
  | [] => []
  | Some _ :: r => i :: indexes_from (i + 1) r
  | None :: r => indexes_from (i + 1) r
  end.

(** * Dense storage *)
(** DenseArrayProperties, jsarrayproperties.py:234-236 *)
Record dense : Type := mkDense { d_items : list elem; d_used : Z }.

(** __init__, jsarrayproperties.py:238-246 *)
Definition dense_init (values : list elem) : dense :=
  fold_left (fun d v => mkDense (d_items d ++ [v]) (if is_some v then d_used d + 1 else d_used d))
            values (mkDense [] 0).

Definition dense_len (d : dense) : Z := zlen (d_items d).

(** resize, jsarrayproperties.py:248-267. The test [length / current < 0.5] is a correctly
    rounded float division of two ints below 2^53, which is below 0.5 exactly when
    2 * length < current. *)
Definition dense_resize (d : dense) (length_ : Z) : result unit * dense :=
  if (length_ <? 0) || (MAX_LEN <? length_) then (Err EValue, d)
  else
    let current := dense_len d in
    if length_ <? current then
      let n := Z.to_nat length_ in
      let used' :=
        if 2 * length_ <? current
        then count_used (firstn n (d_items d))
        else d_used d - count_used (skipn n (d_items d)) in
      (Ok tt, mkDense (firstn n (d_items d)) used')
    else (Ok tt, mkDense (d_items d ++ repeat None (Z.to_nat (length_ - current))) (d_used d)).

(** _normalise_index, jsarrayproperties.py:274-283 *)
Definition dense_norm (d : dense) (i : Z) : result Z :=
  if i <? 0 then
    (if dense_len d + i <? 0 then Err EIndex else Ok (dense_len d + i))
  else Ok i.

(** __getitem__, jsarrayproperties.py:291-294: Python list indexing, negative from the end *)
Definition dense_get (d : dense) (i : Z) : result elem :=
  match znth (d_items d) (if i <? 0 then dense_len d + i else i) with
  | Some v => Ok v
  | None => Err EIndex
  end.

(** __setitem__, jsarrayproperties.py:302-318 *)
Definition dense_set (d : dense) (i : Z) (v : elem) : result unit * dense :=
  match dense_norm d i with
  | Err e => (Err e, d)
  | Ok i =>
      match znth (d_items d) i with
      | None => (Err EIndex, d)
      | Some current =>
          (Ok tt, mkDense (replace_nth (Z.to_nat i) v (d_items d))
            (if negb (is_some current)
             then (if is_some v then d_used d + 1 else d_used d)
             else (if negb (is_some v) then d_used d - 1 else d_used d)))
      end
  end.

(** __delitem__, jsarrayproperties.py:326-338 *)
Definition dense_del (d : dense) (i : Z) : result unit * dense :=
  match dense_norm d i with
  | Err e => (Err e, d)
  | Ok i =>
      match znth (d_items d) i with
      | None => (Err EIndex, d)
      | Some current =>
          (Ok tt, mkDense (remove_nth (Z.to_nat i) (d_items d))
                          (if is_some current then d_used d - 1 else d_used d))
      end
  end.

(** insert, jsarrayproperties.py:340-346 *)
Definition dense_insert (d : dense) (i : Z) (v : elem) : result unit * dense :=
  match dense_norm d i with
  | Err e => (Err e, d)
  | Ok i => (Ok tt, mkDense (insert_nth (Z.to_nat i) v (d_items d))
                            (if is_some v then d_used d + 1 else d_used d))
  end.

(** append, jsarrayproperties.py:348-352 *)
Definition dense_append (d : dense) (v : elem) : result unit * dense :=
  (Ok tt, mkDense (d_items d ++ [v]) (if is_some v then d_used d + 1 else d_used d)).

(** element_indexes ascending or unordered, jsarrayproperties.py:360-362 *)
Definition dense_indexes (d : dense) : list Z := indexes_from 0 (d_items d).

(** element_indexes descending, jsarrayproperties.py:363-368: enumerate(reversed(items)) *)
Definition dense_indexes_desc (d : dense) : list Z :=
  map (fun j => dense_len d - 1 - j) (indexes_from 0 (rev (d_items d))).

(** * Sparse storage *)
(** SparseArrayProperties, jsarrayproperties.py:375-378 *)
Record sparse : Type := mkSparse {
  s_items : list (Z * T);
  s_sorted : option (list Z);
  s_max : Z
}.

(** Python's sorted() on ints *)
Fixpoint zinsert (x : Z) (l : list Z) : list Z :=
  match l with
  | [] => [x]
  | y :: r => if x <=? y then x :: l else y :: zinsert x r
  end.
Definition zsort (l : list Z) : list Z := fold_right zinsert [] l.

(** __len__, jsarrayproperties.py:622-623 *)
Definition sparse_len (s : sparse) : Z := s_max s + 1.

(** _get_sorted_keys, jsarrayproperties.py:625-633 *)
Definition sparse_sorted (s : sparse) : list Z * sparse :=
  match s_sorted s with
  | Some l => (l, s)
  | None => let l := zsort (dkeys (s_items s)) in (l, mkSparse (s_items s) (Some l) (s_max s))
  end.

(** The loop over entries in __init__ with a known length, jsarrayproperties.py:436-441:
    stops at the first negative index *)
Fixpoint sparse_fill (length_ : Z) (entries : list (Z * T)) (items : list (Z * T))
  : list (Z * T) * bool :=
  match entries with
  | [] => (items, true)
  | (i, v) :: r =>
      if i <? 0 then (items, false)
      else sparse_fill length_ r (if i <? length_ then dset Z.eqb i v items else items)
  end.

(** __init__ with entries and length, jsarrayproperties.py:396-447, the branch with a length *)
Definition sparse_init_length (entries : list (Z * T)) (length_ : Z) : result sparse :=
  if (length_ <? 0) || (MAX_LEN <? length_) then Err EValue
  else
    let '(items, valid) := sparse_fill length_ entries [] in
    let s := mkSparse items (match items with _ :: _ :: _ => None | _ => Some (dkeys items) end) (length_ - 1) in
    if valid then Ok s else Err EIndex.

(** __init__ with entries only, jsarrayproperties.py:418-428 *)
Definition sparse_init_entries (entries : list (Z * T)) : result sparse :=
  let items := dupdate Z.eqb [] entries in
  let sorted := zsort (dkeys items) in
  match sorted with
  | [] => Ok (mkSparse items (Some []) (-1))
  | lo :: _ =>
      let hi := last sorted 0 in
      if (lo <? 0) || (MAX_LEN <=? hi) then Err EIndex
      else Ok (mkSparse items (Some sorted) hi)
  end.

(** (i, v) for the non-holes of a sequence *)
Fixpoint entries_from (i : Z) (l : list elem) : list (Z * T) :=
  match l with
  | [] => []
  | Some v :: r => (i, v) :: entries_from (i + 1) r
  | None :: r => entries_from (i + 1) r
  end.

(** __init__ with a sized sequence of values, jsarrayproperties.py:404-413 *)
Definition sparse_init_values (values : list elem) : result sparse :=
  sparse_init_length (entries_from 0 values) (zlen values).

(** bisect.bisect_left on a sorted list: the number of leading elements below [x] *)
Fixpoint bisect_left (l : list Z) (x : Z) : nat :=
  match l with
  | [] => O
  | y :: r => if y <? x then S (bisect_left r x) else O
  end.

(** resize, jsarrayproperties.py:449-473. [proportion_retained] is the boolean
    [first_removed / len <= 0.5] (or 1), so the copying branch runs exactly when more than
    half of the keys are kept. *)
Definition sparse_resize (s : sparse) (length_ : Z) : result unit * sparse :=
  if (length_ <? 0) || (MAX_LEN <? length_) then (Err EValue, s)
  else
    let '(sorted, s1) := sparse_sorted s in
    let items := s_items s1 in
    let first_removed := bisect_left sorted length_ in
    let kept := firstn first_removed sorted in
    let copying :=
      match sorted with
      | [] => false
      | _ => negb (2 * Z.of_nat first_removed <=? zlen sorted)
      end in
    let items' :=
      if copying
      then flat_map (fun i => match dget Z.eqb i items with Some v => [(i, v)] | None => [] end) kept
      else fold_left (fun d i => ddel Z.eqb i d) (skipn first_removed sorted) items in
    (Ok tt, mkSparse items' (Some kept) (length_ - 1)).

(** _normalise_index, jsarrayproperties.py:480-489 *)
Definition sparse_norm (s : sparse) (i : Z) : result Z :=
  if i <? 0 then
    (if sparse_len s + i <? 0 then Err EIndex else Ok (sparse_len s + i))
  else if sparse_len s <=? i then Err EIndex else Ok i.

(** __getitem__, jsarrayproperties.py:497-501 *)
Definition sparse_get (s : sparse) (i : Z) : result elem :=
  do i <- sparse_norm s i; Ok (dget Z.eqb i (s_items s)).

(** [assert sorted_keys is not None if len(items) <= 1 else True] *)
Definition sorted_assert (items : list (Z * T)) (sorted : option (list Z)) : bool :=
  if zlen items <=? 1 then is_some sorted else true.

(** __setitem__, jsarrayproperties.py:509-558 *)
Definition sparse_set (s : sparse) (i : Z) (v : elem) : result unit * sparse :=
  match sparse_norm s i with
  | Err e => (Err e, s)
  | Ok i =>
      match dmem Z.eqb i (s_items s), v with
      | true, None =>
          let items := ddel Z.eqb i (s_items s) in
          if negb (sorted_assert items (s_sorted s)) then (Err EAssert, mkSparse items (s_sorted s) (s_max s))
          else match s_sorted s with
               | None => (Ok tt, mkSparse items None (s_max s))
               | Some l =>
                   match l with
                   | [] => (Err EIndex, mkSparse items (Some l) (s_max s))
                   | _ => if i =? last l 0
                          then (Ok tt, mkSparse items (Some (removelast l)) (s_max s))
                          else (Ok tt, mkSparse items None (s_max s))
                   end
               end
      | true, Some v => (Ok tt, mkSparse (dset Z.eqb i v (s_items s)) (s_sorted s) (s_max s))
      | false, None => (Ok tt, s)
      | false, Some v =>
          let items := dset Z.eqb i v (s_items s) in
          if negb (sorted_assert items (s_sorted s)) then (Err EAssert, mkSparse items (s_sorted s) (s_max s))
          else match s_sorted s with
               | Some l => if last l (-1) <? i
                           then (Ok tt, mkSparse items (Some (l ++ [i])) (s_max s))
                           else (Ok tt, mkSparse items None (s_max s))
               | None => (Ok tt, mkSparse items None (s_max s))
               end
      end
  end.

(** The dict comprehensions of __delitem__ and insert: keys are renamed in order. *)
Definition rekey (f : Z -> Z) (items : list (Z * T)) : list (Z * T) :=
  dupdate Z.eqb [] (map (fun p => (f (fst p), snd p)) items).

(** __delitem__, jsarrayproperties.py:566-580 *)
Definition sparse_del (s : sparse) (i : Z) : result unit * sparse :=
  match sparse_norm s i with
  | Err e => (Err e, s)
  | Ok i =>
      let items := rekey (fun k => if k <=? i then k else k - 1) (ddel Z.eqb i (s_items s)) in
      (Ok tt, mkSparse items (if zlen items <=? 1 then Some (dkeys items) else None) (s_max s - 1))
  end.

(** insert, jsarrayproperties.py:582-598 *)
Definition sparse_insert (s : sparse) (i : Z) (v : elem) : result unit * sparse :=
  match sparse_norm s i with
  | Err e => (Err e, s)
  | Ok i =>
      if MAX_LEN <=? sparse_len s then (Err EIndex, s)
      else
        let items := rekey (fun k => if k <? i then k else k + 1) (s_items s) in
        let items := match v with Some v => dset Z.eqb i v items | None => items end in
        (Ok tt, mkSparse items
                  (if negb (is_some (s_sorted s)) && (zlen items <=? 1) then Some (dkeys items) else None)
                  (s_max s + 1))
  end.

(** append, jsarrayproperties.py:600-620 *)
Definition sparse_append (s : sparse) (v : elem) : result unit * sparse :=
  match v with
  | None => (Ok tt, s)
  | Some v =>
      let i := s_max s + 1 in
      if MAX_LEN <=? i then (Err EIndex, s)
      else
        let items := dset Z.eqb i v (s_items s) in
        match s_sorted s with
        | None => (Ok tt, mkSparse items (if zlen items =? 1 then Some [i] else None) i)
        | Some l =>
            if negb (zlen l =? zlen items - 1) then (Err EAssert, mkSparse items (Some l) (s_max s))
            else if negb ((zlen l =? 0) || (last l 0 <? i)) then (Err EAssert, mkSparse items (Some l) (s_max s))
            else (Ok tt, mkSparse items (Some (l ++ [i])) i)
        end
  end.

(** element_indexes, jsarrayproperties.py:642-647 *)
Definition sparse_indexes_unordered (s : sparse) : list Z := dkeys (s_items s).
Definition sparse_indexes (s : sparse) : list Z * sparse := sparse_sorted s.
Definition sparse_indexes_desc (s : sparse) : list Z * sparse :=
  let '(l, s) := sparse_sorted s in (rev l, s).

(** * Either storage, as held by JSObject.array *)
Inductive arr : Type := ADense (d : dense) | ASparse (s : sparse).

Definition arr_len (a : arr) : Z :=
  match a with ADense d => dense_len d | ASparse s => sparse_len s end.
(** elements_used, jsarrayproperties.py:269-272 and 475-478 *)
Definition arr_used (a : arr) : Z :=
  match a with ADense d => d_used d | ASparse s => zlen (s_items s) end.
Definition arr_get (a : arr) (i : Z) : result elem :=
  match a with ADense d => dense_get d i | ASparse s => sparse_get s i end.
Definition lift {A B} (f : A -> B) (p : result unit * A) : result unit * B := (fst p, f (snd p)).
Definition arr_set (a : arr) (i : Z) (v : elem) : result unit * arr :=
  match a with ADense d => lift ADense (dense_set d i v) | ASparse s => lift ASparse (sparse_set s i v) end.
Definition arr_del (a : arr) (i : Z) : result unit * arr :=
  match a with ADense d => lift ADense (dense_del d i) | ASparse s => lift ASparse (sparse_del s i) end.
Definition arr_insert (a : arr) (i : Z) (v : elem) : result unit * arr :=
  match a with ADense d => lift ADense (dense_insert d i v) | ASparse s => lift ASparse (sparse_insert s i v) end.
Definition arr_append (a : arr) (v : elem) : result unit * arr :=
  match a with ADense d => lift ADense (dense_append d v) | ASparse s => lift ASparse (sparse_append s v) end.
Definition arr_resize (a : arr) (n : Z) : result unit * arr :=
  match a with ADense d => lift ADense (dense_resize d n) | ASparse s => lift ASparse (sparse_resize s n) end.
Definition arr_indexes (a : arr) : list Z * arr :=
  match a with
  | ADense d => (dense_indexes d, a)
  | ASparse s => let '(l, s) := sparse_indexes s in (l, ASparse s)
  end.
Definition arr_indexes_desc (a : arr) : list Z * arr :=
  match a with
  | ADense d => (dense_indexes_desc d, a)
  | ASparse s => let '(l, s) := sparse_indexes_desc s in (l, ASparse s)
  end.
Definition arr_indexes_unordered (a : arr) : list Z :=
  match a with ADense d => dense_indexes d | ASparse s => sparse_indexes_unordered s end.

(** MutableSequence.pop (Python collections.abc): [v = self[i]; del self[i]; return v] *)
Definition arr_pop (a : arr) (i : Z) : result elem * arr :=
  match arr_get a i with
  | Err e => (Err e, a)
  | Ok v => match arr_del a i with
            | (Ok _, a') => (Ok v, a')
            | (Err e, a') => (Err e, a')
            end
  end.

(** MutableSequence.extend: append one by one *)
Fixpoint arr_extend (a : arr) (vs : list elem) : result unit * arr :=
  match vs with
  | [] => (Ok tt, a)
  | v :: r => match arr_append a v with
              | (Ok _, a') => arr_extend a' r
              | (Err e, a') => (Err e, a')
              end
  end.

(** ElementsView.__getitem__, jsarrayproperties.py:663-669 *)
Definition view_get (a : arr) (key : Z) : result T :=
  if (key <? 0) || (arr_len a <? key) then Err EKey
  else do v <- arr_get a key; match v with Some v => Ok v | None => Err EKey end.

(** elements(order=ASCENDING).items(): Mapping.items of ElementsView, 654-682 *)
Fixpoint view_items_of (a : arr) (ks : list Z) : result (list (Z * T)) :=
  match ks with
  | [] => Ok []
  | k :: r => do v <- view_get a k; do l <- view_items_of a r; Ok ((k, v) :: l)
  end.
Definition view_items (a : arr) : result (list (Z * T)) * arr :=
  let '(ks, a) := arr_indexes a in (view_items_of a ks, a).

(** AbstractArrayProperties.__eq__, jsarrayproperties.py:91-105, for distinct objects of the
    two storage classes; [veq] is Python's [==] on elements. JSHole equals only itself. *)
Section ArrEq.
Variable veq : T -> T -> bool.
Definition elem_eq (x y : elem) : bool :=
  match x, y with
  | Some a, Some b => veq a b
  | None, None => true
  | _, _ => false
  end.
Definition arr_eq (a b : arr) : bool :=
  (arr_len a =? arr_len b) && (arr_used a =? arr_used b) &&
  forallb (fun i => match arr_get a i, arr_get b i with
                    | Ok x, Ok y => elem_eq x y
                    | _, _ => false
                    end) (arr_indexes_unordered a).
End ArrEq.

(** * alternating_regions, jsarrayproperties.py:116-158. The region type is in SpecArray.v. *)
(** groupby over first_index_of_preceding_adjacent_elements (116-136): consecutive items
    whose computed start index is equal. [prev]/[start] are the nonlocal variables. *)
Fixpoint group_starts (prev start : Z) (items : list (Z * T)) : list (Z * T) :=
  match items with
  | [] => []
  | (i, v) :: r =>
      let start' := if i - 1 =? prev then start else i in
      (start', v) :: group_starts i start' r
  end.
(** itertools.groupby: runs of equal adjacent keys *)
Fixpoint group_runs (keyed : list (Z * T)) : list (Z * list T) :=
  match keyed with
  | [] => []
  | (k, v) :: r =>
      match group_runs r with
      | (k', vs) :: gs => if k =? k' then (k, v :: vs) :: gs else (k, [v]) :: (k', vs) :: gs
      | [] => [(k, [v])]
      end
  end.
(** The loop over the remaining groups (147-154) and the final gap (156-158) *)
Fixpoint regions_rest (gap_start length_ : Z) (gs : list (Z * list T)) : list (region T) :=
  match gs with
  | [] => if gap_start <? length_ then [Empty gap_start (length_ - gap_start)] else []
  | (start, vs) :: r =>
      Empty gap_start (start - gap_start) :: Occupied start vs :: regions_rest (start + zlen vs) length_ r
  end.
Definition alternating_regions (length_ : Z) (items : list (Z * T)) : list (region T) :=
  match group_runs (group_starts (-1) 0 items) with
  | [] => if length_ =? 0 then [] else [Empty 0 length_]
  | (start, vs) :: r =>
      (if 0 <? start then [Empty 0 start] else []) ++
      Occupied start vs :: regions_rest (start + zlen vs) length_ r
  end.
Definition arr_regions (a : arr) : result (list (region T)) :=
  do items <- fst (view_items a); Ok (alternating_regions (arr_len a) items).

(** Iteration: DenseArrayProperties.__iter__ 357-358, SparseArrayProperties.__iter__ 635-640 *)
Definition region_values (r : region T) : list elem :=
  match r with
  | Empty _ n => repeat None (Z.to_nat n)
  | Occupied _ vs => map Some vs
  end.
Definition arr_iter (a : arr) : result (list elem) :=
  match a with
  | ADense d => Ok (d_items d)
  | ASparse _ => do rs <- arr_regions a; Ok (flat_map region_values rs)
  end.
End Arr.
Arguments dense : clear implicits.
Arguments sparse : clear implicits.
Arguments arr : clear implicits.

(** Running one operation of the public API on either storage. *)
Section Run.
Context {T : Type}.
Definition unit_resp (p : result unit * arr T) : resp T * arr T :=
  match p with (Ok _, a) => (RUnit, a) | (Err e, a) => (RExn e, a) end.
Definition arr_op (a : arr T) (o : aop T) : resp T * arr T :=
  match o with
  | OGet i => (match arr_get a i with Ok v => RElem v | Err e => RExn e end, a)
  | OSet i v => unit_resp (arr_set a i v)
  | ODel i => unit_resp (arr_del a i)
  | OInsert i v => unit_resp (arr_insert a i v)
  | OAppend v => unit_resp (arr_append a v)
  | OExtend vs => unit_resp (arr_extend a vs)
  | OPop i => match arr_pop a i with (Ok v, a) => (RElem v, a) | (Err e, a) => (RExn e, a) end
  | OResize n => unit_resp (arr_resize a n)
  | OLen => (RNum (arr_len a), a)
  | OUsed => (RNum (arr_used a), a)
  | OIndexes => let '(l, a) := arr_indexes a in (RIndexes l, a)
  | OIndexesDesc => let '(l, a) := arr_indexes_desc a in (RIndexes l, a)
  | OIter => (match arr_iter a with Ok l => RIter l | Err e => RExn e end, snd (view_items a))
  end.
Fixpoint arr_ops (a : arr T) (ops : list (aop T)) : list (aop T * resp T) * arr T :=
  match ops with
  | [] => ([], a)
  | o :: r => let '(x, a1) := arr_op a o in
              let '(xs, a2) := arr_ops a1 r in ((o, x) :: xs, a2)
  end.
End Run.
