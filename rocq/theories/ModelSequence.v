(** The methods that DenseArrayProperties and SparseArrayProperties inherit. Both classes derive from
    AbstractArrayProperties, which derives from MutableSequence (jsarrayproperties.py:87-88), and define
    only what ModelArray.v models (jsarrayproperties.py:234-370, 373-652). The rest are the mixins of
    Python's collections.abc.Sequence and MutableSequence, modelled here as written there over the
    methods of the classes. *)
From Coq Require Import List ZArith Bool.
From Verif Require Import Base Dict SpecArray ModelArray SpecSequence.
Import ListNotations.
Open Scope Z_scope.

(** SparseArrayProperties(values), jsarrayproperties.py:404-413: a sequence that has a length keeps its
    trailing holes ([sparse_init_values] of ModelArray.v); of an iterable without one, such as a generator,
    only the entries are left and the length is found from the largest index (416-428). *)
Definition sparse_init_unsized {T} (values : list (option T)) : result (sparse T) :=
  sparse_init_entries (entries_from 0 values).

Section ModelSequence.
Context {T : Type}.
Notation elem := (option T).
(** [v is value or v == value] on elements, the stored one first *)
Variable same : T -> T -> bool.

(** Sequence.__contains__ and count iterate over self (__iter__, jsarrayproperties.py:354-355 and
    631-636); iterating over sparse storage fills its cache of sorted keys. *)
Definition seq_contains (a : arr T) (value : elem) : result bool * arr T :=
  (do l <- arr_iter a; Ok (existsb (fun v => elem_eq same v value) l), snd (view_items a)).
Definition seq_count (a : arr T) (value : elem) : result Z * arr T :=
  (do l <- arr_iter a; Ok (zlen (filter (fun v => elem_eq same v value) l)), snd (view_items a)).

(** Sequence.index: [while stop is None or i < stop: try: v = self[i] except IndexError: break] *)
Fixpoint seq_index_loop (fuel : nat) (a : arr T) (value : elem) (i : Z) (stop : option Z) : result Z :=
  match fuel with
  | O => Err EOutOfFuel
  | S fuel =>
      if match stop with None => true | Some s => i <? s end then
        match arr_get a i with
        | Err EIndex => Err EValue
        | Err e => Err e
        | Ok v => if elem_eq same v value then Ok i else seq_index_loop fuel a value (i + 1) stop
        end
      else Err EValue
  end.
Definition seq_index (a : arr T) (value : elem) (start : Z) (stop : option Z) : result Z :=
  let start := if start <? 0 then Z.max (arr_len a + start) 0 else start in
  let stop := match stop with Some s => Some (if s <? 0 then s + arr_len a else s) | None => None end in
  seq_index_loop (S (Z.to_nat (arr_len a))) a value start stop.

(** Sequence.__reversed__, run to its end: [for i in reversed(range(len(self))): yield self[i]] *)
Fixpoint seq_gets (a : arr T) (ks : list Z) : result (list elem) :=
  match ks with
  | [] => Ok []
  | k :: r => do v <- arr_get a k; do vs <- seq_gets a r; Ok (v :: vs)
  end.
Definition seq_reversed (a : arr T) : result (list elem) :=
  seq_gets a (rev (map Z.of_nat (seq 0 (Z.to_nat (arr_len a))))).

(** MutableSequence.reverse: [for i in range(n//2): self[i], self[n-i-1] = self[n-i-1], self[i]].
    The two reads come first, then the two assignments from left to right. *)
Definition seq_swap (a : arr T) (n i : Z) : result unit * arr T :=
  match arr_get a (n - i - 1) with
  | Err e => (Err e, a)
  | Ok y =>
      match arr_get a i with
      | Err e => (Err e, a)
      | Ok x =>
          match arr_set a i y with
          | (Err e, a) => (Err e, a)
          | (Ok _, a) => arr_set a (n - i - 1) x
          end
      end
  end.
Fixpoint seq_swaps (a : arr T) (n : Z) (ks : list Z) : result unit * arr T :=
  match ks with
  | [] => (Ok tt, a)
  | i :: r => match seq_swap a n i with
              | (Ok _, a) => seq_swaps a n r
              | (Err e, a) => (Err e, a)
              end
  end.
Definition seq_reverse (a : arr T) : result unit * arr T :=
  let n := arr_len a in seq_swaps a n (map Z.of_nat (seq 0 (Z.to_nat (n / 2)))).

(** MutableSequence.remove: [del self[self.index(value)]] *)
Definition seq_remove (a : arr T) (value : elem) : result unit * arr T :=
  match seq_index a value 0 None with
  | Err e => (Err e, a)
  | Ok i => arr_del a i
  end.

(** MutableSequence.clear: [try: while True: self.pop() except IndexError: pass] *)
Fixpoint seq_clear_loop (fuel : nat) (a : arr T) : result unit * arr T :=
  match fuel with
  | O => (Err EOutOfFuel, a)
  | S fuel => match arr_pop a (-1) with
              | (Ok _, a) => seq_clear_loop fuel a
              | (Err EIndex, a) => (Ok tt, a)
              | (Err e, a) => (Err e, a)
              end
  end.
Definition seq_clear (a : arr T) : result unit * arr T := seq_clear_loop (S (Z.to_nat (arr_len a))) a.

(** MutableSequence.extend (and __iadd__, which is extend) with the array itself as values:
    [if values is self: values = list(values)], then one append each *)
Definition seq_extend_self (a : arr T) : result unit * arr T :=
  match arr_iter a with
  | Err e => (Err e, snd (view_items a))
  | Ok l => arr_extend (snd (view_items a)) l
  end.

Definition done (p : result unit * arr T) : answer T * arr T :=
  match p with (Ok _, a) => (ADone, a) | (Err e, a) => (AExn e, a) end.
Definition seq_op (a : arr T) (o : sop T) : answer T * arr T :=
  match o with
  | SBase o => let '(r, a) := arr_op a o in (ABase r, a)
  | SContains v => match seq_contains a v with (Ok b, a) => (ABool b, a) | (Err e, a) => (AExn e, a) end
  | SCount v => match seq_count a v with (Ok n, a) => (ANum n, a) | (Err e, a) => (AExn e, a) end
  | SIndex v start stop => (match seq_index a v start stop with Ok n => ANum n | Err e => AExn e end, a)
  | SReversed => (match seq_reversed a with Ok l => AList l | Err e => AExn e end, a)
  | SReverse => done (seq_reverse a)
  | SRemove v => done (seq_remove a v)
  | SClear => done (seq_clear a)
  | SExtendSelf => done (seq_extend_self a)
  end.
Fixpoint seq_ops (a : arr T) (ops : list (sop T)) : list (sop T * answer T) * arr T :=
  match ops with
  | [] => ([], a)
  | o :: r => let '(x, a1) := seq_op a o in
              let '(xs, a2) := seq_ops a1 r in ((o, x) :: xs, a2)
  end.
End ModelSequence.
