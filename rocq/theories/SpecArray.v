(** What a list of values and holes does: plain lists of [option T], [None] being a hole. *)
From Coq Require Import List ZArith Bool.
From Verif Require Import Base.
Import ListNotations.
Open Scope Z_scope.

Section SpecArray.
Context {T : Type}.
Notation holes := (list (option T)).

(** Python indexing: 0..n-1 from the start, -n..-1 from the end. *)
Definition position (l : holes) (i : Z) : option nat :=
  let n := Z.of_nat (length l) in
  if (0 <=? i) && (i <? n) then Some (Z.to_nat i)
  else if (- n <=? i) && (i <? 0) then Some (Z.to_nat (n + i))
  else None.

(** The operations of the public sequence API. *)
Inductive aop : Type :=
| OGet (i : Z)
| OSet (i : Z) (v : option T)
| ODel (i : Z)
| OInsert (i : Z) (v : option T)
| OAppend (v : option T)
| OExtend (vs : holes)
| OPop (i : Z)
| OResize (n : Z)
| OLen
| OUsed
| OIndexes
| OIndexesDesc
| OIter.

Inductive resp : Type :=
| RUnit
| RElem (v : option T)
| RNum (n : Z)
| RIndexes (l : list Z)
| RIter (l : holes)
| RExn (e : exn).

(** [i] is the index of an element that is not a hole. *)
Definition occupied (l : holes) (i : Z) : Prop :=
  exists v, 0 <= i /\ nth_error l (Z.to_nat i) = Some (Some v).

Definition ascending (l : list Z) : Prop :=
  forall j k a b, nth_error l j = Some a -> nth_error l k = Some b -> (j < k)%nat -> a < b.

Definition number_used (l : holes) : Z :=
  Z.of_nat (length (filter (fun v => match v with Some _ => true | None => false end) l)).

(** [spec_op l op r l']: on the list [l], operation [op] gives response [r] and leaves [l']. *)
Inductive spec_op (l : holes) : aop -> resp -> holes -> Prop :=
| so_get i k v : position l i = Some k -> nth_error l k = Some v -> spec_op l (OGet i) (RElem v) l
| so_get_err i : position l i = None -> spec_op l (OGet i) (RExn EIndex) l
| so_set i v k : position l i = Some k ->
    spec_op l (OSet i v) RUnit (firstn k l ++ v :: skipn (S k) l)
| so_set_err i v : position l i = None -> spec_op l (OSet i v) (RExn EIndex) l
| so_del i k : position l i = Some k -> spec_op l (ODel i) RUnit (firstn k l ++ skipn (S k) l)
| so_del_err i : position l i = None -> spec_op l (ODel i) (RExn EIndex) l
| so_insert i v k : position l i = Some k ->
    spec_op l (OInsert i v) RUnit (firstn k l ++ v :: skipn k l)
| so_insert_end i v : Z.of_nat (length l) <= i -> spec_op l (OInsert i v) RUnit (l ++ [v])
| so_insert_err i v : i < - Z.of_nat (length l) -> spec_op l (OInsert i v) (RExn EIndex) l
| so_append v : spec_op l (OAppend v) RUnit (l ++ [v])
| so_extend vs : spec_op l (OExtend vs) RUnit (l ++ vs)
| so_pop i k v : position l i = Some k -> nth_error l k = Some v ->
    spec_op l (OPop i) (RElem v) (firstn k l ++ skipn (S k) l)
| so_pop_err i : position l i = None -> spec_op l (OPop i) (RExn EIndex) l
| so_shrink n : 0 <= n <= Z.of_nat (length l) -> n <= 2 ^ 32 - 1 ->
    spec_op l (OResize n) RUnit (firstn (Z.to_nat n) l)
| so_grow n : Z.of_nat (length l) <= n <= 2 ^ 32 - 1 ->
    spec_op l (OResize n) RUnit (l ++ repeat None (Z.to_nat n - length l))
| so_resize_err n : n < 0 \/ 2 ^ 32 - 1 < n -> spec_op l (OResize n) (RExn EValue) l
| so_len : spec_op l OLen (RNum (Z.of_nat (length l))) l
| so_used : spec_op l OUsed (RNum (number_used l)) l
| so_indexes ix : ascending ix -> (forall i, In i ix <-> occupied l i) ->
    spec_op l OIndexes (RIndexes ix) l
| so_indexes_desc ix : ascending (rev ix) -> (forall i, In i ix <-> occupied l i) ->
    spec_op l OIndexesDesc (RIndexes ix) l
| so_iter : spec_op l OIter (RIter l) l.

Inductive spec_ops : holes -> list (aop * resp) -> holes -> Prop :=
| sos_nil l : spec_ops l [] l
| sos_cons l o r l1 rest l2 : spec_op l o r l1 -> spec_ops l1 rest l2 -> spec_ops l ((o, r) :: rest) l2.

(** * Sparse arrays *)
Definition elements (vs : holes) : holes :=
  filter (fun v => match v with Some _ => true | None => false end) vs.

(** Behaviours of sparse arrays that differ from a plain list with holes. *)
Inductive sparse_deviation (l : holes) : aop -> resp -> holes -> Prop :=
| dev_set_assert i v k : position l i = Some k -> number_used l <= 2 ->
    sparse_deviation l (OSet i v) (RExn EAssert) (firstn k l ++ v :: skipn (S k) l)
| dev_append_hole : sparse_deviation l (OAppend None) RUnit l
| dev_extend_holes vs : In None vs ->
    sparse_deviation l (OExtend vs) RUnit (l ++ elements vs)
| dev_insert_end i v : Z.of_nat (length l) <= i -> sparse_deviation l (OInsert i v) (RExn EIndex) l
| dev_insert_full i v : Z.of_nat (length l) = 2 ^ 32 - 1 -> sparse_deviation l (OInsert i v) (RExn EIndex) l
| dev_append_full v : Z.of_nat (length l) = 2 ^ 32 - 1 -> sparse_deviation l (OAppend v) (RExn EIndex) l
| dev_extend_full vs k : Z.of_nat (length (l ++ firstn k (elements vs))) = 2 ^ 32 - 1 ->
    (k < length (elements vs))%nat ->
    sparse_deviation l (OExtend vs) (RExn EIndex) (l ++ firstn k (elements vs)).

Inductive sparse_spec_ops : holes -> list (aop * resp) -> holes -> Prop :=
| sso_nil l : sparse_spec_ops l [] l
| sso_cons l o r l1 rest l2 : spec_op l o r l1 \/ sparse_deviation l o r l1 ->
    sparse_spec_ops l1 rest l2 -> sparse_spec_ops l ((o, r) :: rest) l2.

(** * Regions *)
(** An array region: a run of holes, or a run of elements with their values
    (EmptyRegion, OccupiedRegion, jsarrayproperties.py). *)
Inductive region : Type :=
| Empty (start length_ : Z)
| Occupied (start : Z) (items : list T).

(** [regions_tile a b rs]: the regions in order cover a..b-1 with no gap or overlap, none is
    empty, and empty and occupied regions alternate. *)
Definition region_start (r : region) : Z := match r with Empty s _ => s | Occupied s _ => s end.
Definition region_size (r : region) : Z := match r with Empty _ n => n | Occupied _ vs => Z.of_nat (length vs) end.
Definition region_empty (r : region) : bool := match r with Empty _ _ => true | _ => false end.
Fixpoint regions_tile (a b : Z) (prev : option bool) (rs : list (region)) : Prop :=
  match rs with
  | [] => a = b
  | r :: rest => region_start r = a /\ 0 < region_size r /\ prev <> Some (region_empty r) /\
                 regions_tile (a + region_size r) b (Some (region_empty r)) rest
  end.

(** The values a region stands for. *)
Definition region_content (r : region) : holes :=
  match r with Empty _ n => repeat None (Z.to_nat n) | Occupied _ vs => map Some vs end.
End SpecArray.
Arguments aop : clear implicits.
Arguments resp : clear implicits.
Arguments region : clear implicits.
