(** What it means for two views to show the same numbers. *)
From Coq Require Import List NArith ZArith Bool.
From Verif Require Import Base SpecNumber ModelTags ModelBuffer ModelTyped.
Import ListNotations.
Open Scope Z_scope.

(** The number a Python int or float is *)
Definition number_shown (x : dvval) (n : number) : Prop :=
  match x with DVInt z => n = Finite z 0 | DVFloat b => n = ieee b end.
(** Equal as Python numbers: the same value. NaN equals nothing. *)
Definition equal_items (x y : dvval) : Prop :=
  exists n m, number_shown x n /\ number_shown y m /\ n <> NaN /\ same_number n m.
Definition is_nan_item (x : dvval) : Prop := number_shown x NaN.

Section Shown.
Variable narrow : nat -> N -> option N.
Variable cast32 : N -> N.
Variable widen : nat -> N -> N.
Variable float_of : Z -> option N.
Variable py312 : bool.
(** What a user sees in a view: [with view.get_buffer(readonly=True) as b], then len(b) and every b[i]; for a DataView every
    b.get_uint8(i). *)
Definition read_op (v : view) (i : Z) : top :=
  match vw_tag v with vDataView => TGetData 0 (DUnsigned 1) i true | _ => TGet 0 i end.
Definition seen (k : backing) (v : view) (o : top) (r : tresp) : Prop :=
  let s := snd (trun narrow cast32 widen float_of py312 (mkSession k []) (TOpen v true)) in
  fst (trun narrow cast32 widen float_of py312 s o) = r.
Definition shows (k : backing) (v : view) (items : list dvval) : Prop :=
  seen k v (TLen 0) (TNum (Z.of_nat (length items))) /\
  forall i x, nth_error items i = Some x -> seen k v (read_op v (Z.of_nat i)) (TVal x).
End Shown.
(** The integer formats *)
Definition integer_view (v : view) : Prop := match vw_tag v with vFloat16 | vFloat32 | vFloat64 => False | _ => True end.
