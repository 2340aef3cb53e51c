(** Plain-list specifications for buffers and views. *)
From Coq Require Import List NArith ZArith Bool.
From Verif Require Import Base.
Import ListNotations.
Open Scope Z_scope.

(** [d'] is [d] resized to [n] bytes: kept bytes are equal, new bytes are zero. *)
Definition resized (d : bytes) (n : Z) (d' : bytes) : Prop :=
  Z.of_nat (length d') = n /\
  forall i, (i < length d')%nat -> nth_error d' i = Some (nth i d 0%N).

(** A resizable buffer as seen by its user: current contents and a fixed maximum. *)
Inductive resize_history (mx : Z) : bytes -> list (Z * bool) -> bytes -> Prop :=
| rh_nil d : resize_history mx d [] d
| rh_accepted d n d1 rest d2 : 0 <= n <= mx -> resized d n d1 -> resize_history mx d1 rest d2 ->
    resize_history mx d ((n, true) :: rest) d2
| rh_rejected d n rest d2 : ~ (0 <= n <= mx) -> resize_history mx d rest d2 ->
    resize_history mx d ((n, false) :: rest) d2.

(** [b] is the part of [d] that starts at [start]. *)
Definition part_of (b d : bytes) (start : Z) : Prop :=
  exists pre post, d = pre ++ b ++ post /\ Z.of_nat (length pre) = start.

(** Is the requested range inside a buffer of [n] bytes? [None] asks for everything after [start]. *)
Definition fits (n start : Z) (len : option Z) : Prop :=
  match len with Some l => start + l <= n | None => start <= n end.

(** [d'] is [d] with the bytes from [pos] on replaced by [bs]. *)
Definition patched (d : bytes) (pos : nat) (bs d' : bytes) : Prop :=
  length d' = length d /\
  forall i, nth_error d' i =
    if (Nat.leb pos i && Nat.ltb i (pos + length bs))%bool then nth_error bs (i - pos) else nth_error d i.
