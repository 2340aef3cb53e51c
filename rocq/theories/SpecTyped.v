(** What the bytes of a number are: little-endian integers, two's complement, floats by their bits. *)
From Coq Require Import List NArith ZArith Bool.
From Verif Require Import Base ModelTags ModelBuffer.
Import ListNotations.
Open Scope Z_scope.

(** The number formats of ECMAScript's typed arrays, with their width in bytes. *)
Definition js_format (t : vtag) : option dvfmt :=
  match t with
  | vInt8 => Some (DSigned 1) | vInt16 => Some (DSigned 2) | vInt32 => Some (DSigned 4) | vBigInt64 => Some (DSigned 8)
  | vUint8 | vUint8Clamped => Some (DUnsigned 1) | vUint16 => Some (DUnsigned 2) | vUint32 => Some (DUnsigned 4) | vBigUint64 => Some (DUnsigned 8)
  | vFloat16 => Some (DFloat 2) | vFloat32 => Some (DFloat 4) | vFloat64 => Some (DFloat 8)
  | vDataView => None
  end.
(** the unsigned number of some bytes, the least significant first *)
Fixpoint number_of (bs : bytes) : Z :=
  match bs with [] => 0 | b :: r => Z.of_N b + 256 * number_of r end.

Section Formats.
(** The binary64 value of a 16 or 32 bit float, and the narrower float nearest to a binary64 value. *)
Variable widen : nat -> N -> N.
(** [bs] read in a format is [x]. *)
Definition reads_as (f : dvfmt) (bs : bytes) (x : dvval) : Prop :=
  match f, x with
  | DUnsigned _, DVInt z => z = number_of bs
  | DSigned w, DVInt z =>
      (z = number_of bs \/ z = number_of bs - 2 ^ (8 * Z.of_nat w)) /\ - 2 ^ (8 * Z.of_nat w - 1) <= z < 2 ^ (8 * Z.of_nat w - 1)
  | DFloat 8, DVFloat b => Z.of_N b = number_of bs
  | DFloat w, DVFloat b => b = widen w (Z.to_N (number_of bs))
  | _, _ => False
  end.
End Formats.
(** Can an integer be stored in an integer format? *)
Definition int_fits (f : dvfmt) (z : Z) : Prop :=
  match f with
  | DUnsigned w => 0 <= z < 2 ^ (8 * Z.of_nat w)
  | DSigned w => - 2 ^ (8 * Z.of_nat w - 1) <= z < 2 ^ (8 * Z.of_nat w - 1)
  | DFloat _ => True
  end.
(** The [count] items of [size] bytes at [start] lie in a memory of [n] bytes. *)
Definition inside (n start size count : Z) : Prop := 0 <= start /\ 0 <= count /\ start + count * size <= n.
(** Python's index [i] of a sequence of [n] items *)
Definition at_index (n i j : Z) : Prop := 0 <= j < n /\ (i = j \/ i = j - n).

Section Storing.
(** The conversions of floats to narrower formats, and of integers to binary64, with None where there is no such float. *)
Variable narrow : nat -> N -> option N.
Variable cast32 : N -> N.
Variable widen : nat -> N -> N.
Variable float_of : Z -> option N.
Definition stores_float (w : nat) (b : N) (bs : bytes) : Prop :=
  match w with
  | 8%nat => number_of bs = Z.of_N b
  | 4%nat => number_of bs = Z.of_N (cast32 b)
  | _ => exists p, narrow w b = Some p /\ number_of bs = Z.of_N p
  end.
(** A typed array with items of format [f] stores [x] as the bytes [bs]. *)
Definition stores (f : dvfmt) (x : dvval) (bs : bytes) : Prop :=
  match f, x with
  | DFloat w, DVFloat b => stores_float w b bs
  | DFloat w, DVInt z => exists b, float_of z = Some b /\ stores_float w b bs
  | _, DVInt z => int_fits f z /\ reads_as widen f bs x
  | _, DVFloat _ => False
  end.
(** It refuses [x] with an exception. *)
Definition refuses (f : dvfmt) (x : dvval) (e : exn) : Prop :=
  match f, x with
  | DFloat w, DVFloat b => w <> 8%nat /\ w <> 4%nat /\ narrow w b = None /\ e = EValue
  | DFloat w, DVInt z =>
      e = EValue /\ (float_of z = None \/ exists b, float_of z = Some b /\ w <> 8%nat /\ w <> 4%nat /\ narrow w b = None)
  | _, DVInt z => ~ int_fits f z /\ e = EValue
  | _, DVFloat _ => e = EType
  end.
(** the items of a view over [n] bytes: those it has while it fits, and none otherwise *)
Definition has_items (n start size : Z) (want : option Z) (items : Z) : Prop :=
  match want with
  | Some l => if start + l * size <=? n then items = l else items = 0
  | None => if start <=? n then items * size <= n - start < (items + 1) * size else items = 0
  end.
End Storing.
