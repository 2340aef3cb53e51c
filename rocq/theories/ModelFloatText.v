(** str(key) for a float that is not integral, at the end of normalise_property_key, /repo/src/v8serialize/jstypes/_normalise_property_key.py:67,
    which is float_repr of CPython: format_float_short of pystrtod.c with code 'r'.

    Simplifications: the digits that _Py_dg_dtoa finds in mode 0 are a parameter (the shortest that are read as the float). *)
From Coq Require Import List NArith ZArith Bool.
From Verif Require Import SpecNumber ModelValue.
Import ListNotations.
Open Scope Z_scope.

(** "%+.02d" *)
Definition exponent_text (e : Z) : list N :=
  let d := dec_N (Z.to_N (Z.abs e)) in
  (if e <? 0 then 45%N else 43%N) :: (if (length d <? 2)%nat then 48%N :: d else d).
(** The digits with the point after the first [n] of them, and without a point at the end *)
Definition insert_point (s : list N) (n : nat) : list N :=
  match skipn n s with [] => firstn n s | r => firstn n s ++ 46%N :: r end.
(** format_float_short, format code 'r' with Py_DTSF_ADD_DOT_0: the digits and decpt *)
Definition format_short (s : list N) (decpt : Z) : list N :=
  let use_exp := (decpt <=? -4) || (16 <? decpt) in
  if use_exp then insert_point s 1 ++ 101%N :: exponent_text (decpt - 1)
  else if decpt <=? 0 then 48%N :: 46%N :: repeat 48%N (Z.to_nat (- decpt)) ++ s
  else insert_point (s ++ repeat 48%N (Z.to_nat decpt + 1 - length s)) (Z.to_nat decpt).
Section Repr.
(** _Py_dg_dtoa(x, 0, ...) of the magnitude *)
Variable dtoa : N -> list N * Z.
Definition float_repr (bits : N) : list N :=
  let '(s, decpt) := dtoa bits in
  (if N.testbit bits 63 then [45%N] else []) ++ format_short s decpt.
End Repr.
