(** What IEEE-754 doubles and decimal numerals mean. Independent of the modelled code. *)
From Coq Require Import List NArith ZArith Bool.
Import ListNotations.
Open Scope Z_scope.

(** A number: not-a-number, an infinity, or m * 2^e. *)
Inductive number : Type :=
| NaN
| Infinite (negative : bool)
| Finite (m e : Z).

(** binary64: 1 sign bit, 11 exponent bits, 52 fraction bits. *)
Definition ieee (bits : N) : number :=
  let negative := N.testbit bits 63 in
  let ex := Z.of_N (N.land (N.shiftr bits 52) 2047) in
  let fr := Z.of_N (N.land bits (2 ^ 52 - 1)) in
  if ex =? 2047 then (if fr =? 0 then Infinite negative else NaN)
  else
    let m := if ex =? 0 then fr else fr + 2 ^ 52 in
    let e := if ex =? 0 then -1074 else ex - 1075 in
    Finite (if negative then - m else m) e.

(** m * 2^e = m' * 2^e', in whole numbers. *)
Definition same_value (m e m' e' : Z) : Prop :=
  m * 2 ^ (e - Z.min e e') = m' * 2 ^ (e' - Z.min e e').

(** Equality of numbers as SameValueZero sees it: NaN equals NaN, the zeros are equal. *)
Definition same_number (a b : number) : Prop :=
  match a, b with
  | NaN, NaN => True
  | Infinite s, Infinite s' => s = s'
  | Finite m e, Finite m' e' => same_value m e m' e'
  | _, _ => False
  end.

(** A string of code points is a run of ASCII digits. *)
Definition digits (s : list N) : Prop := Forall (fun c => (48 <= c <= 57)%N) s.
Definition digits_value (s : list N) : N := fold_left (fun a c => (10 * a + (c - 48))%N) s 0%N.
(** [s] is the usual decimal numeral of [n]: no leading zeros. *)
Definition numeral (s : list N) (n : N) : Prop :=
  digits s /\ s <> [] /\ (hd 0%N s = 48%N -> length s = 1%nat) /\ digits_value s = n.
Definition znumeral (s : list N) (z : Z) : Prop :=
  if z <? 0 then exists t, s = 45%N :: t /\ numeral t (Z.to_N (- z)) else numeral s (Z.to_N z).
