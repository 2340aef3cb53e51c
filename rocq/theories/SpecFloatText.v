(** The text of a number in JavaScript, ECMA-262 6.1.6.1.20 Number::toString, and the digits that it is made of.
    Independent of the modelled code. *)
From Coq Require Import List NArith ZArith QArith Qabs Bool.
From Verif Require Import SpecNumber SpecDate.
Import ListNotations.
Open Scope Q_scope.

(** The number with the digits [s] and [n] of them before the decimal point: s * 10^(n-k) in the words of ECMA-262 *)
Definition decimal (s : list N) (n : Z) : Q := inject_Z (Z.of_N (digits_value s)) * 10 ^ (n - Z.of_nat (length s)).
(** [y] is read as the double with these bits: it is the closest, the even one of two. *)
Definition rounds_to (y : Q) (bits : N) : Prop :=
  exists m e, ieee bits = Finite m e /\ closest y (inject_Z m * 2 ^ e) /\
    forall z, is_double z -> ~ z == inject_Z m * 2 ^ e -> Qabs (y - z) == Qabs (y - inject_Z m * 2 ^ e) -> Z.even m = true.
Definition negative (bits : N) : bool := match ieee bits with Finite m _ => (m <? 0)%Z | Infinite s => s | NaN => false end.
Definition signed (bits : N) (y : Q) : Q := if negative bits then - y else y.
(** The fewest digits that are read as the double (step 5 of Number::toString; the same as of Python's repr) *)
Definition shortest (bits : N) (s : list N) (n : Z) : Prop :=
  digits s /\ s <> [] /\ hd 0%N s <> 48%N /\ rounds_to (signed bits (decimal s n)) bits /\
  forall s' n', digits s' -> rounds_to (signed bits (decimal s' n')) bits -> (length s <= length s')%nat.

Definition zeros (n : Z) : list N := repeat 48%N (Z.to_nat n).
(** "d.ddd" *)
Definition mantissa (s : list N) : list N := match s with [] => [] | [d] => [d] | d :: r => d :: 46%N :: r end.
(** Steps 6 to 11: the text for the digits [s], [n] of them before the point *)
Inductive js_digits (s : list N) (n : Z) : list N -> Prop :=
| jd_integer : (Z.of_nat (length s) <= n <= 21)%Z -> js_digits s n (s ++ zeros (n - Z.of_nat (length s)))
| jd_point a b : (0 < n <= 21)%Z -> (n < Z.of_nat (length s))%Z -> s = a ++ b -> Z.of_nat (length a) = n -> js_digits s n (a ++ [46%N] ++ b)
| jd_fraction : (-6 < n <= 0)%Z -> js_digits s n ([48; 46]%N ++ zeros (- n) ++ s)
| jd_small e : (n <= -6)%Z -> numeral e (Z.to_N (1 - n)) -> js_digits s n (mantissa s ++ [101; 45]%N ++ e)       (* e- *)
| jd_large e : (21 < n)%Z -> numeral e (Z.to_N (n - 1)) -> js_digits s n (mantissa s ++ [101; 43]%N ++ e).       (* e+ *)
(** Number::toString *)
Inductive js_text (bits : N) : list N -> Prop :=
| jt_nan : ieee bits = NaN -> js_text bits [78; 97; 78]%N
| jt_zero e : ieee bits = Finite 0 e -> js_text bits [48]%N
| jt_infinity : ieee bits = Infinite false -> js_text bits [73; 110; 102; 105; 110; 105; 116; 121]%N
| jt_minus_infinity : ieee bits = Infinite true -> js_text bits [45; 73; 110; 102; 105; 110; 105; 116; 121]%N
| jt_digits m e s n t : ieee bits = Finite m e -> m <> 0%Z -> shortest bits s n -> js_digits s n t ->
    js_text bits (if negative bits then 45%N :: t else t).
