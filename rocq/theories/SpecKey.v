(** What JavaScript property keys and SameValueZero are, without reference to the code. *)
From Coq Require Import List NArith ZArith Bool.
From Verif Require Import Base SpecNumber ModelValue.
Import ListNotations.
Open Scope Z_scope.

(** ** Property keys *)
(** The key denotes the integer [n]: as an int, an integral float or its decimal numeral. *)
Definition denotes (k : key) (n : Z) : Prop :=
  match k with
  | KInt z => z = n
  | KFloat bits => same_number (ieee bits) (Finite n 0)
  | KStr s => 0 <= n /\ numeral s (Z.to_N n)
  end.
(** JavaScript array indexes. *)
Definition array_index (n : Z) : Prop := 0 <= n < 2 ^ 32 - 1.
(** The least natural number with more than 4300 digits. *)
Definition digit_limit : Z := 10 ^ 4300.
#[global] Opaque digit_limit.
(** Keys on which Python's limit of 4300 digits for int/str conversion is exceeded. *)
Definition too_long (k : key) : Prop :=
  match k with
  | KInt z => digit_limit <= Z.abs z
  | KStr s => digits s /\ 4300 < Z.of_nat (length s)
  | KFloat _ => False
  end.
(** The JavaScript property name of a key (ToPropertyKey): a string is itself, a number is its
    decimal form. Floats that are not integral or not below 2^53 have no clause here; see
    SpecFloatText for all of Number::toString. *)
Inductive js_name : key -> list N -> Prop :=
| name_str s : js_name (KStr s) s
| name_int z s : znumeral s z -> js_name (KInt z) s
| name_float bits z s : same_number (ieee bits) (Finite z 0) -> Z.abs z < 2 ^ 53 -> znumeral s z ->
    js_name (KFloat bits) s
| name_nan bits : ieee bits = NaN -> js_name (KFloat bits) [78; 97; 78]%N   (* "NaN" *)
| name_inf bits : ieee bits = Infinite false ->
    js_name (KFloat bits) [73; 110; 102; 105; 110; 105; 116; 121]%N.        (* "Infinity" *)

(** Strings, ints and integral floats. *)
Definition plain (k : key) : Prop :=
  match k with KFloat bits => exists z, same_number (ieee bits) (Finite z 0) | _ => True end.
Definition safe_integer (k : key) : Prop :=
  match k with KFloat bits => forall z, same_number (ieee bits) (Finite z 0) -> Z.abs z < 2 ^ 53 | _ => True end.

(** ** SameValueZero, ECMA-262 7.2.12, extended to bytes objects by content *)
Definition number_of (v : val) : option number :=
  match v with VInt z => Some (Finite z 0) | VFloat bits => Some (ieee bits) | _ => None end.
Definition js_same (bytes_of : nat -> option bytes) (a b : val) : Prop :=
  match number_of a, number_of b with
  | Some x, Some y => same_number x y
  | None, None =>
      match a, b with
      | VRef o, VRef o' => o = o' \/ (exists c, bytes_of o = Some c /\ bytes_of o' = Some c)
      | _, _ => a = b
      end
  | _, _ => False
  end.
