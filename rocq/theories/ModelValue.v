(** Python values as the modelled code sees them, numbers, same_value_zero and property keys. *)
From Coq Require Import List NArith ZArith Bool.
From Verif Require Import Base Dict SpecNumber.
Import ListNotations.
Open Scope Z_scope.

(** A Python value. Objects with identity are references into a heap; an index of the heap is
    the model of id(). Floats are their bit pattern, strings their code points (surrogates
    included). [VHole] is JSHole and [VUndef] JSUndefined (jstypes/jsundefined.py, jshole). *)
Inductive val : Type :=
| VHole
| VUndef
| VNone
| VBool (b : bool)
| VInt (z : Z)
| VFloat (bits : N)
| VStr (s : list N)
| VRef (oid : nat).

(** * Numbers *)
(** Canonical form of m * 2^e with m odd (or 0): Python compares int and float exactly. *)
Fixpoint pos_strip (p : positive) (e : Z) : positive * Z :=
  match p with
  | xO q => pos_strip q (e + 1)
  | _ => (p, e)
  end.
Definition canon (m e : Z) : Z * Z :=
  match m with
  | Z0 => (0, 0)
  | Zpos p => let '(q, e') := pos_strip p e in (Zpos q, e')
  | Zneg p => let '(q, e') := pos_strip p e in (Zneg q, e')
  end.
(** float.is_integer() and int(x): the integer value of a finite double, if it has one *)
Definition float_int (bits : N) : option Z :=
  match ieee bits with
  | Finite m e =>
      if 0 <=? e then Some (m * 2 ^ e)
      else if m mod 2 ^ (- e) =? 0 then Some (m / 2 ^ (- e)) else None
  | _ => None
  end.

(** * same_value_zero, jstypes/_equality.py:18-96 *)
(** The surrogate keys, with == and hash as Python gives them: tuples (bool, v), the nan tuple
    (equal to itself by identity), numbers by value, strings, bytes, None, undefined, (id,). *)
Inductive svz : Type :=
| SBool (b : bool)
| SNan
| SInf (negative : bool)
| SNum (m e : Z)
| SUndef
| SNone
| SStr (s : list N)
| SBytes (b : bytes)
| SHoleId            (* (id(JSHole),): JSHole is a singleton object like any other *)
| SId (oid : nat).

Fixpoint listN_eqb (a b : list N) : bool :=
  match a, b with
  | [], [] => true
  | x :: a, y :: b => N.eqb x y && listN_eqb a b
  | _, _ => false
  end.
Definition svz_eqb (a b : svz) : bool :=
  match a, b with
  | SBool x, SBool y => Bool.eqb x y
  | SNan, SNan => true
  | SInf x, SInf y => Bool.eqb x y
  | SNum m e, SNum m' e' => (m =? m') && (e =? e')
  | SUndef, SUndef => true
  | SNone, SNone => true
  | SStr s, SStr t => listN_eqb s t
  | SBytes s, SBytes t => listN_eqb s t
  | SHoleId, SHoleId => true
  | SId x, SId y => Nat.eqb x y
  | _, _ => false
  end.

(** math.isnan(int) converts to float first: ints that round to 2^1024 or more overflow. *)
Definition float_overflows (z : Z) : bool := 2 ^ 1024 - 2 ^ 970 <=? Z.abs z.

Definition num_key (n : number) : svz :=
  match n with
  | NaN => SNan
  | Infinite s => SInf s
  | Finite m e => let '(m, e) := canon m e in SNum m e
  end.

(** [bytes_of o] is the content of object [o] when it is a bytes object. *)
Definition same_value_zero (bytes_of : nat -> option bytes) (v : val) : result svz :=
  match v with
  | VBool b => Ok (SBool b)
  | VInt z => if float_overflows z then Err EOverflow else Ok (num_key (Finite z 0))
  | VFloat bits => Ok (num_key (ieee bits))
  | VUndef => Ok SUndef
  | VNone => Ok SNone
  | VStr s => Ok (SStr s)
  | VHole => Ok SHoleId
  | VRef o => match bytes_of o with Some b => Ok (SBytes b) | None => Ok (SId o) end
  end.

(** * Property keys, jstypes/_normalise_property_key.py *)
(** str(int): decimal digits, most significant first *)
Fixpoint dec_digits (fuel : nat) (n : N) (acc : list N) : list N :=
  match fuel with
  | O => acc
  | S fuel =>
      let acc := (48 + n mod 10)%N :: acc in
      if (n <? 10)%N then acc else dec_digits fuel (n / 10)%N acc
  end.
Definition dec_N (n : N) : list N := dec_digits (S (N.size_nat n)) n [].
Definition dec_Z (z : Z) : list N := if z <? 0 then 45%N :: dec_N (Z.to_N (- z)) else dec_N (Z.to_N z).
(** sys.set_int_max_str_digits default: longer conversions raise ValueError *)
Definition MAX_STR_DIGITS : nat := 4300.
Definition int_str (z : Z) : result (list N) :=
  let s := dec_Z z in
  if (MAX_STR_DIGITS <? length (dec_N (Z.to_N (Z.abs z))))%nat then Err EValue else Ok s.

Definition is_digit (c : N) : bool := ((48 <=? c) && (c <=? 57))%N.
(** canonical_numeric_index_string, _normalise_property_key.py:6-21 *)
Definition canonical_numeric_index_string (s : list N) : result (option N) :=
  match s with
  | [] => Ok None
  | c :: r =>
      if forallb is_digit s then
        if (MAX_STR_DIGITS <? length s)%nat then Err EValue
        else Ok (if (c =? 48)%N && negb (match r with [] => true | _ => false end)
                 then None
                 else Some (fold_left (fun a c => (10 * a + (c - 48))%N) s 0%N))
      else Ok None
  end.

Inductive key : Type := KStr (s : list N) | KInt (z : Z) | KFloat (bits : N).
(** A normalised key. *)
Inductive pkey : Type := PStr (s : list N) | PInt (z : Z).

Definition MAX_ARRAY_LENGTH : Z := 2 ^ 32 - 1.
Definition normalise_int (z : Z) : result pkey :=
  if (0 <=? z) && (z <? MAX_ARRAY_LENGTH) then Ok (PInt z)
  else do s <- int_str z; Ok (PStr s).
(** normalise_property_key, _normalise_property_key.py:24-67. bool keys (a subclass of int)
    are not modelled. [float_repr] is Python's repr of a finite non-integral double. *)
Definition normalise_property_key (float_repr : N -> list N) (k : key) : result pkey :=
  match k with
  | KStr s =>
      do n <- canonical_numeric_index_string s;
      match n with None => Ok (PStr s) | Some n => normalise_int (Z.of_N n) end
  | KInt z => normalise_int z
  | KFloat bits =>
      match float_int bits with
      | Some z => normalise_int z
      | None => Ok (PStr (match ieee bits with
                          | NaN => [110; 97; 110]                       (* nan *)
                          | Infinite false => [105; 110; 102]           (* inf *)
                          | Infinite true => [45; 105; 110; 102]        (* -inf *)
                          | Finite _ _ => float_repr bits
                          end)%N)
      end
  end.
(** The normalised key used as a key again. *)
Definition key_of (p : pkey) : key := match p with PStr s => KStr s | PInt z => KInt z end.

(** Python == on normalised keys *)
Definition pkey_eqb (a b : pkey) : bool :=
  match a, b with
  | PStr s, PStr t => listN_eqb s t
  | PInt x, PInt y => x =? y
  | _, _ => false
  end.

