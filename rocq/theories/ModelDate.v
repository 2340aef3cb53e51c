(** datetime.timestamp() * 1000 (write_js_date, /repo/src/v8serialize/encode.py:425-429) and
    datetime.fromtimestamp(epoch_ms / 1000, tz) (read_js_date, decode.py:515-523), with CPython's _datetimemodule.c and pytime.c.
    These are the parameters [e_timestamp] and [c_date] of the encoder and the decoder.

    Simplifications:
    - a datetime with a timezone is its instant; what its tzinfo's fromutc may raise within a day of the ends of the range is not modelled
    - the local clock of datetimes without timezone is a parameter
    - the sign of a zero is not kept
    - overflow of a double is checked when it is written; no operation here overflows before. *)
From Coq Require Import NArith ZArith QArith Bool.
From Verif Require Import Base SpecNumber ModelDecode SpecDate ModelEncode.
Open Scope Q_scope.

(** * Doubles *)
(** A finite double, m * 2^e *)
Record double : Type := mkDouble { d_m : Z; d_e : Z }.
Definition exact (x : double) : Q := inject_Z (d_m x) * 2 ^ (d_e x).
(** The integer nearest to n / d, the even one of two *)
Definition half_even (n d : Z) : Z :=
  let f := (n / d)%Z in
  let r := (2 * (n mod d))%Z in
  if (r <? d)%Z then f else if (d <? r)%Z then (f + 1)%Z else if Z.even f then f else (f + 1)%Z.
(** The exponent for a mantissa of 53 bits, for p / q > 0 *)
Definition exponent (p q : Z) : Z :=
  let k := (Z.log2 p - Z.log2 q)%Z in
  let k := if (if 0 <=? k then q * 2 ^ k <=? p else q <=? p * 2 ^ (- k))%Z then k else (k - 1)%Z in
  Z.max (-1074) (k - 52).
(** IEEE 754 rounding to nearest, ties to even: what +, *, / of floats and / of ints (long_true_divide) return for the exact result [x] *)
Definition nearest (x : Q) : double :=
  let p := Qnum x in
  let q := Zpos (Qden x) in
  if (p =? 0)%Z then mkDouble 0 (-1074)
  else
    let e := exponent (Z.abs p) q in
    mkDouble (if 0 <=? e then half_even p (q * 2 ^ e) else half_even (p * 2 ^ (- e)) q)%Z e.
(** The bits of a double *)
Definition pack (x : double) : N :=
  let b := Z.to_N ((d_e x + 1074) * 2 ^ 52 + Z.abs (d_m x)) in
  let b := (if 2047 * 2 ^ 52 <=? b then 2047 * 2 ^ 52 else b)%N in
  (if (d_m x <? 0)%Z then 2 ^ 63 + b else b)%N.

(** * Datetimes *)
(** datetime.min and datetime.max, in seconds *)
Definition min_second : Z := (-62135596800)%Z.
Definition max_second : Z := 253402300799%Z.

Section Dates.
Variable k : clock.
(** datetime.timestamp(), datetime_timestamp of _datetimemodule.c: (self - epoch).total_seconds(), or seconds + microsecond / 1e6 *)
Definition timestamp (d : datetime) : double + date_exn :=
  match d with
  | Aware us => inl (nearest (us # 1000000))
  | Naive us fold =>
      match k_second k (us / 1000000) fold with
      | inr e => inr e
      | inl s => inl (nearest (inject_Z s + exact (nearest ((us mod 1000000) # 1000000))))
      end
  end.
(** value.timestamp() * 1000, encode.py:426 *)
Definition epoch_ms (d : datetime) : double + date_exn :=
  match timestamp d with inl t => inl (nearest (exact t * 1000)) | inr e => inr e end.

(** _PyTime_DoubleToDenominator of pytime.c with 1e6: modf, then the fraction in whole microseconds *)
Definition truncate (x : Q) : Z := Z.quot (Qnum x) (Zpos (Qden x)).
Definition seconds_and_us (x : Q) : Z * Z :=
  let i := truncate x in
  let f := exact (nearest ((x - inject_Z i) * 1000000)) in
  let f := half_even (Qnum f) (Zpos (Qden f)) in
  if (1000000 <=? f)%Z then ((i + 1)%Z, (f - 1000000)%Z) else if (f <? 0)%Z then ((i - 1)%Z, (f + 1000000)%Z) else (i, f).
(** default_timezone is not None *)
Variable timezone : bool.
(** What gmtime() and the check of the year raise for a second outside the years 1 to 9999 *)
Variable gmtime_error : Z -> date_exn.
(** datetime.fromtimestamp(epoch_ms / 1000, tz=tz), decode.py:521; datetime_from_timestamp of _datetimemodule.c *)
Definition read_date (bits : N) : datetime + date_exn :=
  match ieee bits with
  | NaN => inr DValue
  | Infinite _ => inr DOverflow
  | Finite m e =>
      let '(s, us) := seconds_and_us (exact (nearest (exact (mkDouble m e) / 1000))) in
      if negb ((- 2 ^ 63 <=? s) && (s <? 2 ^ 63))%Z then inr DOverflow
      else if timezone then
        if ((min_second <=? s) && (s <=? max_second))%Z then inl (Aware (s * 1000000 + us)) else inr (gmtime_error s)
      else
        match k_shows k s with
        | inl (l, fold) => inl (Naive (l * 1000000 + us) fold)
        | inr e => inr e
        end
  end.

(** Datetimes as the numbers that stand for them in [ODate] *)
Definition number_of (d : datetime) : N :=
  match d with
  | Aware us => (4 * Z.to_N (us - min_second * 1000000))%N
  | Naive us fold => (4 * Z.to_N (us - min_second * 1000000) + (if fold then 3 else 2))%N
  end.
Definition datetime_of (n : N) : datetime :=
  let us := (Z.of_N (n / 4) + min_second * 1000000)%Z in
  match (n mod 4)%N with 0%N => Aware us | 3%N => Naive us true | _ => Naive us false end.
Definition python_timestamp (n : N) : N + date_exn :=
  match epoch_ms (datetime_of n) with inl x => inl (pack x) | inr e => inr e end.
Definition python_date (bits : N) : N + date_exn :=
  match read_date bits with inl d => inl (number_of d) | inr e => inr e end.
End Dates.
