(** What numbers doubles are, as fractions; what it is to be the double closest to a fraction; datetimes and the instants that they are.
    Independent of the modelled code ([date_exn] is only a type of exceptions). *)
From Coq Require Import NArith ZArith QArith Qabs.
From Verif Require Import SpecNumber ModelDecode.
Open Scope Q_scope.

(** The double with bits [b] is the number [x]. *)
Definition double_value (b : N) (x : Q) : Prop :=
  exists m e, ieee b = Finite m e /\ x == inject_Z m * 2 ^ e.
(** [y] is a double: of all numbers m * 2^e with 53 bits in m that lie in the range of exponents. *)
Definition is_double (y : Q) : Prop := exists m e, (Z.abs m <= 2 ^ 53)%Z /\ (-1074 <= e <= 971)%Z /\ y == inject_Z m * 2 ^ e.
(** [y] is a double closest to [x]. *)
Definition closest (x y : Q) : Prop := forall z, is_double z -> Qabs (x - y) <= Qabs (x - z).

(** A datetime: with a timezone, the microseconds since 1970 UTC; without, the microseconds on the local clock since it showed the start
    of 1970, and fold. *)
Inductive datetime : Type := Aware (us : Z) | Naive (us : Z) (fold : bool).
(** The local clock: what it shows (in seconds, with fold) at a second since 1970 UTC (localtime()), and local_to_seconds() of
    _datetimemodule.c *)
Record clock : Type := mkClock { k_shows : Z -> Z * bool + date_exn; k_second : Z -> bool -> Z + date_exn }.
(** The datetime is [n] microseconds after the start of 1970 UTC. *)
Definition instant (k : clock) (d : datetime) (n : Z) : Prop :=
  match d with
  | Aware us => n = us
  | Naive us fold => exists s, k_second k (us / 1000000) fold = inl s /\ n = (s * 1000000 + us mod 1000000)%Z
  end.
(** The datetime that shows [n]: with a timezone, or on the local clock *)
Definition shows (k : clock) (timezone : bool) (n : Z) (d : datetime) : Prop :=
  if timezone then d = Aware n
  else exists l fold, k_shows k (n / 1000000) = inl (l, fold) /\ d = Naive (l * 1000000 + n mod 1000000) fold.
(** The microseconds of the years 1 to 9999 *)
Definition in_years (n : Z) : Prop := (-62135596800000000 <= n <= 253402300799999999)%Z.
