(** Version texts as PEP 440 and the docstring of parse_lenient_version describe them, independently of the model. Texts are lists of
    character codes. *)
From Coq Require Import Ascii String List NArith Bool.
From Verif Require Import ModelVersion.
Import ListNotations.
Open Scope list_scope.

(** [denotes d n]: the digits [d] are a decimal numeral for [n]; leading zeros are allowed. *)
Inductive denotes : list N -> N -> Prop :=
| denotes_one : forall i, (i < 10)%N -> denotes [(48 + i)%N] i
| denotes_snoc : forall d n i, denotes d n -> (i < 10)%N -> denotes (d ++ [(48 + i)%N]) (10 * n + i)%N.
(** [dotted s ns]: [s] is the numerals for [ns], with dots between them. *)
Inductive dotted : list N -> list N -> Prop :=
| dotted_one : forall d n, denotes d n -> dotted d [n]
| dotted_more : forall d n s ns, denotes d n -> dotted s ns -> dotted (d ++ 46%N :: s) (n :: ns).

Definition separator (c : N) : Prop := c = 45%N \/ c = 95%N \/ c = 46%N.
Definition digit (c : N) : Prop := (48 <= c <= 57)%N.
Definition upper_letter (c : N) : Prop := (65 <= c <= 90)%N.
Definition letter_or_digit (c : N) : Prop := digit c \/ upper_letter c \/ (97 <= c <= 122)%N.
(** A segment of a local version: a number, or a text, whose case does not matter. *)
Definition lower_case (c d : N) : Prop := (upper_letter c /\ d = c + 32)%N \/ (~ upper_letter c /\ d = c).
Inductive is_segment (s : list N) : N + list N -> Prop :=
| seg_number : forall n, denotes s n -> is_segment s (inl n)
| seg_text : forall t, s <> [] -> Forall letter_or_digit s -> ~ Forall digit s -> Forall2 lower_case s t -> is_segment s (inr t).
(** [segments s l]: [s] is the segments [l], with one of - _ . between them. *)
Inductive segments : list N -> list (N + list N) -> Prop :=
| segments_one : forall s x, is_segment s x -> segments s [x]
| segments_more : forall s x c r l, is_segment s x -> separator c -> segments r l -> segments (s ++ c :: r) (x :: l).

(** The texts that PEP 440 reads as a pre-release, post-release or development release, in lower case. *)
Definition chars (s : string) : list N := map N_of_ascii (list_ascii_of_string s).
Definition maybe_separator (t : list N) : Prop := t = [] \/ exists c, separator c /\ t = [c].
Definition maybe_number (t : list N) : Prop := Forall digit t.
Definition marked (ws : list string) (t : list N) : Prop := exists a w b n,
  t = a ++ chars w ++ b ++ n /\ maybe_separator a /\ In w ws /\ maybe_separator b /\ maybe_number n.
Definition pre_text := marked ["a"; "alpha"; "b"; "beta"; "c"; "rc"; "pre"; "preview"]%string.
Definition post_text (t : list N) : Prop := marked ["post"; "rev"; "r"]%string t \/ exists d, t = 45%N :: d /\ d <> [] /\ maybe_number d.
Definition dev_text := marked ["dev"]%string.
Definition or_nothing (L : list N -> Prop) (t : list N) : Prop := t = [] \/ L t.
Definition release_marker (t : list N) : Prop := exists a b c,
  t = a ++ b ++ c /\ or_nothing pre_text a /\ or_nothing post_text b /\ or_nothing dev_text c.
(** "-suffix" reads as such a marker, at least up to one of its dashes. *)
Definition reads_as_marker (suffix : list N) : Prop := exists m r,
  suffix = m ++ r /\ release_marker (45%N :: m) /\ (r = [] \/ exists r', r = 45%N :: r').
