(** Independent specifications of the primitive encodings (no model function is used here). *)
From Coq Require Import List NArith ZArith Bool.
From Verif Require Import Base.
Import ListNotations.
Open Scope N_scope.

(** Base-128 varints, least significant group first; the high bit marks "more follows".
    Redundant trailing zero groups are allowed, as V8's readers allow them. *)
Inductive is_varint : bytes -> N -> Prop :=
| vi_last b : b < 128 -> is_varint [b] b
| vi_cont b bs n : 128 <= b < 256 -> is_varint bs n -> is_varint (b :: bs) (b - 128 + 128 * n).

(** Unicode scalar values: code points that are not surrogates. *)
Definition scalar (c : N) : Prop := c < 0xD800 \/ (0xE000 <= c /\ c < 0x110000).
(** What a Python str may contain. *)
Definition code_point (c : N) : Prop := c < 0x110000.

(** UTF-8 of one scalar value, by bit layout, shortest form only (RFC 3629 section 3). *)
Inductive utf8_of : N -> bytes -> Prop :=
| u8_1 x0 : x0 < 0x80 -> utf8_of x0 [x0]
| u8_2 x1 x0 c : x1 < 32 -> x0 < 64 -> c = x1 * 64 + x0 -> 0x80 <= c ->
    utf8_of c [0xC0 + x1; 0x80 + x0]
| u8_3 x2 x1 x0 c : x2 < 16 -> x1 < 64 -> x0 < 64 -> c = (x2 * 64 + x1) * 64 + x0 ->
    0x800 <= c -> scalar c ->
    utf8_of c [0xE0 + x2; 0x80 + x1; 0x80 + x0]
| u8_4 x3 x2 x1 x0 c : x3 < 8 -> x2 < 64 -> x1 < 64 -> x0 < 64 ->
    c = ((x3 * 64 + x2) * 64 + x1) * 64 + x0 -> 0x10000 <= c -> scalar c ->
    utf8_of c [0xF0 + x3; 0x80 + x2; 0x80 + x1; 0x80 + x0].

(** UTF-16LE of one scalar value (Unicode D91). *)
Inductive utf16_of : N -> bytes -> Prop :=
| u16_1 c b0 b1 : b0 < 256 -> b1 < 256 -> c = b0 + 256 * b1 -> scalar c -> utf16_of c [b0; b1]
| u16_2 c h l b0 b1 b2 b3 : h < 1024 -> l < 1024 -> c = 0x10000 + h * 1024 + l ->
    b0 < 256 -> b1 < 256 -> b2 < 256 -> b3 < 256 ->
    0xD800 + h = b0 + 256 * b1 -> 0xDC00 + l = b2 + 256 * b3 ->
    utf16_of c [b0; b1; b2; b3].

(** Concatenation of the encodings of the characters of a string. *)
Inductive enc_seq (R : N -> bytes -> Prop) : list N -> bytes -> Prop :=
| es_nil : enc_seq R [] []
| es_cons c s b bs : R c b -> enc_seq R s bs -> enc_seq R (c :: s) (b ++ bs).

Definition utf8_string := enc_seq utf8_of.
Definition utf16_string := enc_seq utf16_of.
(** Latin-1: one byte per code point below 256. *)
Definition latin1_string (s : list N) (bs : bytes) : Prop := s = bs /\ Forall (fun c => c < 256) s.
