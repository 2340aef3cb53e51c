(** Primitive codecs of the byte stream.
    Models the leaf methods of WritableTagStream (encode.py:133-358) and of
    ReadableTagStream (decode.py:116-379).
    Writers return the bytes appended; readers take the whole data and a position and
    return the value with the new position. *)
From Coq Require Import List NArith ZArith Bool.
From Verif Require Import Base ModelTags.
Import ListNotations.
Open Scope N_scope.

(** * Writers *)

(** _encode_zigzag, encode.py:133-134: [abs(number * 2) - (number < 0)] *)
Definition encode_zigzag (z : Z) : N :=
  Z.to_N (Z.abs (z * 2) - (if z <? 0 then 1 else 0))%Z.

(** The loop of write_varint, encode.py:229-235. The recursion is bounded by the bit size,
    which is enough because each round drops 7 bits. *)
Fixpoint varint_loop (fuel : nat) (n : N) : bytes :=
  match fuel with
  | O => []
  | S f =>
      let uint7 := N.land n 127 in
      let n' := N.shiftr n 7 in
      if n' =? 0 then [uint7] else N.lor uint7 128 :: varint_loop f n'
  end.
Definition varint_bytes (n : N) : bytes := varint_loop (S (N.size_nat n)) n.

(** write_varint, encode.py:226-235 *)
Definition write_varint (z : Z) : result bytes :=
  if (z <? 0)%Z then Err EValue else Ok (varint_bytes (Z.to_N z)).

(** write_double payload, encode.py:249-256: struct.pack("<d"); the double is its bit pattern. *)
Definition double_bytes (bits : N) : bytes := le_bytes 8 bits.

(** str.encode("latin1"), encode.py:267-272; UnicodeEncodeError is turned into ValueError *)
Definition latin1_encode (s : list N) : result bytes :=
  if forallb (fun c => c <? 256) s then Ok s else Err EValue.

Definition is_surrogate (c : N) : bool := (0xD800 <=? c) && (c <=? 0xDFFF).

(** str.encode("utf-8") (strict), used at encode.py:308 *)
Definition utf8_char (c : N) : bytes :=
  if c <? 0x80 then [c]
  else if c <? 0x800 then [0xC0 + c / 64; 0x80 + c mod 64]
  else if c <? 0x10000 then [0xE0 + c / 4096; 0x80 + c / 64 mod 64; 0x80 + c mod 64]
  else [0xF0 + c / 262144; 0x80 + c / 4096 mod 64; 0x80 + c / 64 mod 64; 0x80 + c mod 64].

Definition utf8_encode (s : list N) : result bytes :=
  if existsb is_surrogate s then Err EUnicode else Ok (flat_map utf8_char s).

(** str.encode("utf-16-le") (strict), used at encode.py:285 *)
Definition utf16_char (c : N) : bytes :=
  if c <? 0x10000 then le_bytes 2 c
  else let v := c - 0x10000 in
       le_bytes 2 (0xD800 + v / 1024) ++ le_bytes 2 (0xDC00 + v mod 1024).

Definition utf16_encode (s : list N) : result bytes :=
  if existsb is_surrogate s then Err EUnicode else Ok (flat_map utf16_char s).

(** int.bit_length *)
Definition bit_length (z : Z) : N := N.size (Z.abs_N z).

(** write_bigint without its tag, encode.py:313-330 *)
Definition bigint_bytes (z : Z) : result bytes :=
  let byte_length := (bit_length z + 8) / 8 in
  if 30 <? N.size byte_length then Err EValue
  else
    let bitfield := N.lor (N.shiftl byte_length 1) (if (z <? 0)%Z then 1 else 0) in
    Ok (varint_bytes bitfield ++ le_bytes (N.to_nat byte_length) (Z.abs_N z)).

(** write_int32 / write_uint32 without their tag, encode.py:332-358 *)
Definition int32_bytes (z : Z) : result bytes :=
  if in_int32 z then Ok (varint_bytes (encode_zigzag z)) else Err EValue.
Definition uint32_bytes (z : Z) : result bytes :=
  if in_uint32 z then write_varint z else Err EValue.

(** Payloads of the three string writers (length prefix and characters), encode.py:258-311 *)
Definition lp (bs : bytes) : bytes := varint_bytes (lenN bs) ++ bs.
Definition onebyte_payload (s : list N) : result bytes := do e <- latin1_encode s; Ok (lp e).
Definition utf8_payload (s : list N) : result bytes := do e <- utf8_encode s; Ok (lp e).

(** write_string_twobyte, encode.py:277-293, as the new contents of the whole stream:
    [tag = false] models the argument tag=None. The padding byte is inserted at the tag's
    position if the characters would start at an odd offset. *)
Definition write_twobyte (data : bytes) (tag : bool) (s : list N) : result bytes :=
  do encoded <- utf16_encode s;
  let tag_pos := length data in
  let data1 := data ++ (if tag then [tag_byte kTwoByteString] else []) in
  let data2 := data1 ++ varint_bytes (lenN encoded) in
  let data3 :=
    if tag && Nat.odd (length data2)
    then firstn tag_pos data2 ++ [tag_byte kPadding] ++ skipn tag_pos data2
    else data2 in
  Ok (data3 ++ encoded).

(** * Readers *)

(** ensure_capacity, decode.py:169-175; [count] may be any natural number *)
Definition has_capacity (data : bytes) (pos : nat) (count : N) : bool :=
  N.of_nat pos + count <=? lenN data.

(** read_bytes, decode.py:263-266 *)
Definition read_bytes (data : bytes) (pos : nat) (count : N) : result (bytes * nat) :=
  if has_capacity data pos count
  then Ok (slice data pos (N.to_nat count), (pos + N.to_nat count)%nat)
  else Err EDecode.

(** The loop of read_varint, decode.py:273-283, over the bytes from the current position.
    [max_bits = 0] models None (Python tests [if max_bits and ...]).
    Returns the value and the number of bytes consumed. *)
Fixpoint varint_read_loop (bs : bytes) (max_bits : N) (varint offset : N) (consumed : nat)
  : result (N * nat) :=
  match bs with
  | [] => Err EDecode
  | encoded :: r =>
      let uint7 := N.land encoded 127 in
      let varint' := varint + N.shiftl uint7 offset in
      if encoded =? uint7 then Ok (varint', S consumed)
      else
        let offset' := offset + 7 in
        if (negb (max_bits =? 0)) && (max_bits <=? offset') then Err EDecode
        else varint_read_loop r max_bits varint' offset' (S consumed)
  end.

(** read_varint, decode.py:268-289 *)
Definition read_varint (data : bytes) (pos : nat) (max_bits : N) : result (N * nat) :=
  do '(v, n) <- varint_read_loop (skipn pos data) max_bits 0 0 0%nat;
  Ok (v, (pos + n)%nat).

(** _decode_zigzag, decode.py:116-123 *)
Definition decode_zigzag (n : N) : Z :=
  if n mod 2 =? 1 then (- ((Z.of_N n + 1) / 2))%Z else (Z.of_N n / 2)%Z.

(** read_int32, decode.py:363-369 *)
Definition read_int32 (data : bytes) (pos : nat) : result (Z * nat) :=
  do '(v, p) <- read_varint data pos 32;
  let z := decode_zigzag v in
  if in_int32 z then Ok (z, p) else Err EDecode.

(** read_uint32, decode.py:371-377 *)
Definition read_uint32 (data : bytes) (pos : nat) : result (N * nat) :=
  do '(v, p) <- read_varint data pos 32;
  if in_uint32 (Z.of_N v) then Ok (v, p) else Err EDecode.

(** read_double, decode.py:308-314 *)
Definition read_double (data : bytes) (pos : nat) : result (N * nat) :=
  do '(bs, p) <- read_bytes data pos 8; Ok (of_le bs, p).

(** read_bigint, decode.py:352-361 *)
Definition read_bigint (data : bytes) (pos : nat) : result (Z * nat) :=
  do '(bitfield, p) <- read_varint data pos 0;
  let is_negative := N.land bitfield 1 in
  let byte_count := N.land (N.shiftr bitfield 1) 0x3FFFFFFF in
  do '(bs, p2) <- read_bytes data p byte_count;
  let value := Z.of_N (of_le bs) in
  Ok (if is_negative =? 1 then (- value)%Z else value, p2).

(** read_string_onebyte, decode.py:316-326. latin1 decoding is the identity on byte values. *)
Definition read_onebyte (data : bytes) (pos : nat) : result (list N * nat) :=
  do '(n, p) <- read_varint data pos 0; read_bytes data p n.

(** bytes.decode("utf-16-le") (strict) over 16-bit units; an odd length is an error. *)
Fixpoint utf16_decode (bs : bytes) : option (list N) :=
  match bs with
  | [] => Some []
  | b0 :: b1 :: r =>
      let u := b0 + 256 * b1 in
      if (0xD800 <=? u) && (u <=? 0xDBFF) then
        match r with
        | b2 :: b3 :: r' =>
            let l := b2 + 256 * b3 in
            if (0xDC00 <=? l) && (l <=? 0xDFFF)
            then option_map (cons (0x10000 + (u - 0xD800) * 1024 + (l - 0xDC00))) (utf16_decode r')
            else None
        | _ => None
        end
      else if (0xDC00 <=? u) && (u <=? 0xDFFF) then None
      else option_map (cons u) (utf16_decode r)
  | _ => None
  end.

(** read_string_twobyte, decode.py:328-338 *)
Definition read_twobyte (data : bytes) (pos : nat) : result (list N * nat) :=
  do '(n, p) <- read_varint data pos 0;
  do '(bs, p2) <- read_bytes data p n;
  match utf16_decode bs with Some s => Ok (s, p2) | None => Err EDecode end.

Definition in_range (lo b hi : N) : bool := (lo <=? b) && (b <=? hi).
Definition is_cont (b : N) : bool := in_range 0x80 b 0xBF.

(** bytes.decode("utf-8") (strict): CPython's decoder rejects overlong forms, surrogates and
    values above 0x10FFFF by restricting the second byte. *)
Fixpoint utf8_decode (bs : bytes) : option (list N) :=
  match bs with
  | [] => Some []
  | b0 :: r =>
      if b0 <? 0x80 then option_map (cons b0) (utf8_decode r)
      else if in_range 0xC2 b0 0xDF then
        match r with
        | b1 :: r1 =>
            if is_cont b1
            then option_map (cons ((b0 - 0xC0) * 64 + (b1 - 0x80))) (utf8_decode r1)
            else None
        | _ => None
        end
      else if in_range 0xE0 b0 0xEF then
        match r with
        | b1 :: b2 :: r2 =>
            let lo := if b0 =? 0xE0 then 0xA0 else 0x80 in
            let hi := if b0 =? 0xED then 0x9F else 0xBF in
            if in_range lo b1 hi && is_cont b2
            then option_map (cons ((b0 - 0xE0) * 4096 + (b1 - 0x80) * 64 + (b2 - 0x80))) (utf8_decode r2)
            else None
        | _ => None
        end
      else if in_range 0xF0 b0 0xF4 then
        match r with
        | b1 :: b2 :: b3 :: r3 =>
            let lo := if b0 =? 0xF0 then 0x90 else 0x80 in
            let hi := if b0 =? 0xF4 then 0x8F else 0xBF in
            if in_range lo b1 hi && is_cont b2 && is_cont b3
            then option_map (cons ((b0 - 0xF0) * 262144 + (b1 - 0x80) * 4096
                                   + (b2 - 0x80) * 64 + (b3 - 0x80))) (utf8_decode r3)
            else None
        | _ => None
        end
      else None
  end.

(** read_string_utf8, decode.py:340-350 *)
Definition read_utf8 (data : bytes) (pos : nat) : result (list N * nat) :=
  do '(n, p) <- read_varint data pos 0;
  do '(bs, p2) <- read_bytes data p n;
  match utf8_decode bs with Some s => Ok (s, p2) | None => Err EDecode end.

(** read_padding, decode.py:256-261: number of padding bytes skipped, None if the data ends *)
Fixpoint count_padding (bs : bytes) : option nat :=
  match bs with
  | [] => None
  | b :: r => if b =? tag_byte kPadding then option_map S (count_padding r) else Some O
  end.

(** read_tag(tag=None), decode.py:210-254: skips padding, then the byte must be a tag.
    [consume] is always True in the modelled call sites.  When a constraint is given the
    caller checks it on the result: every failure raises the same DecodeV8SerializeError. *)
Definition read_tag (data : bytes) (pos : nat) : result (stag * nat) :=
  match count_padding (skipn pos data) with
  | None => Err EDecode
  | Some k =>
      match nth_error data (pos + k) with
      | None => Err EDecode
      | Some b =>
          match tag_of_byte b with
          | Some t => Ok (t, S (pos + k))
          | None => Err EDecode
          end
      end
  end.

(** peak_tag, decode.py:182-197: Ok None at the end of data or when the byte is not a tag,
    IndexError if the position is beyond the end of data. No padding is skipped. *)
Definition peak_tag (data : bytes) (pos : nat) : result (option stag) :=
  if Nat.eqb pos (length data) then Ok None
  else match nth_error data pos with
       | None => Err EIndex
       | Some b => Ok (tag_of_byte b)
       end.

(** read_header, decode.py:295-306 *)
Definition read_header (data : bytes) (pos : nat) : result (N * nat) :=
  do '(t, p) <- read_tag data pos;
  do _ <- guard (stag_eqb t kVersion) EDecode;
  do '(v, p2) <- read_varint data p 0;
  if (kLatestVersion <? v) || (v <? 13) then Err EDecode else Ok (v, p2).

(** write_header, encode.py:244-247 *)
Definition header_bytes : bytes := tag_byte kVersion :: varint_bytes kLatestVersion.
