(** Model of /repo/src/v8serialize/jstypes/jsbuffers.py: JSArrayBuffer, buffer views and DataView access.
    Lengths and offsets are [Z] as Python ints; contents are byte lists. *)
From Coq Require Import List NArith ZArith Bool.
From Verif Require Import Base ModelTags.
Import ListNotations.
Open Scope Z_scope.

(** * JSArrayBuffer, jsbuffers.py:85-243 *)
Record jsbuf : Type := mkBuf { jb_data : bytes; jb_max : Z; jb_resizable : bool; jb_readonly : bool }.

Definition zlen (d : bytes) : Z := Z.of_nat (length d).

(** __init__ with copy_data left at its default, jsbuffers.py:126-190. The contents are copied, so they are
    not shared with the caller. [jb_readonly] records that the copy is [bytes]. *)
Definition jsbuf_new (data : bytes) (max_byte_length : option Z) (resizable readonly : bool) : result jsbuf :=
  let resizable := resizable || match max_byte_length with Some _ => true | None => false end in
  if resizable && readonly then Err EValue
  else
    let mx := match max_byte_length with Some m => m | None => zlen data end in
    if mx <? zlen data then Err EByteLength
    else Ok (mkBuf data mx resizable readonly).
(** The byte_length form: zero-filled; a negative count makes bytearray() raise, except that readonly
    buffers use [b"\x00" * n], which is empty for negative n. jsbuffers.py:162-164 *)
Definition jsbuf_alloc (n : Z) (max_byte_length : option Z) (resizable readonly : bool) : result jsbuf :=
  if (resizable || match max_byte_length with Some _ => true | None => false end) && readonly then Err EValue
  else if (n <? 0) && negb readonly then Err EValue
  else jsbuf_new (zeros (Z.to_nat n)) max_byte_length resizable readonly.

(** resize, jsbuffers.py:192-213 *)
Definition jsbuf_resize (b : jsbuf) (n : Z) : result jsbuf :=
  if negb (jb_resizable b) then Err EByteLength
  else if negb ((0 <=? n) && (n <=? jb_max b)) then Err EByteLength
  else
    let cur := zlen (jb_data b) in
    let data := if cur <? n then jb_data b ++ zeros (Z.to_nat (n - cur))
                else firstn (Z.to_nat n) (jb_data b) in
    Ok (mkBuf data (jb_max b) (jb_resizable b) (jb_readonly b)).
(** data / __buffer__, jsbuffers.py:215-218, 237-238 *)
Definition jsbuf_view (b : jsbuf) : bytes := firstn (Z.to_nat (jb_max b)) (jb_data b).

(** * Backing buffers of views: bytes (or another read-only buffer), bytearray, JSArrayBuffer, and the two
    classes whose contents Python cannot reach (jsbuffers.py:265-289). *)
Inductive backing : Type :=
| BkBytes (d : bytes)
| BkByteArray (d : bytes)
| BkBuffer (b : jsbuf)
| BkInaccessible.
(** get_buffer(backing_buffer); None for NotImplementedError *)
Definition bk_data (k : backing) : option bytes :=
  match k with
  | BkBytes d | BkByteArray d => Some d
  | BkBuffer b => Some (jsbuf_view b)
  | BkInaccessible => None
  end.
(** is_backing_buffer_resizable, jsbuffers.py:533-539 *)
Definition bk_resizable (k : backing) : bool :=
  match k with BkByteArray _ => true | BkBuffer b => jb_resizable b | _ => false end.
Definition bk_readonly (k : backing) : bool :=
  match k with BkBytes _ => true | BkBuffer b => jb_readonly b | _ => false end.

(** * Views, jsbuffers.py:386-642 *)
Record view : Type := mkView { vw_tag : vtag; vw_offset : Z; vw_length : option Z; vw_readonly : bool }.

(** the constructor's checks, jsbuffers.py:428-434 *)
Definition view_new (t : vtag) (item_offset : Z) (item_length : option Z) (ro : bool) : result view :=
  if item_offset <? 0 then Err EValue
  else if match item_length with Some l => l <? 0 | None => false end then Err EValue
  else Ok (mkView t item_offset item_length ro).

Definition isize (t : vtag) : Z := Z.of_N (itemsize t).

(** __get_buffer_as_memoryview, jsbuffers.py:551-588: in range?, start, number of bytes, for [n] bytes of
    buffer. The assertion at line 576 holds because of the slice bounds. *)
Definition view_span (n : Z) (v : view) : bool * Z * Z :=
  let byte_offset := vw_offset v * isize (vw_tag v) in
  match vw_length v with
  | Some l =>
      let byte_length := l * isize (vw_tag v) in
      if n <? byte_offset + byte_length then (false, byte_offset, 0)
      else (byte_offset <=? n, byte_offset, byte_length)
  | None =>
      let available := Z.max 0 (n - byte_offset) in
      (byte_offset <=? n, byte_offset, available / isize (vw_tag v) * isize (vw_tag v))
  end.
Definition view_memory (k : backing) (v : view) : bool * bytes :=
  let d := match bk_data k with Some d => d | None => [] end in
  let '(inrange, start, n) := view_span (zlen d) v in
  (inrange, slice d (Z.to_nat start) (Z.to_nat n)).
(** is_in_range, byte_length and byte_offset, jsbuffers.py:512-545 *)
Definition view_in_range (k : backing) (v : view) : bool := fst (view_memory k v).
Definition view_byte_length (k : backing) (v : view) : Z := zlen (snd (view_memory k v)).
Definition view_byte_offset (k : backing) (v : view) : Z :=
  if view_in_range k v then vw_offset v * isize (vw_tag v) else 0.
(** is_length_tracking, jsbuffers.py:528-531 *)
Definition view_tracking (k : backing) (v : view) : bool :=
  match vw_length v with None => bk_resizable k | Some _ => false end.

(** from_bytes, jsbuffers.py:436-510; create_view, 1124-1159, only picks the class *)
Definition view_from_bytes (t : vtag) (k : backing) (byte_offset : Z) (byte_length : option Z) (ro : bool) : result view :=
  let isz := isize t in
  if negb (byte_offset mod isz =? 0) then Err EItemSize
  else if match byte_length with Some n => negb (n mod isz =? 0) | None => false end then Err EItemSize
  else
    do v <- view_new t (byte_offset / isz) (match byte_length with Some n => Some (n / isz) | None => None end) ro;
    match bk_data k with
    | None => Ok v
    | Some d =>
        let bad :=
          (match byte_length with None => negb (view_tracking k v) && negb (zlen d mod isz =? 0) | Some _ => false end)
          || (view_byte_offset k v <? byte_offset)
          || (match byte_length with Some n => view_byte_length k v <? n | None => false end) in
        if bad then Err EBounds else Ok v
    end.

(** * DataView access, jsbuffers.py:916-1024 *)
Inductive dvfmt : Type := DSigned (w : nat) | DUnsigned (w : nat) | DFloat (w : nat).
Inductive dvval : Type := DVInt (z : Z) | DVFloat (bits : N).
Definition dv_width (f : dvfmt) : nat := match f with DSigned w | DUnsigned w | DFloat w => w end.
(** the widths the methods use *)
Definition dv_format (f : dvfmt) : bool :=
  match f with
  | DSigned w | DUnsigned w => existsb (Nat.eqb w) [1%nat; 2%nat; 4%nat; 8%nat]
  | DFloat w => existsb (Nat.eqb w) [2%nat; 4%nat; 8%nat]
  end.

Section DataView.
(** struct's conversions between binary64 and the narrower float formats are external: [narrow w bits] is
    None where struct raises OverflowError. Width 8 is the identity on bit patterns. *)
Variable narrow : nat -> N -> option N.
Variable widen : nat -> N -> N.

Definition dv_bits (f : dvfmt) (v : dvval) : result N :=
  match f, v with
  | DUnsigned w, DVInt z =>
      if (0 <=? z) && (z <? 2 ^ (8 * Z.of_nat w)) then Ok (Z.to_N z) else Err EStruct
  | DSigned w, DVInt z =>
      if (- 2 ^ (8 * Z.of_nat w - 1) <=? z) && (z <? 2 ^ (8 * Z.of_nat w - 1)) then Ok (Z.to_N (z mod 2 ^ (8 * Z.of_nat w)))
      else Err EStruct
  | DFloat 8, DVFloat b => Ok b
  | DFloat w, DVFloat b => match narrow w b with Some p => Ok p | None => Err EOverflow end
  | _, _ => Err EStruct
  end.
Definition dv_value (f : dvfmt) (n : N) : dvval :=
  match f with
  | DUnsigned w => DVInt (Z.of_N n)
  | DSigned w =>
      DVInt (if Z.of_N n <? 2 ^ (8 * Z.of_nat w - 1) then Z.of_N n else Z.of_N n - 2 ^ (8 * Z.of_nat w))
  | DFloat 8 => DVFloat n
  | DFloat w => DVFloat (widen w n)
  end.
(** "<" and ">" byte orders *)
Definition dv_order (little : bool) (bs : bytes) : bytes := if little then bs else rev bs.

(** read and the get methods, jsbuffers.py:916-972, over the view's memory *)
Definition dv_get (k : backing) (v : view) (f : dvfmt) (off : Z) (little : bool) : result dvval :=
  let mem := snd (view_memory k v) in
  if (off <? 0) || (zlen mem <? off + Z.of_nat (dv_width f)) then Err EBounds
  else Ok (dv_value f (of_le (dv_order little (slice mem (Z.to_nat off) (dv_width f))))).

(** overwrite part of the buffer *)
Definition splice (d : bytes) (pos : nat) (bs : bytes) : bytes := firstn pos d ++ bs ++ skipn (pos + length bs) d.
Definition bk_write (k : backing) (pos : nat) (bs : bytes) : backing :=
  match k with
  | BkBytes d => BkBytes (splice d pos bs)
  | BkByteArray d => BkByteArray (splice d pos bs)
  | BkBuffer b => BkBuffer (mkBuf (splice (jb_data b) pos bs) (jb_max b) (jb_resizable b) (jb_readonly b))
  | BkInaccessible => BkInaccessible
  end.
(** write and the set methods, jsbuffers.py:929-1024. struct.pack_into checks that the memory is writable,
    then clears the destination, then converts the value (CPython, s_pack_internal), so a value it rejects
    leaves zeros behind. *)
Definition dv_set (k : backing) (v : view) (f : dvfmt) (off : Z) (x : dvval) (little : bool) : result unit * backing :=
  let mem := snd (view_memory k v) in
  if (off <? 0) || (zlen mem <? off + Z.of_nat (dv_width f)) then (Err EBounds, k)
  else if vw_readonly v || bk_readonly k then (Err EType, k)
  else
    let pos := Z.to_nat (vw_offset v * isize (vw_tag v) + off) in
    match dv_bits f x with
    | Err e => (Err e, bk_write k pos (zeros (dv_width f)))
    | Ok n => (Ok tt, bk_write k pos (dv_order little (le_bytes (dv_width f) n)))
    end.
End DataView.
