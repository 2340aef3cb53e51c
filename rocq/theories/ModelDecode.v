(** The decoder: ReadableTagStream's composite readers (decode.py:379-831), TagReader
    (decode.py:1105-1415), DefaultDecodeContext with the default steps (decode.py:1026-1096)
    and Decoder/loads (decode.py:1431-1701).

    Simplifications:
    - the reading generators are run inside update()/|= by the deserialize_* methods; here the
      loop that reads an item and the insertion of the item are one loop, in the same order;
    - a container's heap cell is written when its loop ends; nothing reads it before;
    - custom jsmap_type, jsset_type, js_object_type, js_array_type and js_error_builder
      callables are not modelled (the defaults are); a host object deserializer is either
      absent or Node's;
    - datetime.fromtimestamp is the parameter [c_date]. *)
From Coq Require Import List NArith ZArith Bool.
From Verif Require Import Base ModelTags ModelPrim ModelValue ModelObject ModelMap ModelBuffer ModelHeap.
Import ListNotations.
Open Scope N_scope.

(** What datetime.fromtimestamp(ms / 1000, tz) may raise, decode.py:515-523 *)
Inductive date_exn : Type := DValue | DOverflow | DOSError.
Definition date_err (e : date_exn) : exn :=
  match e with DValue => EValue | DOverflow => EOverflow | DOSError => EOSError end.

(** TagReader's options, decode.py:1105-1180, and the two pieces of Python's runtime the
    decoder calls: repr(float) and datetime.fromtimestamp. *)
Record dcfg : Type := mkCfg {
  c_float_repr : N -> str;
  c_date : N -> N + date_exn;
  c_const : stag -> val;       (* js_constants *)
  c_host : bool                (* host_object_deserializer: Node's handler or None *)
}.
(** JS_CONSTANTS default, decode.py:1120-1127 *)
Definition default_const (t : stag) : val :=
  match t with
  | kTheHole => VHole
  | kUndefined => VUndef
  | kTrue => VBool true
  | kFalse => VBool false
  | _ => VNone
  end.

(** The objects created so far and the values recorded in the object log
    (SerializedObjectLog, _references.py:60-127; [ModelLog] models it in full). *)
Record dstate : Type := mkD { ds_heap : heap; ds_log : list val }.
Definition ds_empty : dstate := mkD [] [].
Definition alloc (o : obj) (st : dstate) : nat * dstate :=
  (length (ds_heap st), mkD (ds_heap st ++ [o]) (ds_log st)).
Definition record (v : val) (st : dstate) : dstate := mkD (ds_heap st) (ds_log st ++ [v]).
(** Create an object and record it. *)
Definition alloc_rec (o : obj) (st : dstate) : nat * dstate :=
  let '(i, st) := alloc o st in (i, record (VRef i) st).
Definition store (i : nat) (o : obj) (st : dstate) : dstate := mkD (heap_set (ds_heap st) i o) (ds_log st).

(** A decoded object key as a property key; isinstance(key, (int, float, str)),
    decode.py:586-591. *)
Definition val_key (v : val) : option key :=
  match v with
  | VStr s => Some (KStr s)
  | VInt z => Some (KInt z)
  | VFloat b => Some (KFloat b)
  | _ => None
  end.
Definition elem_of (v : val) : option val := match v with VHole => None | _ => Some v end.
Definition jo_put (float_repr : N -> str) (o : jsobj val) (k v : val) : result (jsobj val) :=
  match val_key k with
  | None => Err EType
  | Some k =>
      do p <- normalise_property_key float_repr k;
      match jo_set o p (elem_of v) with (Ok _, o) => Ok o | (Err e, _) => Err e end
  end.
(** One item of container.update(items): self[k] = v (jsobject.py:160-170, jsmap.py:269-270).
    Decoded heaps hold no bytes objects, so same_value_zero never sees one. *)
Definition no_bytes (o : nat) : option bytes := None.
Definition put (cfg : dcfg) (acc : obj) (k v : val) : result obj :=
  match acc with
  | OMap m => do m <- jm_set no_bytes m k v; Ok (OMap m)
  | OObject o => do o <- jo_put (c_float_repr cfg) o k v; Ok (OObject o)
  | OArray o => do o <- jo_put (c_float_repr cfg) o k v; Ok (OArray o)
  | _ => Err EType
  end.
(** One item of set |= items, jsset.py:180-182 *)
Definition put_member (acc : obj) (v : val) : result obj :=
  match acc with
  | OSet m => do m <- js_add no_bytes m v; Ok (OSet m)
  | _ => Err EType
  end.
Definition key_ok (acc : obj) (k : val) : bool :=
  match acc with
  | OMap _ => true
  | _ => match val_key k with Some _ => true | None => false end
  end.

(** read_error_tag, decode.py:415-423: the message of the error for an unknown code indexes
    the data at the position after the code. *)
Definition read_error_tag (data : bytes) (pos : nat) : result (etag * nat) :=
  if negb (has_capacity data pos 1) then Err EDecode
  else
    do '(code, p) <- read_varint data pos 0;
    match etag_of_code code with
    | Some e => Ok (e, p)
    | None => match nth_error data p with Some _ => Err EDecode | None => Err EIndex end
    end.

Section Dec.
Variable cfg : dcfg.
Variable data : bytes.
Variable version : N.

(** What every reader of a value returns: the value, the position after it and the state. *)
Definition dres (A : Type) : Type := result (A * nat * dstate).
Definition reader : Type := stag -> nat -> dstate -> dres val.

(** A reader of one value at the current position: ctx.decode_object() with tag=None,
    decode.py:1081-1096 *)
Definition dec_value (rec : reader) (pos : nat) (st : dstate) : dres val :=
  do '(t, p) <- read_tag data pos; rec t p st.

(** ctx.decode_object(tag=read_tag(tag=JS_STRING_TAGS)) and the assertion that the result is
    a str, decode.py:409-410, 463-465, 472-474 *)
Definition dec_string (rec : reader) (pos : nat) (st : dstate) : dres str :=
  do '(t, p) <- read_tag data pos;
  if negb (tag_in t JS_STRING_TAGS) then Err EDecode
  else
    do '(v, p, st) <- rec t p st;
    match v with VStr s => Ok (s, p, st) | _ => Err EAssert end.

(** The loops of read_jsmap (decode.py:524-542: every tag but the end tag starts a key) and
    _read_js_object_properties (decode.py:574-609: a key tag, the end tag or an error).
    [n] counts the pairs. *)
Fixpoint dec_pairs (rec : reader) (is_key : stag -> bool) (endt : stag)
    (fuel : nat) (pos : nat) (acc : obj) (n : N) (st : dstate) : dres (obj * N) :=
  match fuel with
  | O => Err EOutOfFuel
  | S fuel =>
      do '(t, p) <- read_tag data pos;
      if stag_eqb t endt then Ok (acc, n, p, st)
      else if is_key t then
        do '(k, p, st) <- rec t p st;
        if negb (key_ok acc k) then Err EType
        else
          do '(v, p, st) <- dec_value rec p st;
          do acc <- put cfg acc k v;
          dec_pairs rec is_key endt fuel p acc (n + 1) st
      else Err EDecode
  end.
(** read_jsset, decode.py:544-562 *)
Fixpoint dec_members (rec : reader) (fuel : nat) (pos : nat) (acc : obj) (n : N) (st : dstate)
  : dres (obj * N) :=
  match fuel with
  | O => Err EOutOfFuel
  | S fuel =>
      do '(t, p) <- read_tag data pos;
      if stag_eqb t kEndJSSet then Ok (acc, n, p, st)
      else
        do '(v, p, st) <- rec t p st;
        do acc <- put_member acc v;
        dec_members rec fuel p acc (n + 1) st
  end.
(** The element loop of read_js_array_dense, decode.py:622-624 *)
Fixpoint dec_elems (rec : reader) (fuel : nat) (count i : N) (pos : nat) (acc : obj) (st : dstate)
  : dres obj :=
  if i =? count then Ok (acc, pos, st)
  else
    match fuel with
    | O => Err EOutOfFuel
    | S fuel =>
        do '(v, p, st) <- dec_value rec pos st;
        do acc <- put cfg acc (VInt (Z.of_N i)) v;
        dec_elems rec fuel count (i + 1) p acc st
    end.
(** A varint that must equal a count, decode.py:536-542, 603-608, 631-637, 653-661 *)
Definition check_count (pos : nat) (n : N) : result nat :=
  do '(c, p) <- read_varint data pos 0; if c =? n then Ok p else Err EDecode.

Definition is_object_key (t : stag) : bool := tag_in t JS_OBJECT_KEY_TAGS.

(** read_js_array_buffer_view after its tag, decode.py:791-814, with create_view
    (jsbuffers.py:1180-1240). Bit 0 of the flags is IsLengthTracking. *)
Definition dec_view (buffer : nat) (pos : nat) (st : dstate) : dres val :=
  do '(code, p) <- read_varint data pos 0;
  match vtag_of_code code with
  | None => Err EDecode
  | Some vt =>
      do '(off, p) <- read_uint32 data p;
      do '(len, p) <- read_uint32 data p;
      do '(flags, p) <- (if 14 <=? version then read_varint data p 0 else Ok (0, p));
      do v <- view_from_bytes vt (backing_of (ds_heap st) buffer) (Z.of_N off)
                (if N.odd flags then None else Some (Z.of_N len)) false;
      let '(i, st) := alloc_rec (OView buffer v) st in
      Ok (VRef i, p, st)
  end.
(** The peek for a view after a buffer or a reference to one, decode.py:1330-1336, 1370-1373 *)
Definition dec_maybe_view (buffer : nat) (pos : nat) (st : dstate) : dres val :=
  do t <- peak_tag data pos;
  match t with
  | Some kArrayBufferView => dec_view buffer (S pos) st
  | _ => Ok (VRef buffer, pos, st)
  end.
(** _read_js_array_buffer, decode.py:712-731 *)
Definition dec_buffer_plain (pos : nat) (st : dstate) : dres val :=
  do '(n, p) <- read_uint32 data pos;
  if negb (has_capacity data p n) then Err EDecode
  else
    do b <- jsbuf_new (slice data p (N.to_nat n)) None false false;
    let '(i, st) := alloc_rec (OBuffer b) st in
    dec_maybe_view i (p + N.to_nat n)%nat st.
(** _read_js_array_buffer_resizable, decode.py:733-758: the length is checked against the data
    before the maximum length is read, so the slice can be short and the position can pass
    the end. *)
Definition dec_buffer_resizable (pos : nat) (st : dstate) : dres val :=
  do '(n, p) <- read_uint32 data pos;
  if negb (N.of_nat p + n <? lenN data) then Err EDecode
  else
    do '(mx, p) <- read_uint32 data p;
    if mx <? n then Err EDecode
    else
      do b <- jsbuf_new (slice data p (N.to_nat n)) (Some (Z.of_N mx)) true false;
      let '(i, st) := alloc_rec (OBuffer b) st in
      dec_maybe_view i (p + N.to_nat n)%nat st.
(** _read_js_array_buffer_shared, _read_js_array_buffer_transfer, decode.py:760-780: not
    recorded in the object log *)
Definition dec_buffer_id (mk : N -> obj) (pos : nat) (st : dstate) : dres val :=
  do '(n, p) <- read_uint32 data pos;
  let '(i, st) := alloc (mk n) st in
  dec_maybe_view i p st.

(** read_object_reference, decode.py:666-680, and deserialize_object_reference, 1355-1375 *)
Definition dec_reference (pos : nat) (st : dstate) : dres val :=
  do '(id, p) <- read_varint data pos 0;
  if negb (id <? lenN (ds_log st)) then Err EDecode
  else
    match nth_error (ds_log st) (N.to_nat id) with
    | None => Err EDecode
    | Some (VRef o) =>
        match nth_error (ds_heap st) o with
        | Some x => if is_buffer x then dec_maybe_view o p st else Ok (VRef o, p, st)
        | None => Ok (VRef o, p, st)
        end
    | Some v => Ok (v, p, st)
    end.

(** NodeBufferFormat, extensions.py:160-195 *)
Definition node_format (code : N) : option vtag :=
  match code with
  | 0 => Some vInt8 | 1 => Some vUint8 | 2 => Some vUint8Clamped | 3 => Some vInt16
  | 4 => Some vUint16 | 5 => Some vInt32 | 6 => Some vUint32 | 7 => Some vFloat32
  | 8 => Some vFloat64 | 9 => Some vDataView | 10 => Some vUint8 | 11 => Some vBigInt64
  | 12 => Some vBigUint64 | _ => None
  end.
(** deserialize_host_object, extensions.py:56-95: the view covers the whole buffer and is not
    checked against the item size; nothing is recorded. *)
Definition dec_host (pos : nat) (st : dstate) : dres val :=
  do '(code, p) <- read_uint32 data pos;
  do '(n, p) <- read_uint32 data p;
  match node_format code with
  | None => Err ENodeHost
  | Some vt =>
      if negb (has_capacity data p n) then Err ENodeHost
      else
        do b <- jsbuf_new (slice data p (N.to_nat n)) None false false;
        let '(i, st) := alloc (OBuffer b) st in
        do v <- view_new vt 0 None false;
        let '(j, st) := alloc (OView i v) st in
        Ok (VRef j, (p + N.to_nat n)%nat, st)
  end.

(** read_js_date, decode.py:515-523 *)
Definition dec_date (pos : nat) (st : dstate) : dres val :=
  do '(b, p) <- read_double data pos;
  match c_date cfg b with
  | inr e => Err (date_err e)
  | inl d => let '(i, st) := alloc_rec (ODate d) st in Ok (VRef i, p, st)
  end.

(** read_js_regexp, decode.py:404-413: recorded after the source *)
Definition dec_regexp (rec : reader) (pos : nat) (st : dstate) : dres val :=
  do '(s, p, st) <- dec_string rec pos st;
  do '(flags, p) <- read_varint data p 0;
  do o <- regexp_new s flags;
  let '(i, st) := alloc_rec o st in
  Ok (VRef i, p, st).

(** An optional string field of an error: present if [e] is the field's tag, and then followed
    by the next error tag, decode.py:461-476, 501-505 *)
Definition dec_field (rec : reader) (field e : etag) (pos : nat) (st : dstate)
  : dres (option str * etag) :=
  if etag_beq e field then
    do '(s, p, st) <- dec_string rec pos st;
    do '(e, p) <- read_error_tag data p;
    Ok (Some s, e, p, st)
  else Ok (None, e, pos, st).
(** read_js_error, decode.py:435-513, with JSError.builder (jserror.py:189-206): a JSError
    has message "" when none is given. *)
Definition dec_error (rec : reader) (pos : nat) (st : dstate) : dres val :=
  do '(e, p) <- read_error_tag data pos;
  let name := for_error_tag e in
  do '(e, p) <- (if ename_beq name nError then Ok (e, p) else read_error_tag data p);
  do '(message, e, p, st) <- dec_field rec eMessage e p st;
  do '(stack, e, p, st) <- dec_field rec eStack e p st;
  let msg := Some (match message with Some m => m | None => [] end) in
  let '(i, st) := alloc_rec (OError (ename_str name) msg stack VNone) st in
  do '(cause, e, p, st) <-
    (if etag_beq e eCause then
       do '(c, p, st) <- dec_value rec p st;
       do '(e, p) <- read_error_tag data p;
       Ok (c, e, p, st)
     else Ok (VNone, e, p, st));
  do '(stack, e, p, st) <-
    match stack with
    | Some _ => Ok (stack, e, p, st)
    | None => dec_field rec eStack e p st
    end;
  if etag_beq e eEnd
  then Ok (VRef i, p, store i (OError (ename_str name) msg stack cause) st)
  else Err EDecode.

(** deserialize_jsmap, deserialize_jsset, deserialize_js_object, deserialize_js_array_dense,
    deserialize_js_array_sparse: decode.py:1248-1298 *)
Definition dec_map (rec : reader) (fuel : nat) (pos : nat) (st : dstate) : dres val :=
  let '(i, st) := alloc_rec (OMap []) st in
  do '(acc, n, p, st) <- dec_pairs rec (fun _ => true) kEndJSMap fuel pos (OMap []) 0 st;
  do p <- check_count p (2 * n);
  Ok (VRef i, p, store i acc st).
Definition dec_set (rec : reader) (fuel : nat) (pos : nat) (st : dstate) : dres val :=
  let '(i, st) := alloc_rec (OSet []) st in
  do '(acc, n, p, st) <- dec_members rec fuel pos (OSet []) 0 st;
  do p <- check_count p n;
  Ok (VRef i, p, store i acc st).
Definition dec_object (rec : reader) (fuel : nat) (pos : nat) (st : dstate) : dres val :=
  let '(i, st) := alloc_rec (OObject jo_empty) st in
  do '(acc, n, p, st) <- dec_pairs rec is_object_key kEndJSObject fuel pos (OObject jo_empty) 0 st;
  do p <- check_count p n;
  Ok (VRef i, p, store i acc st).
Definition dec_dense (rec : reader) (fuel : nat) (pos : nat) (st : dstate) : dres val :=
  let '(i, st) := alloc_rec (OArray jo_empty) st in
  do '(count, p) <- read_varint data pos 0;
  do '(acc, p, st) <- dec_elems rec fuel count 0 p (OArray jo_empty) st;
  do '(acc, n, p, st) <- dec_pairs rec is_object_key kEndDenseJSArray fuel p acc 0 st;
  do p <- check_count p n;
  do p <- check_count p count;
  Ok (VRef i, p, store i acc st).
Definition dec_sparse (rec : reader) (fuel : nat) (pos : nat) (st : dstate) : dres val :=
  let '(i, st) := alloc_rec (OArray jo_empty) st in
  do '(len, p) <- read_varint data pos 0;
  do acc <- (if 0 <? len then put cfg (OArray jo_empty) (VInt (Z.of_N len - 1)) VHole
             else Ok (OArray jo_empty));
  do '(acc, n, p, st) <- dec_pairs rec is_object_key kEndSparseJSArray fuel p acc 0 st;
  do p <- check_count p n;
  do p <- check_count p len;
  Ok (VRef i, p, store i acc st).

(** A primitive wrapper object: recorded, then the record is replaced by the unwrapped value,
    decode.py:379-402, 1377-1385 *)
Definition dec_wrapped (v : val) (p : nat) (st : dstate) : dres val := Ok (v, p, record v st).

(** decode_object for a tag already read: the readers TagReader registers, decode.py:1186-1231;
    other tags reach the end of the steps (UnhandledTag). *)
Fixpoint dec (fuel : nat) (t : stag) (pos : nat) (st : dstate) {struct fuel} : dres val :=
  match fuel with
  | O => Err EOutOfFuel
  | S f =>
      let rec := dec f in
      match t with
      | kDouble => do '(b, p) <- read_double data pos; Ok (VFloat b, p, st)
      | kOneByteString => do '(s, p) <- read_onebyte data pos; Ok (VStr s, p, st)
      | kTwoByteString => do '(s, p) <- read_twobyte data pos; Ok (VStr s, p, st)
      | kUtf8String => do '(s, p) <- read_utf8 data pos; Ok (VStr s, p, st)
      | kBigInt => do '(z, p) <- read_bigint data pos; Ok (VInt z, p, st)
      | kInt32 => do '(z, p) <- read_int32 data pos; Ok (VInt z, p, st)
      | kUint32 => do '(n, p) <- read_uint32 data pos; Ok (VInt (Z.of_N n), p, st)
      | kTheHole | kUndefined | kNull | kTrue | kFalse => Ok (c_const cfg t, pos, st)
      | kTrueObject => dec_wrapped (VBool true) pos st
      | kFalseObject => dec_wrapped (VBool false) pos st
      | kNumberObject => do '(b, p) <- read_double data pos; dec_wrapped (VFloat b) p st
      | kBigIntObject => do '(z, p) <- read_bigint data pos; dec_wrapped (VInt z) p st
      | kStringObject => do '(s, p) <- read_utf8 data pos; dec_wrapped (VStr s) p st
      | kRegExp => dec_regexp rec pos st
      | kBeginJSMap => dec_map rec f pos st
      | kBeginJSSet => dec_set rec f pos st
      | kObjectReference => dec_reference pos st
      | kBeginJSObject => dec_object rec f pos st
      | kBeginDenseJSArray => dec_dense rec f pos st
      | kBeginSparseJSArray => dec_sparse rec f pos st
      | kArrayBuffer => dec_buffer_plain pos st
      | kResizableArrayBuffer => dec_buffer_resizable pos st
      | kSharedArrayBuffer => dec_buffer_id OShared pos st
      | kArrayBufferTransfer => dec_buffer_id OTransfer pos st
      | kArrayBufferView => Err EDecode
      | kError => dec_error rec pos st
      | kDate => dec_date pos st
      | kSharedObject =>
          do '(n, p) <- read_uint32 data pos;
          let '(i, st) := alloc_rec (OSharedRef n) st in Ok (VRef i, p, st)
      | kWasmModuleTransfer | kWasmMemoryTransfer => Err EDecode
      | kHostObject => if c_host cfg then dec_host pos st else Err EDecode
      | _ => Err EUnhandledTag
      end
  end.
End Dec.

(** Decoder.decode / loads, decode.py:1431-1504, 1690-1701: the header, then one value; any
    data after the value is ignored. Also returns the position after the value.
    [depth] bounds the recursion and the loops; [loads_at] uses more than the number of bytes. *)
Definition loads_depth (depth : nat) (cfg : dcfg) (data : bytes) : result (val * nat * heap) :=
  do '(version, p) <- read_header data 0;
  do '(v, p, st) <- dec_value data (dec cfg data version depth) p ds_empty;
  Ok (v, p, ds_heap st).
Definition loads_at (cfg : dcfg) (data : bytes) : result (val * nat * heap) :=
  loads_depth (S (length data)) cfg data.
Definition loads (cfg : dcfg) (data : bytes) : result (val * heap) :=
  do '(v, _, h) <- loads_at cfg data; Ok (v, h).
