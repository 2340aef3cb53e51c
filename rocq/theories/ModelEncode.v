(** The encoder: WritableTagStream's writers (encode.py:161-701), DefaultEncodeContext
    (encode.py:794-847), TagWriter (encode.py:850-1089), serialize_object_references
    (encode.py:1092-1117), the Node.js step (extensions.py:97-150) and dumps (1139-1279).

    Simplifications:
    - a writer returns the bytes it appends and the state it leaves; when a writer raises, what it
      appended before is not modelled (dumps returns nothing then);
    - the objects written do not change while they are written;
    - primitive Python objects (numbers, strings, constants) are never in the object log, which
      holds objects by identity: only objects of the heap are recorded;
    - re.Pattern, Python exceptions other than JSError and memoryview objects are not in the heap
      (ModelConvert models the conversions of the first two). *)
From Coq Require Import List NArith ZArith Bool.
From Verif Require Import Base Dict ModelTags ModelPrim SpecNumber ModelLog ModelArray ModelValue ModelObject
  ModelMap ModelBuffer ModelHeap ModelDecode.
Import ListNotations.
Open Scope N_scope.

(** SerializationFeature as the four flags, constants.py:453-560 ([ModelVersion] has the versions) *)
Record features : Type := mkFeatures {
  f_regexp_sets : bool; f_resizable : bool; f_circular : bool; f_float16 : bool }.

(** The features, and Python's datetime.timestamp() * 1000 as the bits of a double. *)
Record ecfg : Type := mkEcfg { e_features : features; e_timestamp : N -> N + date_exn }.

(** float(z) for |z| < 2^53, exact: what struct.pack("<d", z) packs *)
Definition double_of_Z (z : Z) : N :=
  match z with
  | Z0 => 0
  | _ =>
      let m := Z.abs_N z in
      let k := N.log2 m in
      (if (z <? 0)%Z then 2 ^ 63 else 0) + (1023 + k) * 2 ^ 52 + (m * 2 ^ (52 - k) - 2 ^ 52)
  end.

(** * Hashing, for deduplicate *)
(** What lru_cache(typed=True) compares: two values are one cache entry when their types and keys
    are equal. Numbers compare by value whatever their type, except at the top level.
    Views compare and hash by their memory: equal bytes and, item by item, equal values for their
    formats (memoryview's ==); a DataView counts as unsigned bytes, as from Python 3.12 on.
    Simplifications: a value containing a NaN is never the same entry as another; frozenset is
    not modelled; two datetimes are equal when they are the same opaque number; objects of
    unsupported types are equal to themselves only. *)
Inductive hkey : Type :=
| HNone | HUndef | HHole
| HNum (m e : Z) | HInf (negative : bool)
| HStr (s : list N) | HBytes (d : bytes)
| HNil | HCons (k r : hkey)                       (* tuples *)
| HRegExp (s : list N) (flags : N)
| HPrim (tag : stag) (k : hkey)
| HDate (d : N)
| HBuffer (d : bytes) (mx : Z) (resizable : bool)
| HShared (id : N) | HTransfer (id : N) | HSharedRef (id : N)
| HView (d : bytes) (items : hkey)
| HId (o : nat).
(** The types that have equal values of other types *)
Inductive htype : Type := TBool | TInt | TFloat | TView (t : vtag) | TOther.

Fixpoint hkey_eqb (a b : hkey) : bool :=
  match a, b with
  | HNone, HNone | HUndef, HUndef | HHole, HHole | HNil, HNil => true
  | HNum m e, HNum m' e' => (m =? m')%Z && (e =? e')%Z
  | HInf x, HInf y => Bool.eqb x y
  | HStr s, HStr t => listN_eqb s t
  | HBytes s, HBytes t => listN_eqb s t
  | HCons x r, HCons y r' => hkey_eqb x y && hkey_eqb r r'
  | HRegExp s f, HRegExp t g => listN_eqb s t && (f =? g)
  | HPrim t k, HPrim t' k' => stag_eqb t t' && hkey_eqb k k'
  | HDate d, HDate d' => d =? d'
  | HBuffer d m r, HBuffer d' m' r' => listN_eqb d d' && (m =? m')%Z && Bool.eqb r r'
  | HShared i, HShared j | HTransfer i, HTransfer j | HSharedRef i, HSharedRef j => i =? j
  | HView d k, HView d' k' => listN_eqb d d' && hkey_eqb k k'
  | HId o, HId o' => Nat.eqb o o'
  | _, _ => false
  end.
Definition htype_eqb (a b : htype) : bool :=
  match a, b with
  | TBool, TBool | TInt, TInt | TFloat, TFloat | TOther, TOther => true
  | TView t, TView t' => vtag_beq t t'
  | _, _ => false
  end.

Definition hnumber (n : number) : option hkey :=
  match n with
  | NaN => None
  | Infinite s => Some (HInf s)
  | Finite m e => let '(m, e) := canon m e in Some (HNum m e)
  end.
(** The value of an item of a view: a signed or unsigned integer, or a binary float with [mb] bits of
    fraction and [eb] bits of exponent. jsbuffers.py:700-800 for the formats *)
Definition float_number (eb mb n : N) : number :=
  let negative := N.testbit n (eb + mb) in
  let ex := Z.of_N (n / 2 ^ mb mod 2 ^ eb) in
  let fr := Z.of_N (n mod 2 ^ mb) in
  let bias := (2 ^ (Z.of_N eb - 1) - 1 + Z.of_N mb)%Z in
  if (ex =? 2 ^ Z.of_N eb - 1)%Z then (if (fr =? 0)%Z then Infinite negative else NaN)
  else
    let m := if (ex =? 0)%Z then fr else (fr + 2 ^ Z.of_N mb)%Z in
    let e := if (ex =? 0)%Z then (1 - bias)%Z else (ex - bias)%Z in
    Finite (if negative then (- m)%Z else m) e.
Definition item_number (t : vtag) (n : N) : number :=
  match t with
  | vInt8 | vInt16 | vInt32 | vBigInt64 =>
      let w := (8 * Z.of_N (itemsize t))%Z in
      Finite (if (Z.of_N n <? 2 ^ (w - 1))%Z then Z.of_N n else (Z.of_N n - 2 ^ w)%Z) 0
  | vFloat16 => float_number 5 10 n
  | vFloat32 => float_number 8 23 n
  | vFloat64 => float_number 11 52 n
  | _ => Finite (Z.of_N n) 0
  end.
(** The values of a view's items; None when one of them is a NaN. *)
Fixpoint item_keys (t : vtag) (fuel : nat) (d : bytes) : option hkey :=
  match fuel, d with
  | S fuel, _ :: _ =>
      let n := N.to_nat (itemsize t) in
      match hnumber (item_number t (of_le (firstn n d))), item_keys t fuel (skipn n d) with
      | Some k, Some r => Some (HCons k r)
      | _, _ => None
      end
  | _, _ => Some HNil
  end.
(** Whether the memory behind a view can be hashed: that of shared and transferred buffers appears as b"",
    jsbuffers.py:554-557 *)
Definition bk_hashable (k : backing) : bool :=
  match k with BkInaccessible => true | _ => bk_readonly k end.

Section Encode.
Variable H : heap.
Variable cfg : ecfg.

(** hash(value), None when it raises. jsbuffers.py:609-632 for views (hashable over read-only memory
    that is itself hashable); frozen dataclasses hash their fields; mutable
    containers define __eq__ and so have no __hash__; other objects hash by identity. *)
Fixpoint hash (fuel : nat) (v : val) {struct fuel} : option hkey :=
  match fuel with
  | O => None
  | S fuel =>
      match v with
      | VNone => Some HNone
      | VUndef => Some HUndef
      | VHole => Some HHole
      | VBool b => Some (HNum (if b then 1 else 0) 0)
      | VInt z => hnumber (Finite z 0)
      | VFloat b => hnumber (ieee b)
      | VStr s => Some (HStr s)
      | VRef o =>
          match nth_error H o with
          | Some (OSeq true l) =>
              fold_right (fun v r => match hash fuel v, r with
                                     | Some k, Some r => Some (HCons k r)
                                     | _, _ => None
                                     end) (Some HNil) l
          | Some (ORegExp s f) => Some (HRegExp s f)
          | Some (OPrim t v) => match hash fuel v with Some k => Some (HPrim t k) | None => None end
          | Some (ODate d) => Some (HDate d)
          | Some (OBuffer b) =>
              if jb_readonly b then Some (HBuffer (jb_data b) (jb_max b) (jb_resizable b)) else None
          | Some (OShared i) => Some (HShared i)
          | Some (OTransfer i) => Some (HTransfer i)
          | Some (OSharedRef i) => Some (HSharedRef i)
          | Some (OBytes d) => Some (HBytes d)
          | Some (OView b w) =>
              let k := backing_of H b in
              if bk_hashable k then
                let d := snd (view_memory k w) in
                match item_keys (vw_tag w) (length d) d with Some items => Some (HView d items) | None => None end
              else None
          | Some OOpaque => Some (HId o)
          | _ => None
          end
      end
  end.
Definition type_of (v : val) : htype :=
  match v with
  | VBool _ => TBool | VInt _ => TInt | VFloat _ => TFloat
  | VRef o => match nth_error H o with Some (OView _ w) => TView (vw_tag w) | _ => TOther end
  | _ => TOther
  end.
(** The cache key of a value; deeper tuples than the heap is large do not exist. *)
Definition hash_key (v : val) : option (htype * hkey) :=
  match hash (S (length H)) v with Some k => Some (type_of v, k) | None => None end.
Definition hash_key_eqb (a b : htype * hkey) : bool := htype_eqb (fst a) (fst b) && hkey_eqb (snd a) (snd b).

(** * The stream *)
(** The constraints write_tag checks, encode.py:192-224; TagWriter asks which one is active. *)
Inductive tagset : Type := KeyTags | ConstantTags.
Definition tags_of (s : tagset) : list stag :=
  match s with KeyTags => JS_OBJECT_KEY_TAGS | ConstantTags => JS_CONSTANT_TAGS end.

(** objects and allowed_tags of WritableTagStream (encode.py:161-190) and the memoized function of
    DefaultEncodeContext (encode.py:811-815) *)
Record est : Type := mkE {
  es_log : log (O := nat);
  es_allowed : option tagset;
  es_seen : list ((htype * hkey) * val);
  es_size : option nat
}.
(** deduplicate_max_size, encode.py:806; without one the cache keeps all values *)
Definition es_sized (size : option nat) : est := mkE log_empty None [] size.
Definition es_empty : est := es_sized None.
Definition pyid (o : nat) : nat := o.
Definition set_log (st : est) (l : log (O := nat)) : est := mkE l (es_allowed st) (es_seen st) (es_size st).
Definition set_allowed (st : est) (a : option tagset) : est := mkE (es_log st) a (es_seen st) (es_size st).

(** A writer: the bytes appended and the state after. *)
Definition W : Type := est -> result (bytes * est).
Definition w_nil : W := fun st => Ok ([], st).
Definition w_seq (a b : W) : W := fun st =>
  do '(x, st) <- a st; do '(y, st) <- b st; Ok (x ++ y, st).
Definition w_fail (e : exn) : W := fun _ => Err e.
Definition w_raw (bs : bytes) : W := fun st => Ok (bs, st).
Definition w_res (r : result bytes) : W := match r with Ok bs => w_raw bs | Err e => w_fail e end.

Notation "a ;; b" := (w_seq a b) (at level 61, right associativity).

(** write_tag, encode.py:217-224 *)
Definition w_tag (t : stag) : W := fun st =>
  match es_allowed st with
  | None => Ok ([tag_byte t], st)
  | Some s => if tag_in t (tags_of s) then Ok ([tag_byte t], st) else Err EEncode
  end.
(** [with self.constrain_tags(s): ...], encode.py:137-158, 192-211: leaving removes any constraint *)
Definition constrained (s : tagset) (w : W) : W := fun st =>
  do '(x, st) <- w (set_allowed st (Some s)); Ok (x, set_allowed st None).
Definition w_varint (n : N) : W := w_raw (varint_bytes n).
(** objects.record_reference *)
Definition w_record (o : nat) : W := fun st => Ok ([], set_log st (snd (log_record pyid (es_log st) o))).

(** write_constant, encode.py:240-242 *)
Definition write_constant (t : stag) : W := constrained ConstantTags (w_tag t).
(** write_double, encode.py:249-256 *)
Definition write_double (b : N) : W := w_tag kDouble ;; w_raw (double_bytes b).
(** write_string_onebyte and write_string_utf8, encode.py:258-275, 295-311: the characters are
    encoded before the tag is written *)
Definition write_onebyte (s : str) : W := fun st =>
  do p <- onebyte_payload s; (w_tag kOneByteString ;; w_raw p) st.
Definition write_utf8 (s : str) : W := fun st =>
  do p <- utf8_payload s; (w_tag kUtf8String ;; w_raw p) st.
(** write_bigint, write_int32, write_uint32, encode.py:313-358: the range is checked before the tag *)
Definition write_bigint (z : Z) : W := fun st => do p <- bigint_bytes z; (w_tag kBigInt ;; w_raw p) st.
Definition write_int32 (z : Z) : W := fun st => do p <- int32_bytes z; (w_tag kInt32 ;; w_raw p) st.
Definition write_uint32 (z : Z) : W := fun st => do p <- uint32_bytes z; (w_tag kUint32 ;; w_raw p) st.

(** write_js_primitive_object, encode.py:360-384 *)
Definition write_primitive (o : nat) (t : stag) (v : val) : W :=
  w_record o ;; w_tag t ;;
  match t, v with
  | kStringObject, VStr s => w_res (utf8_payload s)
  | kTrueObject, VBool _ | kFalseObject, VBool _ => w_nil
  | kBigIntObject, VInt z => w_res (bigint_bytes z)
  | kNumberObject, VFloat b => w_raw (double_bytes b)
  | kNumberObject, VInt z => w_raw (double_bytes (double_of_Z z))
  | _, _ => w_fail EAssert
  end.
(** write_js_regexp, encode.py:386-392: no id. JSRegExpFlag.canonical, constants.py:308-316 *)
Definition write_regexp (s : str) (flags : N) : W :=
  w_tag kRegExp ;; write_utf8 s ;; w_varint (N.land flags 0x1FF).
(** write_js_date, encode.py:425-429 *)
Definition write_date (o : nat) (d : N) : W := fun st =>
  match e_timestamp cfg d with
  | inr e => Err (date_err e)
  | inl b => (w_record o ;; w_tag kDate ;; w_raw (double_bytes b)) st
  end.
(** record_acyclic_reference around a writer, _references.py:102-127 *)
Definition w_acyclic (o : nat) (body : W) : W := fun st =>
  let '(sid, l) := log_open_acyclic pyid (es_log st) o in
  acyclic_exn sid (do '(x, st) <- body (set_log st l); Ok (x, set_log st (log_set_forward (es_log st) sid o))).
Definition w_opt {A} (f : A -> W) (x : option A) : W := match x with Some x => f x | None => w_nil end.
(** write_js_error, encode.py:394-423: an id only if there is a cause *)
Definition write_error (enc : val -> W) (o : nat) (name : str) (message stack : option str) (cause : val) : W :=
  w_tag kError ;;
  w_opt (fun t => w_varint (etag_byte t)) (ename_tag (for_error_name name)) ;;
  w_opt (fun m => w_varint (etag_byte eMessage) ;; write_utf8 m) message ;;
  w_opt (fun s => w_varint (etag_byte eStack) ;; write_utf8 s) stack ;;
  match cause with
  | VNone => w_nil
  | _ =>
      w_varint (etag_byte eCause) ;;
      (if f_circular (e_features cfg) then w_record o ;; enc cause else w_acyclic o (enc cause))
  end ;;
  w_varint (etag_byte eEnd).

(** [for key, value in items: ...] and [for value in values: ...] *)
Fixpoint w_items (kw vw : val -> W) (l : list (val * val)) : W :=
  match l with
  | [] => w_nil
  | (k, v) :: r => kw k ;; vw v ;; w_items kw vw r
  end.
Fixpoint w_values (vw : val -> W) (l : list val) : W :=
  match l with
  | [] => w_nil
  | v :: r => vw v ;; w_values vw r
  end.
Definition count {A} (l : list A) : N := lenN l.
(** write_jsmap, write_jsset, encode.py:431-462 *)
Definition write_jsmap (enc : val -> W) (o : nat) (items : list (val * val)) : W :=
  w_record o ;; w_tag kBeginJSMap ;; w_items enc enc items ;; w_tag kEndJSMap ;; w_varint (2 * count items).
Definition write_jsset (enc : val -> W) (o : nat) (values : list val) : W :=
  w_record o ;; w_tag kBeginJSSet ;; w_values enc values ;; w_tag kEndJSSet ;; w_varint (count values).
(** _write_js_object_properties, encode.py:475-489 *)
Definition write_properties (enc : val -> W) (items : list (val * val)) (endt : stag) : W :=
  w_items (fun k => constrained KeyTags (enc k)) enc items ;; w_tag endt ;; w_varint (count items).
(** write_js_object, encode.py:464-473 *)
Definition write_js_object (enc : val -> W) (o : nat) (items : list (val * val)) : W :=
  w_record o ;; w_tag kBeginJSObject ;; write_properties enc items kEndJSObject.
(** write_js_array_dense, encode.py:511-545. The assertion that iterating the array gives len(array)
    elements is kept. *)
Definition write_dense (enc : val -> W) (o : nat) (len : N) (elements : list val) (properties : list (val * val)) : W :=
  w_record o ;; w_tag kBeginDenseJSArray ;; w_varint len ;;
  w_values enc elements ;;
  (if count elements =? len then w_nil else w_fail EAssert) ;;
  w_items (fun k => constrained KeyTags (enc k)) enc properties ;;
  w_tag kEndDenseJSArray ;; w_varint (count properties) ;; w_varint (count elements).
(** write_js_array_sparse, encode.py:547-565 *)
Definition write_sparse (enc : val -> W) (o : nat) (len : Z) (items : list (val * val)) : W :=
  if ((len <? 0) || (Z.of_N ModelTags.MAX_ARRAY_LENGTH <? len))%Z then w_fail EValue
  else
    w_record o ;; w_tag kBeginSparseJSArray ;; w_varint (Z.to_N len) ;;
    write_properties enc items kEndSparseJSArray ;; w_varint (Z.to_N len).
(** write_object_reference(obj=...), encode.py:580-590 *)
Definition write_reference (o : nat) : W := fun st =>
  do sid <- log_get_serialized_id pyid (es_log st) o;
  (w_tag kObjectReference ;; w_varint (N.of_nat sid)) st.

(** write_uint32(n, tag=None) *)
Definition w_uint32 (z : Z) : W := w_res (uint32_bytes z).
(** _write_js_array_buffer, _write_js_array_buffer_resizable, encode.py:592-640 *)
Definition write_buffer (o : nat) (b : jsbuf) : W :=
  let d := jsbuf_view b in
  if jb_resizable b && f_resizable (e_features cfg) then
    if (jb_max b <? zlen d)%Z then w_fail EValue
    else w_record o ;; w_tag kResizableArrayBuffer ;; w_uint32 (zlen d) ;; w_uint32 (jb_max b) ;; w_raw d
  else w_record o ;; w_tag kArrayBuffer ;; w_uint32 (zlen d) ;; w_raw d.
(** The shared and transferred forms, encode.py:642-658; ids are not negative here *)
Definition write_buffer_id (o : nat) (t : stag) (id : N) : W := w_record o ;; w_tag t ;; w_varint id.
(** write_js_array_buffer_view, encode.py:660-685 *)
Definition write_view (o : nat) (k : backing) (v : view) : W :=
  if vtag_beq (vw_tag v) vFloat16 && negb (f_float16 (e_features cfg)) then w_fail EFeature
  else
    w_record o ;; w_tag kArrayBufferView ;; w_varint (vtag_byte (vw_tag v)) ;;
    w_uint32 (view_byte_offset k v) ;; w_uint32 (view_byte_length k v) ;;
    w_varint ((if bk_resizable k then 2 else 0) + (if view_tracking k v then 1 else 0)).
(** write_v8_shared_object_reference, encode.py:696-701 *)
Definition write_shared_ref (o : nat) (id : N) : W := w_record o ;; w_tag kSharedObject ;; w_uint32 (Z.of_N id).

(** * Values of the containers *)
Definition pkey_val (p : pkey) : val := match p with PStr s => VStr s | PInt z => VInt z end.
Definition of_elem (e : option val) : val := match e with Some v => v | None => VHole end.
(** JSObject.items(): for key in self: yield key, self[key] *)
Fixpoint jo_items_of (o : jsobj val) (ks : list pkey) : result (list (val * val)) :=
  match ks with
  | [] => Ok []
  | k :: r => do v <- jo_get o k; do l <- jo_items_of o r; Ok ((pkey_val k, v) :: l)
  end.
Definition jo_items (o : jsobj val) : result (list (val * val)) := jo_items_of o (fst (jo_iter o)).
(** JSObject.properties.items(), jsobject.py:109 *)
Definition jo_properties (o : jsobj val) : list (val * val) := map (fun p => (VStr (fst p), snd p)) (jo_props o).
Definition w_with {A} (r : result A) (f : A -> W) : W := match r with Ok a => f a | Err e => w_fail e end.

(** * Steps *)
(** functools.lru_cache around the identity: the entries, the least recently used first. A hit makes the entry the most recent
    one; a miss adds one, in place of the oldest if the cache is full. Without a size nothing is ever dropped and the order does
    not matter; with size 0 nothing is kept. *)
Definition cache_without (k : htype * hkey) (c : list ((htype * hkey) * val)) : list ((htype * hkey) * val) :=
  filter (fun p => negb (hash_key_eqb k (fst p))) c.
Definition cache_hit (size : option nat) (k : htype * hkey) (v : val) (c : list ((htype * hkey) * val)) : list ((htype * hkey) * val) :=
  match size with None => c | Some _ => cache_without k c ++ [(k, v)] end.
Definition cache_miss (size : option nat) (k : htype * hkey) (v : val) (c : list ((htype * hkey) * val)) : list ((htype * hkey) * val) :=
  match size with
  | None => c ++ [(k, v)]
  | Some O => c
  | Some n => (if (length c <? n)%nat then c else tl c) ++ [(k, v)]
  end.
(** deduplicate, encode.py:841-847 *)
Definition deduplicate (v : val) (st : est) : val * est :=
  match hash_key v with
  | None => (v, st)
  | Some k =>
      match dget hash_key_eqb k (es_seen st) with
      | Some v0 => (v0, mkE (es_log st) (es_allowed st) (cache_hit (es_size st) k v0 (es_seen st)) (es_size st))
      | None => (v, mkE (es_log st) (es_allowed st) (cache_miss (es_size st) k v (es_seen st)) (es_size st))
      end
  end.
(** An encode step gets ctx.encode_object, the value and the next step, encode.py:738-792. *)
Definition estep : Type := (val -> W) -> val -> (val -> W) -> W.

(** serialize_object_references, encode.py:1092-1117 *)
Definition step_references : estep := fun enc v next st =>
  let '(v, st) := deduplicate v st in
  match v with
  | VRef o => if log_contains pyid (es_log st) o then write_reference o st else next v st
  | _ => next v st
  end.

(** TagWriter.serialize_int, encode.py:874-889 *)
Definition serialize_int (z : Z) : W := fun st =>
  if in_uint32 z then write_uint32 z st
  else if in_int32 z then write_int32 z st
  else if in_safe_int z then write_double (double_of_Z z) st
  else match es_allowed st with
       | Some KeyTags => (do s <- int_str z; write_onebyte s st)
       | _ => write_bigint z st
       end.
(** serialize_js_array, encode.py:991-1017 *)
Definition sparse_is_smaller (a : arr val) : bool :=
  let used := arr_used a in
  let length := arr_len a in
  (used * (if length <? 2 ^ 14 then 3 else 4) <? length - used)%Z.
Definition serialize_js_array (enc : val -> W) (o : nat) (x : jsobj val) : W :=
  if sparse_is_smaller (jo_arr x) then
    w_with (jo_items x) (write_sparse enc o (arr_len (jo_arr x)))
  else
    w_with (arr_iter (jo_arr x)) (fun l =>
      write_dense enc o (Z.to_N (arr_len (jo_arr x))) (map of_elem l) (jo_properties x)).
(** serialize_buffer, encode.py:1051-1064: the copy is a plain JSArrayBuffer *)
Definition serialize_buffer (o : nat) (d : bytes) : W := fun st =>
  let '(v, st) := deduplicate (VRef o) st in
  match v with
  | VRef o => write_buffer o (mkBuf d (zlen d) false false) st
  | _ => Err EType
  end.
(** TagWriter.encode, encode.py:863-1089 *)
Definition step_tagwriter : estep := fun enc v next =>
  match v with
  | VHole => write_constant kTheHole
  | VUndef => write_constant kUndefined
  | VNone => write_constant kNull
  | VBool b => write_constant (if b then kTrue else kFalse)
  | VInt z => serialize_int z
  | VFloat b => write_double b
  | VStr s => write_utf8 s
  | VRef o =>
      match nth_error H o with
      | None | Some OOpaque => next v
      | Some (OPrim t x) => write_primitive o t x
      | Some (ORegExp s f) => write_regexp s f
      | Some (OError n m s c) => write_error enc o n m s c
      | Some (ODate d) => write_date o d
      | Some (OSharedRef id) => write_shared_ref o id
      | Some (OObject x) => w_with (jo_items x) (write_js_object enc o)
      | Some (OArray x) => serialize_js_array enc o x
      | Some (OMap m) => w_with (jm_items (heap_bytes H) m) (write_jsmap enc o)
      | Some (ODict l) => write_jsmap enc o l
      | Some (OSet m) => write_jsset enc o (js_iter m)
      | Some (OPySet l) => write_jsset enc o l
      | Some (OSeq _ l) => write_dense enc o (count l) l []
      | Some (OBuffer b) => write_buffer o b
      | Some (OShared id) => write_buffer_id o kSharedArrayBuffer id
      | Some (OTransfer id) => write_buffer_id o kArrayBufferTransfer id
      | Some (OBytes d) | Some (OByteArray d) => serialize_buffer o d
      | Some (OView b w) =>
          (* encode.py:1066-1089 *)
          if vtag_beq (vw_tag w) vFloat16 && negb (f_float16 (e_features cfg)) then next v
          else enc (VRef b) ;; write_view o (backing_of H b) w
      end
  end.

(** NodeBufferFormat(view_tag).nodejs_code: the first format with the view tag, extensions.py:160-195 *)
Definition node_code (t : vtag) : option N :=
  match t with
  | vInt8 => Some 0 | vUint8 => Some 1 | vUint8Clamped => Some 2 | vInt16 => Some 3 | vUint16 => Some 4
  | vInt32 => Some 5 | vUint32 => Some 6 | vFloat32 => Some 7 | vFloat64 => Some 8 | vDataView => Some 9
  | vBigInt64 => Some 11 | vBigUint64 => Some 12 | vFloat16 => None
  end.
(** write_host_object with serialize_host_object, encode.py:687-694, extensions.py:97-117 *)
Definition write_node_view (code : N) (d : bytes) : W :=
  w_tag kHostObject ;; w_uint32 (Z.of_N code) ;; w_uint32 (zlen d) ;; w_raw d.
(** serialize_js_array_buffer_views_as_nodejs_host_object, extensions.py:125-150 *)
Definition step_node : estep := fun enc v next =>
  match v with
  | VRef o =>
      match nth_error H o with
      | Some (OView b w) =>
          match node_code (vw_tag w) with
          | Some code => write_node_view code (snd (view_memory (backing_of H b) w))
          | None => next v
          end
      | _ => next v
      end
  | _ => next v
  end.

(** __encode_object_with_step, encode.py:817-826: the steps in order, then the error *)
Fixpoint chain (enc : val -> W) (steps : list estep) (v : val) : W :=
  match steps with
  | [] => w_fail EUnhandledValue
  | s :: r => s enc v (chain enc r)
  end.
(** encode_object, encode.py:828-834. [depth] bounds the recursion. *)
Fixpoint encode (depth : nat) (steps : list estep) (v : val) : W :=
  match depth with
  | O => w_fail EOutOfFuel
  | S depth => chain (encode depth steps) steps v
  end.

(** default_encode_steps, encode.py:1120-1123 *)
Definition default_steps : list estep := [step_references; step_tagwriter].
(** The lists of encode_steps the library provides steps for, in the order its documentation gives:
    with or without references (encode.py:1092-1117), with or without Node's views (extensions.py:125-150) *)
Definition steps_of (refs node : bool) : list estep :=
  (if refs then [step_references] else []) ++ (if node then [step_node] else []) ++ [step_tagwriter].

(** A stream's header and DefaultEncodeContext(steps, deduplicate_max_size=size).encode_object(value), encode.py:226-230, 801-833 *)
Definition encode_sized (size : option nat) (depth : nat) (steps : list estep) (v : val) : result bytes :=
  do '(bs, _) <- encode depth steps v (es_sized size); Ok (header_bytes ++ bs).
(** Encoder.encode and dumps, encode.py:1187-1207, 1210-1279: the header, then the value *)
Definition dumps_depth (depth : nat) (steps : list estep) (v : val) : result bytes :=
  do '(bs, _) <- encode depth steps v es_empty; Ok (header_bytes ++ bs).
(** Two levels more than there are objects are enough for the default steps (C24). *)
Definition dumps (v : val) : result bytes := dumps_depth (length H + 2) default_steps v.
End Encode.
