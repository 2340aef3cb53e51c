(** What V8's ValueDeserializer demands of the buffers, views and references of a document (ReadJSArrayBuffer,
    ReadJSArrayBufferView, ValidateJSArrayBufferViewFlags, ReadJSObject for references), as far as this is decided by the document:
    the byte range of a view is in its buffer and a whole number of elements, the flags of a view agree with its buffer, a resizable
    buffer is not longer than its maximum, and a reference is to an object that was begun before it. A view follows its buffer, or a
    reference to it. Shared and transferred buffers come from the program that reads the document: here they are of any length,
    and not resizable. *)
From Coq Require Import List NArith ZArith Bool.
From Verif Require Import Base ModelTags SpecWire.
Import ListNotations.
Open Scope N_scope.

(** The elements of typed arrays, in bytes (ECMAScript, table of TypedArray constructors); a DataView has bytes. *)
Definition element_size (t : vtag) : N :=
  match t with
  | vInt8 | vUint8 | vUint8Clamped | vDataView => 1
  | vInt16 | vUint16 | vFloat16 => 2
  | vInt32 | vUint32 | vFloat32 => 4
  | vFloat64 | vBigInt64 | vBigUint64 => 8
  end.
Definition within (n : N) (v : wview) : Prop := wv_off v <= n /\ wv_len v <= n - wv_off v.
Definition whole_elements (v : wview) : Prop := wv_off v mod element_size (wv_tag v) = 0 /\ wv_len v mod element_size (wv_tag v) = 0.
(** Bit 0: the view tracks the length of its buffer. Bit 1: the view is backed by a resizable buffer. *)
Definition flags_agree (resizable : bool) (v : wview) : Prop :=
  (N.testbit (wv_flags v) 0 = true -> resizable = true) /\ N.testbit (wv_flags v) 1 = resizable.
Definition takes_view (b : wbuf) (v : wview) : Prop :=
  whole_elements v /\
  match b with
  | BufPlain d => within (lenN d) v /\ flags_agree false v
  | BufResizable d _ => within (lenN d) v /\ flags_agree true v
  | BufShared _ | BufTransfer _ => (forall n, within n v) /\ flags_agree false v
  end.
Definition takes_buffer (b : wbuf) : Prop := match b with BufResizable d mx => lenN d <= mx | _ => True end.

(** The objects that V8 numbers while it reads a value, in order: buffers, and others (None). *)
Definition others (n : N) : list (option wbuf) := repeat None (N.to_nat n).
Fixpoint v8_objects (w : wval) : list (option wbuf) :=
  match w with
  | WConst _ | WInt32 _ | WUint32 _ | WDouble _ | WBigInt _ => []
  | WHost _ _ => [None]
  | WStr enc _ => others (str_ids enc)
  | WBoolObj _ | WNumObj _ | WBigObj _ | WDate _ | WSharedObj _ => [None]
  | WRegExp enc _ _ => others (str_ids enc) ++ [None]
  | WMap ps | WObject ps | WSparse _ ps => None :: v8_objects_pairs ps
  | WSet vs => None :: v8_objects_vals vs
  | WDense vs ps => None :: v8_objects_vals vs ++ v8_objects_pairs ps
  | WError _ m s => others (field_ids m + field_ids s) ++ [None]
  | WErrorC _ m s c l => others (field_ids m + field_ids s) ++ None :: v8_objects c ++ others (field_ids l)
  | WBuf b v => Some b :: others (view_ids v)
  | WRef _ v => others (view_ids v)
  end
with v8_objects_vals (vs : wvals) : list (option wbuf) :=
  match vs with VNil => [] | VCons w r => v8_objects w ++ v8_objects_vals r end
with v8_objects_pairs (ps : wpairs) : list (option wbuf) :=
  match ps with PNil => [] | PCons k v r => v8_objects k ++ v8_objects v ++ v8_objects_pairs r end.

(** [v8_accepts t w]: V8 accepts the buffers, views and references of [w] when it has numbered the objects [t] before. *)
Fixpoint v8_accepts (t : list (option wbuf)) (w : wval) {struct w} : Prop :=
  match w with
  | WBuf b v => takes_buffer b /\ match v with Some v => takes_view b v | None => True end
  | WRef id v =>
      exists x, nth_error t (N.to_nat id) = Some x /\
        match v with Some v => exists b, x = Some b /\ takes_view b v | None => True end
  | WMap ps | WObject ps | WSparse _ ps => v8_accepts_pairs (t ++ [None]) ps
  | WSet vs => v8_accepts_vals (t ++ [None]) vs
  | WDense vs ps => v8_accepts_vals (t ++ [None]) vs /\ v8_accepts_pairs (t ++ None :: v8_objects_vals vs) ps
  | WErrorC _ m s c _ => v8_accepts (t ++ others (field_ids m + field_ids s) ++ [None]) c
  | _ => True
  end
with v8_accepts_vals (t : list (option wbuf)) (vs : wvals) {struct vs} : Prop :=
  match vs with VNil => True | VCons w r => v8_accepts t w /\ v8_accepts_vals (t ++ v8_objects w) r end
with v8_accepts_pairs (t : list (option wbuf)) (ps : wpairs) {struct ps} : Prop :=
  match ps with
  | PNil => True
  | PCons k v r => v8_accepts t k /\ v8_accepts (t ++ v8_objects k) v /\ v8_accepts_pairs (t ++ v8_objects k ++ v8_objects v) r
  end.
