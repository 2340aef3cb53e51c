(** Tags and numeric constants. Models src/v8serialize/constants.py. *)
From Coq Require Import List NArith ZArith Bool.
From Verif Require Import Base.
Import ListNotations.
Open Scope N_scope.

(** SerializationTag, constants.py:63-199 *)
Inductive stag : Type :=
| kVersion | kPadding | kVerifyObjectCount
| kTheHole | kUndefined | kNull | kTrue | kFalse
| kInt32 | kUint32 | kDouble | kBigInt
| kUtf8String | kOneByteString | kTwoByteString
| kObjectReference
| kBeginJSObject | kEndJSObject
| kBeginSparseJSArray | kEndSparseJSArray
| kBeginDenseJSArray | kEndDenseJSArray
| kDate
| kTrueObject | kFalseObject | kNumberObject | kBigIntObject | kStringObject
| kRegExp
| kBeginJSMap | kEndJSMap | kBeginJSSet | kEndJSSet
| kArrayBuffer | kResizableArrayBuffer | kArrayBufferTransfer | kArrayBufferView
| kSharedArrayBuffer | kSharedObject
| kWasmModuleTransfer | kHostObject | kWasmMemoryTransfer | kError
| kLegacyReservedMessagePort | kLegacyReservedBlob | kLegacyReservedBlobIndex
| kLegacyReservedFile | kLegacyReservedFileIndex | kLegacyReservedDOMFileSystem
| kLegacyReservedFileList | kLegacyReservedFileListIndex | kLegacyReservedImageData
| kLegacyReservedImageBitmap | kLegacyReservedImageBitmapTransfer
| kLegacyReservedOffscreenCanvas | kLegacyReservedCryptoKey | kLegacyReservedRTCCertificate.

Definition all_tags : list stag :=
 [ kVersion; kPadding; kVerifyObjectCount; kTheHole; kUndefined; kNull; kTrue; kFalse;
   kInt32; kUint32; kDouble; kBigInt; kUtf8String; kOneByteString; kTwoByteString;
   kObjectReference; kBeginJSObject; kEndJSObject; kBeginSparseJSArray; kEndSparseJSArray;
   kBeginDenseJSArray; kEndDenseJSArray; kDate; kTrueObject; kFalseObject; kNumberObject;
   kBigIntObject; kStringObject; kRegExp; kBeginJSMap; kEndJSMap; kBeginJSSet; kEndJSSet;
   kArrayBuffer; kResizableArrayBuffer; kArrayBufferTransfer; kArrayBufferView;
   kSharedArrayBuffer; kSharedObject; kWasmModuleTransfer; kHostObject; kWasmMemoryTransfer;
   kError; kLegacyReservedMessagePort; kLegacyReservedBlob; kLegacyReservedBlobIndex;
   kLegacyReservedFile; kLegacyReservedFileIndex; kLegacyReservedDOMFileSystem;
   kLegacyReservedFileList; kLegacyReservedFileListIndex; kLegacyReservedImageData;
   kLegacyReservedImageBitmap; kLegacyReservedImageBitmapTransfer;
   kLegacyReservedOffscreenCanvas; kLegacyReservedCryptoKey; kLegacyReservedRTCCertificate ].

(** The byte value of a tag, constants.py:77-199 (ASCII codes spelled out). *)
Definition tag_byte (t : stag) : N :=
  match t with
  | kVersion => 255 | kPadding => 0 | kVerifyObjectCount => 63 (* ? *)
  | kTheHole => 45 (* - *) | kUndefined => 95 (* _ *) | kNull => 48 (* 0 *)
  | kTrue => 84 (* T *) | kFalse => 70 (* F *)
  | kInt32 => 73 (* I *) | kUint32 => 85 (* U *) | kDouble => 78 (* N *) | kBigInt => 90 (* Z *)
  | kUtf8String => 83 (* S *) | kOneByteString => 34 (* quote *) | kTwoByteString => 99 (* c *)
  | kObjectReference => 94 (* ^ *)
  | kBeginJSObject => 111 (* o *) | kEndJSObject => 123 (* { *)
  | kBeginSparseJSArray => 97 (* a *) | kEndSparseJSArray => 64 (* @ *)
  | kBeginDenseJSArray => 65 (* A *) | kEndDenseJSArray => 36 (* $ *)
  | kDate => 68 (* D *)
  | kTrueObject => 121 (* y *) | kFalseObject => 120 (* x *) | kNumberObject => 110 (* n *)
  | kBigIntObject => 122 (* z *) | kStringObject => 115 (* s *)
  | kRegExp => 82 (* R *)
  | kBeginJSMap => 59 (* ; *) | kEndJSMap => 58 (* : *)
  | kBeginJSSet => 39 (* ' *) | kEndJSSet => 44 (* , *)
  | kArrayBuffer => 66 (* B *) | kResizableArrayBuffer => 126 (* ~ *)
  | kArrayBufferTransfer => 116 (* t *) | kArrayBufferView => 86 (* V *)
  | kSharedArrayBuffer => 117 (* u *) | kSharedObject => 112 (* p *)
  | kWasmModuleTransfer => 119 (* w *) | kHostObject => 92 (* backslash *)
  | kWasmMemoryTransfer => 109 (* m *) | kError => 114 (* r *)
  | kLegacyReservedMessagePort => 77 | kLegacyReservedBlob => 98
  | kLegacyReservedBlobIndex => 105 | kLegacyReservedFile => 102
  | kLegacyReservedFileIndex => 101 | kLegacyReservedDOMFileSystem => 100
  | kLegacyReservedFileList => 108 | kLegacyReservedFileListIndex => 76
  | kLegacyReservedImageData => 35 | kLegacyReservedImageBitmap => 103
  | kLegacyReservedImageBitmapTransfer => 71 | kLegacyReservedOffscreenCanvas => 72
  | kLegacyReservedCryptoKey => 75 | kLegacyReservedRTCCertificate => 107
  end.

(** [value in SerializationTag] / [SerializationTag(value)] *)
Definition tag_of_byte (b : N) : option stag := find (fun t => tag_byte t =? b) all_tags.

Scheme Equality for stag.
Definition stag_eqb := stag_beq.

(** TagConstraint.__contains__ for the named constraints, constants.py:682-812 *)
Definition tag_in (t : stag) (l : list stag) : bool := existsb (stag_eqb t) l.
Definition JS_OBJECT_KEY_TAGS : list stag :=
  [kInt32; kDouble; kUint32; kNumberObject; kOneByteString; kTwoByteString; kUtf8String; kStringObject].
Definition JS_CONSTANT_TAGS : list stag := [kTheHole; kUndefined; kNull; kTrue; kFalse].
Definition JS_ARRAY_BUFFER_TAGS : list stag :=
  [kArrayBuffer; kResizableArrayBuffer; kSharedArrayBuffer; kArrayBufferTransfer].
Definition JS_PRIMITIVE_OBJECT_TAGS : list stag :=
  [kTrueObject; kFalseObject; kNumberObject; kBigIntObject; kStringObject].
Definition JS_STRING_TAGS : list stag :=
  [kUtf8String; kOneByteString; kTwoByteString; kStringObject].

(** constants.py:26-58: kLatestVersion and the integer ranges *)
Definition kLatestVersion : N := 15.
Definition in_int32 (z : Z) : bool := ((-2147483648 <=? z) && (z <? 2147483648))%Z.
Definition in_uint32 (z : Z) : bool := ((0 <=? z) && (z <? 4294967296))%Z.
Definition in_safe_int (z : Z) : bool :=
  ((-9007199254740991 <=? z) && (z <? 9007199254740992))%Z.
Definition MAX_ARRAY_LENGTH : N := 4294967295.

(** ArrayBufferViewTag, constants.py:219-233 *)
Inductive vtag : Type :=
| vInt8 | vUint8 | vUint8Clamped | vInt16 | vUint16 | vInt32 | vUint32
| vFloat16 | vFloat32 | vFloat64 | vBigInt64 | vBigUint64 | vDataView.

Definition all_vtags : list vtag :=
 [vInt8; vUint8; vUint8Clamped; vInt16; vUint16; vInt32; vUint32;
  vFloat16; vFloat32; vFloat64; vBigInt64; vBigUint64; vDataView].

Definition vtag_byte (t : vtag) : N :=
  match t with
  | vInt8 => 98 (* b *) | vUint8 => 66 (* B *) | vUint8Clamped => 67 (* C *)
  | vInt16 => 119 (* w *) | vUint16 => 87 (* W *) | vInt32 => 100 (* d *) | vUint32 => 68 (* D *)
  | vFloat16 => 104 (* h *) | vFloat32 => 102 (* f *) | vFloat64 => 70 (* F *)
  | vBigInt64 => 113 (* q *) | vBigUint64 => 81 (* Q *) | vDataView => 63 (* ? *)
  end.
Definition vtag_of_code (n : N) : option vtag := find (fun t => vtag_byte t =? n) all_vtags.

(** data_format.byte_length of the view classes, jstypes/jsbuffers.py:716-808, 1049 *)
Definition itemsize (t : vtag) : N :=
  match t with
  | vInt8 | vUint8 | vUint8Clamped | vDataView => 1
  | vInt16 | vUint16 | vFloat16 => 2
  | vInt32 | vUint32 | vFloat32 => 4
  | vFloat64 | vBigInt64 | vBigUint64 => 8
  end.

Scheme Equality for vtag.

(** SerializationErrorTag, constants.py:352-380 *)
Inductive etag : Type :=
| eEvalError | eRangeError | eReferenceError | eSyntaxError | eTypeError | eUriError
| eMessage | eCause | eStack | eEnd.
Definition all_etags : list etag :=
 [eEvalError; eRangeError; eReferenceError; eSyntaxError; eTypeError; eUriError;
  eMessage; eCause; eStack; eEnd].
Definition etag_byte (t : etag) : N :=
  match t with
  | eEvalError => 69 (* E *) | eRangeError => 82 (* R *) | eReferenceError => 70 (* F *)
  | eSyntaxError => 83 (* S *) | eTypeError => 84 (* T *) | eUriError => 85 (* U *)
  | eMessage => 109 (* m *) | eCause => 99 (* c *) | eStack => 115 (* s *) | eEnd => 46 (* . *)
  end.
Definition etag_of_code (n : N) : option etag := find (fun t => etag_byte t =? n) all_etags.
Scheme Equality for etag.

(** JSErrorName, constants.py:383-434 *)
Inductive ename : Type :=
| nEvalError | nRangeError | nReferenceError | nSyntaxError | nTypeError | nUriError | nError.
Scheme Equality for ename.

(** JSErrorName.error_tag (None for plain Error), constants.py:392-398 *)
Definition ename_tag (n : ename) : option etag :=
  match n with
  | nEvalError => Some eEvalError | nRangeError => Some eRangeError
  | nReferenceError => Some eReferenceError | nSyntaxError => Some eSyntaxError
  | nTypeError => Some eTypeError | nUriError => Some eUriError | nError => None
  end.
