(** The codes of the serialization format, as characters: V8's SerializationTag, ArrayBufferViewTag and
    ErrorTag, and the view codes of Node.js's v8 module. *)
From Coq Require Import Ascii String List NArith.
From Verif Require Import Base ModelTags.
Import ListNotations.
Open Scope list_scope.

Definition ch (c : ascii) : N := N_of_ascii c.
Definition value_codes : list (stag * N) :=
  [(kVersion, 255%N); (kPadding, 0%N); (kVerifyObjectCount, ch "?");
   (kTheHole, ch "-"); (kUndefined, ch "_"); (kNull, ch "0"); (kTrue, ch "T"); (kFalse, ch "F");
   (kInt32, ch "I"); (kUint32, ch "U"); (kDouble, ch "N"); (kBigInt, ch "Z");
   (kUtf8String, ch "S"); (kOneByteString, ch """"); (kTwoByteString, ch "c"); (kObjectReference, ch "^");
   (kBeginJSObject, ch "o"); (kEndJSObject, ch "{"); (kBeginSparseJSArray, ch "a"); (kEndSparseJSArray, ch "@");
   (kBeginDenseJSArray, ch "A"); (kEndDenseJSArray, ch "$"); (kDate, ch "D");
   (kTrueObject, ch "y"); (kFalseObject, ch "x"); (kNumberObject, ch "n"); (kBigIntObject, ch "z"); (kStringObject, ch "s");
   (kRegExp, ch "R"); (kBeginJSMap, ch ";"); (kEndJSMap, ch ":"); (kBeginJSSet, ch "'"); (kEndJSSet, ch ",");
   (kArrayBuffer, ch "B"); (kResizableArrayBuffer, ch "~"); (kArrayBufferTransfer, ch "t"); (kArrayBufferView, ch "V");
   (kSharedArrayBuffer, ch "u"); (kSharedObject, ch "p"); (kWasmModuleTransfer, ch "w"); (kHostObject, ch "\");
   (kWasmMemoryTransfer, ch "m"); (kError, ch "r");
   (kLegacyReservedMessagePort, ch "M"); (kLegacyReservedBlob, ch "b"); (kLegacyReservedBlobIndex, ch "i");
   (kLegacyReservedFile, ch "f"); (kLegacyReservedFileIndex, ch "e"); (kLegacyReservedDOMFileSystem, ch "d");
   (kLegacyReservedFileList, ch "l"); (kLegacyReservedFileListIndex, ch "L"); (kLegacyReservedImageData, ch "#");
   (kLegacyReservedImageBitmap, ch "g"); (kLegacyReservedImageBitmapTransfer, ch "G");
   (kLegacyReservedOffscreenCanvas, ch "H"); (kLegacyReservedCryptoKey, ch "K"); (kLegacyReservedRTCCertificate, ch "k")].
(** Kind of view, code, bytes per element. *)
Definition view_codes : list (vtag * N * N) :=
  [(vInt8, ch "b", 1); (vUint8, ch "B", 1); (vUint8Clamped, ch "C", 1); (vInt16, ch "w", 2); (vUint16, ch "W", 2);
   (vInt32, ch "d", 4); (vUint32, ch "D", 4); (vFloat16, ch "h", 2); (vFloat32, ch "f", 4); (vFloat64, ch "F", 8);
   (vBigInt64, ch "q", 8); (vBigUint64, ch "Q", 8); (vDataView, ch "?", 1)]%N.
(** Prototypes of errors with their names, and the fields. JavaScript's name for the sixth is URIError. *)
Definition prototype_codes : list (etag * N * string) :=
  [(eEvalError, ch "E", "EvalError"); (eRangeError, ch "R", "RangeError"); (eReferenceError, ch "F", "ReferenceError");
   (eSyntaxError, ch "S", "SyntaxError"); (eTypeError, ch "T", "TypeError"); (eUriError, ch "U", "URIError")]%string.
Definition field_codes : list (etag * N) :=
  [(eMessage, ch "m"); (eCause, ch "c"); (eStack, ch "s"); (eEnd, ch ".")].
(** The order of v8.js; 10 is Buffer, a Uint8Array. There is no code for Float16Array. *)
Definition node_codes : list vtag :=
  [vInt8; vUint8; vUint8Clamped; vInt16; vUint16; vInt32; vUint32; vFloat32; vFloat64; vDataView; vUint8; vBigInt64; vBigUint64].
