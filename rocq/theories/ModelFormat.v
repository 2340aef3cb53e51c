(** The data formats of views and create_view: DataType, DataFormat.resolve, the classes' data_format, ArrayBufferViewStructFormat and create_view,
    /repo/src/v8serialize/jstypes/jsbuffers.py:309-382, 715-810, 1045-1050 and 1061-1159. struct.calcsize of a single format character depends on the platform and is a
    parameter. Simplified: the cache of lookups (jsbuffers.py:1109) is left out, as a lookup always has the same result. *)
From Coq Require Import List NArith ZArith Bool.
From Verif Require Import Base ModelTags ModelBuffer.
Import ListNotations.
Open Scope Z_scope.

(** The characters of struct formats that are used *)
Inductive fchar : Type := Fc | Fb | FB | Fh | FH | Fi | FI | Fl | FL | Fq | FQ | Fe | Ff | Fd.
(** DataType, jsbuffers.py:309-333 *)
Inductive dtype : Type := UnsignedInt | SignedInt | FloatType | BytesType.
Definition struct_formats (t : dtype) : list fchar :=
  match t with
  | UnsignedInt => [FB; FH; FI; FL; FQ]
  | SignedInt => [Fb; Fh; Fi; Fl; Fq]
  | FloatType => [Fe; Ff; Fd]
  | BytesType => [Fc]
  end.
(** DataFormat, jsbuffers.py:336-345; dataclass equality *)
Record dformat : Type := mkFormat { df_length : Z; df_type : dtype; df_char : fchar }.
Definition fchar_eq_dec (a b : fchar) : {a = b} + {a <> b}. Proof. decide equality. Defined.
Definition dtype_eq_dec (a b : dtype) : {a = b} + {a <> b}. Proof. decide equality. Defined.
Definition dformat_eqb (a b : dformat) : bool :=
  (df_length a =? df_length b) && (if dtype_eq_dec (df_type a) (df_type b) then true else false) && (if fchar_eq_dec (df_char a) (df_char b) then true else false).

Section Platform.
Variable calcsize : fchar -> Z.

(** DataFormat.resolve, jsbuffers.py:347-382 *)
Definition resolve (t : dtype) (byte_length : Z) : result dformat :=
  match find (fun c => calcsize c =? byte_length) (struct_formats t) with
  | Some c => Ok (mkFormat byte_length t c)
  | None => Err EValue
  end.
(** The arguments of resolve in each class, jsbuffers.py:719-807 and 1049 *)
Definition class_format (t : vtag) : dtype * Z :=
  match t with
  | vInt8 => (SignedInt, 1) | vUint8 | vUint8Clamped => (UnsignedInt, 1)
  | vInt16 => (SignedInt, 2) | vUint16 => (UnsignedInt, 2)
  | vInt32 => (SignedInt, 4) | vUint32 => (UnsignedInt, 4)
  | vFloat16 => (FloatType, 2) | vFloat32 => (FloatType, 4) | vFloat64 => (FloatType, 8)
  | vBigInt64 => (SignedInt, 8) | vBigUint64 => (UnsignedInt, 8)
  | vDataView => (BytesType, 1)
  end.
Definition data_format (t : vtag) : result dformat := resolve (fst (class_format t)) (snd (class_format t)).
(** The members of ArrayBufferViewStructFormat in order, jsbuffers.py:1090-1107 *)
Definition members : list vtag :=
  [vInt8; vUint8; vUint8Clamped; vInt16; vUint16; vInt32; vUint32; vFloat16; vFloat32; vFloat64; vBigInt64; vBigUint64; vDataView].
(** What create_view takes for its format *)
Inductive formatarg : Type := ByTag (t : vtag) | ByFormat (f : dformat) | ByMember (t : vtag).
(** ArrayBufferViewStructFormat(arg): _missing_, jsbuffers.py:1108-1115 *)
Definition lookup (a : formatarg) : result vtag :=
  match a with
  | ByMember t => Ok t
  | ByTag t => match find (fun m => (vtag_byte m =? vtag_byte t)%N) members with Some m => Ok m | None => Err EValue end
  | ByFormat f => match find (fun m => match data_format m with Ok g => dformat_eqb g f | Err _ => false end) members with Some m => Ok m | None => Err EValue end
  end.
(** create_view, jsbuffers.py:1124-1159 *)
Definition create_view (k : backing) (a : formatarg) (byte_offset : Z) (byte_length : option Z) (readonly : bool) : result view :=
  do t <- lookup a; view_from_bytes t k byte_offset byte_length readonly.
End Platform.
