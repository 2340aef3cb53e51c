(** Objects with identity, as the encoder reads and the decoder builds them. *)
From Coq Require Import List NArith ZArith Bool.
From Verif Require Import Base ModelTags ModelValue ModelObject ModelMap ModelBuffer.
Import ListNotations.
Open Scope N_scope.

(** Code points of a Python str. *)
Notation str := (list N) (only parsing).

(** The Python objects the modelled code distinguishes by isinstance checks.
    The heap is a list of them; a reference is an index of that list.
    - jstypes/jsmap.py, jsset.py, jsobject.py, jsarray.py, jsregexp.py, jserror.py,
      jsprimitiveobject.py, jsbuffers.py, v8serialize/jstypes (V8SharedObjectReference)
    - [ODate] is a datetime, represented by an opaque number that stands for its value
    - [ODict], [OPySet], [OSeq] are the other Mapping, Set and Collection types
    - [OOpaque] is any object no step of the encoder accepts. *)
Inductive obj : Type :=
| OMap (m : jsmap val)
| OSet (m : jsset)
| OObject (o : jsobj val)
| OArray (o : jsobj val)
| ORegExp (source : str) (flags : N)
| OError (name : str) (message stack : option str) (cause : val)
| OPrim (tag : stag) (v : val)
| ODate (d : N)
| OBuffer (b : jsbuf)
| OShared (id : N)
| OTransfer (id : N)
| OView (buffer : nat) (v : view)
| OSharedRef (id : N)
| ODict (l : list (val * val))
| OPySet (l : list val)
| OSeq (tuple : bool) (l : list val)
| OBytes (d : bytes)
| OByteArray (d : bytes)
| OOpaque.

Definition heap : Type := list obj.

(** The memory behind a view, jsbuffers.py:380-470 *)
Definition backing_of (h : heap) (o : nat) : backing :=
  match nth_error h o with
  | Some (OBuffer b) => BkBuffer b
  | Some (OBytes d) => BkBytes d
  | Some (OByteArray d) => BkByteArray d
  | _ => BkInaccessible
  end.
(** isinstance(obj, (JSArrayBuffer, JSSharedArrayBuffer, JSArrayBufferTransfer)) *)
Definition is_buffer (o : obj) : bool :=
  match o with OBuffer _ | OShared _ | OTransfer _ => true | _ => false end.
(** The content of a bytes object, for same_value_zero. *)
Definition heap_bytes (h : heap) (o : nat) : option bytes :=
  match nth_error h o with Some (OBytes d) => Some d | _ => None end.

Fixpoint heap_set (h : heap) (o : nat) (x : obj) : heap :=
  match h, o with
  | [], _ => []
  | _ :: r, O => x :: r
  | y :: r, S o => y :: heap_set r o x
  end.

(** JSErrorName, constants.py:383-404: the string of each name *)
Definition ename_str (n : ename) : str :=
  match n with
  | nEvalError => [69;118;97;108;69;114;114;111;114]
  | nRangeError => [82;97;110;103;101;69;114;114;111;114]
  | nReferenceError => [82;101;102;101;114;101;110;99;101;69;114;114;111;114]
  | nSyntaxError => [83;121;110;116;97;120;69;114;114;111;114]
  | nTypeError => [84;121;112;101;69;114;114;111;114]
  | nUriError => [85;114;105;69;114;114;111;114]
  | nError => [69;114;114;111;114]
  end.
Definition all_enames : list ename :=
  [nEvalError; nRangeError; nReferenceError; nSyntaxError; nTypeError; nUriError; nError].
(** JSErrorName.for_error_name, constants.py:413-422: unknown names are Error *)
Definition for_error_name (s : str) : ename :=
  match find (fun n => listN_eqb (ename_str n) s) all_enames with Some n => n | None => nError end.
(** JSErrorName.for_error_tag, constants.py:424-434 *)
Definition for_error_tag (t : etag) : ename :=
  match t with
  | eEvalError => nEvalError | eRangeError => nRangeError | eReferenceError => nReferenceError
  | eSyntaxError => nSyntaxError | eTypeError => nTypeError | eUriError => nUriError
  | _ => nError
  end.

(** JSRegExp.__post_init__, jstypes/jsregexp.py:33-45: an empty source becomes (?:); the
    unicode (16) and unicode-sets (256) flags exclude each other. *)
Definition regexp_new (source : str) (flags : N) : result obj :=
  let source := match source with [] => [40; 63; 58; 41] | _ => source end in
  if negb (N.land flags 16 =? 0) && negb (N.land flags 256 =? 0) then Err EValue
  else Ok (ORegExp source flags).
