(** The repr of JSArrayBuffer and of its views: repr_JSArrayBuffer, repr_memoryview, repr_bytearray and repr_bytes,
    /repo/src/v8serialize/jstypes/_repr.py:319-403, and JSArrayBufferView.__repr__, jstypes/jsbuffers.py:634-642.

    Simplified: a repr is the call it shows, not its characters. The repr of a bytes object is an expression for these bytes; when it has been cut
    it contains an ellipsis, which no bytes literal may. Indentation and line breaks are left out; maxstring is not negative. A memoryview
    held by a buffer has format B and one dimension and is not released. Views of shared and transferred buffers are left out. *)
From Coq Require Import List NArith ZArith Bool.
From Verif Require Import Base ModelTags ModelBuffer.
Import ListNotations.
Open Scope Z_scope.

(** b'...', bytearray(...), memoryview(...) *)
Inductive dexpr : Type := EBytes (d : bytes) (cut : bool) | EByteArray (e : dexpr) | EMemoryView (e : dexpr).
(** JSArrayBuffer(data, max_byte_length=, readonly=) *)
Record bcall : Type := mkBcall { bc_data : dexpr; bc_max : option Z; bc_readonly : bool }.

(** repr_bytes, _repr.py:387-403 *)
Definition repr_bytes (maxstring : nat) (d : bytes) (truncated : option bool) : dexpr :=
  match truncated with
  | None => if (maxstring <? length d)%nat then EBytes (firstn maxstring d) true else EBytes d false
  | Some t => EBytes d t
  end.
(** repr_bytearray, _repr.py:377-385 *)
Definition repr_bytearray (maxstring : nat) (d : bytes) (truncated : bool) : dexpr :=
  EByteArray (repr_bytes maxstring (firstn maxstring d) (Some (truncated || (maxstring <? length d)%nat))).
(** repr_memoryview, _repr.py:354-375 *)
Definition repr_memoryview (maxstring : nat) (readonly : bool) (d : bytes) : dexpr :=
  let content := firstn maxstring d in
  let truncated := (length content <? length d)%nat in
  EMemoryView (if readonly then repr_bytes maxstring content (Some truncated) else repr_bytearray maxstring content truncated).
(** repr_JSArrayBuffer, _repr.py:319-352. [held]: the buffer was made with copy_data=False from a memoryview, or from a
    readonly view of a bytearray; otherwise it has its own bytes or bytearray. *)
Definition repr_buffer (maxstring : nat) (held : bool) (b : jsbuf) : bcall :=
  let d := jb_data b in
  mkBcall
    (if held then repr_memoryview maxstring (jb_readonly b) d
     else if jb_readonly b then repr_bytes maxstring d None
     else repr_bytes maxstring (firstn maxstring d) (Some (maxstring <? length d)%nat))
    (if negb (zlen d =? jb_max b) then Some (jb_max b) else None)
    (jb_readonly b).

(** What Python makes of the text. [None]: a SyntaxError *)
Fixpoint eval_data (e : dexpr) : option bytes :=
  match e with
  | EBytes d cut => if cut then None else Some d
  | EByteArray e | EMemoryView e => eval_data e
  end.
Definition eval_buffer (c : bcall) : option (result jsbuf) :=
  match eval_data (bc_data c) with
  | Some d => Some (jsbuf_new d (bc_max c) false (bc_readonly c))
  | None => None
  end.

(** JSUint8Array(buffer, item_offset=, item_length=, readonly=) and the like; what is shown for readonly is an int or None *)
Inductive kexpr : Type := KBytes (d : bytes) | KByteArray (d : bytes) | KBuffer (c : bcall).
Record vcall : Type := mkVcall { vc_tag : vtag; vc_backing : kexpr; vc_offset : option Z; vc_length : option Z; vc_readonly : option (option Z) }.
(** JSArrayBufferView.__repr__, jsbuffers.py:634-642; the value shown for readonly is item_length (line 639) *)
Definition repr_view (maxstring : nat) (held : bool) (k : backing) (v : view) : option vcall :=
  match match k with
        | BkBytes d => Some (KBytes d) | BkByteArray d => Some (KByteArray d)
        | BkBuffer b => Some (KBuffer (repr_buffer maxstring held b)) | BkInaccessible => None
        end with
  | Some e => Some (mkVcall (vw_tag v) e (if vw_offset v =? 0 then None else Some (vw_offset v)) (vw_length v)
                      (if vw_readonly v then Some (vw_length v) else None))
  | None => None
  end.
Definition eval_backing (e : kexpr) : option (result backing) :=
  match e with
  | KBytes d => Some (Ok (BkBytes d))
  | KByteArray d => Some (Ok (BkByteArray d))
  | KBuffer c => match eval_buffer c with Some (Ok b) => Some (Ok (BkBuffer b)) | Some (Err x) => Some (Err x) | None => None end
  end.
(** The constructor with its check of readonly, jsbuffers.py:428-434: [readonly in (True, None)] holds of 1, as 1 == True. *)
Definition eval_view (c : vcall) : option (result (backing * view)) :=
  match eval_backing (vc_backing c) with
  | None => None
  | Some (Err x) => Some (Err x)
  | Some (Ok k) =>
      let offset := match vc_offset c with Some z => z | None => 0 end in
      let readonly := match vc_readonly c with Some (Some z) => Some z | _ => None end in
      Some (match view_new (vc_tag c) offset (vc_length c) (match readonly with Some _ => true | None => false end) with
            | Err x => Err x
            | Ok v => match readonly with Some z => if z =? 1 then Ok (k, v) else Err EValue | None => Ok (k, v) end
            end)
  end.
