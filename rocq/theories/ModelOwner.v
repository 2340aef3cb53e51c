(** Model of who owns the memory of a JSArrayBuffer: /repo/src/v8serialize/jstypes/jsbuffers.py:126-238 and get_buffer,
    /repo/src/v8serialize/_pycompat/typing.py:63-80, among bytes, bytearrays and memoryviews. A program is a sequence of
    operations on its variables. Simplified: memoryviews have format "B" and one dimension, indexes are not negative, slices
    are taken of memoryviews only, and variables are never dropped (dropping a memoryview releases it). *)
From Coq Require Import List NArith ZArith Bool.
From Verif Require Import Base ModelArray ModelBuffer.
Import ListNotations.
Open Scope Z_scope.

(** A bytes ([k_mut] = false) or bytearray object. *)
Record block : Type := mkBlock { k_data : bytes; k_mut : bool }.
(** A memoryview: its block, window, readonly flag, whether it is not yet released, and the JSArrayBuffer variable whose
    own memoryview it exports (Python 3.12 and later: memoryview.__buffer__ makes a new managed buffer over the memoryview). *)
Record mview : Type := mkMview { w_blk : nat; w_off : nat; w_len : nat; w_ro : bool; w_live : bool; w_over : option nat }.
(** JSArrayBuffer._data, jsbuffers.py:98 *)
Inductive bdata : Type := BdBlock (b : nat) | BdView (w : mview).
Inductive pyvar : Type :=
| PvBlock (b : nat)
| PvView (w : mview)
| PvBuffer (d : bdata) (max_byte_length : Z) (resizable : bool).
Record mstate : Type := mkMs { s_blocks : list block; s_vars : list pyvar }.
Definition ms_start : mstate := mkMs [] [].

(** Arguments of JSArrayBuffer(...), jsbuffers.py:126-135. An int given as data is a byte_length, 136-138. *)
Record newbuf : Type := mkNew { na_data : option nat; na_length : option Z; na_max : option Z; na_resizable : option bool;
  na_copy : option bool; na_readonly : option bool }.

Inductive mop : Type :=
| MBytes (d : bytes)                       (* bytes(d) *)
| MByteArray (d : bytes)                   (* bytearray(d) *)
| MView (h : nat)                          (* memoryview(h) *)
| MSlice (h a b : nat)                     (* h[a:b] of a memoryview *)
| MToReadonly (h : nat)                    (* h.toreadonly() *)
| MRelease (h : nat)                       (* h.release() *)
| MSetByte (h i : nat) (x : N)             (* h[i] = x *)
| MExtend (h : nat) (d : bytes)            (* h.extend(d) *)
| MTruncate (h n : nat)                    (* del h[n:] *)
| MBuffer (a : newbuf)                     (* JSArrayBuffer(...) *)
| MResize (h : nat) (n : Z)                (* h.resize(n) *)
| MData (h : nat)                          (* h.data *)
| MClose (h : nat).                        (* h.close(), and leaving a with block *)
(** MNew: a new variable, numbered after the existing ones. *)
Inductive mout : Type := MNew | MDone | MErr (e : exn) | MBufferError.

Definition blk (st : mstate) (b : nat) : block := nth b (s_blocks st) (mkBlock [] false).
Definition mem (st : mstate) (w : mview) : bytes := slice (k_data (blk st (w_blk w))) (w_off w) (w_len w).
Definition whole (st : mstate) (b : nat) : mview := mkMview b 0 (length (k_data (blk st b))) (negb (k_mut (blk st b))) true None.

(** The memoryviews that are not released; each keeps its bytearray from changing its size. Slices and copies of a memoryview
    hold the same export (CPython, memoryobject.c, mbuf_add_view). *)
Definition var_view (x : pyvar) : option mview :=
  match x with PvView w | PvBuffer (BdView w) _ _ => if w_live w then Some w else None | _ => None end.
Definition live_views (st : mstate) : list mview :=
  flat_map (fun x => match var_view x with Some w => [w] | None => [] end) (s_vars st).
Definition locked (st : mstate) (b : nat) : bool := existsb (fun w => Nat.eqb (w_blk w) b) (live_views st).
Definition exported (st : mstate) (h : nat) : bool :=
  existsb (fun w => match w_over w with Some p => Nat.eqb p h | None => false end) (live_views st).

Definition add_var (st : mstate) (x : pyvar) : mstate * mout := (mkMs (s_blocks st) (s_vars st ++ [x]), MNew).
Definition add_block (st : mstate) (k : block) : mstate := mkMs (s_blocks st ++ [k]) (s_vars st).
Definition set_var (st : mstate) (h : nat) (x : pyvar) : mstate := mkMs (s_blocks st) (replace_nth h x (s_vars st)).
Definition set_data (st : mstate) (b : nat) (d : bytes) : mstate :=
  mkMs (replace_nth b (mkBlock d (k_mut (blk st b))) (s_blocks st)) (s_vars st).
(** changing the length of a bytearray; BufferError while it is exported. CPython, bytearrayobject.c, _canresize *)
Definition set_length (st : mstate) (b : nat) (d : bytes) : mstate * mout :=
  if Nat.eqb (length d) (length (k_data (blk st b))) then (set_data st b d, MDone)
  else if locked st b then (st, MBufferError) else (set_data st b d, MDone).

Definition dead (w : mview) : mview := mkMview (w_blk w) (w_off w) (w_len w) (w_ro w) false (w_over w).
Definition bd_len (st : mstate) (d : bdata) : nat := match d with BdBlock b => length (k_data (blk st b)) | BdView w => w_len w end.

Section Python.
(** Python 3.12 or later: JSArrayBuffer is a Buffer (PEP 688) and memoryview has __buffer__. *)
Variable py312 : bool.

(** data and __buffer__, jsbuffers.py:215-218, 237-238: get_buffer(self._data)[: self.max_byte_length] *)
Definition buffer_view (st : mstate) (h : nat) (d : bdata) (mx : Z) : option mview :=
  match d with
  | BdBlock b => Some (mkMview b 0 (Nat.min (Z.to_nat mx) (length (k_data (blk st b)))) (negb (k_mut (blk st b))) true None)
  | BdView w =>
      if w_live w then Some (mkMview (w_blk w) (w_off w) (Nat.min (Z.to_nat mx) (w_len w)) (w_ro w) true (if py312 then Some h else w_over w))
      else None
  end.

(** The argument data as bytes-like object, without copying: memoryview, or the bytes or bytearray itself. *)
Inductive source : Type := SrcBlock (b : nat) | SrcView (w : mview) | SrcErr (e : exn) | SrcBuffer (w : mview).
Definition source_of (st : mstate) (h : nat) : source :=
  match nth_error (s_vars st) h with
  | Some (PvBlock b) => SrcBlock b
  (* data = data[:], jsbuffers.py:151-155 *)
  | Some (PvView w) => if w_live w then SrcView w else SrcErr EValue
  | Some (PvBuffer d mx _) => if py312 then match buffer_view st h d mx with Some w => SrcBuffer w | None => SrcErr EValue end else SrcErr EType
  | None => SrcErr EType
  end.
Definition source_bytes (st : mstate) (s : source) : bytes :=
  match s with SrcBlock b => k_data (blk st b) | SrcView w | SrcBuffer w => mem st w | SrcErr _ => [] end.
Definition ro_view (w : mview) : mview := mkMview (w_blk w) (w_off w) (w_len w) true true (w_over w).

(** __init__, jsbuffers.py:139-164: _data and the state with the memory that was allocated *)
Definition choose_data (st : mstate) (a : newbuf) (copy readonly : bool) : result (bdata * mstate) :=
  let fresh d := (BdBlock (length (s_blocks st)), add_block st (mkBlock d (negb readonly))) in
  match (match na_length a with Some _ => None | None => na_data a end) with
  | Some h =>
      match source_of st h with
      (* a JSArrayBuffer is not Sized: the assertion at line 166 fails when it is wrapped as is *)
      | SrcErr e => match nth_error (s_vars st) h with Some (PvBuffer _ _ _) => if copy || readonly then Err e else Err EAssert | _ => Err e end
      | s =>
          if copy then Ok (fresh (source_bytes st s))
          else match s with
               | SrcBlock b => Ok (if readonly && k_mut (blk st b) then BdView (ro_view (whole st b)) else BdBlock b, st)
               | SrcView w => Ok (BdView (if readonly then ro_view w else w), st)
               | SrcBuffer w => if readonly then Ok (BdView (ro_view w), st) else Err EAssert
               | SrcErr e => Err e
               end
      end
  | None =>
      let n := match na_length a with Some n => n | None => 0 end in
      if (n <? 0) && negb readonly then Err EValue else Ok (fresh (zeros (Z.to_nat n)))
  end.
Definition new_buffer (st : mstate) (a : newbuf) : mstate * mout :=
  let resizable := match na_resizable a with Some true => true | _ => match na_max a with Some _ => true | None => false end end in
  let copy := match na_copy a with Some c => c | None => true end in
  let readonly := match na_readonly a with Some r => r | None => false end in
  if resizable && readonly then (st, MErr EValue)
  else
    match choose_data st a copy readonly with
    | Err e => (st, MErr e)
    | Ok (d, st1) =>
        let len := bd_len st1 d in
        let mx := match na_max a with Some m => m | None => Z.of_nat len end in
        if resizable && negb (match d with BdBlock b => k_mut (blk st1 b) | BdView _ => false end) then (st, MErr EValue)
        else if mx <? Z.of_nat len then (st, MErr EByteLength)
        else add_var st1 (PvBuffer d mx resizable)
    end.

(** One operation. Operations that the variable does not have raise. *)
Definition mstep (st : mstate) (o : mop) : mstate * mout :=
  match o with
  | MBytes d => add_var (add_block st (mkBlock d false)) (PvBlock (length (s_blocks st)))
  | MByteArray d => add_var (add_block st (mkBlock d true)) (PvBlock (length (s_blocks st)))
  | MView h =>
      match source_of st h with
      | SrcBlock b => add_var st (PvView (whole st b))
      | SrcView w | SrcBuffer w => add_var st (PvView w)
      | SrcErr e => (st, MErr e)
      end
  | MSlice h a b =>
      match nth_error (s_vars st) h with
      | Some (PvView w) =>
          if w_live w then
            let a := Nat.min a (w_len w) in
            let b := Nat.min b (w_len w) in
            add_var st (PvView (mkMview (w_blk w) (w_off w + a) (b - a) (w_ro w) true (w_over w)))
          else (st, MErr EValue)
      | _ => (st, MErr EType)
      end
  | MToReadonly h =>
      match nth_error (s_vars st) h with
      | Some (PvView w) => if w_live w then add_var st (PvView (ro_view w)) else (st, MErr EValue)
      | _ => (st, MErr EType)
      end
  | MRelease h =>
      match nth_error (s_vars st) h with
      | Some (PvView w) => (set_var st h (PvView (dead w)), MDone)
      | _ => (st, MErr EType)
      end
  | MSetByte h i x =>
      match nth_error (s_vars st) h with
      | Some (PvBlock b) =>
          if negb (k_mut (blk st b)) then (st, MErr EType)
          else if Nat.ltb i (length (k_data (blk st b))) then
            if (x <? 256)%N then (set_data st b (replace_nth i x (k_data (blk st b))), MDone) else (st, MErr EValue)
          else (st, MErr EIndex)
      | Some (PvView w) =>
          if negb (w_live w) then (st, MErr EValue)
          else if w_ro w then (st, MErr EType)
          else if Nat.ltb i (w_len w) then
            if (x <? 256)%N then (set_data st (w_blk w) (replace_nth (w_off w + i) x (k_data (blk st (w_blk w)))), MDone) else (st, MErr EValue)
          else (st, MErr EIndex)
      | _ => (st, MErr EType)
      end
  | MExtend h d =>
      match nth_error (s_vars st) h with
      | Some (PvBlock b) => if k_mut (blk st b) then set_length st b (k_data (blk st b) ++ d) else (st, MErr EType)
      | _ => (st, MErr EType)
      end
  | MTruncate h n =>
      match nth_error (s_vars st) h with
      | Some (PvBlock b) => if k_mut (blk st b) then set_length st b (firstn n (k_data (blk st b))) else (st, MErr EType)
      | _ => (st, MErr EType)
      end
  | MBuffer a => new_buffer st a
  (* resize, jsbuffers.py:192-213 *)
  | MResize h n =>
      match nth_error (s_vars st) h with
      | Some (PvBuffer d mx resizable) =>
          if negb resizable then (st, MErr EByteLength)
          else if negb ((0 <=? n) && (n <=? mx)) then (st, MErr EByteLength)
          else match d with
               | BdBlock b =>
                   let cur := k_data (blk st b) in
                   set_length st b (if Nat.ltb (length cur) (Z.to_nat n) then cur ++ zeros (Z.to_nat n - length cur) else firstn (Z.to_nat n) cur)
               | BdView _ => (st, MErr EAssert)
               end
      | _ => (st, MErr EType)
      end
  | MData h =>
      match nth_error (s_vars st) h with
      | Some (PvBuffer d mx _) => match buffer_view st h d mx with Some w => add_var st (PvView w) | None => (st, MErr EValue) end
      | _ => (st, MErr EType)
      end
  (* close, jsbuffers.py:232-235 *)
  | MClose h =>
      match nth_error (s_vars st) h with
      | Some (PvBuffer (BdBlock _) _ _) => (st, MDone)
      | Some (PvBuffer (BdView w) mx r) =>
          if w_live w && exported st h then (st, MBufferError) else (set_var st h (PvBuffer (BdView (dead w)) mx r), MDone)
      | _ => (st, MErr EType)
      end
  end.

(** A program from a state: the last state, and each operation with its outcome. *)
Fixpoint mrun (st : mstate) (ops : list mop) : mstate * list (mop * mout) :=
  match ops with
  | [] => (st, [])
  | o :: r => let '(st1, x) := mstep st o in let '(st2, l) := mrun st1 r in (st2, (o, x) :: l)
  end.
End Python.

(** What the program reads from a variable, bytes(v) or bytes(v.data); None for a released memoryview. *)
Definition contents (st : mstate) (v : nat) : option bytes :=
  match nth_error (s_vars st) v with
  | Some (PvBlock b) => Some (k_data (blk st b))
  | Some (PvView w) => if w_live w then Some (mem st w) else None
  | Some (PvBuffer (BdBlock b) mx _) => Some (firstn (Z.to_nat mx) (k_data (blk st b)))
  | Some (PvBuffer (BdView w) mx _) => if w_live w then Some (firstn (Z.to_nat mx) (mem st w)) else None
  | None => None
  end.
(** The attributes max_byte_length and resizable of a JSArrayBuffer, jsbuffers.py:99-102, and type(v). *)
Definition max_byte_length (st : mstate) (v : nat) : option Z :=
  match nth_error (s_vars st) v with Some (PvBuffer _ mx _) => Some mx | _ => None end.
Definition is_resizable (st : mstate) (v : nat) : bool :=
  match nth_error (s_vars st) v with Some (PvBuffer _ _ r) => r | _ => false end.
Inductive pytype : Type := TBytes | TByteArray | TMemoryView | TArrayBuffer.
Definition type_of (st : mstate) (v : nat) : option pytype :=
  match nth_error (s_vars st) v with
  | Some (PvBlock b) => Some (if k_mut (blk st b) then TByteArray else TBytes)
  | Some (PvView _) => Some TMemoryView
  | Some (PvBuffer _ _ _) => Some TArrayBuffer
  | None => None
  end.
