(** Model of == and hash() of buffers and their views:
    - JSArrayBufferView.__eq__ and __hash__, /repo/src/v8serialize/jstypes/jsbuffers.py:609-632, over the blocks that
      get_buffer(readonly=True) opens (ModelTyped.open_view)
    - DataViewBuffer's dataclass equality, jsbuffers.py:860-902, with its __buffer__, which Python uses from 3.12
    - JSArrayBuffer's dataclass equality and hash over (_data, max_byte_length, resizable), jsbuffers.py:59-101
    - JSSharedArrayBuffer's and JSArrayBufferTransfer's, jsbuffers.py:245-289
    - CPython's memoryview comparison (memory_richcompare, cmp_base, unpack_cmp): the same shape, and item by item the
      numbers that the formats give, compared with ==
    Simplifications: hash() of a bytes object, and of a tuple of three values, are the oracles [hash_bytes] and
    [hash_three]; JSArrayBuffers made with copy_data=False are not modelled. *)
From Coq Require Import List NArith ZArith Bool.
From Verif Require Import Base SpecNumber ModelTags ModelArray ModelValue ModelBuffer ModelTyped.
Import ListNotations.
Open Scope Z_scope.

(** Python's == of two ints or floats, exact *)
Definition number_of_item (x : dvval) : number := match x with DVInt z => Finite z 0 | DVFloat b => ieee b end.
Definition num_eqb (a b : number) : bool :=
  match a, b with
  | Infinite s, Infinite s' => Bool.eqb s s'
  | Finite m e, Finite m' e' => let '(q, x) := canon m e in let '(q', x') := canon m' e' in (q =? q') && (x =? x')
  | _, _ => false
  end.
(** cmp_base for one dimension, after equiv_shape *)
Fixpoint mv_eq (a b : list dvval) : bool :=
  match a, b with
  | [], [] => true
  | x :: a, y :: b => num_eqb (number_of_item x) (number_of_item y) && mv_eq a b
  | _, _ => false
  end.

Section Eq.
Variable cast32 : N -> N.
Variable widen : nat -> N -> N.
(** Python 3.12 or later: memoryview has half floats, and objects with __buffer__ are buffers *)
Variable py312 : bool.

(** the items of the memoryview of a block: memoryview.tolist(). A DataViewBuffer's memoryview has the items of its bytes. *)
Definition block_items (k : backing) (h : handle) : list dvval :=
  match h with
  | HTyped v n _ =>
      map (fun j => read_at widen k (elem_format (vw_tag v)) (vstart v + Z.of_nat j * isize (vw_tag v)) true) (seq 0 (Z.to_nat n))
  | HData v n _ => map (fun j => read_at widen k (DUnsigned 1) (vstart v + Z.of_nat j) true) (seq 0 (Z.to_nat n))
  | HHalf _ copy _ => map (fun c => DVFloat (widen 4 c)) copy
  | HClosed => []
  end.
Definition is_data (h : handle) : bool := match h with HData _ _ _ => true | _ => false end.
(** self_data == value_data. A memoryview and a DataViewBuffer: DataViewBuffer.__eq__ gives NotImplemented for another
    class, so memoryview's decides, which needs the other to be a buffer; without it both give NotImplemented. *)
Definition blocks_eq (k : backing) (h : handle) (k' : backing) (h' : handle) : bool :=
  if Bool.eqb (is_data h) (is_data h') || py312 then mv_eq (block_items k h) (block_items k' h') else false.
(** What a view is compared with: a view over its own backing buffer, or any other value *)
Inductive operand : Type := AView (k : backing) (v : view) | AnyOther.
(** __eq__, jsbuffers.py:609-622; [same]: they are one object. For another value it gives NotImplemented, and the other's
    __eq__ knows no views, so the operator answers by identity. *)
Definition view_eq (k : backing) (v : view) (same : bool) (o : operand) : bool :=
  if same then true
  else match o with
  | AView k' v' => blocks_eq k (open_view cast32 widen py312 k v true) k' (open_view cast32 widen py312 k' v' true)
  | AnyOther => false
  end.
End Eq.

Section Hash.
Variable hash_bytes : bytes -> Z.
(** hash() of memoryviews: only of read-only ones over memory that can be hashed, which bytearrays cannot. A view's
    readonly flag is not enough. The memory of inaccessible buffers is that of b"". *)
Definition mem_hashable (k : backing) : bool := match k with BkInaccessible => true | _ => bk_readonly k end.
(** __hash__, jsbuffers.py:624-632; bytearrays make hash() raise TypeError or ValueError *)
Definition view_hash (k : backing) (v : view) : result Z :=
  if mem_hashable k then Ok (hash_bytes (snd (view_memory k v))) else Err EType.

Variable hash_three : Z -> Z -> Z -> Z.
(** JSArrayBuffer == JSArrayBuffer. bytes and bytearray objects with the same bytes are equal. *)
Definition buffer_eq (b c : jsbuf) : bool :=
  listN_eqb (jb_data b) (jb_data c) && (jb_max b =? jb_max c) && Bool.eqb (jb_resizable b) (jb_resizable c).
(** hash((_data, max_byte_length, resizable)); ints and bools are their own hashes *)
Definition buffer_hash (b : jsbuf) : result Z :=
  if jb_readonly b then Ok (hash_three (hash_bytes (jb_data b)) (jb_max b) (if jb_resizable b then 1 else 0)) else Err EType.
End Hash.
