(** Model of the elements of typed arrays and DataViews as users reach them:
    - JSTypedArray.get_buffer, /repo/src/v8serialize/jstypes/jsbuffers.py:698-714, with the formats of the classes, 716-808
    - BackportJSFloat16Array.get_buffer, jsbuffers.py:810-857, chosen where memoryview has no half floats
    - JSDataView.get_buffer and DataViewBuffer, jsbuffers.py:861-1058
    - JSArrayBuffer.resize while memory is exported, jsbuffers.py:192-213
    - CPython's memoryview: len(), indexing, item assignment (memory_ass_sub, pack_single), release; bytearray refuses to
      change its size while a memoryview of it is open (BufferError)
    Simplifications: the machine is little-endian, as the library assumes; a memoryview is released by the end of its with
    block and not otherwise, and is not used after it (a BackportJSFloat16Array's copy could still be read then); slices of
    memoryviews are not modelled. *)
From Coq Require Import List NArith ZArith Bool.
From Verif Require Import Base ModelTags ModelArray ModelBuffer.
Import ListNotations.
Open Scope Z_scope.

(** data_format of the classes, jsbuffers.py:716-808; JSDataView's is bytes *)
Definition elem_format (t : vtag) : dvfmt :=
  match t with
  | vInt8 => DSigned 1 | vInt16 => DSigned 2 | vInt32 => DSigned 4 | vBigInt64 => DSigned 8
  | vUint8 | vUint8Clamped | vDataView => DUnsigned 1 | vUint16 => DUnsigned 2 | vUint32 => DUnsigned 4 | vBigUint64 => DUnsigned 8
  | vFloat16 => DFloat 2 | vFloat32 => DFloat 4 | vFloat64 => DFloat 8
  end.

(** The object a with block works on. [HHalf] is BackportJSFloat16Array's copy, as binary32 patterns. *)
Inductive handle : Type :=
| HTyped (v : view) (items : Z) (ro : bool)
| HData (v : view) (size : Z) (ro : bool)
| HHalf (v : view) (copy : list N) (ro : bool)
| HClosed.
Record session : Type := mkSession { ss_mem : backing; ss_handles : list handle }.
Inductive top : Type :=
| TOpen (v : view) (ro : bool)           (* view.get_buffer(readonly=...).__enter__() *)
| TClose (h : nat) (raised : bool)       (* the end of the with block, by an exception or not *)
| TLen (h : nat)
| TGet (h : nat) (i : Z)
| TSet (h : nat) (i : Z) (x : dvval)
| TGetData (h : nat) (f : dvfmt) (off : Z) (little : bool)
| TSetData (h : nat) (f : dvfmt) (off : Z) (x : dvval) (little : bool)
| TResize (n : Z).
Inductive tresp : Type :=
| TUnit | THandle (h : nat) | TNum (n : Z) | TVal (x : dvval) | TExn (e : exn)
| TBufferError                           (* BufferError *)
| TMisuse.                               (* an attribute the object does not have *)

Section Typed.
(** struct's conversion from binary64 to a narrower format (None: OverflowError), C's conversion from double to float,
    which has no error, and float(int) (None: OverflowError) *)
Variable narrow : nat -> N -> option N.
Variable cast32 : N -> N.
Variable widen : nat -> N -> N.
Variable float_of : Z -> option N.
(** memoryview supports the format "e" (Python 3.12), jsbuffers.py:853-857 *)
Variable native_half : bool.

Definition vstart (v : view) : Z := vw_offset v * isize (vw_tag v).
(** memoryview's pack_single: the conversion of a value, before anything is written *)
Definition float_item (w : nat) (b : N) : result N :=
  if Nat.eqb w 8 then Ok b else if Nat.eqb w 4 then Ok (cast32 b)
  else match narrow w b with Some p => Ok p | None => Err EValue end.
Definition item_bits (f : dvfmt) (x : dvval) : result N :=
  match f, x with
  | DUnsigned w, DVInt z => if (0 <=? z) && (z <? 2 ^ (8 * Z.of_nat w)) then Ok (Z.to_N z) else Err EValue
  | DSigned w, DVInt z =>
      if (- 2 ^ (8 * Z.of_nat w - 1) <=? z) && (z <? 2 ^ (8 * Z.of_nat w - 1)) then Ok (Z.to_N (z mod 2 ^ (8 * Z.of_nat w)))
      else Err EValue
  | DFloat w, DVFloat b => float_item w b
  | DFloat w, DVInt z => match float_of z with Some b => float_item w b | None => Err EValue end
  | _, DVFloat _ => Err EType
  end.
(** memoryview's index *)
Definition mv_index (n i : Z) : option Z :=
  let j := if i <? 0 then n + i else i in if (0 <=? j) && (j <? n) then Some j else None.
Definition read_at (k : backing) (f : dvfmt) (pos : Z) (little : bool) : dvval :=
  dv_value widen f (of_le (dv_order little (slice (match bk_data k with Some d => d | None => [] end) (Z.to_nat pos) (dv_width f)))).

(** the half floats of a memory, as struct.iter_unpack gives them *)
Fixpoint halves (fuel : nat) (d : bytes) : list N :=
  match fuel, d with
  | S fuel, a :: b :: r => cast32 (widen 2 (of_le [a; b])) :: halves fuel r
  | _, _ => []
  end.
(** get_buffer(), jsbuffers.py:698-714, 819-836, 1051-1058 *)
Definition open_view (k : backing) (v : view) (ro : bool) : handle :=
  let mem := snd (view_memory k v) in
  let ro := ro || vw_readonly v || bk_readonly k || match k with BkInaccessible => true | _ => false end in
  match vw_tag v with
  | vDataView => HData v (zlen mem) ro
  | vFloat16 => if native_half then HTyped v (zlen mem / isize vFloat16) ro else HHalf v (halves (length mem) mem) ro
  | t => HTyped v (zlen mem / isize t) ro
  end.
(** jsbuffers.py:845-850: pack_into writes zeros before it fails *)
Fixpoint write_back (k : backing) (pos : Z) (copy : list N) : option exn * backing :=
  match copy with
  | [] => (None, k)
  | c :: r =>
      match narrow 2 (widen 4 c) with
      | Some p => write_back (bk_write k (Z.to_nat pos) (le_bytes 2 p)) (pos + 2) r
      | None => (Some EOverflow, bk_write k (Z.to_nat pos) (zeros 2))
      end
  end.
Definition is_open (h : handle) : bool := match h with HClosed => false | _ => true end.
Definition set_handle (s : session) (h : nat) (x : handle) : session := mkSession (ss_mem s) (replace_nth h x (ss_handles s)).

Definition trun (s : session) (o : top) : tresp * session :=
  let k := ss_mem s in
  match o with
  | TOpen v ro => (THandle (length (ss_handles s)), mkSession k (ss_handles s ++ [open_view k v ro]))
  | TClose h raised =>
      match nth_error (ss_handles s) h with
      | Some (HHalf v copy ro) =>
          if raised || ro then (TUnit, set_handle s h HClosed)
          else let '(e, k) := write_back k (vstart v) copy in
               (match e with None => TUnit | Some e => TExn e end, mkSession k (replace_nth h HClosed (ss_handles s)))
      | Some _ => (TUnit, set_handle s h HClosed)
      | None => (TMisuse, s)
      end
  | TLen h =>
      match nth_error (ss_handles s) h with
      | Some (HTyped _ n _) | Some (HData _ n _) => (TNum n, s)
      | Some (HHalf _ copy _) => (TNum (Z.of_nat (length copy)), s)
      | Some HClosed => (TExn EValue, s)
      | None => (TMisuse, s)
      end
  | TGet h i =>
      match nth_error (ss_handles s) h with
      | Some (HTyped v n _) =>
          match mv_index n i with
          | Some j => (TVal (read_at k (elem_format (vw_tag v)) (vstart v + j * isize (vw_tag v)) true), s)
          | None => (TExn EIndex, s)
          end
      | Some (HHalf _ copy _) =>
          match mv_index (Z.of_nat (length copy)) i with
          | Some j => (TVal (DVFloat (widen 4 (nth (Z.to_nat j) copy 0%N))), s)
          | None => (TExn EIndex, s)
          end
      | Some HClosed => (TExn EValue, s)
      | _ => (TMisuse, s)
      end
  | TSet h i x =>
      match nth_error (ss_handles s) h with
      | Some (HTyped v n ro) =>
          if ro then (TExn EType, s)
          else match mv_index n i with
          | None => (TExn EIndex, s)
          | Some j =>
              match item_bits (elem_format (vw_tag v)) x with
              | Err e => (TExn e, s)
              | Ok b => (TUnit, mkSession (bk_write k (Z.to_nat (vstart v + j * isize (vw_tag v))) (le_bytes (dv_width (elem_format (vw_tag v))) b))
                                          (ss_handles s))
              end
          end
      | Some (HHalf v copy ro) =>
          if ro then (TExn EType, s)
          else match mv_index (Z.of_nat (length copy)) i with
          | None => (TExn EIndex, s)
          | Some j =>
              match item_bits (DFloat 4) x with
              | Err e => (TExn e, s)
              | Ok b => (TUnit, set_handle s h (HHalf v (replace_nth (Z.to_nat j) b copy) ro))
              end
          end
      | Some HClosed => (TExn EValue, s)
      | _ => (TMisuse, s)
      end
  | TGetData h f off little =>       (* jsbuffers.py:916-927, 942-973 *)
      match nth_error (ss_handles s) h with
      | Some (HData v n _) =>
          if (off <? 0) || (n <? off + Z.of_nat (dv_width f)) then (TExn EBounds, s)
          else (TVal (read_at k f (vstart v + off) little), s)
      | Some HClosed => (TExn EValue, s)
      | _ => (TMisuse, s)
      end
  | TSetData h f off x little =>     (* jsbuffers.py:929-940, 975-1024; see ModelBuffer.dv_set *)
      match nth_error (ss_handles s) h with
      | Some (HData v n ro) =>
          if (off <? 0) || (n <? off + Z.of_nat (dv_width f)) then (TExn EBounds, s)
          else if ro then (TExn EType, s)
          else
            let pos := Z.to_nat (vstart v + off) in
            match dv_bits narrow f x with
            | Err e => (TExn e, mkSession (bk_write k pos (zeros (dv_width f))) (ss_handles s))
            | Ok b => (TUnit, mkSession (bk_write k pos (dv_order little (le_bytes (dv_width f) b))) (ss_handles s))
            end
      | Some HClosed => (TExn EValue, s)
      | _ => (TMisuse, s)
      end
  | TResize n =>
      match k with
      | BkBuffer b =>
          match jsbuf_resize b n with
          | Err e => (TExn e, s)
          | Ok b' =>
              if negb (zlen (jb_data b') =? zlen (jb_data b)) && existsb is_open (ss_handles s) then (TBufferError, s)
              else (TUnit, mkSession (BkBuffer b') (ss_handles s))
          end
      | _ => (TMisuse, s)
      end
  end.
Fixpoint truns (s : session) (ops : list top) : list (top * tresp) * session :=
  match ops with
  | [] => ([], s)
  | o :: r => let '(x, s1) := trun s o in let '(tr, s2) := truns s1 r in ((o, x) :: tr, s2)
  end.
End Typed.
