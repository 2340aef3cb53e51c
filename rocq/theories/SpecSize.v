(** How much there is to write in a graph: the bytes that the content of each value and of each object
    accounts for, by its own text, bytes and entries. It mentions no encoder. *)
From Coq Require Import List NArith ZArith Bool.
From Verif Require Import Base ModelTags SpecPrim ModelArray ArrayFacts3 ModelValue ModelObject ModelMap ModelBuffer ModelHeap SpecEncode ModelDecode.
Import ListNotations.
Open Scope N_scope.

(** The bytes of a number in base 128; a logarithm. *)
Definition width (n : N) : N := N.max 1 ((N.size n + 6) / 7).
(** The UTF-8 length of a string. *)
Definition char_size (c : N) : N := if c <? 0x80 then 1 else if c <? 0x800 then 2 else if c <? 0x10000 then 3 else 4.
Fixpoint sum (l : list N) : N := match l with [] => 0 | n :: r => n + sum r end.
Definition utf8_size (s : list N) : N := sum (map char_size s).
(** A string with a tag and its length. *)
Definition text (s : list N) : N := 1 + width (utf8_size s) + utf8_size s.
Definition field (s : option (list N)) : N := match s with Some s => 1 + text s | None => 0 end.
(** An integer: constant up to 2^53, then an eighth of its bits. *)
Definition int_size (z : Z) : N := 9 + N.size (Z.abs_N z) / 8.

Section Size.
Variable H : heap.
Variable node : bool.

(** What each occurrence of a value accounts for: numbers and strings, a reference to an object, and the
    objects that have no identity in the format: regular expressions, errors without a cause and the views that
    the Node.js step writes. *)
Definition item (v : val) : N :=
  match v with
  | VInt z => int_size z
  | VFloat _ => 9
  | VStr s => text s
  | VRef o =>
      1 + width (lenN H) +
      match nth_error H o with
      | Some (ORegExp s _) => 3 + text s
      | Some (OError _ m s VNone) => 3 + field m + field s
      | Some (OView b v) => if node then 11 + lenN (snd (view_memory (backing_of H b) v)) else 0
      | _ => 0
      end
  | _ => 1
  end.
Definition items (l : list val) : N := sum (map item l).

(** What an object accounts for once: its bytes and entries. The length of an array that is not in its
    entries, the holes, counts only with its logarithm. *)
Definition content (x : obj) : N :=
  match x with
  | OArray a => 2 + 2 * width (lenN (elements a)) + width (lenN (own_items a)) + 4 * lenN (own_items a) + items (flat (own_items a))
  | OMap _ | ODict _ | OSet _ | OPySet _ | OSeq _ _ | OObject _ =>
      3 + 2 * width (lenN (children x)) + items (children x)
  | OError _ m s c => 4 + field m + field s + items (children x)
  | OView _ _ => 13 + items (children x)
  | OPrim _ v => item v
  | ODate _ => 9
  | OSharedRef _ | OShared _ | OTransfer _ => 6
  | OBuffer b => 11 + lenN (jb_data b)
  | OBytes d | OByteArray d => 6 + lenN d
  | ORegExp _ _ | OOpaque => 0
  end.
Definition object (o : nat) : N := match nth_error H o with Some x => content x | None => 0 end.
End Size.

(** An array is sparse if writing its indexes is estimated to take less than one byte for each hole. *)
Definition mostly_holes (l : list val) : Prop :=
  let used := lenN (filter (fun v => match v with VHole => false | _ => true end) l) in
  used * (if lenN l <? 2 ^ 14 then 3 else 4) < lenN l - used.
