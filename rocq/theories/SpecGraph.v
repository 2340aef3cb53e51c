(** When a decoded graph stands for the graph that was encoded. *)
From Coq Require Import List NArith ZArith Bool.
From Verif Require Import Base Dict ModelTags SpecNumber SpecArray ModelArray ArrayFacts3 ModelValue SpecKey SpecMap ModelObject
  ModelMap ModelBuffer BufferFacts ModelHeap ModelDecode ModelEncode SpecEncode.
Import ListNotations.
Open Scope N_scope.

(** Values without identity. Integers within 32 bits, and beyond the safe range, are themselves; the others
    become the equal double. *)
Inductive leaf_image : val -> val -> Prop :=
| li_hole : leaf_image VHole VHole
| li_undef : leaf_image VUndef VUndef
| li_none : leaf_image VNone VNone
| li_bool b : leaf_image (VBool b) (VBool b)
| li_int z : (- 2 ^ 31 <= z < 2 ^ 32 \/ 2 ^ 53 <= Z.abs z)%Z -> leaf_image (VInt z) (VInt z)
| li_double z b : (z < - 2 ^ 31 \/ 2 ^ 32 <= z)%Z -> (Z.abs z < 2 ^ 53)%Z -> double_is b z -> leaf_image (VInt z) (VFloat b)
| li_float b : leaf_image (VFloat b) (VFloat b)
| li_str s : leaf_image (VStr s) (VStr s).
(** Wrapper objects become their values; a number object holding an int becomes the equal double. *)
Inductive unwrapped : stag -> val -> val -> Prop :=
| uw_same t x : (t = kNumberObject -> forall z, x <> VInt z) -> unwrapped t x x
| uw_number z b : double_is b z -> unwrapped kNumberObject (VInt z) (VFloat b).

Section Image.
(** The encoded and the decoded objects, and the configurations. *)
Variables H h : heap.
Variable cfg : ecfg.
Variable dcfg : ModelDecode.dcfg.
(** Is the Node.js step in use? *)
Variable node : bool.
(** Which value may be written in place of a value. *)
Variable rep : val -> val -> Prop.
(** Which decoded value stands for an object. *)
Variable R : nat -> val -> Prop.

Definition image (v v' : val) : Prop :=
  exists v0, rep v v0 /\ match v0 with VRef o => R o v' | _ => leaf_image v0 v' end.
Definition pair_image (a b : val * val) : Prop := image (fst a) (fst b) /\ image (snd a) (snd b).
(** Property names do not change. *)
Definition prop_image (a b : val * val) : Prop := fst a = fst b /\ image (snd a) (snd b).

Definition keeps_resizable (b : jsbuf) : bool := jb_resizable b && f_resizable (e_features cfg).
Definition plain_copy (d : bytes) (b : jsbuf) : Prop := b = mkBuf d (zlen d) false false.
(** A view decoded as a view of the same buffer: the same window. It is length-tracking if it was. *)
Definition same_window (b : nat) (v : view) (k : nat) (v' : view) : Prop :=
  image (VRef b) (VRef k) /\ vw_tag v' = vw_tag v /\
  view_byte_offset (backing_of h k) v' = view_byte_offset (backing_of H b) v /\
  view_memory (backing_of h k) v' = view_memory (backing_of H b) v /\
  (vw_length v' = None <-> view_tracking (backing_of H b) v = true) /\ view_ok v'.
(** A view decoded from a Node.js host object: a view of a buffer of its own with the visible bytes. *)
Definition own_copy (b : nat) (v : view) (k : nat) (v' : view) : Prop :=
  vw_tag v' = vw_tag v /\ vw_offset v' = 0%Z /\
  (exists bf, nth_error h k = Some (OBuffer bf) /\ plain_copy (snd (view_memory (backing_of H b) v)) bf) /\
  view_memory (backing_of h k) v' = (true, snd (view_memory (backing_of H b) v)).

(** The content [y] of a decoded object stands for the object [x]. *)
Definition cell_image (x y : obj) : Prop :=
  match x, y with
  | OMap m, OMap m' => Forall2 pair_image (map snd m) (map snd m')
  | ODict l, OMap m' => Forall2 pair_image l (map snd m')
  | OSet m, OSet m' => Forall2 image (map snd m) (map snd m')
  | OPySet l, OSet m' => Forall2 image l (map snd m')
  | OObject x, OObject y =>                                   (* no hole at the end *)
      Forall2 prop_image (own_items x) (own_items y) /\ arr_ok (jo_arr y) /\ last (aabs (jo_arr y)) (Some VUndef) <> None
  | OArray x, OArray y =>
      Forall2 image (elements x) (elements y) /\ Forall2 prop_image (named_items x) (named_items y) /\ arr_ok (jo_arr y) /\ ~ In (Some VHole) (aabs (jo_arr y))
  | OSeq _ l, OArray y => Forall2 image l (elements y) /\ named_items y = []
  | ORegExp s f, ORegExp s' f' => s' = s /\ f' = N.land f 0x1FF
  | OError n m s c, OError n' m' s' c' =>
      n' = ename_str (for_error_name n) /\ m' = Some (match m with Some m => m | None => [] end) /\ s' = s /\ image c c'
  | ODate d, ODate d' => exists b, e_timestamp cfg d = inl b /\ c_date dcfg b = inl d'
  | OBuffer b, OBuffer b' =>
      b' = if keeps_resizable b then mkBuf (jb_data b) (jb_max b) true false else mkBuf (jb_data b) (zlen (jb_data b)) false false
  | OBytes d, OBuffer b' | OByteArray d, OBuffer b' => plain_copy d b'
  | OShared i, OShared i' | OTransfer i, OTransfer i' | OSharedRef i, OSharedRef i' => i' = i
  | OView b v, OView k v' =>
      match (if node then node_code (vw_tag v) else None) with
      | Some _ => own_copy b v k v'
      | None => same_window b v k v'
      end
  | _, _ => False
  end.
Definition object_image (x : obj) (v' : val) : Prop :=
  match x with
  | OPrim t p => unwrapped t p v'
  | _ => exists j y, v' = VRef j /\ nth_error h j = Some y /\ cell_image x y
  end.
End Image.

(** [R] carries the graph of [root] over to the graph of [v']: the root goes to the root, and every decoded
    value that [R] gives for an object has the parts of that object, carried over by [R]. *)
Definition carries (H h : heap) cfg dcfg node rep (root v' : val) (R : nat -> val -> Prop) : Prop :=
  image rep R root v' /\
  forall o u, R o u -> exists x, nth_error H o = Some x /\ object_image H h cfg dcfg node rep R x u.
(** One decoded object per object, and different ones for different objects. *)
Definition one_to_one (R : nat -> val -> Prop) : Prop :=
  (forall o u u', R o u -> R o u' -> u = u') /\ (forall o o' j, R o (VRef j) -> R o' (VRef j) -> o = o').

(** * What can be carried over *)
Section Able.
Variable H : heap.
Variable cfg : ecfg.
Variable dcfg : ModelDecode.dcfg.
Variable node : bool.
Variable rep : val -> val -> Prop.
(** The key of a Map or Set as it is decoded, except that objects stand for themselves. *)
Definition unwrap (v : val) : val :=
  match v with
  | VRef o => match nth_error H o with Some (OPrim _ x) => x | _ => v end
  | _ => v
  end.
(** The decoded keys are different for JavaScript (wrappers decode to plain values, see the refuted
    theorems) and none is an int too large for float(), on which the decoder raises OverflowError. *)
Definition keys_apart (l : list val) : Prop :=
  (forall i j a b a0 b0, nth_error l i = Some a -> nth_error l j = Some b -> i <> j -> rep a a0 -> rep b b0 ->
     ~ js_same no_bytes (unwrap a0) (unwrap b0)) /\
  (forall a a0, In a l -> rep a a0 -> ~ huge (unwrap a0)).
Definition able_obj (x : obj) : Prop :=
  match x with
  | OMap m => keys_apart (map (fun p => fst (snd p)) m)
  | ODict l => keys_apart (map fst l)
  | OSet m => keys_apart (map snd m)
  | OPySet l => keys_apart l
  | OSeq _ l => lenN l < 2 ^ 32                                (* JavaScript's array length *)
  | ODate d => forall b, e_timestamp cfg d = inl b -> exists d', c_date dcfg b = inl d'
  | OView b v =>
      match (if node then node_code (vw_tag v) else None) with
      | Some _ => True
      | None =>
          (exists d, bk_data (backing_of H b) = Some d /\
             (view_tracking (backing_of H b) v = true ->
                (exists bf, nth_error H b = Some (OBuffer bf) /\ keeps_resizable cfg bf = true) \/ (zlen d mod isize (vw_tag v) = 0)%Z)) /\
          view_in_range (backing_of H b) v = true
      end
  | _ => True
  end.
Definition able (root : val) : Prop := forall o x, occurs H root (VRef o) -> nth_error H o = Some x -> able_obj x.
(** No two hashable values that occur are equal in Python (and of one type) yet different. *)
Definition no_equals (root : val) : Prop :=
  forall a b, occurs H root a -> occurs H root b -> hash_key H a <> None -> hash_key H a = hash_key H b -> a = b.
End Able.
