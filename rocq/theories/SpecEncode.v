(** What the encoder is supposed to write: the values that occur in a graph, the invariants of
    the Python classes, and which abstract value of the format (SpecWire) describes a Python value
    when certain objects have been recorded before. *)
From Coq Require Import List NArith ZArith Bool.
From Verif Require Import Base Dict ModelTags SpecPrim SpecNumber ModelLog ModelArray ArrayFacts3 ModelValue ModelObject
  ModelMap MapFacts ModelBuffer BufferFacts ModelHeap SpecWire ModelEncode.
Import ListNotations.
Open Scope N_scope.

(** * Values occurring in a graph *)
(** The own properties of an object: index keys ascending, then string keys in insertion order. *)
Definition named_items (x : jsobj val) : list (val * val) := map (fun p => (VStr (fst p), snd p)) (jo_props x).
Definition own_items (x : jsobj val) : list (val * val) :=
  map (fun p => (VInt (fst p), snd p)) (entries_from 0 (aabs (jo_arr x))) ++ named_items x.
Definition flat (l : list (val * val)) : list val := flat_map (fun p => [fst p; snd p]) l.
(** The elements of an array with JSHole for the holes. *)
Definition elements (x : jsobj val) : list val := map of_elem (aabs (jo_arr x)).

Definition children (x : obj) : list val :=
  match x with
  | OMap m => flat (map snd m)
  | ODict l => flat l
  | OSet m => map snd m
  | OPySet l | OSeq _ l => l
  | OObject x => flat (own_items x)
  | OArray x => elements x ++ flat (own_items x)
  | OError _ _ _ c => match c with VNone => [] | _ => [c] end
  | OView b _ => [VRef b]
  | _ => []
  end.
Inductive occurs (H : heap) (root : val) : val -> Prop :=
| occ_root : occurs H root root
| occ_child o x v : occurs H root (VRef o) -> nth_error H o = Some x -> In v (children x) -> occurs H root v.

(** * The invariants of the classes *)
Definition buffer_like (x : obj) : Prop :=
  match x with OBuffer _ | OBytes _ | OByteArray _ | OShared _ | OTransfer _ => True | _ => False end.
(** Strings that are not array indexes; the keys of [jo_props] are normalised (C38). *)
Definition name_key (s : list N) : Prop := forall fr, normalise_property_key fr (KStr s) = Ok (PStr s).
Definition wf_jsobj (x : jsobj val) : Prop :=
  arr_ok (jo_arr x) /\ NoDup (dkeys (jo_props x)) /\ Forall name_key (dkeys (jo_props x)) /\
  Forall (fun e => e <> Some VHole) (aabs (jo_arr x)) /\ Forall (fun p => snd p <> VHole) (jo_props x) /\
  lenN (aabs (jo_arr x)) < 2 ^ 32.      (* JavaScript's limit; item assignment keeps to it *)
Definition wf_prim (t : stag) (v : val) : Prop :=
  match t, v with
  | kStringObject, VStr s => Forall code_point s
  | kTrueObject, VBool true | kFalseObject, VBool false => True
  | kBigIntObject, VInt z => True
  | kNumberObject, VFloat b => b < 2 ^ 64
  | kNumberObject, VInt z => (Z.abs z < 2 ^ 53)%Z
  | _, _ => False
  end.
Definition opt_all {A} (P : A -> Prop) (x : option A) : Prop := match x with Some x => P x | None => True end.

Section Wf.
Variable H : heap.
Variable cfg : ecfg.
Definition wf_obj (x : obj) : Prop :=
  match x with
  | OMap m => cinv (heap_bytes H) (@fst val val) m
  | OSet m => cinv (heap_bytes H) (fun k : val => k) m
  | OObject x | OArray x => wf_jsobj x
  | ORegExp s f => Forall code_point s /\ exists y, regexp_new s f = Ok y /\ y = ORegExp s f
  | OError n m s _ => opt_all (Forall code_point) m /\ opt_all (Forall code_point) s
  | OPrim t v => wf_prim t v
  | ODate d => forall b, e_timestamp cfg d = inl b -> b < 2 ^ 64
  | OBuffer b => bytes_ok (jb_data b) /\ (zlen (jb_data b) <= jb_max b)%Z /\ (jb_resizable b = false -> jb_max b = zlen (jb_data b))
  | OBytes d | OByteArray d => bytes_ok d
  | OShared id | OTransfer id | OSharedRef id => id < 2 ^ 32      (* JavaScript's ids are 32-bit *)
  | OView b w => view_ok w /\ exists y, nth_error H b = Some y /\ buffer_like y
  | ODict _ | OPySet _ | OSeq _ _ | OOpaque => True
  end.
Definition wf_val (v : val) : Prop :=
  match v with
  | VStr s => Forall code_point s
  | VFloat b => b < 2 ^ 64
  | VRef o => exists x, nth_error H o = Some x /\ wf_obj x
  | _ => True
  end.
(** A well-formed graph: every value that occurs satisfies its class's invariant. *)
Definition wf_graph (root : val) : Prop := forall v, occurs H root v -> wf_val v.
End Wf.

(** * What describes a value *)
(** The double [b] is the integer [z], and not the negative zero. *)
Definition double_is (b : N) (z : Z) : Prop := b < 2 ^ 64 /\ same_number (ieee b) (Finite z 0) /\ b <> 2 ^ 63.
(** Integers: unsigned and signed 32-bit, doubles up to 2^53, then BigInts; as keys, decimal strings. *)
Inductive int_wire (key : bool) (z : Z) : wval -> Prop :=
| iw_uint32 : (0 <= z < 2 ^ 32)%Z -> int_wire key z (WUint32 (Z.to_N z))
| iw_int32 : (- 2 ^ 31 <= z < 0)%Z -> int_wire key z (WInt32 z)
| iw_double b : (z < - 2 ^ 31 \/ 2 ^ 32 <= z)%Z -> (Z.abs z < 2 ^ 53)%Z -> double_is b z -> int_wire key z (WDouble b)
| iw_bigint : (2 ^ 53 <= Z.abs z)%Z -> key = false -> int_wire key z (WBigInt z)
| iw_string s : (2 ^ 53 <= Z.abs z)%Z -> key = true -> znumeral s z -> int_wire key z (WStr kOneByteString s).
Inductive prim_wire : stag -> val -> wval -> Prop :=
| pw_str s : prim_wire kStringObject (VStr s) (WStr kStringObject s)
| pw_true b : prim_wire kTrueObject (VBool b) (WBoolObj true)
| pw_false b : prim_wire kFalseObject (VBool b) (WBoolObj false)
| pw_bigint z : prim_wire kBigIntObject (VInt z) (WBigObj z)
| pw_number b : prim_wire kNumberObject (VFloat b) (WNumObj b)
| pw_int z b : double_is b z -> prim_wire kNumberObject (VInt z) (WNumObj b).
Definition utf8_field (s : option (list N)) : option (stag * list N) :=
  match s with Some s => Some (kUtf8String, s) | None => None end.
Inductive attach (v : wview) : wval -> wval -> Prop :=
| at_buf b : attach v (WBuf b None) (WBuf b (Some v))
| at_ref id : attach v (WRef id None) (WRef id (Some v)).

Section Describes.
Variable H : heap.
Variable cfg : ecfg.
(** Are the reference step and the Node.js step in use? *)
Variables refs node : bool.
(** Which value may be written in place of a value. *)
Variable rep : val -> val -> Prop.
Notation feat := (e_features cfg).

Definition fresh (o : nat) (r : list nat) : Prop := refs = true -> ~ In o r.
Definition wview_of (k : backing) (v : view) : wview :=
  mkWView (vw_tag v) (Z.to_N (view_byte_offset k v)) (Z.to_N (view_byte_length k v))
    ((if bk_resizable k then 2 else 0) + (if view_tracking k v then 1 else 0)).

(** [describes open key v r w r']: [w] describes the value [v] when [r] are the objects recorded
    before, in order, and [r'] those recorded after. [open] are the errors whose cause is being
    written and that must not be referenced; [key] says that [v] is the key of a property. *)
Inductive describes : list nat -> bool -> val -> list nat -> wval -> list nat -> Prop :=
| d_value open key v v0 r w r' : rep v v0 -> writes open key v0 r w r' -> describes open key v r w r'
with writes : list nat -> bool -> val -> list nat -> wval -> list nat -> Prop :=
| wr_ref open key o r sid : refs = true -> nth_error r sid = Some o -> ~ In o open ->
    writes open key (VRef o) r (WRef (N.of_nat sid) None) r
| wr_hole open key r : writes open key VHole r (WConst kTheHole) r
| wr_undef open key r : writes open key VUndef r (WConst kUndefined) r
| wr_none open key r : writes open key VNone r (WConst kNull) r
| wr_bool open key (b : bool) r : writes open key (VBool b) r (WConst (if b then kTrue else kFalse)) r
| wr_int open key z r w : int_wire key z w -> writes open key (VInt z) r w r
| wr_float open key b r : writes open key (VFloat b) r (WDouble b) r
| wr_str open key s r : writes open key (VStr s) r (WStr kUtf8String s) r
| wr_prim open key o t x r w : nth_error H o = Some (OPrim t x) -> fresh o r -> prim_wire t x w ->
    writes open key (VRef o) r w (r ++ [o])
| wr_regexp open key o s f r : nth_error H o = Some (ORegExp s f) -> fresh o r ->
    writes open key (VRef o) r (WRegExp kUtf8String s (N.land f 0x1FF)) r
| wr_error open key o n m s r : nth_error H o = Some (OError n m s VNone) -> fresh o r ->
    writes open key (VRef o) r (WError (ename_tag (for_error_name n)) (utf8_field m) (utf8_field s)) r
| wr_errorc open key o n m s c r w r' : nth_error H o = Some (OError n m s c) -> c <> VNone -> fresh o r ->
    describes (if f_circular feat then open else o :: open) false c (r ++ [o]) w r' ->
    writes open key (VRef o) r (WErrorC (ename_tag (for_error_name n)) (utf8_field m) (utf8_field s) w None) r'
| wr_date open key o d b r : nth_error H o = Some (ODate d) -> fresh o r -> e_timestamp cfg d = inl b ->
    writes open key (VRef o) r (WDate b) (r ++ [o])
| wr_sharedref open key o id r : nth_error H o = Some (OSharedRef id) -> fresh o r ->
    writes open key (VRef o) r (WSharedObj id) (r ++ [o])
| wr_object open key o x r ps r' : nth_error H o = Some (OObject x) -> fresh o r ->
    wpairs_of open true (own_items x) (r ++ [o]) ps r' -> writes open key (VRef o) r (WObject ps) r'
| wr_dense open key o x r vs r1 ps r' : nth_error H o = Some (OArray x) -> fresh o r ->
    wvals_of open (elements x) (r ++ [o]) vs r1 -> wpairs_of open true (named_items x) r1 ps r' ->
    writes open key (VRef o) r (WDense vs ps) r'
| wr_sparse open key o x r ps r' : nth_error H o = Some (OArray x) -> fresh o r ->
    wpairs_of open true (own_items x) (r ++ [o]) ps r' ->
    writes open key (VRef o) r (WSparse (lenN (aabs (jo_arr x))) ps) r'
| wr_map open key o m r ps r' : nth_error H o = Some (OMap m) -> fresh o r ->
    wpairs_of open false (map snd m) (r ++ [o]) ps r' -> writes open key (VRef o) r (WMap ps) r'
| wr_dict open key o l r ps r' : nth_error H o = Some (ODict l) -> fresh o r ->
    wpairs_of open false l (r ++ [o]) ps r' -> writes open key (VRef o) r (WMap ps) r'
| wr_set open key o m r vs r' : nth_error H o = Some (OSet m) -> fresh o r ->
    wvals_of open (map snd m) (r ++ [o]) vs r' -> writes open key (VRef o) r (WSet vs) r'
| wr_pyset open key o l r vs r' : nth_error H o = Some (OPySet l) -> fresh o r ->
    wvals_of open l (r ++ [o]) vs r' -> writes open key (VRef o) r (WSet vs) r'
| wr_seq open key o t l r vs r' : nth_error H o = Some (OSeq t l) -> fresh o r ->
    wvals_of open l (r ++ [o]) vs r' -> writes open key (VRef o) r (WDense vs PNil) r'
| wr_plain open key o b r : nth_error H o = Some (OBuffer b) -> fresh o r ->
    jb_resizable b && f_resizable feat = false ->
    writes open key (VRef o) r (WBuf (BufPlain (jsbuf_view b)) None) (r ++ [o])
| wr_resizable open key o b r : nth_error H o = Some (OBuffer b) -> fresh o r ->
    jb_resizable b && f_resizable feat = true ->
    writes open key (VRef o) r (WBuf (BufResizable (jsbuf_view b) (Z.to_N (jb_max b))) None) (r ++ [o])
| wr_shared open key o id r : nth_error H o = Some (OShared id) -> fresh o r ->
    writes open key (VRef o) r (WBuf (BufShared id) None) (r ++ [o])
| wr_transfer open key o id r : nth_error H o = Some (OTransfer id) -> fresh o r ->
    writes open key (VRef o) r (WBuf (BufTransfer id) None) (r ++ [o])
(* a copy of a bytes object is recorded under an equal object; that matters only with references *)
| wr_bytes open key o o' d r : nth_error H o = Some (OBytes d) -> fresh o r -> (refs = true -> o' = o) ->
    writes open key (VRef o) r (WBuf (BufPlain d) None) (r ++ [o'])
| wr_bytearray open key o d r : nth_error H o = Some (OByteArray d) -> fresh o r ->
    writes open key (VRef o) r (WBuf (BufPlain d) None) (r ++ [o])
| wr_view open key o b v r w r1 w' : nth_error H o = Some (OView b v) -> fresh o r ->
    node = false \/ node_code (vw_tag v) = None -> (vw_tag v = vFloat16 -> f_float16 feat = true) ->
    describes open key (VRef b) r w r1 -> attach (wview_of (backing_of H b) v) w w' ->
    writes open key (VRef o) r w' (r1 ++ [o])
| wr_node open key o b v code r : nth_error H o = Some (OView b v) -> fresh o r ->
    node = true -> node_code (vw_tag v) = Some code ->
    writes open key (VRef o) r (WHost code (snd (view_memory (backing_of H b) v))) r
with wvals_of : list nat -> list val -> list nat -> wvals -> list nat -> Prop :=
| vo_nil open r : wvals_of open [] r VNil r
| vo_cons open v l r w r1 ws r' : describes open false v r w r1 -> wvals_of open l r1 ws r' ->
    wvals_of open (v :: l) r (VCons w ws) r'
with wpairs_of : list nat -> bool -> list (val * val) -> list nat -> wpairs -> list nat -> Prop :=
| po_nil open key r : wpairs_of open key [] r PNil r
| po_cons open key k v l r w1 r1 w2 r2 ws r' :
    describes open key k r w1 r1 -> describes open false v r1 w2 r2 -> wpairs_of open key l r2 ws r' ->
    wpairs_of open key ((k, v) :: l) r (PCons w1 w2 ws) r'.
End Describes.

Scheme describes_ind' := Induction for describes Sort Prop
  with writes_ind' := Induction for writes Sort Prop
  with wvals_of_ind' := Induction for wvals_of Sort Prop
  with wpairs_of_ind' := Induction for wpairs_of Sort Prop.
Scheme describes_mind := Minimality for describes Sort Prop
  with writes_mind := Minimality for writes Sort Prop
  with wvals_of_mind := Minimality for wvals_of Sort Prop
  with wpairs_of_mind := Minimality for wpairs_of Sort Prop.
Combined Scheme describes_mutind from describes_mind, writes_mind, wvals_of_mind, wpairs_of_mind.

(** The values the reference step may write in place of [v]: an equal one (same hash key). *)
Definition equal_value (H : heap) (root v v0 : val) : Prop :=
  v = v0 \/ (hash_key H v <> None /\ hash_key H v = hash_key H v0 /\ occurs H root v0).
