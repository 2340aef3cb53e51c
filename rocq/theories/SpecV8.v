(** How V8 numbers the objects of a document, and the graph it makes of the document's references.

    V8's ValueSerializer gives an id to every JSReceiver when it starts to write it
    (ValueSerializer::WriteJSReceiver), and its ValueDeserializer to every object when it starts to read it
    (next_id_++ in ReadJSObject, ReadJSRegExp, ReadJSError, ReadJSArrayBuffer, ReadTransferredJSArrayBuffer,
    ReadHostObject, ...). In particular host objects, shared array buffers and transferred array buffers have one.
    V8 writes plain strings where this grammar also has String objects (regexps, errors, keys), so the ids of
    those are of no interest here; shared values ([WSharedObj], an experiment of V8) are numbered as this
    library does. *)
From Coq Require Import List NArith ZArith Bool.
From Verif Require Import Base ModelTags ModelValue ModelObject ModelMap ModelBuffer ModelHeap ModelDecode SpecWire SpecBuild.
Import ListNotations.
Open Scope N_scope.

(** How many ids V8 gives out for a value. *)
Fixpoint v8_size (w : wval) : N :=
  match w with
  | WConst _ | WInt32 _ | WUint32 _ | WDouble _ | WBigInt _ => 0
  | WHost _ _ => 1
  | WStr enc _ => str_ids enc
  | WBoolObj _ | WNumObj _ | WBigObj _ | WDate _ | WSharedObj _ => 1
  | WRegExp enc _ _ => str_ids enc + 1
  | WMap ps | WObject ps | WSparse _ ps => 1 + v8_size_pairs ps
  | WSet vs => 1 + v8_size_vals vs
  | WDense vs ps => 1 + v8_size_vals vs + v8_size_pairs ps
  | WError _ m s => field_ids m + field_ids s + 1
  | WErrorC _ m s c l => field_ids m + field_ids s + 1 + v8_size c + field_ids l
  | WBuf _ v => 1 + view_ids v
  | WRef _ v => view_ids v
  end
with v8_size_vals (vs : wvals) : N :=
  match vs with VNil => 0 | VCons w r => v8_size w + v8_size_vals r end
with v8_size_pairs (ps : wpairs) : N :=
  match ps with PNil => 0 | PCons k v r => v8_size k + v8_size v + v8_size_pairs r end.

(** The ids of the host objects and the shared and transferred buffers of a value, if [n] ids were given out
    before it. *)
Fixpoint unnumbered (w : wval) (n : N) {struct w} : list N :=
  match w with
  | WHost _ _ | WBuf (BufShared _) _ | WBuf (BufTransfer _) _ => [n]
  | WMap ps | WObject ps | WSparse _ ps => unnumbered_pairs ps (n + 1)
  | WSet vs => unnumbered_vals vs (n + 1)
  | WDense vs ps => unnumbered_vals vs (n + 1) ++ unnumbered_pairs ps (n + 1 + v8_size_vals vs)
  | WErrorC _ m s c _ => unnumbered c (n + field_ids m + field_ids s + 1)
  | _ => []
  end
with unnumbered_vals (vs : wvals) (n : N) {struct vs} : list N :=
  match vs with VNil => [] | VCons w r => unnumbered w n ++ unnumbered_vals r (n + v8_size w) end
with unnumbered_pairs (ps : wpairs) (n : N) {struct ps} : list N :=
  match ps with
  | PNil => []
  | PCons k v r => unnumbered k n ++ unnumbered v (n + v8_size k) ++ unnumbered_pairs r (n + v8_size k + v8_size v)
  end.

(** The ids that occur as references. *)
Fixpoint referenced (w : wval) : list N :=
  match w with
  | WRef id _ => [id]
  | WMap ps | WObject ps | WSparse _ ps => referenced_pairs ps
  | WSet vs => referenced_vals vs
  | WDense vs ps => referenced_vals vs ++ referenced_pairs ps
  | WErrorC _ _ _ c _ => referenced c
  | _ => []
  end
with referenced_vals (vs : wvals) : list N :=
  match vs with VNil => [] | VCons w r => referenced w ++ referenced_vals r end
with referenced_pairs (ps : wpairs) : list N :=
  match ps with PNil => [] | PCons k v r => referenced k ++ referenced v ++ referenced_pairs r end.

(** No reference is to a host object or a shared or transferred buffer, or to an object after one. *)
Definition refers_before (w : wval) : Prop :=
  forall id u, In id (referenced w) -> In u (unnumbered w 0) -> id < u.

(** * The graph V8 makes
    [v8_build] is [build] (SpecBuild) with V8's ids: the objects are represented as this library does, and
    a reference is to the object that V8 numbered so. Values without parts are as in [build], except for
    host objects and the two kinds of buffer. *)
Section Build.
Variable cfg : dcfg.
Definition v8_build_buf (b : wbuf) (st : dstate) : nat * dstate :=
  match b with
  | BufShared id => alloc_rec (OShared id) st
  | BufTransfer id => alloc_rec (OTransfer id) st
  | b => build_buf b st
  end.
Fixpoint v8_build (w : wval) (st : dstate) {struct w} : result (val * dstate) :=
  match w with
  | WMap ps =>
      let '(i, st) := alloc_rec (OMap []) st in
      do '(o, st) <- v8_build_pairs ps (OMap []) st; Ok (VRef i, store i o st)
  | WSet vs =>
      let '(i, st) := alloc_rec (OSet []) st in
      do '(o, st) <- v8_build_members vs (OSet []) st; Ok (VRef i, store i o st)
  | WObject ps =>
      let '(i, st) := alloc_rec (OObject jo_empty) st in
      do '(o, st) <- v8_build_pairs ps (OObject jo_empty) st; Ok (VRef i, store i o st)
  | WDense vs ps =>
      let '(i, st) := alloc_rec (OArray jo_empty) st in
      do '(o, st) <- v8_build_elems vs 0 (OArray jo_empty) st;
      do '(o, st) <- v8_build_pairs ps o st; Ok (VRef i, store i o st)
  | WSparse len ps =>
      let '(i, st) := alloc_rec (OArray jo_empty) st in
      do o <- (if 0 <? len then put cfg (OArray jo_empty) (VInt (Z.of_N len - 1)) VHole
               else Ok (OArray jo_empty));
      do '(o, st) <- v8_build_pairs ps o st; Ok (VRef i, store i o st)
  | WErrorC name msg stack cause late =>
      let '(m, st) := build_field msg st in
      let '(s, st) := build_field stack st in
      let '(i, st) := alloc_rec (OError (proto_name name) (message_of m) s VNone) st in
      do '(c, st) <- v8_build cause st;
      let '(l, st) := build_field late st in
      Ok (VRef i, store i (OError (proto_name name) (message_of m) (first_some s l) c) st)
  | WBuf b v => let '(i, st) := v8_build_buf b st in build_view i v st
  | WHost code d =>
      if c_host cfg then
        match node_format code with
        | None => Err ENodeHost
        | Some vt =>
            let '(i, st) := alloc (OBuffer (mkBuf d (zlen d) false false)) st in
            let '(j, st) := alloc_rec (OView i (mkView vt 0 None false)) st in
            Ok (VRef j, st)
        end
      else Err EDecode
  | w => build cfg w st
  end
with v8_build_pairs (ps : wpairs) (acc : obj) (st : dstate) {struct ps} : result (obj * dstate) :=
  match ps with
  | PNil => Ok (acc, st)
  | PCons k v r =>
      do '(kv, st) <- v8_build k st;
      do '(vv, st) <- v8_build v st;
      do acc <- put cfg acc kv vv;
      v8_build_pairs r acc st
  end
with v8_build_members (vs : wvals) (acc : obj) (st : dstate) {struct vs} : result (obj * dstate) :=
  match vs with
  | VNil => Ok (acc, st)
  | VCons w r =>
      do '(v, st) <- v8_build w st;
      do acc <- put_member acc v;
      v8_build_members r acc st
  end
with v8_build_elems (vs : wvals) (i : N) (acc : obj) (st : dstate) {struct vs} : result (obj * dstate) :=
  match vs with
  | VNil => Ok (acc, st)
  | VCons w r =>
      do '(v, st) <- v8_build w st;
      do acc <- put cfg acc (VInt (Z.of_N i)) v;
      v8_build_elems r (i + 1) acc st
  end.

(** The outcome of reading a document as V8 numbers it: the value and its objects. *)
Definition v8_graph (w : wval) : result (val * heap) :=
  do '(v, st) <- v8_build w ds_empty; Ok (v, ds_heap st).
End Build.

(** * Writing
    The objects to which dumps gives an id, as V8 does: not regexps and errors without a cause. *)
Definition numbered_obj (x : obj) : Prop :=
  match x with
  | ORegExp _ _ => False
  | OError _ _ _ c => c <> VNone
  | _ => True
  end.
