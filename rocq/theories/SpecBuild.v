(** What an abstract value of the format denotes: the Python value and the objects created,
    given the objects and object-log entries that exist before it. *)
From Coq Require Import List NArith ZArith Bool.
From Verif Require Import Base ModelTags ModelValue ModelObject ModelMap ModelBuffer ModelHeap ModelDecode SpecWire.
Import ListNotations.
Open Scope N_scope.

Section Build.
Variable cfg : dcfg.

(** The strings of the four string tags; a String object takes an id. *)
Definition build_str (enc : stag) (s : list N) (st : dstate) : dstate :=
  if stag_eqb enc kStringObject then record (VStr s) st else st.
Definition build_field (f : option (stag * list N)) (st : dstate) : option (list N) * dstate :=
  match f with
  | None => (None, st)
  | Some (enc, s) => (Some s, build_str enc s st)
  end.
Definition build_view (buffer : nat) (v : option wview) (st : dstate) : result (val * dstate) :=
  match v with
  | None => Ok (VRef buffer, st)
  | Some v =>
      do x <- view_from_bytes (wv_tag v) (backing_of (ds_heap st) buffer) (Z.of_N (wv_off v))
                (if N.odd (wv_flags v) then None else Some (Z.of_N (wv_len v))) false;
      let '(i, st) := alloc_rec (OView buffer x) st in Ok (VRef i, st)
  end.
Definition build_buf (b : wbuf) (st : dstate) : nat * dstate :=
  match b with
  | BufPlain d => alloc_rec (OBuffer (mkBuf d (zlen d) false false)) st
  | BufResizable d mx => alloc_rec (OBuffer (mkBuf d (Z.of_N mx) true false)) st
  | BufShared id => alloc (OShared id) st
  | BufTransfer id => alloc (OTransfer id) st
  end.
Definition proto_name (e : option etag) : list N :=
  ename_str (match e with Some e => for_error_tag e | None => nError end).
Definition message_of (m : option (list N)) : option (list N) :=
  Some (match m with Some m => m | None => [] end).
Definition first_some {A} (a b : option A) : option A := match a with Some _ => a | None => b end.

Fixpoint build (w : wval) (st : dstate) {struct w} : result (val * dstate) :=
  match w with
  | WConst t => Ok (c_const cfg t, st)
  | WInt32 z => Ok (VInt z, st)
  | WUint32 n => Ok (VInt (Z.of_N n), st)
  | WDouble b => Ok (VFloat b, st)
  | WBigInt z => Ok (VInt z, st)
  | WStr enc s => Ok (VStr s, build_str enc s st)
  | WBoolObj b => Ok (VBool b, record (VBool b) st)
  | WNumObj b => Ok (VFloat b, record (VFloat b) st)
  | WBigObj z => Ok (VInt z, record (VInt z) st)
  | WDate b =>
      match c_date cfg b with
      | inr e => Err (date_err e)
      | inl d => let '(i, st) := alloc_rec (ODate d) st in Ok (VRef i, st)
      end
  | WRegExp enc s flags =>
      let st := build_str enc s st in
      do o <- regexp_new s flags;
      let '(i, st) := alloc_rec o st in Ok (VRef i, st)
  | WMap ps =>
      let '(i, st) := alloc_rec (OMap []) st in
      do '(o, st) <- build_pairs ps (OMap []) st; Ok (VRef i, store i o st)
  | WSet vs =>
      let '(i, st) := alloc_rec (OSet []) st in
      do '(o, st) <- build_members vs (OSet []) st; Ok (VRef i, store i o st)
  | WObject ps =>
      let '(i, st) := alloc_rec (OObject jo_empty) st in
      do '(o, st) <- build_pairs ps (OObject jo_empty) st; Ok (VRef i, store i o st)
  | WDense vs ps =>
      let '(i, st) := alloc_rec (OArray jo_empty) st in
      do '(o, st) <- build_elems vs 0 (OArray jo_empty) st;
      do '(o, st) <- build_pairs ps o st; Ok (VRef i, store i o st)
  | WSparse len ps =>
      let '(i, st) := alloc_rec (OArray jo_empty) st in
      do o <- (if 0 <? len then put cfg (OArray jo_empty) (VInt (Z.of_N len - 1)) VHole
               else Ok (OArray jo_empty));
      do '(o, st) <- build_pairs ps o st; Ok (VRef i, store i o st)
  | WError name msg stack =>
      let '(m, st) := build_field msg st in
      let '(s, st) := build_field stack st in
      let '(i, st) := alloc_rec (OError (proto_name name) (message_of m) s VNone) st in
      Ok (VRef i, st)
  | WErrorC name msg stack cause late =>
      let '(m, st) := build_field msg st in
      let '(s, st) := build_field stack st in
      let '(i, st) := alloc_rec (OError (proto_name name) (message_of m) s VNone) st in
      do '(c, st) <- build cause st;
      let '(l, st) := build_field late st in
      Ok (VRef i, store i (OError (proto_name name) (message_of m) (first_some s l) c) st)
  | WBuf b v => let '(i, st) := build_buf b st in build_view i v st
  | WRef id v =>
      if id <? lenN (ds_log st) then
        match nth_error (ds_log st) (N.to_nat id), v with
        | Some x, None => Ok (x, st)
        | Some (VRef o), Some _ =>
            match nth_error (ds_heap st) o with
            | Some x => if is_buffer x then build_view o v st else Err EDecode
            | None => Err EDecode
            end
        | _, _ => Err EDecode
        end
      else Err EDecode
  | WSharedObj id => let '(i, st) := alloc_rec (OSharedRef id) st in Ok (VRef i, st)
  | WHost code d =>
      if c_host cfg then
        match node_format code with
        | None => Err ENodeHost
        | Some vt =>
            let '(i, st) := alloc (OBuffer (mkBuf d (zlen d) false false)) st in
            let '(j, st) := alloc (OView i (mkView vt 0 None false)) st in
            Ok (VRef j, st)
        end
      else Err EDecode
  end
with build_pairs (ps : wpairs) (acc : obj) (st : dstate) {struct ps} : result (obj * dstate) :=
  match ps with
  | PNil => Ok (acc, st)
  | PCons k v r =>
      do '(kv, st) <- build k st;
      do '(vv, st) <- build v st;
      do acc <- put cfg acc kv vv;
      build_pairs r acc st
  end
with build_members (vs : wvals) (acc : obj) (st : dstate) {struct vs} : result (obj * dstate) :=
  match vs with
  | VNil => Ok (acc, st)
  | VCons w r =>
      do '(v, st) <- build w st;
      do acc <- put_member acc v;
      build_members r acc st
  end
with build_elems (vs : wvals) (i : N) (acc : obj) (st : dstate) {struct vs} : result (obj * dstate) :=
  match vs with
  | VNil => Ok (acc, st)
  | VCons w r =>
      do '(v, st) <- build w st;
      do acc <- put cfg acc (VInt (Z.of_N i)) v;
      build_elems r (i + 1) acc st
  end.
End Build.
