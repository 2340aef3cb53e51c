(** loads with other container types: its jsmap_type, jsset_type, js_object_type, js_array_type and
    js_error_builder options, TagReader.__init__ (decode.py:1162-1179).

    The callables are arbitrary functions in the code; here each is the default or the builtin that the
    documentation names (decode.py:1587-1602): dict for Map, Object and Array, set for Set, JSErrorData.builder for
    errors. The reading itself is ModelDecode's, with the container's own update or |=.

    Simplifications: those of ModelDecode; the keys of a dict are compared as in ModelEncode, a NaN is never the key of
    another entry (it is when one Number object that is a NaN is two keys of one Map). [OError] stands for JSErrorData
    too. *)
From Coq Require Import List NArith ZArith Bool.
From Verif Require Import Base ModelTags ModelPrim ModelValue ModelObject ModelMap ModelBuffer ModelHeap ModelDecode ModelEncode.
Import ListNotations.
Open Scope N_scope.

(** Which options are set: jsmap_type=dict, jsset_type=set, js_object_type=dict, js_array_type=dict,
    js_error_builder=JSErrorData.builder *)
Record types : Type := mkTypes { t_map : bool; t_set : bool; t_object : bool; t_array : bool; t_error : bool }.
Definition default_types : types := mkTypes false false false false false.

(** What a value is as a key of a dict: equal keys are one key *)
Definition dkey (h : heap) (k : val) : option hkey := hash h (S (length h)) k.
(** hash(k) does not raise TypeError; every float is hashable *)
Definition hashable (h : heap) (k : val) : bool :=
  match k with VFloat _ => true | _ => match dkey h k with Some _ => true | None => false end end.
Definition same_dkey (key : val -> option hkey) (a b : val) : bool :=
  match key a, key b with Some x, Some y => hkey_eqb x y | _, _ => false end.
(** d[k] = v: the first of equal keys stays *)
Fixpoint dict_put (key : val -> option hkey) (l : list (val * val)) (k v : val) : list (val * val) :=
  match l with
  | [] => [(k, v)]
  | (k', v') :: r => if same_dkey key k k' then (k', v) :: r else (k', v') :: dict_put key r k v
  end.

Section Types.
Variable T : types.
Variable cfg : dcfg.
Variable data : bytes.
Variable version : N.

(** The empty containers that the callables return *)
Definition new_map : obj := if t_map T then ODict [] else OMap [].
Definition new_object : obj := if t_object T then ODict [] else OObject jo_empty.
Definition new_array : obj := if t_array T then ODict [] else OArray jo_empty.
(** One item of container.update(items) *)
Definition tput (h : heap) (acc : obj) (k v : val) : result obj :=
  match acc with
  | ODict l => if hashable h k then Ok (ODict (dict_put (dkey h) l k v)) else Err EType
  | _ => put cfg acc k v
  end.
(** isinstance(key, (int, float, str)), decode.py:586-591 *)
Definition property_key (k : val) : bool := match val_key k with Some _ => true | None => false end.

(** read_jsmap and _read_js_object_properties inside update, as [dec_pairs] *)
Fixpoint tdec_pairs (rec : reader) (is_key : stag -> bool) (key_ok : val -> bool) (endt : stag)
    (fuel : nat) (pos : nat) (acc : obj) (n : N) (st : dstate) : dres (obj * N) :=
  match fuel with
  | O => Err EOutOfFuel
  | S fuel =>
      do '(t, p) <- read_tag data pos;
      if stag_eqb t endt then Ok (acc, n, p, st)
      else if is_key t then
        do '(k, p, st) <- rec t p st;
        if negb (key_ok k) then Err EType
        else
          do '(v, p, st) <- dec_value data rec p st;
          do acc <- tput (ds_heap st) acc k v;
          tdec_pairs rec is_key key_ok endt fuel p acc (n + 1) st
      else Err EDecode
  end.
(** The element loop of read_js_array_dense, as [dec_elems] *)
Fixpoint tdec_elems (rec : reader) (fuel : nat) (count i : N) (pos : nat) (acc : obj) (st : dstate)
  : dres obj :=
  if i =? count then Ok (acc, pos, st)
  else
    match fuel with
    | O => Err EOutOfFuel
    | S fuel =>
        do '(v, p, st) <- dec_value data rec pos st;
        do acc <- tput (ds_heap st) acc (VInt (Z.of_N i)) v;
        tdec_elems rec fuel count (i + 1) p acc st
    end.

(** read_js_error with either builder (jserror.py:98-117, 189-206): JSErrorData keeps a missing message *)
Definition tdec_error (rec : reader) (pos : nat) (st : dstate) : dres val :=
  do '(e, p) <- read_error_tag data pos;
  let name := for_error_tag e in
  do '(e, p) <- (if ename_beq name nError then Ok (e, p) else read_error_tag data p);
  do '(message, e, p, st) <- dec_field data rec eMessage e p st;
  do '(stack, e, p, st) <- dec_field data rec eStack e p st;
  let msg := if t_error T then message else Some (match message with Some m => m | None => [] end) in
  let '(i, st) := alloc_rec (OError (ename_str name) msg stack VNone) st in
  do '(cause, e, p, st) <-
    (if etag_beq e eCause then
       do '(c, p, st) <- dec_value data rec p st;
       do '(e, p) <- read_error_tag data p;
       Ok (c, e, p, st)
     else Ok (VNone, e, p, st));
  do '(stack, e, p, st) <-
    match stack with
    | Some _ => Ok (stack, e, p, st)
    | None => dec_field data rec eStack e p st
    end;
  if etag_beq e eEnd
  then Ok (VRef i, p, store i (OError (ename_str name) msg stack cause) st)
  else Err EDecode.

(** deserialize_jsmap, deserialize_jsset, deserialize_js_object, deserialize_js_array_dense,
    deserialize_js_array_sparse: decode.py:1245-1298 *)
Definition tdec_map (rec : reader) (fuel : nat) (pos : nat) (st : dstate) : dres val :=
  let '(i, st) := alloc_rec new_map st in
  do '(acc, n, p, st) <- tdec_pairs rec (fun _ => true) (fun _ => true) kEndJSMap fuel pos new_map 0 st;
  do p <- check_count data p (2 * n);
  Ok (VRef i, p, store i acc st).
(** set |= generator: set.__ior__ takes only sets and frozensets, and a generator has no __ror__, so |= raises
    TypeError before anything is read *)
Definition tdec_set (rec : reader) (fuel : nat) (pos : nat) (st : dstate) : dres val :=
  if t_set T then Err EType else dec_set data rec fuel pos st.
Definition tdec_object (rec : reader) (fuel : nat) (pos : nat) (st : dstate) : dres val :=
  let '(i, st) := alloc_rec new_object st in
  do '(acc, n, p, st) <- tdec_pairs rec is_object_key property_key kEndJSObject fuel pos new_object 0 st;
  do p <- check_count data p n;
  Ok (VRef i, p, store i acc st).
Definition tdec_dense (rec : reader) (fuel : nat) (pos : nat) (st : dstate) : dres val :=
  let '(i, st) := alloc_rec new_array st in
  do '(count, p) <- read_varint data pos 0;
  do '(acc, p, st) <- tdec_elems rec fuel count 0 p new_array st;
  do '(acc, n, p, st) <- tdec_pairs rec is_object_key property_key kEndDenseJSArray fuel p acc 0 st;
  do p <- check_count data p n;
  do p <- check_count data p count;
  Ok (VRef i, p, store i acc st).
Definition tdec_sparse (rec : reader) (fuel : nat) (pos : nat) (st : dstate) : dres val :=
  let '(i, st) := alloc_rec new_array st in
  do '(len, p) <- read_varint data pos 0;
  do acc <- (if 0 <? len then tput (ds_heap st) new_array (VInt (Z.of_N len - 1)) VHole
             else Ok new_array);
  do '(acc, n, p, st) <- tdec_pairs rec is_object_key property_key kEndSparseJSArray fuel p acc 0 st;
  do p <- check_count data p n;
  do p <- check_count data p len;
  Ok (VRef i, p, store i acc st).

(** decode_object for a tag already read, as [dec] *)
Fixpoint tdec (fuel : nat) (t : stag) (pos : nat) (st : dstate) {struct fuel} : dres val :=
  match fuel with
  | O => Err EOutOfFuel
  | S f =>
      match t with
      | kRegExp => dec_regexp data (tdec f) pos st
      | kBeginJSMap => tdec_map (tdec f) f pos st
      | kBeginJSSet => tdec_set (tdec f) f pos st
      | kBeginJSObject => tdec_object (tdec f) f pos st
      | kBeginDenseJSArray => tdec_dense (tdec f) f pos st
      | kBeginSparseJSArray => tdec_sparse (tdec f) f pos st
      | kError => tdec_error (tdec f) pos st
      | _ => dec cfg data version 1 t pos st      (* these readers read no other values *)
      end
  end.
End Types.

(** loads(data, jsmap_type=..., ...), decode.py:1530-1701 *)
Definition loads_types_at (T : types) (cfg : dcfg) (data : bytes) : result (val * nat * heap) :=
  do '(version, p) <- read_header data 0;
  do '(v, p, st) <- dec_value data (tdec T cfg data version (S (length data))) p ds_empty;
  Ok (v, p, ds_heap st).
Definition loads_types (T : types) (cfg : dcfg) (data : bytes) : result (val * heap) :=
  do '(v, _, h) <- loads_types_at T cfg data; Ok (v, h).
