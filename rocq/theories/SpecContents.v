(** What the containers of a document contain: the values of its entries, read in order, assigned one
    after the other to an empty container. *)
From Coq Require Import List NArith ZArith Bool.
From Verif Require Import Base ModelValue SpecArray SpecObject SpecObjectUse SpecKey SpecMap SpecWire ModelObject ModelMap ModelHeap
  ModelDecode SpecBuild ModelObjectUse.
Import ListNotations.
Open Scope Z_scope.

Section Contents.
Variable cfg : dcfg.

(** Reading entries and values in order; each may refer to objects of those before. *)
Inductive pairs_read : wpairs -> dstate -> list (val * val) -> dstate -> Prop :=
| pr_nil st : pairs_read PNil st [] st
| pr_cons k v r st kv st1 vv st2 l st3 :
    build cfg k st = Ok (kv, st1) -> build cfg v st1 = Ok (vv, st2) -> pairs_read r st2 l st3 ->
    pairs_read (PCons k v r) st ((kv, vv) :: l) st3.
Inductive values_read : wvals -> dstate -> list val -> dstate -> Prop :=
| vr_nil st : values_read VNil st [] st
| vr_cons w r st v st1 l st2 :
    build cfg w st = Ok (v, st1) -> values_read r st1 l st2 -> values_read (VCons w r) st (v :: l) st2.

(** A value used as an object key. *)
Inductive as_key : val -> key -> Prop :=
| ak_str s : as_key (VStr s) (KStr s)
| ak_int z : as_key (VInt z) (KInt z)
| ak_float b : as_key (VFloat b) (KFloat b).
(** An element that is JSHole is no element. *)
Inductive as_element : val -> option val -> Prop :=
| ae_hole : as_element VHole None
| ae_value v : v <> VHole -> as_element v (Some v).
(** The entries with their keys as indexes and names (C38). *)
Definition assignments (items : list (val * val)) (qs : list (pkey * option val)) : Prop :=
  Forall2 (fun a b => (exists k, as_key (fst a) k /\ normalise_property_key (c_float_repr cfg) k = Ok (fst b)) /\
                      as_element (snd a) (snd b)) items qs.

(** However it is used (C64), the object answers as one with the elements [l] and the named properties [d]. *)
Definition shows (o : jsobj val) (l : list (option val)) (d : list (list N * val)) : Prop :=
  exists left old, forall ops tr u', use_ops (c_float_repr cfg) (mkUse o left) ops = (tr, u') ->
    map fst tr = ops /\ exists st', uspecs (normalise_property_key (c_float_repr cfg)) (mkUState l d old) tr st'.
(** The same for maps and sets (C39, C40). *)
Definition map_shows (m : jsmap val) (l : list (val * val)) : Prop :=
  forall ops tr m', jm_ops no_bytes m ops = (tr, m') -> exists l', kspecs no_bytes l tr l'.
Definition set_shows (m : jsset) (l : list val) : Prop :=
  forall ops tr m', js_ops no_bytes m ops = (tr, m') -> exists l', sspecs no_bytes l tr l'.

(** The state with one more object, still empty, that takes the next reference id. *)
Definition begun (x : obj) (st : dstate) : dstate :=
  mkD (ds_heap st ++ [x]) (ds_log st ++ [VRef (length (ds_heap st))]).

Fixpoint numbered (k : N) (l : list val) : list (val * val) :=
  match l with [] => [] | v :: r => (VInt (Z.of_N k), v) :: numbered (k + 1) r end.
(** The elements and named properties after the assignments [qs] to an object with elements [l]. *)
Definition result_of (l : list (option val)) (qs : list (pkey * option val)) : list (option val) * list (list N * val) :=
  let st := store_all (mkUState l [] None) qs in (elems st, named st).
Definition shows_result (o : jsobj val) (l : list (option val)) (qs : list (pkey * option val)) : Prop :=
  shows o (fst (result_of l qs)) (snd (result_of l qs)).

(** [filled w st x]: the object [x] contains what the container [w], read in the state [st], says. *)
Inductive filled : wval -> dstate -> obj -> Prop :=
| fl_object ps st items st1 qs o :
    pairs_read ps (begun (OObject jo_empty) st) items st1 -> assignments items qs -> shows_result o [] qs ->
    filled (WObject ps) st (OObject o)
| fl_dense vs ps st values st1 items st2 qs o :
    values_read vs (begun (OArray jo_empty) st) values st1 -> pairs_read ps st1 items st2 ->
    assignments (numbered 0 values ++ items) qs -> shows_result o [] qs ->
    filled (WDense vs ps) st (OArray o)
(* a length that no array can have is ignored *)
| fl_sparse len ps st items st1 qs o :
    pairs_read ps (begun (OArray jo_empty) st) items st1 -> assignments items qs ->
    shows_result o (if (len <? 2 ^ 32)%N then repeat None (N.to_nat len) else []) qs ->
    filled (WSparse len ps) st (OArray o)
| fl_map ps st items st1 l m :
    pairs_read ps (begun (OMap []) st) items st1 -> put_entries no_bytes [] items l -> map_shows m l ->
    filled (WMap ps) st (OMap m)
| fl_set vs st values st1 l m :
    values_read vs (begun (OSet []) st) values st1 -> add_members no_bytes [] values l -> set_shows m l ->
    filled (WSet vs) st (OSet m).
End Contents.

(** The containers, and what is inside a value. *)
Definition is_container (w : wval) : Prop :=
  match w with WMap _ | WSet _ | WObject _ | WDense _ _ | WSparse _ _ => True | _ => False end.
Inductive part (w : wval) : wval -> Prop :=
| pt_self : part w w
| pt_map ps : part_pairs w ps -> part w (WMap ps)
| pt_set vs : part_vals w vs -> part w (WSet vs)
| pt_object ps : part_pairs w ps -> part w (WObject ps)
| pt_dense_values vs ps : part_vals w vs -> part w (WDense vs ps)
| pt_dense_pairs vs ps : part_pairs w ps -> part w (WDense vs ps)
| pt_sparse n ps : part_pairs w ps -> part w (WSparse n ps)
| pt_cause n m s c l : part w c -> part w (WErrorC n m s c l)
with part_vals (w : wval) : wvals -> Prop :=
| pv_here v r : part w v -> part_vals w (VCons v r)
| pv_later v r : part_vals w r -> part_vals w (VCons v r)
with part_pairs (w : wval) : wpairs -> Prop :=
| pp_key k v r : part w k -> part_pairs w (PCons k v r)
| pp_value k v r : part w v -> part_pairs w (PCons k v r)
| pp_later k v r : part_pairs w r -> part_pairs w (PCons k v r).
Definition container (x : obj) : Prop :=
  match x with OMap _ | OSet _ | OObject _ | OArray _ => True | _ => False end.
