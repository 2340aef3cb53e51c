(** What has to hold for loads(dumps(x)) == x, for C73. *)
From Coq Require Import List NArith ZArith Bool Arith.
From Verif Require Import Base Dict ModelTags SpecNumber ModelArray ArrayFacts3 ModelValue ModelObject ModelMap ModelBuffer ModelHeap
  ModelDecode ModelEncode SpecEncode ModelTyped SpecTyped ModelViewEq SpecViewEq ModelPyEq.
Import ListNotations.
Open Scope nat_scope.

(** * The dumped and the loaded objects in one memory
    The loaded objects come after the [n] others: their references move by [n]. *)
Section Moved.
Variable n : nat.
Definition moved (v : val) : val := match v with VRef o => VRef (n + o) | _ => v end.
Definition moved_pair (p : val * val) : val * val := (moved (fst p), moved (snd p)).
Definition moved_svz (s : svz) : svz := match s with SId o => SId (n + o) | _ => s end.
Definition moved_arr (a : arr val) : arr val :=
  match a with
  | ADense d => ADense (mkDense (map (option_map moved) (d_items d)) (d_used d))
  | ASparse s => ASparse (mkSparse (map (fun p => (fst p, moved (snd p))) (s_items s)) (s_sorted s) (s_max s))
  end.
Definition moved_jsobj (x : jsobj val) : jsobj val := mkObj (moved_arr (jo_arr x)) (map (fun p => (fst p, moved (snd p))) (jo_props x)).
Definition moved_obj (x : obj) : obj :=
  match x with
  | OMap m => OMap (map (fun p => (moved_svz (fst p), moved_pair (snd p))) m)
  | OSet m => OSet (map (fun p => (moved_svz (fst p), moved (snd p))) m)
  | OObject x => OObject (moved_jsobj x)
  | OArray x => OArray (moved_jsobj x)
  | OError a m s c => OError a m s (moved c)
  | OPrim t v => OPrim t (moved v)
  | OView b v => OView (n + b) v
  | ODict l => ODict (map moved_pair l)
  | OPySet l => OPySet (map moved l)
  | OSeq t l => OSeq t (map moved l)
  | _ => x
  end.
End Moved.
Definition beside (H h : heap) : heap := H ++ map (moved_obj (length H)) h.

(** * The values that come back equal *)
Section Comparable.
Variable narrow : nat -> N -> option N.
Variable cast32 : N -> N.
Variable widen : nat -> N -> N.
Variable float_of : Z -> option N.
Variable py312 : bool.
Variable H : heap.
Variable cfg : ecfg.
Variable dcfg : ModelDecode.dcfg.
(** The values that are compared: those in the graph, except the buffers that only views have. *)
Inductive within (root : val) : val -> Prop :=
| wi_root : within root root
| wi_child o x c : within root (VRef o) -> nth_error H o = Some x -> (forall b v, x <> OView b v) -> In c (children x) -> within root c.
Definition comparable_obj (x : obj) : Prop :=
  match x with
  | OMap _ | OSet _ | OArray _ | OShared _ | OTransfer _ | OSharedRef _ => True
  | OObject x => last (aabs (jo_arr x)) (Some VUndef) <> None               (* no hole at the end *)
  | ODict l =>                                                               (* hashable, different keys *)
      (forall k v, In (k, v) l -> dict_key H k <> None) /\ NoDup (map (fun p => dict_key H (fst p)) l)
  | OPySet l => (forall v, In v l -> dict_key H v <> None) /\ NoDup (map (dict_key H) l)
  | OError n m _ _ => ename_str (for_error_name n) = n /\ m <> None          (* one of JavaScript's names, and a message *)
  | ORegExp _ f => (f < 2 ^ 9)%N                                             (* no flags that JavaScript does not know *)
  | ODate d => forall b, e_timestamp cfg d = inl b -> c_date dcfg b = inl d  (* the date survives as a timestamp *)
  | OBuffer b => jb_resizable b = true -> f_resizable (e_features cfg) = true
  | OView b v => forall l, shows narrow cast32 widen float_of py312 (backing_of H b) v l -> forall x, In x l -> ~ is_nan_item x
  | OPrim _ _ | OSeq _ _ | OBytes _ | OByteArray _ | OOpaque => False
  end.
Definition comparable (root : val) : Prop :=
  (forall b, within root (VFloat b) -> ieee b <> NaN) /\
  (forall o x, within root (VRef o) -> nth_error H o = Some x -> comparable_obj x).
End Comparable.
