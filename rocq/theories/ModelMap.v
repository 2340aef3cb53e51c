(** Models of /repo/src/v8serialize/jstypes/jsmap.py and jsset.py. The private dict is an association
    list keyed by the same-value-zero surrogate; == on surrogates is [svz_eqb]. Binary set operators,
    __eq__ against other types and repr are not modelled. *)
From Coq Require Import List NArith ZArith Bool.
From Verif Require Import Base Dict ModelValue SpecMap.
Import ListNotations.
Open Scope Z_scope.

Section Map.
Context {V : Type}.
Variable bytes_of : nat -> option bytes.
Notation svz_of := (same_value_zero bytes_of).

(** self.__dict, jsmap.py:136 *)
Definition jsmap : Type := list (svz * (val * V)).

(** __setitem__, jsmap.py:189-190 *)
Definition jm_set (m : jsmap) (k : val) (v : V) : result jsmap :=
  do s <- svz_of k; Ok (dset svz_eqb s (k, v) m).
(** __delitem__, jsmap.py:192-193 *)
Definition jm_del (m : jsmap) (k : val) : result jsmap :=
  do s <- svz_of k; if dmem svz_eqb s m then Ok (ddel svz_eqb s m) else Err EKey.
(** __getitem__, jsmap.py:195-196 *)
Definition jm_get (m : jsmap) (k : val) : result V :=
  do s <- svz_of k; match dget svz_eqb s m with Some p => Ok (snd p) | None => Err EKey end.
(** get, jsmap.py:281-282 *)
Definition jm_get_default (m : jsmap) (k : val) (d : V) : result V :=
  do s <- svz_of k; Ok (match dget svz_eqb s m with Some p => snd p | None => d end).
(** Mapping.__contains__ *)
Definition jm_contains (m : jsmap) (k : val) : result bool :=
  match jm_get m k with Ok _ => Ok true | Err EKey => Ok false | Err e => Err e end.
(** __iter__ and __len__, jsmap.py:198-202 *)
Definition jm_iter (m : jsmap) : list val := map (fun p => fst (snd p)) m.
Definition jm_len (m : jsmap) : Z := Z.of_nat (length m).
(** ItemsView.__iter__: [for key in self: yield (key, self[key])] *)
Fixpoint jm_items_of (m : jsmap) (ks : list val) : result (list (val * V)) :=
  match ks with
  | [] => Ok []
  | k :: r => do v <- jm_get m k; do l <- jm_items_of m r; Ok ((k, v) :: l)
  end.
Definition jm_items (m : jsmap) : result (list (val * V)) := jm_items_of m (jm_iter m).
(** update, jsmap.py:256-273: dict.update over a generator stores entries until the generator raises *)
Fixpoint jm_update (m : jsmap) (ps : list (val * V)) : result unit * jsmap :=
  match ps with
  | [] => (Ok tt, m)
  | (k, v) :: r =>
      match jm_set m k v with
      | Ok m => jm_update m r
      | Err e => (Err e, m)
      end
  end.

(** The operations, with those inherited from MutableMapping: pop, popitem, setdefault. *)
Definition jm_op (m : jsmap) (o : kop V) : kresp V * jsmap :=
  match o with
  | KSet k v => match jm_set m k v with Ok m => (KUnit, m) | Err e => (KExn e, m) end
  | KDel k => match jm_del m k with Ok m => (KUnit, m) | Err e => (KExn e, m) end
  | KGet k => (match jm_get m k with Ok v => KVal v | Err e => KExn e end, m)
  | KGetDefault k d => (match jm_get_default m k d with Ok v => KVal v | Err e => KExn e end, m)
  | KContains k => (match jm_contains m k with Ok b => KBool b | Err e => KExn e end, m)
  | KIter => (KKeys (jm_iter m), m)
  | KItems => (match jm_items m with Ok l => KEntries l | Err e => KExn e end, m)
  | KLen => (KNum (jm_len m), m)
  | KPop k =>
      match jm_get m k with
      | Ok v => match jm_del m k with Ok m => (KVal v, m) | Err e => (KExn e, m) end
      | Err e => (KExn e, m)
      end
  | KPopItem =>
      match jm_iter m with
      | [] => (KExn EKey, m)
      | k :: _ =>
          match jm_get m k with
          | Ok v => match jm_del m k with Ok m => (KItem k v, m) | Err e => (KExn e, m) end
          | Err e => (KExn e, m)
          end
      end
  | KSetDefault k v =>
      match jm_get m k with
      | Ok x => (KVal x, m)
      | Err EKey => match jm_set m k v with Ok m => (KVal v, m) | Err e => (KExn e, m) end
      | Err e => (KExn e, m)
      end
  | KUpdate ps => match jm_update m ps with (Ok _, m) => (KUnit, m) | (Err e, m) => (KExn e, m) end
  | KClear => (KUnit, [])     (* jsmap.py:244-245 *)
  end.
Fixpoint jm_ops (m : jsmap) (ops : list (kop V)) : list (kop V * kresp V) * jsmap :=
  match ops with
  | [] => ([], m)
  | o :: rest => let '(r, m1) := jm_op m o in let '(tr, m2) := jm_ops m1 rest in ((o, r) :: tr, m2)
  end.
End Map.
Arguments jsmap : clear implicits.

Section Set_.
Variable bytes_of : nat -> option bytes.
Notation svz_of := (same_value_zero bytes_of).

(** self.__members, jsset.py:115 *)
Definition jsset : Type := list (svz * val).
(** add, jsset.py:128-129 *)
Definition js_add (m : jsset) (k : val) : result jsset := do s <- svz_of k; Ok (dset svz_eqb s k m).
(** discard, jsset.py:131-134 *)
Definition js_discard (m : jsset) (k : val) : result jsset :=
  do s <- svz_of k; Ok (if dmem svz_eqb s m then ddel svz_eqb s m else m).
(** __contains__, jsset.py:136-137 *)
Definition js_contains (m : jsset) (k : val) : result bool := do s <- svz_of k; Ok (dmem svz_eqb s m).
(** __iter__ and __len__, jsset.py:167-171 *)
Definition js_iter (m : jsset) : list val := map snd m.
Definition js_len (m : jsset) : Z := Z.of_nat (length m).
(** __ior__, jsset.py:180-182; also the constructor *)
Fixpoint js_union (m : jsset) (ks : list val) : result unit * jsset :=
  match ks with
  | [] => (Ok tt, m)
  | k :: r => match js_add m k with Ok m => js_union m r | Err e => (Err e, m) end
  end.
(** With MutableSet.remove ([if value not in self: raise KeyError; self.discard(value)]) and
    MutableSet.pop ([value = next(iter(self)); self.discard(value)]). *)
Definition js_op (m : jsset) (o : sop) : sresp * jsset :=
  match o with
  | SAdd k => match js_add m k with Ok m => (SUnit, m) | Err e => (SExn e, m) end
  | SDiscard k => match js_discard m k with Ok m => (SUnit, m) | Err e => (SExn e, m) end
  | SRemove k =>
      match js_contains m k with
      | Err e => (SExn e, m)
      | Ok false => (SExn EKey, m)
      | Ok true => match js_discard m k with Ok m => (SUnit, m) | Err e => (SExn e, m) end
      end
  | SContains k => (match js_contains m k with Ok b => SBoolean b | Err e => SExn e end, m)
  | SIter => (SMembers (js_iter m), m)
  | SLen => (SCount (js_len m), m)
  | SPop =>
      match js_iter m with
      | [] => (SExn EKey, m)
      | k :: _ => match js_discard m k with Ok m => (SMember k, m) | Err e => (SExn e, m) end
      end
  | SClear => (SUnit, [])     (* jsset.py:177-178 *)
  | SUnion ks => match js_union m ks with (Ok _, m) => (SUnit, m) | (Err e, m) => (SExn e, m) end
  end.
Fixpoint js_ops (m : jsset) (ops : list sop) : list (sop * sresp) * jsset :=
  match ops with
  | [] => ([], m)
  | o :: rest => let '(r, m1) := js_op m o in let '(tr, m2) := js_ops m1 rest in ((o, r) :: tr, m2)
  end.
End Set_.
