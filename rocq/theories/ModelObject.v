(** Model of /repo/src/v8serialize/jstypes/jsobject.py (JSObject, shared by JSArray).
    [option T]: [None] is JSHole. Mutating methods return the state they leave even when they raise. *)
From Coq Require Import List NArith ZArith Bool.
From Verif Require Import Base Dict SpecArray ModelArray ModelValue SpecObject.
Import ListNotations.
Open Scope Z_scope.

Section Obj.
Context {T : Type}.

(** The [array] and [_properties] fields, jsobject.py:107-113 *)
Record jsobj : Type := mkObj { jo_arr : arr T; jo_props : list (list N * T) }.

(** jsobject.py:134-135, before update *)
Definition jo_empty : jsobj := mkObj (ADense (dense_init [])) [].

(** __getitem__ after normalisation, jsobject.py:146-158 *)
Definition jo_get (o : jsobj) (k : pkey) : result T :=
  match k with
  | PStr s => match dget listN_eqb s (jo_props o) with Some v => Ok v | None => Err EKey end
  | PInt k =>
      if (0 <=? k) && (k <? arr_len (jo_arr o)) then
        do v <- arr_get (jo_arr o) k;
        match v with Some v => Ok v | None => Err EKey end
      else Err EKey
  end.

(** MIN_SPARSE_ARRAY_SIZE and MIN_DENSE_ARRAY_USED_RATIO, jsobject.py:31-32 *)
Definition MIN_SPARSE_ARRAY_SIZE : Z := 16.

(** _ensure_array_capacity, jsobject.py:172-191. [(used + 1) / new_length < 1 / 4] is a correctly
    rounded division of ints below 2^53 and so exact at a power of two. *)
Definition ensure_array_capacity (a : arr T) (index : Z) : result unit * arr T :=
  if index <? arr_len a then (Ok tt, a)
  else
    let new_length := index + 1 in
    match a with
    | ADense d =>
        if (MIN_SPARSE_ARRAY_SIZE <=? new_length) && (4 * (d_used d + 1) <? new_length) then
          match view_items a with
          | (Ok items, _) =>
              match sparse_init_length items new_length with
              | Ok s => (Ok tt, ASparse s)
              | Err e => (Err e, a)
              end
          | (Err e, _) => (Err e, a)
          end
        else arr_resize a new_length
    | ASparse _ => arr_resize a new_length
    end.

(** __setitem__ after normalisation, jsobject.py:162-170 *)
Definition jo_set (o : jsobj) (k : pkey) (v : option T) : result unit * jsobj :=
  match k with
  | PStr s =>
      (Ok tt, mkObj (jo_arr o) (match v with
                                | None => ddel listN_eqb s (jo_props o)
                                | Some v => dset listN_eqb s v (jo_props o)
                                end))
  | PInt k =>
      match ensure_array_capacity (jo_arr o) k with
      | (Err e, a) => (Err e, mkObj a (jo_props o))
      | (Ok _, a) => let '(r, a) := arr_set a k v in (r, mkObj a (jo_props o))
      end
  end.

(** __delitem__ after normalisation, jsobject.py:195-211 *)
Definition jo_del (o : jsobj) (k : pkey) : result unit * jsobj :=
  match k with
  | PStr s =>
      if dmem listN_eqb s (jo_props o) then (Ok tt, mkObj (jo_arr o) (ddel listN_eqb s (jo_props o)))
      else (Err EKey, o)
  | PInt k =>
      if k <? arr_len (jo_arr o) then
        match arr_get (jo_arr o) k with
        | Err e => (Err e, o)
        | Ok None => (Err EKey, o)
        | Ok (Some _) => let '(r, a) := arr_set (jo_arr o) k None in (r, mkObj a (jo_props o))
        end
      else (Err EKey, o)
  end.

(** __len__, jsobject.py:213-214 *)
Definition jo_len (o : jsobj) : Z := arr_used (jo_arr o) + zlen (jo_props o).

(** __iter__ run to its end, jsobject.py:216-217 *)
Definition jo_iter (o : jsobj) : list pkey * jsobj :=
  let '(ix, a) := arr_indexes (jo_arr o) in
  (map PInt ix ++ map PStr (dkeys (jo_props o)), mkObj a (jo_props o)).

(** The operations inherited from collections.abc.MutableMapping. *)
(** Mapping.__contains__: [try: self[key] except KeyError: False else True] *)
Definition jo_contains (o : jsobj) (k : pkey) : result bool :=
  match jo_get o k with Ok _ => Ok true | Err EKey => Ok false | Err e => Err e end.
(** pop(key): [value = self[key]; del self[key]; return value] *)
Definition jo_pop (o : jsobj) (k : pkey) : result T * jsobj :=
  match jo_get o k with
  | Err e => (Err e, o)
  | Ok v => match jo_del o k with (Ok _, o) => (Ok v, o) | (Err e, o) => (Err e, o) end
  end.
(** setdefault(key, default): [try: return self[key] except KeyError: self[key] = default] *)
Definition jo_setdefault (o : jsobj) (k : pkey) (v : T) : result T * jsobj :=
  match jo_get o k with
  | Ok x => (Ok x, o)
  | Err EKey => match jo_set o k (Some v) with (Ok _, o) => (Ok v, o) | (Err e, o) => (Err e, o) end
  | Err e => (Err e, o)
  end.
(** popitem(): [key = next(iter(self))] (KeyError when empty); [value = self[key]; del self[key]] *)
Definition jo_popitem (o : jsobj) : result (pkey * T) * jsobj :=
  match jo_iter o with
  | ([], o) => (Err EKey, o)
  | (k :: _, o) =>
      match jo_get o k with
      | Err e => (Err e, o)
      | Ok v => match jo_del o k with (Ok _, o) => (Ok (k, v), o) | (Err e, o) => (Err e, o) end
      end
  end.
(** clear(): popitem() until it raises KeyError *)
Fixpoint jo_clear (fuel : nat) (o : jsobj) : result unit * jsobj :=
  match fuel with
  | O => (Err EOutOfFuel, o)
  | S fuel =>
      match jo_popitem o with
      | (Ok _, o) => jo_clear fuel o
      | (Err EKey, o) => (Ok tt, o)
      | (Err e, o) => (Err e, o)
      end
  end.

Section Keys.
Variable float_repr : N -> list N.

(** update(pairs): [for key, value in pairs: self[key] = value]; also what __init__ runs (jsobject.py:140) *)
Fixpoint jo_update (o : jsobj) (ps : list (key * option T)) : result unit * jsobj :=
  match ps with
  | [] => (Ok tt, o)
  | (k, v) :: r =>
      match normalise_property_key float_repr k with
      | Err e => (Err e, o)
      | Ok k => match jo_set o k v with
                | (Ok _, o) => jo_update o r
                | (Err e, o) => (Err e, o)
                end
      end
  end.
End Keys.
End Obj.
Arguments jsobj : clear implicits.

(** One operation of the public API; keys are normalised first (jsobject.py:145, 161, 194). *)
Section Run.
Context {T : Type} (float_repr : N -> list N).
Notation norm := (normalise_property_key float_repr).
Definition with_key (o : jsobj T) (k : key) (f : pkey -> mresp T * jsobj T) : mresp T * jsobj T :=
  match norm k with Err e => (MExn e, o) | Ok p => f p end.
Definition unit_mresp (p : result unit * jsobj T) : mresp T * jsobj T :=
  match p with (Ok _, o) => (MUnit, o) | (Err e, o) => (MExn e, o) end.
Definition val_mresp (p : result T * jsobj T) : mresp T * jsobj T :=
  match p with (Ok v, o) => (MVal v, o) | (Err e, o) => (MExn e, o) end.
Definition jo_op (o : jsobj T) (op : mop T) : mresp T * jsobj T :=
  match op with
  | MGet k => with_key o k (fun p => val_mresp (jo_get o p, o))
  | MSet k v => with_key o k (fun p => unit_mresp (jo_set o p v))
  | MDel k => with_key o k (fun p => unit_mresp (jo_del o p))
  | MContains k => with_key o k (fun p =>
      match jo_contains o p with Ok b => (MBool b, o) | Err e => (MExn e, o) end)
  | MLen => (MNum (jo_len o), o)
  | MIter => let '(ks, o) := jo_iter o in (MKeys ks, o)
  | MPop k => with_key o k (fun p => val_mresp (jo_pop o p))
  | MSetDefault k v => with_key o k (fun p => val_mresp (jo_setdefault o p v))
  | MUpdate ps => unit_mresp (jo_update float_repr o ps)
  | MPopItem => match jo_popitem o with (Ok (k, v), o) => (MItem k v, o) | (Err e, o) => (MExn e, o) end
  | MClear => unit_mresp (jo_clear (S (Z.to_nat (jo_len o))) o)
  end.
Fixpoint jo_ops (o : jsobj T) (ops : list (mop T)) : list (mop T * mresp T) * jsobj T :=
  match ops with
  | [] => ([], o)
  | x :: rest => let '(r, o1) := jo_op o x in let '(tr, o2) := jo_ops o1 rest in ((x, r) :: tr, o2)
  end.
End Run.
