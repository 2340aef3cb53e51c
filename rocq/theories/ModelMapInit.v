(** The constructor and update of JSMap, /repo/src/v8serialize/jstypes/jsmap.py:178-187 and 256-273, with Python's binding of keyword arguments: the
    implementation's parameters self and init have names (jsmap.py:178-183), so keywords of these names are not among **kwargs. The overloads in
    jsmap.py:139-176, which are the documented signature, have no such parameters.
    Simplified: the names of keyword arguments are distinct, as Python ensures; what is stored before an exception is dropped, as the
    constructor returns nothing then. *)
From Coq Require Import List NArith ZArith Bool.
From Verif Require Import Base Dict ModelValue SpecMap ModelMap.
Import ListNotations.

Section Init.
Context {V : Type}.
Variable bytes_of : nat -> option bytes.

(** What an argument is to update: None, a Mapping with these items, an object with keys() and __getitem__, an iterable of pairs, or something else *)
Inductive source : Type :=
| SNone
| SMapping (items : list (val * V))
| SKeyed (keys : list val) (get : val -> result V)
| SPairs (l : list (val * V))
| SOther.
(** what a value given as init= is *)
Variable as_source : V -> source.

(** ((same_value_zero(k), (k, other[k])) for k in other.keys()), jsmap.py:264-267 *)
Fixpoint update_keyed (m : jsmap V) (keys : list val) (get : val -> result V) : result (jsmap V) :=
  match keys with
  | [] => Ok m
  | k :: r => do s <- same_value_zero bytes_of k; do v <- get k; update_keyed (dset svz_eqb s (k, v) m) r get
  end.
Definition updated (p : result unit * jsmap V) : result (jsmap V) := match p with (Ok _, m) => Ok m | (Err e, _) => Err e end.
(** update(other, /, **kwds), jsmap.py:256-273. *)
Definition update (m : jsmap V) (other : source) (kwds : list (list N * V)) : result (jsmap V) :=
  do m <- match other with
          | SMapping items => updated (jm_update bytes_of m items)
          | SKeyed keys get => update_keyed m keys get
          | SPairs l => updated (jm_update bytes_of m l)
          | SNone | SOther => Err EType
          end;
  updated (jm_update bytes_of m (map (fun p => (VStr (fst p), snd p)) kwds)).

(** "self" and "init" *)
Definition name_self : list N := [115; 101; 108; 102]%N.
Definition name_init : list N := [105; 110; 105; 116]%N.
Definition named (n : list N) (p : list N * V) : bool := if list_eq_dec N.eq_dec (fst p) n then true else false.
(** __init__(self, init=None, **kwargs), jsmap.py:178-187, as called with at most one positional argument: JSMap(pos, **kw) *)
Definition construct (pos : option source) (kw : list (list N * V)) : result (jsmap V) :=
  if existsb (named name_self) kw then Err EType
  else
    do init <- match pos, find (named name_init) kw with
               | Some _, Some _ => Err EType
               | Some s, None => Ok s
               | None, Some p => Ok (as_source (snd p))
               | None, None => Ok SNone
               end;
    let kwargs := filter (fun p => negb (named name_init p)) kw in
    do m <- match init with SNone => Ok [] | s => update [] s [] end;
    update m (SMapping (map (fun p => (VStr (fst p), snd p)) kwargs)) [].
End Init.
