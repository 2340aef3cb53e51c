(** What a mapping with JavaScript's property order does: an association list with the entries in
    order of insertion, read and changed as a Python dict (Dict.v). *)
From Coq Require Import List NArith ZArith Bool.
From Verif Require Import Base Dict SpecArray ModelValue.
Import ListNotations.
Open Scope Z_scope.

Section SpecObject.
Context {T : Type}.
Notation entries := (list (pkey * T)).
Notation get := (dget pkey_eqb).
Notation put := (dset pkey_eqb).
Notation remove := (ddel pkey_eqb).

Definition int_keys (m : entries) : list Z :=
  flat_map (fun p => match fst p with PInt z => [z] | PStr _ => [] end) m.
Definition str_keys (m : entries) : list (list N) :=
  flat_map (fun p => match fst p with PInt _ => [] | PStr s => [s] end) m.

(** Integer keys ascending, then string keys in insertion order. *)
Definition property_order (m : entries) (ks : list pkey) : Prop :=
  exists ints, ascending ints /\ (forall z, In z ints <-> In z (int_keys m)) /\
               ks = map PInt ints ++ map PStr (str_keys m).

(** Setting a key to JSHole removes it. *)
Definition assign (m : entries) (k : pkey) (v : option T) : entries :=
  match v with Some v => put k v m | None => remove k m end.
Fixpoint assign_all (m : entries) (ps : list (pkey * option T)) : entries :=
  match ps with [] => m | (k, v) :: r => assign_all (assign m k v) r end.

Inductive mop : Type :=
| MGet (k : key)
| MSet (k : key) (v : option T)
| MDel (k : key)
| MContains (k : key)
| MLen
| MIter
| MPop (k : key)
| MSetDefault (k : key) (v : T)
| MUpdate (ps : list (key * option T))
| MPopItem
| MClear.
Inductive mresp : Type :=
| MUnit
| MVal (v : T)
| MBool (b : bool)
| MNum (n : Z)
| MKeys (ks : list pkey)
| MItem (k : pkey) (v : T)
| MExn (e : exn).

Section Step.
(** [norm k r]: normalising [k] gives [r] (C38 says what). *)
Variable norm : key -> result pkey.

Inductive mspec (m : entries) : mop -> mresp -> entries -> Prop :=
| ms_get k p v : norm k = Ok p -> get p m = Some v -> mspec m (MGet k) (MVal v) m
| ms_get_missing k p : norm k = Ok p -> get p m = None -> mspec m (MGet k) (MExn EKey) m
| ms_set k p v : norm k = Ok p -> mspec m (MSet k v) MUnit (assign m p v)
| ms_del k p v : norm k = Ok p -> get p m = Some v -> mspec m (MDel k) MUnit (remove p m)
| ms_del_missing k p : norm k = Ok p -> get p m = None -> mspec m (MDel k) (MExn EKey) m
| ms_contains k p : norm k = Ok p ->
    mspec m (MContains k) (MBool (match get p m with Some _ => true | None => false end)) m
| ms_len : mspec m MLen (MNum (Z.of_nat (length m))) m
| ms_iter ks : property_order m ks -> mspec m MIter (MKeys ks) m
| ms_pop k p v : norm k = Ok p -> get p m = Some v -> mspec m (MPop k) (MVal v) (remove p m)
| ms_pop_missing k p : norm k = Ok p -> get p m = None -> mspec m (MPop k) (MExn EKey) m
| ms_setdefault k p v w : norm k = Ok p -> get p m = Some v -> mspec m (MSetDefault k w) (MVal v) m
| ms_setdefault_missing k p w : norm k = Ok p -> get p m = None ->
    mspec m (MSetDefault k w) (MVal w) (put p w m)
| ms_update ps qs : Forall2 (fun a b => norm (fst a) = Ok (fst b) /\ snd a = snd b) ps qs ->
    mspec m (MUpdate ps) MUnit (assign_all m qs)
| ms_update_bad_key ps qs k v rest e :
    Forall2 (fun a b => norm (fst a) = Ok (fst b) /\ snd a = snd b) ps qs -> norm k = Err e ->
    mspec m (MUpdate (ps ++ (k, v) :: rest)) (MExn e) (assign_all m qs)
| ms_popitem k v ks : property_order m (k :: ks) -> get k m = Some v ->
    mspec m MPopItem (MItem k v) (remove k m)
| ms_popitem_empty : m = [] -> mspec m MPopItem (MExn EKey) []
| ms_clear : mspec m MClear MUnit []
| ms_bad_key o k e : norm k = Err e ->
    (o = MGet k \/ (exists v, o = MSet k v) \/ o = MDel k \/ o = MContains k \/ o = MPop k \/ exists v, o = MSetDefault k v) ->
    mspec m o (MExn e) m.

(** What JSObject does instead in some states: with at most two integer keys left, changing one may
    raise AssertionError after the change is made. *)
Definition few (m : entries) (k : pkey) : Prop :=
  (exists z, k = PInt z) /\ Z.of_nat (length (int_keys m)) <= 2.
Inductive mdeviation (m : entries) : mop -> mresp -> entries -> Prop :=
| md_set k p v : norm k = Ok p -> few m p -> mdeviation m (MSet k v) (MExn EAssert) (assign m p v)
| md_del k p : norm k = Ok p -> few m p -> mdeviation m (MDel k) (MExn EAssert) (remove p m)
| md_pop k p : norm k = Ok p -> few m p -> mdeviation m (MPop k) (MExn EAssert) (remove p m)
| md_setdefault k p v : norm k = Ok p -> few m p ->
    mdeviation m (MSetDefault k v) (MExn EAssert) (put p v m)
| md_update ps qs k p v rest :
    Forall2 (fun a b => norm (fst a) = Ok (fst b) /\ snd a = snd b) ps qs -> norm k = Ok p ->
    few (assign_all m qs) p ->
    mdeviation m (MUpdate (ps ++ (k, v) :: rest)) (MExn EAssert) (assign (assign_all m qs) p v)
| md_popitem k ks : property_order m (k :: ks) -> few m k -> mdeviation m MPopItem (MExn EAssert) (remove k m)
| md_clear done : few (fold_left (fun m k => remove k m) (removelast done) m) (last done (PStr [])) ->
    mdeviation m MClear (MExn EAssert) (fold_left (fun m k => remove k m) done m).

Inductive mspecs (strict : bool) : entries -> list (mop * mresp) -> entries -> Prop :=
| mss_nil m : mspecs strict m [] m
| mss_cons m o r m1 rest m2 :
    mspec m o r m1 \/ (strict = false /\ mdeviation m o r m1) ->
    mspecs strict m1 rest m2 -> mspecs strict m ((o, r) :: rest) m2.
End Step.
End SpecObject.
Arguments mop : clear implicits.
Arguments mresp : clear implicits.
