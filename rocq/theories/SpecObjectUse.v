(** What using an object by key and through its .array does: one list of values and holes for the
    integer keys, and one dict for the others. *)
From Coq Require Import List NArith ZArith Bool.
From Verif Require Import Base Dict SpecArray ModelValue SpecObject.
Import ListNotations.
Open Scope Z_scope.

Section SpecObjectUse.
Context {T : Type}.

(** [elems]: list(o.array). [named]: the items of o.properties. [old]: [None] while a reference to
    o.array taken when the object was made is still o.array; after that, the list it shows. *)
Record ustate : Type := mkUState { elems : list (option T); named : list (list N * T); old : option (list (option T)) }.

(** Reading o.properties, and o.array.elements(). *)
Inductive nop : Type := NGet (s : list N) | NLen | NIter.
Inductive eop : Type := EGet (i : Z) | ELen | EItems.
Inductive uop : Type :=
| UKey (o : mop T)       (* o[...] and the other methods of the object *)
| UArray (o : aop T)     (* o.array *)
| UHeld (o : aop T)      (* the reference to o.array taken when the object was made *)
| UNamed (o : nop)       (* o.properties *)
| UElements (o : eop).   (* o.array.elements() *)
Inductive uresp : Type :=
| RKey (r : mresp T)
| RArray (r : resp T)
| RItems (l : list (Z * T)).

Definition element (l : list (option T)) (z : Z) : option T :=
  if z <? 0 then None else match nth_error l (Z.to_nat z) with Some v => v | None => None end.
Definition lookup (st : ustate) (p : pkey) : option T :=
  match p with PInt z => element (elems st) z | PStr s => dget listN_eqb s (named st) end.

(** The list with position [k] set: holes fill the gap after a shorter list. *)
Definition place (l : list (option T)) (k : nat) (v : option T) : list (option T) :=
  firstn k (l ++ repeat None (k - length l)) ++ v :: skipn (S k) l.

(** Index [z] is past the end, at least 15, and less than a quarter of the list would be used. *)
Definition far (l : list (option T)) (z : Z) : bool :=
  (Z.of_nat (length l) <=? z) && (15 <=? z) && (4 * (number_used l + 1) <=? z).

Definition with_named (st : ustate) (d : list (list N * T)) : ustate := mkUState (elems st) d (old st).
Definition with_elems (st : ustate) (l : list (option T)) : ustate := mkUState l (named st) (old st).

(** Setting a key. The first time an index is far away, the references to .array taken before are
    left behind. *)
Definition store (st : ustate) (p : pkey) (v : option T) : ustate :=
  match p with
  | PStr s => with_named st (match v with Some v => dset listN_eqb s v (named st) | None => ddel listN_eqb s (named st) end)
  | PInt z => mkUState (place (elems st) (Z.to_nat z) v) (named st)
                       (match old st with
                        | None => if far (elems st) z then Some (elems st) else None
                        | Some l => Some l
                        end)
  end.
Fixpoint store_all (st : ustate) (ps : list (pkey * option T)) : ustate :=
  match ps with [] => st | (k, v) :: r => store_all (store st k v) r end.
(** Removing a key leaves a hole, and the length of the list as it was. *)
Definition vacate (st : ustate) (p : pkey) : ustate :=
  match p with
  | PStr s => with_named st (ddel listN_eqb s (named st))
  | PInt z => with_elems st (place (elems st) (Z.to_nat z) None)
  end.
Definition vacate_all (st : ustate) (ks : list pkey) : ustate := fold_left vacate ks st.

(** Indexes ascending, then names in insertion order. *)
Definition key_order (st : ustate) (ks : list pkey) : Prop :=
  exists ix, ascending ix /\ (forall i, In i ix <-> occupied (elems st) i) /\
             ks = map PInt ix ++ map PStr (map fst (named st)).

Section Step.
(** [norm k r]: normalising [k] gives [r] (C38 says what). *)
Variable norm : key -> result pkey.

Inductive kspec (st : ustate) : mop T -> mresp T -> ustate -> Prop :=
| ks_get k p v : norm k = Ok p -> lookup st p = Some v -> kspec st (MGet k) (MVal v) st
| ks_get_missing k p : norm k = Ok p -> lookup st p = None -> kspec st (MGet k) (MExn EKey) st
| ks_set k p v : norm k = Ok p -> kspec st (MSet k v) MUnit (store st p v)
| ks_del k p v : norm k = Ok p -> lookup st p = Some v -> kspec st (MDel k) MUnit (vacate st p)
| ks_del_missing k p : norm k = Ok p -> lookup st p = None -> kspec st (MDel k) (MExn EKey) st
| ks_contains k p : norm k = Ok p ->
    kspec st (MContains k) (MBool (match lookup st p with Some _ => true | None => false end)) st
| ks_len : kspec st MLen (MNum (number_used (elems st) + Z.of_nat (length (named st)))) st
| ks_iter ks : key_order st ks -> kspec st MIter (MKeys ks) st
| ks_pop k p v : norm k = Ok p -> lookup st p = Some v -> kspec st (MPop k) (MVal v) (vacate st p)
| ks_pop_missing k p : norm k = Ok p -> lookup st p = None -> kspec st (MPop k) (MExn EKey) st
| ks_setdefault k p v w : norm k = Ok p -> lookup st p = Some v -> kspec st (MSetDefault k w) (MVal v) st
| ks_setdefault_missing k p w : norm k = Ok p -> lookup st p = None ->
    kspec st (MSetDefault k w) (MVal w) (store st p (Some w))
| ks_update ps qs : Forall2 (fun a b => norm (fst a) = Ok (fst b) /\ snd a = snd b) ps qs ->
    kspec st (MUpdate ps) MUnit (store_all st qs)
| ks_update_bad_key ps qs k v rest e :
    Forall2 (fun a b => norm (fst a) = Ok (fst b) /\ snd a = snd b) ps qs -> norm k = Err e ->
    kspec st (MUpdate (ps ++ (k, v) :: rest)) (MExn e) (store_all st qs)
| ks_popitem k v ks : key_order st (k :: ks) -> lookup st k = Some v -> kspec st MPopItem (MItem k v) (vacate st k)
| ks_popitem_empty : key_order st [] -> kspec st MPopItem (MExn EKey) st
| ks_clear : kspec st MClear MUnit (mkUState (map (fun _ => None) (elems st)) [] (old st))
| ks_bad_key o k e : norm k = Err e ->
    (o = MGet k \/ (exists v, o = MSet k v) \/ o = MDel k \/ o = MContains k \/ o = MPop k \/ exists v, o = MSetDefault k v) ->
    kspec st o (MExn e) st.

(** What happens instead in some states: once earlier references have been left behind and at most
    two elements are there, changing an element may raise AssertionError after the change is made. *)
Definition scarce (st : ustate) (p : pkey) : Prop := (exists z, p = PInt z) /\ number_used (elems st) <= 2.
Inductive kdeviation (st : ustate) : mop T -> mresp T -> ustate -> Prop :=
| kd_set k p v : norm k = Ok p -> scarce st p -> kdeviation st (MSet k v) (MExn EAssert) (store st p v)
| kd_del k p : norm k = Ok p -> lookup st p <> None -> scarce st p -> kdeviation st (MDel k) (MExn EAssert) (vacate st p)
| kd_pop k p : norm k = Ok p -> lookup st p <> None -> scarce st p -> kdeviation st (MPop k) (MExn EAssert) (vacate st p)
| kd_setdefault k p v : norm k = Ok p -> lookup st p = None -> scarce st p ->
    kdeviation st (MSetDefault k v) (MExn EAssert) (store st p (Some v))
| kd_update ps qs k p v rest :
    Forall2 (fun a b => norm (fst a) = Ok (fst b) /\ snd a = snd b) ps qs -> norm k = Ok p ->
    scarce (store_all st qs) p ->
    kdeviation st (MUpdate (ps ++ (k, v) :: rest)) (MExn EAssert) (store (store_all st qs) p v)
| kd_popitem k ks : key_order st (k :: ks) -> scarce st k -> kdeviation st MPopItem (MExn EAssert) (vacate st k)
| kd_clear ks k rest : key_order st (ks ++ k :: rest) -> scarce (vacate_all st ks) k ->
    kdeviation st MClear (MExn EAssert) (vacate_all st (ks ++ [k])).

Inductive nspec (st : ustate) : nop -> mresp T -> Prop :=
| ns_get s v : dget listN_eqb s (named st) = Some v -> nspec st (NGet s) (MVal v)
| ns_get_missing s : dget listN_eqb s (named st) = None -> nspec st (NGet s) (MExn EKey)
| ns_len : nspec st NLen (MNum (Z.of_nat (length (named st))))
| ns_iter : nspec st NIter (MKeys (map PStr (map fst (named st)))).

Inductive espec (l : list (option T)) : eop -> uresp -> Prop :=
| es_get i v : element l i = Some v -> espec l (EGet i) (RKey (MVal v))
| es_get_missing i : element l i = None -> espec l (EGet i) (RKey (MExn EKey))
| es_len : espec l ELen (RKey (MNum (number_used l)))
| es_items items : ascending (map fst items) -> (forall i v, In (i, v) items <-> element l i = Some v) ->
    espec l EItems (RItems items).

(** Every operation acts on the one list and the one dict; the reference taken at the start acts on
    the same list until it has been left behind, and on its own list after that. *)
Inductive uspec (st : ustate) : uop -> uresp -> ustate -> Prop :=
| us_key o r st' : kspec st o r st' -> uspec st (UKey o) (RKey r) st'
| us_array o r l : spec_op (elems st) o r l -> uspec st (UArray o) (RArray r) (with_elems st l)
| us_held o r l : old st = None -> spec_op (elems st) o r l -> uspec st (UHeld o) (RArray r) (with_elems st l)
| us_left o r l l' : old st = Some l -> spec_op l o r l' ->
    uspec st (UHeld o) (RArray r) (mkUState (elems st) (named st) (Some l'))
| us_named o r : nspec st o r -> uspec st (UNamed o) (RKey r) st
| us_elements o r : espec (elems st) o r -> uspec st (UElements o) r st.

(** The differences: those of sparse arrays (C35), only once earlier references were left behind,
    and IndexError for the index just past the end in elements(). *)
Inductive udeviation (st : ustate) : uop -> uresp -> ustate -> Prop :=
| ud_key o r st' : old st' <> None -> kdeviation st o r st' -> udeviation st (UKey o) (RKey r) st'
| ud_array o r l : old st <> None -> sparse_deviation (elems st) o r l -> udeviation st (UArray o) (RArray r) (with_elems st l)
| ud_elements : udeviation st (UElements (EGet (Z.of_nat (length (elems st))))) (RKey (MExn EIndex)) st.

Inductive uspecs : ustate -> list (uop * uresp) -> ustate -> Prop :=
| uss_nil st : uspecs st [] st
| uss_cons st o r st1 rest st2 : uspec st o r st1 \/ udeviation st o r st1 ->
    uspecs st1 rest st2 -> uspecs st ((o, r) :: rest) st2.

(** No deviation at all, and no reference ever left behind. *)
Inductive one_array : ustate -> list (uop * uresp) -> ustate -> Prop :=
| oa_nil st : old st = None -> one_array st [] st
| oa_cons st o r st1 rest st2 : old st = None -> uspec st o r st1 -> one_array st1 rest st2 -> one_array st ((o, r) :: rest) st2.
End Step.
End SpecObjectUse.
Arguments ustate : clear implicits.
Arguments uop : clear implicits.
Arguments uresp : clear implicits.
