(** JavaScript Maps and Sets: lists of entries whose keys are distinct under SameValueZero. *)
From Coq Require Import List NArith ZArith Bool.
From Verif Require Import Base SpecNumber ModelValue SpecKey.
Import ListNotations.
Open Scope Z_scope.

Section SpecMap.
Context {V : Type}.
Variable bytes_of : nat -> option bytes.
Notation same := (js_same bytes_of).
Notation entries := (list (val * V)).

(** Ints that Python cannot convert to float. *)
Definition huge (k : val) : Prop := exists z, k = VInt z /\ 2 ^ 1024 - 2 ^ 970 <= Z.abs z.

Definition absent (l : entries) (k : val) : Prop := forall k' v', In (k', v') l -> ~ same k' k.
Definition distinct_keys (l : entries) : Prop :=
  forall i j a b, nth_error l i = Some a -> nth_error l j = Some b -> i <> j -> ~ same (fst a) (fst b).

Inductive kop : Type :=
| KSet (k : val) (v : V)
| KDel (k : val)
| KGet (k : val)
| KGetDefault (k : val) (d : V)
| KContains (k : val)
| KIter
| KItems
| KLen
| KPop (k : val)
| KPopItem
| KSetDefault (k : val) (v : V)
| KUpdate (ps : entries)
| KClear.
Inductive kresp : Type :=
| KUnit
| KVal (v : V)
| KBool (b : bool)
| KNum (n : Z)
| KKeys (l : list val)
| KEntries (l : entries)
| KItem (k : val) (v : V)
| KExn (e : exn).

(** One assignment. The entry keeps its place; its key becomes the one given. *)
Inductive put_entry (l : entries) (k : val) (v : V) : entries -> Prop :=
| put_replace a k' v' b : l = a ++ (k', v') :: b -> same k' k -> put_entry l k v (a ++ (k, v) :: b)
| put_append : absent l k -> put_entry l k v (l ++ [(k, v)]).
Inductive put_entries : entries -> entries -> entries -> Prop :=
| puts_nil l : put_entries l [] l
| puts_cons l k v r l1 l2 : ~ huge k -> put_entry l k v l1 -> put_entries l1 r l2 -> put_entries l ((k, v) :: r) l2.

Inductive kspec (l : entries) : kop -> kresp -> entries -> Prop :=
| ks_set k v l' : ~ huge k -> put_entry l k v l' -> kspec l (KSet k v) KUnit l'
| ks_del k a k' v' b : l = a ++ (k', v') :: b -> same k' k -> kspec l (KDel k) KUnit (a ++ b)
| ks_del_missing k : ~ huge k -> absent l k -> kspec l (KDel k) (KExn EKey) l
| ks_get k a k' v' b : l = a ++ (k', v') :: b -> same k' k -> kspec l (KGet k) (KVal v') l
| ks_get_missing k : ~ huge k -> absent l k -> kspec l (KGet k) (KExn EKey) l
| ks_getd k d a k' v' b : l = a ++ (k', v') :: b -> same k' k -> kspec l (KGetDefault k d) (KVal v') l
| ks_getd_missing k d : ~ huge k -> absent l k -> kspec l (KGetDefault k d) (KVal d) l
| ks_contains k a k' v' b : l = a ++ (k', v') :: b -> same k' k -> kspec l (KContains k) (KBool true) l
| ks_contains_not k : ~ huge k -> absent l k -> kspec l (KContains k) (KBool false) l
| ks_iter : kspec l KIter (KKeys (map fst l)) l
| ks_items : kspec l KItems (KEntries l) l
| ks_len : kspec l KLen (KNum (Z.of_nat (length l))) l
| ks_pop k a k' v' b : l = a ++ (k', v') :: b -> same k' k -> kspec l (KPop k) (KVal v') (a ++ b)
| ks_pop_missing k : ~ huge k -> absent l k -> kspec l (KPop k) (KExn EKey) l
| ks_popitem k v r : l = (k, v) :: r -> kspec l KPopItem (KItem k v) r
| ks_popitem_empty : l = [] -> kspec l KPopItem (KExn EKey) l
| ks_setdefault k w a k' v' b : l = a ++ (k', v') :: b -> same k' k -> kspec l (KSetDefault k w) (KVal v') l
| ks_setdefault_missing k w : ~ huge k -> absent l k -> kspec l (KSetDefault k w) (KVal w) (l ++ [(k, w)])
| ks_update ps l' : put_entries l ps l' -> kspec l (KUpdate ps) KUnit l'
| ks_clear : kspec l KClear KUnit [].

(** With a huge int as key, every operation raises OverflowError instead and changes nothing. *)
Definition op_key (o : kop) : option val :=
  match o with
  | KSet k _ | KDel k | KGet k | KGetDefault k _ | KContains k | KPop k | KSetDefault k _ => Some k
  | _ => None
  end.
Inductive kdeviation (l : entries) : kop -> kresp -> entries -> Prop :=
| kd_huge o k : op_key o = Some k -> huge k -> kdeviation l o (KExn EOverflow) l
| kd_update ps k v r l' : put_entries l ps l' -> huge k ->
    kdeviation l (KUpdate (ps ++ (k, v) :: r)) (KExn EOverflow) l'.

Inductive kspecs : entries -> list (kop * kresp) -> entries -> Prop :=
| kss_nil l : kspecs l [] l
| kss_cons l o r l1 rest l2 : kspec l o r l1 \/ kdeviation l o r l1 -> kspecs l1 rest l2 ->
    kspecs l ((o, r) :: rest) l2.
End SpecMap.
Arguments kop : clear implicits.
Arguments kresp : clear implicits.

(** * Sets *)
Section SpecSet.
Variable bytes_of : nat -> option bytes.
Notation same := (js_same bytes_of).

Definition not_member (l : list val) (k : val) : Prop := forall k', In k' l -> ~ same k' k.
Definition distinct_members (l : list val) : Prop :=
  forall i j a b, nth_error l i = Some a -> nth_error l j = Some b -> i <> j -> ~ same a b.

Inductive sop : Type :=
| SAdd (k : val) | SDiscard (k : val) | SRemove (k : val) | SContains (k : val)
| SIter | SLen | SPop | SClear | SUnion (ks : list val).
Inductive sresp : Type :=
| SUnit | SBoolean (b : bool) | SMembers (l : list val) | SCount (n : Z) | SMember (k : val) | SExn (e : exn).

Inductive add_member (l : list val) (k : val) : list val -> Prop :=
| add_old a k' b : l = a ++ k' :: b -> same k' k -> add_member l k (a ++ k :: b)
| add_new : not_member l k -> add_member l k (l ++ [k]).
Inductive add_members : list val -> list val -> list val -> Prop :=
| adds_nil l : add_members l [] l
| adds_cons l k r l1 l2 : ~ huge k -> add_member l k l1 -> add_members l1 r l2 -> add_members l (k :: r) l2.

Inductive sspec (l : list val) : sop -> sresp -> list val -> Prop :=
| ss_add k l' : ~ huge k -> add_member l k l' -> sspec l (SAdd k) SUnit l'
| ss_discard k a k' b : l = a ++ k' :: b -> same k' k -> sspec l (SDiscard k) SUnit (a ++ b)
| ss_discard_absent k : ~ huge k -> not_member l k -> sspec l (SDiscard k) SUnit l
| ss_remove k a k' b : l = a ++ k' :: b -> same k' k -> sspec l (SRemove k) SUnit (a ++ b)
| ss_remove_absent k : ~ huge k -> not_member l k -> sspec l (SRemove k) (SExn EKey) l
| ss_contains k a k' b : l = a ++ k' :: b -> same k' k -> sspec l (SContains k) (SBoolean true) l
| ss_contains_not k : ~ huge k -> not_member l k -> sspec l (SContains k) (SBoolean false) l
| ss_iter : sspec l SIter (SMembers l) l
| ss_len : sspec l SLen (SCount (Z.of_nat (length l))) l
| ss_pop k r : l = k :: r -> sspec l SPop (SMember k) r
| ss_pop_empty : l = [] -> sspec l SPop (SExn EKey) l
| ss_clear : sspec l SClear SUnit []
| ss_union ks l' : add_members l ks l' -> sspec l (SUnion ks) SUnit l'.

Definition sop_key (o : sop) : option val :=
  match o with SAdd k | SDiscard k | SRemove k | SContains k => Some k | _ => None end.
Inductive sdeviation (l : list val) : sop -> sresp -> list val -> Prop :=
| sd_huge o k : sop_key o = Some k -> huge k -> sdeviation l o (SExn EOverflow) l
| sd_union ks k r l' : add_members l ks l' -> huge k -> sdeviation l (SUnion (ks ++ k :: r)) (SExn EOverflow) l'.

Inductive sspecs : list val -> list (sop * sresp) -> list val -> Prop :=
| sss_nil l : sspecs l [] l
| sss_cons l o r l1 rest l2 : sspec l o r l1 \/ sdeviation l o r l1 -> sspecs l1 rest l2 ->
    sspecs l ((o, r) :: rest) l2.
End SpecSet.
