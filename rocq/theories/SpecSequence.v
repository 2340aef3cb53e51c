(** What the sequence methods an array inherits do to a list of values and holes. *)
From Coq Require Import List ZArith Bool.
From Verif Require Import Base SpecArray.
Import ListNotations.
Open Scope Z_scope.

Section SpecSequence.
Context {T : Type}.
Notation holes := (list (option T)).
(** Python's [is] or [==] on two elements that are not holes: stored element first *)
Variable same : T -> T -> bool.

Inductive sop : Type :=
| SBase (o : aop T)                                  (* the operations of SpecArray *)
| SContains (v : option T)                           (* v in array *)
| SCount (v : option T)                              (* array.count(v) *)
| SIndex (v : option T) (start : Z) (stop : option Z) (* array.index(v, start, stop) *)
| SReversed                                          (* list(reversed(array)) *)
| SReverse                                           (* array.reverse() *)
| SRemove (v : option T)                             (* array.remove(v) *)
| SClear                                             (* array.clear() *)
| SExtendSelf.                                       (* array.extend(array); array += array *)

Inductive answer : Type :=
| ABase (r : resp T)
| ADone
| ABool (b : bool)
| ANum (n : Z)
| AList (l : holes)
| AExn (e : exn).

(** The stored element [x] is what is looked for: both are holes, or both are values that are the same. *)
Definition hit (v x : option T) : bool :=
  match x, v with
  | Some x, Some v => same x v
  | None, None => true
  | _, _ => false
  end.

(** Position [k] of [l] holds what is looked for. *)
Definition hits (l : holes) (v : option T) (k : nat) : Prop := exists x, nth_error l k = Some x /\ hit v x = true.
(** A bound of index() counted from the end if it is negative *)
Definition from_end (l : holes) (i : Z) : Z := if i <? 0 then Z.of_nat (length l) + i else i.
(** Position [k] is among those index(v, start, stop) looks at. *)
Definition within (l : holes) (start : Z) (stop : option Z) (k : nat) : Prop :=
  from_end l start <= Z.of_nat k /\
  match stop with None => True | Some s => Z.of_nat k < from_end l s end.

Inductive sspec (l : holes) : sop -> answer -> holes -> Prop :=
| ss_base o r l' : spec_op l o r l' -> sspec l (SBase o) (ABase r) l'
| ss_contains v b : (b = true <-> exists k, hits l v k) -> sspec l (SContains v) (ABool b) l
| ss_count v : sspec l (SCount v) (ANum (Z.of_nat (length (filter (hit v) l)))) l
| ss_index v start stop k : hits l v k -> within l start stop k ->
    (forall j, (j < k)%nat -> within l start stop j -> ~ hits l v j) ->
    sspec l (SIndex v start stop) (ANum (Z.of_nat k)) l
| ss_index_err v start stop : (forall j, within l start stop j -> ~ hits l v j) ->
    sspec l (SIndex v start stop) (AExn EValue) l
| ss_reversed : sspec l SReversed (AList (rev l)) l
| ss_reverse : sspec l SReverse ADone (rev l)
| ss_remove v k : hits l v k -> (forall j, (j < k)%nat -> ~ hits l v j) ->
    sspec l (SRemove v) ADone (firstn k l ++ skipn (S k) l)
| ss_remove_err v : (forall j, ~ hits l v j) -> sspec l (SRemove v) (AExn EValue) l
| ss_clear : sspec l SClear ADone []
| ss_extend_self : sspec l SExtendSelf ADone (l ++ l).

(** The list with its first [k] and last [k] positions exchanged, as when reversing stops early *)
Definition mirrored (l : holes) (k : nat) : holes :=
  firstn k (rev l) ++ firstn (length l - 2 * k) (skipn k l) ++ skipn (length l - k) (rev l).

(** What sparse storage does instead. *)
Inductive sdeviation (l : holes) : sop -> answer -> holes -> Prop :=
| sd_base o r l' : sparse_deviation l o r l' -> sdeviation l (SBase o) (ABase r) l'
(** reverse() of at most two elements fails part way: after exchanging k pairs, *)
| sd_reverse k : (2 * k <= length l)%nat -> number_used l <= 2 ->
    sdeviation l SReverse (AExn EAssert) (mirrored l k)
(** or having overwritten the earlier position of a pair with the hole of the later *)
| sd_reverse_lost k v : (2 * S k <= length l)%nat -> number_used l <= 2 ->
    nth_error l k = Some (Some v) -> nth_error l (length l - S k) = Some None ->
    sdeviation l SReverse (AExn EAssert) (firstn k (mirrored l k) ++ None :: skipn (S k) (mirrored l k))
(** extending by itself drops holes and may run out of room *)
| sd_extend_self : In None l -> sdeviation l SExtendSelf ADone (l ++ elements l)
| sd_extend_self_full k : Z.of_nat (length (l ++ firstn k (elements l))) = 2 ^ 32 - 1 ->
    (k < length (elements l))%nat ->
    sdeviation l SExtendSelf (AExn EIndex) (l ++ firstn k (elements l)).

(** Histories: [sparse] says whether the storage is sparse. *)
Inductive shistory (sparse : bool) : holes -> list (sop * answer) -> holes -> Prop :=
| sh_nil l : shistory sparse l [] l
| sh_cons l o r l1 rest l2 : sspec l o r l1 \/ (sparse = true /\ sdeviation l o r l1) ->
    shistory sparse l1 rest l2 -> shistory sparse l ((o, r) :: rest) l2.
End SpecSequence.
Arguments sop : clear implicits.
Arguments answer : clear implicits.
