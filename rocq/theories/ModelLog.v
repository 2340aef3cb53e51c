(** Model of /repo/src/v8serialize/_references.py. *)
From Coq Require Import List Bool Arith.
From Verif Require Import Base Dict.
Import ListNotations.
Open Scope nat_scope.

Section Log.
Context {O : Type}.
(** Python's [id()]. *)
Variable pyid : O -> nat.

(** One slot of _object_by_serialized_id. A ForwardReference (_references.py:150-180) is
    represented by its value, unset or set; its identity is the slot that holds it
    (simplification: a forward reference object lives in the one slot
    record_acyclic_reference puts it in, code outside does not copy it to another slot). *)
Inductive entry : Type :=
| EObj (o : O)
| EFwd (v : option O).

(** SerializedObjectLog, _references.py:56-70 *)
Record log : Type := mkLog {
  log_ids : list (nat * nat);   (* _serialized_id_by_pyid *)
  log_entries : list entry      (* _object_by_serialized_id *)
}.

(** __init__, _references.py:68-70 *)
Definition log_empty : log := mkLog [] [].

(** __contains__, _references.py:72-73 *)
Definition log_contains (l : log) (o : O) : bool := dmem Nat.eqb (pyid o) (log_ids l).

(** get_serialized_id, _references.py:75-85 *)
Definition log_get_serialized_id (l : log) (o : O) : result nat :=
  match dget Nat.eqb (pyid o) (log_ids l) with
  | None => Err ENotSerialized
  | Some sid =>
      match nth_error (log_entries l) sid with
      | None => Err EIndex
      | Some (EFwd None) => Err (EForwardRef sid)
      | Some _ => Ok sid
      end
  end.

(** get_object, _references.py:87-94. Returns the stored slot itself, so an acyclic entry
    comes back as its ForwardReference. Ids are never negative here: they come from varints. *)
Definition log_get_object (l : log) (sid : nat) : result entry :=
  match nth_error (log_entries l) sid with
  | Some e => Ok e
  | None => Err EIdOutOfRange
  end.

(** record_reference, _references.py:96-100 *)
Definition log_record (l : log) (o : O) : nat * log :=
  let sid := length (log_entries l) in
  (sid, mkLog (dset Nat.eqb (pyid o) sid (log_ids l)) (log_entries l ++ [EObj o])).

Fixpoint list_set {A} (l : list A) (i : nat) (x : A) : list A :=
  match l, i with
  | [], _ => []
  | _ :: r, 0 => x :: r
  | a :: r, S i => a :: list_set r i x
  end.

(** replace_reference, _references.py:129-136 *)
Definition log_replace (l : log) (sid : nat) (e : entry) : result log :=
  if negb (Nat.eqb (S sid) (length (log_entries l))) then Err EValue
  else Ok (mkLog (log_ids l) (list_set (log_entries l) sid e)).

(** ForwardReference.set_value on the forward reference created for slot [sid],
    _references.py:169-172. It has an effect on the log only while the slot still holds it. *)
Definition log_set_forward (l : log) (sid : nat) (o : O) : log :=
  match nth_error (log_entries l) sid with
  | Some (EFwd None) => mkLog (log_ids l) (list_set (log_entries l) sid (EFwd (Some o)))
  | _ => l
  end.

(** The first half of record_acyclic_reference, _references.py:111-113 *)
Definition log_open_acyclic (l : log) (o : O) : nat * log :=
  let '(sid, l1) := log_record l o in
  (sid, match log_replace l1 sid (EFwd None) with Ok l2 => l2 | Err _ => l1 end).

(** The except clause of record_acyclic_reference, _references.py:117-125 *)
Definition acyclic_exn (sid : nat) {A} (r : result A) : result A :=
  match r with
  | Err (EForwardRef k) => if Nat.eqb k sid then Err EIllegalCyclic else r
  | _ => r
  end.

(** Client programs of the log: any sequence of its operations, with nested
    [with log.record_acyclic_reference(o): body] blocks, exceptions and handlers. *)
Inductive prog : Type :=
| PSkip
| PSeq (p q : prog)
| PRecord (o : O)
| PReplace (sid : nat) (o : O)
| PContains (o : O)
| PGetId (o : O)
| PGetObj (sid : nat)
| PAcyclic (o : O) (body : prog)
| PRaise
| PTry (p handler : prog).

(** What a client observes of each operation. *)
Inductive event : Type :=
| EvRecord (o : O) (sid : nat)
| EvReplace (sid : nat) (o : O) (r : result unit)
| EvContains (o : O) (b : bool)
| EvGetId (o : O) (r : result nat)
| EvGetObj (sid : nat) (r : result entry)
| EvEnter (o : O) (sid : nat)
| EvLeave (o : O) (sid : nat).

Definition unit_of {A} (r : result A) : result unit :=
  match r with Ok _ => Ok tt | Err e => Err e end.

(** Execution: result (normal or the escaping exception), final log and the observations. *)
Fixpoint run (p : prog) (l : log) : result unit * log * list event :=
  match p with
  | PSkip => (Ok tt, l, [])
  | PSeq a b =>
      let '(r, l1, t1) := run a l in
      match r with
      | Ok _ => let '(r2, l2, t2) := run b l1 in (r2, l2, t1 ++ t2)
      | Err _ => (r, l1, t1)
      end
  | PRecord o => let '(sid, l1) := log_record l o in (Ok tt, l1, [EvRecord o sid])
  | PReplace sid o =>
      match log_replace l sid (EObj o) with
      | Ok l1 => (Ok tt, l1, [EvReplace sid o (Ok tt)])
      | Err e => (Err e, l, [EvReplace sid o (Err e)])
      end
  | PContains o => (Ok tt, l, [EvContains o (log_contains l o)])
  | PGetId o => let r := log_get_serialized_id l o in (unit_of r, l, [EvGetId o r])
  | PGetObj sid => let r := log_get_object l sid in (unit_of r, l, [EvGetObj sid r])
  | PAcyclic o body =>
      (* record_acyclic_reference, _references.py:102-127 *)
      let '(sid, l1) := log_open_acyclic l o in
      let '(r, l2, t) := run body l1 in
      (acyclic_exn sid r, log_set_forward l2 sid o, EvEnter o sid :: t ++ [EvLeave o sid])
  | PRaise => (Err EType, l, [])
  | PTry a h =>
      let '(r, l1, t1) := run a l in
      match r with
      | Ok _ => (r, l1, t1)
      | Err _ => let '(r2, l2, t2) := run h l1 in (r2, l2, t1 ++ t2)
      end
  end.
End Log.
Arguments EObj {O} o.
Arguments EFwd {O} v.
Arguments mkLog {O} _ _.
Arguments log_empty {O}.
