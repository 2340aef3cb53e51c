(** Independent description of the object log: the list of objects in the order they
    were recorded, and what is stored under each id. *)
From Coq Require Import List Bool Arith.
From Verif Require Import Base ModelLog.
Import ListNotations.
Open Scope nat_scope.

Section SpecLog.
Context {O : Type} (pyid : O -> nat).

(** [recorded]: the objects recorded so far, oldest first. [stored i]: what id [i] now denotes. *)
Record ideal : Type := mkIdeal { recorded : list O; stored : nat -> option (@entry O) }.

Definition ideal_empty : ideal := mkIdeal [] (fun _ => None).

(** [i] is the latest position at which an object identical to [o] was recorded. *)
Definition latest_id (s : ideal) (o : O) (i : nat) : Prop :=
  (exists o', nth_error (recorded s) i = Some o' /\ pyid o' = pyid o) /\
  (forall j o', nth_error (recorded s) j = Some o' -> pyid o' = pyid o -> j <= i).

Definition never_recorded (s : ideal) (o : O) : Prop :=
  forall o', In o' (recorded s) -> pyid o' <> pyid o.

Definition upd (f : nat -> option (@entry O)) (i : nat) (e : @entry O) : nat -> option (@entry O) :=
  fun j => if Nat.eqb j i then Some e else f j.

(** Allowed observations and their effect. *)
Inductive ideal_step : ideal -> @event O -> ideal -> Prop :=
| is_record s o :
    ideal_step s (EvRecord o (length (recorded s)))
      (mkIdeal (recorded s ++ [o]) (upd (stored s) (length (recorded s)) (EObj o)))
| is_replace_ok s sid o :
    S sid = length (recorded s) ->
    ideal_step s (EvReplace sid o (Ok tt)) (mkIdeal (recorded s) (upd (stored s) sid (EObj o)))
| is_replace_err s sid o :
    S sid <> length (recorded s) ->
    ideal_step s (EvReplace sid o (Err EValue)) s
| is_contains_yes s o i : latest_id s o i -> ideal_step s (EvContains o true) s
| is_contains_no s o : never_recorded s o -> ideal_step s (EvContains o false) s
| is_getid_ok s o i : latest_id s o i -> stored s i <> Some (EFwd None) ->
    ideal_step s (EvGetId o (Ok i)) s
| is_getid_fwd s o i : latest_id s o i -> stored s i = Some (EFwd None) ->
    ideal_step s (EvGetId o (Err (EForwardRef i))) s
| is_getid_none s o : never_recorded s o -> ideal_step s (EvGetId o (Err ENotSerialized)) s
| is_getobj_ok s sid e : stored s sid = Some e -> ideal_step s (EvGetObj sid (Ok e)) s
| is_getobj_err s sid : length (recorded s) <= sid -> ideal_step s (EvGetObj sid (Err EIdOutOfRange)) s
| is_enter s o :
    ideal_step s (EvEnter o (length (recorded s)))
      (mkIdeal (recorded s ++ [o]) (upd (stored s) (length (recorded s)) (EFwd None)))
| is_leave_held s o sid : stored s sid = Some (EFwd None) ->
    ideal_step s (EvLeave o sid) (mkIdeal (recorded s) (upd (stored s) sid (EFwd (Some o))))
| is_leave_replaced s o sid : stored s sid <> Some (EFwd None) ->
    ideal_step s (EvLeave o sid) s.

Inductive ideal_run : ideal -> list (@event O) -> ideal -> Prop :=
| ir_nil s : ideal_run s [] s
| ir_cons s e s1 t s2 : ideal_step s e s1 -> ideal_run s1 t s2 -> ideal_run s (e :: t) s2.
End SpecLog.
