(** Properties C11, C12: the object log. *)
From Coq Require Import List Bool Arith Lia.
From Verif Require Import Base Dict ModelLog SpecLog LogFacts.
Import ListNotations.
Open Scope nat_scope.

(** C11: every history of operations, with nested blocks, exceptions and handlers, started on
    a fresh log, is a run of the ideal log. *)
Theorem C11_log_refines_ideal : forall (O : Type) (pyid : O -> nat) (p : prog) r l' t,
  run pyid p log_empty = (r, l', t) ->
  exists s', ideal_run pyid ideal_empty t s' /\
    length (log_entries l') = length (recorded s') /\
    forall i, nth_error (log_entries l') i = stored s' i.
Proof.
  intros O pyid p r l' t R.
  destruct (run_abs pyid p _ _ _ _ _ (abs_empty pyid) R) as [s' [R' [A1 [A2 _]]]]. eauto.
Qed.

(** The k-th recorded object (by either way of recording) gets id k. *)
Theorem C11_ids_sequential : forall (O : Type) (pyid : O -> nat) (p : prog) r l' t,
  run pyid p log_empty = (r, l', t) ->
  new_ids t = seq 0 (length (new_ids t)) /\ length (log_entries l') = length (new_ids t).
Proof.
  intros O pyid p r l' t R.
  destruct (run_abs pyid p _ _ _ _ _ (abs_empty pyid) R) as [s' [R' [A1 _]]].
  destruct (ideal_run_ids _ _ _ _ R') as [H1 H2]. cbn in *. split; auto. congruence.
Qed.

(** Entries older than the most recent one never change, whatever happens later. *)
Theorem C11_old_entries_stable : forall (O : Type) (pyid : O -> nat) (p : prog) (l : log) r l' t i,
  run pyid p l = (r, l', t) -> S i < length (log_entries l) ->
  nth_error (log_entries l') i = nth_error (log_entries l) i.
Proof.
  intros O pyid p l r l' t i R H.
  assert (extends (S i) l l') as [_ X] by (eapply run_extends; eauto). apply X. lia.
Qed.

(** Single operations. *)
Theorem C11_record_then_lookup : forall (O : Type) (pyid : O -> nat) (l : log) (o : O) sid l',
  log_record pyid l o = (sid, l') ->
  sid = length (log_entries l) /\
  log_get_object l' sid = Ok (EObj o) /\
  log_get_serialized_id pyid l' o = Ok sid /\ log_contains pyid l' o = true.
Proof.
  intros O pyid l o sid l' H. injection H as <- <-. split; auto.
  unfold log_get_object, log_get_serialized_id, log_contains, dmem. cbn.
  rewrite (dget_dset_same _ Nat.eqb_eq), nth_error_snoc, Nat.eqb_refl. auto.
Qed.

Theorem C11_only_last_replaceable : forall (O : Type) (l : log) (sid : nat) (e : @entry O),
  match log_replace l sid e with
  | Ok l' => S sid = length (log_entries l) /\ log_get_object l' sid = Ok e /\
             (forall i, i <> sid -> log_get_object l' i = log_get_object l i)
  | Err x => S sid <> length (log_entries l) /\ x = EValue
  end.
Proof.
  intros O l sid e. unfold log_replace, log_get_object.
  destruct (Nat.eqb_spec (S sid) (length (log_entries l))) as [E|E]; cbn; auto.
  split; auto. split; [|intros i Hi]; rewrite list_set_nth by lia.
  - rewrite Nat.eqb_refl. auto.
  - apply Nat.eqb_neq in Hi. rewrite Hi. auto.
Qed.

Theorem C11_unrecorded_raise : forall (O : Type) (pyid : O -> nat) (p : prog) r l' t,
  run pyid p log_empty = (r, l', t) ->
  (forall o, (forall o', pyid o' = pyid o -> forall i, ~ In (EvRecord o' i) t /\ ~ In (EvEnter o' i) t) ->
     log_get_serialized_id pyid l' o = Err ENotSerialized /\ log_contains pyid l' o = false) /\
  (forall sid, length (new_ids t) <= sid -> log_get_object l' sid = Err EIdOutOfRange).
Proof.
  intros O pyid p r l' t R.
  destruct (run_abs pyid p _ _ _ _ _ (abs_empty pyid) R) as [s' [R' [A1 [A2 A3]]]].
  destruct (ideal_run_ids _ _ _ _ R') as [_ L]. cbn in L. split.
  - intros o H. unfold log_get_serialized_id, log_contains, dmem.
    specialize (A3 (pyid o)). destruct (dget _ _ _) as [i|]; auto. exfalso.
    destruct A3 as [[o' [N E]] _]. apply nth_error_In in N.
    assert (forall s t s', ideal_run pyid s t s' -> In o' (recorded s') ->
              In o' (recorded s) \/ exists i, In (EvRecord o' i) t \/ In (EvEnter o' i) t) as X.
    { clear. induction 1 as [|s e s1 t s2 HS HR IH]; auto. intros HI. apply IH in HI.
      destruct HI as [HI|[i [HI|HI]]]; [|right; exists i; cbn; auto..].
      inversion HS; subst; cbn in HI; auto; apply in_app_iff in HI as [HI|[<-|[]]]; auto;
        right; eexists; cbn; eauto. }
    destruct (X _ _ _ R' N) as [[]|[j [HI|HI]]]; destruct (H o' E j); auto.
  - intros sid H. unfold log_get_object. rewrite (proj2 (nth_error_None _ _)); auto. lia.
Qed.

Example C11_example :
  let '(r, l, t) := run (fun x => x) (PSeq (PRecord 7) (PSeq (PRecord 9) (PSeq (PReplace 1 11) (PGetId 9)))) log_empty in
  r = Ok tt /\ t = [EvRecord 7 0; EvRecord 9 1; EvReplace 1 11 (Ok tt); EvGetId 9 (Ok 1)] /\
  log_get_object l 1 = Ok (EObj 11) /\ log_replace l 0 (EObj 5) = Err EValue.
Proof. repeat split. Qed.

(** C12: inside the block, every attempt to reference the object fails, and a failed attempt
    that is not handled turns into the illegal-cyclic-reference error. The body may do anything
    else (nested blocks included) but does not itself re-record the object or overwrite its slot. *)
Theorem C12_blocked_inside : forall (O : Type) (pyid : O -> nat) (l : log) (o : O) (body : prog) r l2 t,
  records pyid o body = false -> replaces (length (log_entries l)) body = false ->
  run pyid body (snd (log_open_acyclic pyid l o)) = (r, l2, t) ->
  (forall o' x, In (EvGetId o' x) t -> pyid o' = pyid o -> x = Err (EForwardRef (length (log_entries l)))) /\
  fst (fst (run pyid (PAcyclic o body) l)) =
    (match r with
     | Err (EForwardRef k) => if Nat.eqb k (length (log_entries l)) then Err EIllegalCyclic else r
     | _ => r
     end) .
Proof.
  intros O pyid l o body r l2 t N1 N2 R. split.
  - intros o' x HI HP. eapply (run_blocked pyid o); eauto; rewrite open_acyclic_eq; cbn.
    + apply (dget_dset_same _ Nat.eqb_eq).
    + rewrite nth_error_snoc, Nat.eqb_refl. auto.
  - rewrite open_acyclic_eq in R. cbn [run]. rewrite open_acyclic_eq. cbn in R. rewrite R. cbn.
    destruct r as [|[]]; auto.
Qed.

(** An attempt that the body does not catch makes the block raise the error. *)
Theorem C12_attempt_raises : forall (O : Type) (pyid : O -> nat) (l : log) (o o' : O) (before after : prog),
  records pyid o before = false -> replaces (length (log_entries l)) before = false ->
  pyid o' = pyid o ->
  fst (fst (run pyid before (snd (log_open_acyclic pyid l o)))) = Ok tt ->
  fst (fst (run pyid (PAcyclic o (PSeq before (PSeq (PGetId o') after))) l)) = Err EIllegalCyclic.
Proof.
  intros O pyid l o o' b a N1 N2 HP R.
  destruct (run pyid b (snd (log_open_acyclic pyid l o))) as [[r1 l1] t1] eqn:E1. cbn in R. subst r1.
  pose proof (run_keeps_id pyid o _ _ _ _ _ N1 E1) as K1.
  assert (length (log_entries l) < length (log_entries (snd (log_open_acyclic pyid l o)))) as B.
  { rewrite open_acyclic_eq. cbn. rewrite app_length. cbn. lia. }
  pose proof (run_keeps_slot pyid _ _ _ _ _ _ N2 B E1) as [K2 _].
  rewrite open_acyclic_eq in K1, K2, E1. cbn in K1, K2, E1.
  rewrite (dget_dset_same _ Nat.eqb_eq) in K1. rewrite nth_error_snoc, Nat.eqb_refl in K2.
  cbn [run]. rewrite open_acyclic_eq. rewrite E1.
  unfold log_get_serialized_id. rewrite HP, K1, K2. cbn.
  rewrite Nat.eqb_refl. auto.
Qed.

(** However the block ends, afterwards the object can be referenced under its id. *)
Theorem C12_released_after : forall (O : Type) (pyid : O -> nat) (l : log) (o : O) (body : prog) r l' t,
  records pyid o body = false -> replaces (length (log_entries l)) body = false ->
  run pyid (PAcyclic o body) l = (r, l', t) ->
  log_get_serialized_id pyid l' o = Ok (length (log_entries l)) /\
  log_get_object l' (length (log_entries l)) = Ok (EFwd (Some o)) /\ log_contains pyid l' o = true.
Proof.
  intros O pyid l o body r l' t N1 N2 R. cbn [run] in R. rewrite open_acyclic_eq in R.
  match type of R with context [run pyid body ?l1] => set (lo := l1) in *; destruct (run pyid body lo) as [[r1 l2] t1] eqn:E1 end.
  injection R as <- <- <-.
  pose proof (run_keeps_id pyid o _ _ _ _ _ N1 E1) as K1.
  assert (length (log_entries l) < length (log_entries lo)) as B
    by (unfold lo; cbn; rewrite app_length; cbn; lia).
  pose proof (run_keeps_slot pyid _ _ _ _ _ _ N2 B E1) as [K2 B2].
  unfold lo in K1, K2. cbn in K1, K2.
  rewrite (dget_dset_same _ Nat.eqb_eq) in K1. rewrite nth_error_snoc, Nat.eqb_refl in K2.
  unfold log_set_forward. rewrite K2.
  unfold log_get_serialized_id, log_get_object, log_contains, dmem. cbn. rewrite K1.
  rewrite list_set_nth, Nat.eqb_refl by auto. auto.
Qed.

(** Blocks never confuse their ids: on a log without open blocks, no program ends with a
    ForwardReferenceError or leaves an entry unresolved, however its blocks are nested and
    whichever exceptions end them; inside enclosing blocks, an escaping
    ForwardReferenceError is always about one of the enclosing blocks. *)
Theorem C12_no_leak : forall (O : Type) (pyid : O -> nat) (p : prog) (l : log) r l' t,
  run pyid p l = (r, l', t) ->
  (forall i, nth_error (log_entries l') i = Some (EFwd None) ->
             nth_error (log_entries l) i = Some (EFwd None)) /\
  (forall k, r = Err (EForwardRef k) -> nth_error (log_entries l) k = Some (EFwd None)).
Proof. intros O pyid p l r l' t R. apply (run_open pyid p l r l' t R). Qed.

Corollary C12_toplevel_clean : forall (O : Type) (pyid : O -> nat) (p : prog) r l' t,
  run pyid p log_empty = (r, l', t) ->
  (forall i, nth_error (log_entries l') i <> Some (EFwd None)) /\ (forall k, r <> Err (EForwardRef k)).
Proof.
  intros O pyid p r l' t R. destruct (C12_no_leak _ _ _ _ _ _ _ R) as [H1 H2]. split.
  - intros i H. apply H1 in H. destruct i; discriminate.
  - intros k H. apply H2 in H. destruct k; discriminate.
Qed.

(** Nested blocks 1 inside 0; the inner body references the outer object. *)
Example C12_example :
  let inner := PAcyclic 20 (PGetId 10) in
  let '(r, l, t) := run (fun x => x) (PAcyclic 10 inner) log_empty in
  records (fun x => x) 10 inner = false /\ replaces 0 inner = false /\
  r = Err EIllegalCyclic /\ In (EvGetId 10 (Err (EForwardRef 0))) t /\
  log_get_serialized_id (fun x => x) l 10 = Ok 0 /\ log_get_serialized_id (fun x => x) l 20 = Ok 1.
Proof. repeat split. cbn. auto. Qed.

Print Assumptions C11_log_refines_ideal.
Print Assumptions C11_ids_sequential.
Print Assumptions C11_old_entries_stable.
Print Assumptions C11_record_then_lookup.
Print Assumptions C11_only_last_replaceable.
Print Assumptions C11_unrecorded_raise.
Print Assumptions C12_blocked_inside.
Print Assumptions C12_attempt_raises.
Print Assumptions C12_released_after.
Print Assumptions C12_no_leak.
Print Assumptions C12_toplevel_clean.
