(** Property C67: the sequence methods arrays inherit, and sparse arrays built from values. *)
From Coq Require Import List NArith ZArith Bool Lia.
From Verif Require Import Base Dict SpecArray ModelArray ArrayFacts ArrayFacts2 ArrayFacts3 ObjectFacts Prop_Array SpecSequence ModelSequence SequenceFacts.
Import ListNotations.
Open Scope Z_scope.

Lemma seen {T} (a : arr T) : arr_ok a ->
  arr_iter a = Ok (aabs a) /\ arr_len a = Z.of_nat (length (aabs a)) /\ arr_used a = number_used (aabs a).
Proof. intros A. split; [apply arr_iter_eq; auto|]. split; [apply arr_len_eq; auto|]. rewrite number_used_eq. apply arr_used_eq; auto. Qed.

(** Dense storage answers every sequence of operations, inherited ones among them, as the plain list does. *)
Theorem C67_dense : forall T (same : T -> T -> bool) values ops tr a,
  seq_ops same (ADense (dense_init values)) ops = (tr, a) ->
  map fst tr = ops /\
  exists final, shistory same false values tr final /\ arr_iter a = Ok final /\
                arr_len a = Z.of_nat (length final) /\ arr_used a = number_used final.
Proof.
  intros T same values ops tr a E. destruct (dense_init_spec values) as [OK L].
  destruct (seq_ops_ok same ops (ADense (dense_init values)) tr a OK E) as (A & _ & F & H).
  split; [exact F|]. exists (aabs a). cbn [is_dense negb aabs] in H. rewrite L in H. split; [exact H|]. apply seen. exact A.
Qed.

(** Sparse storage does too, apart from the listed deviations ([sdeviation] in SpecSequence.v), from whichever
    constructor it comes. Missing from the full statement: the deviations, which the refutations exhibit. *)
Theorem C67_sparse_partial : forall T (same : T -> T -> bool) (s : sparse T) start ops tr a,
  (exists entries len, sparse_init_length entries len = Ok s /\ start = last_entries entries (Z.to_nat len)) \/
  (exists entries, sparse_init_entries entries = Ok s /\ start = last_entries entries (Z.to_nat (sparse_len s))) \/
  (sparse_init_values start = Ok s) ->
  seq_ops same (ASparse s) ops = (tr, a) ->
  map fst tr = ops /\
  exists final, shistory same true start tr final /\ arr_iter a = Ok final /\
                arr_len a = Z.of_nat (length final) /\ arr_used a = number_used final.
Proof.
  intros T same s start ops tr a C E.
  assert (sparse_ok s /\ sabs s = start) as [OK L].
  { destruct C as [(es & len & I & ->)|[(es & I & ->)|I]].
    - destruct (sparse_init_length_ok _ _ _ I) as (OK & _ & S1). rewrite last_entries_eq in S1. auto.
    - destruct (sparse_init_entries_ok _ _ I) as (OK & S1 & _). rewrite last_entries_eq in S1. auto.
    - pose proof (init_values_ok start) as V. rewrite I in V. tauto. }
  destruct (seq_ops_ok same ops (ASparse s) tr a OK E) as (A & _ & F & H).
  split; [exact F|]. exists (aabs a). cbn [is_dense negb aabs] in H. rewrite L in H. split; [exact H|]. apply seen. exact A.
Qed.

(** The only inherited methods that can deviate are reverse() and extending an array by itself; with three or
    more elements reverse() reverses. *)
Theorem C67_exact : forall T (same : T -> T -> bool) (s : sparse T) entries len before tr a o r a',
  sparse_init_length entries len = Ok s ->
  seq_ops same (ASparse s) before = (tr, a) ->
  seq_op same a o = (r, a') ->
  match o with SBase _ | SExtendSelf => False | SReverse => 2 < arr_used a | _ => True end ->
  exists l l', arr_iter a = Ok l /\ sspec same l o r l' /\ arr_iter a' = Ok l'.
Proof.
  intros T same s es len before tr a o r a' I E O X. destruct (sparse_init_length_ok _ _ _ I) as (OK & _ & _).
  destruct (seq_ops_ok same before (ASparse s) tr a OK E) as (A & _ & _ & _).
  destruct (seq_op_ok same a o r a' A O) as (A' & _ & R). exists (aabs a), (aabs a').
  split; [apply seen; auto|]. split; [|apply seen; auto]. destruct R as [R|[_ R]]; [exact R|exfalso].
  rewrite (proj2 (proj2 (seen a A))) in X. inversion R; subst; first [exact X|lia].
Qed.

(** A sparse array made from a sequence of values holds them; one too long raises ValueError. *)
Theorem C67_values : forall T (values : list (option T)),
  match sparse_init_values values with
  | Ok s => arr_iter (ASparse s) = Ok values /\ Z.of_nat (length values) <= 2 ^ 32 - 1
  | Err e => e = EValue /\ 2 ^ 32 - 1 < Z.of_nat (length values)
  end.
Proof.
  intros T values. pose proof (init_values_ok values) as V. destruct (sparse_init_values values) as [s|e]; [|exact V].
  destruct V as (OK & L & B). split; [|exact B]. rewrite (arr_iter_eq (ASparse s) OK). cbn [aabs]. congruence.
Qed.

(** Made from an iterable that has no length, it holds the values up to the last that is not a hole. *)
Theorem C67_unsized_values_partial : forall T (values : list (option T)),
  match sparse_init_unsized values with
  | Ok s => exists l n, arr_iter (ASparse s) = Ok l /\ values = l ++ repeat None n /\ (forall l', l <> l' ++ [None])
  | Err e => e = EIndex /\ exists i, occupied values i /\ 2 ^ 32 - 1 <= i
  end.
Proof.
  intros T values. pose proof (init_unsized_ok values) as V. destruct (sparse_init_unsized values) as [s|e]; [|exact V].
  destruct V as (OK & (n & L) & B). exists (sabs s), n. split; [apply (arr_iter_eq (ASparse s) OK)|]. auto.
Qed.

(** SparseArrayProperties(v for v in [1, JSHole]) has length 1, SparseArrayProperties([1, JSHole]) length 2. *)
Theorem C67_unsized_refuted : exists (values : list (option Z)) s1 s2,
  sparse_init_values values = Ok s1 /\ sparse_init_unsized values = Ok s2 /\
  arr_iter (ASparse s1) = Ok values /\ arr_iter (ASparse s2) = Ok [Some 1].
Proof. exists [Some 1; None]. eexists. eexists. repeat split; vm_compute; reflexivity. Qed.

(** SparseArrayProperties(entries=[(0, 1), (1, 2)], length=5).reverse() raises AssertionError, and one of the
    two elements is lost. *)
Theorem C67_reverse_refuted : exists (s : sparse Z) a,
  sparse_init_length [(0, 1); (1, 2)] 5 = Ok s /\
  arr_iter (ASparse s) = Ok [Some 1; Some 2; None; None; None] /\
  seq_op Z.eqb (ASparse s) SReverse = (AExn EAssert, a) /\
  arr_iter a = Ok [None; Some 2; None; None; None] /\
  forall same final, ~ sspec same [Some 1; Some 2; None; None; None] SReverse (AExn EAssert) final.
Proof.
  eexists. eexists. split; [vm_compute; reflexivity|]. split; [vm_compute; reflexivity|]. split; [vm_compute; reflexivity|].
  split; [vm_compute; reflexivity|]. intros same final H. inversion H.
Qed.
(** SparseArrayProperties([JSHole, 7]).reverse() raises AssertionError after reversing. *)
Theorem C67_reverse_one_refuted : exists (s : sparse Z) a,
  sparse_init_values [None; Some 7] = Ok s /\
  seq_op Z.eqb (ASparse s) SReverse = (AExn EAssert, a) /\ arr_iter a = Ok [Some 7; None].
Proof. eexists. eexists. repeat split; vm_compute; reflexivity. Qed.

Example C67_case : exists (s : sparse Z) tr a,
  sparse_init_length [(0, 1); (3, 2); (5, 1)] 7 = Ok s /\
  seq_ops Z.eqb (ASparse s)
    [SContains (Some 2); SContains (Some 9); SCount (Some 1); SCount None; SIndex (Some 1) (-3) None; SIndex (Some 1) 1 (Some 5);
     SReversed; SReverse; SRemove (Some 1); SRemove None; SBase OIter; SExtendSelf; SClear; SBase OLen] = (tr, a) /\
  map snd tr = [ABool true; ABool false; ANum 2; ANum 4; ANum 5; AExn EValue;
    AList [None; Some 1; None; Some 2; None; None; Some 1]; ADone; ADone; ADone;
    ABase (RIter [None; Some 2; None; None; Some 1]); ADone; ADone; ABase (RNum 0)].
Proof. eexists. eexists. eexists. split; [vm_compute; reflexivity|]. split; vm_compute; reflexivity. Qed.
Example C67_dense_case : exists tr a,
  seq_ops Z.eqb (ADense (dense_init [Some 1; None; Some 3; None]))
    [SIndex None 0 None; SIndex None (-1) None; SReverse; SBase OIter; SExtendSelf; SRemove (Some 4); SBase OUsed; SClear] = (tr, a) /\
  map snd tr = [ANum 1; ANum 3; ADone; ABase (RIter [None; Some 3; None; Some 1]); ADone; AExn EValue; ABase (RNum 4); ADone].
Proof. eexists. eexists. split; vm_compute; reflexivity. Qed.

Print Assumptions C67_dense.
Print Assumptions C67_sparse_partial.
Print Assumptions C67_exact.
Print Assumptions C67_values.
Print Assumptions C67_unsized_values_partial.
Print Assumptions C67_unsized_refuted.
Print Assumptions C67_reverse_refuted.
Print Assumptions C67_reverse_one_refuted.
