(** Properties C34-C37: array storage.
    C34 dense storage, C35 sparse storage, C36 equality, C37 regions. *)
From Coq Require Import List ZArith Bool Lia.
From Verif Require Import Base Dict SpecArray ModelArray ArrayFacts ArrayFacts2 ArrayFacts3.
Import ListNotations.
Open Scope Z_scope.

(** ** C34 *)
(** A dense array built from [values] answers every sequence of operations as the plain list
    [values] with holes does. *)
Theorem C34_dense_refines_list : forall T (values : list (option T)) ops tr a,
  arr_ops (ADense (dense_init values)) ops = (tr, a) ->
  map fst tr = ops /\
  exists final, spec_ops values tr final /\ arr_iter a = Ok final /\
                arr_len a = Z.of_nat (length final) /\ arr_used a = number_used final.
Proof.
  intros T values ops tr a R. split.
  - clear -R. revert R. generalize (ADense (dense_init values)) as a0. revert tr a.
    induction ops as [|o ops IH]; intros tr a a0 R; cbn [arr_ops] in R; [injection R as <- <-; auto|].
    destruct (arr_op a0 o) as [x a1]. destruct (arr_ops a1 ops) as [xs a2] eqn:E. injection R as <- <-.
    cbn [map fst]. f_equal. eauto.
  - destruct (dense_init_spec values) as [OK E].
    destruct (dense_ops_refines ops _ _ _ OK R) as [d' [-> [OK' S]]].
    exists (d_items d'). rewrite E in S. split; auto.
Qed.

Example C34_hyp : exists tr a,
  arr_ops (ADense (dense_init [Some 1; None; Some 3]))
          [OSet (-1) None; OInsert 1 (Some 7); OPop 0; OResize 5; OIndexes; OGet 9] = (tr, a) /\
  map snd tr = [RUnit; RUnit; RElem (Some 1); RUnit; RIndexes [0]; RExn EIndex].
Proof. eexists. eexists. split; vm_compute; reflexivity. Qed.

(** ** C35 *)
(** The value last given for each index by a list of (index, value) entries. *)
Definition last_entries {T} (entries : list (Z * T)) (len : nat) : list (option T) :=
  map (fun k => option_map snd (find (fun p => fst p =? Z.of_nat k) (rev entries))) (seq 0 len).

Lemma last_entries_eq {T} (es : list (Z * T)) n :
  map (fun k => dget Z.eqb (Z.of_nat k) (rev es)) (seq 0 n) = last_entries es n.
Proof.
  apply map_ext. intros k. induction (rev es) as [|[a v] r IH]; auto. cbn [dget find fst].
  rewrite Z.eqb_sym. destruct (a =? Z.of_nat k); auto.
Qed.

(** Every operation sequence on a sparse array behaves as on a list with holes, apart from the
    listed deviations ([sparse_deviation] in SpecArray.v). Missing from the full statement: the
    deviations themselves, which the refutations below exhibit. *)
Theorem C35_sparse_refines_list_partial : forall T (entries : list (Z * T)) len s ops tr a,
  sparse_init_length entries len = Ok s ->
  arr_ops (ASparse s) ops = (tr, a) ->
  exists final, sparse_spec_ops (last_entries entries (Z.to_nat len)) tr final /\
                arr_iter a = Ok final /\
                arr_len a = Z.of_nat (length final) /\ arr_used a = number_used final.
Proof.
  intros T es len s ops tr a I R. destruct (sparse_init_length_ok _ _ _ I) as [OK [_ A]].
  rewrite last_entries_eq in A. destruct (sparse_ops_refines ops _ _ _ OK R) as [s' [-> [OK' S]]].
  rewrite A in S. exists (sabs s'). split; auto.
  split; [apply (arr_iter_eq (ASparse s') OK')|]. split; [apply (arr_len_eq (ASparse s') OK')|].
  rewrite number_used_eq. apply (arr_used_eq (ASparse s') OK').
Qed.

(** The same from entries without a length: the length is one past the largest index. *)
Theorem C35_sparse_entries_refines_list_partial : forall T (entries : list (Z * T)) s ops tr a,
  sparse_init_entries entries = Ok s ->
  arr_ops (ASparse s) ops = (tr, a) ->
  (forall k, In k (map fst entries) -> 0 <= k < sparse_len s) /\
  (entries <> [] -> In (sparse_len s - 1) (map fst entries)) /\
  exists final, sparse_spec_ops (last_entries entries (Z.to_nat (sparse_len s))) tr final /\
                arr_iter a = Ok final.
Proof.
  intros T es s ops tr a I R. destruct (sparse_init_entries_ok _ _ I) as [OK [A [H1 H2]]].
  split; [|split].
  - intros k HK. apply H2 in HK. unfold sparse_len. lia.
  - intros NE. destruct H1 as [[_ H1]|H1]; [congruence|]. unfold sparse_len.
    replace (s_max s + 1 - 1) with (s_max s) by lia. auto.
  - rewrite last_entries_eq in A. destruct (sparse_ops_refines ops _ _ _ OK R) as [s' [-> [OK' S]]].
    rewrite A in S. exists (sabs s'). split; auto. apply (arr_iter_eq (ASparse s') OK').
Qed.

(** A single operation on an array with more than two elements never hits the assertion. *)
Theorem C35_no_assertion_with_three_elements : forall T (s : sparse T) o tr a entries len ops0 tr0 a0,
  sparse_init_length entries len = Ok s ->
  arr_ops (ASparse s) ops0 = (tr0, a0) -> 2 < arr_used a0 ->
  arr_op a0 o = (tr, a) -> tr <> RExn EAssert.
Proof.
  intros T s o tr a es len ops0 tr0 a0 I R U O ->.
  destruct (sparse_init_length_ok _ _ _ I) as [OK _].
  destruct (sparse_ops_refines ops0 _ _ _ OK R) as [s0 [-> [OK0 _]]].
  destruct (sparse_op_refines s0 o _ _ OK0 O) as [s1 [-> [_ [S|D]]]].
  - inversion S.
  - inversion D as [i v k P NU| | | | | |]; subst. rewrite number_used_eq, <- sparse_used_eq in NU by auto. cbn [arr_used] in U. lia.
Qed.

Example C35_hyp : exists s tr a,
  sparse_init_length [(2, 10); (7, 20); (4, 30); (7, 40)] 9 = Ok s /\
  arr_ops (ASparse s) [OGet 7; OSet 0 (Some 1); ODel 3; OIndexes; OResize 4; OIter] = (tr, a) /\
  map snd tr = [RElem (Some 40); RUnit; RUnit; RIndexes [0; 2; 3; 6]; RUnit;
                RIter [Some 1; None; Some 10; Some 30]] /\ 2 < arr_used a.
Proof. eexists. eexists. eexists. split; [|split; [|split]]; vm_compute; reflexivity. Qed.

(** The full statement is false of the code. Deleting the elements of a sparse array in
    ascending order raises AssertionError on the second deletion (a hole is assigned). *)
Theorem C35_refuted_assertion : exists (entries : list (Z * Z)) len s tr a,
  sparse_init_length entries len = Ok s /\
  arr_ops (ASparse s) [OIndexes; OSet 0 None; OSet 1 None] = (tr, a) /\
  map snd tr = [RIndexes [0; 1; 2]; RUnit; RExn EAssert] /\
  forall final, ~ spec_ops (last_entries entries (Z.to_nat len)) tr final.
Proof.
  exists [(0, 1); (1, 2); (2, 3)], 5. eexists. eexists. eexists.
  split; [vm_compute; reflexivity|]. split; [vm_compute; reflexivity|]. split; [reflexivity|].
  intros final H. vm_compute in H.
  repeat match goal with
  | X : spec_ops _ _ _ |- _ => inversion X; subst; clear X
  | X : spec_op _ _ _ _ |- _ => inversion X; subst; clear X
  end; cbn in *; discriminate.
Qed.
(** Appending a hole does nothing. *)
Theorem C35_refuted_append_hole : exists (entries : list (Z * Z)) len s tr a,
  sparse_init_length entries len = Ok s /\
  arr_ops (ASparse s) [OAppend None; OLen] = (tr, a) /\ map snd tr = [RUnit; RNum 2] /\
  forall final, ~ spec_ops (last_entries entries (Z.to_nat len)) tr final.
Proof.
  exists [(0, 1)], 2. eexists. eexists. eexists.
  split; [vm_compute; reflexivity|]. split; [vm_compute; reflexivity|]. split; [reflexivity|].
  intros final H. vm_compute in H. 
  repeat match goal with
  | X : spec_ops _ _ _ |- _ => inversion X; subst; clear X
  | X : spec_op _ _ _ _ |- _ => inversion X; subst; clear X
  end; cbn in *; discriminate.
Qed.
(** Inserting at the end raises IndexError. *)
Theorem C35_refuted_insert_at_end : exists (entries : list (Z * Z)) len s tr a,
  sparse_init_length entries len = Ok s /\
  arr_ops (ASparse s) [OInsert 2 (Some 9)] = (tr, a) /\ map snd tr = [RExn EIndex] /\
  forall final, ~ spec_ops (last_entries entries (Z.to_nat len)) tr final.
Proof.
  exists [(0, 1)], 2. eexists. eexists. eexists.
  split; [vm_compute; reflexivity|]. split; [vm_compute; reflexivity|]. split; [reflexivity|].
  intros final H. vm_compute in H. 
  repeat match goal with
  | X : spec_ops _ _ _ |- _ => inversion X; subst; clear X
  | X : spec_op _ _ _ _ |- _ => inversion X; subst; clear X
  end; cbn in *; lia.
Qed.

(** ** C36 *)
(** Arrays a user can have: built by a constructor, then changed by operations. *)
Definition constructed {T} (a : arr T) : Prop :=
  (exists values, a = ADense (dense_init values)) \/
  (exists entries len s, sparse_init_length entries len = Ok s /\ a = ASparse s) \/
  (exists entries s, sparse_init_entries entries = Ok s /\ a = ASparse s).
Definition reachable {T} (a : arr T) : Prop :=
  exists a0 ops, constructed a0 /\ a = snd (arr_ops a0 ops).

Lemma reachable_ok {T} (a : arr T) : reachable a -> arr_ok a.
Proof.
  intros [a0 [ops [C ->]]]. destruct (arr_ops a0 ops) as [tr a] eqn:R. cbn [snd].
  destruct C as [[vs ->]|[[es [len [s [I ->]]]]|[es [s [I ->]]]]].
  - destruct (dense_ops_refines ops _ _ _ (proj1 (dense_init_spec vs)) R) as [d [-> [OK _]]]. exact OK.
  - destruct (sparse_ops_refines ops _ _ _ (proj1 (sparse_init_length_ok _ _ _ I)) R) as [d [-> [OK _]]]. exact OK.
  - destruct (sparse_ops_refines ops _ _ _ (proj1 (sparse_init_entries_ok _ _ I)) R) as [d [-> [OK _]]]. exact OK.
Qed.

(** Element by element: both holes, or both values that compare equal. *)
Definition same_content {T} (veq : T -> T -> bool) (l1 l2 : list (option T)) : Prop :=
  Forall2 (fun x y => match x, y with
                      | Some a, Some b => veq a b = true
                      | None, None => True
                      | _, _ => False
                      end) l1 l2.

Theorem C36_eq_is_same_content : forall T (veq : T -> T -> bool) (a b : arr T),
  reachable a -> reachable b ->
  exists la lb, arr_iter a = Ok la /\ arr_iter b = Ok lb /\
                (arr_eq veq a b = true <-> same_content veq la lb).
Proof.
  intros T veq a b RA RB. apply reachable_ok in RA. apply reachable_ok in RB.
  exists (aabs a), (aabs b). rewrite !arr_iter_eq by auto. split; auto. split; auto.
  rewrite arr_eq_iff by auto.
  assert (forall P Q : option T -> option T -> Prop, (forall x y, P x y <-> Q x y) ->
    forall l1 l2, Forall2 P l1 l2 <-> Forall2 Q l1 l2) as FE.
  { clear. intros P Q H l1 l2. split; intros F; induction F; constructor; auto; apply H; auto. }
  apply FE. intros [x|] [y|]; cbn [elem_eq]; try tauto; split; try discriminate; tauto.
Qed.

(** With an element equality that is an equivalence on the elements present, the comparison is
    symmetric: in particular dense == sparse exactly when sparse == dense. *)
Theorem C36_eq_symmetric : forall T (veq : T -> T -> bool) (a b : arr T),
  (forall x y, veq x y = veq y x) -> reachable a -> reachable b ->
  arr_eq veq a b = arr_eq veq b a.
Proof.
  intros T veq a b SYM RA RB.
  destruct (C36_eq_is_same_content T veq a b RA RB) as [la [lb [IA [IB E1]]]].
  destruct (C36_eq_is_same_content T veq b a RB RA) as [lb' [la' [IB' [IA' E2]]]].
  rewrite IA in IA'. rewrite IB in IB'. injection IA' as <-. injection IB' as <-.
  apply eq_true_iff_eq. rewrite E1, E2. unfold same_content.
  clear -SYM.
  split; intros F; induction F as [|x y l1 l2 H F IH]; constructor; auto;
    destruct x, y; auto; rewrite SYM; auto.
Qed.

Example C36_hyp : exists s, sparse_init_length [(2, 5); (0, 4)] 3 = Ok s /\
  reachable (ADense (dense_init [Some 4; None; Some 5])) /\ reachable (ASparse s) /\
  arr_eq Z.eqb (ADense (dense_init [Some 4; None; Some 5])) (ASparse s) = true /\
  arr_eq Z.eqb (ADense (dense_init [Some 4; None; Some 6])) (ASparse s) = false.
Proof.
  eexists. split; [vm_compute; reflexivity|]. split; [|split; [|split; vm_compute; reflexivity]].
  - exists (ADense (dense_init [Some 4; None; Some 5])), []. split; auto. left. eauto.
  - eexists. exists []. split; [|reflexivity]. right. left. exists [(2, 5); (0, 4)], 3.
    eexists. split; [vm_compute; reflexivity|reflexivity].
Qed.

(** ** C37 *)
(** For ascending items inside 0..length-1, the regions are non-empty, in order, adjacent, of
    alternating kind, cover 0..length-1, and their contents are exactly the items. *)
Theorem C37_regions_tile : forall T (items : list (Z * T)) len,
  ascending (map fst items) -> (forall k, In k (map fst items) -> 0 <= k < len) -> 0 <= len ->
  regions_tile 0 len None (alternating_regions len items) /\
  flat_map region_content (alternating_regions len items) = last_entries items (Z.to_nat len).
Proof.
  intros T items len A B L. apply ssorted_ascending in A.
  destruct (alternating_regions_ok items len A) as [H1 H2]; auto.
  { apply Forall_forall. auto. }
  split; auto. change region_content with (@region_values T). rewrite H2. unfold vals. rewrite Z.sub_0_r.
  rewrite <- last_entries_eq. apply map_ext. intros k. rewrite Z.add_0_l.
  apply ssorted_NoDup in A.
  destruct (dget Z.eqb (Z.of_nat k) items) as [v|] eqn:E.
  - symmetry. apply (in_dget _ zeqb_spec).
    + rewrite map_rev. apply NoDup_rev. auto.
    + apply -> in_rev. apply (dget_Some_in _ zeqb_spec). auto.
  - symmetry. apply (dget_None _ zeqb_spec). rewrite map_rev, <- in_rev. apply (dget_None _ zeqb_spec). auto.
Qed.
(** The regions of an array: they tile it and reading them in order gives its content. *)
Theorem C37_array_regions : forall T (a : arr T), reachable a ->
  exists rs, arr_regions a = Ok rs /\ regions_tile 0 (arr_len a) None rs /\
             arr_iter a = Ok (flat_map region_content rs).
Proof.
  intros T a R. apply reachable_ok in R. destruct (arr_regions_ok a R) as [rs [E [H V]]].
  exists rs. split; auto. split; auto. rewrite arr_iter_eq by auto. rewrite <- V. auto.
Qed.

Example C37_hyp : let items := [(1, 10); (2, 20); (5, 50)] in
  ascending (map fst items) /\ (forall k, In k (map fst items) -> 0 <= k < 8) /\
  alternating_regions 8 items = [Empty 0 1; Occupied 1 [10; 20]; Empty 3 2; Occupied 5 [50]; Empty 6 2].
Proof.
  split; [|split; [|vm_compute; reflexivity]].
  - apply ssorted_ascending. repeat constructor.
  - cbn. intros k H. lia.
Qed.

Print Assumptions C34_dense_refines_list.
Print Assumptions C35_sparse_refines_list_partial.
Print Assumptions C35_sparse_entries_refines_list_partial.
Print Assumptions C35_no_assertion_with_three_elements.
Print Assumptions C35_refuted_assertion.
Print Assumptions C35_refuted_append_hole.
Print Assumptions C35_refuted_insert_at_end.
Print Assumptions C36_eq_is_same_content.
Print Assumptions C36_eq_symmetric.
Print Assumptions C37_regions_tile.
Print Assumptions C37_array_regions.
