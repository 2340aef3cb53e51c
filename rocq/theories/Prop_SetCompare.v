(** C59: comparisons of a JSSet with a Python set. *)
From Coq Require Import List NArith ZArith Bool Lia.
From Verif Require Import Base Dict SpecNumber ModelValue ValueFacts SpecKey KeyFacts SpecMap ModelMap MapFacts ModelHeap ModelEncode HashFacts ModelContainers
  ModelSetOps Prop_SetOps Prop_SetPython ModelSetCompare.
Import ListNotations.
Open Scope Z_scope.

Lemma all_in_pointwise test (P : val -> Prop) l : (forall v, In v l -> exists x, test v = Ok x /\ (x = true <-> P v)) ->
  exists x, all_in test l = Ok x /\ (x = true <-> forall v, In v l -> P v).
Proof.
  induction l as [|v l IH]; intros T; cbn [all_in].
  - exists true. split; [reflexivity|]. split; [intros _ v []|reflexivity].
  - destruct (T v (or_introl eq_refl)) as [x [E X]]. rewrite E. cbn [bind]. destruct x.
    + destruct IH as [y [F Y]]; [intros w I; apply T; right; exact I|]. exists y. split; [exact F|]. rewrite Y. split.
      * intros Q w [<-|I]; [apply X; reflexivity|apply Q, I].
      * intros Q w I. apply Q. right. exact I.
    + exists false. split; [reflexivity|]. split; [discriminate|]. intros Q. apply X, Q. left. reflexivity.
Qed.

Section Property.
Variable bytes_of : nat -> option bytes.
Notation mem := (member bytes_of).

(** <= and < ask the Python set (by ==), >= and > the JSSet (by JavaScript's equality); both compare the sizes. *)
Theorem C59_python_compare : forall H a l, made bytes_of a -> (forall k, In k l -> ~ huge k) -> (forall v, In v (js_iter a) -> ~ unhashable H v) ->
  let size := length (js_iter a) in
  let says (r : result bool) (P : Prop) := exists x, r = Ok x /\ (x = true <-> P) in
  says (le_python H a l) ((size <= length l)%nat /\ forall v, In v (js_iter a) -> py_member H l v) /\
  says (lt_python H a l) ((size < length l)%nat /\ forall v, In v (js_iter a) -> py_member H l v) /\
  says (ge_python bytes_of a l) ((length l <= size)%nat /\ forall v, In v l -> mem (js_iter a) v) /\
  says (gt_python bytes_of a l) ((length l < size)%nat /\ forall v, In v l -> mem (js_iter a) v).
Proof.
  intros H a l A T U size says. subst size says. cbn beta.
  assert (js_len a = Z.of_nat (length (js_iter a))) as L by (unfold js_len, js_iter; rewrite map_length; reflexivity).
  destruct (all_in_pointwise (py_in H l) (py_member H l) (js_iter a)) as [x [E X]]; [intros v I; exact (test_spec H l v (U v I))|].
  destruct (all_in_pointwise (js_contains bytes_of a) (mem (js_iter a)) l) as [y [F Y]];
    [intros v I; apply contains_spec; [apply made_inv, A|exact (T v I)]|].
  unfold lt_python, gt_python, le_python, ge_python. rewrite L, E, F.
  destruct (Z.ltb_spec (Z.of_nat (length l)) (Z.of_nat (length (js_iter a)))) as [B|B];
    destruct (Z.ltb_spec (Z.of_nat (length (js_iter a))) (Z.of_nat (length l))) as [C|C]; try lia;
    repeat split; eexists; (split; [reflexivity|]); rewrite ?X, ?Y; (split; [intros Q; try discriminate; (split; [lia|exact Q])|intros [Q R]; (exfalso; lia) || exact R]).
Qed.
(** An unhashable member raises TypeError from <=, unless a member before it decides or the Python set is smaller. *)
Theorem C59_python_compare_unhashable : forall H a l l1 v l2, js_iter a = l1 ++ v :: l2 -> unhashable H v ->
  (forall w, In w l1 -> py_member H l w /\ ~ unhashable H w) -> (length (js_iter a) <= length l)%nat -> le_python H a l = Err EType.
Proof.
  intros H a l l1 v l2 E U P B. assert (js_len a = Z.of_nat (length (js_iter a))) as L by (unfold js_len, js_iter; rewrite map_length; reflexivity).
  unfold le_python. rewrite L. replace (Z.of_nat (length l) <? Z.of_nat (length (js_iter a))) with false by lia. rewrite E. clear E L B.
  induction l1 as [|w l1 IH]; cbn [app all_in].
  - unfold py_in. apply hashable_spec in U. rewrite U. reflexivity.
  - destruct (P w (or_introl eq_refl)) as [PW UW]. destruct (test_spec H l w UW) as [x [E X]]. unfold py_in at 1. rewrite E. cbn [bind].
    apply X in PW. subst x. apply IH. intros z I. apply P. right. exact I.
Qed.
End Property.

(** So every member of JSSet([1, True]) is in {1}, but <= does not hold: the sizes are of different equalities. *)
Definition one_true : jsset := snd (js_ops no_bytes [] [SUnion [VInt 1; VBool true]]).
Theorem C59_python_subset_refuted : made no_bytes one_true /\ (forall v, In v (js_iter one_true) -> py_member [] [VInt 1] v) /\
  le_python [] one_true [VInt 1] = Ok false.
Proof.
  split; [do 2 eexists; unfold one_true; rewrite <- surjective_pairing; reflexivity|]. split; [|vm_compute; reflexivity].
  intros v I. apply existsb_spec. vm_compute in I. destruct I as [<-|[<-|[]]]; vm_compute; reflexivity.
Qed.
Example C59_compare_case : made no_bytes py_a /\ (forall v, In v (js_iter py_a) -> ~ unhashable [] v) /\
  ge_python no_bytes py_a [VStr [97%N]] = Ok true /\ le_python [] py_a (VInt 5 :: VInt 6 :: py_l) = Ok false /\
  le_python [] one_true [VInt 1; VInt 2] = Ok true.
Proof.
  split; [apply C59_python_case|]. split; [apply C59_python_case|]. repeat split; vm_compute; reflexivity.
Qed.

Print Assumptions C59_python_compare.
Print Assumptions C59_python_compare_unhashable.
Print Assumptions C59_python_subset_refuted.
