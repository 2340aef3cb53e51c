(** C59: the operators of JSSet with a Python set as the other operand. *)
From Coq Require Import List NArith ZArith Bool Lia.
From Verif Require Import Base Dict SpecNumber ModelValue ValueFacts SpecKey KeyFacts SpecMap ModelMap MapFacts ModelHeap ModelEncode HashFacts ModelContainers
  ModelSetOps Prop_SetOps.
Import ListNotations.
Open Scope Z_scope.

(** * Specification *)
(** [v == w] for the purposes of a Python set: both hash, and to the same key ([dkey]: C38). *)
Definition py_same (H : heap) (v w : val) : Prop := dkey H v <> None /\ dkey H v = dkey H w.
Definition py_member (H : heap) (l : list val) (v : val) : Prop := exists w, In w l /\ py_same H v w.
(** hash(v) raises TypeError; floats never do. *)
Definition unhashable (H : heap) (v : val) : Prop := dkey H v = None /\ forall b, v <> VFloat b.

(** * Proofs *)
Lemma hashable_spec H v : hashable H v = false <-> unhashable H v.
Proof.
  unfold unhashable, hashable. generalize (dkey H v) as k. intros k.
  destruct v; try (destruct k; split; intros X; try discriminate; try (destruct X; discriminate); try reflexivity; split; [reflexivity|discriminate]).
  split; [discriminate|]. intros [_ X]. exfalso. exact (X _ eq_refl).
Qed.
Lemma same_dkey_spec H v w : same_dkey (dkey H) v w = true <-> py_same H v w.
Proof.
  unfold same_dkey, py_same. destruct (dkey H v) as [x|]; [|split; [discriminate|intros [X _]; contradiction]].
  destruct (dkey H w) as [y|]; [|split; [discriminate|intros [_ X]; discriminate]]. rewrite hkey_eqb_spec.
  split; [intros ->; split; [discriminate|reflexivity]|intros [_ X]; injection X; auto].
Qed.
Lemma existsb_spec H l v : existsb (same_dkey (dkey H) v) l = true <-> py_member H l v.
Proof.
  rewrite existsb_exists. split; intros [w [I X]]; exists w; (split; [exact I|]); apply same_dkey_spec; exact X.
Qed.
Lemma select_raises test l v e : In v l -> test v = Err e -> (forall w e', test w = Err e' -> e' = e) -> select test l = Err e.
Proof.
  intros I E U. induction l as [|w l IH]; [destruct I|]. cbn [select]. destruct I as [->|I]; [rewrite E; reflexivity|].
  destruct (test w) eqn:T; cbn [bind]; [rewrite (IH I); reflexivity|]. f_equal. exact (U _ _ T).
Qed.

Section Facts.
Variable bytes_of : nat -> option bytes.
Variables (H : heap) (a : jsset) (l : list val).
Hypothesis A : made bytes_of a.
Hypothesis T : forall k, In k l -> ~ huge k.
Notation mem := (member bytes_of).
Notation la := (js_iter a).
Let test := fun v => if hashable H v then Ok (existsb (same_dkey (dkey H) v) l) else Err EType.

Lemma test_spec v : ~ unhashable H v -> exists x, test v = Ok x /\ (x = true <-> py_member H l v).
Proof.
  intros U. unfold test. destruct (hashable H v) eqn:E; [|apply hashable_spec in E; contradiction].
  eexists. split; [reflexivity|apply existsb_spec].
Qed.
Lemma test_err w e' : negated test w = Err e' -> e' = EType.
Proof. unfold negated, test. destruct (hashable H w); cbn [bind]; [discriminate|congruence]. Qed.
Lemma kept : (forall v, In v la -> ~ unhashable H v) ->
  exists r m, select (negated test) la = Ok r /\ from_iterable bytes_of r = Ok m /\ made bytes_of m /\ js_iter m = r /\
    where_ (fun v => ~ py_member H l v) la r.
Proof.
  intros U. destruct (select_where (negated test) (fun v => ~ py_member H l v) la) as [r [R W]].
  { intros v I. apply negated_spec. apply test_spec. apply U, I. }
  destruct (from_iterable_spec bytes_of r) as [m [E [M [Q D]]]].
  { intros k I. apply (where_in _ _ _ _ W) in I as [I _]. exact (made_tame bytes_of a k A I). }
  exists r, m. split; [exact R|]. split; [exact E|]. split; [exact M|]. split; [|exact W].
  apply D. eapply where_distinct; [exact W|apply made_distinct, A].
Qed.
End Facts.

(** * The property *)
Section Property.
Variable bytes_of : nat -> option bytes.
Notation mem := (member bytes_of).

(** -, &= and ^ ask the Python set about the JSSet's members: by Python's ==. *)
Theorem C59_python_set : forall H a l, made bytes_of a -> (forall k, In k l -> ~ huge k) -> (forall v, In v (js_iter a) -> ~ unhashable H v) ->
  (exists m, set_sub bytes_of a (python_set H l) = Ok m /\ where_ (fun v => ~ py_member H l v) (js_iter a) (js_iter m)) /\
  (exists m, set_iand bytes_of a (python_set H l) = (Ok tt, m) /\ where_ (py_member H l) (js_iter a) (js_iter m)) /\
  (exists m, set_xor bytes_of a (python_set H l) = Ok m /\
     forall x, mem (js_iter m) x <-> (exists y, In y (js_iter a) /\ ~ py_member H l y /\ js_same bytes_of y x) \/ (mem l x /\ ~ mem (js_iter a) x)).
Proof.
  intros H a l A T U. destruct (kept bytes_of H a l A U) as [r [d [R [E [M [EI W]]]]]].
  assert (set_sub bytes_of a (python_set H l) = Ok d) as ES by (unfold set_sub, python_set; cbn [as_set bind snd]; rewrite R; exact E).
  split; [exists d; rewrite EI; auto|]. split.
  - unfold set_iand. rewrite ES. destruct (discard_all_spec bytes_of (js_iter d) a (made_inv bytes_of a A) (fun k => made_tame bytes_of d k M)) as [m [E1 [-> W1]]].
    eexists. split; [exact E1|]. revert W1. apply where_ext. intros x I. rewrite EI. split.
    + intros N. destruct (existsb (same_dkey (dkey H) x) l) eqn:X; [apply existsb_spec; exact X|]. exfalso. apply N. apply mem_in.
      apply (where_in _ _ _ _ W). split; [exact I|]. intros P. apply existsb_spec in P. congruence.
    + intros P [y [IY SY]]. apply (where_in _ _ _ _ W) in IY as [IY NP].
      (* y and x are the same member of the set *)
      assert (y = x) as ->; [|contradiction].
      pose proof (made_distinct bytes_of a A) as D. clear -IY I SY D.
      induction (js_iter a) as [|z t IH]; [destruct I|]. apply distinct_cons in D as [N D].
      destruct IY as [->|IY], I as [->|I]; auto.
      * exfalso. apply N. exists x. split; [exact I|apply same_sym; exact SY].
      * exfalso. apply N. exists y. auto.
  - unfold set_xor, python_set. cbn [as_set bind fst snd]. rewrite R. cbn [bind]. rewrite E. cbn [bind].
    destruct (select_where (negated (js_contains bytes_of a)) (fun x => ~ mem (js_iter a) x) l) as [r2 [R2 W2]].
    { intros v I. apply (negated_spec (js_contains bytes_of a) (mem (js_iter a))). apply contains_spec; [apply made_inv, A|exact (T v I)]. }
    rewrite R2. cbn [bind]. destruct (from_iterable_spec bytes_of (js_iter d ++ r2)) as [m [EM [_ [Q _]]]].
    { intros k I. apply in_app_or in I as [I|I]; [exact (made_tame bytes_of d k M I)|]. apply (where_in _ _ _ _ W2) in I as [I _]. exact (T k I). }
    exists m. split; [exact EM|]. intros x. rewrite Q, mem_app, (where_mem bytes_of _ _ _ x (mem_not_closed bytes_of _) W2), EI.
    assert (mem r x <-> exists y, In y (js_iter a) /\ ~ py_member H l y /\ js_same bytes_of y x) as ->; [|tauto].
    split; [intros [y [IY SY]]; apply (where_in _ _ _ _ W) in IY as [IY NP]; exists y; auto|].
    intros [y [IY [NP SY]]]. exists y. split; [apply (where_in _ _ _ _ W); auto|exact SY].
Qed.

(** They raise TypeError when the JSSet has an unhashable member, and then change nothing. *)
Theorem C59_python_set_unhashable : forall H a l v, In v (js_iter a) -> unhashable H v ->
  set_sub bytes_of a (python_set H l) = Err EType /\ set_iand bytes_of a (python_set H l) = (Err EType, a) /\
  set_xor bytes_of a (python_set H l) = Err EType.
Proof.
  intros H a l v I U.
  assert (select (negated (fun v => if hashable H v then Ok (existsb (same_dkey (dkey H) v) l) else Err EType)) (js_iter a) = Err EType) as X.
  { apply (select_raises _ _ v EType I); [|intros w e; apply test_err]. apply hashable_spec in U. unfold negated. rewrite U. reflexivity. }
  assert (set_sub bytes_of a (python_set H l) = Err EType) as ES by (unfold set_sub, python_set; cbn [as_set bind snd]; rewrite X; reflexivity).
  split; [exact ES|]. split; [unfold set_iand; rewrite ES; reflexivity|].
  unfold set_xor, python_set. cbn [as_set bind fst snd]. rewrite X. reflexivity.
Qed.

(** The others only iterate over the Python set: they do what they do with a list of its members (C59_members, C59_in_place).
    ^= too, if no two of these are the same to JavaScript. *)
Theorem C59_python_set_iterated : forall H a l, made bytes_of a -> (forall k, In k l -> ~ huge k) ->
  let o := python_set H l in let i := OIterable l in
  set_and bytes_of a o = set_and bytes_of a i /\ set_or bytes_of a o = set_or bytes_of a i /\ isdisjoint bytes_of a o = isdisjoint bytes_of a i /\
  set_isub bytes_of a o = set_isub bytes_of a i /\ set_ior bytes_of a o = set_ior bytes_of a i /\
  (distinct_members bytes_of l -> set_ixor bytes_of a o = set_ixor bytes_of a i) /\
  (exists m, set_rsub bytes_of a o = Ok m /\ forall x, mem (js_iter m) x <-> mem l x /\ ~ mem (js_iter a) x).
Proof.
  intros H a l A T o i. do 5 (split; [reflexivity|]). split.
  - intros D. unfold set_ixor, o, i, python_set. cbn [as_set]. destruct (from_iterable_spec bytes_of l T) as [m [E [_ [_ Q]]]]. rewrite E. cbn [bind fst].
    rewrite (Q D). reflexivity.
  - unfold set_rsub, o, python_set. cbn [as_set bind fst].
    destruct (select_where (negated (js_contains bytes_of a)) (fun x => ~ mem (js_iter a) x) l) as [r [R W]].
    { intros v I. apply (negated_spec (js_contains bytes_of a) (mem (js_iter a))). apply contains_spec; [apply made_inv, A|exact (T v I)]. }
    rewrite R. cbn [bind]. destruct (from_where bytes_of _ _ _ (mem_not_closed bytes_of _) T W) as [m [E [_ [Q _]]]]. eauto.
Qed.
End Property.

(** A case: JSSet([True, "a", nan]) with {1, "a"}: - leaves nan, &= leaves True and "a". A set with a JSArray raises. *)
Definition py_a : jsset := snd (js_ops no_bytes [] [SUnion [VBool true; VStr [97%N]; VFloat 0x7FF8000000000000]]).
Definition py_l : list val := [VInt 1; VStr [97%N]].
Example C59_python_case : made no_bytes py_a /\ (forall k, In k py_l -> ~ huge k) /\ (forall v, In v (js_iter py_a) -> ~ unhashable [] v) /\
  (do m <- set_sub no_bytes py_a (python_set [] py_l); Ok (js_iter m)) = Ok [VFloat 0x7FF8000000000000] /\
  js_iter (snd (set_iand no_bytes py_a (python_set [] py_l))) = [VBool true; VStr [97%N]] /\
  unhashable [OSeq false []] (VRef 0).
Proof.
  split; [exists [SUnion [VBool true; VStr [97%N]; VFloat 0x7FF8000000000000]]; eexists; vm_compute; reflexivity|].
  split; [intros k [<-|[<-|[]]] [z [E X]]; [injection E as <-; vm_compute in X; apply X; reflexivity|discriminate]|].
  split; [intros v I [X Y]; vm_compute in I; destruct I as [<-|[<-|[<-|[]]]]; [discriminate X|discriminate X|exact (Y _ eq_refl)]|].
  split; [vm_compute; reflexivity|]. split; [vm_compute; reflexivity|]. split; [reflexivity|discriminate].
Qed.

Print Assumptions C59_python_set.
Print Assumptions C59_python_set_unhashable.
Print Assumptions C59_python_set_iterated.
