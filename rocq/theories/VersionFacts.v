(** The order on versions. *)
From Coq Require Import List NArith Bool Lia Compare_dec.
From Coq Require Import ZifyBool ZifyN ZifyNat.
From Verif Require Import Base ModelEncode ModelVersion.
Import ListNotations.
Open Scope N_scope.

(** A comparison that is a total preorder. *)
Record ordered {A} (c : A -> A -> comparison) : Prop := {
  o_sym : forall a b, c b a = CompOpp (c a b);
  o_eq : forall a b d, c a b = Eq -> c a d = c b d;
  o_lt : forall a b d, c a b = Lt -> c b d = Lt -> c a d = Lt }.
Lemma o_refl {A} (c : A -> A -> comparison) : ordered c -> forall a, c a a = Eq.
Proof. intros O a. pose proof (o_sym c O a a). destruct (c a a); cbn in *; congruence. Qed.
Lemma o_eq_r {A} (c : A -> A -> comparison) : ordered c -> forall a b d, c a b = Eq -> c d a = c d b.
Proof. intros O a b d E. rewrite (o_sym c O a d), (o_sym c O b d). f_equal. apply (o_eq c O); auto. Qed.
Lemma ordered_N : ordered N.compare.
Proof. split; intros *; rewrite ?N.compare_eq_iff, ?N.compare_lt_iff; [apply N.compare_antisym|congruence|lia]. Qed.
Lemma ordered_pair {A B} (ca : A -> A -> comparison) (cb : B -> B -> comparison) : ordered ca -> ordered cb -> ordered (pair_cmp ca cb).
Proof.
  intros OA OB. unfold pair_cmp, then_cmp. split; intros [a1 b1] [a2 b2]; cbn [fst snd].
  - rewrite (o_sym ca OA a1 a2), (o_sym cb OB b1 b2). destruct (ca a1 a2); reflexivity.
  - intros [a3 b3]. cbn [fst snd]. destruct (ca a1 a2) eqn:E; try discriminate. rewrite (o_eq ca OA a1 a2 a3 E). intros E2. rewrite (o_eq cb OB b1 b2 b3 E2). reflexivity.
  - intros [a3 b3]. cbn [fst snd]. destruct (ca a1 a2) eqn:E; try discriminate.
    + rewrite (o_eq ca OA a1 a2 a3 E). destruct (ca a2 a3); auto. apply (o_lt cb OB).
    + intros _. destruct (ca a2 a3) eqn:E2; try discriminate.
      * rewrite <- (o_eq_r ca OA a2 a3 a1 E2), E. reflexivity.
      * rewrite (o_lt ca OA a1 a2 a3 E E2). reflexivity.
Qed.
Lemma ordered_list {A} (c : A -> A -> comparison) : ordered c -> ordered (list_cmp c).
Proof.
  intros O. unfold then_cmp. split.
  - induction a as [|a x IH]; intros [|b y]; cbn; auto. unfold then_cmp. rewrite (o_sym c O a b), IH. destruct (c a b); reflexivity.
  - induction a as [|a x IH]; intros [|b y] [|d z]; cbn; auto; try discriminate. unfold then_cmp. all: destruct (c a b) eqn:E; try discriminate; intros E2.
    + rewrite (o_eq c O a b d E), (IH y z E2). reflexivity.
  - induction a as [|a x IH]; intros [|b y] [|d z]; cbn; auto; try discriminate. unfold then_cmp. destruct (c a b) eqn:E; try discriminate.
    + rewrite (o_eq c O a b d E). destruct (c b d); auto. apply IH.
    + intros _. destruct (c b d) eqn:E2; try discriminate.
      * rewrite <- (o_eq_r c O b d a E2), E. reflexivity.
      * rewrite (o_lt c O a b d E E2). reflexivity.
Qed.
Lemma ordered_inf {A} (c : A -> A -> comparison) : ordered c -> ordered (inf_cmp c).
Proof.
  intros O. split.
  - intros [|a|] [|b|]; cbn; auto. apply (o_sym c O).
  - intros [|a|] [|b|] [|d|]; cbn; auto; try discriminate. apply (o_eq c O).
  - intros [|a|] [|b|] [|d|]; cbn; auto; try discriminate. apply (o_lt c O).
Qed.
Lemma ordered_version : ordered version_cmp.
Proof.
  assert (K : ordered key_cmp).
  { unfold key_cmp. repeat (apply ordered_pair || apply ordered_list || apply ordered_inf || apply ordered_N). }
  unfold version_cmp. split; intros a b; [apply (o_sym _ K)| |]; intros d; [apply (o_eq _ K)|apply (o_lt _ K)].
Qed.
Lemma vle_refl a : vle a a = true.
Proof. destruct a; cbn; auto. rewrite (o_refl _ ordered_version). reflexivity. Qed.
Lemma vle_trans a b d : vle a b = true -> vle b d = true -> vle a d = true.
Proof.
  destruct a as [a|], b as [b|], d as [d|]; cbn; auto; try discriminate.
  destruct (version_cmp a b) eqn:E; try discriminate; intros _.
  - rewrite (o_eq _ ordered_version a b d E). auto.
  - destruct (version_cmp b d) eqn:E2; try discriminate; intros _.
    + rewrite <- (o_eq_r _ ordered_version b d a E2), E. reflexivity.
    + rewrite (o_lt _ ordered_version a b d E E2). reflexivity.
Qed.
Lemma vlt_vle a b : vlt a b = negb (vle b a).
Proof. destruct a as [a|], b as [b|]; cbn; auto. rewrite (o_sym _ ordered_version a b). destruct (version_cmp a b); reflexivity. Qed.
Lemma vle_total a b : vle a b = true \/ vle b a = true.
Proof. destruct a as [a|], b as [b|]; cbn; auto. rewrite (o_sym _ ordered_version a b). destruct (version_cmp a b); auto. Qed.

(** Releases: numbers compared from the left, missing ones being 0. *)
Definition before (a b : list N) : Prop := exists i, nth i a 0 < nth i b 0 /\ forall j, (j < i)%nat -> nth j a 0 = nth j b 0.
Lemma drop_zeros_spec l : exists k, l = repeat 0 k ++ drop_zeros l.
Proof. induction l as [|[|p] l [k E]]; cbn; [exists 0%nat; auto|exists (S k); cbn; congruence|exists 0%nat; auto]. Qed.
Lemma drop_zeros_hd l : hd 1 (drop_zeros l) <> 0.
Proof. induction l as [|[|p] l IH]; cbn; auto; discriminate. Qed.
Lemma strip_spec l : exists k, l = strip_zeros l ++ repeat 0 k.
Proof.
  destruct (drop_zeros_spec (rev l)) as [k E]. exists k. unfold strip_zeros.
  assert (R : repeat 0 k = rev (repeat 0 k)). { clear. induction k as [|k IH]; auto. cbn. rewrite <- IH. clear. induction k; cbn; congruence. }
  rewrite R, <- rev_app_distr, <- E, rev_involutive. reflexivity.
Qed.
Lemma strip_nth l i : nth i (strip_zeros l) 0 = nth i l 0.
Proof.
  destruct (strip_spec l) as [k E]. rewrite E at 2. destruct (le_lt_dec (length (strip_zeros l)) i) as [L|L]; [|rewrite app_nth1; auto].
  rewrite app_nth2, nth_overflow by auto. symmetry. generalize (i - length (strip_zeros l))%nat. clear. induction k as [|k IH]; intros [|n]; cbn; auto.
Qed.
(** A stripped list has a nonzero last element, so two of them differ at a position of both or one is longer. *)
Definition no_tail (l : list N) : Prop := forall i, (i < length l)%nat -> exists j, (i <= j)%nat /\ nth j l 0 <> 0.
Lemma strip_no_tail l : no_tail (strip_zeros l).
Proof.
  unfold strip_zeros, no_tail. pose proof (drop_zeros_hd (rev l)) as N. destruct (drop_zeros (rev l)) as [|x r]; cbn [rev length]; [cbn; lia|].
  cbn in N. intros i L. exists (length (rev r)). rewrite app_length in L. cbn in L. split; [lia|]. rewrite nth_middle. auto.
Qed.
Lemma no_tail_cons x l : no_tail (x :: l) -> no_tail l.
Proof. intros T i L. destruct (T (S i)) as (j & Lj & N); [cbn; lia|]. destruct j as [|j]; [lia|]. exists j. split; [lia|auto]. Qed.
Lemma list_lt a b : no_tail a -> no_tail b -> list_cmp N.compare a b = Lt <-> before a b.
Proof.
  revert b. induction a as [|x a IH]; intros [|y b] Ta Tb; cbn [list_cmp].
  - split; [discriminate|]. intros (i & L & _). destruct i; cbn in L; lia.
  - split; auto. intros _.
    assert (M : exists i, nth i (y :: b) 0 <> 0 /\ forall j, (j < i)%nat -> nth j (y :: b) 0 = 0).
    { destruct (Tb 0%nat) as (n & _ & N); [cbn; lia|]. revert N. generalize (y :: b) as l. clear. intros l. revert l. induction n as [|n IH]; intros l N.
      - exists 0%nat. split; auto. lia.
      - destruct (N.eq_dec (nth 0 l 0) 0) as [Z0|NZ]; [|exists 0%nat; split; auto; lia]. destruct l as [|x l]; [cbn in N; congruence|].
        destruct (IH l N) as (i & Ni & Hi). exists (S i). split; auto. intros [|j] L; auto. cbn. apply Hi. lia. }
    destruct M as (i & NZ & Hi). exists i. split.
    + assert (E : nth i (@nil N) 0 = 0) by (destruct i; reflexivity). rewrite E. lia.
    + intros j L. rewrite Hi by auto. destruct j; reflexivity.
  - split; [discriminate|]. intros (i & L & Hi). exfalso. assert (E : nth i (@nil N) 0 = 0) by (destruct i; reflexivity). rewrite E in L. lia.
  - unfold then_cmp. destruct (N.compare_spec x y) as [->|L|L].
    + rewrite (IH b (no_tail_cons _ _ Ta) (no_tail_cons _ _ Tb)). split; intros (i & L & Hi).
      * exists (S i). split; auto. intros [|j] Lj; auto. apply Hi. lia.
      * destruct i as [|i]; [cbn in L; lia|]. exists i. split; auto. intros j Lj. apply (Hi (S j)). lia.
    + split; auto. intros _. exists 0%nat. split; auto. lia.
    + split; [discriminate|]. intros (i & Li & Hi). destruct i as [|i]; [cbn in Li; lia|]. specialize (Hi 0%nat ltac:(lia)). cbn in Hi. lia.
Qed.
Lemma release_lt a b : version_cmp (release a) (release b) = Lt <-> before a b.
Proof.
  unfold version_cmp, version_key, key_cmp, release, pair_cmp, pre_key, post_key, dev_key, local_key. cbn.
  transitivity (list_cmp N.compare (strip_zeros a) (strip_zeros b) = Lt).
  { unfold then_cmp. destruct (list_cmp _ _ _); split; auto; discriminate. }
  rewrite list_lt by apply strip_no_tail. unfold before.
  split; intros (i & L & Hi); exists i; rewrite ?strip_nth in *; (split; auto); intros j Lj; specialize (Hi j Lj); rewrite ?strip_nth in *; auto.
Qed.
