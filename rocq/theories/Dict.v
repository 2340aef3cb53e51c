(** Python dict as an insertion-ordered association list.
    Language semantics used by every module of /repo that holds a dict:
    assigning to a present key keeps the key and its position, a new key goes last. *)
From Coq Require Import List Bool Arith Lia.
Import ListNotations.

Notation dkeys := (map fst).

Section Dict.
Context {K V : Type} (eqb : K -> K -> bool).

Fixpoint dget (k : K) (d : list (K * V)) : option V :=
  match d with
  | [] => None
  | (k', v) :: r => if eqb k k' then Some v else dget k r
  end.

Definition dmem (k : K) (d : list (K * V)) : bool :=
  match dget k d with Some _ => true | None => false end.

Fixpoint dset (k : K) (v : V) (d : list (K * V)) : list (K * V) :=
  match d with
  | [] => [(k, v)]
  | (k', v') :: r => if eqb k k' then (k', v) :: r else (k', v') :: dset k v r
  end.

Fixpoint ddel (k : K) (d : list (K * V)) : list (K * V) :=
  match d with
  | [] => []
  | (k', v') :: r => if eqb k k' then r else (k', v') :: ddel k r
  end.



(** [dict(pairs)] / [dict.update(pairs)] *)
Definition dupdate (d : list (K * V)) (ps : list (K * V)) : list (K * V) :=
  fold_left (fun d p => dset (fst p) (snd p) d) ps d.

Context (eqb_spec : forall a b, eqb a b = true <-> a = b).

Lemma eqb_refl' : forall a, eqb a a = true.
Proof. intros; apply eqb_spec; auto. Qed.
Lemma eqb_neq' : forall a b, eqb a b = false <-> a <> b.
Proof.
  intros a b. split; intros H.
  - intros ->. rewrite eqb_refl' in H. discriminate.
  - destruct (eqb a b) eqn:E; auto. apply eqb_spec in E. contradiction.
Qed.
Lemma eqb_dec' : forall a b : K, {a = b} + {a <> b}.
Proof.
  intros a b. destruct (eqb a b) eqn:E; [left; apply eqb_spec; auto|right; apply eqb_neq'; auto].
Qed.

Lemma dget_dset_same k v d : dget k (dset k v d) = Some v.
Proof.
  induction d as [|[k' v'] r IH]; cbn; [rewrite eqb_refl'; auto|].
  destruct (eqb k k') eqn:E; cbn; rewrite E; auto.
Qed.
Lemma dget_dset_other k k2 v d : k2 <> k -> dget k2 (dset k v d) = dget k2 d.
Proof.
  intros H. induction d as [|[k' v'] r IH]; cbn.
  - apply eqb_neq' in H. rewrite H. auto.
  - destruct (eqb k k') eqn:E; cbn; auto.
    + apply eqb_spec in E. subst k'. apply eqb_neq' in H. rewrite H. auto.
    + rewrite IH. auto.
Qed.
Lemma dget_dset k k2 v d : dget k2 (dset k v d) = if eqb k2 k then Some v else dget k2 d.
Proof.
  destruct (eqb k2 k) eqn:E.
  - apply eqb_spec in E. subst. apply dget_dset_same.
  - apply dget_dset_other. apply eqb_neq'. auto.
Qed.
Lemma dget_Some_in k v d : dget k d = Some v -> In (k, v) d.
Proof.
  induction d as [|[k' v'] r IH]; cbn; [discriminate|].
  destruct (eqb k k') eqn:E; intros H; auto.
  apply eqb_spec in E. injection H as <-. subst; auto.
Qed.
Lemma dget_None k d : dget k d = None <-> ~ In k (dkeys d).
Proof.
  induction d as [|[k' v'] r IH]; cbn; [tauto|].
  destruct (eqb k k') eqn:E.
  - apply eqb_spec in E. subst. split; [discriminate|]. intros H; exfalso; auto.
  - apply eqb_neq' in E. rewrite IH. split; intros H; [intros [H1|H1]; [congruence|auto]|tauto].
Qed.
Lemma dget_Some_key k d : (exists v, dget k d = Some v) <-> In k (dkeys d).
Proof.
  destruct (dget k d) eqn:E.
  - split; eauto. intros _. apply dget_Some_in in E. apply (in_map fst) in E. exact E.
  - apply dget_None in E. split; [intros [v H]; discriminate|]. tauto.
Qed.
Lemma dmem_iff k d : dmem k d = true <-> In k (dkeys d).
Proof.
  unfold dmem. rewrite <- dget_Some_key. destruct (dget k d).
  - split; eauto.
  - split; [discriminate|]. intros [v H]; discriminate.
Qed.
Lemma in_dget k v d : NoDup (dkeys d) -> In (k, v) d -> dget k d = Some v.
Proof.
  induction d as [|[k' v'] r IH]; cbn; [tauto|]. intros ND [H|H].
  - injection H as -> ->. rewrite eqb_refl'. auto.
  - inversion ND; subst. destruct (eqb k k') eqn:E; auto.
    apply eqb_spec in E. subst. exfalso. apply H2. apply (in_map fst) in H. exact H.
Qed.

Lemma dset_keys k v d :
  dkeys (dset k v d) = if dmem k d then dkeys d else dkeys d ++ [k].
Proof.
  unfold dmem. induction d as [|[k' v'] r IH]; cbn; auto.
  destruct (eqb k k') eqn:E; cbn; auto. rewrite IH. destruct (dget k r); auto.
Qed.
Lemma dset_in_keys k v d x : In x (dkeys (dset k v d)) <-> x = k \/ In x (dkeys d).
Proof.
  rewrite dset_keys. destruct (dmem k d) eqn:E.
  - apply dmem_iff in E. split; [auto|]. intros [->|H]; auto.
  - rewrite in_app_iff. cbn. split; [intros [H|[H|[]]]; auto|intros [->|H]; auto].
Qed.
Lemma NoDup_snoc {A} (l : list A) x : NoDup l -> ~ In x l -> NoDup (l ++ [x]).
Proof.
  intros H1 H2. apply NoDup_rev in H1. rewrite <- (rev_involutive (l ++ [x])).
  apply NoDup_rev. rewrite rev_app_distr. cbn. constructor; auto.
  rewrite <- in_rev. auto.
Qed.
Lemma dset_NoDup k v d : NoDup (dkeys d) -> NoDup (dkeys (dset k v d)).
Proof.
  intros H. rewrite dset_keys. destruct (dmem k d) eqn:E; auto.
  apply NoDup_snoc; auto. intros HI. apply dmem_iff in HI. congruence.
Qed.
Lemma dset_length k v d : length (dset k v d) = if dmem k d then length d else S (length d).
Proof.
  pose proof (dset_keys k v d) as H. apply (f_equal (@length _)) in H.
  rewrite map_length in H. rewrite H.
  destruct (dmem k d); [rewrite map_length; auto|].
  rewrite app_length, map_length. cbn. lia.
Qed.

Lemma ddel_keys_in k d x : NoDup (dkeys d) -> (In x (dkeys (ddel k d)) <-> In x (dkeys d) /\ x <> k).
Proof.
  induction d as [|[k' v'] r IH]; cbn; [tauto|]. intros ND. inversion ND; subst.
  destruct (eqb k k') eqn:E.
  - apply eqb_spec in E. subst k'. split.
    + intros H. split; auto. intros ->. contradiction.
    + intros [[H|H] H3]; [congruence|auto].
  - apply eqb_neq' in E. cbn. rewrite IH by auto. split.
    + intros [->|[H H3]]; auto.
    + intros [[->|H] H3]; auto.
Qed.
Lemma ddel_NoDup k d : NoDup (dkeys d) -> NoDup (dkeys (ddel k d)).
Proof.
  induction d as [|[k' v'] r IH]; cbn; auto. intros ND. inversion ND; subst.
  destruct (eqb k k') eqn:E; auto. cbn. constructor; auto.
  intros H. apply ddel_keys_in in H; tauto.
Qed.
Lemma dget_ddel k k2 d : NoDup (dkeys d) ->
  dget k2 (ddel k d) = if eqb k2 k then None else dget k2 d.
Proof.
  intros ND. induction d as [|[k' v'] r IH]; cbn.
  - destruct (eqb k2 k); auto.
  - inversion ND; subst. destruct (eqb k k') eqn:E.
    + apply eqb_spec in E. subst k'. destruct (eqb k2 k) eqn:E2; auto.
      apply eqb_spec in E2. subst. apply dget_None. auto.
    + cbn. rewrite IH by auto. destruct (eqb k2 k') eqn:E3; auto.
      apply eqb_spec in E3. subst. destruct (eqb k' k) eqn:E4; auto.
      apply eqb_spec in E4. subst. rewrite eqb_refl' in E. discriminate.
Qed.
Lemma ddel_absent k d : dget k d = None -> ddel k d = d.
Proof.
  induction d as [|[k' v'] r IH]; cbn; auto.
  destruct (eqb k k'); [discriminate|]. intros H. rewrite IH; auto.
Qed.
Lemma ddel_length k d : length (ddel k d) = if dmem k d then pred (length d) else length d.
Proof.
  unfold dmem. induction d as [|[k' v'] r IH]; cbn; auto.
  destruct (eqb k k') eqn:E; cbn; auto. rewrite IH.
  destruct (dget k r) eqn:G; auto. destruct r; cbn in *; [discriminate|lia].
Qed.
Lemma ddel_filter k d : NoDup (dkeys d) -> ddel k d = filter (fun p => negb (eqb (fst p) k)) d.
Proof.
  induction d as [|[k' v'] r IH]; cbn; auto. intros ND. inversion ND; subst.
  destruct (eqb k k') eqn:E.
  - apply eqb_spec in E. subst k'. rewrite eqb_refl'. cbn.
    clear IH ND H2. induction r as [|[a b] r IHr]; cbn; auto.
    destruct (eqb a k) eqn:E; cbn.
    + apply eqb_spec in E. subst. cbn in H1. tauto.
    + f_equal. apply IHr. cbn in H1. tauto.
  - destruct (eqb k' k) eqn:E2; cbn.
    + apply eqb_spec in E2. subst. rewrite eqb_refl' in E. discriminate.
    + f_equal. auto.
Qed.

Lemma dset_fresh k v d : dget k d = None -> dset k v d = d ++ [(k, v)].
Proof.
  induction d as [|[k' v'] r IH]; cbn; auto. destruct (eqb k k'); [discriminate|].
  intros H. f_equal. auto.
Qed.
Lemma dupdate_app d a b : dupdate d (a ++ b) = dupdate (dupdate d a) b.
Proof. apply fold_left_app. Qed.
Lemma dupdate_NoDup ps : forall d, NoDup (dkeys d) -> NoDup (dkeys (dupdate d ps)).
Proof.
  induction ps as [|[k v] ps IH]; cbn; auto. intros d H. apply IH. apply dset_NoDup. auto.
Qed.
(** Building a dict from pairs with distinct keys keeps them as they are. *)
Lemma dupdate_fresh ps : forall d, NoDup (dkeys d ++ dkeys ps) -> dupdate d ps = d ++ ps.
Proof.
  induction ps as [|[k v] ps IH]; cbn; intros d H.
  - rewrite app_nil_r. auto.
  - change (dupdate (dset k v d) ps = d ++ (k, v) :: ps).
    assert (dget k d = None) as G.
    { apply dget_None. intros HI. apply NoDup_remove_2 in H. apply H. apply in_app_iff; auto. }
    rewrite (dset_fresh _ _ _ G). rewrite IH.
    + rewrite <- app_assoc. auto.
    + rewrite map_app. cbn. rewrite <- app_assoc. auto.
Qed.
End Dict.
