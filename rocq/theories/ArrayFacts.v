(** Dense array storage refines lists with holes. *)
From Coq Require Import List ZArith Bool Lia ZifyBool ZifyNat ZifyN Permutation Sorted.
From Verif Require Import Base Dict SpecArray ModelArray.
Import ListNotations.
Open Scope Z_scope.

Section ListFacts.
Context {A : Type}.

Lemma nth_error_ext' (a b : list A) : (forall i, nth_error a i = nth_error b i) -> a = b.
Proof.
  revert b. induction a as [|x a IH]; intros [|y b] H; auto.
  - specialize (H 0%nat). discriminate.
  - specialize (H 0%nat). discriminate.
  - pose proof (H 0%nat) as H0. injection H0 as ->. f_equal. apply IH.
    intros i. apply (H (S i)).
Qed.
Lemma replace_nth_eq n x (l : list A) : (n < length l)%nat ->
  replace_nth n x l = firstn n l ++ x :: skipn (S n) l.
Proof.
  revert n. induction l as [|a l IH]; intros [|n] H; cbn [length] in *; try lia; auto.
  cbn [replace_nth firstn skipn app]. f_equal. rewrite IH by lia. auto.
Qed.
Lemma nth_error_split' n (l : list A) x : nth_error l n = Some x ->
  l = firstn n l ++ x :: skipn (S n) l.
Proof.
  revert n. induction l as [|a l IH]; intros [|n] H; cbn in *; try discriminate.
  - injection H as ->. auto.
  - f_equal. apply IH. auto.
Qed.
Lemma znth_nat (l : list A) i : 0 <= i -> znth l i = nth_error l (Z.to_nat i).
Proof. intros H. unfold znth. replace (i <? 0) with false by lia. auto. Qed.
Lemma zlen_nil : zlen (@nil A) = 0.
Proof. reflexivity. Qed.
Lemma zlen_cons (x : A) l : zlen (x :: l) = zlen l + 1.
Proof. unfold zlen. cbn [length]. lia. Qed.
Lemma zlen_app (a b : list A) : zlen (a ++ b) = zlen a + zlen b.
Proof. unfold zlen. rewrite app_length. lia. Qed.
Lemma zlen_nonneg (l : list A) : 0 <= zlen l.
Proof. unfold zlen. lia. Qed.
End ListFacts.

Section DenseFacts.
Context {T : Type}.
Implicit Types l : list (option T).

Lemma count_used_app l1 l2 : count_used (l1 ++ l2) = count_used l1 + count_used l2.
Proof. unfold count_used. rewrite filter_app, zlen_app. auto. Qed.
Lemma count_used_cons v l : count_used (v :: l) = (if is_some v then 1 else 0) + count_used l.
Proof. unfold count_used. cbn [filter]. destruct (is_some v); [rewrite zlen_cons; lia|lia]. Qed.
Lemma count_used_nil : count_used (@nil (option T)) = 0.
Proof. reflexivity. Qed.
Lemma count_used_repeat n : count_used (repeat (@None T) n) = 0.
Proof. induction n; auto. Qed.
Lemma number_used_eq l : number_used l = count_used l.
Proof. reflexivity. Qed.

(** Indexes of non-holes. *)
Lemma indexes_from_in l : forall i x,
  In x (indexes_from i l) <-> i <= x /\ exists v, nth_error l (Z.to_nat (x - i)) = Some (Some v).
Proof.
  induction l as [|[a|] l IH]; intros i x; cbn [indexes_from].
  - split; [intros []|]. intros [H [v E]]. destruct (Z.to_nat _); discriminate.
  - cbn [In]. rewrite IH. split.
    + intros [->|[H [v E]]].
      * split; [lia|]. exists a. rewrite Z.sub_diag. auto.
      * split; [lia|]. exists v. replace (Z.to_nat (x - i)) with (S (Z.to_nat (x - (i + 1)))) by lia. auto.
    + intros [H [v E]]. destruct (Z.eq_dec i x); auto. right. split; [lia|]. exists v.
      replace (Z.to_nat (x - i)) with (S (Z.to_nat (x - (i + 1)))) in E by lia. auto.
  - rewrite IH. split.
    + intros [H [v E]]. split; [lia|]. exists v.
      replace (Z.to_nat (x - i)) with (S (Z.to_nat (x - (i + 1)))) by lia. auto.
    + intros [H [v E]]. destruct (Z.eq_dec i x) as [->|N].
      * rewrite Z.sub_diag in E. discriminate.
      * split; [lia|]. exists v.
        replace (Z.to_nat (x - i)) with (S (Z.to_nat (x - (i + 1)))) in E by lia. auto.
Qed.
Lemma indexes_from_sorted l : forall i, StronglySorted Z.lt (indexes_from i l).
Proof.
  induction l as [|[a|] l IH]; intros i; cbn [indexes_from]; auto; [constructor|].
  constructor; auto. apply Forall_forall. intros x H. apply indexes_from_in in H. lia.
Qed.
Lemma indexes_from_length l : forall i, zlen (indexes_from i l) = count_used l.
Proof.
  induction l as [|[a|] l IH]; intros i; cbn [indexes_from]; auto; rewrite count_used_cons; cbn [is_some].
  rewrite zlen_cons, IH. lia.
Qed.
Lemma entries_from_keys l : forall i, dkeys (entries_from i l) = indexes_from i l.
Proof. induction l as [|[a|] l IH]; intros i; cbn [entries_from indexes_from map fst]; auto. f_equal; auto. Qed.

End DenseFacts.

(** Strictly sorted lists. *)
Lemma ssorted_ascending l : StronglySorted Z.lt l <-> ascending l.
Proof.
  split.
  - induction 1 as [|a l H IH F]; intros j k x y HJ HK L.
    + destruct j; discriminate.
    + destruct j as [|j], k as [|k]; cbn in *; try lia.
      * injection HJ as <-. rewrite Forall_forall in F. apply F. eapply nth_error_In; eauto.
      * eapply IH; eauto. lia.
  - induction l as [|a l IH]; intros H; constructor.
    + apply IH. intros j k x y HJ HK L. apply (H (S j) (S k)); auto. lia.
    + apply Forall_forall. intros x HX. apply In_nth_error in HX as [n HX].
      apply (H 0%nat (S n)); auto. lia.
Qed.
Lemma ssorted_unique a b : StronglySorted Z.lt a -> StronglySorted Z.lt b ->
  (forall x, In x a <-> In x b) -> a = b.
Proof.
  revert b. induction a as [|x a IH]; intros [|y b] SA SB H; auto.
  - exfalso. apply (H y). cbn; auto.
  - exfalso. apply (H x). cbn; auto.
  - inversion SA as [|? ? SA' FA]; subst. inversion SB as [|? ? SB' FB]; subst.
    rewrite Forall_forall in FA, FB.
    assert (x = y).
    { destruct (proj1 (H x) (or_introl eq_refl)) as [E|E]; auto.
      destruct (proj2 (H y) (or_introl eq_refl)) as [E2|E2]; auto.
      specialize (FA _ E2). specialize (FB _ E). lia. }
    subst y. f_equal. apply IH; auto. intros z. split; intros HZ.
    + destruct (proj1 (H z) (or_intror HZ)) as [->|]; auto. specialize (FA _ HZ). lia.
    + destruct (proj2 (H z) (or_intror HZ)) as [->|]; auto. specialize (FB _ HZ). lia.
Qed.
Lemma ssorted_NoDup l : StronglySorted Z.lt l -> NoDup l.
Proof.
  induction 1 as [|a l H IH F]; constructor; auto. intros HI.
  rewrite Forall_forall in F. specialize (F _ HI). lia.
Qed.
Lemma ssorted_app a b : StronglySorted Z.lt (a ++ b) <->
  StronglySorted Z.lt a /\ StronglySorted Z.lt b /\ (forall x y, In x a -> In y b -> x < y).
Proof.
  induction a as [|x a IH]; cbn [app].
  - split; [intros H; repeat split; auto; [constructor|intros x y []]|tauto].
  - split.
    + intros H. inversion H as [|? ? H1 F]; subst. apply IH in H1 as [H1 [H2 H3]].
      rewrite Forall_app in F. destruct F as [F1 F2]. repeat split; auto; [constructor; auto|].
      intros u v [<-|HU] HV; auto. rewrite Forall_forall in F2. auto.
    + intros [H1 [H2 H3]]. inversion H1 as [|? ? H4 F]; subst. constructor.
      * apply IH. repeat split; auto. intros; apply H3; cbn; auto.
      * apply Forall_app. split; auto. apply Forall_forall. intros; apply H3; cbn; auto.
Qed.

Section Dense2.
Context {T : Type}.

Lemma position_cases (l : list (option T)) i :
  (0 <= i < zlen l /\ position l i = Some (Z.to_nat i)) \/
  (- zlen l <= i < 0 /\ position l i = Some (Z.to_nat (zlen l + i))) \/
  (zlen l <= i /\ position l i = None) \/
  (i < - zlen l /\ position l i = None).
Proof.
  unfold position, zlen.
  destruct (Z_lt_ge_dec i 0).
  - replace (0 <=? i) with false by lia. cbn [andb].
    destruct (Z_lt_ge_dec i (- Z.of_nat (length l))).
    + replace (- Z.of_nat (length l) <=? i) with false by lia. cbn [andb]. right; right; right. split; [lia|auto].
    + replace (- Z.of_nat (length l) <=? i) with true by lia. replace (i <? 0) with true by lia. cbn [andb].
      right; left. split; [lia|auto].
  - replace (0 <=? i) with true by lia. cbn [andb].
    destruct (Z_lt_ge_dec i (Z.of_nat (length l))).
    + replace (i <? Z.of_nat (length l)) with true by lia. left. split; [lia|auto].
    + replace (i <? Z.of_nat (length l)) with false by lia. replace (i <? 0) with false by lia.
      rewrite andb_false_r. right; right; left. split; [lia|auto].
Qed.
Lemma position_bound (l : list (option T)) i k : position l i = Some k -> (k < length l)%nat.
Proof.
  intros H. destruct (position_cases l i) as [[B E]|[[B E]|[[B E]|[B E]]]]; rewrite H in E;
    try discriminate; injection E as ->; unfold zlen in *; lia.
Qed.
Lemma position_nth (l : list (option T)) i k : position l i = Some k ->
  exists v, nth_error l k = Some v.
Proof.
  intros H. apply position_bound in H. apply nth_error_Some in H.
  destruct (nth_error l k); eauto. congruence.
Qed.

(** Invariant of the dense storage: the counter is right. *)
Definition dense_ok (d : dense T) : Prop := d_used d = count_used (d_items d).

Lemma dense_norm_cases (d : dense T) i :
  match position (d_items d) i with
  | Some k => exists j, dense_norm d i = Ok j /\ 0 <= j /\ Z.to_nat j = k
  | None => (zlen (d_items d) <= i /\ dense_norm d i = Ok i) \/
            (i < - zlen (d_items d) /\ dense_norm d i = Err EIndex)
  end.
Proof.
  unfold dense_norm, dense_len.
  destruct (position_cases (d_items d) i) as [[B E]|[[B E]|[[B E]|[B E]]]]; rewrite E;
    pose proof (zlen_nonneg (d_items d)).
  - exists i. replace (i <? 0) with false by lia. repeat split; lia.
  - exists (zlen (d_items d) + i). replace (i <? 0) with true by lia.
    replace (zlen (d_items d) + i <? 0) with false by lia. repeat split; lia.
  - left. replace (i <? 0) with false by lia. auto.
  - right. replace (i <? 0) with true by lia. replace (zlen (d_items d) + i <? 0) with true by lia. auto.
Qed.

Lemma dense_get_spec (d : dense T) i :
  match position (d_items d) i with
  | Some k => exists v, nth_error (d_items d) k = Some v /\ dense_get d i = Ok v
  | None => dense_get d i = Err EIndex
  end.
Proof.
  unfold dense_get, dense_len. pose proof (zlen_nonneg (d_items d)) as ZN.
  destruct (position_cases (d_items d) i) as [[B E]|[[B E]|[[B E]|[B E]]]]; rewrite E.
  - replace (i <? 0) with false by lia. rewrite znth_nat by lia.
    destruct (position_nth _ _ _ E) as [v ->]. eauto.
  - replace (i <? 0) with true by lia. rewrite znth_nat by lia.
    destruct (position_nth _ _ _ E) as [v ->]. eauto.
  - replace (i <? 0) with false by lia. rewrite znth_nat by lia.
    rewrite (proj2 (nth_error_None _ _)); auto. unfold zlen in *. lia.
  - replace (i <? 0) with true by lia. unfold znth.
    replace (zlen (d_items d) + i <? 0) with true by lia. auto.
Qed.

Lemma dense_set_spec (d : dense T) i v : dense_ok d ->
  match position (d_items d) i with
  | Some k => exists d', dense_set d i v = (Ok tt, d') /\ dense_ok d' /\
                d_items d' = firstn k (d_items d) ++ v :: skipn (S k) (d_items d)
  | None => dense_set d i v = (Err EIndex, d)
  end.
Proof.
  intros OK. unfold dense_set. pose proof (dense_norm_cases d i) as C.
  destruct (position (d_items d) i) as [k|] eqn:P.
  - destruct C as [j [-> [J0 JK]]]. rewrite znth_nat by lia. rewrite JK.
    pose proof (position_bound _ _ _ P) as B.
    destruct (position_nth _ _ _ P) as [c NE]. rewrite NE.
    eexists. split; [reflexivity|]. cbn [d_items d_used].
    rewrite replace_nth_eq by auto. split; auto.
    unfold dense_ok in *. cbn [d_items d_used]. rewrite OK.
    pose proof (f_equal count_used (nth_error_split' _ _ _ NE)) as CS.
    rewrite !count_used_app, !count_used_cons in *. destruct c, v; cbn [is_some negb] in *; lia.
  - destruct C as [[B ->]|[B ->]]; auto. pose proof (zlen_nonneg (d_items d)).
    rewrite znth_nat by lia. rewrite (proj2 (nth_error_None _ _)); auto. unfold zlen in *. lia.
Qed.

Lemma dense_del_spec (d : dense T) i : dense_ok d ->
  match position (d_items d) i with
  | Some k => exists d', dense_del d i = (Ok tt, d') /\ dense_ok d' /\
                d_items d' = firstn k (d_items d) ++ skipn (S k) (d_items d)
  | None => dense_del d i = (Err EIndex, d)
  end.
Proof.
  intros OK. unfold dense_del. pose proof (dense_norm_cases d i) as C.
  destruct (position (d_items d) i) as [k|] eqn:P.
  - destruct C as [j [-> [J0 JK]]]. rewrite znth_nat by lia. rewrite JK.
    destruct (position_nth _ _ _ P) as [c NE]. rewrite NE.
    eexists. split; [reflexivity|]. cbn [d_items d_used]. unfold remove_nth. split; auto.
    unfold dense_ok in *. cbn [d_items d_used]. rewrite OK.
    pose proof (f_equal count_used (nth_error_split' _ _ _ NE)) as CS.
    rewrite !count_used_app, !count_used_cons in *. destruct c; cbn [is_some] in *; lia.
  - destruct C as [[B ->]|[B ->]]; auto. pose proof (zlen_nonneg (d_items d)).
    rewrite znth_nat by lia. rewrite (proj2 (nth_error_None _ _)); auto. unfold zlen in *. lia.
Qed.

Lemma dense_insert_spec (d : dense T) i v : dense_ok d ->
  match position (d_items d) i with
  | Some k => exists d', dense_insert d i v = (Ok tt, d') /\ dense_ok d' /\
                d_items d' = firstn k (d_items d) ++ v :: skipn k (d_items d)
  | None => (zlen (d_items d) <= i /\ exists d', dense_insert d i v = (Ok tt, d') /\ dense_ok d' /\
                d_items d' = d_items d ++ [v]) \/
            (i < - zlen (d_items d) /\ dense_insert d i v = (Err EIndex, d))
  end.
Proof.
  intros OK. unfold dense_insert. pose proof (dense_norm_cases d i) as C.
  assert (forall n, count_used (insert_nth n v (d_items d)) = (if is_some v then d_used d + 1 else d_used d)) as CU.
  { intros n. unfold insert_nth. rewrite count_used_app, count_used_cons. unfold dense_ok in OK. rewrite OK.
    pose proof (f_equal count_used (firstn_skipn n (d_items d))) as CS.
    rewrite count_used_app in CS. destruct v; cbn [is_some]; lia. }
  destruct (position (d_items d) i) as [k|] eqn:P.
  - destruct C as [j [-> [J0 JK]]]. rewrite JK. eexists. split; [reflexivity|].
    split; [|reflexivity]. unfold dense_ok. cbn [d_items d_used]. rewrite CU. auto.
  - destruct C as [[B ->]|[B ->]]; [left|right; auto]. split; auto.
    eexists. split; [reflexivity|]. split.
    + unfold dense_ok. cbn [d_items d_used]. rewrite CU. auto.
    + cbn [d_items]. unfold insert_nth. unfold zlen in B.
      rewrite firstn_all2, skipn_all2 by lia. auto.
Qed.

Lemma dense_append_spec (d : dense T) v : dense_ok d ->
  exists d', dense_append d v = (Ok tt, d') /\ dense_ok d' /\ d_items d' = d_items d ++ [v].
Proof.
  intros OK. eexists. split; [reflexivity|]. split; auto. unfold dense_ok in *. cbn [d_items d_used].
  rewrite count_used_app, count_used_cons, OK. destruct v; cbn [is_some]; rewrite ?(@count_used_nil T); lia.
Qed.

Lemma dense_extend_spec vs : forall (d : dense T), dense_ok d ->
  exists d', arr_extend (ADense d) vs = (Ok tt, ADense d') /\ dense_ok d' /\ d_items d' = d_items d ++ vs.
Proof.
  induction vs as [|v vs IH]; intros d OK; cbn [arr_extend arr_append].
  - exists d. rewrite app_nil_r. auto.
  - destruct (dense_append_spec d v OK) as [d1 [-> [OK1 E1]]]. cbn [lift fst snd].
    destruct (IH d1 OK1) as [d2 [-> [OK2 E2]]]. exists d2. rewrite E2, E1, <- app_assoc. auto.
Qed.

Lemma dense_resize_spec (d : dense T) n : dense_ok d ->
  if (n <? 0) || (2 ^ 32 - 1 <? n) then dense_resize d n = (Err EValue, d)
  else exists d', dense_resize d n = (Ok tt, d') /\ dense_ok d' /\
     d_items d' = if n <? zlen (d_items d) then firstn (Z.to_nat n) (d_items d)
                  else d_items d ++ repeat None (Z.to_nat n - length (d_items d)).
Proof.
  intros OK. unfold dense_resize, MAX_LEN, dense_len.
  destruct ((n <? 0) || (2 ^ 32 - 1 <? n)) eqn:B; auto. apply orb_false_iff in B as [B1 B2].
  destruct (n <? zlen (d_items d)) eqn:L.
  - eexists. split; [reflexivity|]. split; auto. unfold dense_ok in *. cbn [d_items d_used].
    destruct (2 * n <? zlen (d_items d)); auto. rewrite OK.
    pose proof (f_equal count_used (firstn_skipn (Z.to_nat n) (d_items d))) as CS.
    rewrite count_used_app in CS. lia.
  - eexists. split; [reflexivity|]. unfold dense_ok in *. cbn [d_items d_used].
    rewrite count_used_app, count_used_repeat. split; [lia|].
    unfold zlen. do 2 f_equal. lia.
Qed.

Lemma dense_init_spec vs : dense_ok (dense_init vs) /\ d_items (dense_init vs : dense T) = vs.
Proof.
  unfold dense_init.
  assert (forall vs d, dense_ok d ->
    let d' := fold_left (fun d v => mkDense (d_items d ++ [v]) (if is_some v then d_used d + 1 else d_used d)) vs d in
    dense_ok d' /\ d_items (d' : dense T) = d_items d ++ vs) as H.
  { clear. induction vs as [|v vs IH]; intros d OK d'.
    - unfold d'. cbn [fold_left]. rewrite app_nil_r. auto.
    - unfold d'. cbn [fold_left]. destruct (dense_append_spec d v OK) as [d1 [E [OK1 E1]]].
      unfold dense_append in E. injection E as <-.
      destruct (IH _ OK1) as [H1 H2]. split; auto. rewrite H2. cbn [d_items]. rewrite <- app_assoc. auto. }
  apply (H vs (mkDense [] 0)). reflexivity.
Qed.

Lemma dense_indexes_desc_eq (d : dense T) : dense_indexes_desc d = rev (dense_indexes d).
Proof.
  unfold dense_indexes_desc, dense_indexes, dense_len. generalize (d_items d) as l. intros l.
  assert (forall (l : list (option T)) i, indexes_from i l = map (fun j => i + j) (indexes_from 0 l)) as SH.
  { clear. intros l. assert (forall i k, indexes_from (i + k) l = map (fun j => i + j) (indexes_from k l)) as H.
    { induction l as [|[a|] l IH]; intros i k; cbn [indexes_from map]; auto.
      - f_equal. rewrite <- IH. f_equal. lia.
      - rewrite <- IH. f_equal. lia. }
    intros i. rewrite <- H. f_equal. lia. }
  assert (forall a b : list (option T), indexes_from 0 (a ++ b) = indexes_from 0 a ++ indexes_from (zlen a) b) as AP.
  { clear - SH. intros a b.
    assert (forall i, indexes_from i (a ++ b) = indexes_from i a ++ indexes_from (i + zlen a) b) as H.
    { induction a as [|[x|] a IH]; intros i; cbn [app indexes_from].
      - rewrite zlen_nil. f_equal. lia.
      - f_equal. rewrite IH, zlen_cons. do 2 f_equal. lia.
      - rewrite IH, zlen_cons. do 2 f_equal. lia. }
    rewrite H. f_equal. }
  induction l as [|x l IH]; [reflexivity|].
  cbn [rev]. rewrite AP, map_app.
  assert (zlen (rev l) = zlen l) as ZR by (unfold zlen; rewrite rev_length; auto). rewrite ZR.
  rewrite zlen_cons.
  assert (map (fun j => zlen l + 1 - 1 - j) (indexes_from 0 (rev l)) =
          map (fun j => 1 + j) (rev (indexes_from 0 l))) as E.
  { rewrite <- IH, map_map. apply map_ext. intros; lia. }
  rewrite E. rewrite map_rev, <- SH.
  destruct x; cbn [indexes_from map rev]; rewrite ?app_nil_r; auto.
  do 2 f_equal. lia.
Qed.

Lemma ascending_of_indexes (l : list (option T)) : ascending (indexes_from 0 l).
Proof. apply ssorted_ascending. apply indexes_from_sorted. Qed.
Lemma indexes_occupied (l : list (option T)) i : In i (indexes_from 0 l) <-> occupied l i.
Proof.
  rewrite indexes_from_in. unfold occupied. rewrite Z.sub_0_r. split.
  - intros [H [v E]]. eauto.
  - intros [v [H E]]. eauto.
Qed.

(** One operation on dense storage is one step of the list with holes. *)
Lemma dense_op_refines (d : dense T) o r a' : dense_ok d ->
  arr_op (ADense d) o = (r, a') ->
  exists d', a' = ADense d' /\ dense_ok d' /\ spec_op (d_items d) o r (d_items d').
Proof.
  intros OK H. destruct o; cbn [arr_op arr_get arr_set arr_del arr_insert arr_append arr_resize
    arr_len arr_used arr_indexes arr_indexes_desc arr_iter arr_pop] in H.
  - injection H as <- <-. exists d. repeat split; auto. pose proof (dense_get_spec d i) as C.
    destruct (position _ _) eqn:P.
    + destruct C as [v [N ->]]. eapply so_get; eauto.
    + rewrite C. apply so_get_err; auto.
  - pose proof (dense_set_spec d i v OK) as C. destruct (position _ _) eqn:P.
    + destruct C as [d' [E [OK' I]]]. rewrite E in H. injection H as <- <-.
      exists d'. repeat split; auto. rewrite I. eapply so_set; eauto.
    + rewrite C in H. injection H as <- <-. exists d. repeat split; auto. apply so_set_err; auto.
  - pose proof (dense_del_spec d i OK) as C. destruct (position _ _) eqn:P.
    + destruct C as [d' [E [OK' I]]]. rewrite E in H. injection H as <- <-.
      exists d'. repeat split; auto. rewrite I. eapply so_del; eauto.
    + rewrite C in H. injection H as <- <-. exists d. repeat split; auto. apply so_del_err; auto.
  - pose proof (dense_insert_spec d i v OK) as C. destruct (position _ _) eqn:P.
    + destruct C as [d' [E [OK' I]]]. rewrite E in H. injection H as <- <-.
      exists d'. repeat split; auto. rewrite I. eapply so_insert; eauto.
    + destruct C as [[B [d' [E [OK' I]]]]|[B E]]; rewrite E in H; injection H as <- <-.
      * exists d'. repeat split; auto. rewrite I. apply so_insert_end; auto.
      * exists d. repeat split; auto. apply so_insert_err. exact B.
  - destruct (dense_append_spec d v OK) as [d' [E [OK' I]]]. rewrite E in H. injection H as <- <-.
    exists d'. repeat split; auto. rewrite I. constructor.
  - destruct (dense_extend_spec vs d OK) as [d' [E [OK' I]]]. rewrite E in H. injection H as <- <-.
    exists d'. repeat split; auto. rewrite I. constructor.
  - unfold arr_pop in H. cbn [arr_get arr_del] in H.
    pose proof (dense_get_spec d i) as C. pose proof (dense_del_spec d i OK) as D.
    destruct (position _ _) eqn:P.
    + destruct C as [v [N E]]. rewrite E in H. destruct D as [d' [E' [OK' I]]].
      rewrite E' in H. injection H as <- <-. exists d'. repeat split; auto. rewrite I.
      eapply so_pop; eauto.
    + rewrite C in H. injection H as <- <-. exists d. repeat split; auto. apply so_pop_err; auto.
  - pose proof (dense_resize_spec d n OK) as C.
    destruct ((n <? 0) || (2 ^ 32 - 1 <? n)) eqn:B.
    + rewrite C in H. injection H as <- <-. exists d. repeat split; auto.
      apply so_resize_err. lia.
    + destruct C as [d' [E [OK' I]]]. rewrite E in H. injection H as <- <-.
      exists d'. repeat split; auto. rewrite I. unfold zlen in *.
      destruct (n <? Z.of_nat (length (d_items d))) eqn:L; [apply so_shrink|apply so_grow]; lia.
  - injection H as <- <-. exists d. repeat split; auto. constructor.
  - injection H as <- <-. exists d. repeat split; auto. rewrite OK. constructor.
  - injection H as <- <-. exists d. repeat split; auto. constructor.
    + apply ascending_of_indexes.
    + apply indexes_occupied.
  - injection H as <- <-. exists d. repeat split; auto. rewrite dense_indexes_desc_eq. constructor.
    + rewrite rev_involutive. apply ascending_of_indexes.
    + intros i. rewrite <- in_rev. apply indexes_occupied.
  - injection H as <- <-. exists d. repeat split; auto. constructor.
Qed.

Lemma dense_ops_refines ops : forall (d : dense T) tr a', dense_ok d ->
  arr_ops (ADense d) ops = (tr, a') ->
  exists d', a' = ADense d' /\ dense_ok d' /\ spec_ops (d_items d) tr (d_items d').
Proof.
  induction ops as [|o ops IH]; intros d tr a' OK H; cbn [arr_ops] in H.
  - injection H as <- <-. exists d. repeat split; auto. constructor.
  - destruct (arr_op (ADense d) o) as [r a1] eqn:E.
    destruct (dense_op_refines d o r a1 OK E) as [d1 [-> [OK1 S1]]].
    destruct (arr_ops (ADense d1) ops) as [tr2 a2] eqn:E2. injection H as <- <-.
    destruct (IH _ _ _ OK1 E2) as [d2 [-> [OK2 S2]]]. exists d2. repeat split; auto.
    econstructor; eauto.
Qed.
End Dense2.
