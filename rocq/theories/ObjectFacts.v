(** Facts about JSObject: it refines a dict with property order. *)
From Coq Require Import List NArith ZArith Bool Lia ZifyBool ZifyNat ZifyN Sorting.Sorted.
From Verif Require Import Base Dict SpecArray ModelArray ArrayFacts ArrayFacts2 ArrayFacts3
  ModelValue ValueFacts SpecKey KeyFacts SpecObject ModelObject.
Import ListNotations.
Open Scope Z_scope.

Lemma pkey_eqb_spec a b : pkey_eqb a b = true <-> a = b.
Proof.
  destruct a, b; cbn [pkey_eqb]; try rewrite listN_eqb_spec; try rewrite Z.eqb_eq; split; congruence.
Qed.

Section Obj.
Context {T : Type}.
Notation entries := (list (pkey * T)).
Notation get := (dget pkey_eqb).
Notation put := (dset pkey_eqb).
Notation remove := (ddel pkey_eqb).
Notation sget := (dget listN_eqb).

(** The string entries of a mapping. *)
Definition strs (m : entries) : list (list N * T) :=
  flat_map (fun p => match fst p with PInt _ => [] | PStr s => [(s, snd p)] end) m.
Lemma strs_keys m : dkeys (strs m) = str_keys m.
Proof. induction m as [|[[s|z] v] m IH]; cbn; auto. f_equal. exact IH. Qed.
Lemma strs_get m s : sget s (strs m) = get (PStr s) m.
Proof.
  induction m as [|[[t|z] v] m IH]; cbn [strs flat_map fst snd app dget pkey_eqb]; auto.
  destruct (listN_eqb s t); auto.
Qed.
Lemma strs_put_str m s v : strs (put (PStr s) v m) = dset listN_eqb s v (strs m).
Proof.
  induction m as [|[[t|z] w] m IH]; cbn [strs flat_map fst snd app dset pkey_eqb]; auto.
  - destruct (listN_eqb s t); cbn [strs flat_map fst snd app]; auto. f_equal. exact IH.
Qed.
Lemma strs_put_int m z v : strs (put (PInt z) v m) = strs m.
Proof.
  induction m as [|[[t|y] w] m IH]; cbn [strs flat_map fst snd app dset pkey_eqb]; auto.
  - f_equal. exact IH.
  - destruct (z =? y); cbn [strs flat_map fst snd app]; auto.
Qed.
Lemma strs_remove_str m s : strs (remove (PStr s) m) = ddel listN_eqb s (strs m).
Proof.
  induction m as [|[[t|z] w] m IH]; cbn [strs flat_map fst snd app ddel pkey_eqb]; auto.
  - destruct (listN_eqb s t); cbn [strs flat_map fst snd app]; auto. f_equal. exact IH.
Qed.
Lemma strs_remove_int m z : strs (remove (PInt z) m) = strs m.
Proof.
  induction m as [|[[t|y] w] m IH]; cbn [strs flat_map fst snd app ddel pkey_eqb]; auto.
  - f_equal. exact IH.
  - destruct (z =? y); cbn [strs flat_map fst snd app]; auto.
Qed.
Lemma int_keys_in (m : entries) z : In z (int_keys m) <-> In (PInt z) (dkeys m).
Proof.
  induction m as [|[[t|y] w] m IH]; cbn [int_keys flat_map fst app map In]; [tauto| |].
  - rewrite <- IH. split; [auto|]. intros [H|H]; [discriminate|auto].
  - rewrite <- IH. split; intros [H|H]; auto; left; congruence.
Qed.
Lemma int_keys_NoDup (m : entries) : NoDup (dkeys m) -> NoDup (int_keys m).
Proof.
  induction m as [|[[t|y] w] m IH]; cbn [int_keys flat_map fst app map]; intros H; inversion H; subst.
  - constructor.
  - apply IH. auto.
  - constructor; [|apply IH; auto]. change (~ In y (int_keys m)). rewrite int_keys_in. auto.
Qed.
Lemma str_keys_in (m : entries) s : In s (str_keys m) <-> In (PStr s) (dkeys m).
Proof.
  induction m as [|[[t|y] w] m IH]; cbn [str_keys flat_map fst app map In]; [tauto| |].
  - rewrite <- IH. split; intros [H|H]; auto; left; congruence.
  - rewrite <- IH. split; [auto|]. intros [H|H]; [discriminate|auto].
Qed.
Lemma str_keys_NoDup (m : entries) : NoDup (dkeys m) -> NoDup (str_keys m).
Proof.
  induction m as [|[[t|y] w] m IH]; cbn [str_keys flat_map fst app map]; intros H; inversion H; subst.
  - constructor.
  - constructor; [|apply IH; auto]. change (~ In t (str_keys m)). rewrite str_keys_in. auto.
  - apply IH. auto.
Qed.
Lemma length_split (m : entries) : length m = (length (int_keys m) + length (strs m))%nat.
Proof. induction m as [|[[t|y] w] m IH]; cbn; auto. cbn in IH. rewrite IH. unfold int_keys, strs. lia. Qed.

Definition elem_at (l : list (option T)) (z : Z) : option T :=
  if z <? 0 then None else match nth_error l (Z.to_nat z) with Some v => v | None => None end.

(** The abstraction relation. *)
Definition rep (o : jsobj T) (m : entries) : Prop :=
  arr_ok (jo_arr o) /\ NoDup (dkeys m) /\ jo_props o = strs m /\
  forall z, get (PInt z) m = elem_at (aabs (jo_arr o)) z.

Lemma rep_int_keys o m : rep o m -> forall z, In z (indexes_from 0 (aabs (jo_arr o))) <-> In z (int_keys m).
Proof.
  intros [A [N [P G]]] z. rewrite int_keys_in, indexes_from_in.
  rewrite <- (dget_Some_key _ pkey_eqb_spec). rewrite G. unfold elem_at. rewrite Z.sub_0_r. split.
  - intros [L [v H]]. exists v. replace (z <? 0) with false by lia. rewrite H. auto.
  - intros [v H]. destruct (z <? 0) eqn:E; [discriminate|]. split; [lia|]. exists v.
    destruct (nth_error _ _) as [w|]; [subst; auto|discriminate].
Qed.
Lemma rep_used o m : rep o m -> arr_used (jo_arr o) = Z.of_nat (length (int_keys m)).
Proof.
  intros R. pose proof R as [A [N [P G]]]. rewrite (arr_used_eq _ A), <- (indexes_from_length _ 0). unfold zlen. f_equal.
  apply Nat.le_antisymm; apply NoDup_incl_length.
  - apply ssorted_NoDup, indexes_from_sorted.
  - intros z. apply (rep_int_keys o m R).
  - apply int_keys_NoDup. auto.
  - intros z. apply (rep_int_keys o m R).
Qed.
Lemma rep_len o m : rep o m -> jo_len o = Z.of_nat (length m).
Proof.
  intros R. unfold jo_len. rewrite (rep_used o m R). destruct R as [A [N [P G]]]. rewrite P, (length_split m). unfold zlen. lia.
Qed.
Lemma rep_iter o m : rep o m -> exists ks o', jo_iter o = (ks, o') /\ rep o' m /\ property_order m ks /\
  (forall d, jo_arr o = ADense d -> o' = o) /\ (forall s, jo_arr o = ASparse s -> exists s', jo_arr o' = ASparse s').
Proof.
  intros R. pose proof R as [A [N [P G]]]. unfold jo_iter.
  destruct (arr_indexes_spec _ A) as [a' [E [A' B']]]. rewrite E. eexists _, _. split; [reflexivity|].
  split; [|split; [|split]].
  - split; [exact A'|]. split; [exact N|]. split; [exact P|]. intros z. cbn [jo_arr]. rewrite B'. apply G.
  - exists (indexes_from 0 (aabs (jo_arr o))). split; [apply ascending_of_indexes|]. split; [apply rep_int_keys; auto|].
    rewrite P, strs_keys. reflexivity.
  - intros d D. rewrite D in E. apply (f_equal snd) in E. cbn [arr_indexes snd] in E. subst a'. rewrite <- D. destruct o. reflexivity.
  - intros s D. rewrite D in E. cbn [arr_indexes] in E. destruct (sparse_indexes s) as [l s']. apply (f_equal snd) in E. cbn [snd] in E. subst a'. cbn. eauto.
Qed.

Lemma arr_get_in a z : arr_ok a -> 0 <= z < arr_len a -> arr_get a z = Ok (elem_at (aabs a) z).
Proof.
  intros A B. rewrite (arr_len_eq a A) in B. unfold elem_at. replace (z <? 0) with false by lia.
  destruct (nth_error (aabs a) (Z.to_nat z)) as [v|] eqn:E.
  - rewrite <- (arr_get_nat a (Z.to_nat z) v A E). f_equal. lia.
  - apply nth_error_None in E. unfold zlen in B. lia.
Qed.
Lemma elem_at_out a z : arr_ok a -> ~ (0 <= z < arr_len a) -> elem_at (aabs a) z = None.
Proof.
  intros A B. rewrite (arr_len_eq a A) in B. unfold elem_at. destruct (z <? 0) eqn:E; auto.
  rewrite (proj2 (nth_error_None _ _)); auto. unfold zlen in B. lia.
Qed.

Lemma rep_get o m p : rep o m -> jo_get o p = match get p m with Some v => Ok v | None => Err EKey end.
Proof.
  intros [A [N [P G]]]. destruct p as [s|z]; cbn [jo_get].
  - rewrite P, strs_get. reflexivity.
  - rewrite G. destruct ((0 <=? z) && (z <? arr_len (jo_arr o))) eqn:B.
    + rewrite (arr_get_in _ z A) by lia. reflexivity.
    + rewrite (elem_at_out _ z A) by lia. reflexivity.
Qed.

Lemma elem_at_replaced l k (v : option T) z : (k < length l)%nat ->
  elem_at (firstn k l ++ v :: skipn (S k) l) z = if z =? Z.of_nat k then v else elem_at l z.
Proof.
  intros L. unfold elem_at. rewrite nth_error_replaced by auto.
  destruct (z <? 0) eqn:E.
  - replace (z =? Z.of_nat k) with false by lia. reflexivity.
  - destruct (z =? Z.of_nat k) eqn:E2.
    + replace (Z.to_nat z =? k)%nat with true by lia. reflexivity.
    + replace (Z.to_nat z =? k)%nat with false by lia. reflexivity.
Qed.
Lemma elem_at_grown l n z : elem_at (l ++ repeat (@None T) n) z = elem_at l z.
Proof.
  unfold elem_at. destruct (z <? 0); auto.
  destruct (Nat.lt_ge_cases (Z.to_nat z) (length l)) as [L|L].
  - rewrite nth_error_app1 by auto. reflexivity.
  - rewrite nth_error_app2 by auto. rewrite (proj2 (nth_error_None l _)) by auto.
    destruct (nth_error (repeat None n) (Z.to_nat z - length l)) as [x|] eqn:E; auto.
    apply nth_error_In, repeat_spec in E. auto.
Qed.

Definition is_dense (a : arr T) : bool := match a with ADense _ => true | _ => false end.

(** Setting one element of the array. *)
Lemma arr_set_in a z v : arr_ok a -> 0 <= z < arr_len a ->
  exists r a', arr_set a z v = (r, a') /\ arr_ok a' /\ is_dense a' = is_dense a /\ arr_len a' = arr_len a /\
    (forall y, elem_at (aabs a') y = if y =? z then v else elem_at (aabs a) y) /\
    (r = Ok tt \/ (r = Err EAssert /\ is_dense a = false /\ arr_used a <= 2)).
Proof.
  intros A B. pose proof (arr_len_eq a A) as L. rewrite L in B.
  destruct (position_cases (aabs a) z) as [[_ P]|[[X _]|[[X _]|[X _]]]]; try lia.
  assert (forall l, (Z.to_nat z < length l)%nat -> forall y, elem_at (firstn (Z.to_nat z) l ++ v :: skipn (S (Z.to_nat z)) l) y =
            if y =? z then v else elem_at l y) as EL.
  { intros l H y. rewrite elem_at_replaced by auto. rewrite Z2Nat.id by lia. reflexivity. }
  unfold zlen in B.
  destruct a as [d|s]; cbn [arr_ok aabs] in *.
  - pose proof (dense_set_spec d z v A) as S1. rewrite P in S1. destruct S1 as [d' [E [O I]]].
    exists (Ok tt), (ADense d'). cbn [arr_set]. rewrite E. split; [reflexivity|]. split; [exact O|]. split; [reflexivity|].
    split; [|split; [|auto]].
    + cbn [arr_len]. unfold dense_len, zlen. rewrite I, app_length. cbn [length]. rewrite firstn_length, skipn_length. lia.
    + cbn [aabs]. rewrite I. apply EL. lia.
  - pose proof (sparse_set_spec s z v A) as S1. rewrite P in S1. destruct S1 as [r [s' [E [O [I [R M]]]]]].
    exists r, (ASparse s'). cbn [arr_set]. rewrite E. split; [reflexivity|]. split; [exact O|]. split; [reflexivity|].
    split; [|split].
    + cbn [arr_len]. unfold sparse_len. lia.
    + cbn [aabs]. rewrite I. apply EL. lia.
    + destruct R as [->|[-> [_ W]]]; auto.
Qed.

Lemma ensure_spec a k : arr_ok a -> 0 <= k < 2 ^ 32 - 1 ->
  exists a', ensure_array_capacity a k = (Ok tt, a') /\ arr_ok a' /\ k < arr_len a' /\
    (forall z, elem_at (aabs a') z = elem_at (aabs a) z) /\
    (is_dense a = true -> k < 15 -> is_dense a' = true).
Proof.
  intros A K. unfold ensure_array_capacity. destruct (k <? arr_len a) eqn:E.
  - exists a. split; [reflexivity|]. split; [exact A|]. split; [lia|]. auto.
  - pose proof (arr_len_eq a A) as L.
    assert (exists a', arr_resize a (k + 1) = (Ok tt, a') /\ arr_ok a' /\ k < arr_len a' /\
              (forall z, elem_at (aabs a') z = elem_at (aabs a) z) /\ is_dense a' = is_dense a) as RS.
    { destruct a as [d|s]; cbn [arr_ok aabs arr_len] in *.
      - pose proof (dense_resize_spec d (k + 1) A) as S1.
        replace ((k + 1 <? 0) || (2 ^ 32 - 1 <? k + 1)) with false in S1 by lia.
        destruct S1 as [d' [E1 [O I]]]. replace (k + 1 <? zlen (d_items d)) with false in I by lia.
        exists (ADense d'). cbn [arr_resize]. rewrite E1. split; [reflexivity|]. split; [exact O|].
        split; [|split; [|reflexivity]].
        + cbn [arr_len]. unfold dense_len, zlen. rewrite I, app_length, repeat_length. unfold zlen in *. lia.
        + intros z. cbn [aabs]. rewrite I. apply elem_at_grown.
      - pose proof (sparse_resize_spec s (k + 1) A) as S1.
        replace ((k + 1 <? 0) || (2 ^ 32 - 1 <? k + 1)) with false in S1 by lia.
        destruct S1 as [s' [E1 [O [M [_ I]]]]]. replace (k + 1 <? zlen (sabs s)) with false in I by lia.
        exists (ASparse s'). cbn [arr_resize]. rewrite E1. split; [reflexivity|]. split; [exact O|].
        split; [|split; [|reflexivity]].
        + cbn [arr_len]. unfold sparse_len. lia.
        + intros z. cbn [aabs]. rewrite I. apply elem_at_grown. }
    destruct RS as [a' [E1 [O [LE [EL D]]]]].
    assert (exists a', arr_resize a (k + 1) = (Ok tt, a') /\ arr_ok a' /\ k < arr_len a' /\
              (forall z, elem_at (aabs a') z = elem_at (aabs a) z) /\
              (is_dense a = true -> k < 15 -> is_dense a' = true)) as RS.
    { exists a'. split; [exact E1|]. split; [exact O|]. split; [exact LE|]. split; [exact EL|]. intros H _. congruence. }
    destruct a as [d|s]; [|exact RS].
    destruct ((MIN_SPARSE_ARRAY_SIZE <=? k + 1) && (4 * (d_used d + 1) <? k + 1)) eqn:SW; [|exact RS].
    destruct (view_items_spec (ADense d) A) as [a2 [V [_ _]]]. rewrite V. cbn [aabs] in *.
    destruct (sparse_init_length (entries_from 0 (d_items d)) (k + 1)) as [s|e] eqn:SI.
    + destruct (sparse_init_length_ok _ _ _ SI) as [O2 [_ I2]].
      exists (ASparse s). split; [reflexivity|]. split; [exact O2|].
      assert (arr_len (ASparse s) = k + 1) as LS.
      { rewrite (arr_len_eq (ASparse s) O2). cbn [aabs]. unfold zlen. rewrite I2, map_length, seq_length. lia. }
      split; [lia|]. split.
      * intros z. cbn [aabs]. rewrite I2. unfold elem_at. destruct (z <? 0) eqn:Z0; auto.
        assert (forall n, dget Z.eqb (Z.of_nat n) (rev (entries_from 0 (d_items d))) =
                  match nth_error (d_items d) n with Some (Some v) => Some v | _ => None end) as RG.
        { intros n. assert (NoDup (dkeys (entries_from 0 (d_items d)))) as ND.
          { rewrite entries_from_keys. apply ssorted_NoDup, indexes_from_sorted. }
          rewrite <- (entries_from_get (d_items d) 0 n). rewrite Z.add_0_l.
          destruct (dget Z.eqb (Z.of_nat n) (entries_from 0 (d_items d))) as [v|] eqn:G.
          - apply (in_dget _ zeqb_spec); [rewrite map_rev; apply NoDup_rev; auto|]. apply -> in_rev.
            apply (dget_Some_in _ zeqb_spec). auto.
          - apply (dget_None _ zeqb_spec). rewrite map_rev, <- in_rev. apply (dget_None _ zeqb_spec). auto. }
        destruct (Nat.lt_ge_cases (Z.to_nat z) (Z.to_nat (k + 1))) as [LT|GE].
        -- erewrite map_nth_error by (rewrite nth_error_nth' with (d := 0%nat) by (rewrite seq_length; lia); reflexivity).
           rewrite seq_nth by lia. cbn [Nat.add]. rewrite RG. destruct (nth_error _ _) as [[v|]|]; auto.
        -- rewrite (proj2 (nth_error_None (map _ _) _)) by (rewrite map_length, seq_length; lia).
           rewrite (proj2 (nth_error_None (d_items d) _)); auto.
           unfold arr_len, dense_len, zlen in *. lia.
      * unfold MIN_SPARSE_ARRAY_SIZE in SW. lia.
    + exfalso. unfold sparse_init_length, MAX_LEN in SI.
      replace ((k + 1 <? 0) || (2 ^ 32 - 1 <? k + 1)) with false in SI by lia.
      destruct (sparse_fill_ok (k + 1) (entries_from 0 (d_items d)) [] ltac:(constructor)) as [F _].
      destruct (sparse_fill (k + 1) (entries_from 0 (d_items d)) []) as [items valid]. cbn [snd] in F. rewrite F in SI.
      rewrite (proj2 (forallb_forall _ _)) in SI; [discriminate|].
      intros [i v] IN. apply (in_map fst) in IN. rewrite entries_from_keys in IN. apply indexes_from_in in IN as [IN _]. cbn [fst]. apply Z.leb_le. exact IN.
Qed.

Lemma assign_keys (m : entries) p v : NoDup (dkeys m) -> NoDup (dkeys (assign m p v)).
Proof. intros N. destruct v; cbn [assign]; [apply dset_NoDup|apply ddel_NoDup]; auto; apply pkey_eqb_spec. Qed.
Lemma assign_get (m : entries) p v q : NoDup (dkeys m) -> get q (assign m p v) = if pkey_eqb q p then v else get q m.
Proof.
  intros N. destruct v; cbn [assign]; [apply dget_dset|apply dget_ddel]; auto; apply pkey_eqb_spec.
Qed.

Definition pok (p : pkey) : Prop := match p with PInt z => 0 <= z < 2 ^ 32 - 1 | PStr _ => True end.
Definition small (p : pkey) : Prop := match p with PInt z => z < 15 | PStr _ => True end.

(** The outcome of a change of one key. *)
Definition outcome (o : jsobj T) (m : entries) (p : pkey) (r : result unit) : Prop :=
  r = Ok tt \/ (r = Err EAssert /\ few m p /\ (is_dense (jo_arr o) = true -> ~ small p)).

Lemma rep_set o m p v : rep o m -> pok p ->
  exists r o', jo_set o p v = (r, o') /\ rep o' (assign m p v) /\ outcome o m p r /\
    (is_dense (jo_arr o) = true -> small p -> is_dense (jo_arr o') = true).
Proof.
  intros R PK. pose proof R as [A [N [P G]]]. destruct p as [s|z]; cbn [jo_set].
  - eexists _, _. split; [reflexivity|]. split; [|split; [left; reflexivity|auto]].
    split; [exact A|]. split; [apply assign_keys; exact N|]. cbn [jo_props jo_arr]. split.
    + rewrite P. destruct v; cbn [assign]; [rewrite strs_put_str|rewrite strs_remove_str]; reflexivity.
    + intros z. rewrite assign_get by auto. cbn [pkey_eqb]. apply G.
  - destruct (ensure_spec (jo_arr o) z A PK) as [a1 [E1 [A1 [L1 [EL1 D1]]]]]. rewrite E1.
    destruct (arr_set_in a1 z v A1 ltac:(cbn in PK; lia)) as [r [a2 [E2 [A2 [D2 [L2 [EL2 O2]]]]]]]. rewrite E2.
    assert (rep (mkObj a1 (jo_props o)) m) as R1.
    { split; [exact A1|]. split; [exact N|]. split; [exact P|]. intros y. cbn [jo_arr]. rewrite EL1. apply G. }
    eexists _, _. split; [reflexivity|]. split; [|split].
    + split; [exact A2|]. split; [apply assign_keys; exact N|]. cbn [jo_props jo_arr]. split.
      * rewrite P. destruct v; cbn [assign]; [rewrite strs_put_int|rewrite strs_remove_int]; reflexivity.
      * intros y. rewrite assign_get by auto. cbn [pkey_eqb]. rewrite EL2, EL1. destruct (y =? z); auto.
    + destruct O2 as [->|[-> [ND W]]]; [left; reflexivity|]. right. split; [reflexivity|]. split.
      * split; [eauto|]. rewrite <- (rep_used _ _ R1). exact W.
      * intros D SM. rewrite (D1 D SM) in ND. discriminate.
    + intros D SM. cbn [jo_arr]. rewrite D2. auto.
Qed.

Lemma get_int_range o m z v : rep o m -> get (PInt z) m = Some v -> 0 <= z < arr_len (jo_arr o).
Proof.
  intros [A [N [P G]]] H. rewrite G in H.
  destruct (Z.leb_spec 0 z); [destruct (Z.ltb_spec z (arr_len (jo_arr o)))|]; [lia| |]; exfalso;
    rewrite elem_at_out in H by (auto; lia); discriminate.
Qed.

Lemma rep_del o m p : rep o m -> (match p with PInt z => 0 <= z | PStr _ => True end) ->
  match get p m with
  | Some _ => exists r o', jo_del o p = (r, o') /\ rep o' (remove p m) /\ outcome o m p r /\
      (is_dense (jo_arr o) = true -> r = Ok tt) /\ is_dense (jo_arr o') = is_dense (jo_arr o)
  | None => jo_del o p = (Err EKey, o)
  end.
Proof.
  intros R PK. pose proof R as [A [N [P G]]]. destruct p as [s|z]; cbn [jo_del].
  - unfold dmem. rewrite P, strs_get. destruct (get (PStr s) m) as [v|]; [|reflexivity].
    eexists _, _. split; [reflexivity|]. split; [|split; [left; reflexivity|split; [reflexivity|reflexivity]]].
    split; [exact A|]. split; [apply (assign_keys m _ None); exact N|]. cbn [jo_props jo_arr]. split.
    + rewrite strs_remove_str. reflexivity.
    + intros z. rewrite (assign_get m (PStr s) None) by auto. cbn [pkey_eqb]. apply G.
  - destruct (get (PInt z) m) as [v|] eqn:GV.
    + pose proof (get_int_range o m z v R GV) as B. replace (z <? arr_len (jo_arr o)) with true by lia.
      rewrite (arr_get_in _ z A B). rewrite <- G, GV.
      destruct (arr_set_in (jo_arr o) z None A B) as [r [a2 [E2 [A2 [D2 [L2 [EL2 O2]]]]]]]. rewrite E2.
      eexists _, _. split; [reflexivity|]. split; [|split; [|split; [|exact D2]]].
      * split; [exact A2|]. split; [apply (assign_keys m _ None); exact N|]. cbn [jo_props jo_arr]. split.
        -- rewrite P, strs_remove_int. reflexivity.
        -- intros y. rewrite (assign_get m (PInt z) None) by auto. cbn [pkey_eqb]. rewrite EL2. destruct (y =? z); auto.
      * destruct O2 as [->|[-> [ND W]]]; [left; reflexivity|]. right. split; [reflexivity|]. split.
        -- split; [eauto|]. rewrite <- (rep_used _ _ R). exact W.
        -- intros D. congruence.
      * intros D. destruct O2 as [->|[_ [ND _]]]; [reflexivity|congruence].
    + destruct (z <? arr_len (jo_arr o)) eqn:B; [|reflexivity].
      cbn in PK. rewrite (arr_get_in _ z A) by lia. rewrite <- G, GV. reflexivity.
Qed.

Lemma property_order_head (m : entries) k ks : property_order m (k :: ks) -> exists v, get k m = Some v.
Proof.
  intros [ints [A [B E]]]. apply (dget_Some_key _ pkey_eqb_spec).
  assert (In k (map PInt ints ++ map PStr (str_keys m))) as I by (rewrite <- E; cbn; auto).
  apply in_app_or in I as [I|I]; apply in_map_iff in I as [x [<- I]].
  - apply int_keys_in, B. exact I.
  - apply str_keys_in. exact I.
Qed.
Lemma property_order_nil (m : entries) : property_order m [] -> m = [].
Proof.
  intros [ints [A [B E]]]. symmetry in E. apply app_eq_nil in E as [E1 E2].
  apply map_eq_nil in E1. subst ints. apply map_eq_nil in E2.
  destruct m as [|[[s|z] v] m]; auto; [discriminate|]. exfalso. apply (B z). left. reflexivity.
Qed.

Lemma rep_popitem o m : rep o m ->
  (m = [] /\ exists o', jo_popitem o = (Err EKey, o') /\ rep o' m /\ is_dense (jo_arr o') = is_dense (jo_arr o)) \/
  (exists k ks v r o', property_order m (k :: ks) /\ get k m = Some v /\ jo_popitem o = (r, o') /\ rep o' (remove k m) /\
     is_dense (jo_arr o') = is_dense (jo_arr o) /\
     (r = Ok (k, v) \/ (r = Err EAssert /\ few m k /\ is_dense (jo_arr o) = false))).
Proof.
  intros R. unfold jo_popitem. destruct (rep_iter o m R) as [ks [o1 [E [R1 [PO [D1 D2]]]]]]. rewrite E.
  assert (is_dense (jo_arr o1) = is_dense (jo_arr o)) as DD.
  { destruct (jo_arr o) as [d|s] eqn:AE.
    - rewrite (D1 d eq_refl), AE. reflexivity.
    - destruct (D2 s eq_refl) as [s' ->]. reflexivity. }
  destruct ks as [|k ks].
  - left. split; [apply property_order_nil; auto|]. eauto.
  - right. destruct (property_order_head m k ks PO) as [v G]. rewrite (rep_get o1 m k R1), G.
    assert (match k with PInt z => 0 <= z | PStr _ => True end) as PK.
    { destruct k as [s|z]; auto. apply (get_int_range o1 m z v R1) in G. lia. }
    pose proof (rep_del o1 m k R1 PK) as DL. rewrite G in DL. destruct DL as [r [o2 [E2 [R2 [O2 [DT DE]]]]]].
    rewrite E2. exists k, ks, v.
    destruct O2 as [->|[-> [F _]]].
    + exists (Ok (k, v)), o2. repeat (split; [auto; congruence|]). auto.
    + exists (Err EAssert), o2. repeat (split; [auto; congruence|]). right. split; auto. split; auto.
      rewrite <- DD. destruct (is_dense (jo_arr o1)); auto. specialize (DT eq_refl). discriminate.
Qed.

Lemma remove_length (m : entries) k v : get k m = Some v -> length m = S (length (remove k m)).
Proof.
  intros G. rewrite ddel_length. unfold dmem. rewrite G. destruct m; [discriminate|reflexivity].
Qed.

Lemma rep_clear fuel : forall o m, rep o m -> (length m < fuel)%nat ->
  exists r o', jo_clear fuel o = (r, o') /\ is_dense (jo_arr o') = is_dense (jo_arr o) /\
    ((r = Ok tt /\ rep o' []) \/
     (r = Err EAssert /\ is_dense (jo_arr o) = false /\ exists done, done <> [] /\
        rep o' (fold_left (fun m k => remove k m) done m) /\
        few (fold_left (fun m k => remove k m) (removelast done) m) (last done (PStr [])))).
Proof.
  induction fuel as [|fuel IH]; intros o m R L; [lia|]. cbn [jo_clear].
  destruct (rep_popitem o m R) as [[-> [o1 [E [R1 D1]]]]|[k [ks [v [r [o1 [PO [G [E [R1 [D1 O1]]]]]]]]]]]; rewrite E.
  - exists (Ok tt), o1. split; [reflexivity|]. split; [exact D1|]. left. auto.
  - destruct O1 as [->|[-> [F ND]]].
    + destruct (IH o1 (remove k m) R1) as [r [o2 [E2 [D2 O2]]]].
      { apply remove_length in G. lia. }
      exists r, o2. split; [exact E2|]. split; [congruence|].
      destruct O2 as [O2|[-> [ND [done [NE [R2 F2]]]]]]; [left; exact O2|right].
      split; [reflexivity|]. split; [congruence|]. exists (k :: done). split; [discriminate|]. cbn [fold_left].
      split; [exact R2|]. destruct done as [|d1 done]; [congruence|]. exact F2.
    + exists (Err EAssert), o1. split; [reflexivity|]. split; [exact D1|]. right.
      split; [reflexivity|]. split; [exact ND|]. exists [k]. split; [discriminate|]. split; [exact R1|]. exact F.
Qed.

Section Ops.
Variable float_repr : N -> list N.
Notation norm := (normalise_property_key float_repr).

Lemma norm_pok k p : norm k = Ok p -> pok p.
Proof. destruct p as [s|z]; cbn [pok]; auto. intros H. apply normalise_index in H as [H _]. exact H. Qed.
Lemma norm_nonneg k p : norm k = Ok p -> match p with PInt z => 0 <= z | PStr _ => True end.
Proof. intros H. apply norm_pok in H. destruct p; auto. cbn in H. lia. Qed.

Lemma rep_update ps : forall o m, rep o m ->
  exists r o' m', jo_update float_repr o ps = (r, o') /\ rep o' m' /\
    ((is_dense (jo_arr o) = true -> (forall k v p, In (k, v) ps -> norm k = Ok p -> small p) ->
        r <> Err EAssert /\ is_dense (jo_arr o') = true)) /\
    ((exists qs, r = Ok tt /\ Forall2 (fun a b => norm (fst a) = Ok (fst b) /\ snd a = snd b) ps qs /\ m' = assign_all m qs) \/
     (exists ps1 qs k v rest e, r = Err e /\ ps = ps1 ++ (k, v) :: rest /\ norm k = Err e /\
        Forall2 (fun a b => norm (fst a) = Ok (fst b) /\ snd a = snd b) ps1 qs /\ m' = assign_all m qs) \/
     (exists ps1 qs k p v rest, r = Err EAssert /\ ps = ps1 ++ (k, v) :: rest /\ norm k = Ok p /\
        Forall2 (fun a b => norm (fst a) = Ok (fst b) /\ snd a = snd b) ps1 qs /\
        few (assign_all m qs) p /\ m' = assign (assign_all m qs) p v)).
Proof.
  induction ps as [|[k v] ps IH]; intros o m R; cbn [jo_update].
  - exists (Ok tt), o, m. split; [reflexivity|]. split; [exact R|]. split; [intros D _; split; [discriminate|exact D]|].
    left. exists []. split; [reflexivity|]. split; [constructor|reflexivity].
  - destruct (norm k) as [p|e] eqn:NK.
    + destruct (rep_set o m p v R (norm_pok k p NK)) as [r [o1 [E [R1 [O1 D1]]]]]. rewrite E.
      destruct O1 as [->|[-> [F ND]]].
      * destruct (IH o1 (assign m p v) R1) as [r [o2 [m2 [E2 [R2 [D2 O2]]]]]].
        exists r, o2, m2. split; [exact E2|]. split; [exact R2|]. split.
        { intros D SM. apply D2.
          - apply D1; auto. apply (SM k v p); cbn; auto.
          - intros k' v' p' I. apply (SM k' v' p'). cbn; auto. }
        destruct O2 as [[qs [-> [F2 ->]]]|[[ps1 [qs [k' [v' [rest [e [-> [-> [NK' [F2 ->]]]]]]]]]]|[ps1 [qs [k' [p' [v' [rest [-> [-> [NK' [F2 [FW ->]]]]]]]]]]]]].
        -- left. exists ((p, v) :: qs). split; [reflexivity|]. split; [constructor; auto|reflexivity].
        -- right. left. exists ((k, v) :: ps1), ((p, v) :: qs), k', v', rest, e.
           split; [reflexivity|]. split; [reflexivity|]. split; [exact NK'|]. split; [constructor; auto|reflexivity].
        -- right. right. exists ((k, v) :: ps1), ((p, v) :: qs), k', p', v', rest.
           split; [reflexivity|]. split; [reflexivity|]. split; [exact NK'|]. split; [constructor; auto|]. split; [exact FW|reflexivity].
      * exists (Err EAssert), o1, (assign m p v). split; [reflexivity|]. split; [exact R1|]. split.
        { intros D SM. exfalso. apply (ND D). apply (SM k v p); cbn; auto. }
        right. right. exists [], [], k, p, v, ps. split; [reflexivity|]. split; [reflexivity|]. split; [exact NK|].
        split; [constructor|]. split; [exact F|reflexivity].
    + exists (Err e), o, m. split; [reflexivity|]. split; [exact R|]. split.
      { intros D _. split; [|exact D]. apply normalise_error in NK as [-> _]. discriminate. }
      right. left. exists [], [], k, v, ps, e. split; [reflexivity|]. split; [reflexivity|]. split; [exact NK|]. split; [constructor|reflexivity].
Qed.

(** Every key mentioned is below 15, so that the array stays dense. *)
Definition op_small (op : mop T) : Prop :=
  match op with
  | MGet k | MSet k _ | MDel k | MContains k | MPop k | MSetDefault k _ => forall p, norm k = Ok p -> small p
  | MUpdate ps => forall k v p, In (k, v) ps -> norm k = Ok p -> small p
  | MLen | MIter | MPopItem | MClear => True
  end.

Lemma jo_op_refines o m op r o' : rep o m -> jo_op float_repr o op = (r, o') ->
  exists m', rep o' m' /\ (mspec norm m op r m' \/ mdeviation norm m op r m') /\
    (is_dense (jo_arr o) = true -> op_small op -> mspec norm m op r m' /\ is_dense (jo_arr o') = true).
Proof.
  intros R H. destruct op as [k|k v|k|k| | |k|k v|ps| |]; cbn [jo_op op_small] in *; unfold with_key in H;
    try (destruct (norm k) as [p|e] eqn:NK;
         [|injection H as <- <-; exists m; split; [exact R|];
           assert (forall o, (o = MGet k \/ (exists v, o = MSet k v) \/ o = MDel k \/ o = MContains k \/ o = MPop k \/ exists v, o = MSetDefault k v) ->
                     mspec norm m o (MExn e) m) as BK by (intros; eapply ms_bad_key; eauto);
           (split; [left|intros D _; split; [|exact D]]); apply BK; eauto 8]).
  - (* get *)
    rewrite (rep_get o m p R) in H. destruct (get p m) as [v|] eqn:G; injection H as <- <-; exists m; (split; [exact R|]);
      (split; [left|intros D _; split; [|exact D]]); [eapply ms_get|eapply ms_get|eapply ms_get_missing|eapply ms_get_missing]; eauto.
  - (* set *)
    destruct (rep_set o m p v R (norm_pok k p NK)) as [r1 [o1 [E [R1 [O1 D1]]]]]. rewrite E in H.
    destruct O1 as [->|[-> [F ND]]]; injection H as <- <-; exists (assign m p v); (split; [exact R1|]).
    + split; [left; apply ms_set; auto|]. intros D SM. split; [apply ms_set; auto|]. auto.
    + split; [right; apply md_set; auto|]. intros D SM. exfalso. apply (ND D). auto.
  - (* del *)
    pose proof (rep_del o m p R (norm_nonneg k p NK)) as DL. destruct (get p m) as [v|] eqn:G.
    + destruct DL as [r1 [o1 [E [R1 [O1 [DT DE]]]]]]. rewrite E in H.
      destruct O1 as [->|[-> [F ND]]]; injection H as <- <-; exists (remove p m); (split; [exact R1|]).
      * split; [left; eapply ms_del; eauto|]. intros D SM. split; [eapply ms_del; eauto|congruence].
      * split; [right; apply md_del; auto|]. intros D SM. exfalso. apply (ND D). auto.
    + rewrite DL in H. injection H as <- <-. exists m. split; [exact R|].
      split; [left; eapply ms_del_missing; eauto|]. intros D SM. split; [eapply ms_del_missing; eauto|exact D].
  - (* contains *)
    unfold jo_contains in H. rewrite (rep_get o m p R) in H.
    assert (r = MBool (match get p m with Some _ => true | None => false end) /\ o' = o) as [-> ->].
    { destruct (get p m); injection H as <- <-; auto. }
    exists m. split; [exact R|]. split; [left; eapply ms_contains; eauto|]. intros D _. split; [eapply ms_contains; eauto|exact D].
  - (* len *)
    injection H as <- <-. rewrite (rep_len o m R). exists m. split; [exact R|]. split; [left; constructor|].
    intros D _. split; [constructor|exact D].
  - (* iter *)
    destruct (rep_iter o m R) as [ks [o1 [E [R1 [PO [D1 D2]]]]]]. rewrite E in H. injection H as <- <-.
    exists m. split; [exact R1|]. split; [left; constructor; auto|]. intros D _. split; [constructor; auto|].
    destruct (jo_arr o) as [d|s] eqn:AE; [|discriminate]. rewrite (D1 d eq_refl), AE. reflexivity.
  - (* pop *)
    unfold jo_pop in H. rewrite (rep_get o m p R) in H.
    pose proof (rep_del o m p R (norm_nonneg k p NK)) as DL. destruct (get p m) as [v|] eqn:G.
    + destruct DL as [r1 [o1 [E [R1 [O1 [DT DE]]]]]]. rewrite E in H.
      destruct O1 as [->|[-> [F ND]]]; injection H as <- <-; exists (remove p m); (split; [exact R1|]).
      * split; [left; eapply ms_pop; eauto|]. intros D SM. split; [eapply ms_pop; eauto|congruence].
      * split; [right; apply md_pop; auto|]. intros D SM. exfalso. apply (ND D). auto.
    + injection H as <- <-. exists m. split; [exact R|].
      split; [left; eapply ms_pop_missing; eauto|]. intros D SM. split; [eapply ms_pop_missing; eauto|exact D].
  - (* setdefault *)
    unfold jo_setdefault in H. rewrite (rep_get o m p R) in H. destruct (get p m) as [w|] eqn:G.
    + injection H as <- <-. exists m. split; [exact R|]. split; [left; eapply ms_setdefault; eauto|].
      intros D _. split; [eapply ms_setdefault; eauto|exact D].
    + destruct (rep_set o m p (Some v) R (norm_pok k p NK)) as [r1 [o1 [E [R1 [O1 D1]]]]]. rewrite E in H.
      destruct O1 as [->|[-> [F ND]]]; injection H as <- <-; exists (put p v m); (split; [exact R1|]).
      * split; [left; eapply ms_setdefault_missing; eauto|]. intros D SM. split; [eapply ms_setdefault_missing; eauto|]. auto.
      * split; [right; apply md_setdefault; auto|]. intros D SM. exfalso. apply (ND D). auto.
  - (* update *)
    destruct (rep_update ps o m R) as [r1 [o1 [m1 [E [R1 [D1 O1]]]]]]. rewrite E in H. exists m1.
    destruct O1 as [[qs [-> [F ->]]]|[[ps1 [qs [k' [v' [rest [e [-> [-> [NK' [F ->]]]]]]]]]]|[ps1 [qs [k' [p' [v' [rest [-> [-> [NK' [F [FW ->]]]]]]]]]]]]];
      injection H as <- <-; (split; [exact R1|]).
    + split; [left; apply ms_update; auto|]. intros D SM. split; [apply ms_update; auto|]. apply D1; auto.
    + split; [left; apply ms_update_bad_key; auto|]. intros D SM. split; [apply ms_update_bad_key; auto|]. apply D1; auto.
    + split; [right; eapply md_update; eauto|]. intros D SM. exfalso. apply (D1 D); auto.
  - (* popitem *)
    destruct (rep_popitem o m R) as [[-> [o1 [E [R1 D1]]]]|[k [ks [v [r1 [o1 [PO [G [E [R1 [D1 O1]]]]]]]]]]]; rewrite E in H.
    + injection H as <- <-. exists []. split; [exact R1|]. split; [left; apply ms_popitem_empty; auto|].
      intros D _. split; [apply ms_popitem_empty; auto|congruence].
    + exists (remove k m). destruct O1 as [->|[-> [F ND]]]; injection H as <- <-; (split; [exact R1|]).
      * split; [left; eapply ms_popitem; eauto|]. intros D _. split; [eapply ms_popitem; eauto|congruence].
      * split; [right; eapply md_popitem; eauto|]. intros D _. congruence.
  - (* clear *)
    destruct (rep_clear (S (Z.to_nat (jo_len o))) o m R) as [r1 [o1 [E [D1 O1]]]].
    { rewrite (rep_len o m R). lia. }
    rewrite E in H. destruct O1 as [[-> R1]|[-> [ND [done [NE [R1 F]]]]]]; injection H as <- <-.
    + exists []. split; [exact R1|]. split; [left; constructor|]. intros D _. split; [constructor|congruence].
    + eexists. split; [exact R1|]. split; [right; apply md_clear; auto|]. intros D _. congruence.
Qed.

Lemma jo_ops_refines ops : forall o m tr o', rep o m -> jo_ops float_repr o ops = (tr, o') ->
  exists m', rep o' m' /\ mspecs norm false m tr m' /\
    (is_dense (jo_arr o) = true -> Forall op_small ops -> mspecs norm true m tr m').
Proof.
  induction ops as [|x ops IH]; intros o m tr o' R H; cbn [jo_ops] in H.
  - injection H as <- <-. exists m. split; [exact R|]. split; constructor.
  - destruct (jo_op float_repr o x) as [r o1] eqn:E1. destruct (jo_ops float_repr o1 ops) as [tr2 o2] eqn:E2.
    injection H as <- <-. destruct (jo_op_refines o m x r o1 R E1) as [m1 [R1 [S1 D1]]].
    destruct (IH o1 m1 tr2 o2 R1 E2) as [m2 [R2 [S2 D2]]].
    exists m2. split; [exact R2|]. split.
    + econstructor; [|exact S2]. destruct S1; auto.
    + intros D F. inversion F; subst. destruct (D1 D ltac:(auto)) as [S1' D1']. econstructor; [left; exact S1'|]. auto.
Qed.
End Ops.

Lemma rep_empty : rep jo_empty [].
Proof.
  split; [reflexivity|]. split; [constructor|]. split; [reflexivity|].
  intros z. cbn. unfold elem_at. destruct (z <? 0); auto. destruct (Z.to_nat z); reflexivity.
Qed.
End Obj.
