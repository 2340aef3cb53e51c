(** Regions, equality, and the refinement of whole operation sequences on sparse arrays. *)
From Coq Require Import List ZArith Bool Lia ZifyBool ZifyNat ZifyN Permutation Sorted.
From Verif Require Import Base Dict SpecArray ModelArray ArrayFacts ArrayFacts2.
Import ListNotations.
Open Scope Z_scope.

Section Regions.
Context {T : Type}.

(** Consecutive items from an index. *)
Fixpoint number_from (i : Z) (vs : list T) : list (Z * T) :=
  match vs with [] => [] | v :: r => (i, v) :: number_from (i + 1) r end.
Definition expand (gs : list (Z * list T)) : list (Z * T) := flat_map (fun g => number_from (fst g) (snd g)) gs.
Fixpoint gap_ok (e : Z) (gs : list (Z * list T)) : Prop :=
  match gs with
  | [] => True
  | (s, vs) :: r => e < s /\ vs <> [] /\ gap_ok (s + zlen vs) r
  end.

Lemma group_ok items : forall prev start,
  StronglySorted Z.lt (dkeys items) -> Forall (fun k => prev < k) (dkeys items) -> start <= prev + 1 ->
  match items with
  | [] => group_runs (group_starts prev start items) = []
  | (i, v) :: _ =>
      exists vs gs, group_runs (group_starts prev start items) =
                      ((if i - 1 =? prev then start else i), vs) :: gs /\
                    items = number_from i vs ++ expand gs /\ vs <> [] /\ gap_ok (i + zlen vs) gs
  end.
Proof.
  induction items as [|[i v] r IH]; intros prev start S F L; auto.
  cbn [map fst] in S, F. inversion S; subst. inversion F; subst.
  set (start' := if i - 1 =? prev then start else i).
  assert (start' <= i) as SI by (unfold start'; destruct (i - 1 =? prev) eqn:E; lia).
  assert (start' <= i + 1) as SI2 by lia.
  specialize (IH i start' H1 H2 SI2). cbn [group_starts]. fold start'. cbn [group_runs].
  destruct r as [|[j w] r'].
  - cbn [group_starts group_runs]. exists [v], []. repeat split; auto; try discriminate.
  - destruct IH as [vs [gs [-> [EQ [NE G]]]]]. inversion H2; subst.
    destruct (j - 1 =? i) eqn:E.
    + rewrite Z.eqb_refl. exists (v :: vs), gs. split; auto. split.
      * cbn [number_from app]. f_equal. rewrite EQ. replace (i + 1) with j by lia. auto.
      * split; [discriminate|]. rewrite zlen_cons. replace (i + (zlen vs + 1)) with (j + zlen vs) by lia. auto.
    + replace (start' =? j) with false by lia. exists [v], ((j, vs) :: gs). split; auto. split.
      * cbn [number_from app expand flat_map fst snd]. f_equal. auto.
      * split; [discriminate|]. cbn [gap_ok]. unfold zlen at 1. cbn [length]. split; [lia|]. auto.
Qed.

(** The values from index [a] to [b] according to a list of items. *)
Definition vals (items : list (Z * T)) (a b : Z) : list (option T) :=
  map (fun k => dget Z.eqb (a + Z.of_nat k) items) (seq 0 (Z.to_nat (b - a))).

Lemma vals_split items a b c : a <= b <= c -> vals items a c = vals items a b ++ vals items b c.
Proof.
  intros H. unfold vals. replace (Z.to_nat (c - a)) with (Z.to_nat (b - a) + Z.to_nat (c - b))%nat by lia.
  rewrite seq_app, map_app. f_equal. cbn [Nat.add].
  apply nth_error_ext'. intros n. rewrite !nth_error_map.
  destruct (Nat.lt_ge_cases n (Z.to_nat (c - b))).
  - rewrite !(nth_error_nth' _ 0%nat) by (rewrite seq_length; auto). rewrite !seq_nth by auto.
    cbn [option_map]. do 2 f_equal. lia.
  - rewrite !(proj2 (nth_error_None _ _)) by (rewrite seq_length; auto). auto.
Qed.
Lemma vals_none items a b : (forall k, a <= k < b -> dget Z.eqb k items = None) ->
  vals items a b = repeat None (Z.to_nat (b - a)).
Proof.
  intros H. unfold vals. apply nth_error_ext'. intros n. rewrite nth_error_map.
  destruct (Nat.lt_ge_cases n (Z.to_nat (b - a))).
  - rewrite (nth_error_nth' (seq _ _) 0%nat) by (rewrite seq_length; auto).
    rewrite (nth_error_nth' (repeat _ _) None) by (rewrite repeat_length; auto).
    rewrite nth_repeat, seq_nth by auto. cbn [option_map]. rewrite H; auto. lia.
  - rewrite !(proj2 (nth_error_None _ _)); auto; [rewrite repeat_length|rewrite seq_length]; auto.
Qed.
Lemma number_from_keys vs : forall i, dkeys (number_from i vs) = map (fun n => i + Z.of_nat n) (seq 0 (length vs)).
Proof.
  induction vs as [|v vs IH]; intros i; auto. cbn [number_from map fst length seq]. f_equal; [lia|].
  rewrite IH, <- seq_shift, map_map. apply map_ext. intros. lia.
Qed.
Lemma number_from_get vs : forall i n, dget Z.eqb (i + Z.of_nat n) (number_from i vs) = nth_error vs n.
Proof.
  induction vs as [|v vs IH]; intros i n; cbn [number_from dget].
  - destruct n; auto.
  - destruct n; cbn [nth_error].
    + replace (i + Z.of_nat 0) with i by lia. rewrite Z.eqb_refl. auto.
    + replace (i + Z.of_nat (S n) =? i) with false by lia. rewrite <- (IH (i + 1)). f_equal. lia.
Qed.
Lemma dget_app k (a b : list (Z * T)) :
  dget Z.eqb k (a ++ b) = match dget Z.eqb k a with Some v => Some v | None => dget Z.eqb k b end.
Proof. induction a as [|[k' v] a IH]; auto. cbn [app dget]. destruct (Z.eqb k k'); auto. Qed.
Lemma number_from_miss vs i k : k < i \/ i + zlen vs <= k -> dget Z.eqb k (number_from i vs) = None.
Proof.
  intros H. apply (dget_None _ zeqb_spec). rewrite number_from_keys. intros HI.
  apply in_map_iff in HI as [n [E HN]]. apply in_seq in HN. unfold zlen in H. lia.
Qed.
Lemma expand_low gs : forall e k, gap_ok e gs -> k <= e -> dget Z.eqb k (expand gs) = None.
Proof.
  induction gs as [|[s vs] r IH]; intros e k G L; auto. cbn [gap_ok] in G. destruct G as [G1 [G2 G3]].
  unfold expand. cbn [flat_map fst snd]. rewrite dget_app, number_from_miss by lia.
  apply (IH _ _ G3). pose proof (zlen_nonneg vs). lia.
Qed.
Lemma vals_ext i1 i2 a b : (forall k, a <= k < b -> dget Z.eqb k i1 = dget Z.eqb k i2) -> vals i1 a b = vals i2 a b.
Proof.
  intros H. unfold vals. apply map_ext_in. intros n HN. apply in_seq in HN. apply H. lia.
Qed.
Lemma vals_number vs i : vals (number_from i vs) i (i + zlen vs) = map Some vs.
Proof.
  unfold vals. replace (Z.to_nat (i + zlen vs - i)) with (length vs) by (unfold zlen; lia).
  apply nth_error_ext'. intros n. rewrite !nth_error_map. destruct (Nat.lt_ge_cases n (length vs)).
  - rewrite (nth_error_nth' (seq _ _) 0%nat) by (rewrite seq_length; auto). rewrite seq_nth by auto.
    cbn [option_map Nat.add]. rewrite number_from_get.
    destruct (nth_error vs n) eqn:E; auto. apply nth_error_None in E. lia.
  - rewrite !(proj2 (nth_error_None _ _)); auto. rewrite seq_length; auto.
Qed.
Lemma zlen_pos (vs : list T) : vs <> [] -> 0 < zlen vs.
Proof. destruct vs; [congruence|]. rewrite zlen_cons. pose proof (zlen_nonneg vs). lia. Qed.

Lemma regions_rest_ok gs : forall e len,
  gap_ok e gs -> Forall (fun k => k < len) (dkeys (expand gs)) -> e <= len ->
  regions_tile e len (Some false) (regions_rest e len gs) /\
  flat_map region_values (regions_rest e len gs) = vals (expand gs) e len.
Proof.
  induction gs as [|[s vs] r IH]; intros e len G F L.
  - cbn [regions_rest expand flat_map]. destruct (e <? len) eqn:E.
    + cbn [regions_tile region_start region_size region_empty flat_map region_values]. split.
      * repeat split; try lia. discriminate.
      * rewrite app_nil_r. rewrite vals_none; auto.
    + replace len with e by lia. cbn [regions_tile flat_map]. split; auto.
      unfold vals. rewrite Z.sub_diag. auto.
  - cbn [gap_ok] in G. destruct G as [G1 [G2 G3]].
    assert (expand ((s, vs) :: r) = number_from s vs ++ expand r) as EX by reflexivity.
    rewrite EX in F |- *. rewrite map_app, Forall_app in F. destruct F as [F1 F2].
    pose proof (zlen_pos vs G2) as PV.
    assert (s + zlen vs <= len) as SL.
    { rewrite Forall_forall in F1. specialize (F1 (s + zlen vs - 1)).
      enough (s + zlen vs - 1 < len) by lia. apply F1. rewrite number_from_keys. apply in_map_iff.
      exists (length vs - 1)%nat. unfold zlen in *. split; [lia|]. apply in_seq. lia. }
    destruct (IH (s + zlen vs) len G3 F2 SL) as [I1 I2]. cbn [regions_rest]. split.
    + cbn [regions_tile region_start region_size region_empty].
      replace (e + (s - e)) with s by lia. repeat split; auto; try lia; discriminate.
    + cbn [flat_map region_values]. rewrite I2.
      rewrite (vals_split _ e s len) by lia. rewrite (vals_split _ s (s + zlen vs) len) by lia.
      f_equal; [|f_equal].
      * rewrite vals_none; auto. intros k HK. rewrite dget_app, number_from_miss by lia.
        apply (expand_low _ (s + zlen vs)); auto. lia.
      * rewrite <- (vals_number vs s). apply vals_ext. intros k HK. rewrite dget_app.
        rewrite (expand_low r (s + zlen vs)) by (auto; lia). destruct (dget Z.eqb k (number_from s vs)); auto.
      * apply vals_ext. intros k HK. rewrite dget_app, number_from_miss by lia. auto.
Qed.

Lemma alternating_regions_ok items len :
  StronglySorted Z.lt (dkeys items) -> Forall (fun k => 0 <= k < len) (dkeys items) -> 0 <= len ->
  regions_tile 0 len None (alternating_regions len items) /\
  flat_map region_values (alternating_regions len items) = vals items 0 len.
Proof.
  intros S F L. unfold alternating_regions.
  assert (Forall (fun k => -1 < k) (dkeys items)) as F0 by (eapply Forall_impl; [|exact F]; cbn; lia).
  pose proof (group_ok items (-1) 0 S F0 ltac:(lia)) as G.
  destruct items as [|[i v] r].
  - rewrite G. destruct (len =? 0) eqn:E.
    + replace len with 0 by lia. split; auto. cbn. auto.
    + split; [cbn [regions_tile region_start region_size region_empty]; repeat split; try lia; discriminate|].
      cbn [flat_map region_values]. rewrite app_nil_r, vals_none by auto. f_equal. lia.
  - destruct G as [vs [gs [-> [EQ [NE G]]]]].
    replace (if i - 1 =? -1 then 0 else i) with i by (destruct (i - 1 =? -1) eqn:E; lia).
    pose proof (zlen_pos vs NE) as PV.
    assert (0 <= i) as I0 by (inversion F; subst; cbn in *; lia).
    rewrite EQ in F |- *. rewrite map_app, Forall_app in F. destruct F as [F1 F2].
    assert (i + zlen vs <= len) as SL.
    { rewrite Forall_forall in F1. specialize (F1 (i + zlen vs - 1)).
      enough (0 <= i + zlen vs - 1 < len) by lia. apply F1. rewrite number_from_keys. apply in_map_iff.
      exists (length vs - 1)%nat. unfold zlen in *. split; [lia|]. apply in_seq. lia. }
    assert (Forall (fun k => k < len) (dkeys (expand gs))) as F3 by (eapply Forall_impl; [|exact F2]; cbn; lia).
    destruct (regions_rest_ok gs (i + zlen vs) len G F3 SL) as [R1 R2].
    split.
    + destruct (0 <? i) eqn:E; cbn [app regions_tile region_start region_size region_empty].
      * repeat split; auto; try lia; try discriminate.
      * replace i with 0 in * by lia. repeat split; auto; try lia; discriminate.
    + rewrite flat_map_app. cbn [flat_map region_values]. rewrite R2.
      rewrite (vals_split _ 0 i len) by lia. rewrite (vals_split _ i (i + zlen vs) len) by lia.
      f_equal; [|f_equal].
      * rewrite vals_none.
        -- destruct (0 <? i) eqn:E; cbn [flat_map region_values].
           ++ rewrite app_nil_r. f_equal. lia.
           ++ replace i with 0 by lia. auto.
        -- intros k HK. rewrite dget_app, number_from_miss by lia.
           apply (expand_low _ (i + zlen vs)); auto. lia.
      * rewrite <- (vals_number vs i). apply vals_ext. intros k HK. rewrite dget_app.
        rewrite (expand_low gs (i + zlen vs)) by (auto; lia). destruct (dget Z.eqb k (number_from i vs)); auto.
      * apply vals_ext. intros k HK. rewrite dget_app, number_from_miss by lia. auto.
Qed.

(** * Both storages at once *)
Definition arr_ok (a : arr T) : Prop :=
  match a with ADense d => dense_ok d | ASparse s => sparse_ok s end.
Definition aabs (a : arr T) : list (option T) :=
  match a with ADense d => d_items d | ASparse s => sabs s end.

Lemma arr_len_eq a : arr_ok a -> arr_len a = zlen (aabs a).
Proof. destruct a; cbn [arr_ok arr_len aabs]; intros H; auto. symmetry. apply sabs_zlen. auto. Qed.
Lemma arr_used_eq a : arr_ok a -> arr_used a = count_used (aabs a).
Proof. destruct a; cbn [arr_ok arr_used aabs]; intros H; auto. apply sparse_used_eq. auto. Qed.
Lemma arr_get_spec a i : arr_ok a ->
  match position (aabs a) i with
  | Some k => exists v, nth_error (aabs a) k = Some v /\ arr_get a i = Ok v
  | None => arr_get a i = Err EIndex
  end.
Proof.
  destruct a; cbn [arr_ok arr_get aabs]; intros H; [apply dense_get_spec|apply sparse_get_spec; auto].
Qed.
Lemma arr_get_nat a n v : arr_ok a -> nth_error (aabs a) n = Some v -> arr_get a (Z.of_nat n) = Ok v.
Proof.
  intros H E. pose proof (arr_get_spec a (Z.of_nat n) H) as G.
  assert (n < length (aabs a))%nat as L by (apply nth_error_Some; congruence).
  unfold position in G. replace ((0 <=? Z.of_nat n) && (Z.of_nat n <? Z.of_nat (length (aabs a)))) with true in G by lia.
  rewrite Nat2Z.id in G. destruct G as [w [E2 ->]]. congruence.
Qed.
Lemma arr_indexes_spec a : arr_ok a ->
  exists a', arr_indexes a = (indexes_from 0 (aabs a), a') /\ arr_ok a' /\ aabs a' = aabs a.
Proof.
  destruct a as [d|s]; cbn [arr_ok arr_indexes aabs]; intros H.
  - eexists. split; [reflexivity|]. auto.
  - destruct (sparse_indexes_eq s H) as [E OK]. unfold sparse_indexes. rewrite E.
    eexists. split; [reflexivity|]. auto.
Qed.
Lemma arr_indexes_unordered_in a x : arr_ok a ->
  (In x (arr_indexes_unordered a) <-> occupied (aabs a) x).
Proof.
  destruct a as [d|s]; cbn [arr_ok arr_indexes_unordered aabs]; intros H.
  - apply indexes_occupied.
  - rewrite <- indexes_occupied. pose proof (sparse_sorted_ok s H) as SS.
    destruct (sparse_indexes_eq s H) as [E _]. rewrite E in SS. symmetry. apply SS.
Qed.

Lemma indexes_entries (l : list (option T)) : forall i, indexes_from i l = dkeys (entries_from i l).
Proof. intros. symmetry. apply entries_from_keys. Qed.

Lemma occupied_get a x : arr_ok a -> occupied (aabs a) x ->
  exists v, arr_get a x = Ok (Some v) /\ nth_error (aabs a) (Z.to_nat x) = Some (Some v) /\ 0 <= x < arr_len a.
Proof.
  intros H [v [P E]]. exists v. rewrite <- (Z2Nat.id x) at 1 by auto. split; [apply arr_get_nat; auto|].
  split; auto. rewrite arr_len_eq by auto. unfold zlen.
  assert (Z.to_nat x < length (aabs a))%nat by (apply nth_error_Some; congruence). lia.
Qed.

Lemma view_items_spec a : arr_ok a ->
  exists a', view_items a = (Ok (entries_from 0 (aabs a)), a') /\ arr_ok a' /\ aabs a' = aabs a.
Proof.
  intros H. unfold view_items. destruct (arr_indexes_spec a H) as [a' [E [OK A]]]. rewrite E.
  exists a'. split; auto. f_equal. rewrite <- A.
  assert (forall l i, (forall n v, nth_error l n = Some (Some v) -> view_get a' (i + Z.of_nat n) = Ok v) ->
     view_items_of a' (indexes_from i l) = Ok (entries_from i l)) as GEN.
  { induction l as [|[v|] l IH]; intros i HG; cbn [indexes_from entries_from view_items_of]; auto.
    - pose proof (HG 0%nat v eq_refl) as G0. rewrite Z.add_0_r in G0. rewrite G0. cbn [bind].
      rewrite IH; auto. intros n w HN. specialize (HG (S n) w HN). rewrite <- HG. f_equal. lia.
    - apply IH. intros n w HN. specialize (HG (S n) w HN). rewrite <- HG. f_equal. lia. }
  apply GEN. intros n v HN. unfold view_get.
  destruct (occupied_get a' (0 + Z.of_nat n) OK) as [w [G [N B]]].
  { exists v. rewrite Z.add_0_l, Nat2Z.id. split; auto. lia. }
  replace ((0 + Z.of_nat n <? 0) || (arr_len a' <? 0 + Z.of_nat n)) with false by lia.
  rewrite G. cbn [bind]. rewrite Z.add_0_l, Nat2Z.id, HN in N. congruence.
Qed.

Lemma entries_from_get l : forall i n,
  dget Z.eqb (i + Z.of_nat n) (entries_from i l) = match nth_error l n with Some (Some v) => Some v | _ => None end :> option T.
Proof.
  induction l as [|o l IH]; intros i n; cbn [entries_from].
  - destruct n; auto.
  - destruct n as [|n]; cbn [nth_error].
    + rewrite Z.add_0_r. destruct o; cbn [dget]; [rewrite Z.eqb_refl; auto|].
      apply (dget_None _ zeqb_spec). rewrite entries_from_keys, indexes_from_in. lia.
    + replace (i + Z.of_nat (S n)) with (i + 1 + Z.of_nat n) by lia.
      destruct o; cbn [dget]; [replace (i + 1 + Z.of_nat n =? i) with false by lia|]; apply IH.
Qed.
Lemma vals_entries l : vals (entries_from 0 l) 0 (zlen l) = l.
Proof.
  unfold vals. replace (Z.to_nat (zlen l - 0)) with (length l) by (unfold zlen; lia).
  apply nth_error_ext'. intros n. rewrite nth_error_map. destruct (Nat.lt_ge_cases n (length l)) as [L|L].
  - rewrite (nth_error_nth' (seq _ _) 0%nat) by (rewrite seq_length; auto). rewrite seq_nth by auto.
    cbn [option_map Nat.add]. rewrite entries_from_get. destruct (nth_error l n) as [[v|]|] eqn:E; auto.
    apply nth_error_None in E. lia.
  - rewrite !(proj2 (nth_error_None _ _)); auto. rewrite seq_length; auto.
Qed.

Lemma arr_regions_ok a : arr_ok a ->
  exists rs, arr_regions a = Ok rs /\ regions_tile 0 (arr_len a) None rs /\
             flat_map region_values rs = aabs a.
Proof.
  intros H. destruct (view_items_spec a H) as [a' [E _]]. unfold arr_regions. rewrite E. cbn [fst bind].
  eexists. split; [reflexivity|]. rewrite arr_len_eq by auto.
  enough (regions_tile 0 (zlen (aabs a)) None (alternating_regions (zlen (aabs a)) (entries_from 0 (aabs a))) /\
    flat_map region_values (alternating_regions (zlen (aabs a)) (entries_from 0 (aabs a))) =
    vals (entries_from 0 (aabs a)) 0 (zlen (aabs a))) as [X Y] by (rewrite vals_entries in Y; auto).
  apply alternating_regions_ok.
  - rewrite entries_from_keys. apply indexes_from_sorted.
  - rewrite entries_from_keys. apply Forall_forall. intros x HX. apply indexes_occupied in HX as [v [P N]].
    assert (Z.to_nat x < length (aabs a))%nat by (apply nth_error_Some; congruence). unfold zlen. lia.
  - apply zlen_nonneg.
Qed.
Lemma arr_iter_eq a : arr_ok a -> arr_iter a = Ok (aabs a).
Proof.
  destruct a as [d|s]; auto. intros H. destruct (arr_regions_ok _ H) as [rs [E [_ V]]].
  unfold arr_iter. rewrite E. cbn [bind]. rewrite V. auto.
Qed.

(** * Equality *)
Section Eq.
Variable veq : T -> T -> bool.
Lemma arr_eq_iff a b : arr_ok a -> arr_ok b ->
  (arr_eq veq a b = true <-> Forall2 (fun x y => elem_eq veq x y = true) (aabs a) (aabs b)).
Proof.
  intros HA HB. unfold arr_eq. rewrite !arr_len_eq, !arr_used_eq by auto. split.
  - intros H. apply andb_true_iff in H as [H F]. apply andb_true_iff in H as [L U].
    assert (zlen (aabs a) = zlen (aabs b)) as LEN by lia.
    assert (length (aabs a) = length (aabs b)) as LEN' by (unfold zlen in LEN; lia).
    rewrite forallb_forall in F.
    assert (forall x, occupied (aabs a) x -> exists v w, nth_error (aabs a) (Z.to_nat x) = Some (Some v) /\
              nth_error (aabs b) (Z.to_nat x) = Some (Some w) /\ veq v w = true) as OCC.
    { intros x HX. specialize (F x (proj2 (arr_indexes_unordered_in a x HA) HX)).
      destruct (occupied_get a x HA HX) as [v [G [N B]]]. rewrite G in F.
      rewrite arr_len_eq in B by auto.
      destruct (nth_error (aabs b) (Z.to_nat x)) as [y|] eqn:NB; [|apply nth_error_None in NB; unfold zlen in *; lia].
      pose proof (arr_get_nat b _ _ HB NB) as GB. rewrite Z2Nat.id in GB by lia. rewrite GB in F.
      destruct y as [w|]; cbn [elem_eq] in F; [|discriminate]. eauto. }
    assert (forall x, occupied (aabs b) x -> occupied (aabs a) x) as BACK.
    { intros x HX. apply indexes_occupied. apply indexes_occupied in HX.
      assert (incl (indexes_from 0 (aabs a)) (indexes_from 0 (aabs b))) as INC.
      { intros z HZ. apply indexes_occupied in HZ. apply indexes_occupied. pose proof HZ as [v [P _]].
        destruct (OCC z HZ) as [v' [w [_ [W _]]]]. exists w. auto. }
      apply (NoDup_length_incl (l := indexes_from 0 (aabs a))) in INC; auto.
      - apply ssorted_NoDup, indexes_from_sorted.
      - pose proof (indexes_from_length (aabs a) 0). pose proof (indexes_from_length (aabs b) 0).
        unfold zlen in *. lia. }
    assert (forall n x y, nth_error (aabs a) n = Some x -> nth_error (aabs b) n = Some y -> elem_eq veq x y = true) as PT.
    { intros n x y NA NB. destruct x as [v|].
      - destruct (OCC (Z.of_nat n)) as [v' [w [A [B Q]]]].
        + exists v. rewrite Nat2Z.id. split; auto. lia.
        + rewrite Nat2Z.id in *. rewrite NA in A. rewrite NB in B. injection A as <-. injection B as ->. auto.
      - destruct y as [w|]; auto. destruct (BACK (Z.of_nat n)) as [v [_ N]].
        + exists w. rewrite Nat2Z.id. split; auto. lia.
        + rewrite Nat2Z.id, NA in N. discriminate. }
    clear -LEN' PT. revert LEN' PT. generalize (aabs a) (aabs b). intros la.
    induction la as [|x la IH]; intros [|y lb] L PT; try discriminate; constructor.
    + apply (PT 0%nat); auto.
    + apply IH; [injection L; auto|]. intros n. apply (PT (S n)).
  - intros F. assert (length (aabs a) = length (aabs b)) as LEN by (clear -F; induction F; cbn; auto).
    assert (count_used (aabs a) = count_used (aabs b)) as U.
    { clear -F. induction F as [|x y la lb E F IH]; auto. rewrite !count_used_cons, IH.
      destruct x, y; cbn [elem_eq is_some] in *; auto; discriminate. }
    rewrite U. unfold zlen at 1 2. rewrite LEN, !Z.eqb_refl. cbn [andb].
    apply forallb_forall. intros x HX. apply arr_indexes_unordered_in in HX; auto.
    destruct (occupied_get a x HA HX) as [v [G [N B]]]. rewrite G.
    rewrite arr_len_eq in B by auto.
    destruct (nth_error (aabs b) (Z.to_nat x)) as [y|] eqn:NB; [|apply nth_error_None in NB; unfold zlen in *; lia].
    pose proof (arr_get_nat b _ _ HB NB) as GB. rewrite Z2Nat.id in GB by lia. rewrite GB.
    revert N NB. generalize (Z.to_nat x). clear -F.
    induction F as [|p q la lb E F IH]; intros [|n] NA NB; cbn [nth_error] in *; try discriminate; eauto.
    congruence.
Qed.
End Eq.

(** * Construction of sparse arrays *)
Lemma dupdate_get (es : list (Z * T)) : forall d k,
  dget Z.eqb k (dupdate Z.eqb d es) =
    match dget Z.eqb k (rev es) with Some v => Some v | None => dget Z.eqb k d end.
Proof.
  induction es as [|[k' v] es IH]; intros d k; auto.
  change (dupdate Z.eqb d ((k', v) :: es)) with (dupdate Z.eqb (dset Z.eqb k' v d) es).
  rewrite IH. cbn [rev]. rewrite dget_app. destruct (dget Z.eqb k (rev es)); auto.
  rewrite (dget_dset _ zeqb_spec). cbn [dget]. destruct (Z.eqb k k'); auto.
Qed.
Lemma sparse_fill_ok len (es : list (Z * T)) : forall items,
  NoDup (dkeys items) ->
  snd (sparse_fill len es items) = forallb (fun p => 0 <=? fst p) es /\
  (forallb (fun p => 0 <=? fst p) es = true ->
   NoDup (dkeys (fst (sparse_fill len es items))) /\
   (forall k, In k (dkeys (fst (sparse_fill len es items))) -> In k (dkeys items) \/ 0 <= k < len) /\
   forall k, 0 <= k < len -> dget Z.eqb k (fst (sparse_fill len es items)) =
     match dget Z.eqb k (rev es) with Some v => Some v | None => dget Z.eqb k items end).
Proof.
  induction es as [|[i v] es IH]; intros items N; cbn [sparse_fill forallb fst].
  - cbn [snd rev dget]. auto.
  - destruct (i <? 0) eqn:E.
    + replace (0 <=? i) with false by lia. cbn [snd]. split; auto. discriminate.
    + replace (0 <=? i) with true by lia. cbn [andb].
      assert (NoDup (dkeys (if i <? len then dset Z.eqb i v items else items))) as N2.
      { destruct (i <? len); auto. apply (dset_NoDup _ zeqb_spec); auto. }
      destruct (IH _ N2) as [I1 I2]. split; auto. intros H. destruct (I2 H) as [A [B C]].
      split; auto. split.
      * intros k HK. apply B in HK as [HK|HK]; auto. destruct (i <? len) eqn:EL; auto.
        apply (dset_in_keys _ zeqb_spec) in HK as [->|HK]; auto. right. lia.
      * intros k HK. rewrite C by auto. cbn [rev]. rewrite dget_app.
        destruct (dget Z.eqb k (rev es)); auto. cbn [dget].
        destruct (i <? len) eqn:EL.
        -- rewrite (dget_dset _ zeqb_spec). destruct (Z.eqb k i); auto.
        -- replace (k =? i) with false by lia. auto.
Qed.

Lemma items_abs_ext (i1 : list (Z * T)) n (f : Z -> option T) :
  (forall k, 0 <= k < n -> dget Z.eqb k i1 = f k) ->
  items_abs i1 n = map (fun k => f (Z.of_nat k)) (seq 0 (Z.to_nat n)).
Proof.
  intros H. unfold items_abs. apply map_ext_in. intros k HK. apply in_seq in HK. apply H. lia.
Qed.

Lemma sparse_init_length_ok es len (s : sparse T) : sparse_init_length es len = Ok s ->
  sparse_ok s /\ 0 <= len <= MAX_LEN /\
  sabs s = map (fun k => dget Z.eqb (Z.of_nat k) (rev es)) (seq 0 (Z.to_nat len)).
Proof.
  unfold sparse_init_length. intros H. destruct (_ || _) eqn:B; [discriminate|].
  destruct (sparse_fill_ok len es [] (NoDup_nil _)) as [F1 F2].
  destruct (sparse_fill len es []) as [items valid]. cbn [fst snd] in *. subst valid.
  destruct (forallb _ es) eqn:V; [|discriminate]. injection H as <-. destruct (F2 eq_refl) as [A [B2 C]].
  assert (forall k, In k (dkeys items) -> 0 <= k < len) as B3.
  { intros k HK. apply B2 in HK as [[]|HK]. auto. }
  apply orb_false_iff in B as [L1 L2].
  split; [|split; [lia|]].
  - repeat split; cbn [s_items s_sorted s_max]; auto; try lia; try (apply B3 in H; lia).
    destruct items as [|p [|q r]]; try exact I; apply single_sorted; auto; unfold zlen; cbn; lia.
  - unfold sabs, sparse_len. cbn [s_items s_max]. replace (len - 1 + 1) with len by lia.
    apply (items_abs_ext _ _ (fun k => dget Z.eqb k (rev es))). intros k HK. rewrite C by auto. destruct (dget Z.eqb k (rev es)); auto.
Qed.
Lemma sparse_init_entries_ok es (s : sparse T) : sparse_init_entries es = Ok s ->
  sparse_ok s /\
  sabs s = map (fun k => dget Z.eqb (Z.of_nat k) (rev es)) (seq 0 (Z.to_nat (s_max s + 1))) /\
  (s_max s = -1 /\ es = [] \/ In (s_max s) (map fst es)) /\ (forall k, In k (map fst es) -> 0 <= k <= s_max s).
Proof.
  unfold sparse_init_entries. intros H. set (items := dupdate Z.eqb [] es) in *.
  assert (NoDup (dkeys items)) as N by (apply (dupdate_NoDup _ zeqb_spec); constructor).
  assert (forall k, dget Z.eqb k items = dget Z.eqb k (rev es)) as G.
  { intros k. unfold items. rewrite dupdate_get. destruct (dget Z.eqb k (rev es)); auto. }
  assert (forall k, In k (dkeys items) <-> In k (map fst es)) as K.
  { intros k. rewrite <- (dget_Some_key _ zeqb_spec), G, (dget_Some_key _ zeqb_spec), map_rev, <- in_rev. tauto. }
  assert (StronglySorted Z.lt (zsort (dkeys items))) as SS by (apply zsort_sorted; auto).
  assert (forall k, In k (zsort (dkeys items)) <-> In k (dkeys items)) as SI by (intros; apply zsort_in).
  destruct (zsort (dkeys items)) as [|lo r] eqn:Z.
  - injection H as <-. cbn [s_max].
    assert (es = []) as ->. { destruct es as [|p es]; auto. exfalso. apply (proj2 (SI (fst p))). apply K. cbn; auto. }
    repeat split; cbn [s_items s_sorted s_max sorted_ok]; auto; try lia; try (unfold MAX_LEN; lia);
      try (constructor); try (apply SI in H; destruct H).
  - set (l := lo :: r) in *. destruct (_ || _) eqn:B; [discriminate|]. injection H as <-. cbn [s_max].
    apply orb_false_iff in B as [L1 L2].
    assert (forall k, In k (dkeys items) -> 0 <= k <= last l 0) as BD.
    { intros k HK. apply SI in HK. split; [|apply ssorted_last; auto].
      inversion SS; subst. destruct HK as [->|HK]; [lia|]. rewrite Forall_forall in H2. specialize (H2 _ HK). lia. }
    assert (In (last l 0) l) as LI by (apply last_in; discriminate).
    split; [|split; [|split]].
    + split; [exact N|]. split; [exact BD|]. split.
      * change (-1 <= last l 0 < MAX_LEN). apply SI, BD in LI. lia.
      * split; auto.
    + unfold sabs, sparse_len. cbn [s_items s_max]. apply (items_abs_ext _ _ (fun k => dget Z.eqb k (rev es))). auto.
    + right. apply K, SI. auto.
    + intros k HK. apply BD, K. auto.
Qed.
End Regions.

(** * Operation sequences on a sparse array *)
Section SparseOps.
Context {T : Type}.
Lemma elements_eq (vs : list (option T)) : elements vs = filter is_some vs.
Proof. reflexivity. Qed.

Lemma filter_none_ne (vs : list (option T)) : ~ In None vs -> filter is_some vs = vs.
Proof.
  induction vs as [|[v|] vs IH]; intros H; cbn [filter is_some]; auto.
  - f_equal. apply IH. intros X. apply H. cbn; auto.
  - exfalso. apply H. cbn; auto.
Qed.

Lemma sparse_extend_spec vs : forall (s : sparse T), sparse_ok s ->
  exists r s', arr_extend (ASparse s) vs = (r, ASparse s') /\ sparse_ok s' /\
    ((r = Ok tt /\ sabs s' = sabs s ++ filter is_some vs) \/
     (r = Err EIndex /\ exists k, (k < length (filter is_some vs))%nat /\
        sabs s' = sabs s ++ firstn k (filter is_some vs) /\ zlen (sabs s') = MAX_LEN)).
Proof.
  induction vs as [|v vs IH]; intros s OK; cbn [arr_extend].
  - exists (Ok tt), s. split; auto. split; auto. left. split; auto. cbn [filter]. rewrite app_nil_r. auto.
  - pose proof (sparse_append_spec s v OK) as A. cbn [arr_append]. destruct v as [v|].
    + destruct (sparse_len s =? MAX_LEN) eqn:E.
      * rewrite A. cbn [lift fst snd]. exists (Err EIndex), s. split; auto. split; auto. right. split; auto.
        exists 0%nat. cbn [filter is_some length firstn]. rewrite app_nil_r. split; [lia|]. split; auto.
        rewrite sabs_zlen by auto. lia.
      * destruct A as [s1 [-> [OK1 A1]]]. cbn [lift fst snd].
        destruct (IH s1 OK1) as [r [s' [-> [OK' D]]]]. exists r, s'. split; auto. split; auto.
        cbn [filter is_some]. destruct D as [[-> D]|[-> [k [K [D F]]]]].
        -- left. split; auto. rewrite D, A1, <- app_assoc. auto.
        -- right. split; auto. exists (S k). cbn [length firstn]. split; [lia|]. split; auto.
           rewrite D, A1, <- app_assoc. auto.
    + rewrite A. cbn [lift fst snd]. apply IH. auto.
Qed.

Lemma sparse_op_refines (s : sparse T) o r a' : sparse_ok s ->
  arr_op (ASparse s) o = (r, a') ->
  exists s', a' = ASparse s' /\ sparse_ok s' /\
             (spec_op (sabs s) o r (sabs s') \/ sparse_deviation (sabs s) o r (sabs s')).
Proof.
  intros OK R. pose proof (sabs_zlen s OK) as ZL.
  destruct o; cbn [arr_op arr_set arr_del arr_insert arr_append arr_resize arr_get arr_len arr_used arr_indexes arr_indexes_desc] in R.
  - pose proof (sparse_get_spec s i OK) as G. destruct (position (sabs s) i) as [k|] eqn:P.
    + destruct G as [v [N G]]. rewrite G in R. injection R as <- <-. exists s. split; auto. split; auto.
      left. econstructor; eauto.
    + rewrite G in R. injection R as <- <-. exists s. split; auto. split; auto. left. constructor; auto.
  - pose proof (sparse_set_spec s i v OK) as G. destruct (position (sabs s) i) as [k|] eqn:P.
    + destruct G as [r0 [s' [G [OK' [A [[->|[-> MA]] _]]]]]]; rewrite G in R; cbn [lift fst snd unit_resp] in R;
        injection R as <- <-; exists s'; split; auto; split; auto; rewrite A.
      * left. constructor; auto.
      * right. constructor; auto. rewrite number_used_eq, <- sparse_used_eq by auto. apply MA.
    + rewrite G in R. cbn [lift fst snd unit_resp] in R. injection R as <- <-. exists s. split; auto. split; auto.
      left. constructor; auto.
  - pose proof (sparse_del_spec s i OK) as G. destruct (position (sabs s) i) as [k|] eqn:P.
    + destruct G as [s' [G [OK' A]]]. rewrite G in R. cbn [lift fst snd unit_resp] in R. injection R as <- <-.
      exists s'. split; auto. split; auto. left. rewrite A. constructor; auto.
    + rewrite G in R. cbn [lift fst snd unit_resp] in R. injection R as <- <-. exists s. split; auto. split; auto.
      left. constructor; auto.
  - pose proof (sparse_insert_spec s i v OK) as G. destruct (position (sabs s) i) as [k|] eqn:P.
    + destruct (sparse_len s =? MAX_LEN) eqn:E.
      * rewrite G in R. cbn [lift fst snd unit_resp] in R. injection R as <- <-. exists s. split; auto. split; auto.
        right. apply dev_insert_full. unfold zlen, MAX_LEN in *. lia.
      * destruct G as [s' [G [OK' A]]]. rewrite G in R. cbn [lift fst snd unit_resp] in R. injection R as <- <-.
        exists s'. split; auto. split; auto. left. rewrite A. constructor; auto.
    + rewrite G in R. cbn [lift fst snd unit_resp] in R. injection R as <- <-. exists s. split; auto. split; auto.
      destruct (position_cases (sabs s) i) as [[B E]|[[B E]|[[B E]|[B E]]]]; try (rewrite P in E; discriminate).
      * right. apply dev_insert_end. unfold zlen in B. lia.
      * left. apply so_insert_err. unfold zlen in B. lia.
  - pose proof (sparse_append_spec s v OK) as G. destruct v as [v|].
    + destruct (sparse_len s =? MAX_LEN) eqn:E.
      * rewrite G in R. cbn [lift fst snd unit_resp] in R. injection R as <- <-. exists s. split; auto. split; auto.
        right. apply dev_append_full. unfold zlen, MAX_LEN in *. lia.
      * destruct G as [s' [G [OK' A]]]. rewrite G in R. cbn [lift fst snd unit_resp] in R. injection R as <- <-.
        exists s'. split; auto. split; auto. left. rewrite A. constructor; auto.
    + rewrite G in R. cbn [lift fst snd unit_resp] in R. injection R as <- <-. exists s. split; auto. split; auto.
      right. constructor.
  - destruct (sparse_extend_spec vs s OK) as [r0 [s' [G [OK' D]]]]. rewrite G in R. cbn [unit_resp] in R.
    destruct D as [[-> A]|[-> [k [K [A F]]]]]; injection R as <- <-; exists s'; split; auto; split; auto.
    + rewrite A. destruct (forallb is_some vs) eqn:X.
      * left. rewrite filter_none_ne; [constructor|]. intros I. rewrite forallb_forall in X.
        specialize (X _ I). discriminate.
      * right. constructor. clear -X. induction vs as [|[v|] vs IH]; cbn in *; auto; discriminate.
    + right. rewrite A. apply dev_extend_full; auto. rewrite elements_eq, <- A. unfold zlen, MAX_LEN in F. auto.
  - unfold arr_pop in R. cbn [arr_get arr_del] in R. pose proof (sparse_get_spec s i OK) as G.
    pose proof (sparse_del_spec s i OK) as D. destruct (position (sabs s) i) as [k|] eqn:P.
    + destruct G as [v [N G]]. destruct D as [s' [D [OK' A]]]. rewrite G, D in R.
      cbn [lift fst snd] in R. injection R as <- <-. exists s'. split; auto. split; auto. left. rewrite A.
      econstructor; eauto.
    + rewrite G in R. injection R as <- <-. exists s. split; auto. split; auto. left. constructor; auto.
  - pose proof (sparse_resize_spec s n OK) as G. destruct ((n <? 0) || (2 ^ 32 - 1 <? n)) eqn:B.
    + rewrite G in R. cbn [lift fst snd unit_resp] in R. injection R as <- <-. exists s. split; auto. split; auto.
      left. apply so_resize_err. lia.
    + destruct G as [s' [G [OK' [_ [_ A]]]]]. rewrite G in R. cbn [lift fst snd unit_resp] in R. injection R as <- <-.
      exists s'. split; auto. split; auto. left. rewrite A. destruct (n <? zlen (sabs s)) eqn:E; unfold zlen in E.
      * apply so_shrink; lia.
      * apply so_grow; lia.
  - injection R as <- <-. exists s. split; auto. split; auto. left. rewrite <- ZL. constructor.
  - injection R as <- <-. exists s. split; auto. split; auto. left. rewrite sparse_used_eq by auto. constructor.
  - unfold sparse_indexes in R. destruct (sparse_indexes_eq s OK) as [E OK1]. rewrite E in R. injection R as <- <-.
    eexists. split; [reflexivity|]. split; auto. left.
    change (sabs _) with (sabs s) at 3. constructor; [apply ascending_of_indexes|intros; apply indexes_occupied].
  - unfold sparse_indexes_desc in R. destruct (sparse_indexes_eq s OK) as [E OK1]. rewrite E in R. injection R as <- <-.
    eexists. split; [reflexivity|]. split; auto. left.
    change (sabs _) with (sabs s) at 3. constructor.
    + rewrite rev_involutive. apply ascending_of_indexes.
    + intros. rewrite <- in_rev. apply indexes_occupied.
  - rewrite (arr_iter_eq (ASparse s) OK) in R. destruct (view_items_spec (ASparse s) OK) as [a1 [E [OK1 A]]].
    rewrite E in R. cbn [snd] in R. injection R as <- <-. cbn [aabs] in *.
    unfold view_items in E. cbn [arr_indexes] in E. unfold sparse_indexes in E.
    destruct (sparse_sorted s) as [l s1]. injection E as _ <-. exists s1. split; auto. split; auto. left.
    cbn [aabs] in A. rewrite A. constructor.
Qed.

Lemma sparse_ops_refines ops : forall (s : sparse T) tr a', sparse_ok s ->
  arr_ops (ASparse s) ops = (tr, a') ->
  exists s', a' = ASparse s' /\ sparse_ok s' /\ sparse_spec_ops (sabs s) tr (sabs s').
Proof.
  induction ops as [|o ops IH]; intros s tr a' OK R; cbn [arr_ops] in R.
  - injection R as <- <-. exists s. split; auto. split; auto. constructor.
  - destruct (arr_op (ASparse s) o) as [x a1] eqn:E. destruct (sparse_op_refines s o x a1 OK E) as [s1 [-> [OK1 D]]].
    destruct (arr_ops (ASparse s1) ops) as [xs a2] eqn:E2. injection R as <- <-.
    destruct (IH s1 xs a2 OK1 E2) as [s2 [-> [OK2 D2]]]. exists s2. split; auto. split; auto.
    econstructor; eauto.
Qed.
End SparseOps.
