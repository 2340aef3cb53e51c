(** Objects made by updates with a repr's entries. *)
From Coq Require Import List NArith ZArith Bool Arith Lia.
From Verif Require Import Base Dict SpecArray SpecNumber ModelTags ModelArray ModelValue SpecObject ModelObject ModelMap ModelHeap
  ValueFacts ArrayFacts ArrayFacts2 ArrayFacts3 ObjectFacts Prop_Object2.
Import ListNotations.
Open Scope Z_scope.

Section Update.
Context {T : Type}.
Variable float_repr : N -> list N.
Notation norm := (normalise_property_key float_repr).
Lemma jo_update_app (ps qs : list (key * option T)) : forall o o1, jo_update float_repr o ps = (Ok tt, o1) ->
  jo_update float_repr o (ps ++ qs) = jo_update float_repr o1 qs.
Proof.
  induction ps as [|[k v] ps IH]; intros o o1 E; cbn [jo_update app] in *.
  - injection E as <-. reflexivity.
  - destruct (norm k) as [p|]; [|discriminate]. destruct (jo_set o p v) as [[[]|e] o2]; [|discriminate]. apply IH. exact E.
Qed.
Definition normal (n : list N) : Prop := norm (KStr n) = Ok (PStr n).
Lemma update_names (l : list (list N * T)) : forall o, Forall (fun p => normal (fst p)) l -> NoDup (dkeys (jo_props o) ++ dkeys l) ->
  jo_update float_repr o (map (fun p => (KStr (fst p), Some (snd p))) l) = (Ok tt, mkObj (jo_arr o) (jo_props o ++ l)).
Proof.
  induction l as [|[n v] l IH]; intros o F ND; cbn [map jo_update fst snd] in *.
  - rewrite app_nil_r. destruct o; reflexivity.
  - inversion F as [|? ? N1 F']; subst. cbn [fst] in N1. rewrite N1. cbn [jo_set].
    assert (dset listN_eqb n v (jo_props o) = jo_props o ++ [(n, v)]) as ->.
    { apply (dset_fresh listN_eqb). apply (dget_None listN_eqb listN_eqb_spec). intros I. cbn [map fst] in ND. apply NoDup_remove_2 in ND. apply ND. apply in_or_app. left. exact I. }
    rewrite IH; cbn [jo_arr jo_props]; [rewrite <- app_assoc; reflexivity|exact F'|]. rewrite map_app, <- app_assoc. exact ND.
Qed.
Lemma ensure_len (a a' : arr T) k : arr_ok a -> 0 <= k < 2 ^ 32 - 1 -> ensure_array_capacity a k = (Ok tt, a') -> arr_len a' = Z.max (arr_len a) (k + 1).
Proof.
  intros OK B. unfold ensure_array_capacity. destruct (k <? arr_len a) eqn:L.
  - intros [= <-]. apply Z.ltb_lt in L. lia.
  - apply Z.ltb_ge in L. destruct a as [d|s].
    + destruct (_ && _).
      * destruct (view_items_spec _ OK) as [a2 [E _]]. rewrite E. destruct (sparse_init_length _ _) as [s|] eqn:ES; [|discriminate]. intros [= <-].
        destruct (sparse_init_length_ok _ _ _ ES) as [SK [_ SA]]. rewrite arr_len_eq by exact SK. cbn [aabs]. rewrite SA. unfold zlen. rewrite map_length, seq_length. lia.
      * cbn [arr_resize]. pose proof (dense_resize_spec d (k + 1) OK) as RS.
        destruct ((k + 1 <? 0) || (2 ^ 32 - 1 <? k + 1)) eqn:EB; [apply orb_prop in EB as [EB|EB]; apply Z.ltb_lt in EB; lia|].
        destruct RS as [d' [E [DK DI]]]. rewrite E. intros [= <-]. rewrite (arr_len_eq _ OK) in L |- *. rewrite arr_len_eq by exact DK. cbn [aabs] in *. rewrite DI.
        destruct (k + 1 <? zlen (d_items d)) eqn:E2; [apply Z.ltb_lt in E2; lia|]. rewrite zlen_app. unfold zlen in *. rewrite repeat_length. lia.
    + cbn [arr_resize]. pose proof (sparse_resize_spec s (k + 1) OK) as RS.
      destruct ((k + 1 <? 0) || (2 ^ 32 - 1 <? k + 1)) eqn:EB; [apply orb_prop in EB as [EB|EB]; apply Z.ltb_lt in EB; lia|].
      destruct RS as [s' [E [SK [_ [_ SA]]]]]. rewrite E. intros [= <-]. rewrite (arr_len_eq _ OK) in L |- *. rewrite arr_len_eq by exact SK. cbn [aabs] in *. rewrite SA.
      destruct (k + 1 <? zlen (sabs s)) eqn:E2; [apply Z.ltb_lt in E2; lia|]. rewrite zlen_app. unfold zlen in *. rewrite repeat_length. lia.
Qed.
Lemma set_len (o o' : jsobj T) k v : arr_ok (jo_arr o) -> 0 <= k < 2 ^ 32 - 1 -> jo_set o (PInt k) v = (Ok tt, o') ->
  arr_len (jo_arr o') = Z.max (arr_len (jo_arr o)) (k + 1).
Proof.
  intros OK B. cbn [jo_set]. destruct (ensure_spec (jo_arr o) k OK B) as [a' [E [OK' [L _]]]]. rewrite E.
  pose proof (ensure_len _ _ _ OK B E) as EL. destruct (arr_set_in a' k v OK') as [r [a2 [E2 [_ [_ [L2 _]]]]]].
  { assert (0 <= k) by lia. lia. }
  rewrite E2. intros [= -> <-]. cbn [jo_arr]. lia.
Qed.
Definition int_entries (es : list (Z * T)) : list (key * option T) := map (fun p => (KInt (fst p), Some (snd p))) es.
Definition in_range (es : list (Z * T)) : Prop := Forall (fun p => 0 <= fst p < 2 ^ 32 - 1) es.
Lemma norm_int k : 0 <= k < 2 ^ 32 - 1 -> norm (KInt k) = Ok (PInt k).
Proof.
  intros B. unfold normalise_property_key, normalise_int. destruct ((0 <=? k) && (k <? MAX_ARRAY_LENGTH)) eqn:E; [reflexivity|].
  exfalso. apply andb_false_iff in E as [E|E]; unfold MAX_ARRAY_LENGTH in *; lia.
Qed.
Lemma update_len es : forall o o', arr_ok (jo_arr o) -> (exists m, rep o m) -> in_range es -> jo_update float_repr o (int_entries es) = (Ok tt, o') ->
  arr_len (jo_arr o') = fold_left (fun n p => Z.max n (fst p + 1)) es (arr_len (jo_arr o)).
Proof.
  induction es as [|[k v] es IH]; intros o o' OK [m RP] F E; cbn [int_entries map jo_update fst snd fold_left] in *.
  - injection E as <-. reflexivity.
  - inversion F as [|? ? B F']; subst. cbn [fst] in B. rewrite norm_int in E by exact B. destruct (jo_set o (PInt k) (Some v)) as [[[]|e] o1] eqn:E1; [|discriminate].
    destruct (rep_set o m (PInt k) (Some v) RP B) as [r [o2 [E2 [RP2 _]]]]. rewrite E1 in E2. injection E2 as <- <-.
    rewrite <- (set_len _ _ _ _ OK B E1). apply IH; [exact (proj1 RP2)|eexists; exact RP2|exact F'|exact E].
Qed.
Lemma assign_ints es : forall m : list (pkey * T), NoDup (dkeys m) -> 
  let m' := assign_all m (map (fun p => (PInt (fst p), Some (snd p))) es) in
  strs m' = strs m /\ forall z, dget pkey_eqb (PInt z) m' = match dget Z.eqb z (rev es) with Some v => Some v | None => dget pkey_eqb (PInt z) m end.
Proof.
  induction es as [|[k v] es IH]; intros m ND; cbn [map assign_all fst snd rev].
  - split; [reflexivity|]. intros z. reflexivity.
  - specialize (IH (assign m (PInt k) (Some v)) (assign_keys m (PInt k) (Some v) ND)). cbn zeta in IH. destruct IH as [S1 G1]. split.
    + rewrite S1. cbn [assign]. apply strs_put_int.
    + intros z. rewrite G1, dget_app. destruct (dget Z.eqb z (rev es)) eqn:ER; [reflexivity|]. rewrite assign_get by exact ND.
      cbn [dget pkey_eqb]. destruct (z =? k); reflexivity.
Qed.
Lemma dget_rev es z : NoDup (dkeys es) -> dget Z.eqb z (rev es) = dget Z.eqb z es :> option T.
Proof.
  intros ND. destruct (dget Z.eqb z es) as [v|] eqn:E.
  - apply (in_dget Z.eqb zeqb_spec); [|apply in_rev; rewrite rev_involutive; eapply (dget_Some_in Z.eqb zeqb_spec), E]. rewrite map_rev. apply NoDup_rev, ND.
  - apply (dget_None Z.eqb zeqb_spec). rewrite map_rev. intros I. apply in_rev in I. apply (dget_None Z.eqb zeqb_spec) in E. contradiction.
Qed.
Lemma entries_range (l : list (option T)) : forall i, Forall (fun p => i <= fst p < i + zlen l) (entries_from i l).
Proof.
  induction l as [|[v|] l IH]; intros i; cbn [entries_from]; [constructor| |]; rewrite zlen_cons.
  - constructor; [cbn [fst]; pose proof (zlen_nonneg l); lia|]. eapply Forall_impl; [|apply IH]. cbn beta. intros p. lia.
  - eapply Forall_impl; [|apply IH]. cbn beta. intros p. lia.
Qed.
Lemma fold_max (es : list (Z * T)) : forall n, n <= fold_left (fun n p => Z.max n (fst p + 1)) es n.
Proof. induction es as [|p es IH]; intros n; cbn [fold_left]; [lia|]. specialize (IH (Z.max n (fst p + 1))). lia. Qed.
Lemma entries_len (l : list (option T)) : forall i n, (forall d, l <> [] -> last l d <> None) -> n <= i -> (l = [] -> n = i) ->
  fold_left (fun n p => Z.max n (fst p + 1)) (entries_from i l) n = i + zlen l.
Proof.
  induction l as [|e l IH]; intros i n LA LE NE.
  - cbn [entries_from fold_left]. rewrite zlen_nil. specialize (NE eq_refl). lia.
  - rewrite zlen_cons. destruct l as [|e2 l].
    + destruct e as [v|]; [|exfalso; apply (LA None); [discriminate|reflexivity]]. cbn [entries_from fold_left fst]. rewrite zlen_nil. lia.
    + assert (forall d, e2 :: l <> [] -> last (e2 :: l) d <> None) as LA2 by (intros d N; apply (LA d); discriminate).
      destruct e as [v|].
      * change (entries_from i (Some v :: e2 :: l)) with ((i, v) :: entries_from (i + 1) (e2 :: l)). cbn [fold_left fst]. rewrite IH; [lia|exact LA2|lia|discriminate].
      * change (entries_from i (None :: e2 :: l)) with (entries_from (i + 1) (e2 :: l)). rewrite IH; [lia|exact LA2|lia|discriminate].
Qed.
Lemma elem_at_ext (l m : list (option T)) : length l = length m -> (forall z, elem_at l z = elem_at m z) -> l = m.
Proof.
  intros L E. apply nth_error_ext'. intros i. specialize (E (Z.of_nat i)). unfold elem_at in E. destruct (Z.of_nat i <? 0) eqn:B; [lia|]. rewrite Nat2Z.id in E.
  destruct (nth_error l i) as [x|] eqn:EL, (nth_error m i) as [y|] eqn:EM; try congruence.
  - apply nth_error_None in EM. assert (i < length l)%nat by (apply nth_error_Some; congruence). lia.
  - apply nth_error_None in EL. assert (i < length m)%nat by (apply nth_error_Some; congruence). lia.
Qed.
(** No hole at the end *)
Definition no_trailing_hole (l : list (option T)) : Prop := forall d, l <> [] -> last l d <> None.
(** An object made from numbered entries has just these, and no holes at its end. *)
Lemma update_entries (l : list (option T)) : no_trailing_hole l -> zlen l <= 2 ^ 32 - 1 ->
  exists o, jo_update float_repr jo_empty (int_entries (entries_from 0 l)) = (Ok tt, o) /\ arr_ok (jo_arr o) /\ aabs (jo_arr o) = l /\ jo_props o = [].
Proof.
  intros LA LE. set (es := entries_from 0 l).
  assert (in_range es) as IR by (eapply Forall_impl; [|apply (entries_range l 0)]; cbn beta; intros p; lia).
  assert (NoDup (dkeys es)) as ND by (unfold es; rewrite entries_from_keys; apply ssorted_NoDup, indexes_from_sorted).
  destruct (rep_update float_repr (int_entries es) jo_empty [] rep_empty) as [r [o [m [E [RP [_ C]]]]]].
  destruct (armed_update float_repr (int_entries es) jo_empty [] rep_empty I) as [_ NA].
  { intros p I. unfold int_entries in I. apply in_map_iff in I as [q [<- _]]. discriminate. }
  rewrite E in NA. cbn [fst] in NA.
  assert (forall a, In a (int_entries es) -> exists z, norm (fst a) = Ok (PInt z)) as NR.
  { intros a I. unfold int_entries in I. apply in_map_iff in I as [q [<- I]]. exists (fst q). apply norm_int. unfold in_range in IR. rewrite Forall_forall in IR. apply IR. exact I. }
  destruct C as [[qs [-> [F2 ->]]]|[[ps1 [qs [k [v [rest [e [-> [EP [NE _]]]]]]]]]|[ps1 [qs [k [p [v [rest [-> _]]]]]]]]].
  - exists o. split; [exact E|]. split; [exact (proj1 RP)|].
    assert (qs = map (fun p => (PInt (fst p), Some (snd p))) es) as ->.
    { clear E RP NA NR ND. unfold int_entries in F2. revert qs F2. induction IR as [|p es' B IR IH]; intros qs F2; cbn [map] in F2.
      - inversion F2. reflexivity.
      - inversion F2 as [|? [q1 q2] ? ? [N1 N2] F2']; subst. cbn [fst snd] in *. rewrite norm_int in N1 by exact B. injection N1 as <-. rewrite (IH _ F2'). subst. reflexivity. }
    destruct (assign_ints es [] (NoDup_nil _)) as [S1 G1]. destruct RP as [OK [_ [PR GE]]]. split.
    + apply elem_at_ext.
      * pose proof (update_len es jo_empty o (proj1 (rep_empty (T:=T))) (ex_intro _ _ (rep_empty (T:=T))) IR E) as UL.
        rewrite (arr_len_eq _ OK) in UL. cbn [jo_empty jo_arr] in UL. change (arr_len (ADense (dense_init []))) with 0 in UL. unfold es in UL.
        rewrite (entries_len l 0 0 LA) in UL by (auto; lia). unfold zlen in UL. lia.
      * intros z. rewrite <- GE, G1. rewrite dget_rev by exact ND. cbn [dget]. unfold elem_at. destruct (z <? 0) eqn:ZB.
        -- assert (dget Z.eqb z es = None) as ->; [|reflexivity]. apply (dget_None Z.eqb zeqb_spec). intros I. apply in_map_iff in I as [q [<- I]].
           unfold in_range in IR. rewrite Forall_forall in IR. specialize (IR q I). lia.
        -- pose proof (entries_from_get l 0 (Z.to_nat z)) as EG. replace (0 + Z.of_nat (Z.to_nat z)) with z in EG by lia. unfold es. rewrite EG.
           destruct (nth_error l (Z.to_nat z)) as [[v|]|]; reflexivity.
    + rewrite PR, S1. reflexivity.
  - exfalso. destruct (NR (k, v)) as [z N1]; [rewrite EP; apply in_or_app; right; left; reflexivity|]. cbn [fst] in N1. congruence.
  - exfalso. apply NA. reflexivity.
Qed.
End Update.
