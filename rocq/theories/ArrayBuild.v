(** Filling the storage of an object or array with new keys, as the decoder does. *)
From Coq Require Import List NArith ZArith Bool Lia ZifyBool ZifyNat ZifyN Sorting.Sorted.
From Verif Require Import Base Dict SpecArray ModelArray ArrayFacts ArrayFacts2 ArrayFacts3 ModelValue ModelObject ObjectFacts.
Import ListNotations.
Open Scope Z_scope.

Section Build.
Context {T : Type}.
Notation dget := (dget Z.eqb).

(** The sorted keys are only unknown when there are two or more: no assertion can fail. *)
Definition tidy (a : arr T) : Prop :=
  match a with ADense _ => True | ASparse s => s_sorted s = None -> 2 <= zlen (s_items s) end.

Lemma ensure_len (a : arr T) k a' : arr_ok a -> 0 <= k < 2 ^ 32 - 1 -> ensure_array_capacity a k = (Ok tt, a') ->
  arr_len a' = Z.max (arr_len a) (k + 1) /\ (tidy a -> tidy a').
Proof.
  intros A K. unfold ensure_array_capacity. destruct (k <? arr_len a) eqn:E.
  - intros [= <-]. split; [lia|auto].
  - pose proof (arr_len_eq a A) as L.
    assert (RS : forall a', arr_resize a (k + 1) = (Ok tt, a') -> arr_len a' = Z.max (arr_len a) (k + 1) /\ (tidy a -> tidy a')).
    { clear a'. intros a' R. destruct a as [d|s]; cbn [arr_ok aabs arr_len arr_resize] in *.
      - pose proof (dense_resize_spec d (k + 1) A) as S1.
        replace ((k + 1 <? 0) || (2 ^ 32 - 1 <? k + 1)) with false in S1 by lia.
        destruct S1 as [d' [E1 [O I]]]. replace (k + 1 <? zlen (d_items d)) with false in I by lia.
        rewrite E1 in R. injection R as <-. split; [|auto].
        cbn [arr_len]. unfold dense_len in *. rewrite I, zlen_app. unfold zlen in *. rewrite repeat_length. lia.
      - pose proof (sparse_resize_spec s (k + 1) A) as S1.
        replace ((k + 1 <? 0) || (2 ^ 32 - 1 <? k + 1)) with false in S1 by lia.
        destruct S1 as [s' [E1 [O [M [Sm I]]]]]. rewrite E1 in R. injection R as <-. split.
        + cbn [arr_len]. unfold sparse_len in *. lia.
        + intros _. cbn [tidy]. intros X. rewrite X in Sm. discriminate. }
    destruct a as [d|s]; [|apply RS].
    destruct ((MIN_SPARSE_ARRAY_SIZE <=? k + 1) && (4 * (d_used d + 1) <? k + 1)) eqn:SW; [|apply RS].
    destruct (view_items (ADense d)) as [[items|e] a2]; [|discriminate].
    destruct (sparse_init_length items (k + 1)) as [s|e] eqn:SI; [|discriminate]. intros [= <-].
    destruct (sparse_init_length_ok _ _ _ SI) as [O2 [_ I2]]. split.
    + rewrite (arr_len_eq (ASparse s) O2). cbn [aabs]. unfold zlen at 1. rewrite I2, map_length, seq_length. lia.
    + intros _. unfold sparse_init_length in SI. destruct (_ || _); [discriminate|].
      destruct (sparse_fill (k + 1) items []) as [its valid]. destruct valid; [|discriminate]. injection SI as <-. cbn [tidy s_sorted s_items].
      destruct its as [|p [|q its]]; cbn; try discriminate. intros _. unfold zlen. cbn [length]. lia.
Qed.
Lemma set_tidy (a : arr T) k v r a' : arr_ok a -> tidy a -> 0 <= k < arr_len a -> (v = None -> elem_at (aabs a) k = None) ->
  arr_set a k v = (r, a') -> r = Ok tt /\ tidy a'.
Proof.
  intros A Ti K V E. destruct a as [d|s].
  - cbn [arr_set arr_ok arr_len tidy] in *. pose proof (dense_set_spec d k v A) as S1.
    destruct (position_cases (d_items d) k) as [[_ P]|[[X _]|[[X _]|[X _]]]]; unfold dense_len in *; try lia.
    rewrite P in S1. destruct S1 as [d' [E1 _]]. rewrite E1 in E. injection E as <- <-. auto.
  - cbn [arr_set arr_ok arr_len tidy aabs] in *. pose proof A as (Nd & B & M & So).
    unfold lift in E. cbn [fst snd] in E. destruct (sparse_set s k v) as [r1 s1] eqn:E1. cbn [fst snd] in E. injection E as -> <-.
    unfold sparse_set in E1. unfold sparse_norm in E1. replace (k <? 0) with false in E1 by lia.
    replace (sparse_len s <=? k) with false in E1 by lia.
    assert (G : elem_at (sabs s) k = dget k (s_items s)).
    { unfold elem_at, sabs. replace (k <? 0) with false by lia. rewrite items_abs_nth.
      replace (Z.to_nat k <? Z.to_nat (sparse_len s))%nat with true by lia. f_equal. lia. }
    destruct (dmem Z.eqb k (s_items s)) eqn:Dm.
    + destruct v as [v|].
      * injection E1 as <- <-. split; auto. cbn [tidy s_sorted s_items]. intros X. specialize (Ti X).
        unfold zlen in *. rewrite (dset_length Z.eqb), Dm. exact Ti.
      * specialize (V eq_refl). rewrite G in V. unfold dmem in Dm. rewrite V in Dm. discriminate.
    + destruct v as [v|]; [|injection E1 as <- <-; auto].
      assert (Len : zlen (dset Z.eqb k v (s_items s)) = zlen (s_items s) + 1).
      { unfold zlen. rewrite (dset_length Z.eqb), Dm. lia. }
      unfold sorted_assert in E1. rewrite Len in E1.
      destruct (s_sorted s) as [l|] eqn:Sl.
      * replace (negb (if zlen (s_items s) + 1 <=? 1 then is_some (Some l) else true)) with false in E1 by (destruct (_ <=? _); reflexivity).
        destruct (last l (-1) <? k) eqn:La; injection E1 as <- <-; (split; auto); cbn [tidy s_sorted s_items]; try discriminate.
        intros _. rewrite Len. destruct (s_items s) as [|p its] eqn:Is; [|unfold zlen; cbn [length]; lia]. exfalso.
        cbn [sorted_ok] in So. assert (l = []) as ->; [|cbn [last] in La; lia].
        destruct l as [|x l]; auto. destruct So as [So1 So2]. specialize (So2 x). cbn in So2. exfalso. apply So2. left. reflexivity.
      * specialize (Ti eq_refl). replace (zlen (s_items s) + 1 <=? 1) with false in E1 by lia. cbn [negb] in E1.
        injection E1 as <- <-. split; auto. cbn [tidy s_sorted s_items]. intros _. lia.
Qed.

(** Assigning an index: the list grows up to it, and nothing else changes. *)
Lemma jo_set_int (o : jsobj T) k v : arr_ok (jo_arr o) -> tidy (jo_arr o) -> 0 <= k < 2 ^ 32 - 1 ->
  (v = None -> elem_at (aabs (jo_arr o)) k = None) ->
  exists a', jo_set o (PInt k) v = (Ok tt, mkObj a' (jo_props o)) /\ arr_ok a' /\ tidy a' /\
    zlen (aabs a') = Z.max (zlen (aabs (jo_arr o))) (k + 1) /\
    forall z, elem_at (aabs a') z = if z =? k then v else elem_at (aabs (jo_arr o)) z.
Proof.
  intros A Ti K V. cbn [jo_set]. destruct (ensure_spec (jo_arr o) k A K) as (a1 & E1 & A1 & L1 & G1 & _).
  destruct (ensure_len _ _ _ A K E1) as [Len T1]. specialize (T1 Ti).
  destruct (arr_set_in a1 k v A1) as (r & a' & E2 & A2 & _ & L2 & G2 & _); [lia|].
  destruct (set_tidy a1 k v r a' A1 T1) as [-> T2]; auto; [lia|rewrite G1; auto|].
  exists a'. rewrite E1, E2. split; auto. split; auto. split; auto.
  rewrite <- (arr_len_eq a'), <- (arr_len_eq (jo_arr o)) by auto. split; [lia|].
  intros z. rewrite G2, G1. reflexivity.
Qed.

Lemma elem_at_ext (l m : list (option T)) : zlen l = zlen m -> (forall z, elem_at l z = elem_at m z) -> l = m.
Proof.
  intros L E. apply nth_error_ext'. intros i. specialize (E (Z.of_nat i)). unfold elem_at in E.
  replace (Z.of_nat i <? 0) with false in E by lia. rewrite Nat2Z.id in E. unfold zlen in L.
  destruct (nth_error l i) as [x|] eqn:A, (nth_error m i) as [y|] eqn:B; try congruence.
  - apply nth_error_None in B. assert (nth_error l i <> None) as C by congruence. apply nth_error_Some in C. lia.
  - apply nth_error_None in A. assert (nth_error m i <> None) as C by congruence. apply nth_error_Some in C. lia.
Qed.
Lemma elem_at_app (l : list (option T)) v z : elem_at (l ++ [v]) z = if z =? zlen l then v else elem_at l z.
Proof.
  unfold elem_at, zlen. destruct (z <? 0) eqn:Z0; [replace (z =? _) with false by lia; auto|].
  destruct (z =? Z.of_nat (length l)) eqn:Zl.
  - rewrite nth_error_app2 by lia. replace (Z.to_nat z - length l)%nat with O by lia. reflexivity.
  - destruct (Z.to_nat z <? length l)%nat eqn:C.
    + rewrite nth_error_app1 by lia. reflexivity.
    + rewrite nth_error_app2 by lia. rewrite (proj2 (nth_error_None l (Z.to_nat z))) by lia.
      destruct (Z.to_nat z - length l)%nat as [|n] eqn:Sn; [lia|]. destruct n; reflexivity.
Qed.
Lemma elem_at_past (l : list (option T)) z : zlen l <= z -> elem_at l z = None.
Proof.
  intros L. unfold elem_at, zlen in *. destruct (z <? 0); auto. rewrite (proj2 (nth_error_None l (Z.to_nat z))) by lia. reflexivity.
Qed.
(** Appending an element or a hole. *)
Lemma jo_set_next (o : jsobj T) v : arr_ok (jo_arr o) -> tidy (jo_arr o) -> zlen (aabs (jo_arr o)) < 2 ^ 32 - 1 ->
  exists a', jo_set o (PInt (zlen (aabs (jo_arr o)))) v = (Ok tt, mkObj a' (jo_props o)) /\ arr_ok a' /\ tidy a' /\
    aabs a' = aabs (jo_arr o) ++ [v].
Proof.
  intros A Ti K. pose proof (zlen_nonneg (aabs (jo_arr o))) as P.
  destruct (jo_set_int o (zlen (aabs (jo_arr o))) v A Ti) as (a' & E & A' & T' & L & G); [lia|intros _; apply elem_at_past; lia|].
  exists a'. split; auto. split; auto. split; auto. apply elem_at_ext.
  - rewrite L, zlen_app. unfold zlen at 4. cbn [length]. lia.
  - intros z. rewrite G, elem_at_app. reflexivity.
Qed.

(** The entries of a list are its elements. *)
Lemma elem_at_entries (l : list (option T)) z : elem_at l z = dget z (entries_from 0 l).
Proof.
  unfold elem_at. destruct (z <? 0) eqn:Z0.
  - symmetry. apply (dget_None Z.eqb Z.eqb_eq). rewrite entries_from_keys. intros C. apply indexes_from_in in C as [C _]. lia.
  - pose proof (entries_from_get l 0 (Z.to_nat z)) as G. rewrite Z.add_0_l, Z2Nat.id in G by lia. rewrite G.
    destruct (nth_error l (Z.to_nat z)) as [[x|]|]; reflexivity.
Qed.
Lemma sorted_assoc_ext (a : list (Z * T)) : forall b, StronglySorted Z.lt (dkeys a) -> StronglySorted Z.lt (dkeys b) ->
  (forall z, dget z a = dget z b) -> a = b.
Proof.
  intros b Sa Sb E.
  assert (K : dkeys a = dkeys b).
  { apply ssorted_unique; auto. intros x. split; intros C.
    - destruct (in_dec Z.eq_dec x (dkeys b)) as [|Nb]; auto. apply (dget_None Z.eqb Z.eqb_eq) in Nb. rewrite <- E in Nb.
      apply (dget_None Z.eqb Z.eqb_eq) in Nb. contradiction.
    - destruct (in_dec Z.eq_dec x (dkeys a)) as [|Nb]; auto. apply (dget_None Z.eqb Z.eqb_eq) in Nb. rewrite E in Nb.
      apply (dget_None Z.eqb Z.eqb_eq) in Nb. contradiction. }
  clear Sb. revert b E K Sa. induction a as [|[k x] a IH]; intros [|[k' y] b] E K Sa; try discriminate; auto.
  cbn [dkeys map fst] in K. injection K as <- K. cbn [dkeys map fst] in Sa. inversion Sa as [|? ? Ss Fl]; subst.
  assert (Nk : ~ In k (dkeys a)). { intros C. rewrite Forall_forall in Fl. apply Fl in C. lia. }
  f_equal.
  - specialize (E k). cbn [Dict.dget] in E. rewrite Z.eqb_refl in E. congruence.
  - apply IH; auto. intros z. specialize (E z). cbn [Dict.dget] in E. destruct (z =? k) eqn:Zk; auto.
    apply Z.eqb_eq in Zk as ->. rewrite (proj2 (dget_None Z.eqb Z.eqb_eq k a)) by auto.
    rewrite (proj2 (dget_None Z.eqb Z.eqb_eq k b)); auto. unfold dkeys in *. rewrite <- K. auto.
Qed.

(** Assigning new indexes in ascending order, to an array whose length is known or not. *)
Fixpoint set_all (o : jsobj T) (es : list (Z * T)) : result unit * jsobj T :=
  match es with
  | [] => (Ok tt, o)
  | (k, v) :: r => match jo_set o (PInt k) (Some v) with (Ok _, o) => set_all o r | (Err e, o) => (Err e, o) end
  end.
Lemma set_all_ok es : forall (o : jsobj T), arr_ok (jo_arr o) -> tidy (jo_arr o) -> Forall (fun k => 0 <= k < 2 ^ 32 - 1) (dkeys es) ->
  NoDup (dkeys es) ->
  exists a', set_all o es = (Ok tt, mkObj a' (jo_props o)) /\ arr_ok a' /\ tidy a' /\
    (forall n, (zlen (aabs (jo_arr o)) <= n -> Forall (fun k => k < n) (dkeys es) -> zlen (aabs a') <= n) /\
               (n <= zlen (aabs (jo_arr o)) -> n <= zlen (aabs a'))) /\
    forall z, elem_at (aabs a') z = match dget z es with Some v => Some v | None => elem_at (aabs (jo_arr o)) z end.
Proof.
  induction es as [|[k v] es IH]; intros o A Ti F N; cbn [set_all].
  - exists (jo_arr o). destruct o as [a p]. cbn. repeat split; auto.
  - cbn [dkeys map fst] in F, N. apply Forall_cons_iff in F as [Fk F]. inversion N as [|? ? Nk Nd]; subst.
    destruct (jo_set_int o k (Some v) A Ti Fk) as (a1 & E1 & A1 & T1 & L1 & G1); [discriminate|].
    rewrite E1. destruct (IH (mkObj a1 (jo_props o)) A1 T1 F Nd) as (a2 & E2 & A2 & T2 & L2 & G2).
    cbn [jo_arr jo_props] in *. exists a2. split; auto. split; auto. split; auto. split.
    + intros n. destruct (L2 n) as [La Lb]. split.
      * intros Ln Fn. cbn [dkeys map fst] in Fn. apply Forall_cons_iff in Fn as [Kn Fn]. apply La; auto. lia.
      * intros Ln. apply Lb. lia.
    + intros z. rewrite G2. cbn [Dict.dget]. destruct (z =? k) eqn:Zk.
      * apply Z.eqb_eq in Zk as ->. rewrite (proj2 (dget_None Z.eqb Z.eqb_eq k es)) by auto. rewrite G1, Z.eqb_refl. reflexivity.
      * destruct (dget z es); auto. rewrite G1, Zk. reflexivity.
Qed.
(** In an empty object: the entries are the assignments. *)
Lemma set_all_entries es : Forall (fun k => 0 <= k < 2 ^ 32 - 1) (dkeys es) -> StronglySorted Z.lt (dkeys es) ->
  exists a', set_all jo_empty es = (Ok tt, mkObj a' []) /\ arr_ok a' /\ entries_from 0 (aabs a') = es /\
    forall d, last (aabs a') (Some d) <> None.
Proof.
  intros F So. destruct (set_all_ok es (@jo_empty T)) as (a' & E & A & _ & Len & G); auto.
  - apply (proj1 (@rep_empty T)).
  - exact I.
  - apply ssorted_NoDup. auto.
  - exists a'. split; auto. split; auto. split; [apply sorted_assoc_ext; auto|].
    + rewrite entries_from_keys. apply indexes_from_sorted.
    + intros z. rewrite <- elem_at_entries, G. destruct (dget z es); auto. unfold elem_at. cbn. destruct (z <? 0); auto. destruct (Z.to_nat z); auto.
    + intros d. assert (DEC : es = [] \/ es <> []) by (destruct es; [left|right]; congruence). destruct DEC as [->|NE].
      * destruct (Len 0) as [Le _]. assert (Z0 : zlen (aabs a') <= 0) by (apply Le; [cbn; lia|constructor]). unfold zlen in Z0.
        destruct (aabs a'); [discriminate|cbn in Z0; lia].
      * destruct (exists_last NE) as (es' & [k v] & ->). rewrite map_app in F, So. cbn [map fst] in F, So.
        assert (K : 0 <= k < 2 ^ 32 - 1) by (apply Forall_app in F as [_ F]; inversion F; auto).
        assert (Bk : Forall (fun x => x < k) (map fst es')).
        { clear -So. induction (map fst es') as [|x l IH]; constructor.
          - cbn in So. inversion So as [|? ? S1 S2]; subst. rewrite Forall_forall in S2. apply S2. apply in_or_app. right. left. auto.
          - apply IH. cbn in So. inversion So; auto. }
        assert (Le : zlen (aabs a') <= k + 1).
        { apply (Len (k + 1)); [cbn; lia|]. rewrite map_app. apply Forall_app. split; [|repeat constructor; cbn; lia].
          eapply Forall_impl; [|exact Bk]. cbn. intros. lia. }
        specialize (G k). replace (dget k (es' ++ [(k, v)])) with (Some v) in G.
        2: { clear -Bk. induction es' as [|[x y] es' IH]; cbn [app Dict.dget]; [rewrite Z.eqb_refl; auto|].
             cbn [map fst] in Bk. inversion Bk; subst. replace (k =? x) with false by lia. auto. }
        unfold elem_at in G. replace (k <? 0) with false in G by lia.
        destruct (nth_error (aabs a') (Z.to_nat k)) as [y|] eqn:Ny; [|discriminate]. subst y.
        assert (Lt : (Z.to_nat k < length (aabs a'))%nat) by (apply nth_error_Some; congruence). unfold zlen in Le.
        assert (Q : aabs a' <> []) by (intros Q; rewrite Q in Lt; cbn in Lt; lia).
        destruct (exists_last Q) as (l0 & z & Ez). rewrite Ez, last_last. rewrite Ez in Ny, Le, Lt. rewrite app_length in Le, Lt. cbn in Le, Lt.
        rewrite nth_error_app2 in Ny by lia. replace (Z.to_nat k - length l0)%nat with O in Ny by lia. cbn in Ny. congruence.
Qed.
(** In an array that was given its length first: *)
Lemma set_all_sparse (o : jsobj T) n es : arr_ok (jo_arr o) -> tidy (jo_arr o) -> aabs (jo_arr o) = repeat None n ->
  Forall (fun k => 0 <= k < 2 ^ 32 - 1 /\ k < Z.of_nat n) (dkeys es) -> StronglySorted Z.lt (dkeys es) ->
  exists a', set_all o es = (Ok tt, mkObj a' (jo_props o)) /\ arr_ok a' /\ length (aabs a') = n /\ entries_from 0 (aabs a') = es.
Proof.
  intros A Ti Ab F So. destruct (set_all_ok es o A Ti) as (a' & E & A' & _ & L & G).
  - eapply Forall_impl; [|exact F]. cbn. tauto.
  - apply ssorted_NoDup. auto.
  - exists a'. split; auto. split; auto. split.
    + assert (Ln : zlen (aabs (jo_arr o)) = Z.of_nat n) by (unfold zlen; rewrite Ab, repeat_length; reflexivity).
      destruct (L (Z.of_nat n)) as [La Lb]. rewrite Ln in *. specialize (Lb (Z.le_refl _)).
      assert (zlen (aabs a') <= Z.of_nat n). { apply La; [lia|]. eapply Forall_impl; [|exact F]. cbn. tauto. }
      unfold zlen in *. lia.
    + apply sorted_assoc_ext; auto; [rewrite entries_from_keys; apply indexes_from_sorted|].
      intros z. rewrite <- elem_at_entries, G. destruct (dget z es); auto. rewrite Ab.
      unfold elem_at. destruct (z <? 0); auto. destruct (nth_error (repeat None n) (Z.to_nat z)) as [y|] eqn:Ny; auto.
      apply nth_error_In, repeat_spec in Ny. auto.
Qed.
(** Lists with related entries and equal lengths have related elements. *)
Lemma entries_elements (P : T -> T -> Prop) (Q : option T -> option T -> Prop) (l : list (option T)) : forall m i,
  Q None None -> (forall x y, P x y -> Q (Some x) (Some y)) -> length l = length m ->
  Forall2 (fun a b => fst a = fst b /\ P (snd a) (snd b)) (entries_from i l) (entries_from i m) -> Forall2 Q l m.
Proof.
  induction l as [|x l IH]; intros [|y m] i Qn Qs L F; try discriminate; auto. injection L as L.
  assert (Low : forall (m : list (option T)) p, In p (entries_from (i + 1) m) -> i < fst p).
  { intros m0 p Ip. apply (in_map fst) in Ip. fold (dkeys (entries_from (i + 1) m0)) in Ip. rewrite entries_from_keys in Ip.
    apply indexes_from_in in Ip as [Ip _]. lia. }
  destruct x as [x|], y as [y|]; cbn [entries_from] in F.
  - inversion F as [|? ? ? ? [_ Pxy] Fr]; subst. constructor; eauto.
  - exfalso. inversion F as [|? q ? ? [Kq _] _ E1 E2]; subst. cbn [fst] in Kq.
    assert (In q (entries_from (i + 1) m)) as Iq by (rewrite <- E2; left; reflexivity). apply Low in Iq. lia.
  - exfalso. inversion F as [|q ? ? ? [Kq _] _ E1 E2]; subst. cbn [fst] in Kq.
    assert (In q (entries_from (i + 1) l)) as Iq by (rewrite <- E1; left; reflexivity). apply Low in Iq. lia.
  - constructor; eauto.
Qed.
End Build.
