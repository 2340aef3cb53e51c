(** What the decoder's insertions leave in a container, given the values inserted. *)
From Coq Require Import List NArith ZArith Bool Lia ZifyBool ZifyNat ZifyN Sorting.Sorted.
From Verif Require Import Base Dict ModelTags SpecArray ModelArray ArrayFacts ArrayFacts2 ArrayFacts3 ModelValue ValueFacts KeyFacts SpecKey SpecMap ModelObject ObjectFacts
  ModelMap MapFacts ModelBuffer ModelHeap ModelDecode SpecEncode ModelEncode ArrayBuild.
Import ModelArray ArrayFacts.
Import ListNotations.
Open Scope Z_scope.

Section Put.
Variable cfg : dcfg.

Fixpoint put_all (acc : obj) (l : list (val * val)) : result obj :=
  match l with [] => Ok acc | (k, v) :: r => do acc <- put cfg acc k v; put_all acc r end.
Fixpoint add_all (acc : obj) (l : list val) : result obj :=
  match l with [] => Ok acc | v :: r => do acc <- put_member acc v; add_all acc r end.
Fixpoint elems_all (acc : obj) (i : N) (l : list val) : result obj :=
  match l with [] => Ok acc | v :: r => do acc <- put cfg acc (VInt (Z.of_N i)) v; elems_all acc (i + 1) r end.

Lemma put_all_app l : forall acc m, put_all acc (l ++ m) = do acc <- put_all acc l; put_all acc m.
Proof. induction l as [|[k v] l IH]; intros acc m; cbn [put_all app bind]; auto. destruct (put cfg acc k v) as [a|]; cbn [bind]; auto. Qed.

(** * Maps and sets *)
Notation same := (js_same no_bytes).
Definition apart (l : list val) : Prop :=
  (forall i j a b, nth_error l i = Some a -> nth_error l j = Some b -> i <> j -> ~ same a b) /\ forall a, In a l -> ~ huge a.
Lemma apart_cons k l : apart (k :: l) -> apart l /\ ~ huge k /\ forall a, In a l -> ~ same k a.
Proof.
  intros [A B]. split; [split|split].
  - intros i j a b Ia Ib N. apply (A (S i) (S j)); auto.
  - intros a Ia. apply B. right. auto.
  - apply B. left. auto.
  - intros a Ia. apply In_nth_error in Ia as [i Ei]. apply (A O (S i)); auto.
Qed.
Lemma put_map l : forall m, cinv no_bytes (@fst val val) m -> apart (map fst l) ->
  (forall x k, In x (map snd m) -> In k (map fst l) -> ~ same (fst x) k) ->
  exists m', put_all (OMap m) l = Ok (OMap m') /\ cinv no_bytes (@fst val val) m' /\ map snd m' = map snd m ++ l.
Proof.
  induction l as [|[k v] l IH]; intros m I A D; cbn [put_all].
  - exists m. rewrite app_nil_r. auto.
  - cbn [map fst] in A. apply apart_cons in A as (A & Hk & Dk). cbn [put].
    pose proof (jm_set_spec no_bytes m k v I) as S1. destruct (jm_set no_bytes m k v) as [m1|e] eqn:E; [|destruct S1; contradiction].
    destruct S1 as (I1 & _ & P). cbn [bind]. inversion P as [a k' v' b E1 Sk E2|Ab E2].
    + exfalso. apply (D (k', v') k); [rewrite E1; apply in_or_app; right; left; auto|left; auto|auto].
    + destruct (IH m1 I1 A) as (m' & E3 & I' & L').
      * intros x k0 Ix Ik. rewrite <- E2 in Ix. apply in_app_or in Ix as [Ix|[<-|[]]]; [apply D; auto; right; auto|apply Dk; auto].
      * exists m'. split; auto. split; auto. rewrite L', <- E2, <- app_assoc. reflexivity.
Qed.
Lemma put_set l : forall m, cinv no_bytes (fun k : val => k) m -> apart l ->
  (forall x k, In x (map snd m) -> In k l -> ~ same x k) ->
  exists m', add_all (OSet m) l = Ok (OSet m') /\ cinv no_bytes (fun k : val => k) m' /\ map snd m' = map snd m ++ l.
Proof.
  induction l as [|k l IH]; intros m I A D; cbn [add_all].
  - exists m. rewrite app_nil_r. auto.
  - apply apart_cons in A as (A & Hk & Dk). cbn [put_member].
    pose proof (js_add_spec no_bytes m k I) as S1. destruct (js_add no_bytes m k) as [m1|e] eqn:E; [|destruct S1; contradiction].
    destruct S1 as (I1 & _ & P). cbn [bind]. inversion P as [a k' b E1 Sk E2|Ab E2].
    + exfalso. apply (D k' k); [rewrite E1; apply in_or_app; right; left; auto|left; auto|auto].
    + destruct (IH m1 I1 A) as (m' & E3 & I' & L').
      * intros x k0 Ix Ik. rewrite <- E2 in Ix. apply in_app_or in Ix as [Ix|[<-|[]]]; [apply D; auto; right; auto|apply Dk; auto].
      * exists m'. split; auto. split; auto. rewrite L', <- E2, <- app_assoc. reflexivity.
Qed.

(** * Objects and arrays *)
Definition mk_like (acc : obj) (o : jsobj val) : obj := match acc with OObject _ => OObject o | _ => OArray o end.
Definition holder (acc : obj) (o : jsobj val) : Prop := acc = OObject o \/ acc = OArray o.
Lemma put_holder acc o k v : holder acc o -> put cfg acc k v = do o <- jo_put (c_float_repr cfg) o k v; Ok (mk_like acc o).
Proof. intros [-> | ->]; reflexivity. Qed.
Lemma holder_like acc o o' : holder acc o -> holder (mk_like acc o') o'.
Proof. intros [-> | ->]; [left|right]; reflexivity. Qed.
Lemma like_like acc o o' o'' : holder acc o -> mk_like (mk_like acc o') o'' = mk_like acc o''.
Proof. intros [-> | ->]; reflexivity. Qed.
Lemma like_same acc o : holder acc o -> mk_like acc o = acc.
Proof. intros [-> | ->]; reflexivity. Qed.

Lemma jo_put_int o k v : 0 <= k < 2 ^ 32 - 1 ->
  jo_put (c_float_repr cfg) o (VInt k) v = match jo_set o (PInt k) (elem_of v) with (Ok _, o) => Ok o | (Err e, _) => Err e end.
Proof.
  intros K. unfold jo_put. cbn [val_key]. unfold normalise_property_key, normalise_int, MAX_ARRAY_LENGTH.
  replace ((0 <=? k) && (k <? 2 ^ 32 - 1)) with true by lia. reflexivity.
Qed.
Lemma jo_put_str o s v : name_key s -> jo_put (c_float_repr cfg) o (VStr s) v =
  Ok (mkObj (jo_arr o) (match elem_of v with None => ddel listN_eqb s (jo_props o) | Some v => dset listN_eqb s v (jo_props o) end)).
Proof. intros N. unfold jo_put. cbn [val_key]. rewrite N. reflexivity. Qed.
Definition solid (v : val) : Prop := v <> VHole.
Lemma elem_solid v : solid v -> elem_of v = Some v.
Proof. destruct v; auto. intros C. contradiction C. auto. Qed.

Definition int_items (es : list (Z * val)) : list (val * val) := map (fun p => (VInt (fst p), snd p)) es.
Definition str_items (ns : list (list N * val)) : list (val * val) := map (fun p => (VStr (fst p), snd p)) ns.
Lemma put_ints es : forall acc o o', holder acc o -> Forall (fun k => 0 <= k < 2 ^ 32 - 1) (dkeys es) -> Forall (fun p => solid (snd p)) es ->
  set_all o es = (Ok tt, o') -> put_all acc (int_items es) = Ok (mk_like acc o').
Proof.
  induction es as [|[k v] es IH]; intros acc o o' Ho F Fv E; cbn [int_items map put_all fst snd].
  - cbn [set_all] in E. injection E as <-. rewrite (like_same _ _ Ho). reflexivity.
  - cbn [dkeys map fst] in F. apply Forall_cons_iff in F as [Fk F]. apply Forall_cons_iff in Fv as [Fv0 Fv]. cbn [snd] in Fv0.
    cbn [set_all] in E. rewrite (put_holder _ _ _ _ Ho), jo_put_int by auto. rewrite (elem_solid v) by auto.
    destruct (jo_set o (PInt k) (Some v)) as [[u|e] o1]; [|discriminate]. cbn [bind].
    fold (int_items es). rewrite (IH (mk_like acc o1) o1 o'); auto; [|eapply holder_like; eauto]. f_equal. eapply like_like; eauto.
Qed.
Lemma put_strs ns : forall acc o, holder acc o -> Forall name_key (dkeys ns) -> Forall (fun p => solid (snd p)) ns ->
  NoDup (dkeys (jo_props o) ++ dkeys ns) ->
  put_all acc (str_items ns) = Ok (mk_like acc (mkObj (jo_arr o) (jo_props o ++ ns))).
Proof.
  induction ns as [|[s v] ns IH]; intros acc o Ho F Fv N; cbn [str_items map put_all fst snd].
  - rewrite app_nil_r. destruct o as [a p]. cbn [jo_arr jo_props]. rewrite (like_same _ _ Ho). reflexivity.
  - cbn [dkeys map fst] in F, N. apply Forall_cons_iff in F as [Fk F]. apply Forall_cons_iff in Fv as [Fv0 Fv]. cbn [snd] in Fv0.
    rewrite (put_holder _ _ _ _ Ho), jo_put_str by auto. rewrite (elem_solid v) by auto. cbn [bind].
    assert (Ns : ~ In s (dkeys (jo_props o))).
    { apply NoDup_remove_2 in N. intros C. apply N. apply in_or_app. auto. }
    rewrite (dset_fresh listN_eqb) by (apply (dget_None listN_eqb listN_eqb_spec); auto).
    set (o1 := mkObj (jo_arr o) (jo_props o ++ [(s, v)])).
    fold (str_items ns). rewrite (IH (mk_like acc o1) o1); auto.
    + f_equal. rewrite (like_like _ _ _ _ Ho). unfold o1. cbn [jo_arr jo_props]. rewrite <- app_assoc. reflexivity.
    + eapply holder_like; eauto.
    + unfold o1. cbn [jo_props]. rewrite (map_app fst (jo_props o) [(s, v)]), <- app_assoc. cbn [map fst app]. exact N.
Qed.
Lemma put_object es ns : Forall (fun k => 0 <= k < 2 ^ 32 - 1) (dkeys es) -> StronglySorted Z.lt (dkeys es) ->
  Forall (fun p => solid (snd p)) es -> Forall name_key (dkeys ns) -> NoDup (dkeys ns) -> Forall (fun p => solid (snd p)) ns ->
  exists y, put_all (OObject jo_empty) (int_items es ++ str_items ns) = Ok (OObject y) /\ arr_ok (jo_arr y) /\ last (aabs (jo_arr y)) (Some VUndef) <> None /\
    own_items y = int_items es ++ str_items ns.
Proof.
  intros F So Fe Fn Nn Fs. destruct (set_all_entries es F So) as (a & E & A & En & La).
  exists (mkObj a ns). rewrite put_all_app.
  rewrite (put_ints es (OObject jo_empty) jo_empty _ (or_introl eq_refl) F Fe E). cbn [bind mk_like].
  rewrite (put_strs ns _ (mkObj a []) (or_introl eq_refl)) by auto. cbn [mk_like jo_arr jo_props app]. split; auto. split; auto. split; auto.
  unfold own_items, named_items. cbn [jo_arr jo_props]. rewrite En. reflexivity.
Qed.
Lemma put_sparse n es ns : (Z.of_nat n <= 2 ^ 32 - 1) -> Forall (fun k => 0 <= k < Z.of_nat n) (dkeys es) -> StronglySorted Z.lt (dkeys es) ->
  Forall (fun p => solid (snd p)) es -> Forall name_key (dkeys ns) -> NoDup (dkeys ns) -> Forall (fun p => solid (snd p)) ns ->
  exists o y, (if (0 <? N.of_nat n)%N then put cfg (OArray jo_empty) (VInt (Z.of_N (N.of_nat n) - 1)) VHole else Ok (OArray jo_empty)) = Ok o /\
    put_all o (int_items es ++ str_items ns) = Ok (OArray y) /\ arr_ok (jo_arr y) /\ length (aabs (jo_arr y)) = n /\
    entries_from 0 (aabs (jo_arr y)) = es /\ jo_props y = ns.
Proof.
  intros Ln F So Fe Fn Nn Fs.
  assert (S0 : exists a, (if (0 <? N.of_nat n)%N then put cfg (OArray jo_empty) (VInt (Z.of_N (N.of_nat n) - 1)) VHole else Ok (OArray jo_empty))
                 = Ok (OArray (mkObj a [])) /\ arr_ok a /\ tidy a /\ aabs a = repeat None n).
  { destruct (0 <? N.of_nat n)%N eqn:C.
    - destruct (jo_set_int (@jo_empty val) (Z.of_N (N.of_nat n) - 1) None) as (a & E & A & Ti & L & G).
      + apply (proj1 (@rep_empty val)).
      + exact I.
      + lia.
      + intros _. unfold elem_at. destruct (_ <? 0); auto. cbn. destruct (Z.to_nat _); auto.
      + exists a. cbn [put]. rewrite jo_put_int by lia. cbn [elem_of]. rewrite E. cbn [bind]. split; auto. split; auto. split; auto.
        apply elem_at_ext.
        * rewrite L. unfold zlen. rewrite repeat_length. cbn. lia.
        * intros z. rewrite G. assert (R : forall z, elem_at (repeat (@None val) n) z = None).
          { intros z0. unfold elem_at. destruct (z0 <? 0); auto. destruct (nth_error (repeat None n) (Z.to_nat z0)) as [y|] eqn:Ny; auto.
            apply nth_error_In, repeat_spec in Ny. auto. }
          rewrite R. destruct (z =? _); auto. unfold elem_at. destruct (z <? 0); auto. cbn. destruct (Z.to_nat z); auto.
    - assert (n = O) as -> by lia. exists (ADense (dense_init [])). split; auto. split; [apply (proj1 (@rep_empty val))|]. split; [exact I|reflexivity]. }
  destruct S0 as (a0 & E0 & A0 & T0 & B0).
  destruct (set_all_sparse (mkObj a0 []) n es A0 T0 B0) as (a & E & A & L & En); auto.
  { eapply Forall_impl; [|exact F]. cbn. intros. lia. }
  exists (OArray (mkObj a0 [])), (mkObj a ns). split; auto. rewrite put_all_app.
  rewrite (put_ints es (OArray (mkObj a0 [])) (mkObj a0 []) (mkObj a []) (or_intror eq_refl)); auto.
  - cbn [bind mk_like]. rewrite (put_strs ns _ (mkObj a []) (or_intror eq_refl)) by auto. cbn [mk_like jo_arr jo_props app]. auto.
  - eapply Forall_impl; [|exact F]. cbn. intros. lia.
Qed.
Lemma put_elems l : forall o i, arr_ok (jo_arr o) -> tidy (jo_arr o) -> zlen (aabs (jo_arr o)) = Z.of_N i ->
  (Z.of_N i + zlen l <= 2 ^ 32 - 1) ->
  exists a, elems_all (OArray o) i l = Ok (OArray (mkObj a (jo_props o))) /\ arr_ok a /\ tidy a /\ aabs a = aabs (jo_arr o) ++ map elem_of l.
Proof.
  induction l as [|v l IH]; intros o i A Ti Li Ln; cbn [elems_all map].
  - exists (jo_arr o). destruct o as [a p]. rewrite app_nil_r. auto.
  - rewrite zlen_cons in Ln. pose proof (zlen_nonneg l) as P. cbn [put]. rewrite jo_put_int by lia. rewrite <- Li.
    destruct (jo_set_next o (elem_of v) A Ti) as (a1 & E1 & A1 & T1 & B1); [lia|]. rewrite E1. cbn [bind].
    destruct (IH (mkObj a1 (jo_props o)) (i + 1)%N A1 T1) as (a & E & A2 & T2 & B2).
    + cbn [jo_arr]. rewrite B1, zlen_app. unfold zlen at 2. cbn [length]. lia.
    + lia.
    + exists a. cbn [jo_arr jo_props] in *. split; auto. split; auto. split; auto. rewrite B2, B1, <- app_assoc. reflexivity.
Qed.
Lemma put_dense l ns : zlen l <= 2 ^ 32 - 1 -> Forall name_key (dkeys ns) -> NoDup (dkeys ns) -> Forall (fun p => solid (snd p)) ns ->
  exists a, elems_all (OArray jo_empty) 0 l = Ok (OArray (mkObj a [])) /\ arr_ok a /\ aabs a = map elem_of l /\
    put_all (OArray (mkObj a [])) (str_items ns) = Ok (OArray (mkObj a ns)).
Proof.
  intros L Fn Nn Fs. destruct (put_elems l (@jo_empty val) 0%N) as (a & E & A & _ & B); auto.
  - apply (proj1 (@rep_empty val)).
  - exact I.
  - exists a. split; auto. split; auto. split; auto. rewrite (put_strs ns _ (mkObj a []) (or_intror eq_refl)); auto.
Qed.
End Put.
