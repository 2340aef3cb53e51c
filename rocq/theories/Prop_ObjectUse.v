(** C64: an object's elements are one list of values and holes, whichever way they are reached. *)
From Coq Require Import List NArith ZArith Bool Lia ZifyBool ZifyNat ZifyN.
From Verif Require Import Base Dict SpecArray ModelArray ArrayFacts ArrayFacts3 ModelValue ValueFacts SpecKey KeyFacts SpecObject ModelObject
  ObjectFacts ArrayBuild SpecObjectUse ModelObjectUse ObjectUseFacts.
Import ListNotations.
Open Scope Z_scope.

(** The pairs [ps] with their keys normalised are [qs]. *)
Definition normalised {T} (float_repr : N -> list N) (ps : list (key * option T)) (qs : list (pkey * option T)) : Prop :=
  Forall2 (fun a b => normalise_property_key float_repr (fst a) = Ok (fst b) /\ snd a = snd b) ps qs.
Definition named_pairs {T} (kwargs : list (list N * option T)) : list (key * option T) :=
  map (fun p => (KStr (fst p), snd p)) kwargs.

Section Construct.
Context {T : Type}.
Variable float_repr : N -> list N.
Notation norm := (normalise_property_key float_repr).

Lemma update_ok ps (u u' : use T) st : stands u st -> use_update float_repr u ps = (Ok tt, u') ->
  exists qs, normalised float_repr ps qs /\ stands u' (store_all st qs).
Proof.
  intros S1 E. destruct (stands_update float_repr ps u st S1) as (r & u1 & st1 & E1 & S2 & O). rewrite E in E1. injection E1 as <- <-.
  destruct O as [(qs & _ & F & ->)|[(? & ? & ? & ? & ? & ? & X & _)|(? & ? & ? & ? & ? & ? & X & _)]]; try discriminate.
  exists qs. auto.
Qed.
Lemma values_ok (vs : list (option T)) : exists a, arr_extend (jo_arr (u_obj (fresh (T := T)))) vs = (Ok tt, a) /\
  stands (mkUse (mkObj a []) None) (mkUState vs [] None).
Proof.
  destruct (dense_init_spec (T := T) []) as [A _].
  destruct (dense_extend_spec vs (dense_init (T := T) []) A) as (d & E & A' & I).
  exists (ADense d). split; [exact E|]. unfold stands. cbn [u_obj u_left jo_arr jo_props elems named old left_ok arr_ok aabs is_dense].
  split; [exact A'|]. split; [rewrite I; reflexivity|]. auto.
Qed.

Lemma tidy_update ps : forall (u : use T) st, stands u st -> tidy (jo_arr (u_obj u)) ->
  (forall k v, In (k, v) ps -> v <> None /\ exists p, norm k = Ok p) ->
  exists u', use_update float_repr u ps = (Ok tt, u').
Proof.
  induction ps as [|[k v] ps IH]; intros u st S1 Ti H; cbn [use_update]; [eauto|].
  destruct (H k v (or_introl eq_refl)) as [V [p NK]]. rewrite NK.
  destruct (stands_set u st p v S1 (norm_pok float_repr k p NK)) as (r & u1 & E1 & S2 & _). rewrite E1.
  assert (r = Ok tt /\ tidy (jo_arr (u_obj u1))) as [-> Ti1].
  { unfold use_set in E1. destruct p as [s|z]; [cbn [jo_set] in E1; injection E1 as <- <-; auto|].
    destruct S1 as (A & _). destruct (jo_set_int (u_obj u) z v A Ti (norm_pok float_repr k _ NK)) as (a' & E & _ & T' & _); [congruence|].
    rewrite E in E1. injection E1 as <- <-. auto. }
  apply (IH u1 _ S2 Ti1). intros k' v' I. apply H. right. exact I.
Qed.
End Construct.

(** JSArray(values, **kwargs): exactly those elements and holes, then the keyword arguments as assignments.
    Every later operation acts on that one list and dict. *)
Theorem C64_array_of_values_partial : forall T float_repr (vs : list (option T)) kwargs u ops trace u',
  array_new float_repr (Values vs) kwargs = (Ok tt, u) -> use_ops float_repr u ops = (trace, u') ->
  map fst trace = ops /\
  exists qs final, normalised float_repr (named_pairs kwargs) qs /\
    uspecs (normalise_property_key float_repr) (store_all (mkUState vs [] None) qs) trace final.
Proof.
  intros T fr vs kw u ops tr u' E R. unfold array_new in E. destruct (values_ok vs) as (a & EA & S1). rewrite EA in E.
  destruct (update_ok fr _ _ _ _ S1 E) as (qs & F & S2). destruct (use_ops_ok fr ops u _ tr u' S2 R) as (M & st' & _ & U).
  split; [exact M|]. exists qs, st'. auto.
Qed.

(** JSArray(mapping, **kwargs) and JSObject(pairs, **kwargs): the assignments in order. *)
Theorem C64_array_of_pairs_partial : forall T float_repr (ps : list (key * option T)) kwargs u ops trace u',
  array_new float_repr (Pairs ps) kwargs = (Ok tt, u) -> use_ops float_repr u ops = (trace, u') ->
  map fst trace = ops /\
  exists qs final, normalised float_repr (ps ++ named_pairs kwargs) qs /\
    uspecs (normalise_property_key float_repr) (store_all (mkUState [] [] None) qs) trace final.
Proof.
  intros T fr ps kw u ops tr u' E R. unfold array_new in E.
  destruct (use_update fr fresh ps) as [[[]|e] u1] eqn:E1; [|discriminate].
  destruct (update_ok fr _ _ _ _ stands_fresh E1) as (q1 & F1 & S1). destruct (update_ok fr _ _ _ _ S1 E) as (q2 & F2 & S2).
  destruct (use_ops_ok fr ops u _ tr u' S2 R) as (M & st' & _ & U).
  split; [exact M|]. exists (q1 ++ q2), st'. split; [apply Forall2_app; auto|].
  assert (SA : forall q1 st, store_all (T := T) st (q1 ++ q2) = store_all (store_all st q1) q2).
  { clear. induction q1 as [|[k v] q1 IH]; intros st; cbn [app store_all]; auto. }
  rewrite SA. exact U.
Qed.
Theorem C64_object_partial : forall T float_repr (ps : list (key * option T)) kwargs u ops trace u',
  object_new float_repr ps kwargs = (Ok tt, u) -> use_ops float_repr u ops = (trace, u') ->
  map fst trace = ops /\
  exists qs final, normalised float_repr (ps ++ named_pairs kwargs) qs /\
    uspecs (normalise_property_key float_repr) (store_all (mkUState [] [] None) qs) trace final.
Proof.
  intros T fr ps kw u ops tr u' E R. apply (C64_array_of_pairs_partial T fr ps kw u ops tr u'); [|exact R].
  unfold object_new, array_new in *. destruct (use_update fr fresh ps) as [[[]|e] u1]; [|discriminate].
  destruct kw; exact E.
Qed.

(** The constructors raise nothing if the keys are fit for an object. *)
Theorem C64_constructors_return : forall T float_repr (ps : list (key * option T)) kwargs,
  (forall k v, In (k, v) (ps ++ named_pairs kwargs) -> v <> None /\ exists p, normalise_property_key float_repr k = Ok p) ->
  (exists u, object_new float_repr ps kwargs = (Ok tt, u)) /\
  (exists u, array_new float_repr (Pairs ps) kwargs = (Ok tt, u)) /\
  forall vs, exists u, array_new float_repr (Values vs) kwargs = (Ok tt, u).
Proof.
  intros T fr ps kw H.
  assert (Hk : forall k v, In (k, v) (named_pairs kw) -> v <> None /\ exists p, normalise_property_key fr k = Ok p).
  { intros k v I. apply H, in_or_app. auto. }
  assert (P : exists u, array_new fr (Pairs ps) kw = (Ok tt, u)).
  { unfold array_new. 
    assert (G : forall qs u st, stands (T := T) u st -> tidy (jo_arr (u_obj u)) ->
              (forall k v, In (k, v) (qs ++ named_pairs kw) -> v <> None /\ exists p, normalise_property_key fr k = Ok p) ->
              exists u', use_update fr u (qs ++ named_pairs kw) = (Ok tt, u')) by (intros; eapply tidy_update; eauto).
    destruct (G ps _ _ stands_fresh I H) as [u' E].
    assert (SP : forall qs u, use_update fr u (qs ++ named_pairs kw) =
               match use_update fr u qs with (Ok _, u) => use_update (T := T) fr u (named_pairs kw) | (Err e, u) => (Err e, u) end).
    { clear. induction qs as [|[k v] qs IH]; intros u; cbn [app use_update]; [reflexivity|].
      destruct (normalise_property_key fr k) as [p|]; [|reflexivity]. destruct (use_set u p v) as [[x|e] u1]; [apply IH|reflexivity]. }
    rewrite SP in E. destruct (use_update fr fresh ps) as [[x|e] u1]; [|discriminate]. exists u'. exact E. }
  split; [|split; [exact P|]].
  - destruct P as [u E]. exists u. unfold object_new, array_new in *. destruct (use_update fr fresh ps) as [[[]|e] u1]; [|discriminate].
    destruct kw; exact E.
  - intros vs. unfold array_new. destruct (values_ok (T := T) vs) as (a & EA & S1). rewrite EA.
    apply (tidy_update fr _ _ _ S1); [|exact Hk].
    destruct a as [d|s]; [exact I|]. destruct S1 as (_ & _ & _ & _ & D). discriminate.
Qed.

(** ** With integer keys below 15 there are no exceptions to it: one list, and references to .array stay good. *)
Definition near {T} (float_repr : N -> list N) (o : uop T) : Prop :=
  match o with
  | UKey (MSet k _) | UKey (MSetDefault k _) => forall z, normalise_property_key float_repr k = Ok (PInt z) -> z < 15
  | UKey (MUpdate ps) => forall k v z, In (k, v) ps -> normalise_property_key float_repr k = Ok (PInt z) -> z < 15
  | UElements (EGet _) => False
  | _ => True
  end.
Lemma store_near {T} (st : ustate T) p v : old st = None -> (forall z, p = PInt z -> z < 15) -> old (store st p v) = None.
Proof.
  intros O H. destruct p as [s|z]; [exact O|]. cbn [store old]. rewrite O. unfold far. specialize (H z eq_refl).
  replace (15 <=? z) with false by lia. rewrite andb_false_r. reflexivity.
Qed.
Lemma store_all_near {T} (qs : list (pkey * option T)) : forall st, old st = None -> (forall z v, In (PInt z, v) qs -> z < 15) ->
  old (store_all st qs) = None.
Proof.
  induction qs as [|[p v] qs IH]; intros st O H; cbn [store_all]; [exact O|]. apply IH.
  - apply store_near; [exact O|]. intros z ->. eapply H. left. reflexivity.
  - intros z w I. eapply H. right. exact I.
Qed.
Lemma normalised_near {T} fr (ps : list (key * option T)) qs : normalised fr ps qs ->
  (forall k v z, In (k, v) ps -> normalise_property_key fr k = Ok (PInt z) -> z < 15) -> forall z v, In (PInt z, v) qs -> z < 15.
Proof.
  intros F. induction F as [|[k v] [p w] ps qs [NK _] F IH]; intros H z x I; [destruct I|]. cbn [fst] in NK.
  destruct I as [[= -> ->]|I].
  - eapply H; [left; reflexivity|exact NK].
  - eapply IH; [|exact I]. intros. eapply H; [right; eassumption|assumption].
Qed.
Lemma near_step {T} fr (st : ustate T) o r st' : old st = None -> near fr o ->
  uspec (normalise_property_key fr) st o r st' \/ udeviation (normalise_property_key fr) st o r st' ->
  uspec (normalise_property_key fr) st o r st' /\ old st' = None.
Proof.
  intros O H [U|U].
  - split; [exact U|]. destruct U as [o r st' K|o r l K|o r l _ K|o r l l' K _|o r K|o r K]; cbn [with_elems old]; auto; [|congruence].
    destruct K; auto; try (rewrite ?vacate_old; exact O).
    + apply store_near; [exact O|]. cbn [near] in H. intros z ->. auto.
    + apply store_near; [exact O|]. cbn [near] in H. intros z ->. auto.
    + apply store_all_near; [exact O|]. eapply normalised_near; eauto.
    + apply store_all_near; [exact O|]. eapply normalised_near; [eassumption|]. intros k0 v0 z I. eapply H. apply in_or_app. eauto.
  - exfalso. destruct U as [o r st' OL K|o r l OL _|]; [|congruence|exact H].
    apply OL. destruct K; rewrite ?vacate_old, ?vacate_all_old; auto.
    + apply store_near; [exact O|]. cbn [near] in H. intros z ->. auto.
    + apply store_near; [exact O|]. cbn [near] in H. intros z ->. auto.
    + cbn [near] in H. apply store_near; [|intros z ->; eapply H; [apply in_or_app; right; left; reflexivity|assumption]].
      apply store_all_near; [exact O|]. eapply normalised_near; [eassumption|]. intros k0 v0 z I. eapply H. apply in_or_app. eauto.
Qed.
Lemma near_steps {T} fr tr : forall (st : ustate T) st', old st = None -> (forall o, In o (map fst tr) -> near fr o) ->
  uspecs (normalise_property_key fr) st tr st' -> one_array (normalise_property_key fr) st tr st'.
Proof.
  induction tr as [|[o r] tr IH]; intros st st' O H U; inversion U; subst.
  - constructor. exact O.
  - destruct (near_step fr st o r st1 O) as [U1 O1]; [apply H; left; reflexivity|assumption|].
    econstructor; [exact O|exact U1|]. apply IH; auto. intros o' I. apply H. right. exact I.
Qed.
Theorem C64_small_keys : forall T float_repr (vs : list (option T)) kwargs u ops trace u',
  (forall k v z, In (k, v) (named_pairs kwargs) -> normalise_property_key float_repr k = Ok (PInt z) -> z < 15) ->
  (forall o, In o ops -> near float_repr o) ->
  array_new float_repr (Values vs) kwargs = (Ok tt, u) -> use_ops float_repr u ops = (trace, u') ->
  exists qs final, normalised float_repr (named_pairs kwargs) qs /\
    one_array (normalise_property_key float_repr) (store_all (mkUState vs [] None) qs) trace final.
Proof.
  intros T fr vs kw u ops tr u' HK HO E R. destruct (C64_array_of_values_partial T fr vs kw u ops tr u' E R) as (M & qs & final & F & U).
  exists qs, final. split; [exact F|]. apply near_steps; [|rewrite M; exact HO|exact U].
  apply store_all_near; [reflexivity|]. eapply normalised_near; eauto.
Qed.

(** ** The length of .array, as JavaScript's Array.length *)
Definition made {T} (float_repr : N -> list N) (u : use T) : Prop :=
  exists u0, (exists src kwargs, array_new float_repr src kwargs = (Ok tt, u0)) /\ exists ops, u = snd (use_ops float_repr u0 ops).
Definition len_of {T} (float_repr : N -> list N) (u : use T) : Z :=
  match fst (use_op float_repr u (UArray OLen)) with RArray (RNum n) => n | _ => -1 end.
Lemma made_stands {T} fr (u : use T) : made fr u -> exists st, stands u st.
Proof.
  intros (u0 & (src & kw & E) & ops & ->). assert (exists st, stands u0 st) as [st S1].
  { destruct src as [ps|vs]; unfold array_new in E.
    - destruct (use_update fr fresh ps) as [[[]|e] u1] eqn:E1; [|discriminate].
      destruct (update_ok fr _ _ _ _ stands_fresh E1) as (q1 & F1 & S1). destruct (update_ok fr _ _ _ _ S1 E) as (q2 & F2 & S2). eauto.
    - destruct (values_ok vs) as (a & EA & S1). rewrite EA in E. destruct (update_ok fr _ _ _ _ S1 E) as (qs & F & S2). eauto. }
  destruct (use_ops fr u0 ops) as [tr u'] eqn:R. destruct (use_ops_ok fr ops u0 st tr u' S1 R) as (_ & st' & S2 & _). eauto.
Qed.
Lemma stands_len {T} fr (u : use T) st : stands u st -> len_of fr u = Z.of_nat (length (elems st)).
Proof. intros (A & E & _). unfold len_of. cbn. rewrite (arr_len_eq _ A), E. reflexivity. Qed.

Theorem C64_length : forall T float_repr (u : use T), made float_repr u ->
  (forall k z v, normalise_property_key float_repr k = Ok (PInt z) ->
     len_of float_repr (snd (use_op float_repr u (UKey (MSet k v)))) = Z.max (len_of float_repr u) (z + 1)) /\
  (forall k s v, normalise_property_key float_repr k = Ok (PStr s) ->
     len_of float_repr (snd (use_op float_repr u (UKey (MSet k v)))) = len_of float_repr u) /\
  (forall o, match o with MSet _ _ | MSetDefault _ _ | MUpdate _ => False | _ => True end ->
     len_of float_repr (snd (use_op float_repr u (UKey o))) = len_of float_repr u).
Proof.
  intros T fr u Mu. destruct (made_stands fr u Mu) as [st S1].
  assert (L0 := stands_len fr u st S1).
  assert (G : forall o, exists st', stands (snd (use_op fr u (UKey o))) st' /\
     (kspec (normalise_property_key fr) st o (fst (use_key fr u o)) st' \/ kdeviation (normalise_property_key fr) st o (fst (use_key fr u o)) st')).
  { intros o. cbn [use_op]. destruct (use_key fr u o) as [r u1] eqn:E. destruct (use_key_ok fr u st o r u1 S1 E) as (st' & S2 & K).
    exists st'. cbn [snd fst]. split; [exact S2|]. tauto. }
  assert (V : forall st k, lookup st k <> None -> length (elems (vacate (T := T) st k)) = length (elems st)).
  { clear. intros st [s|z] L; [reflexivity|]. cbn [vacate with_elems elems]. rewrite place_length. cbn [lookup] in L. unfold element in L.
    destruct (z <? 0) eqn:Z0; [congruence|]. destruct (nth_error (elems st) (Z.to_nat z)) eqn:NE; [|congruence].
    assert (Z.to_nat z < length (elems st))%nat by (apply nth_error_Some; congruence). lia. }
  assert (VK : forall st k ks, key_order st (k :: ks) -> length (elems (vacate (T := T) st k)) = length (elems st)).
  { intros s k ks KO. apply V. apply (keys_at_in s k). rewrite <- (key_order_unique s _ KO). left. reflexivity. }
  split; [|split].
  - intros k z v NK. destruct (G (MSet k v)) as (st' & S2 & K). rewrite (stands_len fr _ _ S2), L0.
    assert (P := norm_pok fr k _ NK). cbn [pok] in P.
    assert (X : st' = store st (PInt z) v).
    { destruct K as [K|K]; inversion K; subst; try congruence.
      match goal with H : _ \/ _ |- _ => destruct H as [H|[[? H]|[H|[H|[H|[? H]]]]]]; inversion H; subst; congruence end. }
    rewrite X. cbn [store elems]. rewrite place_length. lia.
  - intros k s v NK. destruct (G (MSet k v)) as (st' & S2 & K). rewrite (stands_len fr _ _ S2), L0.
    assert (X : st' = store st (PStr s) v).
    { destruct K as [K|K]; inversion K; subst; try congruence.
      match goal with H : _ \/ _ |- _ => destruct H as [H|[[? H]|[H|[H|[H|[? H]]]]]]; inversion H; subst; congruence end. }
    rewrite X. reflexivity.
  - intros o H. destruct (G o) as (st' & S2 & K). rewrite (stands_len fr _ _ S2), L0. f_equal.
    destruct K as [K|K]; destruct K; try (destruct H; fail); auto.
    + apply V. congruence.
    + apply V. congruence.
    + eapply VK; eauto.
    + cbn [elems]. apply map_length.
    + eapply VK; eauto.
    + clear - V VK H0. apply key_order_unique in H0. revert st H0. induction ks as [|x ks IH]; intros st KO.
      * cbn [app vacate_all fold_left]. cbn [app] in KO. apply (VK _ k rest). rewrite KO. apply keys_at_order.
      * cbn [app vacate_all fold_left]. unfold vacate_all in IH. rewrite IH.
        -- apply (VK _ x (ks ++ k :: rest)). cbn [app] in KO. rewrite KO. apply keys_at_order.
        -- cbn [app] in KO. symmetry. apply keys_at_vacate. auto.
Qed.

(** ** Where it fails *)
(** A reference to .array kept while the object is used by key stops being the object's array:
    ref = a.array; a[100] = 2; then len(ref) and len(a.array) differ. *)
Definition held_length (float_repr : N -> list N) (ops : list (uop Z)) : uresp Z * uresp Z :=
  let u := snd (use_ops float_repr (snd (array_new float_repr (Values [Some 1]) [])) ops) in
  (fst (use_op float_repr u (UHeld OLen)), fst (use_op float_repr u (UArray OLen))).
Theorem C64_held_refuted : exists ops : list (uop Z), forall float_repr,
  held_length float_repr [] = (RArray (RNum 1), RArray (RNum 1)) /\
  held_length float_repr ops = (RArray (RNum 1), RArray (RNum 101)).
Proof. exists [UKey (MSet (KInt 100) (Some 2))]. intros fr. split; vm_compute; reflexivity. Qed.

(** elements()[len(array)] raises IndexError instead of KeyError, for every object. *)
Theorem C64_elements_refuted : forall T float_repr (u : use T), made float_repr u ->
  fst (use_op float_repr u (UElements (EGet (len_of float_repr u)))) = RKey (MExn EIndex).
Proof.
  intros T fr u Mu. destruct (made_stands fr u Mu) as [st S1]. rewrite (stands_len fr u st S1).
  destruct S1 as (A & E & _). cbn [use_op use_elements fst]. unfold view_get.
  pose proof (arr_len_eq _ A) as L. unfold zlen in L. rewrite E in L. rewrite L.
  replace ((Z.of_nat (length (elems st)) <? 0) || (Z.of_nat (length (elems st)) <? Z.of_nat (length (elems st)))) with false by lia.
  pose proof (arr_get_spec (jo_arr (u_obj u)) (Z.of_nat (length (elems st))) A) as G. unfold position in G. rewrite E in G.
  replace ((0 <=? Z.of_nat (length (elems st))) && (Z.of_nat (length (elems st)) <? Z.of_nat (length (elems st)))) with false in G by lia.
  replace ((- Z.of_nat (length (elems st)) <=? Z.of_nat (length (elems st))) && (Z.of_nat (length (elems st)) <? 0)) with false in G by lia.
  rewrite G. reflexivity.
Qed.

(** JSArray([7, JSHole], x=9), used every way. *)
Example C64_case : forall float_repr,
  exists u, array_new float_repr (Values [Some 7; None]) [([120%N], Some 9)] = (Ok tt, u) /\
    made float_repr u /\
    map snd (fst (use_ops float_repr u [UArray OIter; UKey MIter; UHeld (OAppend (Some 8)); UKey (MGet (KInt 2)); UKey (MSet (KStr [53%N]) (Some 6));
       UArray OLen; UKey (MDel (KInt 0)); UElements EItems; UNamed NIter; UKey MClear; UHeld OIter])) =
    [RArray (RIter [Some 7; None]); RKey (MKeys [PInt 0; PStr [120%N]]); RArray RUnit; RKey (MVal 8); RKey MUnit;
     RArray (RNum 6); RKey MUnit; RItems [(2, 8); (5, 6)]; RKey (MKeys [PStr [120%N]]); RKey MUnit;
     RArray (RIter [None; None; None; None; None; None])].
Proof.
  intros fr. eexists. split; [vm_compute; reflexivity|]. split; [|vm_compute; reflexivity].
  eexists. split; [exists (Values [Some 7; None]), [([120%N], Some 9)]; vm_compute; reflexivity|]. exists []. reflexivity.
Qed.

Print Assumptions C64_array_of_values_partial.
Print Assumptions C64_array_of_pairs_partial.
Print Assumptions C64_object_partial.
Print Assumptions C64_constructors_return.
Print Assumptions C64_small_keys.
Print Assumptions C64_length.
Print Assumptions C64_held_refuted.
Print Assumptions C64_elements_refuted.
