(** Using an object by key and through its array acts on one list of values and holes. *)
From Coq Require Import List NArith ZArith Bool Lia ZifyBool ZifyNat ZifyN Sorting.Sorted.
From Verif Require Import Base Dict SpecArray ModelArray ArrayFacts ArrayFacts2 ArrayFacts3 ModelValue ValueFacts SpecObject ModelObject
  ObjectFacts ArrayBuild SpecObjectUse ModelObjectUse.
Import ListNotations.
Open Scope Z_scope.

Section Facts.
Context {T : Type}.
Notation holes := (list (option T)).

Lemma elem_at_ext (a b : holes) : length a = length b -> (forall z, elem_at a z = elem_at b z) -> a = b.
Proof.
  intros L E. apply nth_error_ext'. intros i. specialize (E (Z.of_nat i)). unfold elem_at in E.
  replace (Z.of_nat i <? 0) with false in E by lia. rewrite Nat2Z.id in E.
  destruct (nth_error a i) eqn:A, (nth_error b i) eqn:B; auto.
  - congruence.
  - apply nth_error_None in B. assert (i < length a)%nat by (apply nth_error_Some; congruence). lia.
  - apply nth_error_None in A. assert (i < length b)%nat by (apply nth_error_Some; congruence). lia.
Qed.
Lemma element_eq (l : holes) z : element l z = elem_at l z.
Proof. reflexivity. Qed.

Lemma place_in (l : holes) k v : (k < length l)%nat -> place l k v = firstn k l ++ v :: skipn (S k) l.
Proof. intros L. unfold place. replace (k - length l)%nat with 0%nat by lia. cbn [repeat]. rewrite app_nil_r. reflexivity. Qed.
Lemma place_out (l : holes) k v : (length l <= k)%nat -> place l k v = l ++ repeat None (k - length l) ++ [v].
Proof.
  intros L. unfold place. rewrite skipn_all2 by lia. rewrite firstn_all2; [rewrite <- app_assoc; reflexivity|].
  rewrite app_length, repeat_length. lia.
Qed.
Lemma place_grown (l : holes) k n v : (k < length l + n)%nat -> (length l <= k -> n = S k - length l)%nat ->
  (k < length l -> n = 0)%nat ->
  firstn k (l ++ repeat None n) ++ v :: skipn (S k) (l ++ repeat None n) = place l k v.
Proof.
  intros K A B. destruct (Nat.lt_ge_cases k (length l)) as [L|L].
  - rewrite (B L). cbn [repeat]. rewrite app_nil_r. symmetry. apply place_in. auto.
  - rewrite (A L), place_out by auto. rewrite (skipn_all2 (n := S k)) by (rewrite app_length, repeat_length; lia).
    replace (S k - length l)%nat with ((k - length l) + 1)%nat by lia. rewrite repeat_app, app_assoc.
    rewrite firstn_app, app_length, repeat_length.
    replace (k - (length l + (k - length l)))%nat with 0%nat by lia. cbn [firstn repeat]. rewrite app_nil_r.
    rewrite firstn_all2 by (rewrite app_length, repeat_length; lia). rewrite <- app_assoc. reflexivity.
Qed.
Lemma place_length (l : holes) k v : length (place l k v) = Nat.max (length l) (S k).
Proof.
  destruct (Nat.lt_ge_cases k (length l)) as [L|L].
  - rewrite place_in by auto. rewrite app_length. cbn [length]. rewrite firstn_length, skipn_length. lia.
  - rewrite place_out by auto. rewrite !app_length, repeat_length. cbn [length]. lia.
Qed.
Lemma place_elem (l : holes) k v z : elem_at (place l k v) z = if z =? Z.of_nat k then v else elem_at l z.
Proof.
  destruct (Nat.lt_ge_cases k (length l)) as [L|L].
  - rewrite place_in by auto. apply elem_at_replaced. auto.
  - pose proof (elem_at_replaced (l ++ repeat None (S k - length l)) k v z) as R.
    rewrite app_length, repeat_length in R. specialize (R ltac:(lia)). rewrite elem_at_grown in R. rewrite <- R. f_equal.
    symmetry. apply place_grown; lia.
Qed.

(** The list after making room and setting. *)
Lemma ensure_exact (a a' : arr T) k : arr_ok a -> 0 <= k < 2 ^ 32 - 1 -> ensure_array_capacity a k = (Ok tt, a') ->
  aabs a' = aabs a ++ repeat None (Z.to_nat (k + 1) - length (aabs a)) /\
  is_dense a' = is_dense a && negb (far (aabs a) k).
Proof.
  intros A K E. destruct (ensure_spec a k A K) as (a2 & E2 & A2 & L2 & G2 & _). rewrite E in E2. injection E2 as <-.
  destruct (ensure_len a k a' A K E) as [L _]. split.
  - apply elem_at_ext.
    + pose proof (arr_len_eq a A). pose proof (arr_len_eq a' A2). rewrite app_length, repeat_length. unfold zlen in *. lia.
    + intros z. rewrite G2, elem_at_grown. reflexivity.
  - pose proof (arr_len_eq a A) as LA. pose proof (arr_used_eq a A) as UA. clear L G2 L2.
    unfold ensure_array_capacity in E. unfold far. rewrite number_used_eq.
    destruct (k <? arr_len a) eqn:B.
    + injection E as <-. unfold zlen in LA. replace (Z.of_nat (length (aabs a)) <=? k) with false by lia.
      cbn [andb negb]. destruct (is_dense a); reflexivity.
    + unfold zlen in LA. replace (Z.of_nat (length (aabs a)) <=? k) with true by lia. cbn [andb].
      assert (RS : forall b, arr_resize a (k + 1) = (Ok tt, b) -> is_dense b = is_dense a).
      { intros b R. destruct a; cbn [arr_resize] in R; unfold lift in R; injection R as _ <-; reflexivity. }
      destruct a as [d|s]; [|rewrite (RS _ E); reflexivity].
      cbn [arr_used is_dense] in *. unfold MIN_SPARSE_ARRAY_SIZE in E.
      destruct ((16 <=? k + 1) && (4 * (d_used d + 1) <? k + 1)) eqn:SW.
      * destruct (view_items (ADense d)) as [[items|e] x]; [|discriminate].
        destruct (sparse_init_length items (k + 1)) as [s|e]; [|discriminate]. injection E as <-. cbn [is_dense]. lia.
      * rewrite (RS _ E). cbn [is_dense]. lia.
Qed.

Lemma set_exact (a : arr T) z v : arr_ok a -> 0 <= z < arr_len a ->
  exists r a', arr_set a z v = (r, a') /\ arr_ok a' /\ is_dense a' = is_dense a /\
    aabs a' = firstn (Z.to_nat z) (aabs a) ++ v :: skipn (S (Z.to_nat z)) (aabs a) /\
    (r = Ok tt \/ (r = Err EAssert /\ is_dense a = false /\ number_used (aabs a) <= 2)).
Proof.
  intros A B. destruct (arr_set_in a z v A B) as (r & a' & E & A' & D & L & G & O).
  exists r, a'. split; [exact E|]. split; [exact A'|]. split; [exact D|]. split.
  - pose proof (arr_len_eq a A). pose proof (arr_len_eq a' A'). unfold zlen in *.
    assert (Z.to_nat z < length (aabs a))%nat by lia. apply elem_at_ext.
    + rewrite app_length. cbn [length]. rewrite firstn_length, skipn_length. lia.
    + intros y. rewrite G, elem_at_replaced by auto. rewrite Z2Nat.id by lia. reflexivity.
  - rewrite number_used_eq, <- arr_used_eq by auto. exact O.
Qed.

(** * The object stands for a state of the specification *)
Definition left_ok (x : option (arr T)) (l : option holes) : Prop :=
  match x, l with
  | None, None => True
  | Some (ADense d), Some l => dense_ok d /\ d_items d = l
  | _, _ => False
  end.
Definition stands (u : use T) (st : ustate T) : Prop :=
  arr_ok (jo_arr (u_obj u)) /\ aabs (jo_arr (u_obj u)) = elems st /\ jo_props (u_obj u) = named st /\
  left_ok (u_left u) (old st) /\ is_dense (jo_arr (u_obj u)) = match old st with None => true | Some _ => false end.

Lemma stands_get u st p : stands u st -> jo_get (u_obj u) p = match lookup st p with Some v => Ok v | None => Err EKey end.
Proof.
  intros (A & E & P & _). destruct p as [s|z]; cbn [jo_get lookup].
  - rewrite P. reflexivity.
  - rewrite element_eq, <- E. destruct ((0 <=? z) && (z <? arr_len (jo_arr (u_obj u)))) eqn:B.
    + rewrite (arr_get_in _ z A) by lia. cbn [bind]. destruct (elem_at _ z); reflexivity.
    + rewrite (elem_at_out _ z A) by lia. reflexivity.
Qed.

(** What a change may answer *)
Definition answer (st st' : ustate T) (p : pkey) (r : result unit) : Prop :=
  r = Ok tt \/ (r = Err EAssert /\ scarce st p /\ old st' <> None).

Lemma number_used_grown (l : holes) n : number_used (l ++ repeat None n) = number_used l.
Proof. rewrite (number_used_eq (l ++ _)), (number_used_eq l), count_used_app, count_used_repeat. lia. Qed.

Lemma stands_set u st p v : stands u st -> pok p ->
  exists r u', use_set u p v = (r, u') /\ stands u' (store st p v) /\ answer st (store st p v) p r.
Proof.
  intros (A & E & P & L & D) K. unfold use_set. destruct p as [s|z]; cbn [jo_set pok] in *.
  - eexists _, _. split; [reflexivity|]. split; [|left; reflexivity].
    unfold stands, store, with_named. cbn [u_obj u_left jo_arr jo_props elems named old].
    split; [exact A|]. split; [exact E|]. split; [rewrite P; destruct v; reflexivity|]. split; [|exact D].
    unfold track. cbn [jo_arr]. destruct (jo_arr (u_obj u)); exact L.
  - destruct (ensure_spec _ z A K) as (a1 & E1 & A1 & L1 & _ & _). rewrite E1.
    destruct (ensure_exact _ a1 z A K E1) as [I1 D1].
    destruct (set_exact a1 z v A1 (conj (proj1 K) L1)) as (r & a2 & E2 & A2 & D2 & I2 & O2). rewrite E2.
    eexists r, _. split; [reflexivity|].
    assert (PL : aabs a2 = place (elems st) (Z.to_nat z) v).
    { rewrite I2, I1, E. pose proof (arr_len_eq a1 A1). unfold zlen in *. rewrite I1, E, app_length, repeat_length in H.
      apply place_grown; lia. }
    rewrite E in D1.
    assert (TL : left_ok (track (u_obj u) (mkObj a2 (jo_props (u_obj u))) (u_left u))
                   (match old st with None => if far (elems st) z then Some (elems st) else None | Some l => Some l end) /\
                 is_dense a2 = match (match old st with None => if far (elems st) z then Some (elems st) else None | Some l => Some l end)
                               with None => true | Some _ => false end).
    { unfold track. cbn [jo_arr]. destruct (jo_arr (u_obj u)) as [d|s] eqn:AE.
      - cbn [is_dense] in D. destruct (old st) as [l|]; [discriminate|]. cbn [is_dense] in *.
        destruct (far (elems st) z); cbn [andb negb] in D1; rewrite D1 in D2.
        + destruct a2; [discriminate|]. cbn [left_ok is_dense arr_ok aabs] in *. auto.
        + destruct a2; [|discriminate]. auto.
      - cbn [is_dense] in D. destruct (old st) as [l|]; [|discriminate]. cbn [is_dense andb] in *.
        split; [destruct a2; exact L|congruence]. }
    destruct TL as [TL TD]. split.
    + unfold stands, store. cbn [u_obj u_left jo_arr jo_props elems named old].
      split; [exact A2|]. split; [exact PL|]. split; [exact P|]. split; [exact TL|exact TD].
    + destruct O2 as [->|[-> [ND U]]]; [left; reflexivity|right]. split; [reflexivity|]. split.
      * split; [eauto|]. rewrite I1, E, number_used_grown in U. exact U.
      * unfold store. cbn [old]. intros X. rewrite X in TD. congruence.
Qed.

Lemma stands_update float_repr ps : forall u st, stands u st ->
  exists r u' st', use_update float_repr u ps = (r, u') /\ stands u' st' /\
    ((exists qs, r = Ok tt /\ Forall2 (fun a b => normalise_property_key float_repr (fst a) = Ok (fst b) /\ snd a = snd b) ps qs /\
        st' = store_all st qs) \/
     (exists ps1 qs k v rest e, r = Err e /\ ps = ps1 ++ (k, v) :: rest /\ normalise_property_key float_repr k = Err e /\
        Forall2 (fun a b => normalise_property_key float_repr (fst a) = Ok (fst b) /\ snd a = snd b) ps1 qs /\ st' = store_all st qs) \/
     (exists ps1 qs k p v rest, r = Err EAssert /\ ps = ps1 ++ (k, v) :: rest /\ normalise_property_key float_repr k = Ok p /\
        Forall2 (fun a b => normalise_property_key float_repr (fst a) = Ok (fst b) /\ snd a = snd b) ps1 qs /\
        scarce (store_all st qs) p /\ st' = store (store_all st qs) p v /\ old st' <> None)).
Proof.
  induction ps as [|[k v] ps IH]; intros u st S1; cbn [use_update].
  - exists (Ok tt), u, st. split; [reflexivity|]. split; [exact S1|]. left. exists []. split; [reflexivity|]. split; [constructor|reflexivity].
  - destruct (normalise_property_key float_repr k) as [p|e] eqn:NK.
    + destruct (stands_set u st p v S1 (norm_pok float_repr k p NK)) as (r1 & u1 & E1 & S2 & O1). rewrite E1.
      destruct O1 as [->|(-> & SC & OL)].
      * destruct (IH u1 (store st p v) S2) as (r & u' & st' & E & S' & O). rewrite E. exists r, u', st'.
        split; [reflexivity|]. split; [exact S'|].
        destruct O as [(qs & -> & F & ->)|[(ps1 & qs & k1 & v1 & rest & e & -> & -> & NE & F & ->)|
                        (ps1 & qs & k1 & p1 & v1 & rest & -> & -> & NE & F & SC & ES & OL)]].
        -- left. exists ((p, v) :: qs). split; [reflexivity|]. split; [constructor; auto|reflexivity].
        -- right; left. exists ((k, v) :: ps1), ((p, v) :: qs), k1, v1, rest, e.
           split; [reflexivity|]. split; [reflexivity|]. split; [exact NE|]. split; [constructor; auto|reflexivity].
        -- right; right. exists ((k, v) :: ps1), ((p, v) :: qs), k1, p1, v1, rest.
           split; [reflexivity|]. split; [reflexivity|]. split; [exact NE|]. split; [constructor; auto|].
           split; [exact SC|]. split; [exact ES|exact OL].
      * exists (Err EAssert), u1, (store st p v). split; [reflexivity|]. split; [exact S2|]. right; right.
        exists [], [], k, p, v, ps. split; [reflexivity|]. split; [reflexivity|]. split; [exact NK|]. split; [constructor|].
        split; [exact SC|]. split; [reflexivity|exact OL].
    + exists (Err e), u, st. split; [reflexivity|]. split; [exact S1|]. right; left.
      exists [], [], k, v, ps, e. split; [reflexivity|]. split; [reflexivity|]. split; [exact NK|]. split; [constructor|reflexivity].
Qed.

(** Deleting: [track] keeps the references because the array is not replaced. *)
Lemma track_same (o o' : jsobj T) l : is_dense (jo_arr o') = is_dense (jo_arr o) -> track o o' l = l.
Proof. unfold track. destruct (jo_arr o), (jo_arr o'); cbn [is_dense]; auto; discriminate. Qed.

Definition stood (u : use T) (o : jsobj T) : use T := mkUse o (u_left u).

Lemma stands_del u st p : stands u st -> (match p with PInt z => 0 <= z | PStr _ => True end) ->
  match lookup st p with
  | Some _ => exists r o', jo_del (u_obj u) p = (r, o') /\ is_dense (jo_arr o') = is_dense (jo_arr (u_obj u)) /\
      stands (stood u o') (vacate st p) /\ answer st (vacate st p) p r
  | None => jo_del (u_obj u) p = (Err EKey, u_obj u)
  end.
Proof.
  intros (A & E & P & L & D) K. destruct p as [s|z]; cbn [lookup jo_del vacate].
  - rewrite P. unfold dmem. destruct (dget listN_eqb s (named st)) eqn:G; [|reflexivity].
    eexists _, _. split; [reflexivity|]. split; [reflexivity|]. split; [|left; reflexivity].
    unfold stands, stood, with_named. cbn [u_obj u_left jo_arr jo_props elems named old]. auto.
  - rewrite element_eq, <- E. destruct (z <? arr_len (jo_arr (u_obj u))) eqn:B.
    + rewrite (arr_get_in _ z A) by lia. destruct (elem_at _ z) as [w|] eqn:G; [|reflexivity].
      destruct (set_exact _ z None A ltac:(lia)) as (r & a2 & E2 & A2 & D2 & I2 & O2). rewrite E2.
      exists r. eexists. split; [reflexivity|]. cbn [jo_arr]. split; [exact D2|]. split.
      * unfold stands, stood, with_elems. cbn [u_obj u_left jo_arr jo_props elems named old].
        split; [exact A2|]. split; [|split; [exact P|split; [exact L|congruence]]].
        rewrite I2, E. symmetry. apply place_in. pose proof (arr_len_eq _ A). unfold zlen in *. rewrite E in H. lia.
      * destruct O2 as [->|[-> [ND U]]]; [left; reflexivity|right]. split; [reflexivity|]. split.
        -- split; [eauto|]. rewrite <- E. exact U.
        -- unfold with_elems. cbn [old]. intros X. rewrite X in D. congruence.
    + rewrite (elem_at_out _ z A) by lia. reflexivity.
Qed.

Lemma indexes_dense (a : arr T) l a' : arr_indexes a = (l, a') -> is_dense a' = is_dense a.
Proof. destruct a as [d|s]; cbn [arr_indexes]; [congruence|]. destruct (sparse_indexes s). intros [= _ <-]. reflexivity. Qed.

Definition keys_at (st : ustate T) : list pkey := map PInt (indexes_from 0 (elems st)) ++ map PStr (map fst (named st)).
Lemma keys_at_order st : key_order st (keys_at st).
Proof.
  exists (indexes_from 0 (elems st)). split; [apply ascending_of_indexes|]. split; [|reflexivity].
  intros i. apply indexes_occupied.
Qed.
Lemma key_order_unique st ks : key_order st ks -> ks = keys_at st.
Proof.
  intros (ix & A & I & ->). unfold keys_at. f_equal. f_equal. apply ssorted_unique.
  - apply ssorted_ascending. exact A.
  - apply indexes_from_sorted.
  - intros x. rewrite I. symmetry. apply indexes_occupied.
Qed.
Lemma stands_iter u st : stands u st ->
  exists o', jo_iter (u_obj u) = (keys_at st, o') /\ is_dense (jo_arr o') = is_dense (jo_arr (u_obj u)) /\ stands (stood u o') st.
Proof.
  intros (A & E & P & L & D). unfold jo_iter. destruct (arr_indexes_spec _ A) as [a' [EI [A' B']]]. rewrite EI.
  eexists. split; [unfold keys_at; rewrite E, P; reflexivity|]. cbn [jo_arr]. split; [apply (indexes_dense _ _ _ EI)|].
  unfold stands, stood. cbn [u_obj u_left jo_arr jo_props]. rewrite (indexes_dense _ _ _ EI). rewrite B'. auto.
Qed.

(** The first key is present, and removing it leaves the others in order. *)
Lemma elem_index (l : holes) i : In i (indexes_from 0 l) <-> elem_at l i <> None /\ 0 <= i.
Proof.
  rewrite indexes_occupied. unfold occupied, elem_at. split.
  - intros (v & I & N). replace (i <? 0) with false by lia. rewrite N. split; [congruence|lia].
  - intros [N I]. replace (i <? 0) with false in N by lia. destruct (nth_error l (Z.to_nat i)) as [[v|]|]; eauto; congruence.
Qed.
Lemma keys_at_in st k : In k (keys_at st) -> lookup st k <> None /\ (match k with PInt z => 0 <= z | PStr _ => True end).
Proof.
  unfold keys_at. rewrite in_app_iff, !in_map_iff. intros [(z & <- & I)|(s & <- & I)]; cbn [lookup].
  - rewrite element_eq. apply elem_index in I. exact I.
  - split; [|exact Logic.I]. apply in_map_iff in I as ([s' v] & <- & I). cbn [fst].
    intros G. apply (dget_None listN_eqb listN_eqb_spec) in G. apply G. apply (in_map fst) in I. exact I.
Qed.
Lemma keys_at_vacate st k ks : keys_at st = k :: ks -> keys_at (vacate st k) = ks.
Proof.
  unfold keys_at. destruct (indexes_from 0 (elems st)) as [|z ix] eqn:IX.
  - cbn [map app]. destruct (named st) as [|[s v] nm] eqn:NM; [discriminate|]. cbn [map fst]. intros [= <- <-].
    cbn [vacate with_named elems named]. rewrite IX, NM. cbn [ddel fst].
    replace (listN_eqb s s) with true by (symmetry; apply listN_eqb_spec; reflexivity). reflexivity.
  - cbn [map app]. intros [= <- <-]. cbn [vacate with_elems elems named]. f_equal. f_equal.
    pose proof (indexes_from_sorted (elems st) 0) as SS. rewrite IX in SS.
    assert (Z0 : 0 <= z). { apply (elem_index (elems st)). rewrite IX. left. reflexivity. }
    apply ssorted_unique; [apply indexes_from_sorted|inversion SS; assumption|].
    intros x. rewrite elem_index, place_elem, Z2Nat.id by lia.
    assert (Q : In x (indexes_from 0 (elems st)) <-> elem_at (elems st) x <> None /\ 0 <= x) by apply elem_index.
    rewrite IX in Q. cbn [In] in Q. inversion SS as [|? ? SI FI]; subst.
    destruct (x =? z) eqn:XZ.
    + assert (x = z) by lia. subst x. split; [tauto|]. intros I. rewrite Forall_forall in FI. specialize (FI z I). lia.
    + rewrite <- Q. split; [intros [W|W]; [lia|exact W]|auto].
Qed.
Lemma keys_at_length st : Z.of_nat (length (keys_at st)) = number_used (elems st) + Z.of_nat (length (named st)).
Proof.
  unfold keys_at. rewrite app_length, !map_length, number_used_eq, <- (indexes_from_length (elems st) 0). unfold zlen. lia.
Qed.

Lemma stands_popitem u st : stands u st ->
  match keys_at st with
  | [] => exists o', jo_popitem (u_obj u) = (Err EKey, o') /\ is_dense (jo_arr o') = is_dense (jo_arr (u_obj u)) /\ stands (stood u o') st
  | k :: ks => exists v r o', lookup st k = Some v /\ jo_popitem (u_obj u) = (r, o') /\
      is_dense (jo_arr o') = is_dense (jo_arr (u_obj u)) /\ stands (stood u o') (vacate st k) /\
      (r = Ok (k, v) \/ (r = Err EAssert /\ scarce st k /\ old (vacate st k) <> None))
  end.
Proof.
  intros S1. destruct (stands_iter u st S1) as (o1 & E1 & D1 & S2). unfold jo_popitem. rewrite E1.
  destruct (keys_at st) as [|k ks] eqn:KA; [eauto|].
  destruct (keys_at_in st k) as [LK PK]; [rewrite KA; left; reflexivity|].
  pose proof (stands_get _ st k S2) as G. cbn [stood u_obj] in G. rewrite G.
  pose proof (stands_del _ st k S2 PK) as DL. cbn [stood u_obj u_left] in DL.
  destruct (lookup st k) as [v|]; [|congruence].
  destruct DL as (r & o2 & E2 & D2 & S3 & O2). rewrite E2. exists v. unfold stood in *. cbn [u_left] in S3.
  destruct O2 as [->|(-> & SC & OL)].
  - exists (Ok (k, v)), o2. repeat (split; [auto; congruence|]). auto.
  - exists (Err EAssert), o2. repeat (split; [auto; congruence|]). auto.
Qed.

Lemma vacate_old (st : ustate T) k : old (vacate st k) = old st.
Proof. destruct k; reflexivity. Qed.
Lemma vacate_all_old ks : forall st : ustate T, old (vacate_all st ks) = old st.
Proof. induction ks as [|k ks IH]; intros st; cbn; auto. unfold vacate_all in IH. rewrite IH. apply vacate_old. Qed.

Lemma keys_at_nil st : keys_at st = [] -> elems st = map (fun _ => None) (elems st) /\ named st = [].
Proof.
  intros E. unfold keys_at in E. apply app_eq_nil in E as [E1 E2]. split.
  - apply map_eq_nil in E1. assert (forall i, ~ occupied (elems st) i) as NO.
    { intros i O. apply indexes_occupied in O. rewrite E1 in O. exact O. }
    apply nth_error_ext'. intros i. rewrite nth_error_map.
    destruct (nth_error (elems st) i) as [[v|]|] eqn:G; auto. exfalso. apply (NO (Z.of_nat i)). exists v.
    rewrite Nat2Z.id. split; [lia|exact G].
  - apply map_eq_nil, map_eq_nil in E2. exact E2.
Qed.
Lemma vacated_shape st k : In k (keys_at st) ->
  map (fun _ : option T => @None T) (elems (vacate st k)) = map (fun _ => None) (elems st).
Proof.
  intros I. destruct k as [s|z]; [reflexivity|]. cbn [vacate with_elems elems].
  assert (B : 0 <= z < Z.of_nat (length (elems st))).
  { unfold keys_at in I. rewrite in_app_iff, !in_map_iff in I. destruct I as [(y & [= <-] & I)|(s & ? & _)]; [|discriminate].
    apply indexes_occupied in I as (v & P & N). assert (Z.to_nat y < length (elems st))%nat by (apply nth_error_Some; congruence). lia. }
  apply nth_error_ext'. intros i. rewrite !nth_error_map, place_in, nth_error_replaced by lia.
  destruct (Nat.eqb_spec i (Z.to_nat z)) as [->|]; [|reflexivity].
  destruct (nth_error (elems st) (Z.to_nat z)) eqn:G; [reflexivity|]. apply nth_error_None in G. lia.
Qed.

Lemma stands_clear fuel : forall u st, stands u st -> (length (keys_at st) < fuel)%nat ->
  exists r o', jo_clear fuel (u_obj u) = (r, o') /\ is_dense (jo_arr o') = is_dense (jo_arr (u_obj u)) /\
    ((r = Ok tt /\ stands (stood u o') (mkUState (map (fun _ => None) (elems st)) [] (old st))) \/
     (r = Err EAssert /\ old st <> None /\ exists ks k rest, keys_at st = ks ++ k :: rest /\ scarce (vacate_all st ks) k /\
        stands (stood u o') (vacate_all st (ks ++ [k])))).
Proof.
  induction fuel as [|fuel IH]; intros u st S1 L; [lia|]. cbn [jo_clear].
  pose proof (stands_popitem u st S1) as PI. destruct (keys_at st) as [|k ks] eqn:KA.
  - destruct PI as (o1 & E1 & D1 & S2). rewrite E1. exists (Ok tt), o1. split; [reflexivity|]. split; [exact D1|]. left.
    split; [reflexivity|]. destruct (keys_at_nil st KA) as [X Y]. rewrite <- X, <- Y. destruct st. exact S2.
  - destruct PI as (v & r1 & o1 & LK & E1 & D1 & S2 & O1). rewrite E1. destruct O1 as [->|(-> & SC & OL)].
    + destruct (IH _ _ S2) as (r & o2 & E2 & D2 & O2).
      { rewrite (keys_at_vacate st k ks KA). cbn [length] in L. lia. }
      cbn [stood u_obj u_left] in E2, D2, O2. rewrite E2. exists r, o2. split; [reflexivity|]. split; [congruence|].
      destruct O2 as [[-> S3]|(-> & OL & ks1 & k1 & rest & KS & SC & S3)].
      * left. split; [reflexivity|]. rewrite vacated_shape, vacate_old in S3 by (rewrite KA; left; reflexivity). exact S3.
      * right. split; [reflexivity|]. rewrite vacate_old in OL. split; [exact OL|].
        exists (k :: ks1), k1, rest. rewrite (keys_at_vacate st k ks KA) in KS. split; [rewrite KS; reflexivity|].
        split; [exact SC|exact S3].
    + exists (Err EAssert), o1. split; [reflexivity|]. split; [exact D1|]. right. split; [reflexivity|].
      rewrite vacate_old in OL. split; [exact OL|]. exists [], k, ks. split; [reflexivity|]. split; [exact SC|exact S2].
Qed.

Section Ops.
Variable float_repr : N -> list N.
Notation norm := (normalise_property_key float_repr).

Lemma stands_same (u : use T) st : stands u st -> stands (mkUse (u_obj u) (track (u_obj u) (u_obj u) (u_left u))) st.
Proof. intros S1. rewrite track_same by reflexivity. destruct u. exact S1. Qed.
Lemma stands_moved (u : use T) o st : is_dense (jo_arr o) = is_dense (jo_arr (u_obj u)) -> stands (stood u o) st ->
  stands (mkUse o (track (u_obj u) o (u_left u))) st.
Proof. intros D S1. rewrite track_same by exact D. exact S1. Qed.

Lemma use_key_ok u st op r u' : stands u st -> use_key float_repr u op = (r, u') ->
  exists st', stands u' st' /\ (kspec norm st op r st' \/ (kdeviation norm st op r st' /\ old st' <> None)).
Proof.
  intros S1 E. pose proof (stands_same u st S1) as S0.
  destruct op as [k|k v|k|k| | |k|k v|ps| |]; cbn [use_key jo_op] in E.
  - unfold with_key in E. destruct (norm k) as [p|e] eqn:NK.
    + rewrite (stands_get u st p S1) in E. unfold val_mresp in E.
      destruct (lookup st p) eqn:G; injection E as <- <-; exists st; split; auto; left; [eapply ks_get|eapply ks_get_missing]; eauto.
    + injection E as <- <-. exists st. split; auto. left. eapply ks_bad_key; eauto.
  - unfold with_key in E. destruct (norm k) as [p|e] eqn:NK.
    + destruct (stands_set u st p v S1 (norm_pok float_repr k p NK)) as (r1 & u1 & E1 & S2 & O1).
      unfold use_set in E1. destruct (jo_set (u_obj u) p v) as [r2 o2]. injection E1 as -> <-.
      unfold unit_mresp in E. destruct O1 as [->|(-> & SC & OL)]; injection E as <- <-; exists (store st p v); split; auto.
      * left. eapply ks_set; eauto.
      * right. split; [eapply kd_set; eauto|exact OL].
    + injection E as <- <-. exists st. split; auto. left. eapply ks_bad_key; eauto.
  - unfold with_key in E. destruct (norm k) as [p|e] eqn:NK.
    + pose proof (stands_del u st p S1 (norm_nonneg float_repr k p NK)) as DL. destruct (lookup st p) as [v|] eqn:G.
      * destruct DL as (r2 & o2 & E2 & D2 & S2 & O2). rewrite E2 in E. unfold unit_mresp in E.
        destruct O2 as [->|(-> & SC & OL)]; injection E as <- <-; exists (vacate st p); (split; [apply stands_moved; auto|]).
        -- left. eapply ks_del; eauto.
        -- right. split; [eapply kd_del; eauto; congruence|exact OL].
      * rewrite DL in E. unfold unit_mresp in E. injection E as <- <-. exists st. split; auto. left. eapply ks_del_missing; eauto.
    + injection E as <- <-. exists st. split; auto. left. eapply ks_bad_key; eauto.
  - unfold with_key in E. destruct (norm k) as [p|e] eqn:NK.
    + unfold jo_contains in E. rewrite (stands_get u st p S1) in E.
      assert (r = MBool (match lookup st p with Some _ => true | None => false end) /\ u' = mkUse (u_obj u) (track (u_obj u) (u_obj u) (u_left u)))
        as [-> ->] by (destruct (lookup st p); injection E as <- <-; auto).
      exists st. split; auto. left. eapply ks_contains; eauto.
    + injection E as <- <-. exists st. split; auto. left. eapply ks_bad_key; eauto 7.
  - injection E as <- <-. exists st. split; auto. left. unfold jo_len. destruct S1 as (A & EL & P & _).
    rewrite P, (arr_used_eq _ A), EL, <- number_used_eq. apply ks_len.
  - destruct (stands_iter u st S1) as (o1 & E1 & D1 & S2). rewrite E1 in E. injection E as <- <-. exists st.
    split; [apply stands_moved; auto|]. left. apply ks_iter, keys_at_order.
  - unfold with_key in E. destruct (norm k) as [p|e] eqn:NK.
    + unfold jo_pop in E. rewrite (stands_get u st p S1) in E.
      pose proof (stands_del u st p S1 (norm_nonneg float_repr k p NK)) as DL. destruct (lookup st p) as [v|] eqn:G.
      * destruct DL as (r2 & o2 & E2 & D2 & S2 & O2). rewrite E2 in E. unfold val_mresp in E.
        destruct O2 as [->|(-> & SC & OL)]; injection E as <- <-; exists (vacate st p); (split; [apply stands_moved; auto|]).
        -- left. eapply ks_pop; eauto.
        -- right. split; [eapply kd_pop; eauto; congruence|exact OL].
      * unfold val_mresp in E. injection E as <- <-. exists st. split; auto. left. eapply ks_pop_missing; eauto.
    + injection E as <- <-. exists st. split; auto. left. eapply ks_bad_key; eauto 8.
  - unfold with_key in E. destruct (norm k) as [p|e] eqn:NK.
    + unfold jo_setdefault in E. rewrite (stands_get u st p S1) in E. destruct (lookup st p) as [w|] eqn:G.
      * unfold val_mresp in E. injection E as <- <-. exists st. split; auto. left. eapply ks_setdefault; eauto.
      * destruct (stands_set u st p (Some v) S1 (norm_pok float_repr k p NK)) as (r1 & u1 & E1 & S2 & O1).
        unfold use_set in E1. destruct (jo_set (u_obj u) p (Some v)) as [r2 o2]. injection E1 as -> <-.
        unfold val_mresp in E. destruct O1 as [->|(-> & SC & OL)]; injection E as <- <-; exists (store st p (Some v)); split; auto.
        -- left. eapply ks_setdefault_missing; eauto.
        -- right. split; [eapply kd_setdefault; eauto|exact OL].
    + injection E as <- <-. exists st. split; auto. left. eapply ks_bad_key; eauto 9.
  - destruct (stands_update float_repr ps u st S1) as (r1 & u1 & st1 & E1 & S2 & O1). rewrite E1 in E.
    destruct O1 as [(qs & -> & F & ->)|[(ps1 & qs & k1 & v1 & rest & e & -> & -> & NE & F & ->)|
                        (ps1 & qs & k1 & p1 & v1 & rest & -> & -> & NE & F & SC & -> & OL)]];
      injection E as <- <-; eexists; split; eauto.
    + left. apply ks_update; auto.
    + left. apply ks_update_bad_key; auto.
    + right. split; [apply kd_update; auto|exact OL].
  - pose proof (stands_popitem u st S1) as PI. pose proof (keys_at_order st) as KO. destruct (keys_at st) as [|k ks] eqn:KA.
    + destruct PI as (o1 & E1 & D1 & S2). rewrite E1 in E. injection E as <- <-. exists st.
      split; [apply stands_moved; auto|]. left. apply ks_popitem_empty. exact KO.
    + destruct PI as (v & r1 & o1 & LK & E1 & D1 & S2 & O1). rewrite E1 in E.
      destruct O1 as [->|(-> & SC & OL)]; injection E as <- <-; exists (vacate st k); (split; [apply stands_moved; auto|]).
      * left. eapply ks_popitem; eauto.
      * right. split; [eapply kd_popitem; eauto|exact OL].
  - destruct (stands_clear (S (Z.to_nat (jo_len (u_obj u)))) u st S1) as (r1 & o1 & E1 & D1 & O1).
    { pose proof (keys_at_length st). unfold jo_len. destruct S1 as (A & EL & P & _).
      rewrite P, (arr_used_eq _ A), EL, <- number_used_eq. unfold zlen. lia. }
    rewrite E1 in E. unfold unit_mresp in E.
    destruct O1 as [[-> S2]|(-> & OL & ks & k & rest & KS & SC & S2)]; injection E as <- <-; eexists; (split; [apply stands_moved; eauto|]).
    + left. apply ks_clear.
    + right. split; [|rewrite vacate_all_old; exact OL]. eapply kd_clear; [|exact SC]. rewrite <- KS. apply keys_at_order.
Qed.

Lemma arr_op_ok (a : arr T) op r a' : arr_ok a -> arr_op a op = (r, a') ->
  arr_ok a' /\ is_dense a' = is_dense a /\
  (spec_op (aabs a) op r (aabs a') \/ (is_dense a = false /\ sparse_deviation (aabs a) op r (aabs a'))).
Proof.
  intros A E. destruct a as [d|s].
  - destruct (dense_op_refines d op r a' A E) as (d' & -> & A' & R). split; [exact A'|]. split; [reflexivity|]. left. exact R.
  - destruct (sparse_op_refines s op r a' A E) as (s' & -> & A' & R). split; [exact A'|]. split; [reflexivity|].
    destruct R as [R|R]; [left; exact R|right; split; [reflexivity|exact R]].
Qed.
Lemma use_array_ok u st op r u' : stands u st -> use_array u op = (r, u') ->
  exists l, stands u' (with_elems st l) /\ (spec_op (elems st) op r l \/ (old st <> None /\ sparse_deviation (elems st) op r l)).
Proof.
  intros (A & E & P & L & D) X. unfold use_array in X. destruct (arr_op (jo_arr (u_obj u)) op) as [r1 a1] eqn:EA. injection X as -> <-.
  destruct (arr_op_ok _ op r a1 A EA) as (A1 & D1 & O). rewrite E in O. exists (aabs a1). split.
  - unfold stands, with_elems. cbn [u_obj u_left jo_arr jo_props elems named old]. rewrite D1. auto.
  - destruct O as [O|[ND O]]; [left; exact O|right]. split; [|exact O]. intros X. rewrite X in D. congruence.
Qed.
Lemma use_held_ok u st op r u' : stands u st -> use_held u op = (r, u') ->
  exists st', stands u' st' /\ uspec norm st (UHeld op) (RArray r) st'.
Proof.
  intros S1 X. unfold use_held in X. destruct (u_left u) as [a|] eqn:LE.
  - destruct S1 as (A & E & P & L & D). rewrite LE in L. destruct a as [d|s]; [|destruct (old st); destruct L].
    destruct (old st) as [l|] eqn:OE; [|destruct L]. destruct L as [DO DI].
    destruct (arr_op (ADense d) op) as [r1 a1] eqn:EA. injection X as -> <-.
    destruct (dense_op_refines d op r a1 DO EA) as (d' & -> & A' & R). rewrite DI in R.
    eexists. split; [|eapply us_left; eauto]. unfold stands. cbn [u_obj u_left elems named old left_ok]. auto 10.
  - destruct (use_array_ok u st op r u' S1 X) as (l & S2 & O).
    assert (old st = None) as OE. { destruct S1 as (_ & _ & _ & L & _). rewrite LE in L. destruct (old st); [destruct L|reflexivity]. }
    destruct O as [O|[ND _]]; [|congruence]. exists (with_elems st l). split; [exact S2|]. apply us_held; auto.
Qed.
Lemma view_items_dense (a : arr T) r a' : view_items a = (r, a') -> is_dense a' = is_dense a.
Proof. unfold view_items. destruct (arr_indexes a) as [ks b] eqn:E. intros [= _ <-]. apply (indexes_dense _ _ _ E). Qed.
Lemma entries_from_in (l : holes) : forall n i v, In (i, v) (entries_from n l) <-> n <= i /\ nth_error l (Z.to_nat (i - n)) = Some (Some v).
Proof.
  induction l as [|x l IH]; intros n i v; cbn [entries_from].
  - split; [intros []|]. intros [_ X]. destruct (Z.to_nat (i - n)); discriminate.
  - assert (Q : In (i, v) (entries_from (n + 1) l) <-> n < i /\ nth_error (x :: l) (Z.to_nat (i - n)) = Some (Some v)).
    { rewrite IH. split.
      - intros [B X]. split; [lia|]. replace (Z.to_nat (i - n)) with (S (Z.to_nat (i - (n + 1)))) by lia. exact X.
      - intros [B X]. split; [lia|]. replace (Z.to_nat (i - n)) with (S (Z.to_nat (i - (n + 1)))) in X by lia. exact X. }
    destruct x as [w|]; [cbn [In]|]; rewrite Q.
    + split.
      * intros [[= -> ->]|[B X]]; [split; [lia|]; replace (Z.to_nat (i - i)) with 0%nat by lia; reflexivity|split; [lia|exact X]].
      * intros [B X]. destruct (Z.eq_dec i n) as [->|NE]; [left|right; split; [lia|exact X]].
        replace (Z.to_nat (n - n)) with 0%nat in X by lia. cbn [nth_error] in X. congruence.
    + split; [intros [B X]; split; [lia|exact X]|]. intros [B X]. split; [|exact X].
      destruct (Z.eq_dec i n) as [->|NE]; [|lia]. replace (Z.to_nat (n - n)) with 0%nat in X by lia. discriminate.
Qed.
Lemma use_elements_ok u st op r u' : stands u st -> use_elements u op = (r, u') ->
  stands u' st /\ (espec (elems st) op r \/ (op = EGet (Z.of_nat (length (elems st))) /\ r = RKey (MExn EIndex))).
Proof.
  intros S1 X. pose proof S1 as (A & E & P & L & D). pose proof (arr_len_eq _ A) as LE. unfold zlen in LE. rewrite E in LE.
  destruct op as [i| |]; cbn [use_elements] in X.
  - injection X as <- <-. split; [exact S1|]. unfold view_get. rewrite LE.
    destruct ((i <? 0) || (Z.of_nat (length (elems st)) <? i)) eqn:B.
    + left. apply es_get_missing. rewrite element_eq, <- E. apply elem_at_out; auto. lia.
    + destruct (Z.eq_dec i (Z.of_nat (length (elems st)))) as [->|NE].
      * right. split; [reflexivity|]. pose proof (arr_get_spec (jo_arr (u_obj u)) (Z.of_nat (length (elems st))) A) as G.
        unfold position in G. rewrite E in G.
        replace ((0 <=? Z.of_nat (length (elems st))) && (Z.of_nat (length (elems st)) <? Z.of_nat (length (elems st)))) with false in G by lia.
        replace ((- Z.of_nat (length (elems st)) <=? Z.of_nat (length (elems st))) && (Z.of_nat (length (elems st)) <? 0)) with false in G by lia.
        rewrite G. reflexivity.
      * left. rewrite (arr_get_in _ i A) by lia. cbn [bind]. rewrite E.
        destruct (elem_at (elems st) i) as [v|] eqn:G; [apply es_get|apply es_get_missing]; rewrite element_eq; exact G.
  - injection X as <- <-. split; [exact S1|]. left. rewrite (arr_used_eq _ A), E, <- number_used_eq. apply es_len.
  - destruct (view_items_spec _ A) as [a' [V [A' B']]]. rewrite V in X. injection X as <- <-. split.
    + unfold stands. cbn [u_obj u_left jo_arr jo_props]. rewrite (view_items_dense _ _ _ V), B'. auto.
    + left. rewrite E. apply es_items.
      * rewrite entries_from_keys. apply ascending_of_indexes.
      * intros i v. rewrite entries_from_in, Z.sub_0_r. unfold element. destruct (i <? 0) eqn:I.
        -- split; [lia|discriminate].
        -- destruct (nth_error (elems st) (Z.to_nat i)) as [w|]; split; try (intros [_ X]); try intros X; try discriminate; try congruence.
           split; [lia|congruence].
Qed.

Lemma use_op_ok u st op r u' : stands u st -> use_op float_repr u op = (r, u') ->
  exists st', stands u' st' /\ (uspec norm st op r st' \/ udeviation norm st op r st').
Proof.
  intros S1 X. destruct op as [o|o|o|o|o]; cbn [use_op] in X.
  - destruct (use_key float_repr u o) as [r1 u1] eqn:E. injection X as <- <-.
    destruct (use_key_ok u st o r1 u1 S1 E) as (st' & S2 & [K|[K OL]]); exists st'; (split; [exact S2|]).
    + left. apply us_key. exact K.
    + right. apply ud_key; auto.
  - destruct (use_array u o) as [r1 u1] eqn:E. injection X as <- <-.
    destruct (use_array_ok u st o r1 u1 S1 E) as (l & S2 & [K|[OL K]]); exists (with_elems st l); (split; [exact S2|]).
    + left. apply us_array. exact K.
    + right. apply ud_array; auto.
  - destruct (use_held u o) as [r1 u1] eqn:E. injection X as <- <-.
    destruct (use_held_ok u st o r1 u1 S1 E) as (st' & S2 & K). exists st'. auto.
  - injection X as <- <-. exists st. split; [exact S1|]. left. apply us_named. destruct S1 as (_ & _ & P & _).
    unfold use_named. rewrite P. destruct o as [s| |]; try constructor.
    destruct (dget listN_eqb s (named st)) eqn:G; constructor; exact G.
  - destruct (use_elements_ok u st o r u' S1 X) as (S2 & [K|[-> ->]]); exists st; (split; [exact S2|]).
    + left. apply us_elements. exact K.
    + right. apply ud_elements.
Qed.
Lemma use_ops_ok ops : forall u st tr u', stands u st -> use_ops float_repr u ops = (tr, u') ->
  map fst tr = ops /\ exists st', stands u' st' /\ uspecs norm st tr st'.
Proof.
  induction ops as [|o ops IH]; intros u st tr u' S1 X; cbn [use_ops] in X.
  - injection X as <- <-. split; [reflexivity|]. exists st. split; [exact S1|constructor].
  - destruct (use_op float_repr u o) as [r u1] eqn:E1. destruct (use_ops float_repr u1 ops) as [tr1 u2] eqn:E2. injection X as <- <-.
    destruct (use_op_ok u st o r u1 S1 E1) as (st1 & S2 & O1). destruct (IH u1 st1 tr1 u2 S2 E2) as (M & st2 & S3 & O2).
    split; [cbn [map fst]; congruence|]. exists st2. split; [exact S3|]. econstructor; eauto.
Qed.
End Ops.

Lemma stands_fresh : stands (fresh (T := T)) (mkUState [] [] None).
Proof.
  unfold stands, fresh. cbn [u_obj u_left jo_arr jo_props jo_empty elems named old left_ok].
  split; [reflexivity|]. split; [reflexivity|]. split; [reflexivity|]. split; [exact I|reflexivity].
Qed.
End Facts.
