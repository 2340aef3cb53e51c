(** C46: what equality means for acyclic graphs of the library's objects. *)
From Coq Require Import List NArith ZArith Bool Lia Arith.
From Verif Require Import Base Dict ModelTags SpecArray ModelArray ArrayFacts ArrayFacts2 ArrayFacts3 ModelValue ValueFacts KeyFacts ModelObject ModelMap ModelHeap ModelEq SpecEq EqFacts Prop_Eq.
Import ListNotations.
Open Scope nat_scope.

(** Two objects have the same content: they are related by some relation whose pairs are the same node by node, the
    objects inside being related again. *)
Definition same_content (H : heap) (leaf_eq leaf_same : val -> val -> bool) (a b : nat) : Prop :=
  exists R : nat -> nat -> Prop, R a b /\
    forall c d, R c d -> exists x y, nth_error H c = Some x /\ nth_error H d = Some y /\ same_node H leaf_eq leaf_same R x y.
(** No element of an array is JSHole. *)
Definition no_holes (H : heap) : Prop :=
  forall o x, nth_error H o = Some (OObject x) \/ nth_error H o = Some (OArray x) -> ~ In (Some VHole) (aabs (jo_arr x)).

Section Content.
Variable H : heap.
Variable leaf_eq leaf_same : val -> val -> bool.
Hypothesis AF : arrays_fine H.
Hypothesis NH : no_holes H.
Hypothesis LH : forall v, leaf_eq v VHole = true -> v = VHole.
Notation cls := (class_eq H leaf_eq leaf_same).
Notation sub := (class_sub H).
Notation follows := (pfollow cls sub).
Notation answers := (pop cls sub).

Lemma same_val_mono (R R' : nat -> nat -> Prop) leaf v w : (forall a b, R a b -> R' a b) -> same_val H R leaf v w -> same_val H R' leaf v w.
Proof. intros M. unfold same_val. destruct v; auto. destruct w; auto. destruct (_ && _); auto. intros [->|Q]; auto. Qed.
Lemma Forall2_mono {A B} (P Q : A -> B -> Prop) l m : (forall x y, P x y -> Q x y) -> Forall2 P l m -> Forall2 Q l m.
Proof. intros M. induction 1; constructor; auto. Qed.
Lemma same_jsobj_mono (R R' : nat -> nat -> Prop) x y : (forall a b, R a b -> R' a b) -> same_jsobj H leaf_eq leaf_same R x y -> same_jsobj H leaf_eq leaf_same R' x y.
Proof.
  intros M [A [L P]]. split; [|split; auto].
  - revert A. apply Forall2_mono. intros [v|] [w|]; cbn; auto. apply same_val_mono; auto.
  - intros n v I. destruct (P n v I) as (w & G & S). exists w. split; auto. eapply same_val_mono; eauto.
Qed.
Lemma same_node_mono (R R' : nat -> nat -> Prop) x y : (forall a b, R a b -> R' a b) -> same_node H leaf_eq leaf_same R x y -> same_node H leaf_eq leaf_same R' x y.
Proof.
  intros M. destruct x, y; cbn; auto.
  - apply Forall2_mono. intros p q [A B]. split; eapply same_val_mono; eauto.
  - apply Forall2_mono. intros p q. apply same_val_mono; auto.
  - apply same_jsobj_mono; auto.
  - apply same_jsobj_mono; auto.
  - intros (-> & -> & -> & S). repeat split; auto. eapply same_val_mono; eauto.
Qed.
Notation alike := (same_content H leaf_eq leaf_same).
Lemma alike_node a b x y : nth_error H a = Some x -> nth_error H b = Some y -> (alike a b <-> same_node H leaf_eq leaf_same alike x y).
Proof.
  intros Ha Hb. split.
  - intros (R & Rab & C). destruct (C _ _ Rab) as (x' & y' & Hx & Hy & S). rewrite Ha in Hx. rewrite Hb in Hy. injection Hx as <-. injection Hy as <-.
    revert S. apply same_node_mono. intros c d Rcd. exists R. auto.
  - intros S. exists (fun c d => alike c d \/ (c = a /\ d = b)). split; auto. intros c d [(R & Rcd & C)|[-> ->]].
    + destruct (C _ _ Rcd) as (x' & y' & Hx & Hy & S'). exists x', y'. split; auto. split; auto. revert S'. apply same_node_mono.
      intros c' d' Q. left. exists R. auto.
    + exists x, y. split; auto. split; auto. revert S. apply same_node_mono. auto.
Qed.

(** Evaluating one node: every pair it can ask about is answered, by whether [R] relates it. *)
Section Node.
Variable R : nat -> nat -> Prop.
Definition answered (c d : nat) : Prop := exists z : bool, answers c d (Returned z) /\ (z = true <-> c = d \/ R c d).
Definition settled (v w : val) : Prop := forall c d, v = VRef c -> w = VRef d -> is_decorated H c = true -> is_decorated H d = true -> answered c d.
Lemma ask_eval leaf v w : settled v w -> exists z : bool, (z = true <-> same_val H R leaf v w) /\ forall f r, follows (f z) r -> follows (ask H leaf v w f) r.
Proof.
  intros S. unfold ask, same_val.
  destruct v; try (eexists; split; [reflexivity|auto]; fail). destruct w; try (eexists; split; [reflexivity|auto]; fail).
  destruct (is_decorated H oid && is_decorated H oid0) eqn:D; [|eexists; split; [reflexivity|auto]].
  apply andb_prop in D as [D1 D2]. destruct (S _ _ eq_refl eq_refl D1 D2) as (z & A & E). exists z. split; auto.
  intros f r F. econstructor; eauto.
Qed.
Lemma all_eval leaf l : (forall v w, In (v, w) l -> settled v w) -> exists z : bool, (z = true <-> Forall (fun p => same_val H R leaf (fst p) (snd p)) l) /\
  forall k r, (if z then follows k r else r = Returned No) -> follows (all_equal H leaf l k) r.
Proof.
  induction l as [|[v w] l IH]; intros S.
  - exists true. split; [split; auto|]. intros k r F. exact F.
  - destruct (IH ltac:(intros; apply S; right; auto)) as (z & E & F). destruct (ask_eval leaf v w (S _ _ (or_introl eq_refl))) as (z1 & E1 & F1).
    exists (z1 && z). split.
    + rewrite andb_true_iff, E, E1. split; [intros [A B]; constructor; auto|intros Q; inversion Q; auto].
    + intros k r Q. cbn [all_equal]. apply F1. destruct z1; cbn [andb] in Q; [apply F; auto|subst r; constructor].
Qed.
Lemma dict_eval l m : (forall n v n' w, In (n, v) l -> In (n', w) m -> settled v w) -> exists z : bool,
  (z = true <-> forall n v, In (n, v) l -> exists w, dget listN_eqb n m = Some w /\ same_val H R leaf_same v w) /\
  follows (dict_items_equal H leaf_same l m) (Returned (if z then Yes else No)).
Proof.
  induction l as [|[n v] l IH]; intros S.
  - exists true. split; [split; auto; intros _ n v []|]. constructor.
  - destruct (IH ltac:(intros; eapply S; [right|]; eauto)) as (z & E & F). cbn [dict_items_equal]. destruct (dget listN_eqb n m) as [w|] eqn:G.
    + assert (Im : exists n', In (n', w) m).
      { clear -G. induction m as [|[n' x] m IH]; cbn in G; [discriminate|]. destruct (listN_eqb n n'); [injection G as <-; exists n'; left; auto|]. destruct (IH G) as [q Q]. exists q. right. auto. }
      destruct Im as [n' Im]. destruct (ask_eval leaf_same v w (S _ _ _ _ (or_introl eq_refl) Im)) as (z1 & E1 & F1). exists (z1 && z). split.
      * rewrite andb_true_iff, E, E1. split.
        -- intros [A B] n0 v0 [Q|Q]; [injection Q as <- <-; eauto|auto].
        -- intros A. split; [destruct (A n v (or_introl eq_refl)) as (w' & G' & Q); congruence|]. intros; apply A; right; auto.
      * apply F1. destruct z1; cbn [andb]; [auto|constructor].
    + exists false. split; [split; [discriminate|]|constructor]. intros A. destruct (A n v (or_introl eq_refl)) as (w' & G' & _). congruence.
Qed.
Lemma Forall_combine {A} (P : A -> A -> Prop) l : forall m, length l = length m -> Forall (fun p => P (fst p) (snd p)) (combine l m) -> Forall2 P l m.
Proof. induction l as [|a l IH]; intros [|b m] L F; try discriminate; [constructor|]. cbn in *. inversion F; subst. constructor; auto. Qed.
(** two lists with the same number of elements: those of the first are in the second *)
Lemma elems_counted (P : val -> val -> Prop) l : forall m, length l = length m ->
  (forall k v, nth_error l k = Some (Some v) -> exists w, nth_error m k = Some (Some w) /\ P v w) ->
  (count_used l <= count_used m)%Z /\ (count_used l = count_used m ->
    Forall2 (fun x y => match x, y with Some v, Some w => P v w | None, None => True | _, _ => False end) l m).
Proof.
  induction l as [|a l IH]; intros [|b m] L F; try discriminate; [split; [lia|constructor]|]. injection L as L.
  destruct (IH m L) as [C Q]. { intros k v E. apply (F (S k) v E). }
  rewrite !count_used_cons. destruct a as [v|].
  - destruct (F 0 v eq_refl) as (w & Ew & Pw). cbn in Ew. injection Ew as ->. cbn [is_some]. split; [lia|]. intros E. constructor; auto. apply Q. lia.
  - destruct b as [w|]; cbn [is_some]; split; try lia. intros E. constructor; auto.
Qed.
Lemma objects_eval x y : arr_ok (jo_arr x) -> arr_ok (jo_arr y) -> ~ In (Some VHole) (aabs (jo_arr x)) ->
  (forall v w, In (Some v) (aabs (jo_arr x)) -> In (Some w) (aabs (jo_arr y)) -> settled v w) ->
  (forall n v n' w, In (n, v) (jo_props x) -> In (n', w) (jo_props y) -> settled v w) ->
  exists z : bool, (z = true <-> same_jsobj H leaf_eq leaf_same R x y) /\ follows (objects_equal H leaf_eq leaf_same x y) (Returned (if z then Yes else No)).
Proof.
  intros OX OY NX SA SP.
  assert (CU : forall l m, Forall2 (same_elem H leaf_eq R) l m -> count_used l = count_used m).
  { induction 1 as [|a b la lb E F IH]; auto. rewrite !count_used_cons, IH. destruct a, b; cbn in *; auto; contradiction. }
  unfold objects_equal, arrays_equal, dicts_equal, jo_len. rewrite !arr_used_eq, !arr_len_eq by auto. unfold zlen.
  destruct (Z.eqb_spec (count_used (aabs (jo_arr x)) + Z.of_nat (length (jo_props x))) (count_used (aabs (jo_arr y)) + Z.of_nat (length (jo_props y)))) as [E1|E1]; cbn [negb].
  2: { exists false. split; [split; [discriminate|]|constructor]. intros [A [L _]]. apply CU in A. lia. }
  destruct (Z.eqb_spec (Z.of_nat (length (aabs (jo_arr x)))) (Z.of_nat (length (aabs (jo_arr y))))) as [E2|E2]; cbn [negb].
  2: { exists false. split; [split; [discriminate|]|constructor]. intros [A [L _]]. apply Forall2_len' in A. lia. }
  destruct (Z.eqb_spec (count_used (aabs (jo_arr x))) (count_used (aabs (jo_arr y)))) as [E3|E3]; cbn [negb].
  2: { exists false. split; [split; [discriminate|]|constructor]. intros [A [L _]]. apply CU in A. lia. }
  apply Nat2Z.inj in E2. assert (E4 : length (jo_props x) = length (jo_props y)) by lia. rewrite E4, Nat.eqb_refl. cbn [negb].
  set (pairs := map (fun i => (of_element (arr_get (jo_arr x) i), of_element (arr_get (jo_arr y) i))) (arr_indexes_unordered (jo_arr x))).
  assert (PX : forall v w, In (v, w) pairs <-> exists k, nth_error (aabs (jo_arr x)) k = Some (Some v) /\ w = match nth_error (aabs (jo_arr y)) k with Some (Some w) => w | _ => VHole end).
  { intros v w. unfold pairs. rewrite in_map_iff. split.
    - intros (i & E & I). apply arr_indexes_unordered_in in I; auto. destruct (occupied_get _ i OX I) as (v' & G & Nv & B). rewrite G in E. cbn [of_element] in E.
      injection E as -> <-. exists (Z.to_nat i). split; auto. rewrite arr_len_eq in B by auto. unfold zlen in B.
      destruct (nth_error (aabs (jo_arr y)) (Z.to_nat i)) as [e|] eqn:Ne; [|apply nth_error_None in Ne; lia].
      pose proof (arr_get_nat _ _ _ OY Ne) as GY. rewrite Z2Nat.id in GY by lia. rewrite GY. destruct e; reflexivity.
    - intros (k & Nv & ->). exists (Z.of_nat k). rewrite (arr_get_nat _ _ _ OX Nv). cbn [of_element]. split.
      + f_equal. assert (k < length (aabs (jo_arr y))) by (rewrite <- E2; apply nth_error_Some; congruence).
        destruct (nth_error (aabs (jo_arr y)) k) as [e|] eqn:Ne; [|apply nth_error_None in Ne; lia]. rewrite (arr_get_nat _ _ _ OY Ne). destruct e; reflexivity.
      + apply arr_indexes_unordered_in; auto. exists v. rewrite Nat2Z.id. split; auto. lia. }
  destruct (all_eval leaf_eq pairs) as (z & Ez & Fz).
  { intros v w I. apply PX in I as (k & Nv & ->). destruct (nth_error (aabs (jo_arr y)) k) as [[w|]|] eqn:Nw; [|intros c d _ Q; discriminate Q|intros c d _ Q; discriminate Q].
    apply SA; eapply nth_error_In; eauto. }
  destruct (dict_eval (jo_props x) (jo_props y) SP) as (z2 & E5 & F2). exists (z && z2). split.
  - rewrite andb_true_iff, Ez, E5. unfold same_jsobj, same_props. split.
    + intros [A B]. split; auto. destruct (elems_counted (same_val H R leaf_eq) (aabs (jo_arr x)) (aabs (jo_arr y)) E2) as [_ Q].
      * intros k v Nv. rewrite Forall_forall in A. specialize (A _ (proj2 (PX v _) (ex_intro _ k (conj Nv eq_refl)))). cbn [fst snd] in A.
        destruct (nth_error (aabs (jo_arr y)) k) as [[w|]|]; eauto.
        all: exfalso; apply NX; assert (v = VHole) by (unfold same_val in A; destruct v; apply LH in A; auto); subst v; eapply nth_error_In; eauto.
      * apply Q; auto.
    + intros [A [L B]]. split; auto. apply Forall_forall. intros [v w] I. apply PX in I as (k & Nv & ->). destruct (Forall2_nth _ _ _ A _ _ Nv) as (e & Ne & Se).
      rewrite Ne. destruct e as [w|]; [exact Se|destruct Se].
  - apply Fz. destruct z; [exact F2|reflexivity].
Qed.

(** the classes *)
Definition one_class (x y : obj) : bool :=
  match x, y with
  | OMap _, OMap _ | OSet _, OSet _ | OObject _, OObject _ | OArray _, OArray _ | OError _ _ _ _, OError _ _ _ _ => true
  | _, _ => false
  end.
Lemma class_eval a b x y : nth_error H a = Some x -> nth_error H b = Some y ->
  (forall v w, holds x v -> holds y w -> settled v w) ->
  exists r, follows (cls a b) (Returned r) /\ (r = Yes <-> same_node H leaf_eq leaf_same R x y) /\ (r = NotImpl -> one_class x y = false).
Proof.
  intros Ha Hb S. unfold class_eq. rewrite Ha, Hb.
  assert (NI : forall r, r <> Yes -> (r = NotImpl -> one_class x y = false) -> ~ same_node H leaf_eq leaf_same R x y ->
    exists r', follows (Done r) (Returned r') /\ (r' = Yes <-> same_node H leaf_eq leaf_same R x y) /\ (r' = NotImpl -> one_class x y = false)).
  { intros r N1 N2 N3. exists r. split; [constructor|tauto]. }
  destruct x, y; try (apply NI; [discriminate|reflexivity|intros []]); cbn [same_node holds] in *.
  - destruct (length m =? length m0) eqn:L; cbn [negb].
    2: { apply NI; [discriminate|discriminate|]. intros F. apply Forall2_len' in F. rewrite !map_length in F. apply Nat.eqb_neq in L. auto. }
    apply Nat.eqb_eq in L.
    destruct (all_eval leaf_same (flat_pairs (combine (map snd m) (map snd m0)))) as (z & E & F).
    { intros v w I. assert (Q : exists k k', (In (k, v) (map snd m) \/ In (v, k) (map snd m)) /\ (In (k', w) (map snd m0) \/ In (w, k') (map snd m0))).
      { clear -I. revert I. generalize (map snd m) as l, (map snd m0) as l'. induction l as [|[k v0] l IH]; intros [|[k' v'] l']; cbn; try contradiction. intros [E|[E|I]].
        - injection E as -> ->. exists v0, v'. auto.
        - injection E as -> ->. exists k, k'. auto.
        - destruct (IH _ I) as (q & q' & [A|A] & [B|B]); exists q, q'; auto. }
      destruct Q as (k & k' & A & B). apply S; eauto. }
    exists (if z then Yes else No). split; [apply F; destruct z; constructor|split; [|destruct z; discriminate]]. transitivity (z = true); [destruct z; split; congruence|]. rewrite E.
    assert (LL : length (map snd m) = length (map snd m0)) by (rewrite !map_length; auto). revert LL. generalize (map snd m) as l, (map snd m0) as l'. clear.
    induction l as [|[k v] l IH]; intros [|[k' v'] l'] L; try discriminate; cbn [combine flat_pairs]; [split; constructor|]. injection L as L. specialize (IH l' L). split.
    + intros Q. inversion Q as [|? ? Q1 Q2]; subst. inversion Q2 as [|? ? Q3 Q4]; subst. constructor; [split; auto|]. apply IH; auto.
    + intros Q. inversion Q as [|? ? ? ? [Q1 Q2] Q3]; subst. constructor; auto. constructor; auto. apply IH; auto.
  - destruct (length m =? length m0) eqn:L; cbn [negb].
    2: { apply NI; [discriminate|discriminate|]. intros F. apply Forall2_len' in F. rewrite !map_length in F. apply Nat.eqb_neq in L. auto. }
    apply Nat.eqb_eq in L. destruct (all_eval leaf_eq (combine (map snd m) (map snd m0))) as (z & E & F).
    { intros v w I. apply S; [eapply in_combine_l; eauto|eapply in_combine_r; eauto]. }
    exists (if z then Yes else No). split; [apply F; destruct z; constructor|split; [|destruct z; discriminate]]. transitivity (z = true); [destruct z; split; congruence|]. rewrite E. split.
    + apply Forall_combine. rewrite !map_length. auto.
    + apply Forall2_combine.
  - destruct (objects_eval o o0) as (z & E & F); try solve [apply (AF a); auto|apply (AF b); auto|apply (NH a); auto].
    { intros v w A B. apply S; auto. } { intros n v n' w A B. apply S; eauto. }
    exists (if z then Yes else No). split; auto. split; [|destruct z; discriminate]. rewrite <- E. destruct z; split; congruence.
  - destruct (objects_eval o o0) as (z & E & F); try solve [apply (AF a); auto|apply (AF b); auto|apply (NH a); auto].
    { intros v w A B. apply S; auto. } { intros n v n' w A B. apply S; eauto. }
    exists (if z then Yes else No). split; auto. split; [|destruct z; discriminate]. rewrite <- E. destruct z; split; congruence.
  - assert (O : forall u v, opt_str_eqb u v = true <-> u = v).
    { intros [u|] [v|]; cbn; try (split; congruence). rewrite listN_eqb_spec. split; congruence. }
    destruct (listN_eqb name name0 && opt_str_eqb message message0 && opt_str_eqb stack stack0) eqn:E.
    + rewrite !andb_true_iff, listN_eqb_spec, !O in E. destruct E as [[-> ->] ->]. destruct (ask_eval leaf_same cause cause0) as (z & E & F); [apply S; auto|].
      exists (if z then Yes else No). split; [apply F; destruct z; constructor|split; [|destruct z; discriminate]]. transitivity (z = true); [destruct z; split; congruence|]. rewrite E. tauto.
    + apply NI; [discriminate|discriminate|]. intros (-> & -> & -> & _). rewrite (proj2 (listN_eqb_spec name0 name0) eq_refl), !(proj2 (O _ _) eq_refl) in E. discriminate.
Qed.
End Node.

Variable side : nat -> bool.
Variable rank : nat -> nat.
Hypothesis W : forall o x c, nth_error H o = Some x -> holds x (VRef c) -> is_decorated H c = true -> side c = side o /\ rank c < rank o.
Lemma content_answer : forall n a b, rank a < n -> a < length H -> b < length H -> side a <> side b ->
  exists z : bool, answers a b (Returned z) /\ (z = true <-> alike a b).
Proof.
  induction n as [|n IH]; [lia|]. intros a b La Ba Bb Sab.
  destruct (nth_error H a) as [x|] eqn:Ha; [|apply nth_error_None in Ha; lia]. destruct (nth_error H b) as [y|] eqn:Hb; [|apply nth_error_None in Hb; lia].
  assert (Nab : a <> b) by congruence.
  assert (K : forall v w, holds x v -> holds y w -> settled alike v w).
  { intros v w Hv Hw c d -> -> Dc Dd. destruct (W _ _ _ Ha Hv Dc) as [S1 R1]. destruct (W _ _ _ Hb Hw Dd) as [S2 R2].
    destruct (IH c d) as (z & A & E); try lia; auto using decorated_below; try congruence. exists z. split; auto. rewrite E. split; auto. intros [->|Q]; auto. congruence. }
  destruct (class_eval alike a b x y Ha Hb K) as (r & F & E & N).
  rewrite <- (alike_node a b x y Ha Hb) in E.
  destruct (sub a b) eqn:Sb.
  - (* an object and an array *)
    unfold class_sub in Sb. rewrite Ha, Hb in Sb. destruct x; try discriminate. destruct y; try discriminate.
    exists false. split.
    + replace false with (a =? b) by (apply Nat.eqb_neq; auto).
      apply (po_neither cls sub a b b a); [unfold ordering, class_sub; rewrite Ha, Hb; auto|..]; (apply pl_run; [auto|]); unfold class_eq; rewrite Ha, Hb; constructor.
    + split; [discriminate|]. intros Q. apply (alike_node a b _ _ Ha Hb) in Q. destruct Q.
  - assert (OR : ordering sub a b a b) by (unfold ordering; rewrite Sb; auto). destruct r.
    + exists true. split; [|tauto]. apply (po_first cls sub a b a b (Returned Yes)); auto; [apply pl_run; auto|constructor].
    + exists false. split; [|split; [discriminate|]; intros Q; apply E in Q; discriminate]. apply (po_first cls sub a b a b (Returned No)); auto; [apply pl_run; auto|constructor].
    + (* the classes differ: the other method *)
      assert (NA : ~ alike a b). { intros Q. apply E in Q. discriminate. }
      exists false. split; [|split; [discriminate|tauto]].
      assert (P1 : plain cls sub a b (Returned NotImpl)) by (apply pl_run; auto).
      assert (G : cls b a = Done No \/ cls b a = Done NotImpl).
      { specialize (N eq_refl). unfold class_sub in Sb. unfold class_eq. rewrite Ha, Hb in Sb |- *. destruct x, y; try discriminate; auto. }
      destruct G as [G|G].
      * apply (po_second cls sub a b a b (Returned No)); auto; [apply pl_run; auto; rewrite G; constructor|constructor].
      * replace false with (a =? b) by (apply Nat.eqb_neq; auto). apply (po_neither cls sub a b a b); auto. apply pl_run; auto. rewrite G. constructor.
Qed.
End Content.

(** For acyclic graphs of JSMap, JSSet, JSObject, JSArray and JSErrorData, two objects with no decorated object in
    common: == returns, leaves no key behind, and the answer is True exactly when the objects have the same content. *)
Theorem C46_acyclic_content : forall H leaf_eq leaf_same (side : nat -> bool) (rank : nat -> nat) t s a b, arrays_fine H -> no_holes H ->
  (forall v, leaf_eq v VHole = true -> v = VHole) ->
  (forall o x c, nth_error H o = Some x -> holds x (VRef c) -> is_decorated H c = true -> side c = side o /\ rank c < rank o) ->
  (forall o, ~ In (o, t) s) -> a < length H -> b < length H -> side a <> side b ->
  exists z : bool, run (js_compare H leaf_eq leaf_same t a b) s = (Returned z, s) /\ (z = true <-> same_content H leaf_eq leaf_same a b).
Proof.
  intros H leaf_eq leaf_same side rank t s a b AF NH LH W Fr La Lb S.
  destruct (C46_js_acyclic H leaf_eq leaf_same side rank t s a b AF W Fr La Lb S) as (r & E & P).
  destruct (content_answer H leaf_eq leaf_same AF NH LH side rank W (Datatypes.S (rank a)) a b) as (z & A & C); auto.
  apply P in A. subst r. eauto.
Qed.
Print Assumptions C46_acyclic_content.
(** Errors with the same message but other stacks, inside arrays. *)
Definition failures (s : list N) : heap :=
  [linked 1 1; OError [69%N] (Some [97%N]) (Some [98%N]) (VInt 7); linked 1 3; OError [69%N] (Some [97%N]) (Some s) (VInt 7)].
Example C46_content_case : forall s, arrays_fine (failures s) /\ no_holes (failures s) /\ (forall v, int_eq v VHole = true -> v = VHole) /\
  (forall o x c, nth_error (failures s) o = Some x -> holds x (VRef c) -> is_decorated (failures s) c = true -> (2 <=? c) = (2 <=? o) /\ 4 - c < 4 - o) /\
  run (js_compare (failures [98%N]) int_eq int_eq 0 0 2) [] = (Returned true, []) /\
  run (js_compare (failures [99%N]) int_eq int_eq 0 0 2) [] = (Returned false, []).
Proof.
  intros s. split; [|split; [|split; [|split; [|split; reflexivity]]]].
  - intros o x Q. destruct o as [|[|[|[|o]]]]; cbn in Q; try (destruct o; cbn in Q); destruct Q as [Q|Q]; try discriminate; injection Q as <-; apply dense_init_spec.
  - intros o x Q. destruct o as [|[|[|[|o]]]]; cbn in Q; try (destruct o; cbn in Q); destruct Q as [Q|Q]; try discriminate; injection Q as <-; cbn; intuition discriminate.
  - intros v E. destruct v; cbn in E; try discriminate; reflexivity.
  - intros o x c Ho Hc D. destruct o as [|[|[|[|o]]]]; cbn in Ho; try (destruct o; discriminate); injection Ho as <-; cbn in Hc;
      repeat match goal with X : _ \/ _ |- _ => destruct X | X : exists _, _ |- _ => destruct X | X : False |- _ => destruct X | X : _ = _ |- _ => progress (try discriminate X; injection X as X) end; subst; cbn; split; auto; lia.
Qed.
