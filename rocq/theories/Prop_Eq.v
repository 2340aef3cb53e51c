(** C46, C47: recursive equality. *)
From Coq Require Import List NArith ZArith Bool Lia Arith.
From Verif Require Import Base Dict ModelTags SpecArray ModelArray ArrayFacts ArrayFacts2 ArrayFacts3 ModelValue ValueFacts KeyFacts ModelObject ModelMap ModelHeap ModelEq SpecEq EqFacts.
Import ListNotations.
Open Scope nat_scope.

(** * C46: termination and clean-up *)
Definition below (n a b : nat) : Prop := a < n /\ b < n.
(** Whatever the __eq__ methods of the [n] objects do, and whatever is running already (in this thread or in
    others), a comparison ends, by returning or by raising, and leaves the guard's set as it was. *)
Theorem C46_terminates_and_cleans_up : forall wrapped subclass n t s a b,
  (forall a b, a < n -> b < n -> asks (below n) (wrapped a b)) -> a < n -> b < n ->
  exists r, r <> NoFuel /\ forall fuel, n < fuel -> run (compare wrapped subclass fuel t a b) s = (r, s).
Proof.
  intros wrapped subclass n t s a b A La Lb.
  destruct (compare_gen wrapped subclass n t (fun _ a b => below n a b) (fun _ _ _ => True)) with (s := s) (a := a) (b := b) as (r & _ & N & S); auto.
  - intros s' c d [Lc Ld] _ _ _. specialize (A c d Lc Ld). generalize ((d, t) :: (c, t) :: s'). intros s''. clear -A. induction (wrapped c d) as [r|e|x y f IH]; cbn in *; auto.
    destruct A as [[Lx Ly] A]. split; [unfold opre, below; destruct (subclass x y); auto|]. intros [z|e|]; auto.
  - unfold opre, below. destruct (subclass a b); auto.
  - exists r. split; auto. intros fuel L. apply S. pose proof (free_le n t s). lia.
Qed.
Print Assumptions C46_terminates_and_cleans_up.

(** Structures that are paired one-to-one, and equal node by node, compare equal. *)
Theorem C46_paired_equal_partial : forall wrapped subclass n t s R a b, pairing R ->
  (forall a b, R a b -> a <> b -> a < n /\ b < n /\ subclass a b = false /\ agrees R (wrapped a b)) ->
  (forall o, ~ In (o, t) s) -> R a b -> forall fuel, n < fuel -> run (compare wrapped subclass fuel t a b) s = (Returned true, s).
Proof.
  intros wrapped subclass n t s R a b PR A Fr Rab fuel L.
  set (rel := fun a b => a = b \/ R a b).
  set (Inv := fun (s : kset) a b => rel a b /\ forall c d, R c d -> c <> d -> (In (c, t) s <-> In (d, t) s)).
  assert (SUB : forall c d, rel c d -> (if subclass c d then (d, c) else (c, d)) = (c, d) \/ c = d).
  { intros c d [->|Q]; auto. destruct (Nat.eq_dec c d) as [|N]; auto. destruct (A c d Q N) as (_ & _ & -> & _). auto. }
  assert (OP : forall c d r, rel c d -> opost subclass (fun _ _ r => r = Returned Yes) c d r -> r = Returned true).
  { intros c d r Q. unfold opost. destruct (if subclass c d then (d, c) else (c, d)) as [x y]. intros (r1 & -> & V). exact V. }
  assert (PRE : forall s c d, Inv s c d -> opre subclass Inv (fun _ _ r => r = Returned Yes) s c d).
  { intros s' c d I. unfold opre. destruct (SUB c d (proj1 I)) as [-> | <-]; [split; [auto|discriminate]|]. destruct (subclass c c); (split; [auto|discriminate]). }
  destruct (compare_gen wrapped subclass n t Inv (fun _ _ r => r = Returned Yes)) with (s := s) (a := a) (b := b) as (r & OR & N & S).
  - intros s' c d [[->|Q] _] Ne; [congruence|]. destruct (A c d Q Ne) as (? & ? & _). auto.
  - auto.
  - intros s' c d [[->|Q] Bal] Ne RUN; [congruence|]. specialize (Bal c d Q Ne). assert (B : In (c, t) s' /\ In (d, t) s') by tauto. destruct B as [B1 B2].
    apply kmem_In in B1, B2. rewrite B1, B2. reflexivity.
  - intros s' c d [[->|Q] Bal] Ne Nc Nd; [congruence|]. destruct (A c d Q Ne) as (_ & _ & _ & AG).
    assert (Bal' : forall x y, R x y -> x <> y -> (In (x, t) ((d, t) :: (c, t) :: s') <-> In (y, t) ((d, t) :: (c, t) :: s'))).
    { intros x y Rxy Nxy. specialize (Bal x y Rxy Nxy). cbn. split.
      - intros [E|[E|I]].
        + injection E as <-. destruct (p_sides R PR c d y Q Rxy); congruence.
        + injection E as <-. left. f_equal. eapply p_fun; eauto.
        + right. right. tauto.
      - intros [E|[E|I]].
        + injection E as <-. right. left. f_equal. eapply p_inj; eauto.
        + injection E as <-. destruct (p_sides R PR x c d Rxy Q); congruence.
        + right. right. tauto. }
    induction AG as [|x y f Rxy AG IH]; cbn; auto. split; [apply PRE; split; auto|]. intros r OR. apply OP in OR as ->; auto.
  - apply PRE. split; [right; auto|]. intros c d _ _. split; intros X; exfalso; eapply Fr; eauto.
  - apply OP in OR as ->; [|right; auto]. apply S. pose proof (free_le n t s). lia.
Qed.
Print Assumptions C46_paired_equal_partial.

(** * The library's classes *)
Section Classes.
Variable H : heap.
Variable leaf_eq leaf_same : val -> val -> bool.
Lemma ask_agrees R leaf v w f : same_val H R leaf v w -> agrees R (f true) -> agrees R (ask H leaf v w f).
Proof. unfold same_val, ask. intros S A. destruct v; try (rewrite S; auto; fail). destruct w; try (rewrite S; auto; fail). destruct (_ && _); [constructor; auto|rewrite S; auto]. Qed.
Lemma all_agrees R leaf l k : Forall (fun p => same_val H R leaf (fst p) (snd p)) l -> agrees R k -> agrees R (all_equal H leaf l k).
Proof. intros F K. induction F as [|[v w] l S F IH]; cbn; auto. apply ask_agrees; auto. Qed.
Lemma Forall2_combine {A} (P : A -> A -> Prop) l m : Forall2 P l m -> Forall (fun p => P (fst p) (snd p)) (combine l m).
Proof. induction 1; cbn; constructor; auto. Qed.
Lemma Forall2_len' {A B} (P : A -> B -> Prop) l m : Forall2 P l m -> length l = length m.
Proof. induction 1; cbn; auto. Qed.
Lemma Forall2_nth {A B} (P : A -> B -> Prop) l m : Forall2 P l m -> forall n x, nth_error l n = Some x -> exists y, nth_error m n = Some y /\ P x y.
Proof. induction 1; intros [|n] z; cbn; try discriminate; [intros [= <-]; eauto|auto]. Qed.
Lemma dict_items_agrees R l m : (forall n v, In (n, v) l -> exists w, dget listN_eqb n m = Some w /\ same_val H R leaf_same v w) -> agrees R (dict_items_equal H leaf_same l m).
Proof.
  induction l as [|[n v] l IH]; intros S; cbn; [constructor|]. destruct (S n v (or_introl eq_refl)) as (w & -> & Q). apply ask_agrees; auto. apply IH. intros n' v' I. apply S. right. auto.
Qed.
Lemma jsobj_agrees R x y : arr_ok (jo_arr x) -> arr_ok (jo_arr y) -> same_jsobj H leaf_eq leaf_same R x y -> agrees R (objects_equal H leaf_eq leaf_same x y).
Proof.
  intros OX OY [F [L P]]. pose proof (Forall2_len' _ _ _ F) as LEN.
  assert (U : count_used (aabs (jo_arr x)) = count_used (aabs (jo_arr y))).
  { clear -F. induction F as [|a b la lb E F IH]; auto. rewrite !count_used_cons, IH. destruct a, b; cbn in *; auto; contradiction. }
  unfold objects_equal, jo_len. rewrite !arr_used_eq by auto. unfold zlen. rewrite L, U, Z.eqb_refl. cbn [negb].
  unfold arrays_equal. rewrite !arr_len_eq, !arr_used_eq by auto. unfold zlen. rewrite LEN, U, !Z.eqb_refl. cbn [negb]. apply all_agrees.
  - apply Forall_forall. intros p I. apply in_map_iff in I as (i & <- & I). cbn [fst snd]. apply arr_indexes_unordered_in in I; auto.
    destruct (occupied_get _ i OX I) as (v & G & Nv & B). rewrite G. destruct (Forall2_nth _ _ _ F _ _ Nv) as (e & Ne & Se). destruct e as [w|]; [|destruct Se].
    pose proof (arr_get_nat _ _ _ OY Ne) as GY. rewrite Z2Nat.id in GY by lia. rewrite GY. exact Se.
  - unfold dicts_equal. rewrite L, Nat.eqb_refl. cbn [negb]. apply dict_items_agrees. auto.
Qed.
Definition arrays_fine : Prop := forall o x, nth_error H o = Some (OObject x) \/ nth_error H o = Some (OArray x) -> arr_ok (jo_arr x).
Lemma node_agrees R a b x y : arrays_fine -> nth_error H a = Some x -> nth_error H b = Some y -> same_node H leaf_eq leaf_same R x y ->
  agrees R (class_eq H leaf_eq leaf_same a b).
Proof.
  intros AF Ha Hb S. unfold class_eq. rewrite Ha, Hb. destruct x; try contradiction; destruct y; try contradiction; cbn [same_node] in S.
  - pose proof (Forall2_len' _ _ _ S) as L. rewrite !map_length in L. rewrite L, Nat.eqb_refl. cbn [negb]. apply all_agrees; [|constructor].
    clear -S. induction S as [|[k v] [k' v'] l l' [P Q] F IH]; cbn; repeat constructor; auto.
  - pose proof (Forall2_len' _ _ _ S) as L. rewrite !map_length in L. rewrite L, Nat.eqb_refl. cbn [negb]. apply all_agrees; [|constructor]. apply Forall2_combine. auto.
  - apply jsobj_agrees; eauto.
  - apply jsobj_agrees; eauto.
  - destruct S as (<- & <- & <- & S). rewrite (proj2 (listN_eqb_spec name name) eq_refl).
    assert (O : forall z, opt_str_eqb z z = true). { intros [z|]; cbn; auto. apply listN_eqb_spec. auto. }
    rewrite !O. cbn [andb]. apply ask_agrees; auto. constructor.
Qed.
End Classes.
(** Two graphs of JSMap, JSSet, JSObject, JSArray and JSError objects, paired one-to-one and the same at every pair
    of nodes, compare equal. *)
Theorem C46_js_graphs_partial : forall H leaf_eq leaf_same t s R a b, arrays_fine H -> pairing R ->
  (forall a b, R a b -> exists x y, nth_error H a = Some x /\ nth_error H b = Some y /\ same_node H leaf_eq leaf_same R x y) ->
  (forall o, ~ In (o, t) s) -> R a b -> run (js_compare H leaf_eq leaf_same t a b) s = (Returned true, s).
Proof.
  intros H leaf_eq leaf_same t s R a b AF PR N Fr Rab. unfold js_compare.
  apply (C46_paired_equal_partial (class_eq H leaf_eq leaf_same) (class_sub H) (length H) t s R a b PR); auto.
  intros c d Q _. destruct (N c d Q) as (x & y & Hc & Hd & S). split; [apply nth_error_Some; congruence|]. split; [apply nth_error_Some; congruence|].
  split; [|eapply node_agrees; eauto]. unfold class_sub. rewrite Hc, Hd. destruct x, y; try contradiction; auto.
Qed.
Print Assumptions C46_js_graphs_partial.
(** Comparing values, for the examples: ints by value, everything else unequal. *)
Definition int_eq (v w : val) : bool := match v, w with VInt x, VInt y => (x =? y)%Z | _, _ => false end.
Definition linked (k : Z) (next : nat) : obj := OObject (mkObj (ADense (dense_init [Some (VInt k); Some (VRef next)])) []).
Lemma linked_fine ks : arrays_fine (map (fun p => linked (fst p) (snd p)) ks).
Proof.
  intros o x Q. assert (L : exists k nx, Some (linked k nx) = nth_error (map (fun p => linked (fst p) (snd p)) ks) o).
  { destruct (nth_error (map _ ks) o) as [y|] eqn:E; [|destruct Q; discriminate]. apply nth_error_In, in_map_iff in E as ([k nx] & <- & _). exists k, nx. auto. }
  destruct L as (k & nx & L). rewrite <- L in Q. destruct Q as [Q|Q]; [|discriminate]. injection Q as <-. apply dense_init_spec.
Qed.
(** Two rings of two objects, 0 -> 1 -> 0 and 2 -> 3 -> 2. *)
Definition rings : heap := map (fun p => linked (fst p) (snd p)) [(1%Z, 1); (2%Z, 0); (1%Z, 3); (2%Z, 2)].
Definition ring_pairs (a b : nat) : Prop := (a = 0 /\ b = 2) \/ (a = 1 /\ b = 3).
Lemma linked_same H (R : nat -> nat -> Prop) k nx k' nx' : is_decorated H nx = true -> is_decorated H nx' = true -> k = k' -> R nx nx' -> same_node H int_eq int_eq R (linked k nx) (linked k' nx').
Proof.
  intros D D' <- Q. split; [|split; [reflexivity|intros n v []]]. cbn. constructor; [cbn; apply Z.eqb_refl|]. constructor; [|constructor]. cbn. rewrite D, D'. cbn. auto.
Qed.
Example C46_case : arrays_fine rings /\ pairing ring_pairs /\
  (forall a b, ring_pairs a b -> exists x y, nth_error rings a = Some x /\ nth_error rings b = Some y /\ same_node rings int_eq int_eq ring_pairs x y) /\
  run (js_compare rings int_eq int_eq 7 0 2) [(0, 8)] = (Returned true, [(0, 8)]).
Proof.
  split; [apply linked_fine|]. split; [split; unfold ring_pairs; intros; lia|]. split; [|reflexivity].
  intros a b [[-> ->]|[-> ->]]; (do 2 eexists; split; [reflexivity|]; split; [reflexivity|]; apply linked_same; try reflexivity; unfold ring_pairs; auto).
Qed.

(** Without the condition that the structures do not overlap the claim fails: a ring of three objects compared with
    itself, one step on, although every node has the same content. *)
Definition ring3 : heap := map (fun p => linked (fst p) (snd p)) [(1%Z, 1); (1%Z, 2); (1%Z, 0)].
Definition next3 (a b : nat) : Prop := (a = 0 /\ b = 1) \/ (a = 1 /\ b = 2) \/ (a = 2 /\ b = 0).
Theorem C46_overlap_refuted : exists H (R : nat -> nat -> Prop) a b, arrays_fine H /\
  (forall a b c, R a b -> R a c -> b = c) /\ (forall a b c, R a c -> R b c -> a = b) /\
  (forall a b, R a b -> exists x y, nth_error H a = Some x /\ nth_error H b = Some y /\ same_node H int_eq int_eq R x y) /\
  R a b /\ run (js_compare H int_eq int_eq 0 a b) [] = (Returned false, []).
Proof.
  exists ring3, next3, 0, 1. split; [apply linked_fine|]. split; [unfold next3; intros; lia|]. split; [unfold next3; intros; lia|].
  split; [|split; [unfold next3; auto|reflexivity]].
  intros a b [[-> ->]|[[-> ->]|[-> ->]]]; (do 2 eexists; split; [reflexivity|]; split; [reflexivity|]; apply linked_same; try reflexivity; unfold next3; auto).
Qed.
Print Assumptions C46_overlap_refuted.
(** Nor does it hold when the pairing is not one-to-one: a ring of two against a ring of four with the same content. *)
Definition rings24 : heap := map (fun p => linked (fst p) (snd p)) [(1%Z, 1); (2%Z, 0); (1%Z, 3); (2%Z, 4); (1%Z, 5); (2%Z, 2)].
Definition fold24 (a b : nat) : Prop := (a = 0 /\ (b = 2 \/ b = 4)) \/ (a = 1 /\ (b = 3 \/ b = 5)).
Theorem C46_unfolded_refuted : exists H (R : nat -> nat -> Prop) a b, arrays_fine H /\
  (forall a b, R a b -> exists x y, nth_error H a = Some x /\ nth_error H b = Some y /\ same_node H int_eq int_eq R x y) /\
  (forall x, (exists y, R x y) -> (exists y, R y x) -> False) /\
  R a b /\ run (js_compare H int_eq int_eq 0 a b) [] = (Returned false, []).
Proof.
  exists rings24, fold24, 0, 2. split; [apply linked_fine|]. split; [|split; [unfold fold24; intros x [y P] [z Q]; lia|split; [unfold fold24; auto|reflexivity]]].
  intros a b [[-> [->| ->]]|[-> [->| ->]]]; (do 2 eexists; split; [reflexivity|]; split; [reflexivity|]; apply linked_same; try reflexivity; unfold fold24; auto).
Qed.
Print Assumptions C46_unfolded_refuted.
(** Objects that differ may compare equal: following "1" twice from 0 gives an object with 1 in its first element,
    from 2 one with 2, yet 0 == 2. *)
Definition crossed : heap := map (fun p => linked (fst p) (snd p)) [(1%Z, 1); (2%Z, 0); (1%Z, 3); (2%Z, 3)].
Definition first_of (H : heap) (o : nat) : option val := match nth_error H o with Some (OObject x) => match arr_get (jo_arr x) 0 with Ok v => v | Err _ => None end | _ => None end.
Definition next_of (H : heap) (o : nat) : option nat := match nth_error H o with Some (OObject x) => match arr_get (jo_arr x) 1 with Ok (Some (VRef n)) => Some n | _ => None end | _ => None end.
Theorem C46_unequal_refuted : exists H a b a1 b1 a2 b2, arrays_fine H /\ run (js_compare H int_eq int_eq 0 a b) [] = (Returned true, []) /\
  next_of H a = Some a1 /\ next_of H a1 = Some a2 /\ next_of H b = Some b1 /\ next_of H b1 = Some b2 /\
  first_of H a2 = Some (VInt 1) /\ first_of H b2 = Some (VInt 2).
Proof. exists crossed, 0, 2. do 4 eexists. split; [apply linked_fine|]. repeat split; reflexivity. Qed.
Print Assumptions C46_unequal_refuted.

(** * Acyclic structures: the guard changes nothing *)
(** Two structures that do not overlap (each object is on one side), in which the objects compared inside an object
    have a smaller rank. *)
Definition descending (n : nat) (wrapped : nat -> nat -> tree) (side : nat -> bool) (rank : nat -> nat) : Prop :=
  forall a b, a < n -> b < n -> side a <> side b ->
    asks (fun c d => c = d \/ (c < n /\ d < n /\ side c = side a /\ side d = side b /\ rank c < rank a /\ rank d < rank b)) (wrapped a b).
Lemma wp_mono subclass Inv Post (s : kset) w (Q Q' : outcome answer -> Prop) : (forall r, Q r -> Q' r) ->
  wp subclass Inv Post s w Q -> wp subclass Inv Post s w Q'.
Proof. intros M. induction w as [r|e|c d f IH]; cbn; auto. intros [P W]. split; auto. intros r O. specialize (W r O). destruct r; auto. Qed.
Scheme plain_mind := Minimality for plain Sort Prop
  with pfollow_mind := Minimality for pfollow Sort Prop
  with pop_mind := Minimality for pop Sort Prop.
Combined Scheme plain_mutind from plain_mind, pfollow_mind, pop_mind.
Lemma decided_fun r x y : decided r x -> decided r y -> x = y.
Proof. destruct 1; inversion 1; auto. Qed.
Lemma ordering_fun subclass a b x y x' y' : ordering subclass a b x y -> ordering subclass a b x' y' -> x = x' /\ y = y'.
Proof. unfold ordering. destruct (subclass a b); intros [-> ->] [-> ->]; auto. Qed.
Lemma plain_fun wrapped subclass :
  (forall a b r, plain wrapped subclass a b r -> forall r', plain wrapped subclass a b r' -> r = r') /\
  (forall w r, pfollow wrapped subclass w r -> forall r', pfollow wrapped subclass w r' -> r = r') /\
  (forall a b r, pop wrapped subclass a b r -> forall r', pop wrapped subclass a b r' -> r = r').
Proof.
  apply plain_mutind.
  - intros a r' P. inversion P; subst; congruence.
  - intros a b r N P IH r' P'. inversion P'; subst; [congruence|auto].
  - intros r r' P. inversion P. auto.
  - intros e r' P. inversion P. auto.
  - intros a b f x r O IH P IHP r' P'. inversion P' as [| |? ? ? x' ? O' P2|? ? ? e O']; subst.
    + apply IH in O'. injection O' as <-. auto.
    + apply IH in O'. discriminate.
  - intros a b f e O IH r' P'. inversion P' as [| |? ? ? x' ? O' P2|? ? ? e' O']; subst; apply IH in O'; congruence.
  - intros a b x y r1 r OD P IH D r' O'. inversion O' as [? ? x' y' r1' ? OD' P' D'|? ? x' y' r2 ? OD' P1 P2 D'|? ? x' y' OD' P1 P2]; subst;
      destruct (ordering_fun _ _ _ _ _ _ _ OD OD') as [<- <-].
    + apply IH in P' as <-. eapply decided_fun; eauto.
    + apply IH in P1 as ->. inversion D.
    + apply IH in P1 as ->. inversion D.
  - intros a b x y r2 r OD P1 IH1 P2 IH2 D r' O'. inversion O' as [? ? x' y' r1' ? OD' P' D'|? ? x' y' r2' ? OD' P1' P2' D'|? ? x' y' OD' P1' P2']; subst;
      destruct (ordering_fun _ _ _ _ _ _ _ OD OD') as [<- <-].
    + apply IH1 in P' as <-. inversion D'.
    + apply IH2 in P2' as <-. eapply decided_fun; eauto.
    + apply IH2 in P2' as ->. inversion D.
  - intros a b x y OD P1 IH1 P2 IH2 r' O'. inversion O' as [? ? x' y' r1' ? OD' P' D'|? ? x' y' r2' ? OD' P1' P2' D'|? ? x' y' OD' P1' P2']; subst;
      destruct (ordering_fun _ _ _ _ _ _ _ OD OD') as [<- <-]; auto.
    + apply IH1 in P' as <-. inversion D'.
    + apply IH2 in P2' as <-. inversion D'.
Qed.
(** On acyclic structures == gives exactly what it would give without the guard. *)
Theorem C46_acyclic_exact : forall wrapped subclass n side rank t s a b, descending n wrapped side rank ->
  (forall o, ~ In (o, t) s) -> a < n -> b < n -> side a <> side b ->
  exists r, (forall fuel, n < fuel -> run (compare wrapped subclass fuel t a b) s = (r, s)) /\
            forall r', pop wrapped subclass a b r' <-> r' = r.
Proof.
  intros wrapped subclass n side rank t s a b D Fr La Lb Sab.
  set (Inv := fun (s : kset) a b => a = b \/ (a < n /\ b < n /\ side a <> side b /\
     forall o, In (o, t) s -> (side o = side a -> rank a < rank o) /\ (side o = side b -> rank b < rank o))).
  set (Post := plain wrapped subclass).
  assert (SYM : forall s c d, Inv s c d -> Inv s d c).
  { intros s' c d [->|(Lc & Ld & S & F)]; [left; auto|right]. split; auto. split; auto. split; auto. intros o I. destruct (F o I). auto. }
  assert (PRE : forall s c d, Inv s c d -> opre subclass Inv Post s c d).
  { intros s' c d I. unfold opre. destruct (subclass c d); auto. }
  assert (OPOST : forall c d r, opost subclass Post c d r -> pop wrapped subclass c d r).
  { intros c d r. unfold opost. destruct (if subclass c d then (d, c) else (c, d)) as [x y] eqn:E.
    assert (OD : ordering subclass c d x y) by (unfold ordering; destruct (subclass c d); injection E as <- <-; auto).
    intros (r1 & P1 & V). destruct r1 as [[| |]|e|]; cbn in V; try contradiction; subst; try (eapply po_first; eauto; constructor).
    destruct V as (r2 & P2 & V). destruct r2 as [[| |]|e|]; try contradiction; subst; try (eapply po_second; eauto; constructor). eapply po_neither; eauto. }
  destruct (compare_gen wrapped subclass n t Inv Post) with (s := s) (a := a) (b := b) as (r & OR & N & S).
  - intros s' c d [->|(Lc & Ld & _)] Ne; [congruence|auto].
  - intros s' c _. apply pl_same.
  - intros s' c d [->|(Lc & Ld & S & F)] Ne [I|I]; try congruence; destruct (F _ I) as [A B]; [specialize (A eq_refl)|specialize (B eq_refl)]; lia.
  - intros s' c d [->|(Lc & Ld & S & F)] Ne Nc Nd; [congruence|]. specialize (D c d Lc Ld S).
    apply (wp_mono subclass) with (Q := pfollow wrapped subclass (wrapped c d)); [intros r; apply pl_run; auto|].
    induction (wrapped c d) as [r|e|x y f IH]; cbn; [constructor|constructor|]. destruct D as [Pxy D].
    split.
    + apply PRE. destruct Pxy as [->|(Lx & Ly & Sx & Sy & Rx & Ry)]; [left; auto|right]. split; auto. split; auto. split; [congruence|]. rewrite Sx, Sy.
      intros o [E|[E|I]].
      * injection E as <-. split; [congruence|auto].
      * injection E as <-. split; [auto|congruence].
      * destruct (F o I) as [FA FB]. split; intros Q; [specialize (FA Q)|specialize (FB Q)]; lia.
    + intros r O. apply OPOST in O. destruct r as [z|e|]; auto.
      * apply (wp_mono subclass) with (Q := pfollow wrapped subclass (f z)); [|apply IH; auto]. intros r. apply pf_ask. auto.
      * apply pf_ask_raise. auto.
  - apply PRE. right. split; auto. split; auto. split; auto. intros o I. destruct (Fr o I).
  - exists r. split; [intros fuel L; apply S; pose proof (free_le n t s); lia|]. intros r'. apply OPOST in OR. split; [|intros ->; auto].
    intros P. eapply (proj2 (proj2 (plain_fun wrapped subclass))); eauto.
Qed.
Print Assumptions C46_acyclic_exact.

(** * The library's classes, continued *)
Section Asks.
Variable H : heap.
Variable leaf_eq leaf_same : val -> val -> bool.
Lemma decorated_below o : is_decorated H o = true -> o < length H.
Proof. unfold is_decorated. intros D. apply nth_error_Some. destruct (nth_error H o); [discriminate|congruence]. Qed.
Lemma ask_asks (P : nat -> nat -> Prop) leaf v w f : (forall a b, v = VRef a -> w = VRef b -> is_decorated H a = true -> is_decorated H b = true -> P a b) ->
  (forall x, asks P (f x)) -> asks P (ask H leaf v w f).
Proof.
  intros Q F. unfold ask. destruct v; auto. destruct w; auto. destruct (is_decorated H oid && is_decorated H oid0) eqn:D; auto. apply andb_prop in D as [D1 D2]. cbn. auto.
Qed.
Lemma all_asks (P : nat -> nat -> Prop) leaf l k : (forall a b, In (VRef a, VRef b) l -> is_decorated H a = true -> is_decorated H b = true -> P a b) ->
  asks P k -> asks P (all_equal H leaf l k).
Proof.
  intros Q K. induction l as [|[v w] l IH]; cbn [all_equal]; auto. apply ask_asks; [intros a b -> ->; apply Q; left; auto|].
  intros [|]; cbn; auto. apply IH. intros a b I. apply Q. right. auto.
Qed.
Lemma dict_items_asks (P : nat -> nat -> Prop) l m :
  (forall a b n n', In (n, VRef a) l -> In (n', VRef b) m -> is_decorated H a = true -> is_decorated H b = true -> P a b) -> asks P (dict_items_equal H leaf_same l m).
Proof.
  intros Q. induction l as [|[n v] l IH]; cbn [dict_items_equal]; [exact I|]. destruct (dget listN_eqb n m) as [w|] eqn:G; [|exact I].
  assert (Im : exists n', In (n', w) m).
  { clear -G. induction m as [|[n' x] m IH]; cbn in G; [discriminate|]. destruct (listN_eqb n n'); [injection G as <-; exists n'; left; auto|]. destruct (IH G) as [z Z]. exists z. right. auto. }
  destruct Im as [n' Im]. apply ask_asks; [intros a b -> ->; eapply Q; eauto; left; auto|]. intros [|]; [apply IH|exact I]. intros a b z z' Iz Iz'. eapply Q; [right; exact Iz|exact Iz'].
Qed.
Lemma element_held a z v : arr_ok a -> of_element (arr_get a z) = VRef v -> In (Some (VRef v)) (aabs a).
Proof.
  intros O E. pose proof (arr_get_spec a z O) as G. destruct (position (aabs a) z) as [k|]; [|rewrite G in E; discriminate].
  destruct G as (w & N & G). rewrite G in E. destruct w as [w|]; [|discriminate]. cbn in E. subst. eapply nth_error_In; eauto.
Qed.
Lemma class_asks (P : nat -> nat -> Prop) a b : arrays_fine H ->
  (forall x y c d, nth_error H a = Some x -> nth_error H b = Some y -> holds x (VRef c) -> holds y (VRef d) -> is_decorated H c = true -> is_decorated H d = true -> P c d) ->
  asks P (class_eq H leaf_eq leaf_same a b).
Proof.
  intros AF Q. assert (OBJ : forall x y, nth_error H a = Some (OObject x) \/ nth_error H a = Some (OArray x) -> nth_error H b = Some (OObject y) \/ nth_error H b = Some (OArray y) -> asks P (objects_equal H leaf_eq leaf_same x y)).
  { intros x y Ha Hb. pose proof (AF _ _ Ha) as OX. pose proof (AF _ _ Hb) as OY.
    assert (Q' : forall c d, In (Some (VRef c)) (aabs (jo_arr x)) \/ (exists n, In (n, VRef c) (jo_props x)) -> In (Some (VRef d)) (aabs (jo_arr y)) \/ (exists n, In (n, VRef d) (jo_props y)) -> is_decorated H c = true -> is_decorated H d = true -> P c d).
    { intros c d Hc Hd Dc Dd. destruct Ha as [Ha|Ha], Hb as [Hb|Hb]; eapply (Q _ _ c d Ha Hb); eauto. }
    unfold objects_equal. destruct (negb _); [exact I|]. unfold arrays_equal. destruct (negb _); [exact I|]. destruct (negb _); [exact I|]. apply all_asks.
    - intros c d I. apply in_map_iff in I as (i & E & _). injection E as E1 E2. apply Q'; left; eapply element_held; eauto.
    - unfold dicts_equal. destruct (negb _); [exact I|]. apply dict_items_asks. intros c d n n' I1 I2. apply Q'; right; eauto. }
  unfold class_eq. destruct (nth_error H a) as [x|] eqn:Ha; [|exact I]. destruct (nth_error H b) as [y|] eqn:Hb; [|destruct x; exact I].
  destruct x; try exact I; destruct y; try exact I; auto.
  - destruct (negb _); [exact I|]. apply all_asks; [|exact I]. intros c d J.
    assert (F : forall l m, In (VRef c, VRef d) (flat_pairs (combine l m)) -> (exists k, In (k, VRef c) l \/ In (VRef c, k) l) /\ (exists k, In (k, VRef d) m \/ In (VRef d, k) m)).
    { clear. induction l as [|[k v] l IH]; intros [|[k' v'] m]; cbn; try contradiction. intros [E|[E|J]].
      - injection E as -> ->. split; [exists v|exists v']; auto.
      - injection E as -> ->. split; [exists k|exists k']; auto.
      - destruct (IH m J) as [[z [Z|Z]] [z' [Z'|Z']]]; split; eauto. }
    destruct (F _ _ J) as [F1 F2]. eapply Q; eauto.
  - destruct (negb _); [exact I|]. apply all_asks; [|exact I]. intros c d J. eapply Q; eauto; cbn; [eapply in_combine_l; eauto|eapply in_combine_r; eauto].
  - destruct (_ && _); [|exact I]. apply ask_asks; [intros c d -> ->; eapply Q; eauto; cbn; auto|]. intros [|]; exact I.
Qed.
End Asks.
(** Comparing any two objects of any heap ends, within as many nested calls as there are objects, and leaves the set
    of running comparisons as it was. *)
Theorem C46_js_terminates : forall H leaf_eq leaf_same t s a b, arrays_fine H -> a < length H -> b < length H ->
  exists r, r <> NoFuel /\ run (js_compare H leaf_eq leaf_same t a b) s = (r, s).
Proof.
  intros H leaf_eq leaf_same t s a b AF La Lb.
  destruct (C46_terminates_and_cleans_up (class_eq H leaf_eq leaf_same) (class_sub H) (length H) t s a b) as (r & N & E); auto.
  - intros c d _ _. apply class_asks; auto. intros x y o p _ _ _ _ Do Dp. split; apply decorated_below; auto.
  - exists r. split; auto. apply E. auto.
Qed.
Print Assumptions C46_js_terminates.
(** Two acyclic graphs without an object in common: == is the comparison of the contents, as without a guard. *)
Theorem C46_js_acyclic : forall H leaf_eq leaf_same (side : nat -> bool) (rank : nat -> nat) t s a b, arrays_fine H ->
  (forall o x c, nth_error H o = Some x -> holds x (VRef c) -> is_decorated H c = true -> side c = side o /\ rank c < rank o) ->
  (forall o, ~ In (o, t) s) -> a < length H -> b < length H -> side a <> side b ->
  exists r, run (js_compare H leaf_eq leaf_same t a b) s = (r, s) /\ forall r', pop (class_eq H leaf_eq leaf_same) (class_sub H) a b r' <-> r' = r.
Proof.
  intros H leaf_eq leaf_same side rank t s a b AF W Fr La Lb S.
  destruct (C46_acyclic_exact (class_eq H leaf_eq leaf_same) (class_sub H) (length H) side rank t s a b) as (r & E & P); auto.
  - intros c d Lc Ld Scd. apply class_asks; auto. intros x y o p Hc Hd Ho Hp Do Dp. right.
    destruct (W c x o Hc Ho Do), (W d y p Hd Hp Dp). repeat (split; [auto using decorated_below|]). auto.
  - exists r. split; auto. apply E. auto.
Qed.
Print Assumptions C46_js_acyclic.
(** Two chains 0 -> 1 and 2 -> 3, that differ at the end. *)
Definition chains : heap := [linked 1 1; OSet [(SNum 5 0, VInt 5)]; linked 1 3; OSet [(SNum 6 0, VInt 6)]].
Example C46_acyclic_case : arrays_fine chains /\
  (forall o x c, nth_error chains o = Some x -> holds x (VRef c) -> is_decorated chains c = true -> (2 <=? c) = (2 <=? o) /\ 4 - c < 4 - o) /\
  run (js_compare chains int_eq int_eq 0 0 2) [] = (Returned false, []).
Proof.
  split; [|split; [|reflexivity]].
  - intros o x Q. destruct o as [|[|[|[|o]]]]; cbn in Q; try (destruct o; cbn in Q); destruct Q as [Q|Q]; try discriminate; injection Q as <-; apply dense_init_spec.
  - intros o x c Ho Hc D. destruct o as [|[|[|[|o]]]]; cbn in Ho; try (destruct o; discriminate); injection Ho as <-; cbn in Hc;
      repeat match goal with X : _ \/ _ |- _ => destruct X | X : exists _, _ |- _ => destruct X | X : False |- _ => destruct X | X : _ = _ |- _ => progress (try discriminate X; injection X as X) end; subst; cbn; split; auto; lia.
Qed.

(** * C47 *)
(** Comparisons in threads with different ids, over the same objects, for every interleaving of their operations on
    the shared set, from any content [s] of the set:
    - a thread that has finished has the result it would have alone;
    - a thread finishes after at most the number of operations it would do alone;
    - the keys of the other threads are as they would be without the comparisons. *)
Theorem C47_independent : forall wrapped subclass fuel s (jobs : list (nat * (nat * nat))) sch, NoDup (map fst jobs) ->
  let c := schedule sch (map (fun j => compare wrapped subclass fuel (fst j) (fst (snd j)) (snd (snd j))) jobs, s) in
  (forall i t a b r, nth_error jobs i = Some (t, (a, b)) -> nth_error (fst c) i = Some (Finish r) ->
     fst (run (compare wrapped subclass fuel t a b) s) = r) /\
  (forall i t a b, nth_error jobs i = Some (t, (a, b)) -> cost (compare wrapped subclass fuel t a b) s <= count_occ Nat.eq_dec sch i ->
     exists r, nth_error (fst c) i = Some (Finish r)) /\
  (forall o u, ~ In u (map fst jobs) -> In (o, u) (snd c) <-> In (o, u) s).
Proof.
  intros wrapped subclass fuel s jobs sch ND c. set (pr := fun j : nat * (nat * nat) => compare wrapped subclass fuel (fst j) (fst (snd j)) (snd (snd j))) in *.
  destruct (schedule_inv (map fst jobs) ND (map pr jobs) s) with (sch := sch) as (L & I & O).
  { intros i t p T P. rewrite nth_error_map in T, P. destruct (nth_error jobs i) as [[t' [a b]]|]; [|discriminate]. injection T as <-. injection P as <-. apply compare_local. }
  { rewrite !map_length. auto. }
  fold c in L, I, O. split; [|split; auto].
  - intros i t a b r J F. assert (T : nth_error (map fst jobs) i = Some t) by (rewrite nth_error_map, J; auto).
    assert (P : nth_error (map pr jobs) i = Some (compare wrapped subclass fuel t a b)) by (rewrite nth_error_map, J; auto).
    destruct (I i t _ _ T P F) as (_ & s' & _ & R & _). rewrite <- R. reflexivity.
  - intros i t a b J C. assert (T : nth_error (map fst jobs) i = Some t) by (rewrite nth_error_map, J; auto).
    assert (P : nth_error (map pr jobs) i = Some (compare wrapped subclass fuel t a b)) by (rewrite nth_error_map, J; auto).
    destruct (nth_error (fst c) i) as [q|] eqn:Q.
    + destruct (I i t _ _ T P Q) as (_ & s' & _ & _ & CQ). unfold count_i in CQ. assert (Z : cost q s' = 0) by lia. apply cost_zero in Z as (r & -> & _). eauto.
    + apply nth_error_None in Q. assert (i < length jobs) by (apply nth_error_Some; congruence). rewrite map_length in L. lia.
Qed.
Print Assumptions C47_independent.
(** When all have finished, the set is what it was, if the methods of the [n] objects only compare these objects. *)
Theorem C47_cleans_up : forall wrapped subclass n fuel s (jobs : list (nat * (nat * nat))) sch, NoDup (map fst jobs) ->
  (forall a b, a < n -> b < n -> asks (below n) (wrapped a b)) -> Forall (fun j => below n (fst (snd j)) (snd (snd j))) jobs -> n < fuel ->
  let c := schedule sch (map (fun j => compare wrapped subclass fuel (fst j) (fst (snd j)) (snd (snd j))) jobs, s) in
  (forall p, In p (fst c) -> exists r, p = Finish r) -> forall k, In k (snd c) <-> In k s.
Proof.
  intros wrapped subclass n fuel s jobs sch ND A B Lf c All [o u]. set (pr := fun j : nat * (nat * nat) => compare wrapped subclass fuel (fst j) (fst (snd j)) (snd (snd j))) in *.
  destruct (schedule_inv (map fst jobs) ND (map pr jobs) s) with (sch := sch) as (L & I & O).
  { intros i t p T P. rewrite nth_error_map in T, P. destruct (nth_error jobs i) as [[t' [a b]]|]; [|discriminate]. injection T as <-. injection P as <-. apply compare_local. }
  { rewrite !map_length. auto. }
  fold c in L, I, O. destruct (in_dec Nat.eq_dec u (map fst jobs)) as [J|J]; [|apply O; auto].
  apply In_nth_error in J as [i T]. pose proof T as T'. rewrite nth_error_map in T. destruct (nth_error jobs i) as [[t [a b]]|] eqn:J; [|discriminate]. injection T as <-.
  assert (P : nth_error (map pr jobs) i = Some (compare wrapped subclass fuel t a b)) by (rewrite nth_error_map, J; auto).
  destruct (nth_error (fst c) i) as [q|] eqn:Q.
  2:{ apply nth_error_None in Q. assert (i < length jobs) by (apply nth_error_Some; congruence). rewrite map_length in L. lia. }
  destruct (I i _ _ _ T' P Q) as (_ & s' & AG & R & _). destruct (All q (nth_error_In _ _ Q)) as [r ->]. cbn in R.
  rewrite Forall_forall in B. destruct (B _ (nth_error_In _ _ J)) as [La Lb]. cbn in La, Lb.
  destruct (C46_terminates_and_cleans_up wrapped subclass n t s a b A La Lb) as (r' & _ & E). rewrite (E fuel Lf) in R. injection R as _ ->. apply AG.
Qed.
Print Assumptions C47_cleans_up.
(** Two threads comparing the same two rings, one operation each in turn. *)
Example C47_case : let c := schedule (concat (repeat [0; 1] 40)) ([js_compare rings int_eq int_eq 7 0 2; js_compare rings int_eq int_eq 8 0 3], []) in
  fst c = [Finish (Returned true); Finish (Returned false)] /\ snd c = [].
Proof. split; reflexivity. Qed.
