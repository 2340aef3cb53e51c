(** Comparing what loads returned with what was dumped: for C73. *)
From Coq Require Import List NArith ZArith Bool Arith Lia Permutation.
From Verif Require Import Base Dict ModelTags SpecNumber SpecArray ModelArray ArrayFacts ArrayFacts2 ArrayFacts3 ModelValue ValueFacts KeyFacts ModelObject
  ModelMap ModelBuffer BufferFacts ModelHeap ModelDecode ModelEncode SpecEncode SpecGraph HashFacts ModelTyped SpecTyped ModelViewEq SpecViewEq Prop_ViewEq
  ModelEq SpecEq EqFacts ModelMixedEq SpecMixedEq MixedEqFacts ModelPyEq SpecPyEq.
Import ListNotations.
Open Scope nat_scope.

(** * A symmetric pairing: either side's __eq__ may give NotImplemented *)
Lemma sym_equal wrapped subclass n t s (R : nat -> nat -> Prop) a b :
  (forall a b, R a b -> R b a) -> (forall a b c, R a b -> R a c -> b = c) ->
  (forall a b, R a b -> a <> b /\ a < n /\ b < n /\ subclass a b = false /\
     (agrees R (wrapped a b) \/ (wrapped a b = Done NotImpl /\ agrees R (wrapped b a)))) ->
  (forall o, ~ In (o, t) s) -> R a b -> forall fuel, n < fuel -> run (compare wrapped subclass fuel t a b) s = (Returned true, s).
Proof.
  intros SY FU A Fr Rab fuel L.
  set (rel := fun a b => a = b \/ R a b).
  set (Inv := fun (s : kset) a b => rel a b /\ forall c d, R c d -> (In (c, t) s <-> In (d, t) s)).
  set (Post := fun a b r => r = Returned Yes \/ (r = Returned NotImpl /\ a <> b /\ wrapped a b = Done NotImpl /\ agrees R (wrapped b a))).
  assert (NN : forall c d, agrees R (wrapped c d) -> wrapped c d <> Done NotImpl) by (intros c d AG E; rewrite E in AG; inversion AG).
  assert (OP : forall c d r, rel c d -> opost subclass Post c d r -> r = Returned true).
  { intros c d r Q. unfold opost. assert (SB : subclass c d = false \/ c = d) by (destruct Q as [->|Q]; [auto|left; apply (A c d Q)]).
    destruct SB as [-> | <-].
    - intros (r1 & [->|(-> & N1 & W1 & AG)] & V); [exact V|]. destruct V as (r2 & [->|(-> & _ & W2 & _)] & V); [exact V|]. elim (NN d c AG W2).
    - replace (if subclass c c then (c, c) else (c, c)) with (c, c) by (destruct (subclass c c); auto).
      intros (r1 & [->|(_ & N1 & _)] & V); [exact V|congruence]. }
  assert (PRE : forall s c d, Inv s c d -> opre subclass Inv Post s c d).
  { intros s' c d I. assert (SW : Inv s' d c) by (destruct I as [[->|Q] B]; split; auto; [left|right]; auto). unfold opre. destruct (subclass c d); auto. }
  destruct (compare_gen wrapped subclass n t Inv Post) with (s := s) (a := a) (b := b) as (r & OR & N & S1).
  - intros s' c d [[->|Q] _] Ne; [congruence|]. destruct (A c d Q) as (_ & ? & ? & _). auto.
  - intros. left. auto.
  - intros s' c d [[->|Q] Bal] Ne RUN; [congruence|]. specialize (Bal c d Q). assert (B : In (c, t) s' /\ In (d, t) s') by tauto. destruct B as [B1 B2].
    apply kmem_In in B1, B2. rewrite B1, B2. left. reflexivity.
  - intros s' c d [[->|Q] Bal] Ne Nc Nd; [congruence|]. destruct (A c d Q) as (_ & _ & _ & _ & AG).
    destruct AG as [AG|[W AG]]; [|rewrite W; cbn [wp]; right; auto].
    assert (Bal' : forall x y, R x y -> (In (x, t) ((d, t) :: (c, t) :: s') <-> In (y, t) ((d, t) :: (c, t) :: s'))).
    { assert (HALF : forall x y, R x y -> In (x, t) ((d, t) :: (c, t) :: s') -> In (y, t) ((d, t) :: (c, t) :: s')).
      { intros x y Rxy [E|[E|I]].
        - injection E as <-. rewrite (FU d y c Rxy (SY _ _ Q)). cbn. auto.
        - injection E as <-. rewrite (FU c y d Rxy Q). cbn. auto.
        - right. right. apply (Bal x y Rxy). auto. }
      intros x y Rxy. split; apply HALF; auto. }
    assert (WP : forall Q : outcome answer -> Prop, Q (Returned Yes) -> wp subclass Inv Post ((d, t) :: (c, t) :: s') (wrapped c d) Q).
    { intros P PY. induction AG as [|x y f Rxy AG IH]; cbn [wp]; auto. split; [apply PRE; split; auto|]. intros r OR. apply OP in OR as ->; auto. }
    apply WP. left. auto.
  - apply PRE. split; [right; auto|]. intros c d _. split; intros X; exfalso; eapply Fr; eauto.
  - apply OP in OR as ->; [|right; auto]. apply S1. pose proof (free_le n t s). lia.
Qed.

(** Without cycles the pairing need not be one-to-one: nothing that is being compared is inside itself. [up x a]: x is outside a. *)
Lemma tree_equal wrapped subclass n t s (R up : nat -> nat -> Prop) a b :
  (forall a b, R a b -> R b a) -> (forall a b, R a b -> ~ up a a) ->
  (forall a b, R a b -> let R' c d := R c d /\ forall x, x = a \/ x = b \/ (up x a /\ up x b) -> up x c /\ up x d in
     a <> b /\ a < n /\ b < n /\ subclass a b = false /\
     (agrees R' (wrapped a b) \/ (wrapped a b = Done NotImpl /\ agrees R' (wrapped b a)))) ->
  (forall o, ~ In (o, t) s) -> R a b -> forall fuel, n < fuel -> run (compare wrapped subclass fuel t a b) s = (Returned true, s).
Proof.
  intros SY IR A Fr Rab fuel L.
  set (Inv := fun (s : kset) a b => a = b \/ (R a b /\ forall x, In (x, t) s -> up x a /\ up x b)).
  set (rel := fun a b => a = b \/ R a b).
  set (Post := fun a b r => r = Returned Yes \/ (r = Returned NotImpl /\ a <> b /\ wrapped a b = Done NotImpl /\ exists R, agrees R (wrapped b a))).
  assert (NN : forall R c d, agrees R (wrapped c d) -> wrapped c d <> Done NotImpl) by (intros R' c d AG E; rewrite E in AG; inversion AG).
  assert (OP : forall c d r, rel c d -> opost subclass Post c d r -> r = Returned true).
  { intros c d r Q. unfold opost. assert (SB : subclass c d = false \/ c = d) by (destruct Q as [->|Q]; [auto|left; apply (A c d Q)]).
    destruct SB as [-> | <-].
    - intros (r1 & [->|(-> & N1 & W1 & R' & AG)] & V); [exact V|]. destruct V as (r2 & [->|(-> & _ & W2 & _)] & V); [exact V|]. elim (NN R' d c AG W2).
    - replace (if subclass c c then (c, c) else (c, c)) with (c, c) by (destruct (subclass c c); auto).
      intros (r1 & [->|(_ & N1 & _)] & V); [exact V|congruence]. }
  assert (PRE : forall s c d, Inv s c d -> opre subclass Inv Post s c d).
  { intros s' c d I. assert (SW : Inv s' d c) by (destruct I as [->|[Q B]]; [left; auto|right; split; auto; intros x X; destruct (B x X); auto]).
    unfold opre. destruct (subclass c d); auto. }
  assert (SUB : forall s c d, Inv s c d -> rel c d) by (intros s' c d [->|[Q _]]; [left|right]; auto).
  destruct (compare_gen wrapped subclass n t Inv Post) with (s := s) (a := a) (b := b) as (r & OR & N & S1).
  - intros s' c d [->|[Q _]] Ne; [congruence|]. destruct (A c d Q) as (_ & ? & ? & _). auto.
  - intros. left. auto.
  - intros s' c d [->|[Q B]] Ne RUN; [congruence|]. exfalso.
    destruct RUN as [RUN|RUN]; apply B in RUN as [U1 U2]; [apply (IR c d Q); auto|apply (IR d c (SY _ _ Q)); auto].
  - intros s' c d [->|[Q B]] Ne Nc Nd; [congruence|]. destruct (A c d Q) as (_ & _ & _ & _ & AG).
    destruct AG as [AG|[W AG]]; [|rewrite W; cbn [wp]; right; eauto].
    assert (WP : forall P : outcome answer -> Prop, P (Returned Yes) -> wp subclass Inv Post ((d, t) :: (c, t) :: s') (wrapped c d) P).
    { intros P PY. induction AG as [|x y f Rxy AG IH]; cbn [wp]; auto. assert (I : Inv ((d, t) :: (c, t) :: s') x y).
      { destruct Rxy as [->|[Rxy U]]; [left; auto|]. right. split; auto. intros z Z. apply U. destruct Z as [Z|[Z|Z]]; [injection Z; auto|injection Z; auto|auto]. }
      split; [apply PRE; auto|]. intros r OR. apply OP in OR as ->; eauto. }
    apply WP. left. auto.
  - apply PRE. right. split; auto. intros x X. elim (Fr x X).
  - apply OP in OR as ->; [|right; auto]. apply S1. pose proof (free_le n t s). lia.
Qed.
Lemma agrees_mono (R R' : nat -> nat -> Prop) w : (forall a b, R a b -> R' a b) -> agrees R w -> agrees R' w.
Proof. intros M A. induction A as [|a b f [->|Q] A IH]; constructor; auto. Qed.

(** * When the __eq__ methods of ModelMixedEq say yes *)
Section Nodes.
Variable H : heap.
Variable leaf : val -> val -> bool.
Variable R : nat -> nat -> Prop.
(** Values that are equal, given that the related objects are. *)
Definition mval (v w : val) : Prop :=
  match v, w with
  | VRef a, VRef b => if followed H a b then R a b else leaf v w = true
  | _, _ => leaf v w = true
  end.
Lemma mask_agrees v w f : mval v w -> agrees R (f true) -> agrees R (mask H leaf v w f).
Proof. unfold mval, mask. intros S A. destruct v; try (rewrite S; auto; fail). destruct w; try (rewrite S; auto; fail). destruct (followed _ _ _); [constructor; auto|rewrite S; auto]. Qed.
Lemma mall_agrees l k : Forall (fun p => mval (fst p) (snd p)) l -> agrees R k -> agrees R (mall H leaf l k).
Proof. intros F A. induction F as [|[v w] l S F IH]; cbn [mall]; auto. apply mask_agrees; auto. Qed.
Lemma combine_mval l m : Forall2 mval l m -> Forall (fun p => mval (fst p) (snd p)) (combine l m).
Proof. induction 1; cbn; constructor; auto. Qed.
Definition mpair (p q : val * val) : Prop := mval (fst p) (fst q) /\ mval (snd p) (snd q).
Lemma flat_mval l m : Forall2 mpair l m -> Forall (fun p => mval (fst p) (snd p)) (flat_pairs (combine l m)).
Proof. induction 1 as [|[k v] [k' v'] l m [A B] F IH]; cbn; constructor; auto. Qed.
Definition melem (x y : option val) : Prop := match x, y with Some v, Some w => mval v w | None, None => True | _, _ => False end.
Definition mprop (p q : list N * val) : Prop := fst p = fst q /\ mval (snd p) (snd q).
Lemma mprops_agrees l m : (forall n v, In (n, v) l -> exists w, dget listN_eqb n m = Some w /\ mval v w) -> agrees R (mprops H leaf l m).
Proof.
  induction l as [|[n v] l IH]; intros S; cbn [mprops]; [constructor|]. destruct (S n v (or_introl eq_refl)) as (w & -> & Q). apply mask_agrees; auto.
  apply IH. intros n' v' I. apply S. right. auto.
Qed.
Lemma mobjects_agrees x y : arr_ok (jo_arr x) -> arr_ok (jo_arr y) -> Forall2 melem (aabs (jo_arr x)) (aabs (jo_arr y)) ->
  Forall2 mprop (jo_props x) (jo_props y) -> NoDup (map fst (jo_props y)) -> agrees R (mobjects H leaf leaf x y).
Proof.
  intros OX OY F P ND. pose proof (Forall2_length' _ _ _ F) as LEN. pose proof (Forall2_length' _ _ _ P) as L.
  assert (U : count_used (aabs (jo_arr x)) = count_used (aabs (jo_arr y))).
  { clear -F. induction F as [|a b la lb E F IH]; auto. rewrite !count_used_cons, IH. destruct a, b; cbn in *; auto; contradiction. }
  unfold mobjects, jo_len. rewrite !arr_used_eq by auto. unfold ModelArray.zlen. rewrite L, U, Z.eqb_refl. cbn [negb].
  unfold marrays. rewrite !arr_len_eq, !arr_used_eq by auto. unfold ModelArray.zlen. rewrite LEN, U, !Z.eqb_refl. cbn [negb]. apply mall_agrees.
  - apply Forall_forall. intros p I. apply in_map_iff in I as (i & <- & I). cbn [fst snd]. apply arr_indexes_unordered_in in I; auto.
    destruct (occupied_get _ i OX I) as (v & G & Nv & B). rewrite G.
    assert (exists e, nth_error (aabs (jo_arr y)) (Z.to_nat i) = Some e /\ melem (Some v) e) as (e & Ne & Se).
    { revert Nv. generalize (Z.to_nat i). clear -F. induction F as [|a b la lb E F IH]; intros [|k] Nv; try discriminate; cbn in *; [injection Nv as ->; eauto|auto]. }
    destruct e as [w|]; [|destruct Se].
    pose proof (arr_get_nat _ _ _ OY Ne) as GY. rewrite Z2Nat.id in GY by lia. rewrite GY. exact Se.
  - rewrite Nat.eqb_refl. cbn [negb]. apply mprops_agrees. clear -P ND. intros n v I. induction P as [|[a v1] [b w1] la lb [E1 E2] P IH]; [destruct I|].
    cbn [fst snd map] in *. subst b. inversion ND as [|? ? N1 N2]; subst. cbn [dget]. destruct I as [E|I].
    + injection E as -> ->. rewrite (proj2 (listN_eqb_spec n n) eq_refl). eauto.
    + destruct (listN_eqb n a) eqn:Q; [|auto]. apply listN_eqb_spec in Q. subst a. exfalso. apply N1.
      clear -I P. induction P as [|[a v1] [b w1] la lb [E1 _] P IH]; [destruct I|]. cbn in *. subst b. destruct I as [E|I]; [injection E as -> _; auto|auto].
Qed.

Context {K : Type}.
Variable keqb : K -> K -> bool.
Hypothesis keqb_spec : forall a b, keqb a b = true <-> a = b.
Variable dict_key : val -> option K.
(** JSMap and dict, JSSet and set: the same items in the same order *)
Lemma map_agrees ms l : Forall2 mpair ms l -> NoDup (map (fun p => dict_key (fst p)) l) ->
  Forall2 (fun p q => dict_key (fst p) = None \/ dict_key (fst p) = dict_key (fst q)) ms l -> agrees R (map_vs_dict keqb H dict_key leaf ms l).
Proof.
  intros F ND FK. pose proof (Forall2_length' _ _ _ F) as L. unfold map_vs_dict. rewrite L, Nat.eqb_refl. cbn [negb].
  destruct (dict_of keqb dict_key [] ms) as [d|] eqn:D; [|apply mall_agrees; [apply flat_mval; auto|constructor]].
  assert (HK : forall k v, In (k, v) ms -> dict_key k <> None).
  { intros k v I N. assert (X : dict_of keqb dict_key [] ms = None) by (apply dict_of_none; eauto). congruence. }
  assert (E : map (fun p => dict_key (fst p)) ms = map (fun p => dict_key (fst p)) l).
  { clear -FK HK. induction FK as [|[k v] [k' v'] ms l [E|E] FK IH]; cbn in *; auto; [elim (HK k v); auto|]. f_equal; auto. apply IH. intros. eapply HK; eauto. }
  destruct (hashable_keys dict_key ms HK) as [ks KS]. unfold keys in KS.
  assert (NoDup ks) as NK by (apply NoDup_some; rewrite <- KS, E; auto).
  assert (LK : length ks = length ms) by (rewrite <- (map_length Some ks), <- KS, map_length; auto).
  rewrite (dict_of_nodup keqb keqb_spec dict_key ms ks [] d KS NK) by auto. cbn [app].
  rewrite combine_length, map_length, LK, Nat.min_id, L, Nat.eqb_refl. cbn [negb].
  assert (G : forall ks' ms' l', incl l' l -> map (fun p => dict_key (fst p)) l' = map Some ks' -> Forall2 mpair ms' l' ->
    agrees R (mdict keqb H dict_key leaf (combine ks' (map snd ms')) l)).
  { clear -keqb_spec ND. intros ks' ms' l' IN KS F. revert ks' IN KS. induction F as [|[k v] [k' w] ms l' [M1 M2] F IH]; intros [|x ks'] IN KS; try discriminate; cbn [map combine snd mdict]; try constructor.
    cbn [map fst] in KS. injection KS as K1 K2. rewrite (find_nodup keqb keqb_spec dict_key x l k' w ND (IN _ (or_introl eq_refl)) K1). apply mask_agrees; [exact M2|].
    apply IH; auto. intros y I. apply IN. right. auto. }
  apply (G ks ms l); auto; [intros y I; exact I|]. rewrite <- E. exact KS.
Qed.
Lemma set_agrees ms l : Forall2 mval ms l -> NoDup (map dict_key l) -> (forall v, In v l -> dict_key v <> None) ->
  Forall2 (fun p q => dict_key p = None \/ dict_key p = dict_key q) ms l -> agrees R (set_vs_set keqb H dict_key leaf ms l).
Proof.
  intros F ND HL FK. pose proof (Forall2_length' _ _ _ F) as L.
  destruct (set_of keqb dict_key [] ms) as [s|] eqn:D.
  - assert (HK : forall v, In v ms -> dict_key v <> None).
    { intros v I N. assert (X : set_of keqb dict_key [] ms = None) by (apply set_of_none; eauto). congruence. }
    assert (E : map dict_key ms = map dict_key l).
    { clear -FK HK. induction FK as [|k k' ms l [E|E] FK IH]; cbn in *; auto; [elim (HK k); auto|]. f_equal; auto. }
    destruct (set_vs_set_hashable keqb keqb_spec H dict_key (fun _ _ => false) leaf ms l HK ND) as (z & Z1 & Z2).
    assert (z = true) as -> by (apply Z2; exists l; auto).
    unfold set_vs_set in *. rewrite L, Nat.eqb_refl in *. cbn [negb] in *. rewrite D in *. cbn [decide] in Z1. injection Z1 as ->. constructor.
  - unfold set_vs_set. rewrite L, Nat.eqb_refl. cbn [negb]. rewrite D. apply mall_agrees; [apply combine_mval; auto|constructor].
Qed.
End Nodes.
