(** Building what describes a graph gives a graph that stands for it. *)
From Coq Require Import List NArith ZArith Bool Lia ZifyBool ZifyNat ZifyN Sorting.Sorted.
From Verif Require Import Base Dict ModelTags ModelPrim SpecPrim PrimFacts SpecNumber SpecArray ModelLog ModelArray ArrayFacts ArrayFacts2 ArrayFacts3 ModelValue ValueFacts KeyFacts SpecKey SpecMap
  ModelObject ModelMap MapFacts ModelBuffer BufferFacts ModelHeap ModelDecode SpecWire SpecBuild BuildFacts DecodeSound ModelEncode SpecEncode SpecFail HashFacts
  EncodeFacts EncodeFacts2 SpecGraph ArrayBuild BuildPut.
Import ListNotations.
Open Scope N_scope.

(** * Numbers *)
Lemma same_number_sym a b : same_number a b -> same_number b a.
Proof. rewrite <- !num_key_eq. congruence. Qed.
Lemma same_number_trans a b c : same_number a b -> same_number b c -> same_number a c.
Proof. rewrite <- !num_key_eq. congruence. Qed.
Lemma same_number_refl a : same_number a a.
Proof. apply num_key_eq. reflexivity. Qed.
Lemma js_same_refl bo a : js_same bo a a.
Proof. unfold js_same. destruct (number_of a) eqn:N; [apply same_number_refl|]. destruct a; auto. Qed.
Lemma js_same_sym bo a b : js_same bo a b -> js_same bo b a.
Proof.
  unfold js_same. destruct (number_of a) eqn:Na, (number_of b) eqn:Nb; auto; [apply same_number_sym|].
  destruct a, b; auto; intros E; try discriminate. destruct E as [->|(c & A & B)]; eauto.
Qed.
Lemma js_same_trans a b c : js_same no_bytes a b -> js_same no_bytes b c -> js_same no_bytes a c.
Proof.
  unfold js_same, no_bytes. destruct (number_of a) eqn:Na, (number_of b) eqn:Nb, (number_of c) eqn:Nc; auto; try contradiction.
  - apply same_number_trans.
  - destruct a, b; try discriminate; destruct c; intros E F; try congruence.
    destruct E as [->|(? & E & _)]; [|discriminate]. destruct F as [->|(? & F & _)]; [auto|discriminate].
Qed.

(** * Relations and heaps *)
Definition rel (R : list (nat * val)) : nat -> val -> Prop := fun o u => In (o, u) R.
Definition loc (u : val) : list nat := match u with VRef j => [j] | _ => [] end.
Definition locs (R : list (nat * val)) : list nat := flat_map (fun p => loc (snd p)) R.
(** [h'] has the objects of [h] outside [P]. *)
Definition agree (P : list nat) (h h' : heap) : Prop := forall j, (j < length h)%nat -> ~ In j P -> nth_error h' j = nth_error h j.
Lemma agree_refl P h : agree P h h. Proof. intros j _ _. auto. Qed.
Lemma locs_app R S : locs (R ++ S) = locs R ++ locs S.
Proof. unfold locs. apply flat_map_app. Qed.
Lemma in_locs R o j : In (o, VRef j) R -> In j (locs R).
Proof. intros I. apply in_flat_map. exists (o, VRef j). split; auto. left. auto. Qed.
Lemma locs_inj R o o' j : NoDup (locs R) -> In (o, VRef j) R -> In (o', VRef j) R -> o = o'.
Proof.
  induction R as [|[p u] R IH]; intros N A B; [contradiction|]. unfold locs in N. cbn [flat_map snd] in N. fold (locs R) in N.
  assert (Nr : NoDup (locs R)) by (destruct u; cbn [loc app] in N; auto; inversion N; auto).
  destruct A as [A|A], B as [B|B]; try congruence; auto.
  - injection A as -> ->. cbn [loc app] in N. inversion N. apply in_locs in B. contradiction.
  - injection B as -> ->. cbn [loc app] in N. inversion N. apply in_locs in A. contradiction.
Qed.
Lemma heap_set_same h i c : (i < length h)%nat -> nth_error (heap_set h i c) i = Some c.
Proof. revert i. induction h as [|x h IH]; intros [|i] L; cbn in *; try lia; auto. apply IH. lia. Qed.
Lemma heap_set_other h i c j : j <> i -> nth_error (heap_set h i c) j = nth_error h j.
Proof. revert i j. induction h as [|x h IH]; intros [|i] [|j] L; cbn; auto; try lia. Qed.

(** Monotony. *)
Section Mono.
Variables H h : heap.
Variable cfg : ecfg.
Variable dcfg : ModelDecode.dcfg.
Variable node : bool.
Variable rep : val -> val -> Prop.
Lemma image_mono (R R' : nat -> val -> Prop) v v' : (forall o u, R o u -> R' o u) -> image rep R v v' -> image rep R' v v'.
Proof. intros M (v0 & A & B). exists v0. split; auto. destruct v0; auto. Qed.
Lemma Forall2_weaken {A B} (P Q : A -> B -> Prop) l m : (forall x y, P x y -> Q x y) -> Forall2 P l m -> Forall2 Q l m.
Proof. intros I. induction 1; constructor; auto. Qed.
Lemma object_image_mono (R R' : nat -> val -> Prop) x u : (forall o u, R o u -> R' o u) ->
  object_image H h cfg dcfg node rep R x u -> object_image H h cfg dcfg node rep R' x u.
Proof.
  intros M. pose proof (fun v v' => image_mono R R' v v' M) as IM.
  assert (PM : forall l m, Forall2 (pair_image rep R) l m -> Forall2 (pair_image rep R') l m).
  { intros l m. apply Forall2_weaken. intros a b [A B]. split; auto. }
  assert (QM : forall l m, Forall2 (prop_image rep R) l m -> Forall2 (prop_image rep R') l m).
  { intros l m. apply Forall2_weaken. intros a b [A B]. split; auto. }
  assert (VM : forall l m, Forall2 (image rep R) l m -> Forall2 (image rep R') l m).
  { intros l m. apply Forall2_weaken. auto. }
  assert (CM : forall y, cell_image H h cfg dcfg node rep R x y -> cell_image H h cfg dcfg node rep R' x y).
  { intros y. unfold cell_image. destruct x, y; auto.
    - intros (A & B). auto.
    - intros (A & B & C). auto.
    - intros (A & B & C & D). auto.
    - destruct (if node then _ else _); auto. intros (A & B & C & D & E). split; auto.
    - intros [A B]. auto. }
  unfold object_image. destruct x; auto; intros (j & y & -> & E & C); exists j, y; auto.
Qed.
End Mono.

(** A smaller choice of representatives. *)
Section Rep.
Variable H : heap.
Variable cfg : ecfg.
Variables refs node : bool.
Variable root : val.
Variables rep rep' : val -> val -> Prop.
Notation occ := (occurs H root).
Hypothesis Sub : forall v v0, occ v -> rep v v0 -> rep' v v0.
Hypothesis RepOcc : forall v v0, occ v -> rep v v0 -> occ v0.
Lemma child o x v : occ (VRef o) -> nth_error H o = Some x -> In v (children x) -> occ v.
Proof. intros. eapply occ_child; eauto. Qed.
Lemma childs o x l : occ (VRef o) -> nth_error H o = Some x -> incl l (children x) -> Forall occ l.
Proof. intros O Hx I. apply Forall_forall. intros v Iv. eapply child; eauto. Qed.
Lemma flat_app l m : flat (l ++ m) = flat l ++ flat m.
Proof. apply flat_map_app. Qed.
Lemma describes_rep :
  (forall open key v r w r', describes H cfg refs node rep open key v r w r' -> occ v -> describes H cfg refs node rep' open key v r w r') /\
  (forall open key v r w r', writes H cfg refs node rep open key v r w r' -> occ v -> writes H cfg refs node rep' open key v r w r') /\
  (forall open l r ws r', wvals_of H cfg refs node rep open l r ws r' -> Forall occ l -> wvals_of H cfg refs node rep' open l r ws r') /\
  (forall open key l r ps r', wpairs_of H cfg refs node rep open key l r ps r' -> Forall occ (flat l) -> wpairs_of H cfg refs node rep' open key l r ps r').
Proof.
  apply describes_mutind; intros.
  all: try solve [econstructor; eauto].
  - eapply wr_errorc; eauto. match goal with X : occ _ -> describes _ _ _ _ rep' _ _ c _ _ _ |- _ => apply X end.
    eapply child; eauto. destruct c; try congruence; left; auto.
  - eapply wr_object; eauto. match goal with X : Forall occ _ -> _ |- _ => apply X end. eapply childs; eauto. apply incl_refl.
  - eapply wr_dense; eauto.
    + match goal with X : Forall occ (elements x) -> _ |- _ => apply X end. eapply childs; eauto. apply incl_appl, incl_refl.
    + match goal with X : Forall occ (flat (named_items x)) -> _ |- _ => apply X end. eapply childs; eauto. cbn [children]. apply incl_appr.
      unfold own_items. rewrite flat_app. apply incl_appr, incl_refl.
  - eapply wr_sparse; eauto. match goal with X : Forall occ _ -> _ |- _ => apply X end. eapply childs; eauto. apply incl_appr, incl_refl.
  - eapply wr_map; eauto. match goal with X : Forall occ _ -> _ |- _ => apply X end. eapply childs; eauto. apply incl_refl.
  - eapply wr_dict; eauto. match goal with X : Forall occ _ -> _ |- _ => apply X end. eapply childs; eauto. apply incl_refl.
  - eapply wr_set; eauto. match goal with X : Forall occ _ -> _ |- _ => apply X end. eapply childs; eauto. apply incl_refl.
  - eapply wr_pyset; eauto. match goal with X : Forall occ _ -> _ |- _ => apply X end. eapply childs; eauto. apply incl_refl.
  - eapply wr_seq; eauto. match goal with X : Forall occ _ -> _ |- _ => apply X end. eapply childs; eauto. apply incl_refl.
  - eapply wr_view; eauto. match goal with X : occ (VRef b) -> _ |- _ => apply X end. eapply child; eauto. left. auto.
  - match goal with X : Forall occ (_ :: _) |- _ => inversion X; subst end. econstructor; eauto.
  - match goal with X : Forall occ (flat _) |- _ => cbn [flat flat_map fst snd app] in X; inversion X as [|? ? ? X1]; subst; inversion X1; subst end.
    econstructor; eauto.
Qed.
End Rep.
