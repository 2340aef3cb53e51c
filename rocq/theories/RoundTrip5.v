(** Deduplication of values that are really alike keeps the graph. *)
From Coq Require Import List NArith ZArith Bool Lia.
From Verif Require Import Base Dict ModelTags SpecNumber ModelArray ModelValue ModelObject ModelMap ModelBuffer ModelHeap ModelDecode ModelEncode SpecEncode
  KeyFacts HashFacts HashFacts2 EncodeFacts SpecGraph RoundTrip.
Import ListNotations.
Open Scope N_scope.

(** * Images of the children *)
Section Child.
Variables H h : heap.
Variable cfg : ecfg.
Variable dcfg : ModelDecode.dcfg.
Variable node : bool.
Variables rep rep' : val -> val -> Prop.
Variables R R' : nat -> val -> Prop.
Lemma Forall2_in {A B} (P Q : A -> B -> Prop) l m : (forall x y, In x l -> P x y -> Q x y) -> Forall2 P l m -> Forall2 Q l m.
Proof. intros I F. revert I. induction F; intros I; constructor; [apply I; [left; auto|auto]|]. apply IHF. intros a b Ia. apply I. right. auto. Qed.
Lemma in_flat (l : list (val * val)) p : In p l -> In (fst p) (flat l) /\ In (snd p) (flat l).
Proof. intros I. split; apply in_flat_map; exists p; cbn; auto. Qed.
Lemma object_image_child x u : (forall c u, In c (children x) \/ c = VNone -> image rep R c u -> image rep' R' c u) ->
  object_image H h cfg dcfg node rep R x u -> object_image H h cfg dcfg node rep' R' x u.
Proof.
  intros M.
  assert (PM : forall l m, incl (flat l) (children x) -> Forall2 (pair_image rep R) l m -> Forall2 (pair_image rep' R') l m).
  { intros l m I. apply Forall2_in. intros a b Ia [A B]. destruct (in_flat l a Ia). split; apply M; auto. }
  assert (QM : forall l m, incl (flat l) (children x) -> Forall2 (prop_image rep R) l m -> Forall2 (prop_image rep' R') l m).
  { intros l m I. apply Forall2_in. intros a b Ia [A B]. destruct (in_flat l a Ia). split; auto. }
  assert (VM : forall l m, incl l (children x) -> Forall2 (image rep R) l m -> Forall2 (image rep' R') l m).
  { intros l m I. apply Forall2_in. auto. }
  assert (CM : forall y, cell_image H h cfg dcfg node rep R x y -> cell_image H h cfg dcfg node rep' R' x y).
  { intros y. unfold cell_image. destruct x, y; auto; cbn [children] in *.
    - apply PM, incl_refl.
    - apply VM, incl_refl.
    - intros (A & B). split; auto. revert A. apply QM, incl_refl.
    - intros (A & B & C). split; [apply VM; auto; apply incl_appl, incl_refl|]. split; auto. apply QM; auto. apply incl_appr.
      unfold own_items. rewrite flat_app. apply incl_appr, incl_refl.
    - intros (A & B & C & D). repeat split; auto. apply M; auto. destruct cause; cbn; auto.
    - destruct (if node then _ else _); auto. intros (A & B & C & D & E). split; auto. apply M; cbn; auto.
    - apply PM, incl_refl.
    - apply VM, incl_refl.
    - intros [A B]. split; auto. apply VM; auto. apply incl_refl. }
  unfold object_image. destruct x; auto; intros (j & y & -> & E & C); exists j, y; auto.
Qed.
End Child.

Section Alike.
Variable H : heap.
Variable root : val.
(** Values with equal hash keys that are really the same, up to the identity of objects that are. *)
Definition alike (a b : val) : Prop :=
  match a, b with
  | VFloat x, VFloat y => x = y
  | VRef o, VRef p =>
      match nth_error H o, nth_error H p with
      | Some (OSeq _ l), Some (OSeq _ m) => Forall2 (equal_value H root) l m
      | Some (OPrim _ x), Some (OPrim _ y) => x = y
      | Some (OView b v), Some (OView b' v') => v = v' /\ equal_value H root (VRef b) (VRef b')
      | _, _ => True
      end
  | _, _ => True
  end.
Definition interchangeable : Prop :=
  forall a b, occurs H root a -> occurs H root b -> hash_key H a <> None -> hash_key H a = hash_key H b -> alike a b.

Lemma equal_trans a b c : equal_value H root a b -> equal_value H root b c -> equal_value H root a c.
Proof. intros [->|(N & E & O)]; auto. intros [<-|(N' & E' & O')]; right; repeat split; auto; congruence. Qed.
Lemma equal_sym a b : occurs H root a -> equal_value H root a b -> equal_value H root b a.
Proof. intros O [->|(N & E & O')]; [left; auto|]. right. repeat split; auto; congruence. Qed.
Lemma equal_occ a b : occurs H root a -> equal_value H root a b -> occurs H root b.
Proof. intros O [<-|(_ & _ & O')]; auto. Qed.
Lemma hash_key_heq a b : hash_key H a <> None -> hash_key H a = hash_key H b -> heq H a b.
Proof.
  unfold hash_key. intros N E. right. exists (S (length H)). destruct (hash H (S (length H)) a) as [k|]; [|congruence].
  destruct (hash H (S (length H)) b) as [k'|]; [|congruence]. injection E as _ <-. eauto.
Qed.
(** Buffers with equal keys look the same to views. *)
Lemma equal_backing b b' : equal_value H root (VRef b) (VRef b') -> backing_of H b = backing_of H b'.
Proof.
  intros [E|(N & E & _)]; [congruence|]. apply hash_key_heq in E; auto. destruct (heq_obj H b b' E) as [->|(x & x' & A & B & Q)]; auto.
  unfold backing_of. rewrite A, B. destruct x; cbn in Q; try contradiction; try (subst; reflexivity).
  - destruct Q as (v' & -> & _). reflexivity.
  - destruct Q as ([d m r ro] & -> & ? & ? & ? & ? & ?). destruct b0. cbn in *. subst. reflexivity.
  - destruct Q as (? & ? & -> & _). reflexivity.
  - destruct Q as (_ & ? & -> & _). reflexivity.
  - destruct Q as (_ & ->). reflexivity.
Qed.

Variable h : heap.
Variable cfg : ecfg.
Variable dcfg : ModelDecode.dcfg.
Variable node : bool.
(** The decoded value of an equal object is the decoded value of the object. *)
Definition up_to (R : nat -> val -> Prop) (o : nat) (u : val) : Prop :=
  occurs H root (VRef o) /\ exists o0, equal_value H root (VRef o) (VRef o0) /\ R o0 u.
Lemma image_up_to (R : nat -> val -> Prop) v u : interchangeable -> occurs H root v -> image (equal_value H root) R v u -> image eq (up_to R) v u.
Proof.
  intros I O (v0 & E & M). exists v. split; auto. destruct E as [<-|(N & E & O0)].
  - destruct v; auto. split; auto. eexists. split; [left; reflexivity|auto].
  - pose proof (hash_key_eq H v v0 N E) as K. pose proof (I v v0 O O0 N E) as A. destruct v; try (subst v0; exact M).
    + destruct K as (b0 & -> & _). cbn in A. subst. exact M.
    + destruct K as (o0 & ->). split; auto. exists o0. split; auto. right. auto.
Qed.
Theorem dedup_exact v' (R : nat -> val -> Prop) : interchangeable -> (forall o u, R o u -> occurs H root (VRef o)) ->
  carries H h cfg dcfg node (equal_value H root) root v' R -> carries H h cfg dcfg node eq root v' (up_to R).
Proof.
  intros I RO [M C]. split; [apply image_up_to; auto; constructor|].
  intros o u (Oo & o0 & E & Ru). destruct (C o0 u Ru) as (x0 & Hx0 & OI). pose proof (RO _ _ Ru) as O0.
  assert (NIL : forall c u, c = VNone -> image (equal_value H root) R c u -> image eq (up_to R) c u).
  { intros c u' -> (v0 & Q & M'). exists VNone. split; auto. destruct Q as [<-|(N & K & _)]; auto.
    apply (hash_key_eq H VNone v0 N) in K. subst. exact M'. }
  assert (OI' : object_image H h cfg dcfg node eq (up_to R) x0 u).
  { eapply object_image_child; [|exact OI]. intros c u' [Ic|N]; auto. intros Q. apply image_up_to; auto. eapply occ_child; eauto. }
  destruct E as [E|(N & E & _)]; [injection E as ->; exists x0; auto|].
  pose proof (I _ _ Oo O0 N E) as A. apply hash_key_heq in E; auto.
  destruct (heq_obj H o o0 E) as [->|(x & x1 & Hx & Hx1 & Q)]; [exists x0; auto|].
  assert (x1 = x0) by congruence. subst x1. exists x. split; auto. clear Hx1.
  cbn [alike] in A. rewrite Hx, Hx0 in A.
  assert (ST : forall a b c, equal_value H root a b -> occurs H root a -> occurs H root b -> image (equal_value H root) R b c -> image eq (up_to R) a c).
  { intros a b c Eq Oa Ob (v0 & Q0 & M0). apply image_up_to; auto. exists v0. split; auto. eapply equal_trans; eauto. }
  destruct x; cbn [obj_heq] in Q; try contradiction; try (subst x0; exact OI').
  - destruct Q as (w & -> & _). subst w. exact OI'.
  - destruct Q as (w & -> & E1 & E2 & E3 & _). destruct OI' as (j & y & -> & Ey & CI). exists j, y. split; auto. split; auto.
    destruct y; cbn [cell_image] in *; try contradiction. unfold keeps_resizable in *. rewrite E1, E2, E3 in CI. exact CI.
  - destruct Q as (b' & w' & -> & _). destruct A as [<- Eb].
    destruct OI as (j & y & -> & Ey & CI). exists j, y. split; auto. split; auto. pose proof (equal_backing _ _ Eb) as BK.
    assert (Ob : occurs H root (VRef buffer)) by (eapply (occ_child H root o); eauto; cbn; auto).
    assert (Ob' : occurs H root (VRef b')) by (eapply (occ_child H root o0); eauto; cbn; auto).
    destruct y; cbn [cell_image] in *; try contradiction. destruct (if node then _ else _).
    + unfold own_copy in *. rewrite <- BK in CI. exact CI.
    + unfold same_window in *. rewrite <- BK in CI. destruct CI as (IM & CI). split; auto. eapply ST; eauto.
  - destruct Q as (-> & l' & -> & _). destruct OI as (j & y & -> & Ey & CI). exists j, y. split; auto. split; auto.
    destruct y; cbn [cell_image] in *; try contradiction. destruct CI as [CI NP]. split; auto.
    assert (Ol : forall a, In a l -> occurs H root a) by (intros a Ia; eapply (occ_child H root o); eauto).
    assert (Ol' : forall a, In a l' -> occurs H root a) by (intros a Ia; eapply (occ_child H root o0); eauto).
    clear -A CI Ol Ol' ST. revert CI. generalize (elements o1) as e. induction A as [|a b l l' Ea A IH]; intros e F; inversion F; subst; constructor.
    + eapply ST; eauto; [apply Ol|apply Ol']; left; auto.
    + apply IH; auto; intros a' I'; [apply Ol|apply Ol']; right; auto.
  - destruct Q as (-> & ->). exact OI'.
Qed.
Lemma up_to_locs (R : nat -> val -> Prop) : (forall o u, R o u -> occurs H root (VRef o)) -> one_to_one R ->
  forall o o' j, up_to R o (VRef j) -> up_to R o' (VRef j) -> equal_value H root (VRef o) (VRef o').
Proof.
  intros RO [F J] o o' j (Oo & p & Ep & Rp) (Oo' & q & Eq & Rq). assert (p = q) by eauto. subst. eapply equal_trans; eauto. apply equal_sym; auto.
Qed.
End Alike.
