(** Consequences of [dumps_describes]: ids, features, keys. *)
From Coq Require Import List NArith ZArith Bool Lia.
From Coq Require Import ZifyBool ZifyN ZifyNat.
From Verif Require Import Base Dict ModelTags ModelPrim SpecPrim PrimFacts SpecNumber ModelLog ModelArray ArrayFacts3 ModelValue ModelObject
  ModelMap ModelBuffer BufferFacts ModelHeap ModelDecode SpecWire SpecBuild BuildFacts DecodeSound ModelEncode SpecEncode SpecParts SpecFail HashFacts EncodeFacts EncodeFacts2.
Import ListNotations.
Open Scope N_scope.

Lemma lenN_snoc (r : list nat) o : lenN (r ++ [o]) = lenN r + 1.
Proof. unfold lenN. rewrite app_length. cbn [length]. lia. Qed.

Lemma part_cases w x : part w x -> x = w \/ exists y, In y (direct w) /\ part y x.
Proof.
  induction 1 as [|x y P IH I]; auto. right. destruct IH as [-> |(z & Iz & Pz)].
  - exists y. split; auto. constructor.
  - exists z. split; auto. econstructor; eauto.
Qed.

Lemma wids_dense vs ps n : wids (WDense vs ps) n = match wids_vals vs (n + 1) with Some n => wids_pairs ps n | None => None end.
Proof. reflexivity. Qed.
Lemma wids_vals_cons w r n : wids_vals (VCons w r) n = match wids w n with Some n => wids_vals r n | None => None end.
Proof. reflexivity. Qed.
Lemma wids_pairs_cons k v r n : wids_pairs (PCons k v r) n =
  match wids k n with Some n => match wids v n with Some n => wids_pairs r n | None => None end | None => None end.
Proof. reflexivity. Qed.

Section Parts.
Variable H : heap.
Variable cfg : ecfg.
Variables refs node : bool.
Variable root : val.
Hypothesis WF : wf_graph H cfg root.
Notation feat := (e_features cfg).
Notation rep := (rep_of H refs root).
Notation occ := (occurs H root).
Notation desc := (describes H cfg refs node rep).
Notation wrt := (writes H cfg refs node rep).
Notation vals_of := (wvals_of H cfg refs node rep).
Notation pairs_of := (wpairs_of H cfg refs node rep).

Lemma rep_occ v v0 : occ v -> rep v v0 -> occ v0.
Proof. unfold rep_of. destruct refs; [intros O [<-|(_ & _ & X)]; auto|congruence]. Qed.

(** The writer's ids. *)
Lemma attach_wids v w w' n m : attach v w w' -> wids w n = Some m -> wids w' n = Some (m + 1).
Proof.
  destruct 1; cbn; intros E.
  - injection E as <-. f_equal. lia.
  - destruct (id <? n); [|discriminate]. injection E as <-. f_equal. lia.
Qed.
Lemma describes_wids :
  (forall open key v r w r', desc open key v r w r' -> wids w (lenN r) = Some (lenN r')) /\
  (forall open key v r w r', wrt open key v r w r' -> wids w (lenN r) = Some (lenN r')) /\
  (forall open l r ws r', vals_of open l r ws r' -> wids_vals ws (lenN r) = Some (lenN r')) /\
  (forall open key l r ps r', pairs_of open key l r ps r' -> wids_pairs ps (lenN r) = Some (lenN r')).
Proof.
  apply describes_mutind; intros; cbn [wids wids_vals str_ids stag_eqb]; rewrite ?lenN_snoc in *; auto.
  all: try solve [cbn; f_equal; lia].
  all: try match goal with X : int_wire _ _ _ |- _ => destruct X; cbn; f_equal; lia end.
  all: try match goal with X : prim_wire _ _ _ |- _ => destruct X; cbn; f_equal; lia end.
  all: try match goal with X : attach _ _ _, Y : wids _ _ = _ |- _ => rewrite (attach_wids _ _ _ _ _ X Y); reflexivity end.
  - (* reference *) assert (N.of_nat sid <? lenN r = true) as ->.
    { assert (sid < length r)%nat by (apply nth_error_Some; congruence). unfold lenN. lia. }
    f_equal. cbn. lia.
  - match goal with X : wids_vals _ _ = _ |- _ => rewrite X end. assumption.
  - match goal with X : wids_vals _ _ = _ |- _ => rewrite X end. reflexivity.
  - repeat match goal with X : wids _ _ = _ |- _ => rewrite X end. assumption.
  - rewrite wids_pairs_cons. repeat match goal with X : wids _ _ = _ |- _ => rewrite X end. assumption.
Qed.

(** Kinds of objects for which reader and writer agree. *)
Notation aligned := (aligned H root).

Definition occs (l : list (val * val)) : Prop := Forall occ (flat l).
Lemma occs_cons k v l : occs ((k, v) :: l) -> occ k /\ occ v /\ occs l.
Proof. intros X. unfold occs in X. cbn in X. inversion X as [|? ? A X']; subst. inversion X'; subst. auto. Qed.
Lemma occ_kids o x l : occ (VRef o) -> nth_error H o = Some x -> incl l (children x) -> Forall occ l.
Proof. apply occ_children. Qed.

Lemma named_in x : incl (flat (named_items x)) (children (OArray x)).
Proof. cbn [children]. unfold own_items. rewrite flat_app. auto using incl_refl, incl_appr. Qed.
Lemma own_in x : incl (flat (own_items x)) (children (OArray x)).
Proof. cbn [children]. auto using incl_refl, incl_appr. Qed.
Lemma NoDup_snoc (r : list nat) o : NoDup r -> ~ In o r -> NoDup (r ++ [o]).
Proof.
  induction 1 as [|x l N D IH]; intros I; cbn; [constructor; auto; constructor|].
  constructor; [|apply IH; cbn in I; tauto]. rewrite in_app_iff. cbn in *. intuition.
Qed.
Lemma attach_ids v w w' n m : attach v w w' -> ids w n = Some m -> ids w' n = Some (m + 1).
Proof.
  destruct 1; cbn; intros E.
  - destruct b; injection E as <-; f_equal; lia.
  - destruct (id <? n); [|discriminate]. injection E as <-. f_equal. lia.
Qed.
Lemma describes_ids : aligned ->
  (forall open key v r w r', desc open key v r w r' -> occ v -> ids w (lenN r) = Some (lenN r')) /\
  (forall open key v r w r', wrt open key v r w r' -> occ v -> ids w (lenN r) = Some (lenN r')) /\
  (forall open l r ws r', vals_of open l r ws r' -> Forall occ l -> ids_vals ws (lenN r) = Some (lenN r')) /\
  (forall open key l r ps r', pairs_of open key l r ps r' -> occs l -> ids_pairs ps (lenN r) = Some (lenN r')).
Proof.
  intros A. apply describes_mutind; intros; cbn [ids ids_vals str_ids stag_eqb]; rewrite ?lenN_snoc in *; auto.
  all: try solve [cbn; f_equal; lia].
  all: try match goal with X : int_wire _ _ _ |- _ => destruct X; cbn; f_equal; lia end.
  all: try match goal with X : prim_wire _ _ _ |- _ => destruct X; cbn; f_equal; lia end.
  all: try match goal with O : occ (VRef ?o), X : nth_error H ?o = Some ?x |- _ =>
    let Y := fresh in pose proof (A _ _ O X) as Y; cbn in Y; try contradiction;
    try match goal with Z : _ -> occs (own_items _) -> _ |- _ => idtac end end.
  all: try match goal with O : occ (VRef ?o), X : nth_error H ?o = Some ?x, I : Forall occ ?l -> _ |- _ =>
    let Y := fresh in assert (Y : Forall occ l) by (apply (occ_kids o x); auto; cbn [children]; auto using incl_refl, incl_appl); specialize (I Y) end.
  all: try match goal with O : occ (VRef ?o), X : nth_error H ?o = Some ?x, I : occs ?l -> _ |- _ =>
    let Y := fresh in assert (Y : occs l) by (apply (occ_kids o x); auto; auto using incl_refl, named_in, own_in); specialize (I Y) end.
  all: try assumption.
  - match goal with X : occ _ -> ids w _ = _ |- _ => apply X end. eapply rep_occ; eauto.
  - (* reference *) assert (N.of_nat sid <? lenN r = true) as ->.
    { assert (sid < length r)%nat by (apply nth_error_Some; congruence). unfold lenN. lia. }
    f_equal. cbn. lia.
  - assert (F : forall x, field_ids (utf8_field x) = 0) by (intros [|]; reflexivity).
    rewrite !F, !N.add_0_r. match goal with X : occ c -> _ |- _ => rewrite X; [cbn; f_equal; lia|] end.
    eapply occ_child; eauto. cbn. destruct c; cbn; auto; congruence.
  - match goal with X : ids_vals _ _ = _ |- _ => rewrite X end. assumption.
  - match goal with X : ids_vals _ _ = _ |- _ => rewrite X end. reflexivity.
  - eapply attach_ids; [eassumption|]. match goal with X : occ _ -> _ |- _ => apply X end. eapply occ_child; eauto. cbn. auto.
  - match goal with X : Forall occ (_ :: _) |- _ => inversion X; subst end.
    match goal with X : occ v -> ids w _ = _ |- _ => rewrite X by assumption end. auto.
  - match goal with X : occs _ |- _ => apply occs_cons in X as (Ok & Ov & Ol) end.
    rewrite ids_pairs_cons.
    match goal with X : occ k -> ids _ _ = _ |- _ => rewrite X by assumption end.
    match goal with X : occ v -> ids _ _ = _ |- _ => rewrite X by assumption end. auto.
Qed.

(** No object is recorded twice. *)
Lemma describes_NoDup : refs = true ->
  (forall open key v r w r', desc open key v r w r' -> occ v -> NoDup r -> NoDup r') /\
  (forall open key v r w r', wrt open key v r w r' -> occ v -> NoDup r -> NoDup r') /\
  (forall open l r ws r', vals_of open l r ws r' -> Forall occ l -> NoDup r -> NoDup r') /\
  (forall open key l r ps r', pairs_of open key l r ps r' -> occs l -> NoDup r -> NoDup r').
Proof.
  intros R.
  assert (SN : forall o r, fresh refs o r -> NoDup r -> NoDup (r ++ [o])).
  { intros o r F N. apply NoDup_snoc; auto. }
  apply describes_mutind; intros; auto.
  all: try match goal with O : occ (VRef ?o), X : nth_error H ?o = Some ?x, I : Forall occ ?l -> _ |- _ =>
    let Y := fresh in assert (Y : Forall occ l) by (apply (occ_kids o x); auto; cbn [children]; auto using incl_refl, incl_appl); specialize (I Y) end.
  all: try match goal with O : occ (VRef ?o), X : nth_error H ?o = Some ?x, I : occs ?l -> _ |- _ =>
    let Y := fresh in assert (Y : occs l) by (apply (occ_kids o x); auto; auto using incl_refl, named_in, own_in); specialize (I Y) end.
  all: auto 6.
  - match goal with X : occ v0 -> _ |- _ => apply X; auto end. eapply rep_occ; eauto.
  - match goal with X : occ c -> _ |- _ => apply X; auto end. eapply occ_child; eauto. cbn. destruct c; cbn; auto; congruence.
  - match goal with X : refs = true -> o' = o |- _ => rewrite (X R) end. auto.
  - match goal with O : occ (VRef o), X : nth_error H o = Some _ |- _ =>
      pose proof (wf_occ H cfg root WF _ _ O X) as (_ & y & Ny & By);
      assert (Ob : occ (VRef b)) by (eapply occ_child; eauto; cbn; auto) end.
    match goal with D : desc _ _ (VRef b) _ _ _ |- _ => destruct (buffer_desc _ _ _ _ _ _ _ _ _ _ _ _ D Ny By) as [(id & _ & ->)|(bf & b0 & y0 & _ & N0 & B0 & E)] end; auto.
    specialize (E R). subst r1. apply NoDup_snoc; auto. rewrite in_app_iff. intros [I|[->|[]]].
    + match goal with F : fresh refs o r |- _ => apply (F R I) end.
    + match goal with X : nth_error H o = Some _ |- _ => rewrite X in N0; injection N0 as <-; contradiction end.
  - match goal with X : Forall occ (_ :: _) |- _ => inversion X; subst end. auto.
  - match goal with X : occs _ |- _ => apply occs_cons in X as (Ok & Ov & Ol) end. auto.
Qed.


(** Features. *)
Definition gated (x : wval) : Prop :=
  (f_resizable feat = false -> ~ resizable_buffer x) /\ (f_float16 feat = false -> ~ float16_view x).
Definition all_gated (w : wval) : Prop := forall x, part w x -> gated x.
Lemma all_gated_i w : gated w -> Forall all_gated (direct w) -> all_gated w.
Proof.
  intros G F x P. apply part_cases in P as [-> |(y & I & P)]; auto. rewrite Forall_forall in F. apply (F y I); auto.
Qed.
Lemma describes_gated :
  (forall open key v r w r', desc open key v r w r' -> all_gated w) /\
  (forall open key v r w r', wrt open key v r w r' -> all_gated w) /\
  (forall open l r ws r', vals_of open l r ws r' -> Forall all_gated (vlist ws)) /\
  (forall open key l r ps r', pairs_of open key l r ps r' -> Forall all_gated (plist ps)).
Proof.
  apply describes_mutind; intros; auto.
  all: try solve [apply all_gated_i; [split; intros _ X; exact X|cbn [direct]; auto; try constructor; auto]].
  - match goal with X : int_wire _ _ _ |- _ => destruct X end; (apply all_gated_i; [split; intros _ X; exact X|constructor]).
  - match goal with X : prim_wire _ _ _ |- _ => destruct X end; (apply all_gated_i; [split; intros _ X; exact X|constructor]).
  - apply all_gated_i; [split; intros _ X; exact X|cbn [direct]]. apply Forall_app. auto.
  - apply all_gated_i; [split; intros _ X; exact X|cbn [direct plist]]. rewrite app_nil_r. auto.
  - apply all_gated_i; [|constructor]. split; [|intros _ X; exact X]. intros F. rewrite F, andb_false_r in *. discriminate.
  - match goal with X : attach _ _ _ |- _ => destruct X end.
    + apply all_gated_i; [|constructor]. match goal with X : all_gated _ |- _ => destruct (X _ (part_refl _)) as [A _] end.
      split; auto. intros F X. cbn in X. match goal with Y : vw_tag v = _ -> _ |- _ => rewrite (Y X) in F end. discriminate.
    + apply all_gated_i; [|constructor]. split; [intros _ X; exact X|]. intros F X. cbn in X.
      match goal with Y : vw_tag v = _ -> _ |- _ => rewrite (Y X) in F end. discriminate.
  - constructor.
  - constructor; auto.
  - constructor.
  - constructor; auto.
Qed.
End Parts.
