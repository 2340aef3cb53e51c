(** The ids V8 gives out for what dumps writes. *)
From Coq Require Import List NArith ZArith Bool Lia.
From Coq Require Import ZifyBool ZifyN ZifyNat.
From Verif Require Import Base Dict ModelTags ModelPrim SpecPrim PrimFacts SpecNumber ModelLog ModelArray ArrayFacts3 ModelValue ModelObject
  ModelMap ModelBuffer BufferFacts ModelHeap ModelDecode SpecWire SpecBuild BuildFacts DecodeSound ModelEncode SpecEncode SpecParts SpecFail HashFacts
  EncodeFacts EncodeFacts2 EncodeFacts3 SpecV8.
Import ListNotations.
Open Scope N_scope.

Section Written.
Variable H : heap.
Variable cfg : ecfg.
Variable refs : bool.
Variable root : val.
Notation rep := (rep_of H refs root).
Notation occ := (occurs H root).
Notation desc := (describes H cfg refs false rep).
Notation wrt := (writes H cfg refs false rep).
Notation vals_of := (wvals_of H cfg refs false rep).
Notation pairs_of := (wpairs_of H cfg refs false rep).
Notation occs := (occs H root).

Lemma attach_size v w w' : attach v w w' -> v8_size w' = v8_size w + 1.
Proof. destruct 1; cbn; lia. Qed.
Lemma utf8_ids x : field_ids (utf8_field x) = 0.
Proof. destruct x; reflexivity. Qed.
Lemma describes_size : (forall o x, occ (VRef o) -> nth_error H o = Some x -> numbered_obj x) ->
  (forall open key v r w r', desc open key v r w r' -> occ v -> lenN r' = lenN r + v8_size w) /\
  (forall open key v r w r', wrt open key v r w r' -> occ v -> lenN r' = lenN r + v8_size w) /\
  (forall open l r ws r', vals_of open l r ws r' -> Forall occ l -> lenN r' = lenN r + v8_size_vals ws) /\
  (forall open key l r ps r', pairs_of open key l r ps r' -> occs l -> lenN r' = lenN r + v8_size_pairs ps).
Proof.
  intros A. apply describes_mutind; intros; cbn [v8_size v8_size_vals v8_size_pairs view_ids]; rewrite ?lenN_snoc in *; auto.
  all: try solve [cbn; lia].
  all: try match goal with X : int_wire _ _ _ |- _ => destruct X; cbn; lia end.
  all: try match goal with X : prim_wire _ _ _ |- _ => destruct X; cbn; lia end.
  all: try match goal with O : occ (VRef ?o), X : nth_error H ?o = Some ?x |- _ =>
    let Y := fresh in pose proof (A _ _ O X) as Y; cbn in Y; try contradiction end.
  all: try match goal with O : occ (VRef ?o), X : nth_error H ?o = Some ?x, I : Forall occ ?l -> _ |- _ =>
    let Y := fresh in assert (Y : Forall occ l) by (apply (occ_children H root o x); auto; cbn [children]; auto using incl_refl, incl_appl); specialize (I Y) end.
  all: try match goal with O : occ (VRef ?o), X : nth_error H ?o = Some ?x, I : occs ?l -> _ |- _ =>
    let Y := fresh in assert (Y : occs l) by (apply (occ_children H root o x); auto; auto using incl_refl, named_in, own_in); specialize (I Y) end.
  all: try lia.
  all: try (match goal with R : rep_of _ _ _ ?a ?b, X : occ ?b -> _ |- _ => apply X; eapply rep_occ; eauto; fail end).
  - rewrite !utf8_ids. cbn [field_ids]. match goal with X : occ c -> _ |- _ => rewrite X; [lia|] end.
    eapply occ_child; eauto. cbn. destruct c; cbn; auto; congruence.
  - match goal with X : attach _ _ _ |- _ => rewrite (attach_size _ _ _ X) end.
    match goal with X : occ _ -> _ |- _ => rewrite X; [lia|] end. eapply occ_child; eauto. cbn. auto.
  - match goal with X : Forall occ (_ :: _) |- _ => inversion X; subst end.
    repeat match goal with X : ?P -> lenN _ = _, Y : ?P |- _ => specialize (X Y) end. lia.
  - match goal with X : EncodeFacts3.occs _ _ _ |- _ => apply occs_cons in X as (Ok & Ov & Ol) end.
    repeat match goal with X : ?P -> lenN _ = _, Y : ?P |- _ => specialize (X Y) end. lia.
Qed.

Lemma attach_plain v w w' n : attach v w w' -> unnumbered w n = [] -> unnumbered w' n = [].
Proof. destruct 1; cbn; auto; destruct b; auto. Qed.
Lemma describes_plain : aligned H root ->
  (forall open key v r w r', desc open key v r w r' -> occ v -> forall n, unnumbered w n = []) /\
  (forall open key v r w r', wrt open key v r w r' -> occ v -> forall n, unnumbered w n = []) /\
  (forall open l r ws r', vals_of open l r ws r' -> Forall occ l -> forall n, unnumbered_vals ws n = []) /\
  (forall open key l r ps r', pairs_of open key l r ps r' -> occs l -> forall n, unnumbered_pairs ps n = []).
Proof.
  intros A. apply describes_mutind; intros; cbn [unnumbered unnumbered_vals unnumbered_pairs]; auto.
  all: try match goal with X : int_wire _ _ _ |- _ => destruct X; reflexivity end.
  all: try match goal with X : prim_wire _ _ _ |- _ => destruct X; reflexivity end.
  all: try match goal with O : occ (VRef ?o), X : nth_error H ?o = Some ?x |- _ =>
    let Y := fresh in pose proof (A _ _ O X) as Y; cbn in Y; try contradiction end.
  all: try match goal with O : occ (VRef ?o), X : nth_error H ?o = Some ?x, I : Forall occ ?l -> _ |- _ =>
    let Y := fresh in assert (Y : Forall occ l) by (apply (occ_children H root o x); auto; cbn [children]; auto using incl_refl, incl_appl); specialize (I Y) end.
  all: try match goal with O : occ (VRef ?o), X : nth_error H ?o = Some ?x, I : occs ?l -> _ |- _ =>
    let Y := fresh in assert (Y : occs l) by (apply (occ_children H root o x); auto; auto using incl_refl, named_in, own_in); specialize (I Y) end.
  all: repeat match goal with X : forall n, _ = [] |- _ => rewrite X end; auto.
  all: try discriminate.
  all: try (match goal with R : rep_of _ _ _ ?a ?b, X : occ ?b -> _ |- _ => apply X; eapply rep_occ; eauto; fail end).
  all: try (match goal with X : occ ?c -> _, Y : ?c <> VNone |- _ => apply X; eapply occ_child; [eassumption|eassumption|]; cbn; destruct c; cbn; auto; congruence end).
  all: try (eapply attach_plain; [eassumption|]; match goal with X : occ _ -> _ |- _ => apply X end; eapply occ_child; eauto; cbn; auto; fail).
  - match goal with X : Forall occ (_ :: _) |- _ => inversion X; subst end.
    repeat match goal with X : ?P -> forall n, _ = [], Y : ?P |- _ => specialize (X Y) end.
    repeat match goal with X : forall n, _ = [] |- _ => rewrite X end. reflexivity.
  - match goal with X : EncodeFacts3.occs _ _ _ |- _ => apply occs_cons in X as (Ok & Ov & Ol) end.
    repeat match goal with X : ?P -> forall n, _ = [], Y : ?P |- _ => specialize (X Y) end.
    repeat match goal with X : forall n, _ = [] |- _ => rewrite X end. reflexivity.
Qed.
End Written.
