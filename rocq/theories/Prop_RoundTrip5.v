(** C21 for graphs without sharing, whatever they contain. *)
From Coq Require Import List NArith ZArith Bool Lia.
From Coq Require Import ZifyBool ZifyN ZifyNat.
From Verif Require Import Base ModelTags ModelPrim SpecPrim ModelArray ModelValue SpecKey ModelObject ModelMap ModelBuffer ModelHeap
  ModelDecode SpecWire SpecBuild ModelEncode SpecEncode SpecParts SpecFail KeyFacts EncodeFacts EncodeFacts2 EncodeFacts3
  SpecGraph RoundTrip RoundTrip2 RoundTrip3 RoundTrip4 RoundTrip6 Prop_Decode Prop_Encode Prop_RoundTrip.
Import ListNotations.
Open Scope N_scope.

(** With the default steps (references on), a graph in which every object is held in one place comes back even if
    it contains the kinds of object that the reader and the writer number differently (regexps, errors without a
    cause, shared and transferred buffers): [aligned] of C21_round_trip_partial is not needed. Different objects
    are decoded to different objects. Missing: what [no_equals] and [able] exclude, and sharing. *)
Theorem C21_unshared_round_trip_partial : forall H cfg dcfg root, wf_graph H cfg root -> default_constants dcfg ->
  writable H cfg root -> able H cfg dcfg false eq root -> unshared H root -> no_equals H root ->
  exists bs v' h R, dumps H cfg root = Ok bs /\ loads dcfg bs = Ok (v', h) /\
    carries H h cfg dcfg false eq root v' R /\ covers H root R /\ (forall o o' j, R o (VRef j) -> R o' (VRef j) -> o = o').
Proof.
  intros H cfg dcfg root WF DC [F Nc] AB T NE. destruct (C28_supported_succeeds H cfg root WF F Nc) as (bs & w & r & E & _).
  pose proof E as E'. unfold dumps in E'. destruct (dumps_describes H cfg true false root WF _ bs E') as (w1 & r1 & D & Dc).
  assert (D1 : describes H cfg true false eq [] false root [] w1 r1) by (apply (describes_eq H cfg true false root); auto).
  destruct (proj1 (unshared_describes H cfg false root T) _ _ _ _ _ _ D1 (occ_root _ _)) as [D2 _]; [intros o _ []|].
  destruct (loads_described H cfg dcfg false false root WF DC ltac:(discriminate) eq AB) with (w := w1) (r := r1) (bs := bs)
    as (v' & h & R & L & C & A & _ & _); auto; try discriminate; try congruence.
  { apply eq_buf. }
  exists bs, v', h, (rel R). split; auto. split; auto. split; auto. split; auto. eapply carries_covers; eauto.
Qed.
Print Assumptions C21_unshared_round_trip_partial.

(** A list of a regexp, an error whose cause is an error without a cause, a shared buffer, and a dict with a
    bytes object. *)
Definition unshared_heap : heap :=
  [OSeq false [VRef 1; VRef 2; VRef 3; VRef 5];
   ORegExp [97] 1;
   OError [84;121;112;101;69;114;114;111;114] (Some [109]) (Some [115]) (VRef 4);
   OShared 7;
   OError [69;114;114;111;114] (Some []) None VNone;
   ODict [(VStr [107], VRef 6)];
   OBytes [1; 2]].
Ltac seven Hx := match type of Hx with nth_error _ ?o = _ => destruct o as [|[|[|[|[|[|[|o]]]]]]]; cbn in Hx; try (injection Hx as <-); [..|destruct o; discriminate] end.
Ltac in_parts I := cbn in I; repeat destruct I as [I|I]; try discriminate I; try contradiction; try (injection I as <-).
Example C21_unshared_case : wf_graph unshared_heap (ex_ecfg ex_all) (VRef 0) /\ default_constants ex_cfg /\
  writable unshared_heap (ex_ecfg ex_all) (VRef 0) /\ able unshared_heap (ex_ecfg ex_all) ex_cfg false eq (VRef 0) /\
  unshared unshared_heap (VRef 0) /\ no_equals unshared_heap (VRef 0) /\ ~ aligned unshared_heap (VRef 0).
Proof.
  split.
  { assert (V : forall o, (o < 7)%nat -> wf_val unshared_heap (ex_ecfg ex_all) (VRef o)).
    { intros o L. destruct o as [|[|[|[|[|[|[|o]]]]]]]; [..|lia]; (eexists; split; [reflexivity|]); cbn [wf_obj opt_all]; auto.
      - split; [repeat constructor; unfold code_point; lia|]. eexists. split; reflexivity.
      - split; repeat constructor; unfold code_point; lia.
      - reflexivity.
      - repeat constructor. }
    apply wf_graph_all; [apply V; lia|]. repeat constructor; try (apply V; lia); cbn; try (unfold code_point; lia). }
  split; [intros t; reflexivity|]. split.
  { split; [apply clean_heap; reflexivity|]. left. reflexivity. }
  split.
  { intros o x _ Hx. seven Hx; cbn; auto; try reflexivity. split.
    - intros i j a b a0 b0 Ha Hb NE <- <-. destruct i as [|i], j as [|j]; try lia; cbn in Ha, Hb; try (destruct i; discriminate); destruct j; discriminate.
    - intros a a0 Ia <- (z & E & B). destruct Ia as [<-|[]]; discriminate. }
  split.
  { split; [|split].
    - intros o x p _ Hx I. seven Hx; in_parts I; discriminate.
    - intros o x o' x' p _ Hx _ Hx' I I'. seven Hx; in_parts I; seven Hx'; in_parts I'; reflexivity.
    - intros o x _ Hx. seven Hx; cbn; repeat constructor; cbn; intuition discriminate. }
  split.
  { intros a b Oa Ob. apply occurs_in in Oa, Ob. cbn in Oa, Ob.
    repeat (destruct Oa as [<-|Oa]; [repeat (destruct Ob as [<-|Ob]; [vm_compute; intros N X; try reflexivity; try discriminate X; try (elim N; reflexivity)|]); contradiction|]). contradiction. }
  intros A. apply (A 1%nat (ORegExp [97] 1)); [|reflexivity]. econstructor; [apply occ_root|reflexivity|]. left. reflexivity.
Qed.
