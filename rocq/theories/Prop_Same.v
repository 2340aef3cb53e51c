(** C70: what dumps writes depends on the graph, not on the identity of its objects, and does not change when it is
    loaded and dumped again. *)
From Coq Require Import List NArith ZArith Bool Lia ZifyBool ZifyNat ZifyN.
From Verif Require Import Base Dict ModelTags ModelPrim SpecPrim SpecNumber SpecArray ModelArray ModelValue SpecKey ModelObject ModelMap MapFacts
  ModelBuffer BufferFacts ModelHeap ModelDecode ModelEncode SpecEncode SpecFail EncodeErr EncodeFacts SpecGraph RoundTrip Unambiguous RedumpFacts SpecSame SameFacts
  Prop_Decode Prop_Encode Prop_RoundTrip Prop_Redump.
Import ListNotations.
Open Scope N_scope.

(** * The same graph, the same bytes *)
(** For every choice of the encode steps, and as far as any number of nested calls goes: the same bytes or the
    same exception. *)
Theorem C70_steps : forall H H' cfg root root' R, wf_graph H cfg root -> wf_graph H' cfg root' -> same_graph H H' eq R root root' ->
  forall refs node depth, dumps_depth depth (steps_of H cfg refs node) root = dumps_depth depth (steps_of H' cfg refs node) root'.
Proof. intros H H' cfg root root' R WF WF' S refs node d. exact (same_dumps H H' cfg root root' WF WF' eq R eq_leaf S refs node d). Qed.
Print Assumptions C70_steps.
Lemma dumps_deep H cfg root d : wf_graph H cfg root -> (length H + 2 <= d)%nat -> dumps H cfg root = dumps_depth d (steps_of H cfg true false) root.
Proof.
  intros WF L. destruct (C24_dumps_terminates H cfg root WF) as (res & _ & <- & E). symmetry. apply E. exact L.
Qed.
Lemma dumps_leaf H H' cfg root root' leaf R : leaf_ok (bounded leaf) -> wf_graph H cfg root -> wf_graph H' cfg root' ->
  same_graph H H' leaf R root root' -> dumps H cfg root = dumps H' cfg root'.
Proof.
  intros LO WF WF' S. rewrite (dumps_deep H cfg root (length H + length H' + 2) WF), (dumps_deep H' cfg root' (length H + length H' + 2) WF') by lia.
  exact (same_dumps H H' cfg root root' WF WF' leaf R LO S true false _).
Qed.
Theorem C70_same_graph_same_bytes : forall H H' cfg root root' R, wf_graph H cfg root -> wf_graph H' cfg root' ->
  same_graph H H' eq R root root' -> dumps H cfg root = dumps H' cfg root'.
Proof. intros. eapply dumps_leaf; eauto. apply eq_leaf. Qed.
Print Assumptions C70_same_graph_same_bytes.

(** * Loaded and dumped again *)
(** What is decoded as it was: no wrapper objects, bytes, tuples and lists with holes; errors with a message and one
    of JavaScript's names, dates that have a timestamp of their own, and buffers that keep their kind. *)
Definition settled_obj (cfg : ecfg) (dcfg : ModelDecode.dcfg) (x : obj) : Prop :=
  match x with
  | OPrim _ _ | OBytes _ | OByteArray _ | OSeq true _ => False
  | OSeq false l => ~ In VHole l
  | OError n m _ _ => ename_str (for_error_name n) = n /\ m <> None
  | ODate d => forall b, e_timestamp cfg d = inl b -> c_date dcfg b = inl d
  | OBuffer b => jb_readonly b = false /\ (jb_resizable b = true -> f_resizable (e_features cfg) = true)
  | _ => True
  end.
Definition settled (H : heap) cfg dcfg (root : val) : Prop :=
  forall o x, occurs H root (VRef o) -> nth_error H o = Some x -> settled_obj cfg dcfg x.

Section Carried.
Variables H h : heap.
Variable cfg : ecfg.
Variable dcfg : ModelDecode.dcfg.
Variables root v' : val.
Variable R : nat -> val -> Prop.
Hypothesis WF : wf_graph H cfg root.
Hypothesis C : carries H h cfg dcfg false eq root v' R.
Hypothesis O2O : one_to_one R.
Hypothesis ST : settled H cfg dcfg root.
Hypothesis AL : aligned H root.
Let Q (o j : nat) : Prop := R o (VRef j) /\ occurs H root (VRef o).
Notation sval := (same_val leaf_image Q).

Lemma image_same v u : occurs H root v -> image eq R v u -> sval v u.
Proof.
  intros O (v0 & <- & I). destruct v; try (inversion I; subst; cbn [same_val]; try (constructor; auto); fail).
  destruct (proj2 C _ _ I) as (x & Ex & OI). pose proof (ST _ _ O Ex) as S.
  assert (N : exists j, u = VRef j) by (destruct x; cbn [object_image settled_obj] in *; try contradiction; destruct OI as (j & y & E & _); eauto).
  destruct N as [j ->]. split; auto.
Qed.
Lemma images_same l l' : (forall v, In v l -> occurs H root v) -> Forall2 (image eq R) l l' -> Forall2 sval l l'.
Proof. intros O F. induction F as [|a b l l' I F IH]; constructor; [apply image_same; auto; apply O; left; auto|]. apply IH. intros. apply O. right; auto. Qed.
Lemma pairs_same l l' : (forall v, In v (flat l) -> occurs H root v) -> Forall2 (pair_image eq R) l l' -> Forall2 (same_pair leaf_image Q) l l'.
Proof.
  intros O F. induction F as [|[a b] [a' b'] l l' [I J] F IH]; constructor.
  - cbn [fst snd] in *. split; apply image_same; auto; apply O; cbn; auto.
  - apply IH. intros. apply O. cbn; auto.
Qed.
Lemma props_same l l' : (forall v, In v (flat l) -> occurs H root v) -> Forall2 (prop_image eq R) l l' -> Forall2 (same_prop leaf_image Q) l l'.
Proof.
  intros O F. induction F as [|[a b] [a' b'] l l' [I J] F IH]; constructor.
  - cbn [fst snd] in *. split; auto. apply image_same; auto; apply O; cbn; auto.
  - apply IH. intros. apply O. cbn; auto.
Qed.
Lemma carried_buffer b j : Q b j -> buffer_like (match nth_error H b with Some x => x | None => OOpaque end) -> backing_of h j = backing_of H b.
Proof.
  intros [E O] B. destruct (proj2 C _ _ E) as (x & Ex & OI). rewrite Ex in B. pose proof (ST _ _ O Ex) as S. pose proof (AL _ _ O Ex) as A.
  destruct (WF _ O) as (x' & Ex' & W). rewrite Ex in Ex'. injection Ex' as <-.
  destruct x; try contradiction. destruct OI as (k & y & Ek & Ey & CI). injection Ek as <-. destruct y; try contradiction. cbn in CI, S, W.
  unfold backing_of. rewrite Ex, Ey. destruct b0 as [d mx re ro], S as [S1 S2]. cbn in *. subst b1 ro. unfold keeps_resizable. cbn.
  destruct re; [rewrite S2 by auto; reflexivity|]. cbn. destruct W as (_ & _ & W). rewrite W by auto. reflexivity.
Qed.
Lemma carried_obj o j x y : Q o j -> nth_error H o = Some x -> nth_error h j = Some y -> object_image H h cfg dcfg false eq R x (VRef j) ->
  same_obj H h leaf_image Q x y.
Proof.
  intros [E O] Ex Ey OI. pose proof (ST _ _ O Ex) as S. pose proof (AL _ _ O Ex) as A. destruct (WF _ O) as (x' & Ex' & W). rewrite Ex in Ex'. injection Ex' as <-.
  assert (CO : forall v, In v (children x) -> occurs H root v) by (intros; eapply occ_child; eauto).
  destruct x; try contradiction; destruct OI as (k & y' & Ek & Ey' & CI); injection Ek as <-; rewrite Ey in Ey'; injection Ey' as <-;
    destruct y; try contradiction; cbn [cell_image same_obj children settled_obj wf_obj] in *.
  - apply pairs_same; auto.
  - apply images_same; auto.
  - apply props_same; auto. apply CI.
  - destruct CI as (F & G & _). split; [apply images_same; auto; intros; apply CO, in_or_app; auto|]. apply props_same; auto.
    intros. apply CO, in_or_app. right. unfold own_items, flat in *. rewrite flat_map_app. apply in_or_app; auto.
  - destruct CI as (-> & -> & -> & I). destruct S as [-> S]. split; auto. split; [destruct message; congruence|]. split; auto.
    destruct cause; try (apply image_same; [apply CO; left; reflexivity|exact I]). destruct I as (v0 & <- & I). inversion I; subst. constructor.
  - destruct CI as (b & T & D). rewrite (S _ T) in D. congruence.
  - subst. destruct b as [d mx re ro], S as [S1 S2]. cbn in *. subst ro. unfold keeps_resizable. cbn.
    destruct re; [rewrite S2 by auto; reflexivity|]. cbn. destruct W as (_ & _ & W). rewrite W by auto. reflexivity.
  - destruct CI as (I & T & OF & ME & TR & _). destruct W as (_ & z & Ez & Bz).
    assert (QB : Q buffer buffer0) by (apply (image_same (VRef buffer) (VRef buffer0)); auto; apply CO; left; auto).
    assert (BK : backing_of h buffer0 = backing_of H buffer) by (apply carried_buffer; auto; rewrite Ez; exact Bz).
    split; auto. split; auto. split; auto. split; auto. rewrite BK. unfold view_tracking in *.
    destruct (vw_length v0) eqn:L0, (vw_length v) eqn:L; auto.
    + destruct (bk_resizable (backing_of H buffer)); auto. discriminate (proj2 TR eq_refl).
    + discriminate (proj1 TR eq_refl).
  - congruence.
  - apply pairs_same; auto.
  - apply images_same; auto.
  - destruct tuple; [contradiction|]. destruct CI as [F G]. split; auto. split; [apply images_same; auto|]. split; auto.
Qed.
Lemma carried_same : same_graph H h leaf_image Q root v'.
Proof.
  split; [apply image_same; [constructor|apply C]|]. split; [|split].
  - intros o j q. pose proof (proj1 q) as E. destruct (proj2 C _ _ E) as (x & Ex & OI).
    assert (X : exists y, nth_error h j = Some y).
    { pose proof (ST _ _ (proj2 q) Ex) as S. destruct x; try contradiction; destruct OI as (k & y & Ek & Ey & _); injection Ek as <-; eauto. }
    destruct X as [y Ey]. exists x, y. split; auto. split; auto. eapply carried_obj; eauto.
  - intros o a b [A _] [B _]. pose proof (proj1 O2O _ _ _ A B). congruence.
  - intros a b o [A _] [B _]. exact (proj2 O2O _ _ _ A B).
Qed.
End Carried.

(** dumps(loads(dumps(x))) is dumps(x), for what the round trip keeps (C21) if it is also decoded as it was, when the
    result has less than a gigabyte. *)
Theorem C70_round_trip_partial : forall H cfg dcfg root bs, wf_graph H cfg root -> default_constants dcfg -> readable_floats dcfg -> dates_back dcfg cfg ->
  writable H cfg root -> able H cfg dcfg false eq root -> aligned H root -> no_equals H root -> settled H cfg dcfg root ->
  dumps H cfg root = Ok bs -> lenN bs < 2 ^ 30 ->
  exists v' h, loads dcfg bs = Ok (v', h) /\ dumps h cfg v' = Ok bs.
Proof.
  intros H cfg dcfg root bs WF DC RF DT WR AB AL NE ST D L.
  destruct (C21_round_trip_partial H cfg dcfg root WF DC WR AB AL NE) as (bs' & v' & h & R & D' & E & C & O & _).
  rewrite D in D'. injection D' as <-. exists v', h. split; auto. rewrite <- D. symmetry.
  assert (BO : bytes_ok bs) by (destruct (C19_dumps_document _ _ _ _ WF D) as [w W]; eapply document_ok; eauto).
  destruct (loads_good _ _ _ _ BO L DC RF E) as [G Gv].
  eapply dumps_leaf; [apply image_leaf|exact WF|eapply good_wf; eauto|]. eapply carried_same; eauto.
Qed.
Print Assumptions C70_round_trip_partial.
(** Dates: a timestamp that was made from a datetime gives that datetime again. *)
Definition dates_settle (dcfg : ModelDecode.dcfg) (cfg : ecfg) : Prop :=
  forall b d b', b < 2 ^ 64 -> c_date dcfg b = inl d -> e_timestamp cfg d = inl b' -> c_date dcfg b' = inl d.
Lemma good_settled dcfg cfg h v : Forall (good_obj dcfg h) h -> dates_settle dcfg cfg -> f_resizable (e_features cfg) = true -> settled h cfg dcfg v.
Proof.
  intros G DS FR o x _ E. apply nth_error_In in E. rewrite Forall_forall in G. apply G in E.
  destruct x; cbn [good_obj settled_obj] in *; try contradiction; auto.
  - destruct E as (_ & E). exact E.
  - destruct E as (b & L & D). intros b' T. eauto.
  - split; [apply E|auto].
Qed.
(** Whatever data was loaded: after one dumps the bytes are the same however often they are loaded and dumped. *)
Theorem C70_settles_partial : forall dcfg cfg data v h bs, bytes_ok data -> lenN data < 2 ^ 30 -> default_constants dcfg ->
  readable_floats dcfg -> dates_back dcfg cfg -> dates_settle dcfg cfg -> loads dcfg data = Ok (v, h) ->
  f_resizable (e_features cfg) = true -> float16_ok h cfg v -> no_cycle h cfg v -> aligned h v -> no_equals h v ->
  dumps h cfg v = Ok bs -> lenN bs < 2 ^ 30 ->
  exists v' h', loads dcfg bs = Ok (v', h') /\ dumps h' cfg v' = Ok bs.
Proof.
  intros dcfg cfg data v h bs B L DC RF DT DS E FR F16 NC AL NE D LB. destruct (loads_good _ _ _ _ B L DC RF E) as [G Gv].
  eapply (C70_round_trip_partial h); eauto.
  - eapply good_wf; eauto.
  - split; auto. intros u e. eapply good_fails; eauto.
  - apply able_good; auto. intros b d b' Lb X T. exists d. eauto.
  - apply good_settled; auto.
Qed.
Print Assumptions C70_settles_partial.

(** * Cases *)
(** The graph of C19's example, a dict with a list that holds it, a view and an error, with the objects in another order. *)
Definition other_heap : heap :=
  [OError [69;114;114;111;114] (Some [109]) None (VRef 3);
   OBuffer (mkBuf [1; 2; 3; 4] 4 false false);
   OView 1 (mkView vUint8 1 (Some 2%Z) false);
   OSeq false [VInt 7; VRef 4];
   ODict [(VStr [97], VRef 3); (VInt 5, VRef 2); (VStr [98], VRef 0)]].
Lemma other_wf f : wf_graph other_heap (ex_ecfg f) (VRef 4).
Proof.
  assert (V : forall o, (o < 5)%nat -> wf_val other_heap (ex_ecfg f) (VRef o)).
  { intros o L. destruct o as [|[|[|[|[|o]]]]]; [..|lia]; (eexists; split; [reflexivity|]; cbn); auto.
    - split; repeat constructor; unfold code_point; lia.
    - repeat split; try lia. repeat constructor; lia.
    - split; [split; cbn; lia|eexists; split; [reflexivity|exact I]]. }
  apply wf_graph_all; [apply V; lia|]. repeat constructor; try (apply V; lia); cbn; try lia.
Qed.
Example C70_case : wf_graph ex_heap (ex_ecfg ex_all) (VRef 0) /\ wf_graph other_heap (ex_ecfg ex_all) (VRef 4) /\
  same_graph ex_heap other_heap eq (fun o o' => (o + o' = 4)%nat) (VRef 0) (VRef 4).
Proof.
  split; [apply ex_wf|]. split; [apply other_wf|]. split; [reflexivity|]. split; [|split; intros; lia].
  intros o o' Q. destruct o as [|[|[|[|[|o]]]]]; [..|lia]; (destruct o' as [|[|[|[|[|o']]]]]; try discriminate Q); do 2 eexists; (split; [reflexivity|split; [reflexivity|]]); cbn.
  - repeat (constructor; [split; cbn; try reflexivity; try lia|]). constructor.
  - split; [reflexivity|]. repeat (constructor; [cbn; try reflexivity; try lia|]). constructor.
  - repeat split.
  - reflexivity.
  - repeat split.
Qed.
(** The same graph also meets the hypotheses of the round trip, and data like it those of [C70_settles_partial]. *)
Example C70_round_trip_case : wf_graph ex_heap (ex_ecfg ex_all) (VRef 0) /\ writable ex_heap (ex_ecfg ex_all) (VRef 0) /\
  able ex_heap (ex_ecfg ex_all) again_cfg false eq (VRef 0) /\ aligned ex_heap (VRef 0) /\ no_equals ex_heap (VRef 0) /\
  settled ex_heap (ex_ecfg ex_all) again_cfg (VRef 0) /\ exists bs, dumps ex_heap (ex_ecfg ex_all) (VRef 0) = Ok bs /\ lenN bs < 2 ^ 30.
Proof.
  split; [apply ex_wf|]. split; [apply ex_writable|]. split; [|split; [apply C23_case|split; [apply ex_no_equals|split]]].
  - intros o x O E. pose proof (ex_able o x O E) as A. destruct x; auto.
  - intros o x _ Hx. destruct o as [|[|[|[|[|o]]]]]; [injection Hx as <-; cbn..|destruct o; discriminate Hx]; try exact I.
    + intros [X|[X|[]]]; discriminate X.
    + split; [reflexivity|discriminate].
    + split; [reflexivity|discriminate].
  - eexists. split; [vm_compute; reflexivity|reflexivity].
Qed.
Example C70_settles_case : exists v h bs, bytes_ok again /\ lenN again < 2 ^ 30 /\ default_constants again_cfg /\ readable_floats again_cfg /\
  dates_back again_cfg (ex_ecfg ex_all) /\ dates_settle again_cfg (ex_ecfg ex_all) /\ loads again_cfg again = Ok (v, h) /\
  float16_ok h (ex_ecfg ex_all) v /\ no_cycle h (ex_ecfg ex_all) v /\ aligned h v /\ no_equals h v /\ dumps h (ex_ecfg ex_all) v = Ok bs /\ lenN bs < 2 ^ 30.
Proof.
  destruct C69_case as (v & h & A & B & C & D & E & F & G). exists v, h.
  destruct (C69_dumps_again_features again_cfg (ex_ecfg ex_all) again v h A B C D E eq_refl eq_refl F) as [bs X]. exists bs.
  split; auto. split; auto. split; auto. split; auto. split; auto. split; [intros b d b' _ Y Z; injection Y as <-; injection Z as <-; reflexivity|].
  split; auto. destruct G as (G1 & G2 & G3 & G4). split; auto. split; auto. split; auto. split; auto. split; auto.
  vm_compute in F. injection F as <- <-. vm_compute in X. injection X as <-. reflexivity.
Qed.

(** * The full statement is false *)
(** Wrapper objects come back as plain values, and a list that is mostly holes as an array that is written with its
    indexes. *)
Theorem C70_wrapper_refuted : exists H root bs v' h bs', wf_graph H (ex_ecfg ex_all) root /\ dumps H (ex_ecfg ex_all) root = Ok bs /\
  loads ex_cfg bs = Ok (v', h) /\ dumps h (ex_ecfg ex_all) v' = Ok bs' /\ bs' <> bs.
Proof.
  exists [OPrim kTrueObject (VBool true)], (VRef 0). do 4 eexists. split; [|split; [vm_compute; reflexivity|split; [vm_compute; reflexivity|split; [vm_compute; reflexivity|discriminate]]]].
  apply wf_graph_all; [eexists; split; [reflexivity|exact I]|]. repeat constructor.
Qed.
Print Assumptions C70_wrapper_refuted.
Theorem C70_holes_refuted : exists H root bs v' h bs', wf_graph H (ex_ecfg ex_all) root /\ dumps H (ex_ecfg ex_all) root = Ok bs /\
  loads ex_cfg bs = Ok (v', h) /\ dumps h (ex_ecfg ex_all) v' = Ok bs' /\ bs' <> bs.
Proof.
  exists [OSeq false [VHole; VHole; VHole; VHole; VInt 1]], (VRef 0). do 4 eexists. split; [|split; [vm_compute; reflexivity|split; [vm_compute; reflexivity|split; [vm_compute; reflexivity|discriminate]]]].
  apply wf_graph_all; [eexists; split; [reflexivity|exact I]|]. repeat constructor.
Qed.
Print Assumptions C70_holes_refuted.
(** Not even what loads returned settles after one dumps: the reference after a regexp is misread (C23). *)
Theorem C70_settles_refuted : exists data v h bs v' h' bs', bytes_ok data /\ loads ex_cfg data = Ok (v, h) /\ dumps h (ex_ecfg ex_all) v = Ok bs /\
  loads ex_cfg bs = Ok (v', h') /\ dumps h' (ex_ecfg ex_all) v' = Ok bs' /\ bs' <> bs.
Proof.
  exists [255;15;65;3;82;83;1;97;0;111;123;0;94;2;36;0;3]. do 6 eexists. split; [repeat constructor|].
  split; [vm_compute; reflexivity|split; [vm_compute; reflexivity|split; [vm_compute; reflexivity|split; [vm_compute; reflexivity|discriminate]]]].
Qed.
Print Assumptions C70_settles_refuted.
(** Equal values in place of the same object are another graph: what is shared is written once. *)
Example C70_sharing : dumps [OSeq false [VRef 1; VRef 1]; OSeq false []] (ex_ecfg ex_all) (VRef 0) <>
  dumps [OSeq false [VRef 1; VRef 2]; OSeq false []; OSeq false []] (ex_ecfg ex_all) (VRef 0).
Proof. vm_compute. discriminate. Qed.
