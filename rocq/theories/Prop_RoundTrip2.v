(** C25: what writing an equal value in place of a value does. *)
From Coq Require Import List NArith ZArith Bool Lia.
From Coq Require Import ZifyBool ZifyN ZifyNat.
From Verif Require Import Base ModelTags ModelPrim SpecPrim PrimFacts PrimFacts2 SpecNumber SpecArray ModelLog ModelArray ModelValue SpecKey SpecMap ModelObject ModelMap ModelBuffer BufferFacts ModelHeap
  ModelDecode SpecWire SpecBuild DecodeComplete DecodeSound BuildFacts ModelEncode SpecEncode SpecParts SpecFail KeyFacts HashFacts HashFacts2 EncodeFacts EncodeFacts2 EncodeFacts3
  SpecGraph RoundTrip RoundTrip2 RoundTrip3 RoundTrip4 RoundTrip5 DoubleFacts2 Prop_Decode Prop_Encode Prop_RoundTrip.
Import ListNotations.
Open Scope N_scope.

(** * C25 *)
(** In general: the decoded graph is that of the values with some values replaced by equal ones, [equal_value]
    (same type, equal for Python). *)
Theorem C25_equal_graph_partial : forall H cfg dcfg root, wf_graph H cfg root -> default_constants dcfg ->
  writable H cfg root -> able H cfg dcfg false (equal_value H root) root -> aligned H root ->
  exists bs v' h R, dumps H cfg root = Ok bs /\ loads dcfg bs = Ok (v', h) /\
    carries H h cfg dcfg false (equal_value H root) root v' R /\ one_to_one R.
Proof.
  intros H cfg dcfg root WF DC [F Nc] AB AL. destruct (C28_supported_succeeds H cfg root WF F Nc) as (bs & w & r & E & _).
  destruct (round_trip_equal H cfg dcfg true false root WF DC ltac:(discriminate) _ bs eq_refl AB AL E) as (v' & h & R & L & C & _ & O & _).
  exists bs, v', h, (rel R). auto.
Qed.
Print Assumptions C25_equal_graph_partial.

(** Nothing changes, except that equal hashable objects may become one, when equal values are alike: floats
    have the same sign, equal tuples have items that are equal and of one type, and so on ([interchangeable],
    RoundTrip5). Missing: graphs with other equal values, on which the claim is false (see below). *)
Theorem C25_values_kept_partial : forall H cfg dcfg root, wf_graph H cfg root -> default_constants dcfg ->
  writable H cfg root -> able H cfg dcfg false (equal_value H root) root -> aligned H root -> interchangeable H root ->
  exists bs v' h R, dumps H cfg root = Ok bs /\ loads dcfg bs = Ok (v', h) /\
    carries H h cfg dcfg false eq root v' R /\ covers H root R /\
    (forall o o' j, R o (VRef j) -> R o' (VRef j) -> equal_value H root (VRef o) (VRef o')).
Proof.
  intros H cfg dcfg root WF DC [F Nc] AB AL IC. destruct (C28_supported_succeeds H cfg root WF F Nc) as (bs & w & r & E & _).
  destruct (round_trip_equal H cfg dcfg true false root WF DC ltac:(discriminate) _ bs eq_refl AB AL E) as (v' & h & R & L & C & _ & O & RO).
  exists bs, v', h, (up_to H root (rel R)). split; auto. split; auto.
  assert (C' : carries H h cfg dcfg false eq root v' (up_to H root (rel R))) by (apply dedup_exact; auto).
  split; auto. split; [eapply carries_covers; eauto|]. apply up_to_locs; auto.
Qed.
Print Assumptions C25_values_kept_partial.

(** Equal values are alike when the zeros have one sign and there are no tuples, wrapper objects and views. *)
Definition nested_hashable (x : obj) : Prop :=
  match x with OSeq true _ | OPrim _ _ | OView _ _ => True | _ => False end.
Theorem C25_plain_values_interchangeable : forall H cfg root, wf_graph H cfg root ->
  ~ (occurs H root (VFloat 0) /\ occurs H root (VFloat (2 ^ 63))) ->
  (forall o x, occurs H root (VRef o) -> nth_error H o = Some x -> ~ nested_hashable x) -> interchangeable H root.
Proof.
  intros H cfg root WF NZ NT a b Oa Ob N E. pose proof (hash_key_eq H a b N E) as K. destruct a; try (subst; exact I).
  - destruct K as (b0 & -> & S). cbn [alike]. pose proof (WF _ Oa) as W1. pose proof (WF _ Ob) as W2. cbn [wf_val] in W1, W2.
    assert (NN : ieee bits <> NaN). { intros X. apply N. unfold hash_key. rewrite hash_S, X. reflexivity. }
    destruct (ieee_inj _ _ W1 W2 S NN) as [->|[[->| ->] [->| ->]]]; auto; elim NZ; auto.
  - rename oid into o. destruct K as (o0 & ->). cbn [alike]. destruct (nth_error H o) as [x|] eqn:Hx; auto. destruct (nth_error H o0) as [y|] eqn:Hy; [|destruct x; auto].
    pose proof (NT _ _ Oa Hx) as N1. pose proof (NT _ _ Ob Hy) as N2. destruct x; cbn in N1; try (elim N1; exact I); auto.
    destruct tuple; [elim N1; exact I|]. exfalso. apply N. unfold hash_key. rewrite hash_S, Hx. reflexivity.
Qed.
Print Assumptions C25_plain_values_interchangeable.

(** A list with equal tuples, equal bytes and equal strings: all are written once. *)
Definition twins_heap : heap :=
  [OSeq false [VRef 1; VRef 2; VRef 3; VRef 4; VStr [97]; VStr [97]; VFloat (2 ^ 63)];
   OSeq true [VInt 1; VStr [97]]; OSeq true [VInt 1; VStr [97]]; OBytes [1]; OBytes [1]].
Ltac five Hx := match type of Hx with nth_error _ ?o = _ => destruct o as [|[|[|[|[|o]]]]]; cbn in Hx; try (injection Hx as <-); [..|destruct o; discriminate] end.
Lemma twins_occ v : occurs twins_heap (VRef 0) v -> In v [VRef 0; VRef 1; VRef 2; VRef 3; VRef 4; VStr [97]; VFloat (2 ^ 63); VInt 1].
Proof. intros O. apply occurs_in in O. cbn in O. cbn. intuition. Qed.
Example C25_case : wf_graph twins_heap (ex_ecfg ex_all) (VRef 0) /\ default_constants ex_cfg /\ writable twins_heap (ex_ecfg ex_all) (VRef 0) /\
  able twins_heap (ex_ecfg ex_all) ex_cfg false (equal_value twins_heap (VRef 0)) (VRef 0) /\ aligned twins_heap (VRef 0) /\ interchangeable twins_heap (VRef 0) /\
  hash_key twins_heap (VRef 1) = hash_key twins_heap (VRef 2) /\ hash_key twins_heap (VRef 3) = hash_key twins_heap (VRef 4).
Proof.
  split.
  { assert (V : forall o, (o < 5)%nat -> wf_val twins_heap (ex_ecfg ex_all) (VRef o)).
    { intros o L. destruct o as [|[|[|[|[|o]]]]]; [..|lia]; (eexists; split; [reflexivity|]); cbn [wf_obj]; auto; repeat constructor. }
    apply wf_graph_all; [apply V; lia|]. repeat constructor; try (apply V; lia); cbn; try (unfold code_point; lia). }
  split; [intros t; reflexivity|]. split; [split; [apply clean_heap; reflexivity|left; reflexivity]|].
  split. { intros o x _ Hx. five Hx; cbn; auto; reflexivity. }
  split. { intros o x _ Hx. five Hx; exact I. }
  split; [|split; vm_compute; reflexivity].
  intros a b Oa Ob N E. pose proof Oa as Oa'. pose proof Ob as Ob'. apply twins_occ in Oa, Ob. clear Oa' Ob'.
  assert (S1 : equal_value twins_heap (VRef 0) (VInt 1) (VInt 1)) by (left; auto).
  assert (S2 : equal_value twins_heap (VRef 0) (VStr [97]) (VStr [97])) by (left; auto).
  cbn [In] in Oa, Ob.
  repeat (destruct Oa as [<-|Oa]; [repeat (destruct Ob as [<-|Ob]; [try (vm_compute in E; discriminate E); try (elim N; vm_compute; reflexivity); cbn; auto|]); contradiction|]).
  contradiction.
Qed.

(** The full statement is false. The negative zero becomes the positive zero of the same list. *)
Theorem C25_negative_zero_refuted : exists H cfg root bs v' h, wf_graph H cfg root /\ writable H cfg root /\ aligned H root /\
  dumps H cfg root = Ok bs /\ loads ex_cfg bs = Ok (v', h) /\ forall R, ~ carries H h cfg ex_cfg false eq root v' R.
Proof.
  exists [OSeq false [VFloat 0; VFloat (2 ^ 63)]], (ex_ecfg ex_all), (VRef 0). eexists. eexists. eexists.
  split. { apply wf_graph_all; [eexists; split; [reflexivity|exact I]|]. repeat constructor. }
  split; [split; [apply clean_heap; reflexivity|left; reflexivity]|].
  split. { intros o x _ Hx. destruct o as [|o]; [injection Hx as <-; exact I|destruct o; discriminate]. }
  split; [vm_compute; reflexivity|]. split; [vm_compute; reflexivity|].
  intros R [M C]. apply image_ref in M. destruct (C _ _ M) as (x & Hx & OI). injection Hx as <-.
  destruct OI as (j & y & Ej & Hy & CI). injection Ej as <-. cbn in Hy. injection Hy as <-. destruct CI as [F _]. cbn in F.
  inversion F as [|? ? ? ? _ F1]; subst. inversion F1 as [|? ? ? ? (v0 & <- & Q) _]; subst. inversion Q.
Qed.
Print Assumptions C25_negative_zero_refuted.
(** The tuple (True,) becomes the tuple (1,) of the same list. *)
Theorem C25_tuple_refuted : exists H cfg root bs v' h, wf_graph H cfg root /\ writable H cfg root /\ aligned H root /\
  dumps H cfg root = Ok bs /\ loads ex_cfg bs = Ok (v', h) /\ forall R, ~ carries H h cfg ex_cfg false eq root v' R.
Proof.
  exists [OSeq false [VRef 1; VRef 2]; OSeq true [VInt 1]; OSeq true [VBool true]], (ex_ecfg ex_all), (VRef 0). eexists. eexists. eexists.
  split. { apply wf_graph_all; [eexists; split; [reflexivity|exact I]|]. repeat constructor; eexists; split; try reflexivity; exact I. }
  split; [split; [apply clean_heap; reflexivity|left; reflexivity]|].
  split. { intros o x _ Hx. destruct o as [|[|[|o]]]; cbn in Hx; try (injection Hx as <-; exact I). destruct o; discriminate. }
  split; [vm_compute; reflexivity|]. split; [vm_compute; reflexivity|].
  intros R [M C]. apply image_ref in M. destruct (C _ _ M) as (x & Hx & OI). injection Hx as <-.
  destruct OI as (j & y & Ej & Hy & CI). injection Ej as <-. cbn in Hy. injection Hy as <-. destruct CI as [F _]. cbn in F.
  inversion F as [|? ? ? ? _ F1]; subst. inversion F1 as [|? ? ? ? Q _]; subst. apply image_ref in Q. destruct (C _ _ Q) as (x & Hx & OI). injection Hx as <-.
  destruct OI as (j & y & Ej & Hy & CI). injection Ej as <-. cbn in Hy. injection Hy as <-. destruct CI as [F' _]. cbn in F'.
  inversion F' as [|? ? ? ? (v0 & <- & Q') _]; subst. inversion Q'.
Qed.
Print Assumptions C25_tuple_refuted.
(** A JSSet of two equal tuples, which are two objects for JavaScript and for JSSet, comes back with one item. *)
Theorem C25_set_item_refuted : exists H cfg root bs h m m', wf_graph H cfg root /\ writable H cfg root /\ aligned H root /\
  root = VRef 0 /\ nth_error H 0 = Some (OSet m) /\ length m = 2%nat /\
  dumps H cfg root = Ok bs /\ loads ex_cfg bs = Ok (VRef 0, h) /\ nth_error h 0 = Some (OSet m') /\ length m' = 1%nat.
Proof.
  exists [OSet [(SId 1, VRef 1); (SId 2, VRef 2)]; OSeq true [VInt 1]; OSeq true [VInt 1]], (ex_ecfg ex_all), (VRef 0). eexists. eexists. eexists. eexists.
  split. { apply wf_graph_all; [eexists; split; [reflexivity|]|].
    - split; [repeat constructor; cbn; intuition discriminate|]. intros s x [[= <- <-]|[[= <- <-]|[]]]; reflexivity.
    - repeat constructor; eexists; split; try reflexivity; exact I. }
  split; [split; [apply clean_heap; reflexivity|left; reflexivity]|].
  split. { intros o x _ Hx. destruct o as [|[|[|o]]]; cbn in Hx; try (injection Hx as <-; exact I). destruct o; discriminate. }
  split; [reflexivity|]. split; [reflexivity|]. split; [reflexivity|].
  split; [vm_compute; reflexivity|]. split; [vm_compute; reflexivity|]. split; [vm_compute; reflexivity|]. reflexivity.
Qed.
Print Assumptions C25_set_item_refuted.
(** [(JSUint8Array(b"\1"),), (JSInt8Array(b"\1"),)]: the views are equal for Python, and so are the tuples. The
    second tuple comes back with a Uint8Array. *)
Definition two_views_heap : heap :=
  [OSeq false [VRef 1; VRef 2]; OSeq true [VRef 3]; OSeq true [VRef 4]; OView 5 (mkView vUint8 0 None false); OView 5 (mkView vInt8 0 None false);
   OBuffer (mkBuf [1] 1 false true)].
Theorem C25_view_type_refuted : exists H cfg root bs v' h, wf_graph H cfg root /\ writable H cfg root /\ aligned H root /\
  dumps H cfg root = Ok bs /\ loads ex_cfg bs = Ok (v', h) /\
  nth_error H 4 = Some (OView 5 (mkView vInt8 0 None false)) /\ occurs H root (VRef 4) /\
  forall o b w, nth_error h o = Some (OView b w) -> vw_tag w = vUint8.
Proof.
  exists two_views_heap, (ex_ecfg ex_all), (VRef 0). eexists. eexists. eexists.
  split.
  { assert (V : forall t, view_ok (mkView t 0 None false)) by (intros t; split; [vm_compute; discriminate|exact I]).
    apply wf_graph_all; [eexists; split; [reflexivity|exact I]|].
    repeat (apply Forall_cons; [|]); cbn [children]; repeat (apply Forall_cons || apply Forall_nil); (eexists; split; [reflexivity|]); cbn [wf_obj]; auto.
    1,2: split; [apply V|]; eexists; split; [reflexivity|exact I].
    all: split; [repeat constructor|split; [vm_compute; discriminate|reflexivity]]. }
  split; [split; [apply clean_heap; reflexivity|left; reflexivity]|].
  split. { intros o x _ Hx. do 6 (destruct o as [|o]; [injection Hx as <-; exact I|]). destruct o; discriminate. }
  split; [vm_compute; reflexivity|]. split; [vm_compute; reflexivity|]. split; [reflexivity|].
  split. { eapply (occ_child _ _ 2); [eapply (occ_child _ _ 0); [constructor|reflexivity|right; left; reflexivity]|reflexivity|left; reflexivity]. }
  intros o b w Hw. repeat (destruct o as [|o]; cbn [nth_error] in Hw; [try discriminate Hw; injection Hw as _ <-; reflexivity|]). destruct o; discriminate Hw.
Qed.
Print Assumptions C25_view_type_refuted.
(** [JSUint8Array(JSSharedArrayBuffer(0)), JSUint8Array(JSSharedArrayBuffer(i))]: views of buffers whose contents Python
    cannot reach look empty and are all equal. The second view is written as a reference to the first; the id of its
    buffer is not in the output. *)
Definition shared_views_heap (i : N) : heap :=
  [OSeq false [VRef 1; VRef 3]; OView 2 (mkView vUint8 0 None false); OShared 0; OView 4 (mkView vUint8 0 None false); OShared i].
Theorem C25_shared_view_refuted : exists bs, forall i, i < 2 ^ 32 -> wf_graph (shared_views_heap i) (ex_ecfg ex_all) (VRef 0) /\
  occurs (shared_views_heap i) (VRef 0) (VRef 4) /\ dumps (shared_views_heap i) (ex_ecfg ex_all) (VRef 0) = Ok bs.
Proof.
  eexists. intros i L.
  split.
  { assert (V : forall t, view_ok (mkView t 0 None false)) by (intros t; split; [vm_compute; discriminate|exact I]).
    apply wf_graph_all; [eexists; split; [reflexivity|exact I]|].
    repeat (apply Forall_cons; [|]); cbn [children]; repeat (apply Forall_cons || apply Forall_nil); (eexists; split; [reflexivity|]); cbn [wf_obj]; auto.
    1,2: split; [apply V|]; eexists; split; [reflexivity|exact I].
    reflexivity. }
  split. { eapply (occ_child _ _ 3); [eapply (occ_child _ _ 0); [constructor|reflexivity|right; left; reflexivity]|reflexivity|left; reflexivity]. }
  vm_compute. reflexivity.
Qed.
Print Assumptions C25_shared_view_refuted.
