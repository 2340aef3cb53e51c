(** C81: V8 accepts the buffers, views and references that dumps writes. *)
From Coq Require Import List NArith ZArith Bool Lia.
From Coq Require Import ZifyBool ZifyN ZifyNat.
From Verif Require Import Base ModelTags ModelPrim SpecPrim PrimFacts SpecNumber ModelLog ModelArray ModelValue ModelObject ModelMap ModelBuffer BufferFacts ModelHeap
  ModelDecode SpecWire SpecBuild DecodeSound Unambiguous ModelEncode SpecEncode SpecParts EncodeFacts EncodeFacts2
  Prop_Encode SpecV8 SpecV8Accepts V8Facts3 Prop_V8.
Import ListNotations.
Open Scope N_scope.

(** Views are over bytes objects, JSArrayBuffers, shared and transferred buffers. Not over a bytearray; and a view over a resizable
    JSArrayBuffer only when the feature ResizableArrayBuffers is on. *)
Definition regular_views (H : heap) (cfg : ecfg) (root : val) : Prop :=
  forall o b v x, occurs H root (VRef o) -> nth_error H o = Some (OView b v) -> nth_error H b = Some x ->
    match x with
    | OByteArray _ => False
    | OBuffer j => jb_resizable j = true -> f_resizable (e_features cfg) = true
    | _ => True
    end.
(** Missing: the views excluded above, and with references also graphs with regexps and errors without a cause; both are refuted
    below (and in C78). The step for Node.js is not used. *)
Theorem C81_accepted_partial : forall H cfg refs root depth bs, wf_graph H cfg root ->
  (refs = true -> forall o x, occurs H root (VRef o) -> nth_error H o = Some x -> numbered_obj x) ->
  regular_views H cfg root ->
  dumps_depth depth (steps_of H cfg refs false) root = Ok bs ->
  (exists w, document w bs) /\ (forall w, document w bs -> v8_accepts [] w).
Proof.
  intros H cfg refs root depth bs WF NUM RV E. apply (dumps_describes H cfg refs false root WF) in E as (w & r & D & Dc).
  split; [eauto|]. intros w' D'. rewrite (document_one w' w bs D' Dc).
  apply (proj1 (describes_accepted H cfg refs root WF NUM RV) _ _ _ _ _ _ D (occ_root _ _) []). apply table_nil.
Qed.
Print Assumptions C81_accepted_partial.

(** [<Float64Array, length tracking>, <DataView of 3 bytes>, <view of a shared buffer>, <the first again>] over one resizable buffer *)
Definition views_heap : heap :=
  [OSeq false [VRef 1; VRef 2; VRef 3; VRef 1; VRef 4];
   OView 4 (mkView vFloat64 1 None false);
   OView 4 (mkView vDataView 5 (Some 3%Z) false);
   OView 5 (mkView vUint16 0 (Some 2%Z) false);
   OBuffer (mkBuf [1;2;3;4;5;6;7;8;9;10;11;12;13;14;15;16;17] 24 true false);
   OShared 7].
Lemma views_wf f : wf_graph views_heap (ex_ecfg f) (VRef 0).
Proof.
  assert (V : forall o, (o < 6)%nat -> wf_val views_heap (ex_ecfg f) (VRef o)).
  { intros o L. destruct o as [|[|[|[|[|[|o]]]]]]; [..|lia]; (eexists; split; [reflexivity|]; cbn); auto.
    - split; [split; cbn; lia|eexists; split; [reflexivity|exact I]].
    - split; [split; cbn; lia|eexists; split; [reflexivity|exact I]].
    - split; [split; cbn; lia|eexists; split; [reflexivity|exact I]].
    - repeat split; try lia; try discriminate. repeat constructor; lia.
    - lia. }
  apply wf_graph_all; [apply V; lia|]. repeat constructor; try (apply V; lia); cbn; try lia.
Qed.
Example C81_case : wf_graph views_heap (ex_ecfg ex_all) (VRef 0) /\ regular_views views_heap (ex_ecfg ex_all) (VRef 0) /\
  (forall o x, nth_error views_heap o = Some x -> numbered_obj x) /\
  dumps views_heap (ex_ecfg ex_all) (VRef 0) =
    Ok [255;15; 65;5; 126;17;24;1;2;3;4;5;6;7;8;9;10;11;12;13;14;15;16;17; 86;70;8;8;3; 94;1; 86;63;5;3;2; 117;7; 86;87;0;0;0; 94;2; 94;1; 36;0;5].
Proof.
  split; [apply views_wf|]. split; [|split; [|vm_compute; reflexivity]].
  - intros o b v x _ Ho Hb. do 6 (destruct o as [|o]; [try discriminate; injection Ho as <- <-; cbn in Hb; injection Hb as <-; cbn; auto|]). destruct o; discriminate.
  - intros o x Hx. do 6 (destruct o as [|o]; [injection Hx as <-; exact I|]). destruct o; discriminate.
Qed.

(** * Refutations *)
Lemma view_wire off len fl : off < 128 -> len < 128 -> fl < 128 -> wviewb 15 (Some (mkWView vUint8 off len fl)) (86 :: [66] ++ [off] ++ [len] ++ [fl]).
Proof.
  intros. apply (wv_some 15 vUint8 off len fl [66] [off] [len] [fl]);
    [exact (small_varint 66 eq_refl)|apply small_varint32; auto|apply small_varint32; auto|intros _; apply small_varint; auto|lia].
Qed.
Lemma view_document d off len fl : bytes_ok d -> lenN d < 128 -> off < 128 -> len < 128 -> fl < 128 ->
  document (WBuf (BufPlain d) (Some (mkWView vUint8 off len fl))) ([255; 15] ++ [66] ++ ([lenN d] ++ d) ++ 86 :: [66] ++ [off] ++ [len] ++ [fl]).
Proof.
  intros B L1 L2 L3 L4. exists 15, [255], [15]. eexists. split; [lia|]. split; [exists 0%nat; reflexivity|]. split; [apply (vi_last 15); lia|]. split; [|reflexivity].
  apply (tag_wire (WBuf (BufPlain d) (Some (mkWView vUint8 off len fl)))). apply wb_buf; [constructor; auto; apply small_varint32; auto|].
  apply view_wire; auto.
Qed.
(** JSUint8Array(bytearray([1, 2])): a plain array buffer and a view that is flagged as backed by a resizable one. *)
Theorem C81_bytearray_refuted : exists H cfg bs w, H = [OView 1 (mkView vUint8 0 None false); OByteArray [1; 2]] /\
  wf_graph H cfg (VRef 0) /\ dumps H cfg (VRef 0) = Ok bs /\ document w bs /\ ~ v8_accepts [] w.
Proof.
  eexists. exists (ex_ecfg ex_all). do 2 eexists. split; [reflexivity|]. split; [|split; [vm_compute; reflexivity|]].
  - set (H := [OView 1 (mkView vUint8 0 None false); OByteArray [1; 2]]).
    assert (V : forall o, (o < 2)%nat -> wf_val H (ex_ecfg ex_all) (VRef o)).
    { intros o L. destruct o as [|[|o]]; [..|lia]; (eexists; split; [reflexivity|]; cbn).
      - split; [split; cbn; lia|eexists; split; [reflexivity|exact I]].
      - repeat constructor; lia. }
    apply wf_graph_all; [apply V; lia|]. repeat constructor; try (apply V; lia).
  - split; [apply (view_document [1; 2] 0 2 3); try reflexivity; repeat constructor; lia|].
    intros (_ & _ & _ & F & _). specialize (F eq_refl). discriminate.
Qed.
Print Assumptions C81_bytearray_refuted.
(** A view of 2 bytes over a resizable JSArrayBuffer, written without the feature ResizableArrayBuffers. *)
Theorem C81_feature_refuted : exists H cfg bs w, H = [OView 1 (mkView vUint8 0 (Some 2%Z) false); OBuffer (mkBuf [1; 2] 4 true false)] /\
  wf_graph H cfg (VRef 0) /\ f_resizable (e_features cfg) = false /\ dumps H cfg (VRef 0) = Ok bs /\ document w bs /\ ~ v8_accepts [] w.
Proof.
  eexists. exists (ex_ecfg ex_none). do 2 eexists. split; [reflexivity|]. split; [|split; [reflexivity|split; [vm_compute; reflexivity|]]].
  - set (H := [OView 1 (mkView vUint8 0 (Some 2%Z) false); OBuffer (mkBuf [1; 2] 4 true false)]).
    assert (V : forall o, (o < 2)%nat -> wf_val H (ex_ecfg ex_none) (VRef o)).
    { intros o L. destruct o as [|[|o]]; [..|lia]; (eexists; split; [reflexivity|]; cbn).
      - split; [split; cbn; lia|eexists; split; [reflexivity|exact I]].
      - repeat split; try lia; try discriminate. repeat constructor; lia. }
    apply wf_graph_all; [apply V; lia|]. repeat constructor; try (apply V; lia).
  - split; [apply (view_document [1; 2] 0 2 2); try reflexivity; repeat constructor; lia|].
    intros (_ & _ & _ & _ & F). discriminate.
Qed.
Print Assumptions C81_feature_refuted.
(** [<regexp>, <view>, <another view of the same bytes>]: the second view is of a reference to id 1, which is the regexp to V8. *)
Theorem C81_regexp_refuted : exists H cfg bs w, H = [OSeq false [VRef 1; VRef 2; VRef 3]; ORegExp [97] 0;
    OView 4 (mkView vUint8 0 (Some 1%Z) false); OView 4 (mkView vUint8 1 (Some 1%Z) false); OBytes [1; 2]] /\
  wf_graph H cfg (VRef 0) /\ regular_views H cfg (VRef 0) /\ dumps H cfg (VRef 0) = Ok bs /\ document w bs /\ ~ v8_accepts [] w.
Proof.
  eexists. exists (ex_ecfg ex_all). eexists.
  exists (WDense (VCons (WRegExp kUtf8String [97] 0) (VCons (WBuf (BufPlain [1; 2]) (Some (mkWView vUint8 0 1 0))) (VCons (WRef 1 (Some (mkWView vUint8 1 1 0))) VNil))) PNil).
  split; [reflexivity|]. split; [|split; [|split; [vm_compute; reflexivity|]]].
  - set (H := [OSeq false [VRef 1; VRef 2; VRef 3]; ORegExp [97] 0;
      OView 4 (mkView vUint8 0 (Some 1%Z) false); OView 4 (mkView vUint8 1 (Some 1%Z) false); OBytes [1; 2]]).
    assert (V : forall o, (o < 5)%nat -> wf_val H (ex_ecfg ex_all) (VRef o)).
    { intros o L. destruct o as [|[|[|[|[|o]]]]]; [..|lia]; (eexists; split; [reflexivity|]; cbn); auto.
      - split; [repeat constructor; unfold code_point; lia|]. eexists. split; reflexivity.
      - split; [split; cbn; lia|eexists; split; [reflexivity|exact I]].
      - split; [split; cbn; lia|eexists; split; [reflexivity|exact I]].
      - repeat constructor; lia. }
    apply wf_graph_all; [apply V; lia|]. repeat constructor; try (apply V; lia).
  - intros o b v x _ Ho Hb. do 5 (destruct o as [|o]; [try discriminate; injection Ho as <- <-; cbn in Hb; injection Hb as <-; exact I|]). destruct o; discriminate.
  - split.
    + exists 15, [255], [15]. eexists. split; [lia|]. split; [exists 0%nat; reflexivity|]. split; [apply (vi_last 15); lia|]. split; [|reflexivity].
      assert (W1 : wire 15 (WBuf (BufPlain [1; 2]) (Some (mkWView vUint8 0 1 0))) ([66] ++ ([2] ++ [1; 2]) ++ 86 :: [66] ++ [0] ++ [1] ++ [0])).
      { apply (tag_wire (WBuf (BufPlain [1; 2]) (Some (mkWView vUint8 0 1 0)))). apply wb_buf; [|apply view_wire; reflexivity].
        apply (wbb_plain [1; 2] [2]); [apply small_varint32; reflexivity|repeat constructor; lia]. }
      assert (W2 : wire 15 (WRef 1 (Some (mkWView vUint8 1 1 0))) ([94] ++ [1] ++ 86 :: [66] ++ [1] ++ [1] ++ [0])).
      { apply (tag_wire (WRef 1 (Some (mkWView vUint8 1 1 0)))). apply wb_ref; [apply small_varint; reflexivity|apply view_wire; reflexivity]. }
      exact (dense_wire _ _ (wq_cons _ _ _ _ _ regexp_wire (wq_cons _ _ _ _ _ W1 (wq_cons _ _ _ _ _ W2 (wq_nil 15)))) eq_refl).
    + intros ((_ & _ & (x & E & b & -> & _) & _) & _). discriminate.
Qed.
Print Assumptions C81_regexp_refuted.
