(** C78: references mean to loads and in the output of dumps what they mean to V8. *)
From Coq Require Import List NArith ZArith Bool Lia.
From Coq Require Import ZifyBool ZifyN ZifyNat.
From Verif Require Import Base ModelTags ModelPrim SpecPrim PrimFacts PrimFacts2 SpecNumber SpecArray ModelLog ModelArray ModelValue SpecKey SpecMap ModelObject ModelMap ModelBuffer BufferFacts ModelHeap
  ModelDecode SpecWire SpecBuild DecodeComplete DecodeSound BuildFacts Unambiguous ModelEncode SpecEncode SpecParts SpecFail KeyFacts HashFacts EncodeFacts EncodeFacts2 EncodeFacts3
  SpecGraph RoundTrip RoundTrip2 RoundTrip3 RoundTrip4 Prop_Decode Prop_Encode Prop_RoundTrip Prop_Truncate SpecV8 V8Facts V8Facts2.
Import ListNotations.
Open Scope N_scope.

(** * Reading *)
Lemma loads_document cfg w bs v h : document w bs ->
  loads cfg bs = Ok (v, h) <-> exists l, build cfg w ds_empty = Ok (v, mkD h l).
Proof.
  intros D. split.
  - intros E. unfold loads in E. apply bind_Ok in E as [[[v1 p] h1] [E E1]]. injection E1 as -> ->.
    destruct (loads_sound_stops _ _ _ _ _ (document_ok _ _ D) E) as (w2 & bs2 & r & l & DE & _ & W2 & M & F).
    destruct (documents_one w w2 bs bs2 [] r D W2) as (-> & _ & _); auto using follows_end; [rewrite app_nil_r; exact DE|]. eauto.
  - intros [l M]. unfold loads. pose proof (loads_complete cfg w bs [] v _ D M (follows_end w)) as E. rewrite app_nil_r in E. rewrite E. reflexivity.
Qed.

(** If no reference is to a host object or a shared or transferred buffer, or to an object after one, loads accepts
    a document exactly if it can be read with V8's numbering, and returns the graph that V8 means.
    Missing: other references, see below. *)
Theorem C78_reads_partial : forall cfg w bs v h, document w bs -> refers_before w ->
  loads cfg bs = Ok (v, h) <-> v8_graph cfg w = Ok (v, h).
Proof.
  intros cfg w bs v h D R. rewrite (loads_document cfg w bs v h D). pose proof (build_v8 cfg w R) as B.
  destruct (build cfg w ds_empty) as [[v1 [h1 l1]]|e], (v8_graph cfg w) as [[v2 h2]|e']; try contradiction.
  - destruct B as [<- <-]. cbn [ds_heap]. split; [intros [l E]; injection E as -> -> ->; reflexivity|].
    intros E. injection E as -> ->. eauto.
  - split; [intros [l E]|]; discriminate.
Qed.
Print Assumptions C78_reads_partial.
(** In particular data without them. *)
Theorem C78_plain_reads : forall cfg w bs v h, document w bs -> unnumbered w 0 = [] ->
  loads cfg bs = Ok (v, h) <-> v8_graph cfg w = Ok (v, h).
Proof. intros cfg w bs v h D U. apply C78_reads_partial; auto. intros id u _ I. rewrite U in I. destruct I. Qed.
Print Assumptions C78_plain_reads.

(** Concrete documents. *)
Ltac doc := exists 15, [255], [15]; eexists; split; [lia|]; split; [exists 0%nat; reflexivity|]; split; [apply (vi_last 15); lia|].
Lemma small_varint n : n < 128 -> is_varint [n] n.
Proof. intros. apply vi_last. exact H. Qed.
Lemma small_varint32 n : n < 128 -> varint32 n [n].
Proof. intros. split; [apply small_varint; auto|]. split; [cbn; lia|lia]. Qed.
Lemma tag_wire w bs : wbody 15 w bs -> wire 15 w ([tag_byte (wtag w)] ++ bs).
Proof. intros B. constructor; [exists 0%nat; reflexivity|exact B]. Qed.
Lemma dense_wire vs bs : wseq 15 vs bs -> vcount vs < 128 ->
  wire 15 (WDense vs PNil) ([65] ++ [vcount vs] ++ bs ++ [] ++ [36] ++ [0] ++ [vcount vs]).
Proof.
  intros W C. apply (tag_wire (WDense vs PNil)). apply wb_dense; auto using small_varint; [constructor|exact I|exists 0%nat; reflexivity|apply small_varint; reflexivity].
Qed.
Lemma ref_wire id : id < 128 -> wire 15 (WRef id None) ([94] ++ [id] ++ []).
Proof. intros L. apply (tag_wire (WRef id None)). apply wb_ref; [apply small_varint; auto|constructor]. Qed.
Lemma object_wire : wire 15 (WObject PNil) ([111] ++ [] ++ [123] ++ [0]).
Proof. apply (tag_wire (WObject PNil)). apply wb_object; [constructor|exact I|exists 0%nat; reflexivity|apply small_varint; reflexivity]. Qed.
Lemma host_wire : wire 15 (WHost 10 [7]) ([92] ++ [10] ++ [1] ++ [7]).
Proof. apply (tag_wire (WHost 10 [7])). apply wb_host; try (apply small_varint32; reflexivity). repeat constructor. Qed.
Lemma shared_wire : wire 15 (WBuf (BufShared 0) None) ([117] ++ [0] ++ []).
Proof. apply (tag_wire (WBuf (BufShared 0) None)). apply wb_buf; [constructor; apply small_varint32; reflexivity|constructor]. Qed.

(** What Node.js writes for [Buffer.from([7]), o, [], o] with o = {}: the Buffer has id 1 and o id 2. loads gives id 1 to o
    and id 2 to the empty array, and returns [<Buffer>, o, [], <the empty array>]. *)
Definition node_doc : bytes := [255;15;65;4;92;10;1;7;111;123;0;65;0;36;0;0;94;2;36;0;4].
Definition node_w : wval :=
  WDense (VCons (WHost 10 [7]) (VCons (WObject PNil) (VCons (WDense VNil PNil) (VCons (WRef 2 None) VNil)))) PNil.
Lemma node_document : document node_w node_doc.
Proof.
  doc. split; [|reflexivity].
  exact (dense_wire _ _ (wq_cons _ _ _ _ _ host_wire (wq_cons _ _ _ _ _ object_wire (wq_cons _ _ _ _ _ (dense_wire VNil [] (wq_nil 15) eq_refl)
    (wq_cons _ _ _ _ _ (ref_wire 2 eq_refl) (wq_nil 15))))) eq_refl).
Qed.
Theorem C78_host_refuted : exists cfg w bs h h' x x', document w bs /\
  v8_graph cfg w = Ok (VRef 0, h) /\ nth_error h 0 = Some (OArray x) /\ elements x = [VRef 2; VRef 3; VRef 4; VRef 3] /\
  loads cfg bs = Ok (VRef 0, h') /\ nth_error h' 0 = Some (OArray x') /\ elements x' = [VRef 2; VRef 3; VRef 4; VRef 4] /\
  nth_error h 3 = Some (OObject jo_empty) /\ nth_error h' 4 = Some (OArray jo_empty).
Proof.
  exists ex_cfg, node_w, node_doc. do 4 eexists. split; [exact node_document|].
  split; [vm_compute; reflexivity|]. split; [vm_compute; reflexivity|]. split; [vm_compute; reflexivity|].
  split; [vm_compute; reflexivity|]. split; [vm_compute; reflexivity|]. split; [vm_compute; reflexivity|]. split; vm_compute; reflexivity.
Qed.
Print Assumptions C78_host_refuted.
(** A shared array buffer twice in an array, as V8 writes it: loads refuses the second occurrence. *)
Theorem C78_shared_refuted : exists cfg w bs h x e, document w bs /\
  v8_graph cfg w = Ok (VRef 0, h) /\ nth_error h 0 = Some (OArray x) /\ elements x = [VRef 1; VRef 1] /\ nth_error h 1 = Some (OShared 0) /\
  loads cfg bs = Err e.
Proof.
  exists ex_cfg, (WDense (VCons (WBuf (BufShared 0) None) (VCons (WRef 1 None) VNil)) PNil), [255;15;65;2;117;0;94;1;36;0;2]. do 3 eexists.
  split. { doc. split; [|reflexivity].
    exact (dense_wire _ _ (wq_cons _ _ _ _ _ shared_wire (wq_cons _ _ _ _ _ (ref_wire 1 eq_refl) (wq_nil 15))) eq_refl). }
  split; [vm_compute; reflexivity|]. split; [vm_compute; reflexivity|]. split; [vm_compute; reflexivity|]. split; [reflexivity|]. vm_compute. reflexivity.
Qed.
Print Assumptions C78_shared_refuted.

(** * Writing *)
(** If the graph has no regexps and no errors without a cause, V8 gives out as many ids as dumps (without the Node.js step)
    recorded objects, for the whole value and for every part of it, so V8 finds each reference's object. Missing: those two
    kinds, and the Node.js step, see below. *)
Theorem C78_numbers_partial : forall H cfg refs root depth bs, wf_graph H cfg root ->
  (forall o x, occurs H root (VRef o) -> nth_error H o = Some x -> numbered_obj x) ->
  dumps_depth depth (steps_of H cfg refs false) root = Ok bs ->
  (exists w r, document w bs /\ describes H cfg refs false (rep_of H refs root) [] false root [] w r /\ v8_size w = lenN r) /\
  (forall open key v r w r', occurs H root v -> describes H cfg refs false (rep_of H refs root) open key v r w r' ->
     lenN r' = lenN r + v8_size w).
Proof.
  intros H cfg refs root depth bs WF A E. split.
  - apply (dumps_describes H cfg refs false root WF) in E as (w & r & D & Dc). exists w, r. split; [exact Dc|]. split; [exact D|].
    pose proof (proj1 (describes_size H cfg refs root A) _ _ _ _ _ _ D (occ_root _ _)) as X. rewrite X. reflexivity.
  - intros open key v r w r' O D. apply (proj1 (describes_size H cfg refs root A) _ _ _ _ _ _ D O).
Qed.
Print Assumptions C78_numbers_partial.
(** Without shared and transferred buffers too, and under the conditions of C21, the graph that V8 makes of the output is the
    graph that was dumped. *)
Theorem C78_written_partial : forall H cfg dcfg root, wf_graph H cfg root -> default_constants dcfg ->
  writable H cfg root -> able H cfg dcfg false eq root -> aligned H root -> no_equals H root ->
  exists bs w v' h R, dumps H cfg root = Ok bs /\ document w bs /\ v8_graph dcfg w = Ok (v', h) /\
    carries H h cfg dcfg false eq root v' R /\ one_to_one R /\ covers H root R.
Proof.
  intros H cfg dcfg root WF DC WR AB AL NE. destruct (C21_round_trip_partial H cfg dcfg root WF DC WR AB AL NE) as (bs & v' & h & R & E & Ld & C & O & Cv).
  pose proof E as E'. apply (dumps_describes H cfg true false root WF) in E' as (w & r & D & Dc).
  exists bs, w, v', h, R. split; [exact E|]. split; [exact Dc|]. split; [|auto].
  apply (C78_plain_reads dcfg w bs v' h Dc); [|exact Ld]. apply (proj1 (describes_plain H cfg true root AL) _ _ _ _ _ _ D (occ_root _ _)).
Qed.
Print Assumptions C78_written_partial.
(** The hypotheses are those of C21 and C23; their examples [C21_case] and [C23_case] meet them. *)
Example C78_numbers_case : wf_graph ex_heap (ex_ecfg ex_none) (VRef 0) /\
  (forall o x, occurs ex_heap (VRef 0) (VRef o) -> nth_error ex_heap o = Some x -> numbered_obj x) /\
  exists bs, dumps ex_heap (ex_ecfg ex_none) (VRef 0) = Ok bs.
Proof.
  split; [apply ex_wf|]. split; [|eexists; exact ex_dumps].
  intros o x _ Hx. do 5 (destruct o as [|o]; [injection Hx as <-; first [exact I|discriminate]|]). destruct o; discriminate.
Qed.

(** [x, [], the same list] with x a regexp or an error without a cause: in the output the third element is a reference to id 1,
    which is x to V8. *)
Lemma regexp_wire : wire 15 (WRegExp kUtf8String [97] 0) ([82] ++ [83] ++ ([1] ++ [97]) ++ [0]).
Proof.
  apply (tag_wire (WRegExp kUtf8String [97] 0)). apply wb_regexp; [exists 0%nat; reflexivity| |apply small_varint; reflexivity].
  constructor; [|apply small_varint; reflexivity]. apply (es_cons utf8_of 97 [] [97] []); [|constructor]. apply (u8_1 97). lia.
Qed.
Definition shift_w (x : wval) : wval := WDense (VCons x (VCons (WDense VNil PNil) (VCons (WRef 1 None) VNil))) PNil.
Lemma shift_document x bs : wire 15 x bs -> document (shift_w x) ([255; 15] ++ [65] ++ [3] ++ (bs ++ [65; 0; 36; 0; 0] ++ [94; 1]) ++ [36; 0; 3]).
Proof.
  intros W. exists 15, [255], [15]. eexists. split; [lia|]. split; [exists 0%nat; reflexivity|]. split; [apply (vi_last 15); lia|]. split; [|reflexivity].
  exact (dense_wire _ _ (wq_cons _ _ _ _ _ W (wq_cons _ _ _ _ _ (dense_wire VNil [] (wq_nil 15) eq_refl) (wq_cons _ _ _ _ _ (ref_wire 1 eq_refl) (wq_nil 15)))) eq_refl).
Qed.
Theorem C78_regexp_refuted : exists H cfg root bs w h x, wf_graph H cfg root /\ dumps H cfg root = Ok bs /\ document w bs /\
  v8_graph ex_cfg w = Ok (VRef 0, h) /\ nth_error h 0 = Some (OArray x) /\ elements x = [VRef 1; VRef 2; VRef 1] /\
  nth_error h 1 = Some (ORegExp [97] 0) /\ nth_error H 0 = Some (OSeq false [VRef 1; VRef 2; VRef 2]).
Proof.
  exists (shift_heap (ORegExp [97] 0)), (ex_ecfg ex_none), (VRef 0). eexists. exists (shift_w (WRegExp kUtf8String [97] 0)). do 2 eexists. split.
  - apply shift_wf; [|reflexivity]. cbn. split; [repeat constructor; unfold code_point; lia|]. eexists. split; reflexivity.
  - split; [vm_compute; reflexivity|]. split; [exact (shift_document _ _ regexp_wire)|]. split; [vm_compute; reflexivity|].
    split; [vm_compute; reflexivity|]. split; [vm_compute; reflexivity|]. split; vm_compute; reflexivity.
Qed.
Print Assumptions C78_regexp_refuted.
Lemma error_wire : wire 15 (WError None None None) ([114] ++ [] ++ [] ++ [] ++ [46]).
Proof. apply (tag_wire (WError None None None)). apply wb_error; try constructor. reflexivity. Qed.
Theorem C78_error_refuted : exists H cfg root bs w h x n m s, wf_graph H cfg root /\ dumps H cfg root = Ok bs /\ document w bs /\
  v8_graph ex_cfg w = Ok (VRef 0, h) /\ nth_error h 0 = Some (OArray x) /\ elements x = [VRef 1; VRef 2; VRef 1] /\
  nth_error h 1 = Some (OError n m s VNone) /\ nth_error H 0 = Some (OSeq false [VRef 1; VRef 2; VRef 2]).
Proof.
  exists (shift_heap (OError [69;114;114;111;114] None None VNone)), (ex_ecfg ex_none), (VRef 0). eexists. exists (shift_w (WError None None None)). do 5 eexists. split.
  - apply shift_wf; [|reflexivity]. cbn. auto.
  - split; [vm_compute; reflexivity|]. split; [exact (shift_document _ _ error_wire)|]. split; [vm_compute; reflexivity|].
    split; [vm_compute; reflexivity|]. split; [vm_compute; reflexivity|]. split; vm_compute; reflexivity.
Qed.
Print Assumptions C78_error_refuted.
(** With the step for Node.js a view is a host object, and takes an id in V8 only. *)
Theorem C78_node_refuted : exists H cfg root bs w h x, dumps_depth 9 (steps_of H cfg true true) root = Ok bs /\ document w bs /\
  v8_graph ex_cfg w = Ok (VRef 0, h) /\ nth_error h 0 = Some (OArray x) /\ elements x = [VRef 2; VRef 3; VRef 2] /\
  nth_error H 0 = Some (OSeq false [VRef 1; VRef 2; VRef 2]) /\
  nth_error H 1 = Some (OView 3 (mkView vUint8 0 None false)) /\ nth_error H 2 = Some (OSeq false []).
Proof.
  exists [OSeq false [VRef 1; VRef 2; VRef 2]; OView 3 (mkView vUint8 0 None false); OSeq false []; OBytes [7]], (ex_ecfg ex_none), (VRef 0).
  eexists. exists (shift_w (WHost 1 [7])). do 2 eexists.
  split; [vm_compute; reflexivity|].
  assert (W : wire 15 (WHost 1 [7]) ([92] ++ [1] ++ [1] ++ [7])).
  { apply (tag_wire (WHost 1 [7])). apply wb_host; try (apply small_varint32; reflexivity). repeat constructor. }
  split; [exact (shift_document _ _ W)|]. split; [vm_compute; reflexivity|]. split; [vm_compute; reflexivity|]. split; [vm_compute; reflexivity|]. split; [reflexivity|]. split; reflexivity.
Qed.
Print Assumptions C78_node_refuted.
(** A document for C78_reads_partial: [o, <shared buffer>, o] and {a: 1, b: <the object itself>}. *)
Example C78_reads_case : exists w bs v h, document w bs /\ refers_before w /\ loads ex_cfg bs = Ok (v, h) /\ unnumbered w 0 <> [] /\ referenced w <> [].
Proof.
  exists (WDense (VCons (WObject PNil) (VCons (WBuf (BufShared 0) None) (VCons (WRef 1 None) VNil))) PNil), [255;15;65;3;111;123;0;117;0;94;1;36;0;3]. do 2 eexists.
  split. { doc. split; [|reflexivity].
    exact (dense_wire _ _ (wq_cons _ _ _ _ _ object_wire (wq_cons _ _ _ _ _ shared_wire (wq_cons _ _ _ _ _ (ref_wire 1 eq_refl) (wq_nil 15)))) eq_refl). }
  split. { intros id u I U. vm_compute in I, U. destruct I as [<-|[]], U as [<-|[]]. lia. }
  split; [vm_compute; reflexivity|]. split; discriminate.
Qed.
