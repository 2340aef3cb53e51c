(** C13-C18: decoding. *)
From Coq Require Import List NArith ZArith Bool Lia ZifyBool ZifyNat ZifyN.
From Verif Require Import Base ModelTags ModelPrim SpecPrim PrimFacts PrimFacts2 PrimFacts3 ModelValue ModelObject ModelArray ModelMap ModelBuffer ModelHeap
  ModelDecode SpecWire SpecBuild DecodeFacts DecodeSound DecodeComplete DecodeMono BuildFacts.
Import ListNotations.
Open Scope N_scope.

(** A configuration for the examples: the default constants, Node's host objects, and a
    platform that can represent every date. *)
Definition ex_cfg : dcfg := mkCfg (fun _ => []) (fun b => inl b) default_const true.
(** {a: 1, b: <the object itself>} and 3 bytes that follow it. *)
Definition ex_doc : bytes := [255;15;111;34;1;97;73;2;34;1;98;94;0;123;2].

(** * C13 *)

(** There is one outcome, and every evaluation whose recursion depth and loop counts may
    exceed the number of bytes reaches it. *)
Theorem C13_loads_terminates : forall cfg data, exists r, r <> Err EOutOfFuel /\
  forall depth, (length data < depth)%nat -> loads_depth depth cfg data = r.
Proof.
  intros cfg data. exists (loads_at cfg data). split.
  - intros E. pose proof (loads_safe (S (length data)) cfg data ltac:(lia)) as H. fold (loads_at cfg data) in H.
    rewrite E in H. discriminate H.
  - intros depth L. apply loads_depth_irrelevant; lia.
Qed.
Print Assumptions C13_loads_terminates.

(** The number of objects created is at most the number of bytes consumed, whatever counts and
    lengths the data declares. *)
Theorem C13_loads_work_bounded : forall cfg data v p h,
  bytes_ok data -> loads_at cfg data = Ok (v, p, h) -> (length h <= p <= length data)%nat.
Proof.
  intros cfg data v p h B E. destruct (loads_sound _ _ _ _ _ B E) as [w [bs [rest [l [D [P [W M]]]]]]].
  destruct W as [version [tb [vb [body [_ [_ [_ [W ->]]]]]]]].
  apply (proj1 (wire_objs version)) in W. apply (proj1 (build_objs cfg)) in M. cbn in M.
  subst data. rewrite !app_length in *. lia.
Qed.
Print Assumptions C13_loads_work_bounded.
(** A dense array that declares 2^28 elements and has one. *)
Example C13_example : loads_at ex_cfg [255;15;65;128;128;128;128;1;48;36;0] = Err EUnhandledTag /\
  exists v h, loads_at ex_cfg ex_doc = Ok (v, 15%nat, h) /\ length h = 1%nat.
Proof. split; [reflexivity|]. eexists _, _. split; vm_compute; reflexivity. Qed.

(** * C14 *)

Lemma document_length w bs : document w bs -> (3 <= length bs)%nat.
Proof.
  intros [version [tb [vb [body [_ [T [V [W ->]]]]]]]]. apply tagged_length in T. apply (proj1 (wire_objs version)) in W.
  rewrite !app_length. destruct V; cbn [length]; lia.
Qed.

(** The final position is inside the data, after the header (at least two bytes) and the tag
    of the value. *)
Theorem C14_position_in_range : forall cfg data v p h,
  bytes_ok data -> loads_at cfg data = Ok (v, p, h) -> (3 <= p <= length data)%nat.
Proof.
  intros cfg data v p h B E. destruct (loads_sound _ _ _ _ _ B E) as [w [bs [rest [l [D [P [W M]]]]]]].
  apply document_length in W. subst data. rewrite app_length. lia.
Qed.
Print Assumptions C14_position_in_range.

(** Replacing what follows the final position by anything that does not start with the
    ArrayBufferView tag does not change the result. *)
Theorem C14_rest_is_not_read : forall cfg data v p h rest,
  bytes_ok data -> loads_at cfg data = Ok (v, p, h) -> hd_error rest <> Some (tag_byte kArrayBufferView) ->
  loads_at cfg (firstn p data ++ rest) = Ok (v, p, h).
Proof.
  intros cfg data v p h rest B E R. destruct (loads_sound _ _ _ _ _ B E) as [w [bs [rest0 [l [D [P [W M]]]]]]].
  subst data p. rewrite firstn_app, firstn_all, Nat.sub_diag, firstn_O, app_nil_r.
  rewrite (loads_complete cfg w bs rest v _ W M); [reflexivity|].
  intros _. exact R.
Qed.
Print Assumptions C14_rest_is_not_read.
(** The exception is real: the byte after a buffer decides whether a view is read. *)
Example C14_example : loads_at ex_cfg [255;15;66;1;7;48] <> loads_at ex_cfg [255;15;66;1;7;86;66;0;1;0] /\
  loads_at ex_cfg [255;15;66;1;7;48] = loads_at ex_cfg [255;15;66;1;7] /\
  loads_at ex_cfg (firstn 15 ex_doc ++ [1;2;3]) = loads_at ex_cfg ex_doc.
Proof. split; [vm_compute; discriminate|]. split; vm_compute; reflexivity. Qed.

(** * C15 *)

(** Only these exceptions; the first three are DecodeV8SerializeErrors. Missing for the full
    statement: the others, which [C15_*_refuted] show to be reachable. *)
Theorem C15_loads_exceptions_partial : forall cfg data e, loads_at cfg data = Err e ->
  In e [EDecode; EUnhandledTag; ENodeHost] \/
  In e [EIndex; EValue; EOverflow; EOSError; EAssert; EItemSize; EBounds].
Proof.
  intros cfg data e E. pose proof (loads_safe (S (length data)) cfg data ltac:(lia)) as H. fold (loads_at cfg data) in H.
  rewrite E in H. cbn in H. destruct e; try discriminate H; cbn; tauto.
Qed.
Print Assumptions C15_loads_exceptions_partial.
(** Never KeyError, TypeError, UnicodeDecodeError, struct.error, ... *)
Theorem C15_no_other_exception_partial : forall cfg data,
  ~ In (loads_at cfg data) (map Err [EKey; EUnicode; EType; EByteLength; EEncode; ENotSerialized; EIdOutOfRange;
      EIllegalCyclic; ELookup; ENotImplemented; EStruct; EOutOfFuel]).
Proof.
  intros cfg data I. apply in_map_iff in I as [e [E I]]. symmetry in E. apply C15_loads_exceptions_partial in E.
  cbn in E, I. repeat (destruct I as [<-|I]; [repeat (destruct E as [E|E]; try discriminate E; try contradiction E)|]); exact I.
Qed.
Print Assumptions C15_no_other_exception_partial.

(** What the full statement says of one exception. *)
Definition raises (e : exn) (data : bytes) : Prop := loads_at ex_cfg data = Err e.
(** An error with an unknown field tag at the end of the data: IndexError. *)
Theorem C15_error_tag_refuted : exists data, bytes_ok data /\ raises EIndex data /\ is_decode_error EIndex = false.
Proof. exists [255;15;114;1]. split; [repeat constructor|split; reflexivity]. Qed.
(** A resizable buffer whose length passes the end of the data because of its maximum length:
    IndexError. *)
Theorem C15_resizable_buffer_refuted : exists data, bytes_ok data /\ raises EIndex data /\ nth 2 data 0 = tag_byte kResizableArrayBuffer.
Proof. exists [255;15;126;2;133;0;66]. split; [repeat constructor|split; reflexivity]. Qed.
(** A regexp with both the u and the v flag: ValueError. *)
Theorem C15_regexp_refuted : exists data, bytes_ok data /\ raises EValue data /\ is_decode_error EValue = false.
Proof. exists [255;15;82;34;1;97;144;2]. split; [repeat constructor|split; reflexivity]. Qed.
(** A map key that is a BigInt too large for a float: OverflowError. *)
Theorem C15_map_key_refuted : exists data, bytes_ok data /\ raises EOverflow data /\ is_decode_error EOverflow = false.
Proof.
  exists ([255;15;59;90;130;2] ++ repeat 0 128 ++ [1;48;58;2]).
  split; [repeat constructor|split; vm_compute; reflexivity].
Qed.
(** An object with a large index, then a small one, then the small one removed by a hole:
    AssertionError. The data is grammatical. *)
Theorem C15_hole_refuted : exists data, bytes_ok data /\ raises EAssert data /\ is_decode_error EAssert = false.
Proof.
  exists [255;15;111;85;254;255;255;255;15;84;85;5;84;85;5;45;123;3].
  split; [repeat constructor|split; vm_compute; reflexivity].
Qed.
(** Views that do not fit their buffer. *)
Theorem C15_view_refuted : exists d1 d2, bytes_ok d1 /\ bytes_ok d2 /\ raises EItemSize d1 /\ raises EBounds d2 /\
  is_decode_error EItemSize = false /\ is_decode_error EBounds = false.
Proof.
  exists [255;15;66;3;1;2;3;86;87;0;3;0], [255;15;66;3;1;2;3;86;87;2;2;0].
  split; [repeat constructor|]. split; [repeat constructor|]. repeat split; vm_compute; reflexivity.
Qed.
(** A date the platform cannot represent raises what the platform raises. *)
Theorem C15_date_refuted : forall cfg bits e, bits < 2 ^ 64 -> c_date cfg bits = inr e ->
  loads_at cfg ([255;15;68] ++ le_bytes 8 bits) = Err (date_err e) /\ is_decode_error (date_err e) = false.
Proof.
  intros cfg bits e B E. split; [|destruct e; reflexivity].
  assert (D : [255;15;68] ++ le_bytes 8 bits = ([255] ++ [15]) ++ (68 :: le_bytes 8 bits)) by reflexivity.
  unfold loads_at, loads_depth.
  rewrite (header_complete _ [255] [15] _ 15 D); [|exists O; reflexivity|apply vi_last; lia|lia].
  cbn [bind]. unfold dec_value. change (read_tag _ _) with (@Ok (stag * nat) (kDate, 3%nat)). cbn [bind dec]. unfold dec_date.
  rewrite (double_c _ 3 (le_bytes 8 bits) [] bits); [|split; auto|exists [255;15;68]; rewrite app_nil_r; auto].
  cbn [bind]. rewrite E. reflexivity.
Qed.
Print Assumptions C15_date_refuted.

(** * C16 *)

(** Accepted data starts with a header (a version tag after any padding, then the version) that
    declares version 13, 14 or 15. *)
Theorem C16_only_known_versions : forall cfg data x, bytes_ok data -> loads_at cfg data = Ok x ->
  exists k vb version rest, data = zeros k ++ tag_byte kVersion :: vb ++ rest /\
    is_varint vb version /\ (version = 13 \/ version = 14 \/ version = 15).
Proof.
  intros cfg data [[v p] h] B E. destruct (loads_sound _ _ _ _ _ B E) as [w [bs [rest [l [D [P [W M]]]]]]].
  destruct W as [version [tb [vb [body [R [[k ->] [V [W ->]]]]]]]].
  exists k, vb, version, (body ++ rest). split; [|split; [exact V|lia]].
  subst data. rewrite <- !app_assoc. reflexivity.
Qed.
Print Assumptions C16_only_known_versions.

(** Every other version is rejected with a decode error, whatever follows. *)
Theorem C16_other_versions_rejected : forall cfg k vb version rest, is_varint vb version ->
  version < 13 \/ 15 < version ->
  loads_at cfg (zeros k ++ tag_byte kVersion :: vb ++ rest) = Err EDecode.
Proof.
  intros cfg k vb version rest V R. unfold loads_at, loads_depth, read_header.
  set (data := zeros k ++ _).
  assert (S1 : sits data 0 ((zeros k ++ [tag_byte kVersion]) ++ vb) rest).
  { exists []. split; [|reflexivity]. unfold data. rewrite <- !app_assoc. reflexivity. }
  apply sits_app in S1 as [A1 A2].
  rewrite (tag_c _ _ _ _ kVersion ltac:(discriminate) (ex_intro _ k eq_refl) A1). cbn [bind]. rewrite stag_eqb_refl. cbn [guard bind].
  rewrite (varint_c _ _ _ _ _ V A2). cbn [bind]. unfold kLatestVersion. replace (_ || _)%bool with true by lia. reflexivity.
Qed.
Print Assumptions C16_other_versions_rejected.

(** Data that does not start with a version tag is rejected with a decode error. *)
Theorem C16_header_required : forall cfg data,
  (forall k rest, data <> zeros k ++ tag_byte kVersion :: rest) -> loads_at cfg data = Err EDecode.
Proof.
  intros cfg data N. unfold loads_at, loads_depth, read_header. destruct (read_tag data 0) as [[t p]|e] eqn:E; cbn [bind].
  - destruct (stag_eqb t kVersion) eqn:T; [|reflexivity]. apply stag_eqb_eq in T. subst t. exfalso.
    apply tag_s in E as [tb [(pre & post & D & L & _) [k ->]]]. destruct pre; [|discriminate L].
    apply (N k post). rewrite D. cbn [app]. rewrite <- app_assoc. reflexivity.
  - apply read_tag_err in E. subst e. reflexivity.
Qed.
Print Assumptions C16_header_required.

(** View flags are read exactly when the version is at least 14: the view ends after its
    length in version 13 and after its flags in versions 14 and 15. *)
Theorem C16_view_flags : forall cfg version vb d lb t tb off ob len nb flags fb x rest,
  13 <= version <= 15 -> is_varint vb version -> bytes_ok d -> varint32 (lenN d) lb ->
  is_varint tb (vtag_byte t) -> varint32 off ob -> varint32 len nb -> is_varint fb flags ->
  let tracking := (14 <=? version) && N.odd flags in
  view_from_bytes t (BkBuffer (mkBuf d (zlen d) false false)) (Z.of_N off)
    (if tracking then None else Some (Z.of_N len)) false = Ok x ->
  let before := tag_byte kVersion :: vb ++ tag_byte kArrayBuffer :: lb ++ d ++ tag_byte kArrayBufferView :: tb ++ ob ++ nb in
  loads_at cfg (before ++ fb ++ rest) =
    Ok (VRef 1, (length before + length (if (14 <=? version)%N then fb else []))%nat,
        [OBuffer (mkBuf d (zlen d) false false); OView 0 x]).
Proof.
  intros cfg version vb d lb t tb off ob len nb flags fb x rest R V B L T OB NB F tracking X before.
  set (fl := if 14 <=? version then flags else 0). set (fbs := if 14 <=? version then fb else []).
  assert (W : document (WBuf (BufPlain d) (Some (mkWView t off len fl))) (before ++ fbs)).
  { exists version, [tag_byte kVersion], vb, ([tag_byte kArrayBuffer] ++ (lb ++ d) ++ tag_byte kArrayBufferView :: tb ++ ob ++ nb ++ fbs).
    split; [exact R|]. split; [exists O; reflexivity|]. split; [exact V|]. split.
    - constructor; [exists O; reflexivity|]. constructor; [constructor; auto|]. constructor; auto.
      + intros G. unfold fbs, fl. replace (14 <=? version) with true by lia. exact F.
      + intros G. unfold fbs, fl. replace (14 <=? version) with false by lia. auto.
    - unfold before. repeat (cbn [app]; rewrite <- !app_assoc). cbn [app]. rewrite <- ?app_assoc. reflexivity. }
  assert (M : build cfg (WBuf (BufPlain d) (Some (mkWView t off len fl))) ds_empty =
     Ok (VRef 1, mkD [OBuffer (mkBuf d (zlen d) false false); OView 0 x] [VRef 0; VRef 1])).
  { cbn [build build_buf alloc_rec alloc build_view wv_tag wv_off wv_len wv_flags].
    replace (N.odd fl) with tracking by (unfold tracking, fl; destruct (14 <=? version); reflexivity).
    change (backing_of _ _) with (BkBuffer (mkBuf d (zlen d) false false)). rewrite X. reflexivity. }
  assert (FW : follows (WBuf (BufPlain d) (Some (mkWView t off len fl))) (if 14 <=? version then rest else fb ++ rest)) by (intros []).
  pose proof (loads_complete cfg _ _ _ _ _ W M FW) as E. cbn [ds_heap] in E. unfold fbs in E.
  destruct (14 <=? version).
  - rewrite <- app_assoc in E. rewrite E, app_length. reflexivity.
  - rewrite app_nil_r in E. rewrite E, Nat.add_0_r. reflexivity.
Qed.
Print Assumptions C16_view_flags.

(** The header dumps writes declares version 15. *)
Theorem C16_written_header : forall rest, read_header (header_bytes ++ rest) 0 = Ok (15, 2%nat).
Proof. intros rest. apply read_header_write. Qed.
Print Assumptions C16_written_header.
Example C16_example : loads_at ex_cfg [255;12;48] = Err EDecode /\ loads_at ex_cfg [255;16;48] = Err EDecode /\
  loads_at ex_cfg [0;255;13;48] = Ok (VNone, 4%nat, []) /\
  loads_at ex_cfg [255;13;66;1;7;86;66;0;1;0] = Ok (VRef 1, 9%nat, [OBuffer (mkBuf [7] 1 false false); OView 0 (mkView vUint8 0 (Some 1%Z) false)]).
Proof. repeat split; vm_compute; reflexivity. Qed.

(** * C17 *)

(** Accepted data is a sentence of the grammar ([SpecWire]): declared counts and lengths equal
    the contents, end tags match, object keys are numbers or strings; and every reference in
    it is to an object that has started. *)
Theorem C17_accepted_is_grammatical : forall cfg data v p h, bytes_ok data -> loads_at cfg data = Ok (v, p, h) ->
  exists w, document w (firstn p data) /\ references_backward w /\
    exists log, build cfg w ds_empty = Ok (v, mkD h log).
Proof.
  intros cfg data v p h B E. destruct (loads_sound _ _ _ _ _ B E) as [w [bs [rest [l [D [P [W M]]]]]]].
  exists w. subst data p. rewrite firstn_app, firstn_all, Nat.sub_diag, firstn_O, app_nil_r.
  split; [exact W|]. split; [|eauto]. unfold references_backward.
  pose proof (proj1 (build_ids cfg) w ds_empty _ _ M) as I. cbn [ds_empty ds_log lenN length N.of_nat] in I.
  change (lenN []) with 0 in I. rewrite I. discriminate.
Qed.
Print Assumptions C17_accepted_is_grammatical.
Example C17_example : exists v h, loads_at ex_cfg ex_doc = Ok (v, 15%nat, h) /\
  (* a wrong count, a wrong end tag, an array as key, a forward reference *)
  map (loads_at ex_cfg) [[255;15;111;73;2;48;123;2]; [255;15;111;73;2;48;58;1]; [255;15;111;65;0;36;0;0;48;123;1];
    [255;15;65;1;94;1;36;0;1]] = [Err EDecode; Err EDecode; Err EDecode; Err EDecode].
Proof. eexists _, _. split; vm_compute; reflexivity. Qed.

(** * C18 *)

(** Every sentence that has a meaning is decoded to it, whatever follows (except that a view tag
    directly after a buffer, or after a reference to one, belongs to the value). *)
Theorem C18_grammatical_is_accepted : forall cfg w bs rest v h log, document w bs ->
  build cfg w ds_empty = Ok (v, mkD h log) ->
  (match w with WBuf _ None | WRef _ None => hd_error rest <> Some (tag_byte kArrayBufferView) | _ => True end) ->
  loads_at cfg (bs ++ rest) = Ok (v, length bs, h).
Proof.
  intros cfg w bs rest v h log W M F. rewrite (loads_complete cfg w bs rest v _ W M); [reflexivity|].
  destruct w; try (intros []; fail); destruct v0; try (intros []; fail); intros _; exact F.
Qed.
Print Assumptions C18_grammatical_is_accepted.

(** All sentences for the same abstract value decode alike: padding and over-long varints do not
    matter. *)
Theorem C18_layout_irrelevant : forall cfg w bs1 bs2 v h log, document w bs1 -> document w bs2 ->
  build cfg w ds_empty = Ok (v, mkD h log) ->
  loads cfg bs1 = Ok (v, h) /\ loads cfg bs2 = Ok (v, h).
Proof.
  intros cfg w bs1 bs2 v h log W1 W2 M. unfold loads.
  pose proof (loads_complete cfg w bs1 [] v _ W1 M) as E1. pose proof (loads_complete cfg w bs2 [] v _ W2 M) as E2.
  rewrite app_nil_r in E1, E2. rewrite E1, E2 by (intros _; discriminate). auto.
Qed.
Print Assumptions C18_layout_irrelevant.

(** A sentence has one meaning. *)
Theorem C18_meaning_unique : forall cfg bs w1 w2 v1 h1 l1 v2 h2 l2, document w1 bs -> document w2 bs ->
  build cfg w1 ds_empty = Ok (v1, mkD h1 l1) -> build cfg w2 ds_empty = Ok (v2, mkD h2 l2) ->
  v1 = v2 /\ h1 = h2.
Proof.
  intros cfg bs w1 w2 v1 h1 l1 v2 h2 l2 W1 W2 M1 M2.
  pose proof (loads_complete cfg w1 bs [] _ _ W1 M1) as E1. pose proof (loads_complete cfg w2 bs [] _ _ W2 M2) as E2.
  specialize (E1 ltac:(intros _; discriminate)). specialize (E2 ltac:(intros _; discriminate)).
  rewrite E1 in E2. injection E2 as -> ->. auto.
Qed.
Print Assumptions C18_meaning_unique.
(** With the default options the five constants are Python's and the library's. *)
Theorem C18_constants : forall cfg rest, c_const cfg = default_const ->
  loads_at cfg (255 :: 15 :: 48 :: rest) = Ok (VNone, 3%nat, []) /\
  loads_at cfg (255 :: 15 :: 84 :: rest) = Ok (VBool true, 3%nat, []) /\
  loads_at cfg (255 :: 15 :: 70 :: rest) = Ok (VBool false, 3%nat, []) /\
  loads_at cfg (255 :: 15 :: 95 :: rest) = Ok (VUndef, 3%nat, []) /\
  loads_at cfg (255 :: 15 :: 45 :: rest) = Ok (VHole, 3%nat, []).
Proof.
  intros cfg rest D.
  assert (G : forall t, In t [kTheHole; kUndefined; kNull; kTrue; kFalse] ->
            loads_at cfg ([255; 15; tag_byte t] ++ rest) = Ok (c_const cfg t, 3%nat, [])).
  { intros t I. apply (C18_grammatical_is_accepted cfg (WConst t) [255; 15; tag_byte t] rest (c_const cfg t) [] []); [|reflexivity|exact Logic.I].
    exists 15, [255], [15], [tag_byte t]. split; [lia|]. split; [exists O; reflexivity|]. split; [apply vi_last; reflexivity|]. split; [|reflexivity].
    apply (w_intro 15 _ [tag_byte t] []); [exists O; reflexivity|]. constructor. exact I. }
  rewrite D in G. cbn [In] in G. split; [|split; [|split; [|split]]].
  - apply (G kNull). tauto.
  - apply (G kTrue). tauto.
  - apply (G kFalse). tauto.
  - apply (G kUndefined). tauto.
  - apply (G kTheHole). tauto.
Qed.
Print Assumptions C18_constants.
(** {a: 1, b: <the object itself>} with padding before its tags and an over-long varint. *)
Example C18_example :
  let w := WObject (PCons (WStr kOneByteString [97]) (WInt32 1) (PCons (WStr kOneByteString [98]) (WRef 0 None) PNil)) in
  document w ([255;15] ++ [0;111;34;1;97;0;0;73;130;0;34;1;98;94;0;123;2]) /\
  exists v h l, build ex_cfg w ds_empty = Ok (v, mkD h l) /\ length h = 1%nat.
Proof.
  split.
  - assert (V : forall n, n < 128 -> is_varint [n] n) by (intros; apply vi_last; auto).
    exists 15, [255], [15], [0;111;34;1;97;0;0;73;130;0;34;1;98;94;0;123;2].
    split; [lia|]. split; [exists O; reflexivity|]. split; [apply V; lia|]. split; [|reflexivity].
    apply (w_intro 15 _ [0;111] ([34;1;97;0;0;73;130;0;34;1;98;94;0] ++ [123] ++ [2])); [exists 1%nat; reflexivity|].
    constructor; [|cbn; auto|exists O; reflexivity|apply V; reflexivity].
    apply (wr_cons 15 _ _ _ [34;1;97] [0;0;73;130;0] ([34;1;98] ++ [94;0] ++ [])).
    + apply (w_intro 15 _ [34] ([1] ++ [97])); [exists O; reflexivity|]. repeat constructor; cbn; lia.
    + apply (w_intro 15 _ [0;0;73] [130;0]); [exists 2%nat; reflexivity|]. constructor; [lia|].
      split; [apply (vi_cont 130 [0] 0); [lia|apply V; lia]|]. split; [cbn; lia|reflexivity].
    + constructor; [| |constructor].
      * apply (w_intro 15 _ [34] ([1] ++ [98])); [exists O; reflexivity|]. repeat constructor; cbn; lia.
      * apply (w_intro 15 _ [94] ([0] ++ [])); [exists O; reflexivity|]. repeat constructor.
  - eexists _, _, _. split; [vm_compute; reflexivity|reflexivity].
Qed.
Print Assumptions C15_error_tag_refuted.
Print Assumptions C15_resizable_buffer_refuted.
Print Assumptions C15_regexp_refuted.
Print Assumptions C15_map_key_refuted.
Print Assumptions C15_hole_refuted.
Print Assumptions C15_view_refuted.
