(** C68: data that is cut short, and data that goes on. *)
From Coq Require Import List NArith ZArith Bool Lia ZifyBool ZifyNat ZifyN.
From Verif Require Import Base ModelTags ModelPrim SpecPrim PrimFacts PrimFacts2 PrimFacts3 ModelValue ModelObject ModelArray ModelMap ModelBuffer ModelHeap
  ModelDecode SpecWire SpecBuild DecodeFacts DecodeSound DecodeComplete DecodeMono BuildFacts Unambiguous ModelEncode SpecEncode
  Prop_Decode Prop_Encode.
Import ListNotations.
Open Scope N_scope.

(** A buffer at the start of the data is read up to its end, whatever follows it. *)
Lemma buffer_head cfg data version fuel pos b bb post st : sits data pos bb post -> wbufb b bb ->
  dec cfg data version (S fuel) (wtag (WBuf b None)) pos st =
  (let '(i, st1) := build_buf b st in dec_maybe_view data version i (pos + length bb)%nat st1).
Proof.
  intros A W. destruct W as [d lb V D|d mx lb mb V VM LE D|id b V|id b V]; cbn [wtag dec].
  - apply sits_app in A as [A1 A2]. unfold dec_buffer_plain. rewrite (uint32_c _ _ _ _ _ V A1). cbn [bind].
    pose proof (sits_len _ _ _ _ A2). unfold has_capacity. replace (_ <=? _) with true by (unfold lenN in *; lia).
    cbn [negb]. unfold lenN. rewrite Nat2N.id, (slice_c _ _ _ _ A2), jsbuf_plain.
    cbn [build_buf bind alloc_rec alloc]. rewrite app_length, Nat.add_assoc. reflexivity.
  - apply sits_app in A as [A1 A]. apply sits_app in A as [A0 A2].
    unfold dec_buffer_resizable. rewrite (uint32_c _ _ _ _ _ V A1). cbn [bind].
    pose proof (sits_len _ _ _ _ A2). pose proof (is_varint_length _ _ (proj1 VM)).
    replace (_ <? lenN data) with true by (unfold lenN in *; lia). cbn [negb].
    rewrite (uint32_c _ _ _ _ _ VM A0). cbn [bind]. replace (mx <? lenN d) with false by lia.
    unfold lenN. rewrite Nat2N.id, (slice_c _ _ _ _ A2), jsbuf_resizable by (unfold zlen, lenN in *; lia).
    cbn [build_buf bind alloc_rec alloc]. rewrite !app_length, !Nat.add_assoc. reflexivity.
  - unfold dec_buffer_id. rewrite (uint32_c _ _ _ _ _ V A). reflexivity.
  - unfold dec_buffer_id. rewrite (uint32_c _ _ _ _ _ V A). reflexivity.
Qed.

(** What the buffer in the data is. *)
Definition buf_obj (b : wbuf) : obj :=
  match b with
  | BufPlain d => OBuffer (mkBuf d (zlen d) false false)
  | BufResizable d mx => OBuffer (mkBuf d (Z.of_N mx) true false)
  | BufShared id => OShared id
  | BufTransfer id => OTransfer id
  end.
Lemma build_buf_first b : exists l, build_buf b ds_empty = (0%nat, mkD [buf_obj b] l).
Proof. destruct b; eexists; reflexivity. Qed.

Lemma buffer_document cfg b bs : document (WBuf b None) bs -> exists version l, forall post,
  loads_at cfg (bs ++ post) =
  (do '(v, p, st) <- dec_maybe_view (bs ++ post) version 0 (length bs) (mkD [buf_obj b] l); Ok (v, p, ds_heap st)).
Proof.
  intros (ver & tb & vb & body & R & T & V & W & ->). destruct (build_buf_first b) as [l L]. exists ver, l. intros post.
  unfold loads_at, loads_depth.
  rewrite (header_complete _ tb vb (body ++ post) ver); auto; [|rewrite <- !app_assoc; reflexivity]. cbn [bind].
  assert (sits ((tb ++ vb ++ body) ++ post) (length (tb ++ vb)) body post) as S1.
  { exists (tb ++ vb). rewrite <- !app_assoc. auto. }
  inversion W as [w tb2 bs2 T2 B2 E1 E2]; subst. apply sits_app in S1 as [A1 A2]. unfold dec_value.
  rewrite (tag_c _ _ _ _ (wtag (WBuf b None)) ltac:(destruct b; discriminate) T2 A1). cbn [bind].
  inversion B2 as [| | | | | | | | | | | | | | | | | |? ? bb vb2 WB WV| | |]; subst. inversion WV; subst.
  rewrite app_nil_r in *. rewrite (buffer_head _ _ _ _ _ _ _ _ _ A2 WB), L.
  replace (length (tb ++ vb) + length tb2 + length bb)%nat with (length (tb ++ vb ++ tb2 ++ bb))
    by (rewrite !app_length; lia).
  reflexivity.
Qed.

Lemma first_view data version p buffer h l post pre v q st : data = pre ++ tag_byte kArrayBufferView :: post -> p = length pre ->
  dec_maybe_view data version buffer p (mkD h l) = Ok (v, q, st) ->
  exists x, v = VRef (length h) /\ ds_heap st = h ++ [OView buffer x].
Proof.
  intros -> -> H. unfold dec_maybe_view, peak_tag in H. rewrite nth_error_app_length in H.
  destruct (Nat.eqb_spec (length pre) (length (pre ++ tag_byte kArrayBufferView :: post))) as [E|_].
  { rewrite app_length in E. cbn [length] in E. lia. }
  cbn [bind] in H. change (tag_of_byte (tag_byte kArrayBufferView)) with (Some kArrayBufferView) in H.
  cbn iota in H. unfold dec_view in H.
  apply bind_Ok in H as [[c p1] [_ H]]. destruct (vtag_of_code c); [|discriminate H].
  apply bind_Ok in H as [[off p2] [_ H]]. apply bind_Ok in H as [[ln p3] [_ H]]. apply bind_Ok in H as [[fl p4] [_ H]].
  apply bind_Ok in H as [x [_ H]]. cbn in H. injection H as <- <- <-. exists x. auto.
Qed.

Lemma firstn_prefix {A} (n : nat) (data bs r : list A) : firstn n data = bs ++ r ->
  data = bs ++ r ++ skipn n data /\ (length bs + length r <= n)%nat.
Proof.
  intros E. split.
  - rewrite app_assoc, <- E, firstn_skipn. reflexivity.
  - rewrite <- app_length, <- E. apply firstn_le_length.
Qed.

(** ** The theorem
    Data from which a value was read up to position [p], cut anywhere before [p]: if the cut data
    is accepted too, then it was cut directly before the tag of a view, it is read to its end, the
    result is the buffer and the result of the whole data is a view of that buffer. Missing for
    the full statement, "cut data is rejected": this case, which [C68_cut_short_refuted] shows to
    be reachable. *)
Theorem C68_cut_short_partial : forall cfg data v p h n v' p' h',
  bytes_ok data -> loads_at cfg data = Ok (v, p, h) -> (n < p)%nat ->
  loads_at cfg (firstn n data) = Ok (v', p', h') ->
  nth_error data n = Some (tag_byte kArrayBufferView) /\ p' = n /\
  exists buffer view, is_buffer buffer = true /\
    v' = VRef 0 /\ h' = [buffer] /\ v = VRef 1 /\ h = [buffer; OView 0 view].
Proof.
  intros cfg data v p h n v' p' h' B E LT E'.
  assert (bytes_ok (firstn n data)) as B'.
  { apply Forall_forall. intros x I. rewrite <- (firstn_skipn n data) in B. apply Forall_app in B as [B _].
    rewrite Forall_forall in B. auto. }
  destruct (loads_sound _ _ _ _ _ B' E') as [w [bs [r [l [D [P [W M]]]]]]].
  destruct (firstn_prefix _ _ _ _ D) as [D2 LE].
  assert (follows w (r ++ skipn n data) -> False) as NF.
  { intros F. pose proof (loads_complete cfg w bs _ v' _ W M F) as C. rewrite <- D2, E in C. injection C as _ C _. lia. }
  assert (exists b, w = WBuf b None) as [b ->].
  { destruct w as [| | | | | | | | | | | | | | | | | |b [wv|]|id [wv|]| |]; try (exfalso; apply NF; intros []; fail); eauto.
    cbn [build] in M. change (lenN (ds_log ds_empty)) with 0 in M. destruct (N.ltb_spec id 0); [lia|discriminate M]. }
  assert (exists rest, r ++ skipn n data = tag_byte kArrayBufferView :: rest) as [rest RE].
  { destruct (r ++ skipn n data) as [|c rest] eqn:RE; [exfalso; apply NF; intros _; discriminate|].
    destruct (N.eq_dec c (tag_byte kArrayBufferView)) as [->|NE]; [eauto|].
    exfalso. apply NF. intros _ X. injection X as X. auto. }
  destruct (buffer_document cfg b bs W) as [ver [l0 BD]].
  cbn [build] in M. destruct (build_buf_first b) as [l1 L1]. rewrite L1 in M. cbn [build_view] in M. injection M as <- <- <-.
  pose proof (BD (r ++ skipn n data)) as FD. rewrite <- D2, E in FD. symmetry in FD.
  apply bind_Ok in FD as [[[v1 p1] st1] [E1 FD]]. injection FD as -> -> FD.
  eapply first_view in E1 as [x [-> HH]]; [|rewrite D2 at 1; f_equal; exact RE|reflexivity].
  rewrite HH in FD. subst h. cbn [length app] in *.
  assert (r = []) as ->.
  { destruct r as [|c r]; [reflexivity|]. exfalso. cbn [app] in RE. injection RE as -> RE.
    pose proof (BD (86 :: r)) as FE. rewrite <- D, E' in FE. symmetry in FE.
    apply bind_Ok in FE as [[[v2 p2] st2] [E2 FE]]. injection FE as X _ _.
    eapply first_view in E2 as [y [Y _]]; [|exact D|reflexivity]. rewrite X in Y. discriminate Y. }
  cbn [length app] in *. rewrite app_nil_r in D.
  assert (length bs = n) as LN.
  { rewrite <- D, firstn_length. apply (f_equal (@length _)) in RE. cbn [length] in RE. rewrite skipn_length in RE. lia. }
  split; [|split; [congruence|]].
  - rewrite D2, RE, <- LN. apply nth_error_app_length.
  - exists (buf_obj b), x. destruct b; repeat split; auto.
Qed.
Print Assumptions C68_cut_short_partial.
(** So data whose value is not a view cannot be cut without being rejected. *)
Theorem C68_cut_rejected : forall cfg data v p h n,
  bytes_ok data -> loads_at cfg data = Ok (v, p, h) -> (n < p)%nat ->
  (forall o b x, v = VRef o -> nth_error h o <> Some (OView b x)) ->
  exists e, loads_at cfg (firstn n data) = Err e.
Proof.
  intros cfg data v p h n B E L N. destruct (loads_at cfg (firstn n data)) as [[[v' p'] h']|e] eqn:E'; [|eauto].
  exfalso. destruct (C68_cut_short_partial _ _ _ _ _ _ _ _ _ B E L E') as (_ & _ & b & x & _ & _ & _ & -> & ->).
  exact (N 1%nat 0%nat x eq_refl eq_refl).
Qed.
Print Assumptions C68_cut_rejected.
(** [[1, "a"]], cut everywhere, and a view of a buffer cut before its view and elsewhere. *)
Example C68_case :
  let data := [255;15;65;2;73;2;34;1;97;36;0;2] in
  loads_at ex_cfg data = Ok (VRef 0, 12%nat, [OArray (mkObj (ADense (dense_init [Some (VInt 1); Some (VStr [97])])) [])]) /\
  forallb (fun n => match loads_at ex_cfg (firstn n data) with Err _ => true | Ok _ => false end) (seq 0 12) = true /\
  map (fun n => match loads_at ex_cfg (firstn n [255;15;66;1;7;86;66;0;1;0]) with Err _ => false | Ok _ => true end) (seq 0 11) =
    [false; false; false; false; false; true; false; false; false; false; true].
Proof. split; [|split]; vm_compute; reflexivity. Qed.
(** The exception is real. *)
Theorem C68_cut_short_refuted : exists cfg data v h n r, bytes_ok data /\ (n < length data)%nat /\
  loads_at cfg data = Ok (v, length data, h) /\ loads_at cfg (firstn n data) = Ok r.
Proof.
  exists ex_cfg, [255;15;66;1;7;86;66;0;1;0]. eexists. eexists. exists 5%nat. eexists.
  split; [repeat constructor|]. split; [cbn; lia|]. split; vm_compute; reflexivity.
Qed.
Print Assumptions C68_cut_short_refuted.

(** * Data that goes on *)
(** The decoder stops where the value's description ends. *)
Lemma loads_sound_stops cfg data v p h : bytes_ok data -> loads_at cfg data = Ok (v, p, h) ->
  exists w bs rest l, data = bs ++ rest /\ length bs = p /\ document w bs /\ build cfg w ds_empty = Ok (v, mkD h l) /\ follows w rest.
Proof.
  intros B E. destruct (loads_sound _ _ _ _ _ B E) as [w [bs [r [l [D [P [W M]]]]]]]. exists w, bs, r, l. repeat split; auto.
  destruct w as [| | | | | | | | | | | | | | | | | |b [wv|]|id [wv|]| |]; try (intros []; fail).
  - intros _. destruct r as [|c r]; [discriminate|]. intros X. injection X as ->. destruct (buffer_document cfg b bs W) as [ver [l0 BD]].
    cbn [build] in M. destruct (build_buf_first b) as [l1 L1]. rewrite L1 in M. cbn [build_view] in M. injection M as <- <- <-.
    pose proof (BD (tag_byte kArrayBufferView :: r)) as FE. change (tag_byte kArrayBufferView) with 86 in *. rewrite <- D, E in FE. symmetry in FE.
    apply bind_Ok in FE as [[[v2 p2] st2] [E2 FE]]. injection FE as Y _ _.
    eapply first_view in E2 as [y [Z _]]; [|exact D|reflexivity]. rewrite Y in Z. discriminate Z.
  - cbn [build] in M. change (lenN (ds_log ds_empty)) with 0 in M. destruct (N.ltb_spec id 0); [lia|discriminate M].
Qed.
Lemma document_bytes w bs : document w bs -> forall rest, hd_error (bs ++ rest) <> Some (tag_byte kArrayBufferView).
Proof.
  intros (ver & tb & vb & body & R & T & V & W & ->) rest. rewrite <- app_assoc. eapply no_view_tagged; [|exact T]. discriminate.
Qed.
Lemma document_all_read cfg w bs v p h : document w bs -> loads_at cfg bs = Ok (v, p, h) -> p = length bs.
Proof.
  intros W E. destruct (loads_sound_stops _ _ _ _ _ (document_ok _ _ W) E) as [w2 [bs2 [r [l [D [<- [W2 [M F]]]]]]]].
  destruct (documents_one w w2 bs bs2 [] r W W2) as (_ & -> & _); auto using follows_end. rewrite app_nil_r. exact D.
Qed.
Lemma output_document H cfg refs node root depth bs : wf_graph H cfg root ->
  dumps_depth depth (steps_of H cfg refs node) root = Ok bs -> exists w, document w bs.
Proof.
  intros WF D. destruct (C19_output_grammatical H cfg refs node root depth bs WF D) as (w & body & -> & W).
  exists w, 15, [255], [15], body. split; [lia|]. split; [exists 0%nat; reflexivity|]. split; [apply (vi_last 15); lia|]. auto.
Qed.

(** What dumps writes are bytes. *)
Theorem C19_output_bytes : forall H cfg refs node root depth bs, wf_graph H cfg root ->
  dumps_depth depth (steps_of H cfg refs node) root = Ok bs -> Forall (fun b => b < 256) bs.
Proof.
  intros H cfg refs node root depth bs WF D. destruct (output_document _ _ _ _ _ _ _ WF D) as [w W]. exact (document_ok _ _ W).
Qed.
Print Assumptions C19_output_bytes.

(** If loads accepts what dumps wrote, with any options of either, it has read all of it. *)
Theorem C68_output_all_read : forall H cfg refs node root depth bs dcfg v p h, wf_graph H cfg root ->
  dumps_depth depth (steps_of H cfg refs node) root = Ok bs -> loads_at dcfg bs = Ok (v, p, h) -> p = length bs.
Proof.
  intros H cfg refs node root depth bs dcfg v p h WF D E. destruct (output_document _ _ _ _ _ _ _ WF D) as [w W].
  eapply document_all_read; eauto.
Qed.
Print Assumptions C68_output_all_read.
(** So if the value that comes back is not a view, every strict prefix of the output is rejected. *)
Theorem C68_output_cut_rejected : forall H cfg refs node root depth bs dcfg v p h n, wf_graph H cfg root ->
  dumps_depth depth (steps_of H cfg refs node) root = Ok bs -> loads_at dcfg bs = Ok (v, p, h) ->
  (forall o b x, v = VRef o -> nth_error h o <> Some (OView b x)) -> (n < length bs)%nat ->
  exists e, loads_at dcfg (firstn n bs) = Err e.
Proof.
  intros H cfg refs node root depth bs dcfg v p h n WF D E N L.
  pose proof (C68_output_all_read _ _ _ _ _ _ _ _ _ _ _ WF D E) as P. destruct (output_document _ _ _ _ _ _ _ WF D) as [w W].
  eapply C68_cut_rejected; eauto; [exact (document_ok _ _ W)|lia].
Qed.
Print Assumptions C68_output_cut_rejected.

(** Serialized values one after another: the first is read as if it were alone, and what is left
    is the rest. *)
Theorem C68_messages : forall cfg data rest v p h r, bytes_ok data -> bytes_ok rest ->
  loads_at cfg data = Ok (v, p, h) -> loads_at cfg rest = Ok r ->
  loads_at cfg (firstn p data ++ rest) = Ok (v, p, h) /\ skipn p (firstn p data ++ rest) = rest.
Proof.
  intros cfg data rest v p h [[v2 p2] h2] B B2 E E2. destruct (loads_sound _ _ _ _ _ B2 E2) as [w [bs [r [l [D [_ [W _]]]]]]].
  split.
  - apply C14_rest_is_not_read; auto. rewrite D. apply (document_bytes _ _ W).
  - destruct (loads_sound _ _ _ _ _ B E) as [w0 [bs0 [r0 [l0 [-> [<- _]]]]]].
    rewrite firstn_app, firstn_all, Nat.sub_diag, firstn_O, app_nil_r, skipn_app, skipn_all, Nat.sub_diag. reflexivity.
Qed.
Print Assumptions C68_messages.
(** Outputs of dumps in one file: each is read in turn. *)
Theorem C68_output_messages : forall H cfg refs node root depth bs dcfg v p h
    H2 cfg2 refs2 node2 root2 depth2 bs2, wf_graph H cfg root -> wf_graph H2 cfg2 root2 ->
  dumps_depth depth (steps_of H cfg refs node) root = Ok bs ->
  dumps_depth depth2 (steps_of H2 cfg2 refs2 node2) root2 = Ok bs2 ->
  loads_at dcfg bs = Ok (v, p, h) -> forall rest, loads_at dcfg (bs ++ bs2 ++ rest) = Ok (v, p, h) /\ skipn p (bs ++ bs2 ++ rest) = bs2 ++ rest.
Proof.
  intros H cfg refs node root depth bs dcfg v p h H2 cfg2 refs2 node2 root2 depth2 bs2 WF WF2 D D2 E rest.
  destruct (output_document _ _ _ _ _ _ _ WF2 D2) as [w2 W2]. destruct (output_document _ _ _ _ _ _ _ WF D) as [w W].
  pose proof (C68_output_all_read _ _ _ _ _ _ _ _ _ _ _ WF D E) as ->. split.
  - rewrite <- (firstn_all bs) at 1. apply C14_rest_is_not_read; [exact (document_ok _ _ W)|exact E|apply (document_bytes _ _ W2)].
  - rewrite skipn_app, skipn_all, Nat.sub_diag. reflexivity.
Qed.
Print Assumptions C68_output_messages.
Example C68_messages_case :
  let one := dumps [] (ex_ecfg ex_none) (VInt 300) in let two := dumps [OSeq false [VStr [97]]] (ex_ecfg ex_none) (VRef 0) in
  exists a b, one = Ok a /\ two = Ok b /\ loads_at ex_cfg (a ++ b) = Ok (VInt 300, length a, []) /\
  loads_at ex_cfg (skipn (length a) (a ++ b)) = Ok (VRef 0, length b, [OArray (mkObj (ADense (dense_init [Some (VStr [97])])) [])]).
Proof. eexists. eexists. split; [vm_compute; reflexivity|]. split; [vm_compute; reflexivity|]. split; vm_compute; reflexivity. Qed.

(** * C18: one description *)
(** Data has at most one description in the grammar. *)
Theorem C18_description_unique : forall bs w1 w2, document w1 bs -> document w2 bs -> w1 = w2.
Proof. intros bs w1 w2. apply document_one. Qed.
Print Assumptions C18_description_unique.
(** A sentence that has no meaning is rejected, whatever follows it. *)
Theorem C18_meaningless_is_rejected : forall cfg w bs rest e, document w bs -> bytes_ok rest -> build cfg w ds_empty = Err e ->
  (match w with WBuf _ None | WRef _ None => hd_error rest <> Some (tag_byte kArrayBufferView) | _ => True end) ->
  exists e', loads_at cfg (bs ++ rest) = Err e'.
Proof.
  intros cfg w bs rest e W B M F. destruct (loads_at cfg (bs ++ rest)) as [[[v p] h]|e'] eqn:E; [|eauto].
  exfalso. destruct (loads_sound_stops _ _ _ _ _ (proj2 (bytes_ok_app _ _) (conj (document_ok _ _ W) B)) E)
    as [w2 [bs2 [r [l [D [_ [W2 [M2 F2]]]]]]]].
  destruct (documents_one w w2 bs bs2 rest r W W2 D) as (-> & _); [|exact F2|congruence].
  destruct w; try (intros []; fail); destruct v0; try (intros []; fail); intros _; exact F.
Qed.
Print Assumptions C18_meaningless_is_rejected.
(** A back reference to an object that does not exist. *)
Example C18_meaningless_case : exists w, document w [255;15;94;3] /\ build ex_cfg w ds_empty = Err EDecode.
Proof.
  exists (WRef 3 None). split; [|reflexivity]. exists 15, [255], [15], [94;3]. split; [lia|]. split; [exists 0%nat; reflexivity|].
  split; [apply (vi_last 15); lia|]. split; [|reflexivity]. apply (w_intro 15 (WRef 3 None) [94] [3]); [exists 0%nat; reflexivity|].
  apply (wb_ref 15 3 None [3] []); [apply (vi_last 3); lia|constructor].
Qed.
