(** The decoder accepts every sentence of the grammar and gives it the grammar's meaning. *)
From Coq Require Import List NArith ZArith Bool Lia ZifyBool ZifyNat ZifyN.
From Verif Require Import Base ModelTags ModelPrim SpecPrim PrimFacts PrimFacts2 PrimFacts3 ModelValue ModelObject
  ModelMap ModelBuffer ModelHeap ModelDecode SpecWire SpecBuild DecodeFacts DecodeSound.
Import ListNotations.
Open Scope N_scope.
Ltac Zify.zify_post_hook ::= Z.div_mod_to_equations.

(** [bs] is at [pos] in [data], followed by [post]. *)
Definition sits (data : bytes) (pos : nat) (bs post : bytes) : Prop :=
  exists pre, data = pre ++ bs ++ post /\ length pre = pos.
Lemma sits_app data pos a b post : sits data pos (a ++ b) post ->
  sits data pos a (b ++ post) /\ sits data (pos + length a) b post.
Proof.
  intros [pre [E L]]. split.
  - exists pre. rewrite app_assoc. auto. rewrite <- app_assoc in *. auto.
  - exists (pre ++ a). rewrite app_length. rewrite <- app_assoc in E. rewrite E, <- !app_assoc. auto.
Qed.
Lemma sits_len data pos bs post : sits data pos bs post -> (pos + length bs + length post = length data)%nat.
Proof. intros [pre [E L]]. subst. rewrite !app_length. lia. Qed.
Lemma sits_ok data pos bs post : sits data pos bs post -> bytes_ok data -> bytes_ok bs.
Proof. intros [pre [E L]] D. subst. apply bytes_ok_app in D as [_ D]. apply bytes_ok_app in D. tauto. Qed.

Lemma varint_c data pos bs post n : is_varint bs n -> sits data pos bs post ->
  read_varint data pos 0 = Ok (n, (pos + length bs)%nat).
Proof. intros V [pre [-> <-]]. apply read_varint_spec; auto. Qed.
Lemma uint32_c data pos bs post n : varint32 n bs -> sits data pos bs post ->
  read_uint32 data pos = Ok (n, (pos + length bs)%nat).
Proof.
  intros [V [L R]] [pre [-> <-]]. unfold read_uint32. rewrite (read_varint_spec _ _ n); auto; [|right; lia].
  cbn [bind]. unfold in_uint32. replace (_ && _)%bool with true by lia. reflexivity.
Qed.
Lemma int32_c data pos bs post z : (-2 ^ 31 <= z < 2 ^ 31)%Z ->
  varint32 (Z.to_N (if z <? 0 then -2 * z - 1 else 2 * z)%Z) bs -> sits data pos bs post ->
  read_int32 data pos = Ok (z, (pos + length bs)%nat).
Proof.
  intros R [V [L _]] [pre [-> <-]]. unfold read_int32. rewrite (read_varint_spec _ _ _ _ _ V) by (right; lia).
  cbn [bind]. replace (Z.to_N _) with (encode_zigzag z).
  2: { unfold encode_zigzag. destruct (z <? 0)%Z eqn:E; lia. }
  rewrite zigzag_decode_encode. unfold in_int32. replace (_ && _)%bool with true by lia. reflexivity.
Qed.
Lemma double_c data pos bs post b : wdouble b bs -> sits data pos bs post ->
  read_double data pos = Ok (b, (pos + length bs)%nat).
Proof.
  intros [R ->] [pre [-> <-]]. rewrite le_bytes_length. apply read_double_write. exact R.
Qed.
Lemma bigint_c data pos bs post z : wbigint z bs -> sits data pos bs post ->
  read_bigint data pos = Ok (z, (pos + length bs)%nat).
Proof.
  intros W. destruct W as [f vb ds z V D L Z1]. intros S0. pose proof S0 as S1. apply sits_app in S1 as [A B].
  unfold read_bigint. rewrite (varint_c _ _ _ _ _ V A). cbn [bind]. rewrite N_field, <- L.
  destruct B as [pre [-> P]]. rewrite <- P, read_bytes_app. cbn [bind]. rewrite N_land1_odd, Z1, P, app_length.
  f_equal. f_equal. lia.
Qed.
Lemma string_body_c data pos bs post enc s : wstring enc s bs -> sits data pos bs post ->
  match enc with
  | kOneByteString => read_onebyte data pos
  | kTwoByteString => read_twobyte data pos
  | _ => read_utf8 data pos
  end = Ok (s, (pos + length bs)%nat).
Proof.
  intros W [pre [-> <-]]. destruct W as [s lb bs U V|s lb bs U V|s lb bs U V|s lb bs U V].
  - destruct U as [-> _]. eapply read_onebyte_spec; eauto.
  - eapply read_twobyte_spec; eauto.
  - eapply read_utf8_spec; eauto.
  - eapply read_utf8_spec; eauto.
Qed.
Lemma tag_c data pos bs post t : t <> kPadding -> tagged t bs -> sits data pos bs post ->
  read_tag data pos = Ok (t, (pos + length bs)%nat).
Proof. intros T [k ->] [pre [-> <-]]. apply read_tag_spec; auto. Qed.
Lemma errtag_c data pos bs post e : etagged e bs -> sits data pos bs post ->
  read_error_tag data pos = Ok (e, (pos + length bs)%nat).
Proof.
  intros V S1. unfold read_error_tag.
  pose proof (is_varint_length _ _ V). pose proof (sits_len _ _ _ _ S1).
  unfold has_capacity, lenN. replace (_ <=? _) with true by lia. cbn [negb].
  rewrite (varint_c _ _ _ _ _ V S1). cbn [bind]. rewrite etag_of_code_tag. reflexivity.
Qed.
Lemma count_c data pos bs post n : is_varint bs n -> sits data pos bs post ->
  check_count data pos n = Ok (pos + length bs)%nat.
Proof. intros V S1. unfold check_count. rewrite (varint_c _ _ _ _ _ V S1). cbn [bind]. rewrite N.eqb_refl. reflexivity. Qed.
Lemma slice_c data pos bs post : sits data pos bs post -> slice data pos (length bs) = bs.
Proof. intros [pre [-> <-]]. apply slice_app. Qed.

(** * What may follow a value *)
(** The next byte is not the tag of a view. *)
Definition no_view (post : bytes) : Prop := hd_error post <> Some (tag_byte kArrayBufferView).
Lemma no_view_tagged t bs post : t <> kArrayBufferView -> tagged t bs -> no_view (bs ++ post).
Proof.
  intros N [k ->]. destruct k; cbn; unfold no_view; cbn; [|discriminate].
  intros E. injection E as E. apply (tag_byte_inj t kArrayBufferView) in E. auto.
Qed.
Lemma no_view_etagged e bs post : etagged e bs -> no_view (bs ++ post).
Proof.
  intros V. unfold no_view. inversion V; subst; cbn [app hd_error].
  - destruct e; discriminate.
  - intros E. injection E as E. cbn in E. lia.
Qed.
Definition value_tag (t : stag) : bool :=
  negb (tag_in t [kVersion; kPadding; kArrayBufferView; kEndJSMap; kEndJSSet; kEndJSObject; kEndDenseJSArray; kEndSparseJSArray]).
Lemma str_body version enc s body : wbody version (WStr enc s) body -> wstring enc s body.
Proof. intros W. inversion W; auto. Qed.
Lemma wtag_value version w body : wbody version w body -> value_tag (wtag w) = true.
Proof.
  intros W. destruct w; try reflexivity.
  - apply const_in in W. repeat (destruct W as [<-|W]; [reflexivity|]). destruct W.
  - apply str_body in W. destruct W; reflexivity.
  - destruct b; reflexivity.
  - destruct b; reflexivity.
Qed.
Lemma no_view_wire version w bs post : wire version w bs -> no_view (bs ++ post).
Proof.
  intros W. destruct W as [w tb bs T B]. rewrite <- app_assoc. eapply no_view_tagged; [|exact T].
  apply wtag_value in B. intros E. rewrite E in B. discriminate B.
Qed.
Lemma no_view_seq version vs bs post : wseq version vs bs -> no_view post -> no_view (bs ++ post).
Proof. intros W N. destruct W; [exact N|]. rewrite <- app_assoc. eapply no_view_wire; eauto. Qed.
Lemma no_view_pairs version ps bs post : wprs version ps bs -> no_view post -> no_view (bs ++ post).
Proof. intros W N. destruct W; [exact N|]. rewrite <- app_assoc. eapply no_view_wire; eauto. Qed.

(** A buffer or a reference written without a view is open: a view tag after it would be read
    as part of it. *)
Definition open_ended (w : wval) : Prop :=
  match w with WBuf _ None | WRef _ None => True | _ => False end.
Definition follows (w : wval) (post : bytes) : Prop := open_ended w -> no_view post.

Section Complete.
Variable cfg : dcfg.
Variable data : bytes.
Variable version : N.
Notation len := (length data).

Lemma view_c buffer pos st wv bs post v st' :
  sits data pos bs post -> wviewb version wv bs -> (wv = None -> no_view post) ->
  build_view buffer wv st = Ok (v, st') ->
  dec_maybe_view data version buffer pos st = Ok (v, (pos + length bs)%nat, st').
Proof.
  intros S1 W NV B. unfold dec_maybe_view. pose proof (sits_len _ _ _ _ S1) as SL.
  destruct W as [|t off ln fl tb ob lb fb VT VO VL VF VZ].
  - cbn [build_view] in B. injection B as <- <-. cbn [length] in *. rewrite Nat.add_0_r.
    unfold peak_tag. destruct (Nat.eqb_spec pos len); [reflexivity|].
    destruct S1 as [pre [E P]]. cbn [app] in E. specialize (NV eq_refl). unfold no_view in NV.
    destruct post as [|b post]; [cbn [length] in *; lia|].
    rewrite E at 1. rewrite <- P at 1. rewrite nth_error_app_length. cbn [bind].
    destruct (tag_of_byte b) as [t|] eqn:T; [|reflexivity].
    apply tag_of_byte_inv in T. subst b. destruct t; try reflexivity. exfalso. apply NV. reflexivity.
  - unfold peak_tag. cbn [length] in SL. destruct (Nat.eqb_spec pos len); [lia|].
    pose proof S1 as S2. apply (sits_app data pos [tag_byte kArrayBufferView]) in S2 as [_ S2].
    destruct S1 as [pre [E P]]. cbn [app] in E. rewrite E at 1. rewrite <- P at 1. rewrite nth_error_app_length.
    cbn [bind]. change (tag_of_byte (tag_byte kArrayBufferView)) with (Some kArrayBufferView).
    cbn [length] in S2. replace (pos + 1)%nat with (S pos) in S2 by lia.
    unfold dec_view. apply sits_app in S2 as [A1 S2]. apply sits_app in S2 as [A2 S2]. apply sits_app in S2 as [A3 A4].
    rewrite (varint_c _ _ _ _ _ VT A1). cbn [bind]. rewrite vtag_of_code_tag.
    rewrite (uint32_c _ _ _ _ _ VO A2). cbn [bind]. rewrite (uint32_c _ _ _ _ _ VL A3). cbn [bind].
    match goal with |- context [bind ?m _] => replace m with (Ok (fl, (S pos + length tb + length ob + length lb + length fb)%nat)) end.
    2: { destruct (14 <=? version) eqn:V.
         - rewrite (varint_c _ _ _ _ _ (VF ltac:(lia)) A4). reflexivity.
         - destruct (VZ ltac:(lia)) as [-> ->]. cbn [length]. rewrite Nat.add_0_r. reflexivity. }
    cbn [bind]. cbn [build_view wv_tag wv_off wv_len wv_flags] in B.
    apply bind_Ok in B as [x [Ex B]]. rewrite Ex. cbn [bind alloc_rec alloc] in *. injection B as <- <-.
    do 2 f_equal. cbn [length]. rewrite !app_length. f_equal. lia.
Qed.

Lemma plain_c pos st wv d lb vb post v st' :
  sits data pos ((lb ++ d) ++ vb) post -> varint32 (lenN d) lb -> wviewb version wv vb -> (wv = None -> no_view post) ->
  build cfg (WBuf (BufPlain d) wv) st = Ok (v, st') ->
  dec_buffer_plain data version pos st = Ok (v, (pos + length ((lb ++ d) ++ vb))%nat, st').
Proof.
  intros S1 V W NV B. rewrite <- app_assoc in S1. apply sits_app in S1 as [A1 S1]. apply sits_app in S1 as [A2 A3].
  unfold dec_buffer_plain. rewrite (uint32_c _ _ _ _ _ V A1). cbn [bind].
  pose proof (sits_len _ _ _ _ A2). unfold has_capacity. replace (_ <=? _) with true by (unfold lenN in *; lia).
  cbn [negb]. unfold lenN at 1. rewrite Nat2N.id, (slice_c _ _ _ _ A2), jsbuf_plain.
  cbn [build build_buf bind alloc_rec alloc] in *. unfold lenN at 1. rewrite Nat2N.id.
  rewrite (view_c _ _ _ _ _ _ _ _ A3 W NV B). do 2 f_equal. rewrite !app_length. f_equal. lia.
Qed.
Lemma resizable_c pos st wv d mx lb mb vb post v st' :
  sits data pos ((lb ++ mb ++ d) ++ vb) post -> varint32 (lenN d) lb -> varint32 mx mb -> lenN d <= mx ->
  wviewb version wv vb -> (wv = None -> no_view post) ->
  build cfg (WBuf (BufResizable d mx) wv) st = Ok (v, st') ->
  dec_buffer_resizable data version pos st = Ok (v, (pos + length ((lb ++ mb ++ d) ++ vb))%nat, st').
Proof.
  intros S1 V VM LE W NV B. rewrite <- !app_assoc in S1. apply sits_app in S1 as [A1 S1]. apply sits_app in S1 as [A0 S1].
  apply sits_app in S1 as [A2 A3].
  unfold dec_buffer_resizable. rewrite (uint32_c _ _ _ _ _ V A1). cbn [bind].
  pose proof (sits_len _ _ _ _ A2). pose proof (is_varint_length _ _ (proj1 VM)).
  replace (_ <? lenN data) with true by (unfold lenN in *; lia). cbn [negb].
  rewrite (uint32_c _ _ _ _ _ VM A0). cbn [bind]. replace (mx <? lenN d) with false by lia.
  unfold lenN at 1. rewrite Nat2N.id, (slice_c _ _ _ _ A2), jsbuf_resizable by (unfold zlen, lenN in *; lia).
  cbn [build build_buf bind alloc_rec alloc] in *. unfold lenN at 1. rewrite Nat2N.id.
  rewrite (view_c _ _ _ _ _ _ _ _ A3 W NV B). do 2 f_equal. rewrite !app_length. f_equal. lia.
Qed.
Lemma buffer_id_c (mk : N -> obj) pos st wv n nb vb post v st' :
  sits data pos (nb ++ vb) post -> varint32 n nb -> wviewb version wv vb -> (wv = None -> no_view post) ->
  (let '(i, st) := alloc (mk n) st in build_view i wv st) = Ok (v, st') ->
  dec_buffer_id data version mk pos st = Ok (v, (pos + length (nb ++ vb))%nat, st').
Proof.
  intros S1 V W NV B. apply sits_app in S1 as [A1 A2].
  unfold dec_buffer_id. rewrite (uint32_c _ _ _ _ _ V A1). cbn [bind alloc] in *.
  rewrite (view_c _ _ _ _ _ _ _ _ A2 W NV B). do 2 f_equal. rewrite !app_length. f_equal. lia.
Qed.
Lemma reference_c pos st wv id nb vb post v st' :
  sits data pos (nb ++ vb) post -> is_varint nb id -> wviewb version wv vb -> (wv = None -> no_view post) ->
  build cfg (WRef id wv) st = Ok (v, st') ->
  dec_reference data version pos st = Ok (v, (pos + length (nb ++ vb))%nat, st').
Proof.
  intros S1 V W NV B. apply sits_app in S1 as [A1 A2].
  unfold dec_reference. rewrite (varint_c _ _ _ _ _ V A1). cbn [bind build] in *.
  destruct (id <? lenN (ds_log st)); [cbn [negb]|discriminate B].
  destruct (nth_error (ds_log st) (N.to_nat id)) as [x|]; [|discriminate B].
  assert (wv = None -> Ok (x, (pos + length nb)%nat, st) = Ok (v, (pos + length (nb ++ vb))%nat, st')) as D.
  { intros ->. inversion W; subst. rewrite app_nil_r. destruct x; injection B as <- <-; reflexivity. }
  destruct wv as [wv|].
  - destruct x; try discriminate B. destruct (nth_error (ds_heap st) oid) as [x|]; [|discriminate B].
    destruct (is_buffer x); [|discriminate B].
    rewrite (view_c _ _ _ _ _ _ _ _ A2 W NV B). do 2 f_equal. rewrite !app_length. f_equal. lia.
  - destruct x; auto. destruct (nth_error (ds_heap st) oid) as [x|]; auto. destruct (is_buffer x); auto.
    injection B as <- <-. rewrite (view_c oid _ st _ _ _ (VRef oid) st A2 W NV eq_refl).
    do 2 f_equal. rewrite !app_length. f_equal. lia.
Qed.

(** * Values *)
Notation dec' := (dec cfg data version).
Definition comp (w : wval) : Prop := forall fuel pos body post st v st',
  (len - pos + 1 < fuel)%nat -> sits data pos body post -> wbody version w body ->
  build cfg w st = Ok (v, st') -> follows w post ->
  dec' fuel (wtag w) pos st = Ok (v, (pos + length body)%nat, st').
Lemma value_c w : comp w -> forall fuel pos bs post st v st',
  (len - pos < fuel)%nat -> sits data pos bs post -> wire version w bs ->
  build cfg w st = Ok (v, st') -> follows w post ->
  dec_value data (dec' fuel) pos st = Ok (v, (pos + length bs)%nat, st').
Proof.
  intros C fuel pos bs post st v st' F S1 W B FW. destruct W as [w tb bs T WB].
  pose proof (wtag_value _ _ _ WB) as VT. pose proof (sits_len _ _ _ _ S1) as SL.
  apply sits_app in S1 as [A1 A2]. unfold dec_value.
  assert (1 <= length tb)%nat by (destruct T as [k ->]; rewrite app_length; cbn [length]; lia).
  assert (wtag w <> kPadding) as NP by (intros E; rewrite E in VT; discriminate VT).
  rewrite (tag_c _ _ _ _ _ NP T A1).
  cbn [bind]. rewrite app_length in SL. rewrite (C fuel (pos + length tb)%nat bs post st v st' ltac:(lia) A2 WB B FW).
  rewrite app_length. do 2 f_equal. f_equal. lia.
Qed.
Lemma string_c fuel pos enc s tb bs post st :
  (len - pos < fuel)%nat -> sits data pos (tb ++ bs) post -> tagged enc tb -> wstring enc s bs ->
  dec_string data (dec' fuel) pos st = Ok (s, (pos + length (tb ++ bs))%nat, build_str enc s st).
Proof.
  intros F S1 T W. pose proof (sits_len _ _ _ _ S1) as SL. apply sits_app in S1 as [A1 A2]. unfold dec_string.
  destruct fuel as [|f]; [lia|].
  assert (enc <> kPadding) as NP by (destruct W; discriminate).
  rewrite (tag_c _ _ _ _ _ NP T A1). cbn [bind].
  assert (tag_in enc JS_STRING_TAGS = true) as -> by (destruct W; reflexivity). cbn [negb].
  pose proof (string_body_c _ _ _ _ _ _ W A2) as E. rewrite app_length, Nat.add_assoc.
  destruct W; cbn [dec dec_wrapped]; rewrite E; reflexivity.
Qed.
Lemma field_c f fuel pos fld fb post st s st' e pos1 e2 p2 :
  (len - pos < fuel)%nat -> sits data pos fb post -> wfield f fld fb ->
  read_error_tag data pos = Ok (e, pos1) -> read_error_tag data (pos + length fb) = Ok (e2, p2) ->
  build_field fld st = (s, st') -> (fld = None -> e2 <> f) ->
  dec_field data (dec' fuel) f e pos1 st = Ok (s, e2, p2, st').
Proof.
  intros F S1 W E E2 B NE. pose proof (sits_len _ _ _ _ S1) as SL. unfold dec_field.
  destruct W as [|enc s' eb tb bs TE TT WS].
  - cbn [length] in E2. rewrite Nat.add_0_r, E in E2. injection E2 as -> ->.
    injection B as <- <-. destruct (etag_beq e2 f) eqn:Q; [|reflexivity].
    apply etag_beq_eq in Q. exfalso. apply NE; auto.
  - apply sits_app in S1 as [A1 A2].
    rewrite (errtag_c _ _ _ _ _ TE A1) in E. injection E as <- <-.
    assert (etag_beq f f = true) as -> by (apply etag_beq_eq; reflexivity).
    rewrite (string_c fuel (pos + length eb)%nat enc s' tb bs post st ltac:(lia) A2 TT WS). cbn [bind].
    rewrite (app_length eb), Nat.add_assoc in E2. rewrite E2. cbn [bind].
    cbn [build_field] in B. injection B as <- <-. reflexivity.
Qed.
(** The tag a field sequence starts with. *)
Lemma field_first f fld fb e2 p2 post pos : wfield f fld fb -> sits data pos fb post ->
  read_error_tag data (pos + length fb) = Ok (e2, p2) ->
  exists e p1, read_error_tag data pos = Ok (e, p1) /\ (e = f \/ e = e2) /\ (pos <= p1)%nat /\ (p1 <= len)%nat.
Proof.
  intros W S1 E2. destruct W as [|enc s' eb tb bs TE TT WS].
  - cbn [length] in E2. rewrite Nat.add_0_r in E2. exists e2, p2. split; [exact E2|]. split; [auto|].
    pose proof (errtag_post data pos) as P. rewrite E2 in P. unfold DecodeFacts.post, adv1 in P. cbn [snd] in P. lia.
  - apply sits_app in S1 as [A1 _]. rewrite (errtag_c _ _ _ _ _ TE A1). do 2 eexists. split; [reflexivity|].
    split; [auto|]. apply sits_len in A1. lia.
Qed.
Lemma proto_c name nb pos post e2 p2 : wproto name nb -> sits data pos nb post ->
  read_error_tag data (pos + length nb) = Ok (e2, p2) -> for_error_tag e2 = nError ->
  exists e1 p1, read_error_tag data pos = Ok (e1, p1) /\ ename_str (for_error_tag e1) = proto_name name /\
    (if ename_beq (for_error_tag e1) nError then Ok (e1, p1) else read_error_tag data p1) = Ok (e2, p2).
Proof.
  intros W S1 E2 NE. destruct W as [|e bs I T].
  - cbn [length] in E2. rewrite Nat.add_0_r in E2. exists e2, p2. split; [exact E2|]. rewrite NE. split; reflexivity.
  - rewrite (errtag_c _ _ _ _ _ T S1). do 2 eexists. split; [reflexivity|]. split; [reflexivity|].
    assert (ename_beq (for_error_tag e) nError = false) as ->; [|exact E2].
    repeat (destruct I as [<-|I]; [reflexivity|]). destruct I.
Qed.
Lemma error_c fuel pos name msg stack nb mb sb eb post st v st' :
  (len - pos < fuel)%nat -> sits data pos (nb ++ mb ++ sb ++ eb) post ->
  wproto name nb -> wfield eMessage msg mb -> wfield eStack stack sb -> etagged eEnd eb ->
  build cfg (WError name msg stack) st = Ok (v, st') ->
  dec_error data (dec' fuel) pos st = Ok (v, (pos + length (nb ++ mb ++ sb ++ eb))%nat, st').
Proof.
  intros F S1 W1 W2 W3 T B. pose proof (sits_len _ _ _ _ S1) as SL.
  apply sits_app in S1 as [A1 S1]. apply sits_app in S1 as [A2 S1]. apply sits_app in S1 as [A3 A4].
  pose proof (errtag_c _ _ _ _ _ T A4) as R4.
  destruct (field_first _ _ _ _ _ _ _ W3 A3 R4) as [e3 [p3 [R3 [I3 _]]]].
  destruct (field_first _ _ _ _ _ _ _ W2 A2 R3) as [e2 [p2 [R2 [I2 _]]]].
  destruct (proto_c _ _ _ _ _ _ W1 A1 R2) as [e1 [p1 [R1 [PN R0]]]].
  { destruct I2 as [->| ->]; [reflexivity|]. destruct I3 as [->| ->]; reflexivity. }
  unfold dec_error. rewrite R1. cbn [bind]. rewrite R0. cbn [bind]. cbn [build] in B.
  destruct (build_field msg st) as [m st1] eqn:B1. destruct (build_field stack st1) as [s st2] eqn:B2.
  rewrite (field_c eMessage fuel (pos + length nb) _ _ _ _ _ _ _ _ e3 p3 ltac:(lia) A2 W2 R2 R3 B1).
  2: { intros _. destruct I3 as [->| ->]; discriminate. }
  cbn [bind].
  rewrite (field_c eStack fuel (pos + length nb + length mb) _ _ _ _ _ _ _ _ _ _ ltac:(lia) A3 W3 R3 R4 B2) by discriminate.
  cbn [bind alloc_rec alloc] in *. change (etag_beq eEnd eCause) with false. cbn match. cbn [bind].
  assert (forall (x : dstate) q, match s with Some _ => Ok (s, eEnd, q, x) | None => dec_field data (dec' fuel) eStack eEnd q x end
    = Ok (s, eEnd, q, x)) as -> by (intros; destruct s; reflexivity).
  cbn [bind]. change (etag_beq eEnd eEnd) with true. cbn match. injection B as <- <-.
  rewrite !app_length. rewrite PN. fold (message_of m). f_equal. f_equal; [f_equal; lia|].
  unfold store, record. cbn [ds_heap ds_log]. f_equal. rewrite heap_set_last. reflexivity.
Qed.
Lemma errorc_c fuel pos name msg stack cause late nb mb sb tb cb lb eb post st v st' : comp cause ->
  (len - pos < fuel)%nat -> sits data pos (nb ++ mb ++ sb ++ tb ++ cb ++ lb ++ eb) post ->
  wproto name nb -> wfield eMessage msg mb -> wfield eStack stack sb -> etagged eCause tb -> wire version cause cb ->
  wfield eStack late lb -> stack = None \/ late = None -> etagged eEnd eb ->
  build cfg (WErrorC name msg stack cause late) st = Ok (v, st') ->
  dec_error data (dec' fuel) pos st = Ok (v, (pos + length (nb ++ mb ++ sb ++ tb ++ cb ++ lb ++ eb))%nat, st').
Proof.
  intros C F S1 W1 W2 W3 TC WC W4 ONE T B. pose proof (sits_len _ _ _ _ S1) as SL.
  apply sits_app in S1 as [A1 S1]. apply sits_app in S1 as [A2 S1]. apply sits_app in S1 as [A3 S1].
  apply sits_app in S1 as [A4 S1]. apply sits_app in S1 as [A5 S1]. apply sits_app in S1 as [A6 A7].
  pose proof (errtag_c _ _ _ _ _ TC A4) as R4. pose proof (errtag_c _ _ _ _ _ T A7) as R7.
  destruct (field_first _ _ _ _ _ _ _ W3 A3 R4) as [e3 [p3 [R3 [I3 _]]]].
  destruct (field_first _ _ _ _ _ _ _ W2 A2 R3) as [e2 [p2 [R2 [I2 _]]]].
  destruct (proto_c _ _ _ _ _ _ W1 A1 R2) as [e1 [p1 [R1 [PN R0]]]].
  { destruct I2 as [->| ->]; [reflexivity|]. destruct I3 as [->| ->]; reflexivity. }
  destruct (field_first _ _ _ _ _ _ _ W4 A6 R7) as [e6 [p6 [R6 [I6 _]]]].
  unfold dec_error. rewrite R1. cbn [bind]. rewrite R0. cbn [bind]. rewrite build_errorc in B.
  destruct (build_field msg st) as [m st1] eqn:B1. destruct (build_field stack st1) as [s st2] eqn:B2.
  rewrite (field_c eMessage fuel (pos + length nb) _ _ _ _ _ _ _ _ e3 p3 ltac:(lia) A2 W2 R2 R3 B1).
  2: { intros _. destruct I3 as [->| ->]; discriminate. }
  cbn [bind].
  rewrite (field_c eStack fuel (pos + length nb + length mb) _ _ _ _ _ _ _ _ _ _ ltac:(lia) A3 W3 R3 R4 B2) by discriminate.
  cbn [bind alloc_rec alloc] in *. change (etag_beq eCause eCause) with true. cbn match.
  apply bind_Ok in B as [[c st3] [B3 B]]. destruct (build_field late st3) as [l st4] eqn:B4. injection B as <- <-.
  assert (no_view ((lb ++ eb) ++ post)) as NV.
  { destruct W4; [cbn [app]; eapply no_view_etagged; exact T|]. rewrite <- !app_assoc. eapply no_view_etagged; eassumption. }
  rewrite PN. fold (message_of m).
  rewrite (value_c _ C fuel (pos + length nb + length mb + length sb + length tb) _ _ _ _ _ ltac:(lia) A5 WC B3).
  2: { intros _. exact NV. }
  cbn [bind]. rewrite R6. cbn [bind].
  match goal with |- bind ?x _ = _ => replace x with (Ok (first_some s l, eEnd,
    (pos + length nb + length mb + length sb + length tb + length cb + length lb + length eb)%nat, st4)) end.
  - cbn [bind]. change (etag_beq eEnd eEnd) with true. cbn match. rewrite !app_length. do 2 f_equal. f_equal. lia.
  - destruct s as [s|].
    + destruct ONE as [->| ->]; [discriminate B2|]. inversion W4; subst. cbn [length] in *. rewrite Nat.add_0_r in *.
      rewrite R6 in R7. injection R7 as -> ->. injection B4 as <- <-. reflexivity.
    + cbn [first_some]. symmetry.
      apply (field_c eStack fuel (pos + length nb + length mb + length sb + length tb + length cb) _ _ _ _ _ _ _ _ _ _ ltac:(lia) A6 W4 R6 R7 B4).
      discriminate.
Qed.

(** * Loops *)
Definition end_tag (t : stag) : Prop := In t [kEndJSMap; kEndJSSet; kEndJSObject; kEndDenseJSArray; kEndSparseJSArray].
Lemma not_end version' w body t : wbody version' w body -> end_tag t -> stag_eqb (wtag w) t = false.
Proof.
  intros W E. apply wtag_value in W. destruct (stag_eqb (wtag w) t) eqn:Q; [|reflexivity].
  apply stag_eqb_eq in Q. rewrite Q in W. repeat (destruct E as [<-|E]; [discriminate W|]). destruct E.
Qed.
Lemma end_not_view t : end_tag t -> t <> kArrayBufferView /\ t <> kPadding.
Proof. intros E. repeat (destruct E as [<-|E]; [split; discriminate|]). destruct E. Qed.
Lemma put_key_ok acc k v acc' : put cfg acc k v = Ok acc' -> key_ok acc k = true.
Proof.
  destruct acc; cbn [put key_ok]; try discriminate; auto; unfold jo_put; destruct (val_key k); auto; discriminate.
Qed.
Lemma key_tag w body : wbody version w body -> is_key w -> is_object_key (wtag w) = true.
Proof.
  intros W K. destruct w; cbn in K; try contradiction; try reflexivity.
  apply str_body in W. destruct W; reflexivity.
Qed.

Definition comp_pairs (ps : wpairs) : Prop := forall fuel f isk endt pos bs eb post acc n st acc' st',
  (f <= fuel)%nat -> (len - pos < f)%nat -> sits data pos (bs ++ eb) post -> wprs version ps bs ->
  tagged endt eb -> end_tag endt ->
  ((forall t, isk t = true) \/ (isk = is_object_key /\ keys_ok ps)) ->
  build_pairs cfg ps acc st = Ok (acc', st') ->
  dec_pairs cfg data (dec' fuel) isk endt f pos acc n st = Ok (acc', n + pcount ps, (pos + length (bs ++ eb))%nat, st').
Definition comp_vals (vs : wvals) : Prop :=
  (forall fuel f pos bs eb post acc n st acc' st',
  (f <= fuel)%nat -> (len - pos < f)%nat -> sits data pos (bs ++ eb) post -> wseq version vs bs ->
  tagged kEndJSSet eb ->
  build_members cfg vs acc st = Ok (acc', st') ->
  dec_members data (dec' fuel) f pos acc n st = Ok (acc', n + vcount vs, (pos + length (bs ++ eb))%nat, st')) /\
  (forall fuel f i pos bs post acc st acc' st',
  (f <= fuel)%nat -> (len - pos < f)%nat -> sits data pos bs post -> wseq version vs bs -> no_view post ->
  build_elems cfg vs i acc st = Ok (acc', st') ->
  dec_elems cfg data (dec' fuel) f (i + vcount vs) i pos acc st = Ok (acc', (pos + length bs)%nat, st')).

Lemma pairs_nil_c : comp_pairs PNil.
Proof.
  intros fuel f isk endt pos bs eb post acc n st acc' st' LF F S1 W T E K B.
  inversion W; subst. cbn [app] in *. cbn [build_pairs] in B. injection B as <- <-.
  destruct f as [|f]; [lia|]. cbn [dec_pairs]. destruct (end_not_view _ E) as [_ NP].
  rewrite (tag_c _ _ _ _ _ NP T S1). cbn [bind]. rewrite stag_eqb_refl. cbn [pcount]. rewrite N.add_0_r. reflexivity.
Qed.
Lemma pairs_cons_c k v r : comp k -> comp v -> comp_pairs r -> comp_pairs (PCons k v r).
Proof.
  intros CK CV CR fuel f isk endt pos bs eb post acc n st acc' st' LF F S1 W T E K B.
  inversion W as [|k0 v0 r0 a b c WK WV WR]; subst. destruct WK as [k tb kb TK WK].
  rewrite build_pairs_cons in B. apply bind_Ok in B as [[kv st1] [B1 B]]. apply bind_Ok in B as [[vv st2] [B2 B]].
  apply bind_Ok in B as [acc1 [B3 B]]. pose proof (sits_len _ _ _ _ S1) as SL.
  rewrite <- !app_assoc in S1. apply sits_app in S1 as [A1 S1]. apply sits_app in S1 as [A2 S1]. apply sits_app in S1 as [A3 A4].
  pose proof (wtag_value _ _ _ WK) as VT. destruct f as [|f]; [lia|]. cbn [dec_pairs].
  assert (wtag k <> kPadding) as NP by (intros Q; rewrite Q in VT; discriminate VT).
  rewrite (tag_c _ _ _ _ _ NP TK A1). cbn [bind]. rewrite (not_end _ _ _ _ WK E).
  assert (isk (wtag k) = true) as ->.
  { destruct K as [K|[-> [K _]]]; [apply K|]. eapply key_tag; eauto. }
  assert (1 <= length tb)%nat by (destruct TK as [q ->]; rewrite app_length; cbn [length]; lia).
  rewrite !app_length in SL. destruct (end_not_view _ E) as [NVE _].
  rewrite (CK fuel (pos + length tb)%nat _ _ _ _ _ ltac:(lia) A2 WK B1).
  2: { intros _. rewrite <- app_assoc. eapply no_view_wire; eauto. }
  cbn [bind]. rewrite (put_key_ok _ _ _ _ B3). cbn [negb].
  rewrite (value_c _ CV fuel (pos + length tb + length kb)%nat _ _ _ _ _ ltac:(lia) A3 WV B2).
  2: { intros _. rewrite <- app_assoc. eapply no_view_pairs; [exact WR|]. eapply no_view_tagged; eauto. }
  cbn [bind]. rewrite B3. cbn [bind].
  assert ((forall t, isk t = true) \/ (isk = is_object_key /\ keys_ok r)) as K'.
  { destruct K as [K|[K1 [_ K2]]]; auto. }
  rewrite (CR fuel f isk endt (pos + length tb + length kb + length b)%nat _ _ _ _ (n + 1) _ _ _ ltac:(lia) ltac:(lia) A4 WR T E K' B).
  rewrite !app_length. cbn [pcount]. f_equal. f_equal. f_equal; [f_equal; lia|lia].
Qed.
Lemma vals_nil_c : comp_vals VNil.
Proof.
  split.
  - intros fuel f pos bs eb post acc n st acc' st' LF F S1 W T B.
    inversion W; subst. cbn [app] in *. cbn [build_members] in B. injection B as <- <-.
    destruct f as [|f]; [lia|]. cbn [dec_members].
    rewrite (tag_c _ _ _ _ kEndJSSet ltac:(discriminate) T S1). cbn [bind]. rewrite stag_eqb_refl. cbn [vcount]. rewrite N.add_0_r. reflexivity.
  - intros fuel f i pos bs post acc st acc' st' LF F S1 W NV B.
    inversion W; subst. cbn [build_elems] in B. injection B as <- <-. cbn [vcount length]. rewrite N.add_0_r, Nat.add_0_r.
    destruct f; cbn [dec_elems]; rewrite N.eqb_refl; reflexivity.
Qed.
Lemma vals_cons_c w r : comp w -> comp_vals r -> comp_vals (VCons w r).
Proof.
  intros CW [CR1 CR2]. split.
  - intros fuel f pos bs eb post acc n st acc' st' LF F S1 W T B.
    inversion W as [|w0 r0 a b WK WR]; subst. destruct WK as [w tb kb TK WK].
    rewrite build_members_cons in B. apply bind_Ok in B as [[kv st1] [B1 B]].
    apply bind_Ok in B as [acc1 [B3 B]]. pose proof (sits_len _ _ _ _ S1) as SL.
    rewrite <- !app_assoc in S1. apply sits_app in S1 as [A1 S1]. apply sits_app in S1 as [A2 A4].
    pose proof (wtag_value _ _ _ WK) as VT. destruct f as [|f]; [lia|]. cbn [dec_members].
    assert (wtag w <> kPadding) as NP by (intros Q; rewrite Q in VT; discriminate VT).
    rewrite (tag_c _ _ _ _ _ NP TK A1). cbn [bind]. rewrite (not_end _ _ _ kEndJSSet WK) by (cbn; tauto).
    assert (1 <= length tb)%nat by (destruct TK as [q ->]; rewrite app_length; cbn [length]; lia).
    rewrite !app_length in SL.
    rewrite (CW fuel (pos + length tb)%nat _ _ _ _ _ ltac:(lia) A2 WK B1).
    2: { intros _. rewrite <- app_assoc. eapply no_view_seq; [exact WR|]. eapply no_view_tagged; [|exact T]. discriminate. }
    cbn [bind]. rewrite B3. cbn [bind].
    rewrite (CR1 fuel f (pos + length tb + length kb)%nat _ _ _ _ (n + 1) _ _ _ ltac:(lia) ltac:(lia) A4 WR T B).
    rewrite !app_length. cbn [vcount]. f_equal. f_equal. f_equal; [f_equal; lia|lia].
  - intros fuel f i pos bs post acc st acc' st' LF F S1 W NV B.
    inversion W as [|w0 r0 a b WK WR]; subst.
    rewrite build_elems_cons in B. apply bind_Ok in B as [[kv st1] [B1 B]].
    apply bind_Ok in B as [acc1 [B3 B]]. pose proof (sits_len _ _ _ _ S1) as SL.
    apply sits_app in S1 as [A1 A2].
    destruct f as [|f]; [lia|]. cbn [dec_elems].
    assert (1 <= length a)%nat.
    { destruct WK as [w tb kb [q ->] WK]. rewrite !app_length; cbn [length]; lia. }
    rewrite app_length in SL. cbn [vcount]. destruct (N.eqb_spec i (i + (vcount r + 1))); [lia|].
    rewrite (value_c _ CW fuel pos _ _ _ _ _ ltac:(lia) A1 WK B1).
    2: { intros _. eapply no_view_seq; eauto. }
    cbn [bind]. rewrite B3. cbn [bind]. replace (i + (vcount r + 1)) with (i + 1 + vcount r) by lia.
    rewrite (CR2 fuel f (i + 1) (pos + length a)%nat _ _ _ _ _ _ ltac:(lia) ltac:(lia) A2 WR NV B).
    rewrite !app_length. f_equal. f_equal. f_equal. lia.
Qed.

Theorem dec_complete : (forall w, comp w) /\ (forall vs, comp_vals vs) /\ (forall ps, comp_pairs ps).
Proof.
  apply wval_mutind; try (apply pairs_nil_c || apply vals_nil_c); try (intros; (apply pairs_cons_c || apply vals_cons_c); auto; fail).
  all: intros; red; (intros fuel pos body post st r st' F S1 W B FW);
    (destruct fuel as [|f]; [lia|]); (assert (length data - pos < f)%nat as F' by lia).
  all: cbn [wtag].
  - (* constants *)
    pose proof (const_in _ _ _ W) as I. assert (body = []) as -> by (inversion W; reflexivity).
    cbn [build] in B. injection B as <- <-. cbn [length]. rewrite Nat.add_0_r.
    repeat (destruct I as [<-|I]; [reflexivity|]). destruct I.
  - inversion W; subst. cbn [build] in B. injection B as <- <-. cbn [dec]. erewrite int32_c; eauto. reflexivity.
  - inversion W; subst. cbn [build] in B. injection B as <- <-. cbn [dec]. erewrite uint32_c; eauto. reflexivity.
  - inversion W; subst. cbn [build] in B. injection B as <- <-. cbn [dec]. erewrite double_c; eauto. reflexivity.
  - inversion W; subst. cbn [build] in B. injection B as <- <-. cbn [dec]. erewrite bigint_c; eauto. reflexivity.
  - apply str_body in W. pose proof (string_body_c _ _ _ _ _ _ W S1) as E. cbn [build] in B. injection B as <- <-.
    destruct W; cbn [dec dec_wrapped]; rewrite E; reflexivity.
  - inversion W; subst. cbn [build] in B. injection B as <- <-. cbn [length]. rewrite Nat.add_0_r. destruct b; reflexivity.
  - inversion W; subst. cbn [build] in B. injection B as <- <-. cbn [dec]. erewrite double_c; eauto. reflexivity.
  - inversion W; subst. cbn [build] in B. injection B as <- <-. cbn [dec]. erewrite bigint_c; eauto. reflexivity.
  - inversion W; subst. cbn [build] in B. cbn [dec]. unfold dec_date. erewrite double_c; eauto. cbn [bind].
    destruct (c_date cfg bits); [|discriminate B]. cbn [alloc_rec alloc] in *. injection B as <- <-. reflexivity.
  - (* regexp *)
    inversion W as [| | | | | | | | | |enc0 s0 fl tb sb fb T WS V| | | | | | | | | | |]; subst. cbn [build] in B.
    apply bind_Ok in B as [o [E B]]. cbn [alloc_rec alloc] in B. injection B as <- <-.
    rewrite app_assoc in S1. apply sits_app in S1 as [A1 A2].
    cbn [dec]. unfold dec_regexp. rewrite (string_c _ _ _ _ _ _ _ st F' A1 T WS). cbn [bind].
    rewrite (varint_c _ _ _ _ _ V A2). cbn [bind]. rewrite E. cbn [bind alloc_rec alloc].
    do 2 f_equal. f_equal. rewrite !app_length. lia.
  - (* map *)
    inversion W as [| | | | | | | | | | |ps0 bs eb cb WP T V| | | | | | | | | |]; subst. rewrite build_map in B.
    rewrite app_assoc in S1. pose proof (sits_len _ _ _ _ S1) as SL. apply sits_app in S1 as [A1 A2].
    cbn [dec]. unfold dec_map. cbn [alloc_rec alloc] in *. apply bind_Ok in B as [[o st1] [B1 B]]. injection B as <- <-.
    rewrite (H f f _ kEndJSMap pos bs eb _ _ 0 _ _ _ (le_n _) F' A1 WP T ltac:(cbn; tauto) ltac:(left; reflexivity) B1).
    cbn [bind]. rewrite N.add_0_l. rewrite (count_c _ _ _ _ _ V A2). cbn [bind].
    do 2 f_equal. f_equal. rewrite !app_length. lia.
  - (* set *)
    inversion W as [| | | | | | | | | | | |vs0 bs eb cb WP T V| | | | | | | | |]; subst. rewrite build_set in B.
    rewrite app_assoc in S1. pose proof (sits_len _ _ _ _ S1) as SL. apply sits_app in S1 as [A1 A2].
    cbn [dec]. unfold dec_set. cbn [alloc_rec alloc] in *. apply bind_Ok in B as [[o st1] [B1 B]]. injection B as <- <-.
    destruct H as [H _].
    rewrite (H f f pos bs eb _ _ 0 _ _ _ (le_n _) F' A1 WP T B1).
    cbn [bind]. rewrite N.add_0_l. rewrite (count_c _ _ _ _ _ V A2). cbn [bind].
    do 2 f_equal. f_equal. rewrite !app_length. lia.
  - (* object *)
    inversion W as [| | | | | | | | | | | | |ps0 bs eb cb WP K T V| | | | | | | |]; subst. rewrite build_object in B.
    rewrite app_assoc in S1. pose proof (sits_len _ _ _ _ S1) as SL. apply sits_app in S1 as [A1 A2].
    cbn [dec]. unfold dec_object. cbn [alloc_rec alloc] in *. apply bind_Ok in B as [[o st1] [B1 B]]. injection B as <- <-.
    rewrite (H f f _ kEndJSObject pos bs eb _ _ 0 _ _ _ (le_n _) F' A1 WP T ltac:(cbn; tauto) ltac:(right; split; [reflexivity|exact K]) B1).
    cbn [bind]. rewrite N.add_0_l. rewrite (count_c _ _ _ _ _ V A2). cbn [bind].
    do 2 f_equal. f_equal. rewrite !app_length. lia.
  - (* dense *)
    inversion W as [| | | | | | | | | | | | | |vs0 ps0 nb vb pb eb cb lb V1 WV WP K T V2 V3| | | | | | |]; subst. rewrite build_dense in B.
    pose proof (sits_len _ _ _ _ S1) as SL. apply sits_app in S1 as [A1 S1]. apply sits_app in S1 as [A2 S1].
    rewrite app_assoc in S1. apply sits_app in S1 as [A3 S1]. apply sits_app in S1 as [A4 A5].
    cbn [dec]. unfold dec_dense. cbn [alloc_rec alloc] in *. apply bind_Ok in B as [[o1 st1] [B1 B]].
    apply bind_Ok in B as [[o2 st2] [B2 B]]. injection B as <- <-.
    rewrite (varint_c _ _ _ _ _ V1 A1). cbn [bind]. destruct H as [_ H].
    rewrite <- (N.add_0_l (vcount vs)) at 1.
    assert (no_view ((pb ++ eb ++ cb ++ lb) ++ post)) as NV.
    { rewrite <- !app_assoc. eapply no_view_pairs; [exact WP|]. eapply no_view_tagged; [|exact T]. discriminate. }
    rewrite (H f f 0 (pos + length nb)%nat vb _ _ _ _ _ (le_n _) ltac:(lia) A2 WV NV B1).
    cbn [bind].
    rewrite (H0 f f _ kEndDenseJSArray (pos + length nb + length vb)%nat pb eb _ _ 0 _ _ _ (le_n _) ltac:(lia) A3 WP T ltac:(cbn; tauto) ltac:(right; split; [reflexivity|exact K]) B2).
    cbn [bind]. rewrite !N.add_0_l. rewrite (count_c _ _ _ _ _ V2 A4). cbn [bind]. rewrite (count_c _ _ _ _ _ V3 A5). cbn [bind].
    do 2 f_equal. f_equal. rewrite !app_length. lia.
  - (* sparse *)
    inversion W as [| | | | | | | | | | | | | | |len0 ps0 nb pb eb cb lb V1 WP K T V2 V3| | | | | |]; subst. rewrite build_sparse in B.
    pose proof (sits_len _ _ _ _ S1) as SL. apply sits_app in S1 as [A1 S1].
    rewrite app_assoc in S1. apply sits_app in S1 as [A3 S1]. apply sits_app in S1 as [A4 A5].
    cbn [dec]. unfold dec_sparse. cbn [alloc_rec alloc] in *. apply bind_Ok in B as [o1 [B1 B]].
    apply bind_Ok in B as [[o2 st2] [B2 B]]. injection B as <- <-.
    rewrite (varint_c _ _ _ _ _ V1 A1). cbn [bind]. rewrite B1. cbn [bind].
    rewrite (H f f _ kEndSparseJSArray (pos + length nb)%nat pb eb _ _ 0 _ _ _ (le_n _) ltac:(lia) A3 WP T ltac:(cbn; tauto) ltac:(right; split; [reflexivity|exact K]) B2).
    cbn [bind]. rewrite !N.add_0_l. rewrite (count_c _ _ _ _ _ V2 A4). cbn [bind]. rewrite (count_c _ _ _ _ _ V3 A5). cbn [bind].
    do 2 f_equal. f_equal. rewrite !app_length. lia.
  - inversion W; subst. cbn [dec]. eapply error_c; eauto.
  - inversion W; subst. cbn [dec]. eapply errorc_c; eauto.
  - inversion W as [| | | | | | | | | | | | | | | | | |b0 v0 bb vb WB WV| | |]; subst.
    assert (v = None -> no_view post) as NV by (intros ->; apply FW; exact I).
    destruct WB; cbn [dec].
    + eapply plain_c; eauto.
    + eapply resizable_c; eauto.
    + eapply buffer_id_c; eauto.
    + eapply buffer_id_c; eauto.
  - inversion W; subst. cbn [dec]. eapply reference_c; eauto. intros ->. apply FW. exact I.
  - inversion W; subst. cbn [dec]. erewrite uint32_c; eauto. cbn [build bind alloc_rec alloc] in *. injection B as <- <-. reflexivity.
  - (* host *)
    inversion W as [| | | | | | | | | | | | | | | | | | | | |code0 d0 cb lb V1 V2 D]; subst. cbn [build] in B.
    destruct (c_host cfg) eqn:HO; [|discriminate B]. destruct (node_format code) as [vt|] eqn:NF; [|discriminate B].
    pose proof (sits_len _ _ _ _ S1) as SL. apply sits_app in S1 as [A1 S1]. apply sits_app in S1 as [A2 A3].
    cbn [dec]. rewrite HO. unfold dec_host. rewrite (uint32_c _ _ _ _ _ V1 A1). cbn [bind].
    rewrite (uint32_c _ _ _ _ _ V2 A2). cbn [bind]. rewrite NF. rewrite !app_length in SL.
    unfold has_capacity. replace (_ <=? _) with true by (unfold lenN; lia). cbn [negb].
    unfold lenN at 1. rewrite Nat2N.id, (slice_c _ _ _ _ A3), jsbuf_plain.
    change (view_new vt 0 None false) with (Ok (mkView vt 0 None false)).
    cbn [bind alloc] in *. injection B as <- <-. do 2 f_equal. f_equal. rewrite !app_length. unfold lenN. lia.
Qed.
End Complete.

Lemma header_complete data tb vb post v : data = (tb ++ vb) ++ post -> tagged kVersion tb -> is_varint vb v -> 13 <= v <= 15 ->
  read_header data 0 = Ok (v, length (tb ++ vb)).
Proof.
  intros D T V R. assert (sits data 0 (tb ++ vb) post) as S1 by (exists []; auto).
  apply sits_app in S1 as [A1 A2]. unfold read_header. rewrite (tag_c _ _ _ _ kVersion ltac:(discriminate) T A1).
  cbn [bind]. rewrite stag_eqb_refl. cbn [guard bind]. rewrite (varint_c _ _ _ _ _ V A2). cbn [bind].
  unfold kLatestVersion. replace (_ || _)%bool with false by lia. rewrite app_length. reflexivity.
Qed.
Theorem loads_complete cfg w bs post v st : document w bs -> build cfg w ds_empty = Ok (v, st) -> follows w post ->
  loads_at cfg (bs ++ post) = Ok (v, length bs, ds_heap st).
Proof.
  intros (ver & tb & vb & body & R & T & V & W & ->) B FW. unfold loads_at, loads_depth.
  rewrite (header_complete _ tb vb (body ++ post) ver); auto; [|rewrite <- !app_assoc; reflexivity]. cbn [bind].
  assert (sits ((tb ++ vb ++ body) ++ post) (length (tb ++ vb)) body post) as S1.
  { exists (tb ++ vb). rewrite <- !app_assoc. auto. }
  rewrite (value_c _ _ _ _ (proj1 (dec_complete cfg _ ver) w) _ _ body post _ v st); auto; [|lia].
  cbn [bind]. rewrite !app_length. do 2 f_equal. f_equal. lia.
Qed.
