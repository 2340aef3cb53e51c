(** Everything the decoder accepts is a sentence of the grammar with the grammar's meaning. *)
From Coq Require Import List NArith ZArith Bool Lia ZifyBool ZifyNat ZifyN.
From Verif Require Import Base ModelTags ModelPrim SpecPrim PrimFacts PrimFacts2 PrimFacts3 ModelValue ModelObject
  ModelMap ModelBuffer ModelHeap ModelDecode SpecWire SpecBuild DecodeFacts.
Import ListNotations.
Open Scope N_scope.
Ltac Zify.zify_post_hook ::= Z.div_mod_to_equations.

Lemma heap_set_last h x y : heap_set (h ++ [x]) (length h) y = h ++ [y].
Proof. induction h as [|z h IH]; cbn [app length heap_set]; [reflexivity|]. rewrite IH. reflexivity. Qed.
Lemma etag_beq_eq a b : etag_beq a b = true <-> a = b.
Proof. split; [destruct a, b; cbn; congruence|intros ->; destruct b; reflexivity]. Qed.
Lemma N_land1_odd f : (N.land f 1 =? 1) = N.odd f.
Proof.
  destruct f as [|[p|p|]]; reflexivity.
Qed.
Lemma N_field f : N.land (N.shiftr f 1) 0x3FFFFFFF = f / 2 mod 2 ^ 30.
Proof. change 0x3FFFFFFF with (N.ones 30). rewrite N.land_ones, N.shiftr_div_pow2. reflexivity. Qed.

(** Unfolding equations. *)
Section Eqs.
Variable cfg : dcfg.
Lemma build_map ps st : build cfg (WMap ps) st =
  let '(i, st) := alloc_rec (OMap []) st in
  do '(o, st) <- build_pairs cfg ps (OMap []) st; Ok (VRef i, store i o st).
Proof. reflexivity. Qed.
Lemma build_set vs st : build cfg (WSet vs) st =
  let '(i, st) := alloc_rec (OSet []) st in
  do '(o, st) <- build_members cfg vs (OSet []) st; Ok (VRef i, store i o st).
Proof. reflexivity. Qed.
Lemma build_object ps st : build cfg (WObject ps) st =
  let '(i, st) := alloc_rec (OObject jo_empty) st in
  do '(o, st) <- build_pairs cfg ps (OObject jo_empty) st; Ok (VRef i, store i o st).
Proof. reflexivity. Qed.
Lemma build_dense vs ps st : build cfg (WDense vs ps) st =
  let '(i, st) := alloc_rec (OArray jo_empty) st in
  do '(o, st) <- build_elems cfg vs 0 (OArray jo_empty) st;
  do '(o, st) <- build_pairs cfg ps o st; Ok (VRef i, store i o st).
Proof. reflexivity. Qed.
Lemma build_sparse len ps st : build cfg (WSparse len ps) st =
  let '(i, st) := alloc_rec (OArray jo_empty) st in
  do o <- (if 0 <? len then put cfg (OArray jo_empty) (VInt (Z.of_N len - 1)) VHole
           else Ok (OArray jo_empty));
  do '(o, st) <- build_pairs cfg ps o st; Ok (VRef i, store i o st).
Proof. reflexivity. Qed.
Lemma build_errorc name msg stack cause late st : build cfg (WErrorC name msg stack cause late) st =
  let '(m, st) := build_field msg st in
  let '(s, st) := build_field stack st in
  let '(i, st) := alloc_rec (OError (proto_name name) (message_of m) s VNone) st in
  do '(c, st) <- build cfg cause st;
  let '(l, st) := build_field late st in
  Ok (VRef i, store i (OError (proto_name name) (message_of m) (first_some s l) c) st).
Proof. reflexivity. Qed.
Lemma build_pairs_cons k v r acc st : build_pairs cfg (PCons k v r) acc st =
  do '(kv, st) <- build cfg k st;
  do '(vv, st) <- build cfg v st;
  do acc <- put cfg acc kv vv;
  build_pairs cfg r acc st.
Proof. reflexivity. Qed.
Lemma build_members_cons w r acc st : build_members cfg (VCons w r) acc st =
  do '(v, st) <- build cfg w st;
  do acc <- put_member acc v;
  build_members cfg r acc st.
Proof. reflexivity. Qed.
Lemma build_elems_cons w r i acc st : build_elems cfg (VCons w r) i acc st =
  do '(v, st) <- build cfg w st;
  do acc <- put cfg acc (VInt (Z.of_N i)) v;
  build_elems cfg r (i + 1) acc st.
Proof. reflexivity. Qed.
End Eqs.

Section Sound.
Variable cfg : dcfg.
Variable data : bytes.
Variable version : N.
Hypothesis DOK : bytes_ok data.
Notation len := (length data).

Lemma varint_s pos v p : read_varint data pos 0 = Ok (v, p) ->
  exists bs, consumed data pos p bs /\ is_varint bs v.
Proof. intros H. destruct (read_varint_sound _ _ _ _ _ DOK H) as [bs [A [B _]]]. eauto. Qed.
Lemma uint32_s pos v p : read_uint32 data pos = Ok (v, p) ->
  exists bs, consumed data pos p bs /\ varint32 v bs.
Proof.
  intros H. pose proof (read_uint32_range _ _ _ _ H) as R. unfold read_uint32 in H.
  apply bind_Ok in H as [[v' p'] [E H]]. destruct (in_uint32 _); [|discriminate H]. injection H as <- <-.
  destruct (read_varint_sound _ _ _ _ _ DOK E) as [bs [A [B C]]].
  exists bs. split; [exact A|]. split; [exact B|]. split; [lia|exact R].
Qed.
Lemma int32_s pos z p : read_int32 data pos = Ok (z, p) ->
  exists bs, consumed data pos p bs /\ wbody version (WInt32 z) bs.
Proof.
  intros H. pose proof (read_int32_range _ _ _ _ H) as R. unfold read_int32 in H.
  apply bind_Ok in H as [[v' p'] [E H]]. destruct (in_int32 _) eqn:I; [|discriminate H]. injection H as <- <-.
  destruct (read_varint_sound _ _ _ _ _ DOK E) as [bs [A [B C]]].
  exists bs. split; [exact A|]. unfold in_int32 in R. constructor; [lia|].
  pose proof (zigzag_encode_decode v') as Z1. unfold encode_zigzag in Z1.
  replace (Z.to_N (if (decode_zigzag v' <? 0)%Z then -2 * decode_zigzag v' - 1 else 2 * decode_zigzag v')%Z) with v'.
  2: { rewrite <- Z1 at 1. clear. generalize (decode_zigzag v'). intros z. destruct (z <? 0)%Z eqn:L; lia. }
  split; [exact B|]. split; [lia|]. pose proof (zigzag_int32_range _ I) as L.
  rewrite zigzag_encode_decode in L. exact L.
Qed.
Lemma double_s pos b p : read_double data pos = Ok (b, p) ->
  exists bs, consumed data pos p bs /\ wdouble b bs.
Proof.
  intros H. apply read_double_sound in H as [A B]; [|exact DOK]. exists (double_bytes b). split; [exact B|].
  split; [exact A|reflexivity].
Qed.
Lemma bigint_s pos z p : read_bigint data pos = Ok (z, p) ->
  exists bs, consumed data pos p bs /\ wbigint z bs.
Proof.
  intros H. unfold read_bigint in H. apply bind_Ok in H as [[f p1] [E H]].
  apply bind_Ok in H as [[ds p2] [E2 H]]. injection H as H <-.
  apply varint_s in E as [vb [A B]]. apply read_bytes_sound in E2 as [C D].
  exists (vb ++ ds). split; [eapply consumed_app; eauto|].
  econstructor; eauto.
  - eapply consumed_ok; eauto.
  - rewrite D. apply N_field.
  - rewrite <- H. rewrite N_land1_odd. reflexivity.
Qed.
Lemma lp_s pos n p bs p2 : read_varint data pos 0 = Ok (n, p) -> read_bytes data p n = Ok (bs, p2) ->
  exists lb, consumed data pos p2 (lb ++ bs) /\ is_varint lb (lenN bs) /\ bytes_ok bs.
Proof.
  intros E E2. apply varint_s in E as [vb [A B]]. apply read_bytes_sound in E2 as [C D].
  exists vb. split; [eapply consumed_app; eauto|]. split; [rewrite D; exact B|eapply consumed_ok; eauto].
Qed.
Lemma onebyte_s pos s p : read_onebyte data pos = Ok (s, p) ->
  exists bs, consumed data pos p bs /\ wstring kOneByteString s bs.
Proof.
  intros H. unfold read_onebyte in H. apply bind_Ok in H as [[n p1] [E H]].
  destruct (lp_s _ _ _ _ _ E H) as [lb [A [B C]]]. exists (lb ++ s). split; [exact A|].
  apply ws_one; [|exact B]. split; [reflexivity|exact C].
Qed.
Lemma twobyte_s pos s p : read_twobyte data pos = Ok (s, p) ->
  exists bs, consumed data pos p bs /\ wstring kTwoByteString s bs.
Proof.
  intros H. unfold read_twobyte in H. apply bind_Ok in H as [[n p1] [E H]]. apply bind_Ok in H as [[bs p2] [E2 H]].
  destruct (utf16_decode bs) eqn:U; [|discriminate H]. injection H as <- <-.
  destruct (lp_s _ _ _ _ _ E E2) as [lb [A [B C]]]. exists (lb ++ bs). split; [exact A|].
  apply ws_two; [|exact B]. apply utf16_decode_iff; auto.
Qed.
Lemma utf8_s pos s p : read_utf8 data pos = Ok (s, p) ->
  exists lb bs, consumed data pos p (lb ++ bs) /\ utf8_string s bs /\ is_varint lb (lenN bs).
Proof.
  intros H. unfold read_utf8 in H. apply bind_Ok in H as [[n p1] [E H]]. apply bind_Ok in H as [[bs p2] [E2 H]].
  destruct (utf8_decode bs) eqn:U; [|discriminate H]. injection H as <- <-.
  destruct (lp_s _ _ _ _ _ E E2) as [lb [A [B C]]]. exists lb, bs. split; [exact A|].
  split; [apply utf8_decode_iff; exact U|exact B].
Qed.
Lemma tag_s pos t p : read_tag data pos = Ok (t, p) -> exists bs, consumed data pos p bs /\ tagged t bs.
Proof. intros H. apply read_tag_sound in H as [_ [k H]]. eexists. split; [exact H|]. exists k. reflexivity. Qed.
Lemma errtag_s pos e p : read_error_tag data pos = Ok (e, p) -> exists bs, consumed data pos p bs /\ etagged e bs.
Proof.
  unfold read_error_tag. intros H. destruct (has_capacity data pos 1); [cbn [negb] in H|discriminate H].
  apply bind_Ok in H as [[c p1] [E H]]. destruct (etag_of_code c) eqn:T.
  - injection H as <- <-. apply etag_of_code_inv in T. subst. apply varint_s in E. exact E.
  - destruct (nth_error data p1); discriminate H.
Qed.
Lemma count_s pos n p : check_count data pos n = Ok p -> exists bs, consumed data pos p bs /\ is_varint bs n.
Proof.
  unfold check_count. intros H. apply bind_Ok in H as [[c p1] [E H]].
  destruct (N.eqb_spec c n); [|discriminate H]. injection H as <-. subst. apply varint_s in E. exact E.
Qed.
Lemma slice_s pos n : (pos + n <= len)%nat -> consumed data pos (pos + n) (slice data pos n) /\ length (slice data pos n) = n.
Proof.
  intros H. pose proof (consumed_slice data pos (pos + n) ltac:(lia)) as C.
  replace (pos + n - pos)%nat with n in C by lia. split; [exact C|].
  apply consumed_bounds in C. lia.
Qed.

(** * Views, buffers, references *)
Lemma view_s buffer pos st v p st' :
  nth_error data pos = Some (tag_byte kArrayBufferView) ->
  dec_view data version buffer (S pos) st = Ok (v, p, st') ->
  exists wv bs, consumed data pos p bs /\ wviewb version (Some wv) bs /\
    build_view buffer (Some wv) st = Ok (v, st').
Proof.
  intros NT H. unfold dec_view in H.
  apply bind_Ok in H as [[code p1] [E H]]. destruct (vtag_of_code code) as [vt|] eqn:T; [|discriminate H].
  apply vtag_of_code_inv in T. subst code.
  apply bind_Ok in H as [[off p2] [E2 H]]. apply bind_Ok in H as [[ln p3] [E3 H]].
  apply bind_Ok in H as [[fl p4] [E4 H]]. apply bind_Ok in H as [x [E5 H]]. injection H as <- <- <-.
  apply varint_s in E as [tb [C1 V1]]. apply uint32_s in E2 as [ob [C2 V2]]. apply uint32_s in E3 as [lb [C3 V3]].
  assert (exists fb, consumed data p3 p4 fb /\ (14 <= version -> is_varint fb fl) /\
    (version < 14 -> fb = [] /\ fl = 0)) as [fb [C4 [V4 V5]]].
  { destruct (14 <=? version) eqn:V.
    - apply varint_s in E4 as [fb [A B]]. exists fb. split; [exact A|]. split; [auto|lia].
    - injection E4 as <- <-. exists []. split; [|split; [lia|auto]]. apply consumed_nil.
      apply consumed_bounds in C3. lia. }
  exists (mkWView vt off ln fl), (tag_byte kArrayBufferView :: tb ++ ob ++ lb ++ fb).
  split; [|split].
  - apply (consumed_app _ _ (S pos) _ [_]).
    + apply nth_error_split in NT as [l1 [l2 [D L]]]. exists l1, l2. cbn [length app]. repeat split; auto. lia.
    + repeat (eapply consumed_app; [eassumption|]). exact C4.
  - constructor; auto.
  - cbn [build_view wv_tag wv_off wv_len wv_flags]. rewrite E5. reflexivity.
Qed.
Lemma maybe_view_s buffer pos st v p st' :
  dec_maybe_view data version buffer pos st = Ok (v, p, st') ->
  (pos <= len)%nat /\ exists wv bs, consumed data pos p bs /\ wviewb version wv bs /\
    build_view buffer wv st = Ok (v, st').
Proof.
  unfold dec_maybe_view. intros H. apply bind_Ok in H as [t [E H]].
  assert (pos <= len)%nat as L.
  { pose proof (peak_post data pos) as P. rewrite E in P. exact P. }
  split; [exact L|].
  assert (Ok (VRef buffer, pos, st) = Ok (v, p, st') -> exists wv bs, consumed data pos p bs /\ wviewb version wv bs /\
    build_view buffer wv st = Ok (v, st')) as D.
  { intros D. injection D as <- <- <-. exists None, []. split; [apply consumed_nil; exact L|]. split; [constructor|reflexivity]. }
  destruct t as [t|]; [|auto]. destruct t; auto.
  clear D. unfold peak_tag in E. destruct (Nat.eqb pos len); [discriminate E|].
  destruct (nth_error data pos) as [b|] eqn:N; [|discriminate E]. injection E as E.
  apply tag_of_byte_inv in E. subst b.
  destruct (view_s _ _ _ _ _ _ N H) as [wv [bs R]]. exists (Some wv), bs. exact R.
Qed.
(** What the soundness of a reader says. *)
Definition sound (t : stag) (pos : nat) (st : dstate) (r : dres val) : Prop :=
  forall v p st', r = Ok (v, p, st') ->
  exists w body, wtag w = t /\ consumed data pos p body /\ wbody version w body /\ build cfg w st = Ok (v, st').
Definition rec_sound (rec : reader) : Prop := forall t pos st, (pos <= len)%nat -> sound t pos st (rec t pos st).

Lemma plain_s pos st : sound kArrayBuffer pos st (dec_buffer_plain data version pos st).
Proof.
  intros v p st' H. unfold dec_buffer_plain in H. apply bind_Ok in H as [[n p1] [E H]].
  destruct (has_capacity data p1 n) eqn:C; cbn [negb] in H; [|discriminate H].
  rewrite jsbuf_plain in H. cbn [bind alloc_rec alloc] in H.
  apply maybe_view_s in H as [L [wv [vb [C2 [V B]]]]]. apply uint32_s in E as [lb [C1 V1]].
  destruct (slice_s p1 (N.to_nat n) L) as [C3 L3].
  exists (WBuf (BufPlain (slice data p1 (N.to_nat n))) wv), ((lb ++ slice data p1 (N.to_nat n)) ++ vb).
  split; [reflexivity|]. split; [eapply consumed_app; [eapply consumed_app; eauto|exact C2]|].
  split; [|exact B]. constructor; [|exact V]. constructor; [|eapply consumed_ok; eauto].
  unfold lenN. rewrite L3, N2Nat.id. exact V1.
Qed.
Lemma resizable_s pos st : sound kResizableArrayBuffer pos st (dec_buffer_resizable data version pos st).
Proof.
  intros v p st' H. unfold dec_buffer_resizable in H. apply bind_Ok in H as [[n p1] [E H]].
  destruct (_ <? _) eqn:C in H; cbn [negb] in H; [|discriminate H].
  apply bind_Ok in H as [[mx p2] [E2 H]]. destruct (mx <? n) eqn:M; [discriminate H|].
  rewrite jsbuf_resizable in H.
  2: { pose proof (slice_length data p2 (N.to_nat n)). unfold zlen. lia. }
  cbn [bind alloc_rec alloc] in H.
  apply maybe_view_s in H as [L [wv [vb [C2 [V B]]]]]. apply uint32_s in E as [lb [C1 V1]].
  apply uint32_s in E2 as [mb [C4 V4]].
  destruct (slice_s p2 (N.to_nat n) L) as [C3 L3].
  exists (WBuf (BufResizable (slice data p2 (N.to_nat n)) mx) wv), ((lb ++ mb ++ slice data p2 (N.to_nat n)) ++ vb).
  split; [reflexivity|]. split; [eapply consumed_app; [do 2 (eapply consumed_app; eauto)|exact C2]|].
  split; [|exact B]. constructor; [|exact V].
  assert (lenN (slice data p2 (N.to_nat n)) = n) as LN by (unfold lenN; rewrite L3; apply N2Nat.id).
  constructor; auto; [rewrite LN; exact V1|lia|eapply consumed_ok; eauto].
Qed.
Lemma buffer_id_s (mk : N -> obj) (wb : N -> wbuf) t pos st :
  (forall n v, wtag (WBuf (wb n) v) = t) -> (forall n bs, varint32 n bs -> wbufb (wb n) bs) ->
  (forall n st, build_buf (wb n) st = alloc (mk n) st) ->
  sound t pos st (dec_buffer_id data version mk pos st).
Proof.
  intros T W BB v p st' H. unfold dec_buffer_id in H. apply bind_Ok in H as [[n p1] [E H]]. cbn [alloc] in H.
  apply maybe_view_s in H as [L [wv [vb [C2 [V B]]]]]. apply uint32_s in E as [lb [C1 V1]].
  exists (WBuf (wb n) wv), (lb ++ vb). split; [apply T|]. split; [eapply consumed_app; eauto|].
  split; [constructor; auto|]. cbn [build]. rewrite BB. exact B.
Qed.
Lemma reference_s pos st : sound kObjectReference pos st (dec_reference data version pos st).
Proof.
  intros v p st' H. unfold dec_reference in H. apply bind_Ok in H as [[id p1] [E H]].
  destruct (id <? lenN (ds_log st)) eqn:I; cbn [negb] in H; [|discriminate H].
  apply varint_s in E as [ib [C1 V1]].
  assert (p1 <= len)%nat as L1 by (apply consumed_bounds in C1; lia).
  destruct (nth_error (ds_log st) (N.to_nat id)) as [x|] eqn:N; [|discriminate H].
  assert (Ok (x, p1, st) = Ok (v, p, st') -> exists w body, wtag w = kObjectReference /\ consumed data pos p body /\
    wbody version w body /\ build cfg w st = Ok (v, st')) as D.
  { intros D. injection D as <- <- <-. exists (WRef id None), (ib ++ []). split; [reflexivity|].
    split; [rewrite app_nil_r; exact C1|]. split; [constructor; [exact V1|constructor]|].
    cbn [build]. rewrite I, N. destruct x; reflexivity. }
  destruct x; auto. destruct (nth_error (ds_heap st) oid) as [x|] eqn:HN; auto.
  destruct (is_buffer x) eqn:IB; auto. clear D.
  apply maybe_view_s in H as [L [wv [vb [C2 [V B]]]]].
  exists (WRef id wv), (ib ++ vb). split; [reflexivity|]. split; [eapply consumed_app; eauto|].
  split; [constructor; auto|]. cbn [build]. rewrite I, N. destruct wv; [|exact B]. rewrite HN, IB. exact B.
Qed.
Lemma host_s pos st : c_host cfg = true -> sound kHostObject pos st (dec_host data pos st).
Proof.
  intros HO v p st' H. unfold dec_host in H. apply bind_Ok in H as [[code p1] [E H]].
  apply bind_Ok in H as [[n p2] [E2 H]]. destruct (node_format code) as [vt|] eqn:F; [|discriminate H].
  destruct (has_capacity data p2 n) eqn:C; cbn [negb] in H; [|discriminate H].
  rewrite jsbuf_plain in H. change (view_new vt 0 None false) with (Ok (mkView vt 0 None false)) in H.
  cbn [bind alloc] in H. injection H as <- <- <-.
  apply uint32_s in E as [cb [C1 V1]]. apply uint32_s in E2 as [lb [C2 V2]].
  assert (p2 + N.to_nat n <= len)%nat as L by (unfold has_capacity, lenN in C; lia).
  destruct (slice_s p2 (N.to_nat n) L) as [C3 L3].
  exists (WHost code (slice data p2 (N.to_nat n))), (cb ++ lb ++ slice data p2 (N.to_nat n)).
  split; [reflexivity|]. split; [do 2 (eapply consumed_app; eauto)|]. split.
  - constructor; auto; [|eapply consumed_ok; eauto]. unfold lenN. rewrite L3, N2Nat.id. exact V2.
  - cbn [build]. rewrite HO, F. reflexivity.
Qed.
Lemma date_s pos st : sound kDate pos st (dec_date cfg data pos st).
Proof.
  intros v p st' H. unfold dec_date in H. apply bind_Ok in H as [[b p1] [E H]].
  apply double_s in E as [bs [C D]]. exists (WDate b), bs. 
  destruct (c_date cfg b) as [d|e] eqn:CD; [|discriminate H]. cbn [alloc_rec alloc] in H. injection H as <- <- <-.
  split; [reflexivity|]. split; [exact C|]. split; [constructor; exact D|]. cbn [build]. rewrite CD. reflexivity.
Qed.

(** * Composite readers *)
Lemma const_in t body : wbody version (WConst t) body -> In t [kTheHole; kUndefined; kNull; kTrue; kFalse].
Proof. intros W. inversion W; auto. Qed.
Lemma wtag_string w enc body : wbody version w body -> wtag w = enc -> tag_in enc JS_STRING_TAGS = true ->
  exists s, w = WStr enc s /\ wstring enc s body.
Proof.
  intros W T I. destruct w as [t| | | | |enc' s'|b| | | | | | | | | | | |b v| | |]; cbn [wtag] in T; subst enc; try discriminate I.
  - apply const_in in W. repeat (destruct W as [<-|W]; [discriminate I|]). destruct W.
  - inversion W; subst. eauto.
  - destruct b; discriminate I.
  - destruct b; discriminate I.
Qed.
Lemma wtag_key w body : wbody version w body -> is_object_key (wtag w) = true -> is_key w.
Proof.
  intros W I. destruct w; cbn [wtag] in I; try discriminate I; try exact Logic.I.
  - apply const_in in W. repeat (destruct W as [<-|W]; [discriminate I|]). destruct W.
  - destruct b; discriminate I.
  - destruct b; discriminate I.
Qed.

Section Rec.
Variable rec : reader.
Hypothesis R : rec_sound rec.

Lemma value_s pos st v p st' : dec_value data rec pos st = Ok (v, p, st') ->
  exists w bs, consumed data pos p bs /\ wire version w bs /\ build cfg w st = Ok (v, st').
Proof.
  unfold dec_value. intros H. apply bind_Ok in H as [[t p1] [E H]]. apply tag_s in E as [tb [C1 T]].
  assert (p1 <= len)%nat as L by (apply consumed_bounds in C1; lia).
  destruct (R t p1 st L v p st' H) as [w [body [A [B [C D]]]]]. subst t.
  exists w, (tb ++ body). split; [eapply consumed_app; eauto|]. split; [constructor; auto|exact D].
Qed.
Lemma string_s pos st s p st' : dec_string data rec pos st = Ok (s, p, st') ->
  exists enc tb bs, consumed data pos p (tb ++ bs) /\ tagged enc tb /\ wstring enc s bs /\ st' = build_str enc s st.
Proof.
  unfold dec_string. intros H. apply bind_Ok in H as [[t p1] [E H]]. apply tag_s in E as [tb [C1 T]].
  assert (p1 <= len)%nat as L by (apply consumed_bounds in C1; lia).
  destruct (tag_in t JS_STRING_TAGS) eqn:I; cbn [negb] in H; [|discriminate H].
  apply bind_Ok in H as [[[v p2] st2] [E H]]. destruct v; try discriminate H. injection H as <- <- <-.
  destruct (R t p1 st L _ _ _ E) as [w [body [A [B [C D]]]]].
  destruct (wtag_string _ _ _ C A I) as [s' [-> W]]. cbn [build] in D. injection D as -> <-.
  exists t, tb, body. split; [eapply consumed_app; eauto|]. auto.
Qed.
Lemma regexp_s pos st : sound kRegExp pos st (dec_regexp data rec pos st).
Proof.
  intros v p st' H. unfold dec_regexp in H. apply bind_Ok in H as [[[s p1] st1] [E H]].
  apply bind_Ok in H as [[fl p2] [E2 H]]. apply bind_Ok in H as [o [E3 H]].
  cbn [alloc_rec alloc] in H. injection H as <- <- <-.
  apply string_s in E as [enc [tb [sb [C [T [W ->]]]]]]. apply varint_s in E2 as [fb [C2 V]].
  exists (WRegExp enc s fl), (tb ++ sb ++ fb). split; [reflexivity|].
  split; [rewrite app_assoc; eapply consumed_app; eauto|]. split; [constructor; auto|].
  cbn [build]. rewrite E3. reflexivity.
Qed.

(** A field and the error tag after it; [eb] is the tag read before. *)
Lemma field_s f e pos0 pos st eb s e2 p st' :
  consumed data pos0 pos eb -> etagged e eb ->
  dec_field data rec f e pos st = Ok (s, e2, p, st') ->
  exists fld fb eb2, consumed data pos0 p (fb ++ eb2) /\ wfield f fld fb /\ etagged e2 eb2 /\
    build_field fld st = (s, st') /\ (fld = None -> e2 <> f).
Proof.
  intros C T H. unfold dec_field in H. destruct (etag_beq e f) eqn:B.
  - apply etag_beq_eq in B. subst e. apply bind_Ok in H as [[[s1 p1] st1] [E H]].
    apply bind_Ok in H as [[e3 p3] [E2 H]]. injection H as <- <- <- <-.
    apply string_s in E as [enc [tb [sb [C1 [T1 [W ->]]]]]]. apply errtag_s in E2 as [eb2 [C2 T2]].
    exists (Some (enc, s1)), (eb ++ tb ++ sb), eb2.
    split; [eapply consumed_app; [eapply consumed_app; eauto|exact C2]|].
    split; [constructor; auto|]. split; [exact T2|]. split; [reflexivity|discriminate].
  - injection H as <- <- <- <-. exists None, [], eb. split; [exact C|]. split; [constructor|].
    split; [exact T|]. split; [reflexivity|]. intros _ ->.
    assert (etag_beq f f = true) by (apply etag_beq_eq; reflexivity). congruence.
Qed.
Lemma proto_in e : ename_beq (for_error_tag e) nError = false ->
  In e [eEvalError; eRangeError; eReferenceError; eSyntaxError; eTypeError; eUriError].
Proof. destruct e; cbn; intros; try discriminate; tauto. Qed.
Lemma error_s pos st : sound kError pos st (dec_error data rec pos st).
Proof.
  intros v p st' H. unfold dec_error in H. apply bind_Ok in H as [[e1 p1] [E1 H]].
  apply bind_Ok in H as [[e2 p2] [E2 H]]. apply bind_Ok in H as [[[[m e3] p3] st3] [E3 H]].
  apply bind_Ok in H as [[[[s e4] p4] st4] [E4 H]]. cbn [alloc_rec alloc] in H.
  apply errtag_s in E1 as [eb1 [C1 T1]].
  assert (exists name nb eb2, consumed data pos p2 (nb ++ eb2) /\ wproto name nb /\ etagged e2 eb2 /\
    ename_str (for_error_tag e1) = proto_name name) as [name [nb [eb2 [C2 [W2 [T2 PN]]]]]].
  { destruct (ename_beq _ _) eqn:EN in E2.
    - injection E2 as <- <-. exists None, [], eb1. split; [exact C1|]. split; [constructor|]. split; [exact T1|].
      destruct (for_error_tag e1); try discriminate EN. reflexivity.
    - apply errtag_s in E2 as [eb2 [C2 T2]]. exists (Some e1), eb1, eb2. split; [eapply consumed_app; eauto|].
      split; [constructor; [apply proto_in; exact EN|exact T1]|]. split; [exact T2|reflexivity]. }
  rewrite PN in H. clear PN E2 C1 T1 eb1.
  assert (exists q, consumed data pos q nb /\ consumed data q p2 eb2) as [q [Q1 Q2]].
  { destruct C2 as (pre & post & D & L & P). rewrite app_length in P. exists (pos + length nb)%nat. split.
    - exists pre, (eb2 ++ post). rewrite <- app_assoc in D. auto.
    - exists (pre ++ nb), post. rewrite D, <- !app_assoc, app_length. repeat split; lia. }
  destruct (field_s _ _ _ _ _ _ _ _ _ _ Q2 T2 E3) as [msg [mb [eb3 [C3 [W3 [T3 [B3 _]]]]]]].
  assert (exists q2, consumed data q q2 mb /\ consumed data q2 p3 eb3) as [q2 [Q3 Q4]].
  { destruct C3 as (pre & post & D & L & P). rewrite app_length in P. exists (q + length mb)%nat. split.
    - exists pre, (eb3 ++ post). rewrite <- app_assoc in D. auto.
    - exists (pre ++ mb), post. rewrite D, <- !app_assoc, app_length. repeat split; lia. }
  destruct (field_s _ _ _ _ _ _ _ _ _ _ Q4 T3 E4) as [stk [sb [eb4 [C4 [W4 [T4 [B4 NS]]]]]]].
  assert (exists q3, consumed data q2 q3 sb /\ consumed data q3 p4 eb4) as [q3 [Q5 Q6]].
  { destruct C4 as (pre & post & D & L & P). rewrite app_length in P. exists (q2 + length sb)%nat. split.
    - exists pre, (eb4 ++ post). rewrite <- app_assoc in D. auto.
    - exists (pre ++ sb), post. rewrite D, <- !app_assoc, app_length. repeat split; lia. }
  apply bind_Ok in H as [[[[c e5] p5] st5] [E5 H]].
  apply bind_Ok in H as [[[[s6 e6] p6] st6] [E6 H]].
  destruct (etag_beq e6 eEnd) eqn:EE; [|discriminate H]. apply etag_beq_eq in EE. subst e6.
  injection H as <- <- <-.
  destruct (etag_beq e4 eCause) eqn:EC.
  - apply etag_beq_eq in EC. subst e4.
    apply bind_Ok in E5 as [[[c' p7] st7] [E7 E5]]. apply bind_Ok in E5 as [[e8 p8] [E8 E5]].
    injection E5 as -> -> -> ->.
    apply value_s in E7 as [w [wb [C7 [W7 B7]]]]. apply errtag_s in E8 as [eb8 [C8 T8]].
    assert (exists late lb eb9, consumed data p7 p6 (lb ++ eb9) /\ wfield eStack late lb /\ etagged eEnd eb9 /\
      (stk = None \/ late = None) /\ exists l, build_field late st5 = (l, st6) /\ s6 = first_some s l)
      as [late [lb [eb9 [C9 [W9 [T9 [NN [l [B9 FS]]]]]]]]].
    { destruct s as [s|].
      - injection E6 as <- -> <- <-. exists None, [], eb8. split; [exact C8|]. split; [constructor|].
        split; [exact T8|]. split; [auto|]. exists None. split; reflexivity.
      - destruct (field_s _ _ _ _ _ _ _ _ _ _ C8 T8 E6) as [late [lb [eb9 [C9 [W9 [T9 [B9 _]]]]]]].
        exists late, lb, eb9. split; [exact C9|]. split; [exact W9|]. split; [exact T9|].
        split; [|exists s6; split; [exact B9|reflexivity]].
        destruct stk as [[enc x]|]; [|auto]. cbn [build_field] in B4. discriminate B4. }
    exists (WErrorC name msg stk w late), (nb ++ mb ++ sb ++ eb4 ++ wb ++ lb ++ eb9).
    split; [reflexivity|]. split; [repeat (eapply consumed_app; [eassumption|]); exact C9|].
    split; [constructor; auto|]. cbn [build]. rewrite B3, B4. cbn [alloc_rec alloc]. fold (message_of m) in B7.
    rewrite B7. cbn [bind]. rewrite B9, FS. reflexivity.
  - injection E5 as <- <- <- <-.
    assert (s6 = s /\ e4 = eEnd /\ p6 = p4 /\ st6 = mkD (ds_heap st4 ++ [OError (proto_name name) (message_of m) s VNone])
      (ds_log st4 ++ [VRef (length (ds_heap st4))])) as [-> [-> [-> ->]]].
    { destruct s as [s|].
      - injection E6 as <- -> <- <-. auto.
      - unfold dec_field in E6. destruct (etag_beq e4 eStack) eqn:ES.
        + apply etag_beq_eq in ES. exfalso. apply NS; [|exact ES]. destruct stk as [[enc x]|]; [|auto].
          cbn [build_field] in B4. discriminate B4.
        + injection E6 as <- -> <- <-. auto. }
    exists (WError name msg stk), (nb ++ mb ++ sb ++ eb4).
    split; [reflexivity|]. split; [repeat (eapply consumed_app; [eassumption|]); exact Q6|].
    split; [constructor; auto|]. cbn [build]. rewrite B3, B4. cbn [alloc_rec alloc record]. 
    unfold store. cbn [ds_heap ds_log]. f_equal. f_equal. f_equal. rewrite heap_set_last. reflexivity.
Qed.

Lemma pairs_s isk endt : forall f pos acc n st acc' n' p st',
  dec_pairs cfg data rec isk endt f pos acc n st = Ok (acc', n', p, st') ->
  exists ps bs eb, consumed data pos p (bs ++ eb) /\ wprs version ps bs /\ tagged endt eb /\
    n' = n + pcount ps /\ build_pairs cfg ps acc st = Ok (acc', st') /\
    ((forall t, isk t = true -> is_object_key t = true) -> keys_ok ps).
Proof.
  induction f as [|f IH]; intros pos acc n st acc' n' p st' H; [discriminate H|]. cbn [dec_pairs] in H.
  apply bind_Ok in H as [[t p1] [E H]]. apply tag_s in E as [tb [C1 T]].
  destruct (stag_eqb t endt) eqn:ET.
  { apply stag_eqb_eq in ET. subst t. injection H as <- <- <- <-. exists PNil, [], tb.
    split; [exact C1|]. split; [constructor|]. split; [exact T|]. split; [cbn; lia|]. split; [reflexivity|]. intros _. exact Logic.I. }
  destruct (isk t) eqn:IK; [|discriminate H].
  apply bind_Ok in H as [[[k p2] st2] [E2 H]]. destruct (key_ok acc k); cbn [negb] in H; [|discriminate H].
  apply bind_Ok in H as [[[v p3] st3] [E3 H]]. apply bind_Ok in H as [acc2 [E4 H]].
  assert (p1 <= len)%nat as L by (apply consumed_bounds in C1; lia).
  destruct (R t p1 st L _ _ _ E2) as [wk [kb [A2 [C2 [W2 B2]]]]].
  apply value_s in E3 as [wv [vb [C3 [W3 B3]]]].
  apply IH in H as [ps [bs [eb [C4 [W4 [T4 [N4 [B4 K4]]]]]]]].
  exists (PCons wk wv ps), ((tb ++ kb) ++ vb ++ bs), eb.
  split; [rewrite <- !app_assoc; repeat (eapply consumed_app; [eassumption|]); exact C4|].
  split; [constructor; [constructor; [rewrite A2; exact T|exact W2]|exact W3|exact W4]|].
  split; [exact T4|]. split; [cbn [pcount]; lia|].
  split; [rewrite build_pairs_cons, B2; cbn [bind]; rewrite B3; cbn [bind]; rewrite E4; exact B4|].
  intros KT. split; [|auto]. eapply wtag_key; [exact W2|]. rewrite A2. auto.
Qed.
Lemma members_s : forall f pos acc n st acc' n' p st',
  dec_members data rec f pos acc n st = Ok (acc', n', p, st') ->
  exists vs bs eb, consumed data pos p (bs ++ eb) /\ wseq version vs bs /\ tagged kEndJSSet eb /\
    n' = n + vcount vs /\ build_members cfg vs acc st = Ok (acc', st').
Proof.
  induction f as [|f IH]; intros pos acc n st acc' n' p st' H; [discriminate H|]. cbn [dec_members] in H.
  apply bind_Ok in H as [[t p1] [E H]]. apply tag_s in E as [tb [C1 T]].
  destruct (stag_eqb t kEndJSSet) eqn:ET.
  { apply stag_eqb_eq in ET. subst t. injection H as <- <- <- <-. exists VNil, [], tb.
    split; [exact C1|]. split; [constructor|]. split; [exact T|]. split; [cbn; lia|]. reflexivity. }
  apply bind_Ok in H as [[[v p2] st2] [E2 H]]. apply bind_Ok in H as [acc2 [E4 H]].
  assert (p1 <= len)%nat as L by (apply consumed_bounds in C1; lia).
  destruct (R t p1 st L _ _ _ E2) as [wv [vb [A2 [C2 [W2 B2]]]]].
  apply IH in H as [vs [bs [eb [C4 [W4 [T4 [N4 B4]]]]]]].
  exists (VCons wv vs), ((tb ++ vb) ++ bs), eb.
  split; [rewrite <- !app_assoc; repeat (eapply consumed_app; [eassumption|]); exact C4|].
  split; [constructor; [constructor; [rewrite A2; exact T|exact W2]|exact W4]|].
  split; [exact T4|]. split; [cbn [vcount]; lia|].
  rewrite build_members_cons, B2; cbn [bind]; rewrite E4; exact B4.
Qed.
Lemma elems_s count : forall f i pos acc st acc' p st', (pos <= len)%nat ->
  dec_elems cfg data rec f count i pos acc st = Ok (acc', p, st') ->
  exists vs bs, consumed data pos p bs /\ wseq version vs bs /\ count = i + vcount vs /\
    build_elems cfg vs i acc st = Ok (acc', st').
Proof.
  induction f as [|f IH]; intros i pos acc st acc' p st' L H; cbn [dec_elems] in H;
    (destruct (N.eqb_spec i count) as [->|NE];
     [injection H as <- <- <-; exists VNil, []; split; [apply consumed_nil; exact L|];
      split; [constructor|]; split; [cbn; lia|reflexivity]|]).
  - discriminate H.
  - apply bind_Ok in H as [[[v p2] st2] [E2 H]]. apply bind_Ok in H as [acc2 [E4 H]].
    apply value_s in E2 as [wv [vb [C2 [W2 B2]]]].
    assert (p2 <= len)%nat as L2 by (apply consumed_bounds in C2; lia).
    apply IH in H as [vs [bs [C4 [W4 [N4 B4]]]]]; [|exact L2].
    exists (VCons wv vs), (vb ++ bs). split; [eapply consumed_app; eauto|].
    split; [constructor; auto|]. split; [cbn [vcount]; lia|].
    rewrite build_elems_cons, B2; cbn [bind]; rewrite E4; exact B4.
Qed.

Lemma map_s fuel pos st : sound kBeginJSMap pos st (dec_map cfg data rec fuel pos st).
Proof.
  intros v p st' H. unfold dec_map in H. cbn [alloc_rec alloc] in H.
  apply bind_Ok in H as [[[[acc n] p1] st1] [E H]]. apply bind_Ok in H as [p2 [E2 H]]. injection H as <- <- <-.
  apply pairs_s in E as [ps [bs [eb [C [W [T [N [B _]]]]]]]]. apply count_s in E2 as [cb [C2 V]]. subst n.
  exists (WMap ps), (bs ++ eb ++ cb). split; [reflexivity|].
  split; [rewrite app_assoc; eapply consumed_app; eauto|]. split; [constructor; auto|].
  rewrite build_map. cbn [alloc_rec alloc]. rewrite B. reflexivity.
Qed.
Lemma set_s fuel pos st : sound kBeginJSSet pos st (dec_set data rec fuel pos st).
Proof.
  intros v p st' H. unfold dec_set in H. cbn [alloc_rec alloc] in H.
  apply bind_Ok in H as [[[[acc n] p1] st1] [E H]]. apply bind_Ok in H as [p2 [E2 H]]. injection H as <- <- <-.
  apply members_s in E as [ps [bs [eb [C [W [T [N B]]]]]]]. apply count_s in E2 as [cb [C2 V]]. subst n.
  exists (WSet ps), (bs ++ eb ++ cb). split; [reflexivity|].
  split; [rewrite app_assoc; eapply consumed_app; eauto|]. split; [constructor; auto|].
  rewrite build_set. cbn [alloc_rec alloc]. rewrite B. reflexivity.
Qed.
Lemma object_s fuel pos st : sound kBeginJSObject pos st (dec_object cfg data rec fuel pos st).
Proof.
  intros v p st' H. unfold dec_object in H. cbn [alloc_rec alloc] in H.
  apply bind_Ok in H as [[[[acc n] p1] st1] [E H]]. apply bind_Ok in H as [p2 [E2 H]]. injection H as <- <- <-.
  apply pairs_s in E as [ps [bs [eb [C [W [T [N [B K]]]]]]]]. apply count_s in E2 as [cb [C2 V]]. subst n.
  exists (WObject ps), (bs ++ eb ++ cb). split; [reflexivity|].
  split; [rewrite app_assoc; eapply consumed_app; eauto|]. split; [constructor; auto|].
  rewrite build_object. cbn [alloc_rec alloc]. rewrite B. reflexivity.
Qed.
Lemma dense_s fuel pos st : sound kBeginDenseJSArray pos st (dec_dense cfg data rec fuel pos st).
Proof.
  intros v p st' H. unfold dec_dense in H. cbn [alloc_rec alloc] in H.
  apply bind_Ok in H as [[count p0] [E0 H]]. apply bind_Ok in H as [[[acc0 p1] st1] [E1 H]].
  apply bind_Ok in H as [[[[acc n] p2] st2] [E2 H]]. apply bind_Ok in H as [p3 [E3 H]].
  apply bind_Ok in H as [p4 [E4 H]]. injection H as <- <- <-.
  apply varint_s in E0 as [nb [C0 V0]]. 
  assert (p0 <= len)%nat as L by (apply consumed_bounds in C0; lia).
  apply elems_s in E1 as [vs [vb [C1 [W1 [N1 B1]]]]]; [|exact L]. subst count.
  apply pairs_s in E2 as [ps [bs [eb [C2 [W2 [T2 [N2 [B2 K2]]]]]]]]. subst n.
  apply count_s in E3 as [cb [C3 V3]]. apply count_s in E4 as [lb [C4 V4]].
  exists (WDense vs ps), (nb ++ vb ++ bs ++ eb ++ cb ++ lb). split; [reflexivity|].
  split; [do 2 (eapply consumed_app; [eassumption|]); rewrite app_assoc; eapply consumed_app; [eassumption|]; eapply consumed_app; eauto|].
  split; [constructor; auto|].
  rewrite build_dense. cbn [alloc_rec alloc]. rewrite B1. cbn [bind]. rewrite B2. reflexivity.
Qed.
Lemma sparse_s fuel pos st : sound kBeginSparseJSArray pos st (dec_sparse cfg data rec fuel pos st).
Proof.
  intros v p st' H. unfold dec_sparse in H. cbn [alloc_rec alloc] in H.
  apply bind_Ok in H as [[ln p0] [E0 H]]. apply bind_Ok in H as [acc0 [E1 H]].
  apply bind_Ok in H as [[[[acc n] p2] st2] [E2 H]]. apply bind_Ok in H as [p3 [E3 H]].
  apply bind_Ok in H as [p4 [E4 H]]. injection H as <- <- <-.
  apply varint_s in E0 as [nb [C0 V0]].
  apply pairs_s in E2 as [ps [bs [eb [C2 [W2 [T2 [N2 [B2 K2]]]]]]]]. subst n.
  apply count_s in E3 as [cb [C3 V3]]. apply count_s in E4 as [lb [C4 V4]].
  exists (WSparse ln ps), (nb ++ bs ++ eb ++ cb ++ lb). split; [reflexivity|].
  split; [eapply consumed_app; [eassumption|]; rewrite app_assoc; eapply consumed_app; [eassumption|]; eapply consumed_app; eauto|].
  split; [constructor; auto|].
  rewrite build_sparse. cbn [alloc_rec alloc]. rewrite E1. cbn [bind]. rewrite B2. reflexivity.
Qed.
End Rec.

Ltac leaf W :=
  exists W; eexists; split; [reflexivity|]; split; [eassumption|]; split; [|reflexivity].
Theorem dec_sound : forall fuel, rec_sound (dec cfg data version fuel).
Proof.
  induction fuel as [|f IH]; intros t pos st L v p st' H; [discriminate H|].
  cbn [dec] in H.
  assert (forall t0, In t0 [kTheHole; kUndefined; kNull; kTrue; kFalse] -> Ok (c_const cfg t0, pos, st) = Ok (v, p, st') ->
    exists w body, wtag w = t0 /\ consumed data pos p body /\ wbody version w body /\ build cfg w st = Ok (v, st')) as CONST.
  { intros t0 I E. injection E as <- <- <-. exists (WConst t0), []. split; [reflexivity|].
    split; [apply consumed_nil; exact L|]. split; [constructor; exact I|reflexivity]. }
  destruct t; try discriminate H.
  - apply CONST; [cbn; tauto|exact H].
  - apply CONST; [cbn; tauto|exact H].
  - apply CONST; [cbn; tauto|exact H].
  - apply CONST; [cbn; tauto|exact H].
  - apply CONST; [cbn; tauto|exact H].
  - apply bind_Ok in H as [[z p1] [E H]]. injection H as <- <- <-. apply int32_s in E as [bs [C W]].
    leaf (WInt32 z). exact W.
  - apply bind_Ok in H as [[z p1] [E H]]. injection H as <- <- <-. apply uint32_s in E as [bs [C W]].
    leaf (WUint32 z). constructor; exact W.
  - apply bind_Ok in H as [[z p1] [E H]]. injection H as <- <- <-. apply double_s in E as [bs [C W]].
    leaf (WDouble z). constructor; exact W.
  - apply bind_Ok in H as [[z p1] [E H]]. injection H as <- <- <-. apply bigint_s in E as [bs [C W]].
    leaf (WBigInt z). constructor; exact W.
  - apply bind_Ok in H as [[z p1] [E H]]. injection H as <- <- <-. apply utf8_s in E as [lb [bs [C [U V]]]].
    leaf (WStr kUtf8String z). constructor; constructor; auto.
  - apply bind_Ok in H as [[z p1] [E H]]. injection H as <- <- <-. apply onebyte_s in E as [bs [C W]].
    leaf (WStr kOneByteString z). constructor; exact W.
  - apply bind_Ok in H as [[z p1] [E H]]. injection H as <- <- <-. apply twobyte_s in E as [bs [C W]].
    leaf (WStr kTwoByteString z). constructor; exact W.
  - apply reference_s in H. exact H.
  - apply object_s in H; auto.
  - apply sparse_s in H; auto.
  - apply dense_s in H; auto.
  - apply date_s in H. exact H.
  - injection H as <- <- <-. exists (WBoolObj true), []. split; [reflexivity|].
    split; [apply consumed_nil; exact L|]. split; [constructor|reflexivity].
  - injection H as <- <- <-. exists (WBoolObj false), []. split; [reflexivity|].
    split; [apply consumed_nil; exact L|]. split; [constructor|reflexivity].
  - apply bind_Ok in H as [[z p1] [E H]]. injection H as <- <- <-. apply double_s in E as [bs [C W]].
    leaf (WNumObj z). constructor; exact W.
  - apply bind_Ok in H as [[z p1] [E H]]. injection H as <- <- <-. apply bigint_s in E as [bs [C W]].
    leaf (WBigObj z). constructor; exact W.
  - apply bind_Ok in H as [[z p1] [E H]]. injection H as <- <- <-. apply utf8_s in E as [lb [bs [C [U V]]]].
    leaf (WStr kStringObject z). constructor; constructor; auto.
  - apply regexp_s in H; auto.
  - apply map_s in H; auto.
  - apply set_s in H; auto.
  - apply plain_s in H. exact H.
  - apply resizable_s in H. exact H.
  - apply (buffer_id_s _ BufTransfer kArrayBufferTransfer) in H; auto. intros; constructor; auto.
  - apply (buffer_id_s _ BufShared kSharedArrayBuffer) in H; auto. intros; constructor; auto.
  - apply bind_Ok in H as [[z p1] [E H]]. cbn [alloc_rec alloc] in H. injection H as <- <- <-. apply uint32_s in E as [bs [C W]].
    leaf (WSharedObj z). constructor; exact W.
  - destruct (c_host cfg) eqn:HO; [|discriminate H]. apply host_s in H; auto.
  - apply error_s in H; auto.
Qed.
End Sound.

Lemma header_sound data v p : bytes_ok data -> read_header data 0 = Ok (v, p) ->
  13 <= v <= 15 /\ exists tb vb, tagged kVersion tb /\ is_varint vb v /\ consumed data 0 p (tb ++ vb).
Proof.
  intros D H. unfold read_header in H. apply bind_Ok in H as [[t p1] [E H]].
  apply bind_Ok in H as [u [G H]]. apply guard_Ok in G. apply stag_eqb_eq in G. subst t.
  apply bind_Ok in H as [[v' p2] [E2 H]].
  destruct ((kLatestVersion <? v') || (v' <? 13)) eqn:B; [discriminate H|]. injection H as <- <-.
  split; [unfold kLatestVersion in B; lia|].
  apply tag_s in E as [tb [C T]]. apply varint_s in E2 as [vb [C2 V]]; [|exact D].
  exists tb, vb. split; [exact T|]. split; [exact V|]. eapply consumed_app; eauto.
Qed.
Theorem loads_sound cfg data v p h : bytes_ok data -> loads_at cfg data = Ok (v, p, h) ->
  exists w bs rest l, data = bs ++ rest /\ length bs = p /\ document w bs /\ build cfg w ds_empty = Ok (v, mkD h l).
Proof.
  intros D H. unfold loads_at, loads_depth in H. apply bind_Ok in H as [[ver p1] [E H]].
  apply bind_Ok in H as [[[v' p2] st] [E2 H]]. injection H as <- <- <-.
  apply header_sound in E as [VR [tb [vb [T [V C]]]]]; [|exact D].
  destruct (value_s cfg data ver _ (dec_sound cfg data ver D _) _ _ _ _ _ E2) as [w [bs [C2 [W B]]]].
  pose proof (consumed_app _ _ _ _ _ _ C C2) as (pre & post & DE & L & P).
  destruct pre; [|discriminate L]. cbn [app] in DE. exists w, ((tb ++ vb) ++ bs), post, (ds_log st).
  split; [exact DE|]. split; [lia|]. split.
  - exists ver, tb, vb, bs. rewrite <- app_assoc. auto.
  - destruct st. exact B.
Qed.
