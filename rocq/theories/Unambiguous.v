(** Serialized data describes one value: no data can be read in two ways. *)
From Coq Require Import List NArith ZArith Bool Lia ZifyBool ZifyNat ZifyN.
From Verif Require Import Base ModelTags ModelPrim SpecPrim PrimFacts PrimFacts2 PrimFacts3 ModelValue ModelObject
  ModelMap ModelBuffer ModelHeap ModelDecode SpecWire SpecBuild DecodeFacts DecodeSound DecodeComplete.
Import ListNotations.
Open Scope N_scope.

(** * Parts that a reader determines *)
Lemma same_split {A} (a a' r r' : list A) : a ++ r = a' ++ r' -> length a = length a' -> a = a' /\ r = r'.
Proof.
  revert a'. induction a as [|x a IH]; intros [|y a'] E L; try discriminate L; cbn in *; auto.
  injection E as -> E. injection L as L. destruct (IH _ E L). subst. auto.
Qed.
Lemma at_start bs r : sits (bs ++ r) 0 bs r.
Proof. exists []. auto. Qed.
Lemma read_same {A} (f : bytes -> result (A * nat)) a a' bs bs' r r' :
  f (bs ++ r) = Ok (a, (0 + length bs)%nat) -> f (bs' ++ r') = Ok (a', (0 + length bs')%nat) -> bs ++ r = bs' ++ r' ->
  a = a' /\ bs = bs' /\ r = r'.
Proof.
  intros E E' Q. rewrite Q, E' in E. injection E as -> L. split; auto. apply same_split; auto.
Qed.
Lemma tag_same t t' bs bs' r r' : t <> kPadding -> t' <> kPadding -> tagged t bs -> tagged t' bs' -> bs ++ r = bs' ++ r' ->
  t = t' /\ bs = bs' /\ r = r'.
Proof.
  intros N N' T T'. apply (read_same (fun d => read_tag d 0)); eapply tag_c; eauto using at_start.
Qed.
Lemma end_same t bs bs' r r' : tagged t bs -> tagged t bs' -> bs ++ r = bs' ++ r' -> t <> kPadding -> bs = bs' /\ r = r'.
Proof. intros T T' E N. destruct (tag_same t t bs bs' r r') as (_ & -> & ->); auto. Qed.
Lemma varint_same n n' bs bs' r r' : is_varint bs n -> is_varint bs' n' -> bs ++ r = bs' ++ r' -> n = n' /\ bs = bs' /\ r = r'.
Proof. intros V V'. apply (read_same (fun d => read_varint d 0 0)); eapply varint_c; eauto using at_start. Qed.
Lemma etag_same e e' bs bs' r r' : etagged e bs -> etagged e' bs' -> bs ++ r = bs' ++ r' -> e = e' /\ bs = bs' /\ r = r'.
Proof. intros V V'. apply (read_same (fun d => read_error_tag d 0)); eapply errtag_c; eauto using at_start. Qed.
Lemma double_same b b' bs bs' r r' : wdouble b bs -> wdouble b' bs' -> bs ++ r = bs' ++ r' -> b = b' /\ bs = bs' /\ r = r'.
Proof. intros V V'. apply (read_same (fun d => read_double d 0)); eapply double_c; eauto using at_start. Qed.
Lemma bigint_same b b' bs bs' r r' : wbigint b bs -> wbigint b' bs' -> bs ++ r = bs' ++ r' -> b = b' /\ bs = bs' /\ r = r'.
Proof. intros V V'. apply (read_same (fun d => read_bigint d 0)); eapply bigint_c; eauto using at_start. Qed.
Lemma string_same enc s s' bs bs' r r' : wstring enc s bs -> wstring enc s' bs' -> bs ++ r = bs' ++ r' -> s = s' /\ bs = bs' /\ r = r'.
Proof.
  intros V V'. pose proof (string_body_c _ _ _ _ _ _ V (at_start bs r)) as E.
  pose proof (string_body_c _ _ _ _ _ _ V' (at_start bs' r')) as E'.
  apply (read_same (fun d => match enc with kOneByteString => read_onebyte d 0 | kTwoByteString => read_twobyte d 0 | _ => read_utf8 d 0 end)); auto.
Qed.
Lemma varint32_same n n' bs bs' r r' : varint32 n bs -> varint32 n' bs' -> bs ++ r = bs' ++ r' -> n = n' /\ bs = bs' /\ r = r'.
Proof. intros [V _] [V' _]. apply varint_same; auto. Qed.
Lemma int32_same z z' bs bs' r r' : (-2 ^ 31 <= z < 2 ^ 31)%Z -> (-2 ^ 31 <= z' < 2 ^ 31)%Z ->
  varint32 (Z.to_N (if z <? 0 then -2 * z - 1 else 2 * z)%Z) bs -> varint32 (Z.to_N (if z' <? 0 then -2 * z' - 1 else 2 * z')%Z) bs' ->
  bs ++ r = bs' ++ r' -> z = z' /\ bs = bs' /\ r = r'.
Proof. intros R R' V V'. apply (read_same (fun d => read_int32 d 0)); eapply int32_c; eauto using at_start. Qed.

Lemma wstring_enc enc s bs : wstring enc s bs -> tag_in enc JS_STRING_TAGS = true.
Proof. intros []; reflexivity. Qed.
Lemma string_tag enc : tag_in enc JS_STRING_TAGS = true -> enc <> kPadding.
Proof. intros E ->. discriminate E. Qed.
Lemma tagged_string_same enc enc' s s' tb tb' bs bs' r r' : tagged enc tb -> tagged enc' tb' -> wstring enc s bs -> wstring enc' s' bs' ->
  tb ++ bs ++ r = tb' ++ bs' ++ r' -> enc = enc' /\ s = s' /\ tb = tb' /\ bs = bs' /\ r = r'.
Proof.
  intros T T' W W' E. destruct (tag_same _ _ _ _ _ _ (string_tag _ (wstring_enc _ _ _ W)) (string_tag _ (wstring_enc _ _ _ W')) T T' E) as (-> & -> & E2).
  destruct (string_same _ _ _ _ _ _ _ W W' E2) as (-> & -> & ->). auto 6.
Qed.

(** * Views *)
Lemma view_same version v v' bs bs' r r' : wviewb version v bs -> wviewb version v' bs' -> bs ++ r = bs' ++ r' ->
  (v = None -> no_view r) -> (v' = None -> no_view r') -> v = v' /\ bs = bs' /\ r = r'.
Proof.
  intros W W' E N N'. destruct W as [|t off len flags tb ob lb fb VT VO VL VF VZ];
    destruct W' as [|t' off' len' flags' tb' ob' lb' fb' VT' VO' VL' VF' VZ'].
  - auto.
  - exfalso. apply (N eq_refl). cbn [app] in E. rewrite E. reflexivity.
  - exfalso. apply (N' eq_refl). cbn [app] in E. rewrite <- E. reflexivity.
  - rewrite <- !app_comm_cons, <- !app_assoc in E. apply (f_equal (@tl _)) in E. cbn [tl] in E.
    destruct (varint_same _ _ _ _ _ _ VT VT' E) as (Et & -> & E1).
    assert (Some t = Some t') as X by (rewrite <- !vtag_of_code_tag, Et; reflexivity). injection X as <-.
    destruct (varint32_same _ _ _ _ _ _ VO VO' E1) as (-> & -> & E2).
    destruct (varint32_same _ _ _ _ _ _ VL VL' E2) as (-> & -> & E3).
    destruct (N.le_gt_cases 14 version) as [G|G].
    + destruct (varint_same _ _ _ _ _ _ (VF G) (VF' G) E3) as (-> & -> & ->). auto.
    + destruct (VZ G) as [-> ->]. destruct (VZ' G) as [-> ->]. cbn [app] in E3. auto.
Qed.

(** * Fields of errors *)
(** The data goes on with a field other than [e]. *)
Definition other_field (e : etag) (r : bytes) : Prop := exists e0 eb r0, e0 <> e /\ etagged e0 eb /\ r = eb ++ r0.
Lemma field_same e f f' bs bs' r r' : wfield e f bs -> wfield e f' bs' -> bs ++ r = bs' ++ r' ->
  other_field e r -> other_field e r' -> f = f' /\ bs = bs' /\ r = r'.
Proof.
  intros W W' E (e0 & eb0 & r0 & N & T & ->) (e0' & eb0' & r0' & N' & T' & ->).
  destruct W as [|enc s eb tb bs V TG WS]; destruct W' as [|enc' s' eb' tb' bs' V' TG' WS'].
  - auto.
  - exfalso. cbn [app] in E. rewrite <- !app_assoc in E. destruct (etag_same _ _ _ _ _ _ T V' E) as (X & _). auto.
  - exfalso. cbn [app] in E. rewrite <- !app_assoc in E. destruct (etag_same _ _ _ _ _ _ V T' E) as (X & _). auto.
  - rewrite <- !app_assoc in E. destruct (etag_same _ _ _ _ _ _ V V' E) as (_ & -> & E1).
    destruct (tagged_string_same _ _ _ _ _ _ _ _ _ _ TG TG' WS WS' E1) as (-> & -> & -> & -> & ->). auto.
Qed.
Lemma proto_same e e' bs bs' r r' : wproto e bs -> wproto e' bs' -> bs ++ r = bs' ++ r' ->
  (exists x xb r0, In x [eMessage; eStack; eCause; eEnd] /\ etagged x xb /\ r = xb ++ r0) ->
  (exists x xb r0, In x [eMessage; eStack; eCause; eEnd] /\ etagged x xb /\ r' = xb ++ r0) -> e = e' /\ bs = bs' /\ r = r'.
Proof.
  intros W W' E (x & xb & r0 & N & T & ->) (x' & xb' & r0' & N' & T' & ->).
  destruct W as [|e bs I V]; destruct W' as [|e' bs' I' V'].
  - auto.
  - exfalso. destruct (etag_same _ _ _ _ _ _ T V' E) as (X & _). subst x. cbn in *. intuition congruence.
  - exfalso. destruct (etag_same _ _ _ _ _ _ V T' E) as (X & _). subst e. cbn in *. intuition congruence.
  - destruct (etag_same _ _ _ _ _ _ V V' E) as (-> & -> & ->). auto.
Qed.
(** What the rest of an error's fields starts with. *)
Lemma field_start e f bs r (l : list etag) : wfield e f bs ->
  (exists x xb r0, In x l /\ etagged x xb /\ r = xb ++ r0) -> exists x xb r0, In x (e :: l) /\ etagged x xb /\ bs ++ r = xb ++ r0.
Proof.
  intros W (x & xb & r0 & I & T & ->). destruct W as [|enc s eb tb bs V TG WS].
  - exists x, xb, r0. cbn; auto.
  - exists e, eb, ((tb ++ bs) ++ xb ++ r0). rewrite <- !app_assoc. cbn; auto.
Qed.
Lemma one_start e bs r : etagged e bs -> exists x xb r0, In x [e] /\ etagged x xb /\ bs ++ r = xb ++ r0.
Proof. intros T. exists e, bs, r. cbn; auto. Qed.
Lemma start_other e r l : ~ In e l -> (exists x xb r0, In x l /\ etagged x xb /\ r = xb ++ r0) -> other_field e r.
Proof. intros N (x & xb & r0 & I & T & ->). exists x, xb, r0. split; auto. intros ->. auto. Qed.

(** * Values *)
Lemma wtag_padding version w body : wbody version w body -> wtag w <> kPadding.
Proof. intros W E. apply wtag_value in W. rewrite E in W. discriminate W. Qed.
(** The data goes on with the end of a container. *)
Definition ends (r : bytes) : Prop := exists t tb r0, value_tag t = false /\ t <> kPadding /\ t <> kArrayBufferView /\ tagged t tb /\ r = tb ++ r0.

Section Values.
Variable version : N.
Definition one (w : wval) : Prop := forall bs w' bs' r r', wire version w bs -> wire version w' bs' -> bs ++ r = bs' ++ r' ->
  follows w r -> follows w' r' -> w = w' /\ bs = bs' /\ r = r'.
Definition ones (vs : wvals) : Prop := forall bs vs' bs' r r', wseq version vs bs -> wseq version vs' bs' -> bs ++ r = bs' ++ r' ->
  no_view r -> no_view r' -> vcount vs = vcount vs' \/ (ends r /\ ends r') -> vs = vs' /\ bs = bs' /\ r = r'.
Definition onesp (ps : wpairs) : Prop := forall bs ps' bs' r r', wprs version ps bs -> wprs version ps' bs' -> bs ++ r = bs' ++ r' ->
  ends r -> ends r' -> ps = ps' /\ bs = bs' /\ r = r'.

Lemma ends_no_view r : ends r -> no_view r.
Proof. intros (t & tb & r0 & _ & _ & N & T & ->). eapply no_view_tagged; eauto. Qed.
Lemma ends_tag t tb r : In t [kEndJSMap; kEndJSSet; kEndJSObject; kEndDenseJSArray; kEndSparseJSArray] -> tagged t tb -> ends (tb ++ r).
Proof. intros I T. exists t, tb, r. cbn in I. repeat (destruct I as [<-|I]; [repeat split; auto; discriminate|]). destruct I. Qed.
Lemma not_end w bs r r' : wire version w bs -> bs ++ r = r' -> ends r' -> False.
Proof.
  intros W E (t & tb & r0 & V & N & _ & T & ->). destruct W as [w tb' bs T' B]. rewrite <- app_assoc in E.
  destruct (tag_same _ _ _ _ _ _ (wtag_padding _ _ _ B) N T' T E) as (X & _).
  apply wtag_value in B. rewrite X, V in B. discriminate B.
Qed.

Lemma follows_closed w r : no_view r -> follows w r. Proof. intros N _. exact N. Qed.
Lemma seq_one w l : one w -> ones l -> ones (VCons w l).
Proof.
  intros IW IL bs vs' bs' r r' W W' E N N' C. inversion W as [|? ? a b Wa Wb]; subst. inversion W' as [|w2 l2 a' b' Wa' Wb']; subst.
  - exfalso. destruct C as [C|[_ C]]; [cbn [vcount] in C; lia|]. cbn [app] in E. rewrite <- app_assoc in E. eapply not_end; [exact Wa|exact E|auto].
  - rewrite <- !app_assoc in E. destruct (IW _ _ _ _ _ Wa Wa' E) as (-> & -> & E2).
    { apply follows_closed. eapply no_view_seq; eauto. } { apply follows_closed. eapply no_view_seq; eauto. }
    destruct (IL _ _ _ _ _ Wb Wb' E2 N N') as (-> & -> & ->); auto.
    destruct C as [C|C]; [left; cbn [vcount] in C; lia|right; auto].
Qed.
Lemma pairs_one k v l : one k -> one v -> onesp l -> onesp (PCons k v l).
Proof.
  intros IK IV IL bs ps' bs' r r' W W' E N N'. inversion W as [|? ? ? a b c Wa Wb Wc]; subst.
  inversion W' as [|k2 v2 l2 a' b' c' Wa' Wb' Wc']; subst.
  - exfalso. cbn [app] in E. rewrite <- app_assoc in E. eapply not_end; [exact Wa|exact E|auto].
  - rewrite <- !app_assoc in E. destruct (IK _ _ _ _ _ Wa Wa' E) as (-> & -> & E2).
    { apply follows_closed. eapply no_view_wire; eauto. } { apply follows_closed. eapply no_view_wire; eauto. }
    destruct (IV _ _ _ _ _ Wb Wb' E2) as (-> & -> & E3).
    { apply follows_closed. eapply no_view_pairs; eauto. apply ends_no_view; auto. }
    { apply follows_closed. eapply no_view_pairs; eauto. apply ends_no_view; auto. }
    destruct (IL _ _ _ _ _ Wc Wc' E3 N N') as (-> & -> & ->); auto.
Qed.

(** It is enough to compare values that start with the same tag. *)
Lemma one_body w : (forall body w' body' r r', wtag w = wtag w' -> wbody version w body -> wbody version w' body' -> body ++ r = body' ++ r' ->
  follows w r -> follows w' r' -> w = w' /\ body = body' /\ r = r') -> one w.
Proof.
  intros C bs w' bs' r r' W W' E F F'. destruct W as [w tb body T B]. destruct W' as [w' tb' body' T' B'].
  rewrite <- !app_assoc in E.
  destruct (tag_same _ _ _ _ _ _ (wtag_padding _ _ _ B) (wtag_padding _ _ _ B') T T' E) as (ET & -> & E2).
  destruct (C _ _ _ _ _ ET B B' E2 F F') as (-> & -> & ->). auto.
Qed.
Lemma const_tag t body : wbody version (WConst t) body -> In t [kTheHole; kUndefined; kNull; kTrue; kFalse] /\ body = [].
Proof. intros W. inversion W; subst. auto. Qed.

(** The fields of an error before its cause. *)
Lemma head_same n n' m m' s s' nb nb' mb mb' sb sb' r r' : wproto n nb -> wproto n' nb' -> wfield eMessage m mb -> wfield eMessage m' mb' ->
  wfield eStack s sb -> wfield eStack s' sb' -> nb ++ mb ++ sb ++ r = nb' ++ mb' ++ sb' ++ r' ->
  (exists xb r0, etagged eEnd xb /\ r = xb ++ r0) \/ (exists xb r0, etagged eCause xb /\ r = xb ++ r0) ->
  (exists xb r0, etagged eEnd xb /\ r' = xb ++ r0) \/ (exists xb r0, etagged eCause xb /\ r' = xb ++ r0) ->
  n = n' /\ m = m' /\ s = s' /\ nb = nb' /\ mb = mb' /\ sb = sb' /\ r = r'.
Proof.
  intros WN WN' WM WM' WS WS' E X X'.
  assert (A : forall r, (exists xb r0, etagged eEnd xb /\ r = xb ++ r0) \/ (exists xb r0, etagged eCause xb /\ r = xb ++ r0) ->
    exists x xb r0, In x [eCause; eEnd] /\ etagged x xb /\ r = xb ++ r0).
  { intros q [(xb & r0 & T & ->)|(xb & r0 & T & ->)]; [exists eEnd, xb, r0|exists eCause, xb, r0]; cbn; auto. }
  apply A in X. apply A in X'. clear A.
  pose proof (field_start _ _ _ _ _ WS X) as Y. pose proof (field_start _ _ _ _ _ WS' X') as Y'.
  pose proof (field_start _ _ _ _ _ WM Y) as Q. pose proof (field_start _ _ _ _ _ WM' Y') as Q'.
  destruct (proto_same _ _ _ _ _ _ WN WN' E Q Q') as (-> & -> & E2).
  assert (O : ~ In eMessage [eStack; eCause; eEnd]) by (cbn; intuition discriminate).
  destruct (field_same _ _ _ _ _ _ _ WM WM' E2 (start_other _ _ _ O Y) (start_other _ _ _ O Y')) as (-> & -> & E3).
  assert (O2 : ~ In eStack [eCause; eEnd]) by (cbn; intuition discriminate).
  destruct (field_same _ _ _ _ _ _ _ WS WS' E3 (start_other _ _ _ O2 X) (start_other _ _ _ O2 X')) as (-> & -> & E4).
  auto 8.
Qed.
Lemma error_parts w body : kError = wtag w -> wbody version w body ->
  (exists n m s, w = WError n m s) \/ (exists n m s c l, w = WErrorC n m s c l).
Proof.
  intros ET B. destruct w as [t'| | | | |enc' s'|[] | | | | | | | | | | | |[] v'| | |]; cbn [wtag] in ET; try discriminate ET; eauto 8.
  - exfalso. subst. apply const_tag in B as [B _]. cbn in B. intuition discriminate.
  - exfalso. apply str_body in B. subst. inversion B.
Qed.

(** The only values with the tag of a given one. *)
Ltac pick w' ET B' := destruct w' as [t'| | | | |enc' s'|[] | | | | | | | | | | | |[] v'| | |]; cbn [wtag] in ET; try discriminate ET;
  try (exfalso; apply const_tag in B' as [B' _]; cbn in B'; subst; intuition discriminate);
  try (exfalso; apply str_body in B'; subst; inversion B'; fail).

Theorem values_one : (forall w, one w) /\ (forall vs, ones vs) /\ (forall ps, onesp ps).
Proof.
  apply wval_mutind.
  - (* constants *) intros t. apply one_body. intros body w' body' r r' ET B B' E F F'. apply const_tag in B as [I ->].
    assert (w' = WConst t) as ->.
    { cbn [wtag] in ET. destruct w' as [t'| | | | |enc' s'|[] | | | | | | | | | | | |[] v'| | |]; cbn [wtag] in ET; subst t;
        try (exfalso; cbn in I; intuition discriminate); auto. exfalso. apply str_body in B'. apply wstring_enc in B'.
      repeat (destruct I as [<-|I]; [discriminate B'|]). destruct I. }
    apply const_tag in B' as [_ ->]. auto.
  - intros z. apply one_body. intros body w' body' r r' ET B B' E F F'. pick w' ET B'. inversion B; inversion B'; subst.
    eapply int32_same in E as (-> & -> & ->); eauto.
  - intros z. apply one_body. intros body w' body' r r' ET B B' E F F'. pick w' ET B'. inversion B; inversion B'; subst.
    eapply varint32_same in E as (-> & -> & ->); eauto.
  - intros z. apply one_body. intros body w' body' r r' ET B B' E F F'. pick w' ET B'. inversion B; inversion B'; subst.
    eapply double_same in E as (-> & -> & ->); eauto.
  - intros z. apply one_body. intros body w' body' r r' ET B B' E F F'. pick w' ET B'. inversion B; inversion B'; subst.
    eapply bigint_same in E as (-> & -> & ->); eauto.
  - intros enc s. apply one_body. intros body w' body' r r' ET B B' E F F'. apply str_body in B.
    assert (exists s', w' = WStr enc s') as [s' ->].
    { pose proof (wstring_enc _ _ _ B) as I. cbn [wtag] in ET. subst enc.
      destruct w' as [t'| | | | |enc' s'|[] | | | | | | | | | | | |[] v'| | |]; cbn [wtag] in I; try discriminate I; [|eauto].
      exfalso. apply const_tag in B' as [B' _]. repeat (destruct B' as [<-|B']; [discriminate I|]). destruct B'. }
    apply str_body in B'. destruct (string_same _ _ _ _ _ _ _ B B' E) as (-> & -> & ->). auto.
  - intros b. apply one_body. intros body w' body' r r' ET B B' E F F'.  assert (w' = WBoolObj b) as -> by (destruct b; pick w' ET B'; auto). inversion B; inversion B'; subst. auto.
  - intros z. apply one_body. intros body w' body' r r' ET B B' E F F'.  pick w' ET B'. inversion B; inversion B'; subst.
    eapply double_same in E as (-> & -> & ->); eauto.
  - intros z. apply one_body. intros body w' body' r r' ET B B' E F F'.  pick w' ET B'. inversion B; inversion B'; subst.
    eapply bigint_same in E as (-> & -> & ->); eauto.
  - intros z. apply one_body. intros body w' body' r r' ET B B' E F F'.  pick w' ET B'. inversion B; inversion B'; subst.
    eapply double_same in E as (-> & -> & ->); eauto.
  - (* regular expressions *) intros enc s fl. apply one_body. intros body w' body' r r' ET B B' E F F'.  pick w' ET B'.
    inversion B as [| | | | | | | | | |? ? ? tb sb fb T W V| | | | | | | | | | |]; inversion B' as [| | | | | | | | | |? ? ? tb' sb' fb' T' W' V'| | | | | | | | | | |]; subst.
    rewrite <- !app_assoc in E. destruct (tagged_string_same _ _ _ _ _ _ _ _ _ _ T T' W W' E) as (-> & -> & -> & -> & E2).
    destruct (varint_same _ _ _ _ _ _ V V' E2) as (-> & -> & ->). auto.
  - (* maps *) intros ps IH. apply one_body. intros body w' body' r r' ET B B' E F F'.  pick w' ET B'.
    inversion B as [| | | | | | | | | | |? bs eb cb W T V| | | | | | | | | |]; inversion B' as [| | | | | | | | | | |? bs' eb' cb' W' T' V'| | | | | | | | | |]; subst.
    rewrite <- !app_assoc in E. destruct (IH _ _ _ _ _ W W' E) as (-> & -> & E2); try (eapply ends_tag; eauto; cbn; tauto).
    destruct (end_same _ _ _ _ _ T T' E2) as (-> & E3); [discriminate|].
    destruct (varint_same _ _ _ _ _ _ V V' E3) as (_ & -> & ->). auto.
  - (* sets *) intros vs IH. apply one_body. intros body w' body' r r' ET B B' E F F'.  pick w' ET B'.
    inversion B as [| | | | | | | | | | | |? bs eb cb W T V| | | | | | | | |]; inversion B' as [| | | | | | | | | | | |? bs' eb' cb' W' T' V'| | | | | | | | |]; subst.
    rewrite <- !app_assoc in E.
    assert (ends (eb ++ cb ++ r)) as X by (eapply ends_tag; eauto; cbn; tauto).
    assert (ends (eb' ++ cb' ++ r')) as X' by (eapply ends_tag; eauto; cbn; tauto).
    destruct (IH _ _ _ _ _ W W' E) as (-> & -> & E2); auto using ends_no_view.
    destruct (end_same _ _ _ _ _ T T' E2) as (-> & E3); [discriminate|].
    destruct (varint_same _ _ _ _ _ _ V V' E3) as (_ & -> & ->). auto.
  - (* objects *) intros ps IH. apply one_body. intros body w' body' r r' ET B B' E F F'.  pick w' ET B'.
    inversion B as [| | | | | | | | | | | | |? bs eb cb W K T V| | | | | | | |]; inversion B' as [| | | | | | | | | | | | |? bs' eb' cb' W' K' T' V'| | | | | | | |]; subst.
    rewrite <- !app_assoc in E. destruct (IH _ _ _ _ _ W W' E) as (-> & -> & E2); try (eapply ends_tag; eauto; cbn; tauto).
    destruct (end_same _ _ _ _ _ T T' E2) as (-> & E3); [discriminate|].
    destruct (varint_same _ _ _ _ _ _ V V' E3) as (_ & -> & ->). auto.
  - (* dense arrays *) intros vs IV ps IP. apply one_body. intros body w' body' r r' ET B B' E F F'.  pick w' ET B'.
    inversion B as [| | | | | | | | | | | | | |? ? nb vb pb eb cb lb V1 W1 W2 K T V2 V3| | | | | | |];
      inversion B' as [| | | | | | | | | | | | | |? ? nb' vb' pb' eb' cb' lb' V1' W1' W2' K' T' V2' V3'| | | | | | |]; subst.
    rewrite <- !app_assoc in E. destruct (varint_same _ _ _ _ _ _ V1 V1' E) as (C & -> & E1).
    assert (ends (eb ++ cb ++ lb ++ r)) as X by (eapply ends_tag; eauto; cbn; tauto).
    assert (ends (eb' ++ cb' ++ lb' ++ r')) as X' by (eapply ends_tag; eauto; cbn; tauto).
    destruct (IV _ _ _ _ _ W1 W1' E1) as (-> & -> & E2); auto.
    { eapply no_view_pairs; eauto using ends_no_view. } { eapply no_view_pairs; eauto using ends_no_view. }
    destruct (IP _ _ _ _ _ W2 W2' E2) as (-> & -> & E3); auto.
    destruct (end_same _ _ _ _ _ T T' E3) as (-> & E4); [discriminate|].
    destruct (varint_same _ _ _ _ _ _ V2 V2' E4) as (_ & -> & E5).
    destruct (varint_same _ _ _ _ _ _ V3 V3' E5) as (_ & -> & ->). auto.
  - (* sparse arrays *) intros len ps IP. apply one_body. intros body w' body' r r' ET B B' E F F'.  pick w' ET B'.
    inversion B as [| | | | | | | | | | | | | | |? ? nb pb eb cb lb V1 W2 K T V2 V3| | | | | |];
      inversion B' as [| | | | | | | | | | | | | | |? ? nb' pb' eb' cb' lb' V1' W2' K' T' V2' V3'| | | | | |]; subst.
    rewrite <- !app_assoc in E. destruct (varint_same _ _ _ _ _ _ V1 V1' E) as (-> & -> & E1).
    assert (ends (eb ++ cb ++ lb ++ r)) as X by (eapply ends_tag; eauto; cbn; tauto).
    assert (ends (eb' ++ cb' ++ lb' ++ r')) as X' by (eapply ends_tag; eauto; cbn; tauto).
    destruct (IP _ _ _ _ _ W2 W2' E1) as (-> & -> & E3); auto.
    destruct (end_same _ _ _ _ _ T T' E3) as (-> & E4); [discriminate|].
    destruct (varint_same _ _ _ _ _ _ V2 V2' E4) as (_ & -> & E5).
    destruct (varint_same _ _ _ _ _ _ V3 V3' E5) as (_ & -> & ->). auto.
  - (* errors *) intros name msg stack. apply one_body. intros body w' body' r r' ET B B' E F F'. 
    pose proof (error_parts _ _ ET B') as [(n' & m' & s' & ->)|(n' & m' & s' & c' & l' & ->)].
    + inversion B as [| | | | | | | | | | | | | | | |? ? ? nb mb sb eb WN WM WS WE| | | | |];
        inversion B' as [| | | | | | | | | | | | | | | |? ? ? nb' mb' sb' eb' WN' WM' WS' WE'| | | | |]; subst.
      rewrite <- !app_assoc in E.
      destruct (head_same _ _ _ _ _ _ _ _ _ _ _ _ _ _ WN WN' WM WM' WS WS' E) as (-> & -> & -> & -> & -> & -> & E2).
      { left. exists eb, r. auto. } { left. exists eb', r'. auto. }
      destruct (etag_same _ _ _ _ _ _ WE WE' E2) as (_ & -> & ->). auto.
    + exfalso. inversion B as [| | | | | | | | | | | | | | | |? ? ? nb mb sb eb WN WM WS WE| | | | |];
        inversion B' as [| | | | | | | | | | | | | | | | |? ? ? ? ? nb' mb' sb' tb' cb' lb' eb' WN' WM' WS' WT' WC' WL' O' WE'| | | |]; subst.
      rewrite <- !app_assoc in E.
      destruct (head_same _ _ _ _ _ _ _ _ _ _ _ _ _ _ WN WN' WM WM' WS WS' E) as (_ & _ & _ & _ & _ & _ & E2).
      { left. exists eb, r. auto. } { right. exists tb', (cb' ++ lb' ++ eb' ++ r'). auto. }
      destruct (etag_same _ _ _ _ _ _ WE WT' E2) as (X & _). discriminate X.
  - (* errors with a cause *) intros name msg stack c IH late. apply one_body. intros body w' body' r r' ET B B' E F F'. 
    pose proof (error_parts _ _ ET B') as [(n' & m' & s' & ->)|(n' & m' & s' & c' & l' & ->)].
    + exfalso. inversion B' as [| | | | | | | | | | | | | | | |? ? ? nb' mb' sb' eb' WN' WM' WS' WE'| | | | |];
        inversion B as [| | | | | | | | | | | | | | | | |? ? ? ? ? nb mb sb tb cb lb eb WN WM WS WT WC WL O WE| | | |]; subst.
      rewrite <- !app_assoc in E.
      destruct (head_same _ _ _ _ _ _ _ _ _ _ _ _ _ _ WN WN' WM WM' WS WS' E) as (_ & _ & _ & _ & _ & _ & E2).
      { right. exists tb, (cb ++ lb ++ eb ++ r). auto. } { left. exists eb', r'. auto. }
      destruct (etag_same _ _ _ _ _ _ WT WE' E2) as (X & _). discriminate X.
    + inversion B' as [| | | | | | | | | | | | | | | | |? ? ? ? ? nb' mb' sb' tb' cb' lb' eb' WN' WM' WS' WT' WC' WL' O' WE'| | | |];
        inversion B as [| | | | | | | | | | | | | | | | |? ? ? ? ? nb mb sb tb cb lb eb WN WM WS WT WC WL O WE| | | |]; subst.
      rewrite <- !app_assoc in E.
      destruct (head_same _ _ _ _ _ _ _ _ _ _ _ _ _ _ WN WN' WM WM' WS WS' E) as (-> & -> & -> & -> & -> & -> & E2).
      { right. exists tb, (cb ++ lb ++ eb ++ r). auto. } { right. exists tb', (cb' ++ lb' ++ eb' ++ r'). auto. }
      destruct (etag_same _ _ _ _ _ _ WT WT' E2) as (_ & -> & E3).
      assert (NV : forall l lb eb r, wfield eStack l lb -> etagged eEnd eb -> no_view (lb ++ eb ++ r)).
      { intros l x y z Wl We. destruct Wl as [|? ? ? ? ? We2]; [cbn [app]; eapply no_view_etagged; exact We|]. rewrite <- app_assoc. eapply no_view_etagged; exact We2. }
      destruct (IH _ _ _ _ _ WC WC' E3) as (-> & -> & E4); try (apply follows_closed; eapply NV; eauto).
      destruct (field_same _ _ _ _ _ _ _ WL WL' E4) as (-> & -> & E5).
      { exists eEnd, eb, r. split; [discriminate|auto]. } { exists eEnd, eb', r'. split; [discriminate|auto]. }
      destruct (etag_same _ _ _ _ _ _ WE WE' E5) as (_ & -> & ->). auto.
  - (* buffers *) intros b v. apply one_body. intros body w' body' r r' ET B B' E F F'. 
    assert (exists b' v', w' = WBuf b' v') as (b' & v' & ->) by (destruct b; pick w' ET B'; eauto).
    inversion B as [| | | | | | | | | | | | | | | | | |? ? bb vb WB WV| | |]; inversion B' as [| | | | | | | | | | | | | | | | | |? ? bb' vb' WB' WV'| | |]; subst.
    rewrite <- !app_assoc in E.
    assert (b = b' /\ bb = bb' /\ vb ++ r = vb' ++ r') as (-> & -> & E2).
    { destruct WB as [d lb V D|d mx lb mb V VM LE D|id x V|id x V]; destruct WB' as [d' lb' V' D'|d' mx' lb' mb' V' VM' LE' D'|id' x' V'|id' x' V']; try discriminate ET.
      - rewrite <- !app_assoc in E. destruct (varint32_same _ _ _ _ _ _ V V' E) as (L & -> & E2).
        destruct (same_split _ _ _ _ E2) as [-> E3]; [unfold lenN in L; lia|]. auto.
      - rewrite <- !app_assoc in E. destruct (varint32_same _ _ _ _ _ _ V V' E) as (L & -> & E2).
        destruct (varint32_same _ _ _ _ _ _ VM VM' E2) as (-> & -> & E3).
        destruct (same_split _ _ _ _ E3) as [-> E4]; [unfold lenN in L; lia|]. auto.
      - destruct (varint32_same _ _ _ _ _ _ V V' E) as (-> & -> & E2). auto.
      - destruct (varint32_same _ _ _ _ _ _ V V' E) as (-> & -> & E2). auto. }
    destruct (view_same _ _ _ _ _ _ _ WV WV' E2) as (-> & -> & ->); auto.
    { intros ->. apply F. exact I. } { intros ->. apply F'. exact I. }
  - (* references *) intros id v. apply one_body. intros body w' body' r r' ET B B' E F F'.  pick w' ET B'.
    inversion B as [| | | | | | | | | | | | | | | | | | |? ? ib vb WI WV| |]; inversion B' as [| | | | | | | | | | | | | | | | | | |? ? ib' vb' WI' WV'| |]; subst.
    rewrite <- !app_assoc in E. destruct (varint_same _ _ _ _ _ _ WI WI' E) as (-> & -> & E2).
    destruct (view_same _ _ _ _ _ _ _ WV WV' E2) as (-> & -> & ->); auto.
    { intros ->. apply F. exact I. } { intros ->. apply F'. exact I. }
  - intros z. apply one_body. intros body w' body' r r' ET B B' E F F'.  pick w' ET B'. inversion B; inversion B'; subst.
    eapply varint32_same in E as (-> & -> & ->); eauto.
  - (* host objects *) intros code d. apply one_body. intros body w' body' r r' ET B B' E F F'.  pick w' ET B'.
    inversion B as [| | | | | | | | | | | | | | | | | | | | |? ? cb lb V1 V2 D]; inversion B' as [| | | | | | | | | | | | | | | | | | | | |? ? cb' lb' V1' V2' D']; subst.
    rewrite <- !app_assoc in E. destruct (varint32_same _ _ _ _ _ _ V1 V1' E) as (-> & -> & E2).
    destruct (varint32_same _ _ _ _ _ _ V2 V2' E2) as (L & -> & E3).
    destruct (same_split _ _ _ _ E3) as [-> E4]; [unfold lenN in L; lia|]. auto.
  - (* no elements *) intros bs vs' bs' r r' W W' E N N' C. inversion W; subst. inversion W' as [|w2 l2 a' b' Wa' Wb']; subst; auto.
    exfalso. destruct C as [C|[C _]]; [cbn [vcount] in C; lia|]. cbn [app] in E. rewrite <- app_assoc in E.
    eapply not_end; [exact Wa'|symmetry; exact E|auto].
  - intros w IW l IL. apply seq_one; auto.
  - intros bs ps' bs' r r' W W' E N N'. inversion W; subst. inversion W' as [|k2 v2 l2 a' b' c' Wa' Wb' Wc']; subst; auto.
    exfalso. cbn [app] in E. rewrite <- app_assoc in E. eapply not_end; [exact Wa'|symmetry; exact E|auto].
  - intros k IK v IV l IL. apply pairs_one; auto.
Qed.
End Values.

(** Documents. *)
Theorem documents_one w w' bs bs' r r' : document w bs -> document w' bs' -> bs ++ r = bs' ++ r' ->
  follows w r -> follows w' r' -> w = w' /\ bs = bs' /\ r = r'.
Proof.
  intros (ver & tb & vb & body & R & T & V & W & ->) (ver' & tb' & vb' & body' & R' & T' & V' & W' & ->) E F F'.
  rewrite <- !app_assoc in E. destruct (end_same _ _ _ _ _ T T' E) as (-> & E2); [discriminate|].
  destruct (varint_same _ _ _ _ _ _ V V' E2) as (-> & -> & E3).
  destruct (proj1 (values_one ver') _ _ _ _ _ _ W W' E3 F F') as (-> & -> & ->). auto.
Qed.
Lemma follows_end w : follows w [].
Proof. intros _. discriminate. Qed.
Corollary document_one w w' bs : document w bs -> document w' bs -> w = w'.
Proof.
  intros D D'. destruct (documents_one w w' bs bs [] [] D D' eq_refl (follows_end _) (follows_end _)) as (-> & _). reflexivity.
Qed.

(** * Documents are bytes *)
Lemma varint_ok n bs : is_varint bs n -> bytes_ok bs.
Proof. induction 1; repeat constructor; unfold is_byte in *; try lia. auto. Qed.
Lemma tagged_ok t bs : tagged t bs -> bytes_ok bs.
Proof.
  intros [k ->]. apply bytes_ok_app. split.
  - unfold zeros. apply Forall_forall. intros x I. apply repeat_spec in I. subst. reflexivity.
  - repeat constructor. destruct t; reflexivity.
Qed.
Lemma enc_seq_ok (R : N -> bytes -> Prop) s bs : (forall c b, R c b -> bytes_ok b) -> enc_seq R s bs -> bytes_ok bs.
Proof. intros P. induction 1; [constructor|]. apply bytes_ok_app. eauto. Qed.
Lemma utf8_ok s bs : utf8_string s bs -> bytes_ok bs.
Proof. apply enc_seq_ok. intros c b []; repeat constructor; unfold is_byte; lia. Qed.
Lemma utf16_ok s bs : utf16_string s bs -> bytes_ok bs.
Proof. apply enc_seq_ok. intros c b []; repeat constructor; unfold is_byte; lia. Qed.
Lemma wstring_ok enc s bs : wstring enc s bs -> bytes_ok bs.
Proof.
  intros W. destruct W as [s lb bs U V|s lb bs U V|s lb bs U V|s lb bs U V]; apply bytes_ok_app; split; eauto using varint_ok, utf8_ok, utf16_ok.
  destruct U as [<- U]. exact U.
Qed.
Lemma varint32_ok n bs : varint32 n bs -> bytes_ok bs.
Proof. intros [V _]. eapply varint_ok; eauto. Qed.
Lemma double_ok n bs : wdouble n bs -> bytes_ok bs.
Proof. intros [_ ->]. apply le_bytes_ok. Qed.
Lemma bigint_ok n bs : wbigint n bs -> bytes_ok bs.
Proof. intros []. apply bytes_ok_app. eauto using varint_ok. Qed.
Lemma field_ok e f bs : wfield e f bs -> bytes_ok bs.
Proof. intros []; [constructor|]. unfold etagged in *. rewrite !bytes_ok_app. repeat match goal with |- _ /\ _ => split end; eauto using varint_ok, tagged_ok, wstring_ok. Qed.
Lemma proto_ok e bs : wproto e bs -> bytes_ok bs.
Proof. intros []; [constructor|]. unfold etagged in *. eauto using varint_ok. Qed.
Lemma view_ok version v bs : wviewb version v bs -> bytes_ok bs.
Proof.
  intros [|t off len fl tb ob lb fb V1 V2 V3 VF VZ]; [constructor|]. constructor; [reflexivity|]. rewrite !bytes_ok_app.
  split; [eauto using varint_ok|]. split; [eauto using varint32_ok|]. split; [eauto using varint32_ok|].
  destruct (N.le_gt_cases 14 version) as [G|G]; [eauto using varint_ok|]. destruct (VZ G) as [-> _]. constructor.
Qed.
Lemma buf_ok b bs : wbufb b bs -> bytes_ok bs.
Proof. intros []; rewrite ?bytes_ok_app; repeat match goal with |- _ /\ _ => split end; eauto using varint32_ok. Qed.
Lemma values_ok version : (forall w bs, wire version w bs -> bytes_ok bs) /\ (forall vs bs, wseq version vs bs -> bytes_ok bs) /\
  (forall ps bs, wprs version ps bs -> bytes_ok bs).
Proof.
  assert (B : forall w, (forall bs, wbody version w bs -> bytes_ok bs) -> forall bs, wire version w bs -> bytes_ok bs).
  { intros w C bs W. destruct W. apply bytes_ok_app. eauto using tagged_ok. }
  apply wval_mutind; intros; try (apply (B _) with (2 := H); clear H; intros ? H); try (apply (B _) with (2 := H0); clear H0; intros ? H0);
    try (apply (B _) with (2 := H1); clear H1; intros ? H1);
    match goal with
    | H : wbody _ _ _ |- _ => inversion H; subst
    | H : wseq _ _ _ |- _ => inversion H; subst
    | H : wprs _ _ _ |- _ => inversion H; subst
    end; try (constructor; fail); unfold etagged in *; rewrite ?bytes_ok_app;
    repeat match goal with |- _ /\ _ => split end;
    eauto using varint32_ok, varint_ok, double_ok, bigint_ok, wstring_ok, tagged_ok, field_ok, proto_ok, view_ok, buf_ok.
Qed.
Lemma document_ok w bs : document w bs -> bytes_ok bs.
Proof.
  intros (ver & tb & vb & body & R & T & V & W & ->). rewrite !bytes_ok_app. split; [eauto using tagged_ok|].
  split; [eauto using varint_ok|]. eapply (proj1 (values_ok ver)); eauto.
Qed.
