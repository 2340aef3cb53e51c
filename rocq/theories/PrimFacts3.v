(** Proofs about strings, tags, padding and headers. *)
From Coq Require Import List NArith ZArith Bool Lia ZifyBool ZifyNat ZifyN.
From Verif Require Import Base ModelTags ModelPrim SpecPrim PrimFacts PrimFacts2.
Import ListNotations.
Open Scope N_scope.
Ltac Zify.zify_post_hook ::= Z.div_mod_to_equations.

(** ** UTF-8 *)
Lemma surrogate_scalar c : code_point c -> (is_surrogate c = false <-> scalar c).
Proof. unfold code_point, is_surrogate, scalar. lia. Qed.

Lemma utf8_char_spec c : scalar c -> utf8_of c (utf8_char c).
Proof.
  intros H. assert (c < 0x110000) by (unfold scalar in H; lia). unfold utf8_char.
  destruct (N.ltb_spec c 0x80); [constructor; lia|].
  destruct (N.ltb_spec c 0x800); [apply u8_2; lia|].
  destruct (N.ltb_spec c 0x10000); [apply u8_3; auto; lia|].
  apply u8_4; auto; lia.
Qed.

Lemma utf8_encode_spec s : Forall code_point s ->
  forall bs, utf8_encode s = Ok bs -> utf8_string s bs.
Proof.
  unfold utf8_encode. intros H bs. destruct (existsb is_surrogate s) eqn:E; [discriminate|].
  intros [= <-]. induction H as [|c s Hc Hs IH]; cbn [flat_map]; [constructor|].
  cbn [existsb] in E. apply orb_false_iff in E as [E1 E2].
  constructor; [apply utf8_char_spec, surrogate_scalar; auto | apply IH; auto].
Qed.

Lemma utf8_encode_total s : Forall scalar s -> exists bs, utf8_encode s = Ok bs.
Proof.
  intros H. unfold utf8_encode. replace (existsb is_surrogate s) with false; eauto.
  symmetry. induction H as [|c s Hc Hs IH]; cbn [existsb]; auto.
  rewrite IH. unfold scalar in Hc. unfold is_surrogate. lia.
Qed.

Lemma utf8_encode_err s e : utf8_encode s = Err e -> e = EUnicode /\ Exists (fun c => 0xD800 <= c <= 0xDFFF) s.
Proof.
  unfold utf8_encode. destruct (existsb is_surrogate s) eqn:E; [|discriminate]. intros [= <-].
  split; auto. apply existsb_exists in E as [c [Hc E]]. apply Exists_exists. exists c.
  split; auto. unfold is_surrogate in E. lia.
Qed.

Lemma is_cont_80 x : x < 64 -> is_cont (0x80 + x) = true.
Proof. unfold is_cont, in_range. lia. Qed.

Lemma utf8_decode_char c b bs : utf8_of c b -> utf8_decode (b ++ bs) = option_map (cons c) (utf8_decode bs).
Proof.
  destruct 1 as [x0 H|x1 x0 c H1 H0 E L|x2 x1 x0 c H2 H1 H0 E L Sc|x3 x2 x1 x0 c H3 H2 H1 H0 E L Sc];
    cbn [app utf8_decode]; unfold is_cont, in_range, scalar in *.
  - replace (x0 <? 0x80) with true by lia. auto.
  - replace (0xC0 + x1 <? 0x80) with false by lia.
    replace ((0xC2 <=? 0xC0 + x1) && (0xC0 + x1 <=? 0xDF)) with true by lia.
    replace ((0x80 <=? 0x80 + x0) && (0x80 + x0 <=? 0xBF)) with true by lia.
    f_equal. f_equal. lia.
  - replace (0xE0 + x2 <? 0x80) with false by lia.
    replace ((0xC2 <=? 0xE0 + x2) && (0xE0 + x2 <=? 0xDF)) with false by lia.
    replace ((0xE0 <=? 0xE0 + x2) && (0xE0 + x2 <=? 0xEF)) with true by lia.
    replace (_ && _) with true.
    + f_equal. f_equal. lia.
    + destruct (N.eqb_spec (0xE0 + x2) 0xE0); destruct (N.eqb_spec (0xE0 + x2) 0xED); lia.
  - replace (0xF0 + x3 <? 0x80) with false by lia.
    replace ((0xC2 <=? 0xF0 + x3) && (0xF0 + x3 <=? 0xDF)) with false by lia.
    replace ((0xE0 <=? 0xF0 + x3) && (0xF0 + x3 <=? 0xEF)) with false by lia.
    replace ((0xF0 <=? 0xF0 + x3) && (0xF0 + x3 <=? 0xF4)) with true by lia.
    replace (_ && _) with true.
    + f_equal. f_equal. lia.
    + destruct (N.eqb_spec (0xF0 + x3) 0xF0); destruct (N.eqb_spec (0xF0 + x3) 0xF4); lia.
Qed.

Lemma utf8_decode_complete s bs : utf8_string s bs -> utf8_decode bs = Some s.
Proof.
  induction 1 as [|c s b bs Hc Hs IH]; auto.
  rewrite (utf8_decode_char c) by auto. rewrite IH. auto.
Qed.

Lemma utf8_decode_sound : forall k bs s, (length bs <= k)%nat ->
  utf8_decode bs = Some s -> utf8_string s bs.
Proof.
  induction k; intros bs s Hk H.
  - destruct bs; [|simpl in Hk; lia]. injection H as <-. constructor.
  - destruct bs as [|b0 r]; [injection H as <-; constructor|].
    cbn [utf8_decode] in H. cbn [length] in Hk.
    unfold is_cont, in_range in H.
    destruct (N.ltb_spec b0 0x80).
    { destruct (utf8_decode r) eqn:E; [|discriminate]. injection H as <-.
      apply (es_cons _ b0 l [b0] r); [constructor; auto|apply IHk; auto; lia]. }
    destruct ((0xC2 <=? b0) && (b0 <=? 0xDF)) eqn:R2.
    { destruct r as [|b1 r1]; [discriminate|]. cbn [length] in Hk.
      destruct (_ && _) eqn:C1 in H; [|discriminate].
      destruct (utf8_decode r1) eqn:E; [|discriminate]. injection H as <-.
      apply (es_cons _ _ l [b0; b1] r1); [|apply IHk; auto; lia].
      replace b0 with (0xC0 + (b0 - 0xC0)) at 2 by lia.
      replace b1 with (0x80 + (b1 - 0x80)) at 2 by lia. apply u8_2; lia. }
    destruct ((0xE0 <=? b0) && (b0 <=? 0xEF)) eqn:R3.
    { destruct r as [|b1 [|b2 r2]]; [discriminate|discriminate|]. cbn [length] in Hk.
      destruct (_ && _) eqn:C1 in H; [|discriminate].
      destruct (utf8_decode r2) eqn:E; [|discriminate]. injection H as <-.
      apply (es_cons _ _ l [b0; b1; b2] r2); [|apply IHk; auto; lia].
      destruct (N.eqb_spec b0 0xE0); destruct (N.eqb_spec b0 0xED); try lia;
      (replace b0 with (0xE0 + (b0 - 0xE0)) at 2 by lia;
       replace b1 with (0x80 + (b1 - 0x80)) at 2 by lia;
       replace b2 with (0x80 + (b2 - 0x80)) at 2 by lia;
       apply u8_3; unfold scalar; lia). }
    destruct ((0xF0 <=? b0) && (b0 <=? 0xF4)) eqn:R4; [|discriminate].
    destruct r as [|b1 [|b2 [|b3 r3]]]; [discriminate|discriminate|discriminate|]. cbn [length] in Hk.
    destruct (_ && _) eqn:C1 in H; [|discriminate].
    destruct (utf8_decode r3) eqn:E; [|discriminate]. injection H as <-.
    apply (es_cons _ _ l [b0; b1; b2; b3] r3); [|apply IHk; auto; lia].
    destruct (N.eqb_spec b0 0xF0); destruct (N.eqb_spec b0 0xF4); try lia;
    (replace b0 with (0xF0 + (b0 - 0xF0)) at 2 by lia;
     replace b1 with (0x80 + (b1 - 0x80)) at 2 by lia;
     replace b2 with (0x80 + (b2 - 0x80)) at 2 by lia;
     replace b3 with (0x80 + (b3 - 0x80)) at 2 by lia;
     apply u8_4; unfold scalar; lia).
Qed.

Lemma utf8_decode_iff bs s : utf8_decode bs = Some s <-> utf8_string s bs.
Proof.
  split; [apply (utf8_decode_sound (length bs)); auto | apply utf8_decode_complete].
Qed.

Lemma utf8_of_det c b1 b2 : utf8_of c b1 -> utf8_of c b2 -> b1 = b2.
Proof.
  intros H1 H2; destruct H1; inversion H2; subst; try lia; unfold scalar in *; repeat f_equal; lia.
Qed.

Lemma utf8_string_det s b1 b2 : utf8_string s b1 -> utf8_string s b2 -> b1 = b2.
Proof.
  intros H; revert b2. induction H as [|c s b bs Hc Hs IH]; intros b2 H2; inversion H2; subst; auto.
  f_equal; auto. eapply utf8_of_det; eauto.
Qed.

Lemma utf8_of_scalar c b : utf8_of c b -> scalar c.
Proof. destruct 1; unfold scalar in *; lia. Qed.
Lemma utf8_string_scalar s b : utf8_string s b -> Forall scalar s.
Proof. induction 1; constructor; auto. eapply utf8_of_scalar; eauto. Qed.
Lemma utf8_of_ok c b : utf8_of c b -> bytes_ok b.
Proof. unfold bytes_ok, is_byte. destruct 1; repeat constructor; unfold scalar in *; lia. Qed.
Lemma utf8_string_ok s b : utf8_string s b -> bytes_ok b.
Proof. induction 1; [constructor|]. apply bytes_ok_app; split; auto. eapply utf8_of_ok; eauto. Qed.

(** ** UTF-16 *)
Lemma utf16_char_spec c : scalar c -> utf16_of c (utf16_char c).
Proof.
  intros H. assert (c < 0x110000) by (unfold scalar in H; lia). unfold utf16_char.
  destruct (N.ltb_spec c 0x10000); cbn [le_bytes app].
  - apply u16_1; auto; lia.
  - apply (u16_2 c ((c - 0x10000) / 1024) ((c - 0x10000) mod 1024)); lia.
Qed.

Lemma utf16_encode_spec s : Forall code_point s ->
  forall bs, utf16_encode s = Ok bs -> utf16_string s bs.
Proof.
  unfold utf16_encode. intros H bs. destruct (existsb is_surrogate s) eqn:E; [discriminate|].
  intros [= <-]. induction H as [|c s Hc Hs IH]; cbn [flat_map]; [constructor|].
  cbn [existsb] in E. apply orb_false_iff in E as [E1 E2].
  constructor; [apply utf16_char_spec, surrogate_scalar; auto | apply IH; auto].
Qed.

Lemma utf16_encode_total s : Forall scalar s -> exists bs, utf16_encode s = Ok bs.
Proof.
  intros H. unfold utf16_encode. replace (existsb is_surrogate s) with false; eauto.
  symmetry. induction H as [|c s Hc Hs IH]; cbn [existsb]; auto.
  rewrite IH. unfold scalar in Hc. unfold is_surrogate. lia.
Qed.

Lemma utf16_decode_char c b bs : utf16_of c b -> utf16_decode (b ++ bs) = option_map (cons c) (utf16_decode bs).
Proof.
  destruct 1 as [c b0 b1 H0 H1 E Sc|c h l b0 b1 b2 b3 Hh Hl E H0 H1 H2 H3 EH EL];
    cbn [app utf16_decode]; unfold scalar in *.
  - replace ((0xD800 <=? b0 + 256 * b1) && (b0 + 256 * b1 <=? 0xDBFF)) with false by lia.
    replace ((0xDC00 <=? b0 + 256 * b1) && (b0 + 256 * b1 <=? 0xDFFF)) with false by lia.
    f_equal. f_equal. lia.
  - rewrite <- EH, <- EL.
    replace ((0xD800 <=? 0xD800 + h) && (0xD800 + h <=? 0xDBFF)) with true by lia.
    replace ((0xDC00 <=? 0xDC00 + l) && (0xDC00 + l <=? 0xDFFF)) with true by lia.
    f_equal. f_equal. lia.
Qed.

Lemma utf16_decode_complete s bs : utf16_string s bs -> utf16_decode bs = Some s.
Proof.
  induction 1 as [|c s b bs Hc Hs IH]; auto.
  rewrite (utf16_decode_char c) by auto. rewrite IH. auto.
Qed.

Lemma utf16_decode_sound : forall k bs s, (length bs <= k)%nat -> bytes_ok bs ->
  utf16_decode bs = Some s -> utf16_string s bs.
Proof.
  unfold bytes_ok, is_byte.
  induction k; intros bs s Hk B H.
  - destruct bs; [|simpl in Hk; lia]. injection H as <-. constructor.
  - destruct bs as [|b0 [|b1 r]]; [injection H as <-; constructor|discriminate|].
    cbn [utf16_decode] in H. cbn [length] in Hk.
    inversion B as [|? ? B0 B']; subst. inversion B' as [|? ? B1 Br]; subst.
    destruct ((0xD800 <=? b0 + 256 * b1) && (b0 + 256 * b1 <=? 0xDBFF)) eqn:R1.
    { destruct r as [|b2 [|b3 r']]; [discriminate|discriminate|]. cbn [length] in Hk.
      inversion Br as [|? ? B2 Br']; subst. inversion Br' as [|? ? B3 Br'']; subst.
      destruct (_ && _) eqn:C1 in H; [|discriminate].
      destruct (utf16_decode r') eqn:E; [|discriminate]. injection H as <-.
      apply (es_cons _ _ l [b0; b1; b2; b3] r'); [|apply IHk; auto; lia].
      apply (u16_2 _ (b0 + 256 * b1 - 0xD800) (b2 + 256 * b3 - 0xDC00)); lia. }
    destruct (_ && _) eqn:C2 in H; [discriminate|].
    destruct (utf16_decode r) eqn:E; [|discriminate]. injection H as <-.
    apply (es_cons _ _ l [b0; b1] r); [|apply IHk; auto; lia].
    apply u16_1; unfold scalar; lia.
Qed.

Lemma utf16_decode_iff bs s : bytes_ok bs -> (utf16_decode bs = Some s <-> utf16_string s bs).
Proof.
  intros B; split; [apply (utf16_decode_sound (length bs)); auto | apply utf16_decode_complete].
Qed.

Lemma utf16_of_ok c b : utf16_of c b -> bytes_ok b.
Proof. unfold bytes_ok, is_byte. destruct 1; repeat constructor; auto. Qed.
Lemma utf16_string_ok s b : utf16_string s b -> bytes_ok b.
Proof. induction 1; [constructor|]. apply bytes_ok_app; split; auto. eapply utf16_of_ok; eauto. Qed.

(** ** Length-prefixed payloads *)
Lemma read_lp pre vb n payload post :
  is_varint vb n -> n = lenN payload ->
  (do '(n, p) <- read_varint (pre ++ (vb ++ payload) ++ post) (length pre) 0;
   read_bytes (pre ++ (vb ++ payload) ++ post) p n)
  = Ok (payload, (length pre + length (vb ++ payload))%nat).
Proof.
  intros V ->. rewrite <- app_assoc. rewrite (read_varint_spec pre vb _ _ 0 V) by auto. cbn [bind].
  rewrite (app_assoc pre vb). rewrite <- app_length. rewrite read_bytes_app.
  rewrite !app_length. do 2 f_equal. lia.
Qed.

Lemma read_onebyte_spec pre vb n payload post :
  is_varint vb n -> n = lenN payload ->
  read_onebyte (pre ++ (vb ++ payload) ++ post) (length pre)
  = Ok (payload, (length pre + length (vb ++ payload))%nat).
Proof. apply read_lp. Qed.

Lemma read_utf8_spec pre vb n payload s post :
  is_varint vb n -> n = lenN payload -> utf8_string s payload ->
  read_utf8 (pre ++ (vb ++ payload) ++ post) (length pre)
  = Ok (s, (length pre + length (vb ++ payload))%nat).
Proof.
  intros V L U. pose proof (read_lp pre vb n payload post V L) as R. unfold read_utf8.
  destruct (read_varint _ _ _) as [[m p]|]; cbn [bind] in *; [|discriminate].
  rewrite R. cbn [bind]. rewrite (utf8_decode_complete _ _ U). auto.
Qed.

Lemma read_twobyte_spec pre vb n payload s post :
  is_varint vb n -> n = lenN payload -> utf16_string s payload ->
  read_twobyte (pre ++ (vb ++ payload) ++ post) (length pre)
  = Ok (s, (length pre + length (vb ++ payload))%nat).
Proof.
  intros V L U. pose proof (read_lp pre vb n payload post V L) as R. unfold read_twobyte.
  destruct (read_varint _ _ _) as [[m p]|]; cbn [bind] in *; [|discriminate].
  rewrite R. cbn [bind]. rewrite (utf16_decode_complete _ _ U). auto.
Qed.

(** ** Tags *)
Lemma count_padding_app k b r : b <> 0 -> count_padding (zeros k ++ b :: r) = Some k.
Proof.
  intros H. unfold zeros. induction k; cbn [repeat app count_padding].
  - change (tag_byte kPadding) with 0. replace (b =? 0) with false by lia. auto.
  - change (tag_byte kPadding) with 0. rewrite N.eqb_refl, IHk. auto.
Qed.

Lemma count_padding_inv bs k : count_padding bs = Some k ->
  exists b r, bs = zeros k ++ b :: r /\ b <> 0.
Proof.
  revert k; induction bs as [|b r IH]; intros k; cbn [count_padding]; [discriminate|].
  change (tag_byte kPadding) with 0. destruct (N.eqb_spec b 0) as [->|Hb].
  - destruct (count_padding r) eqn:E; [|discriminate]. intros [= <-].
    destruct (IH n eq_refl) as [b' [r' [-> Hb']]]. exists b', r'. auto.
  - intros [= <-]. exists b, r. auto.
Qed.

Lemma read_tag_spec pre k t post : t <> kPadding ->
  read_tag (pre ++ (zeros k ++ [tag_byte t]) ++ post) (length pre)
  = Ok (t, (length pre + length (zeros k ++ [tag_byte t]))%nat).
Proof.
  intros Ht. unfold read_tag. rewrite skipn_app_length. rewrite <- app_assoc. cbn [app].
  rewrite count_padding_app.
  - rewrite app_assoc. rewrite nth_error_app2 by (rewrite app_length, zeros_length; lia).
    rewrite app_length, zeros_length. replace (length pre + k - _)%nat with 0%nat by lia.
    cbn [nth_error]. rewrite tag_of_byte_tag. rewrite app_length, zeros_length. do 2 f_equal.
    cbn [length]. lia.
  - destruct t; cbn; congruence.
Qed.

Lemma read_tag_sound data pos t p :
  read_tag data pos = Ok (t, p) ->
  t <> kPadding /\ exists k, consumed data pos p (zeros k ++ [tag_byte t]).
Proof.
  unfold read_tag. destruct (count_padding (skipn pos data)) as [k|] eqn:C; [|discriminate].
  apply count_padding_inv in C as [b [r [E Hb]]].
  assert (Hp : (pos <= length data)%nat).
  { destruct (Nat.le_gt_cases pos (length data)); auto. rewrite skipn_all2 in E by lia.
    destruct (zeros k); discriminate. }
  assert (D : data = firstn pos data ++ (zeros k ++ [b]) ++ r).
  { rewrite <- app_assoc. cbn [app]. rewrite <- E. symmetry. apply firstn_skipn. }
  assert (Hn : nth_error data (pos + k) = Some b).
  { rewrite D. rewrite <- app_assoc. cbn [app]. rewrite app_assoc.
    rewrite nth_error_app2 by (rewrite app_length, zeros_length, firstn_length; lia).
    rewrite app_length, zeros_length, firstn_length.
    replace (pos + k - _)%nat with 0%nat by lia. auto. }
  rewrite Hn. destruct (tag_of_byte b) as [t'|] eqn:T; [|discriminate]. intros [= <- <-].
  apply tag_of_byte_inv in T. subst b. split.
  - intros ->. apply Hb. reflexivity.
  - exists k. exists (firstn pos data), r. repeat split; auto.
    + rewrite firstn_length. lia.
    + rewrite app_length, zeros_length. cbn [length]. lia.
Qed.

Lemma read_tag_err data pos e : read_tag data pos = Err e -> e = EDecode.
Proof.
  unfold read_tag. destruct (count_padding _); [|congruence]. destruct (nth_error _ _); [|congruence].
  destruct (tag_of_byte _); congruence.
Qed.

(** ** Header *)
Lemma read_header_write post :
  read_header (header_bytes ++ post) 0 = Ok (kLatestVersion, length header_bytes).
Proof. reflexivity. Qed.
