(** Properties C01-C10: primitive codecs. *)
From Coq Require Import List NArith ZArith Bool Lia ZifyBool ZifyNat ZifyN.
From Verif Require Import Base ModelTags ModelPrim SpecPrim PrimFacts PrimFacts2 PrimFacts3.
Import ListNotations.
Open Scope N_scope.

(** C01 *)
Theorem C01_varint_round_trip : forall (n : Z) (pre post : bytes),
  (0 <= n)%Z ->
  exists bs, write_varint n = Ok bs /\ bs <> [] /\
    read_varint (pre ++ bs ++ post) (length pre) 0 = Ok (Z.to_N n, (length pre + length bs)%nat).
Proof.
  intros n pre post H. exists (varint_bytes (Z.to_N n)). unfold write_varint.
  replace (n <? 0)%Z with false by lia. repeat split.
  - destruct (varint_bytes_nonempty (Z.to_N n)) as [b [r ->]]. discriminate.
  - apply read_varint_write. left; auto.
Qed.

Theorem C01_varint_rejects_negative : forall n : Z, (n < 0)%Z -> write_varint n = Err EValue.
Proof. intros n H. unfold write_varint. replace (n <? 0)%Z with true by lia. auto. Qed.

Example C01_example :
  write_varint 300 = Ok [172; 2] /\ read_varint [9; 172; 2; 7] 1 0 = Ok (300, 3%nat).
Proof. split; reflexivity. Qed.

(** C02 *)
Theorem C02_varint_prefix_free : forall (m n : Z) (bm bn x y : bytes),
  write_varint m = Ok bm -> write_varint n = Ok bn ->
  bm ++ x = bn ++ y -> m = n /\ x = y.
Proof.
  intros m n bm bn x y Hm Hn E.
  assert (0 <= m /\ 0 <= n)%Z as [Pm Pn].
  { unfold write_varint in *. destruct (Z.ltb_spec m 0); [discriminate|].
    destruct (Z.ltb_spec n 0); [discriminate|]. lia. }
  destruct (C01_varint_round_trip m [] x Pm) as [b1 [W1 [_ R1]]].
  destruct (C01_varint_round_trip n [] y Pn) as [b2 [W2 [_ R2]]].
  rewrite Hm in W1. injection W1 as <-. rewrite Hn in W2. injection W2 as <-.
  cbn [app length] in *. rewrite E, R2 in R1. injection R1 as V L.
  assert (m = n) by lia. subst n. split; auto. rewrite Hn in Hm. injection Hm as ->.
  eapply app_inv_head; eauto.
Qed.

Example C02_example : write_varint 5 = Ok [5] /\ write_varint 645 = Ok [133; 5].
Proof. split; reflexivity. Qed.

(** C03 *)
Theorem C03_varint_reader_bounded : forall (data : bytes) (pos : nat) (max_bits : N),
  match read_varint data pos max_bits with
  | Ok (v, p) => (pos < p <= length data)%nat /\
      (max_bits <> 0 -> 7 * N.of_nat (p - pos - 1) < max_bits) /\
      (forall post, read_varint (firstn p data ++ post) pos max_bits = Ok (v, p))
  | Err e => e = EDecode
  end.
Proof.
  intros data pos mb. destruct (read_varint data pos mb) as [[v p]|e] eqn:E.
  - pose proof (read_varint_bounds _ _ _ _ _ E) as B. split; [exact B|].
    unfold read_varint in *. apply bind_Ok in E as [[v' k] [E H]]. injection H as <- <-.
    pose proof (varint_read_loop_bounds _ _ _ _ _ _ _ E) as B2. rewrite skipn_length in B2.
    split.
    + intros Hm. pose proof (varint_read_loop_max _ _ _ _ _ _ _ Hm (proj1 (N.neq_0_lt_0 _) Hm) E). lia.
    + intros post. pose proof (varint_read_loop_prefix _ _ _ _ _ _ _ E post) as P.
      rewrite Nat.sub_0_r in P.
      replace (skipn pos (firstn (pos + k) data ++ post)) with (firstn k (skipn pos data) ++ post).
      * rewrite P. reflexivity.
      * rewrite skipn_app, firstn_length. replace (pos - _)%nat with 0%nat by lia.
        cbn [skipn]. rewrite skipn_firstn_comm. do 2 f_equal. lia.
  - eapply read_varint_err; eauto.
Qed.

Corollary C03_varint32_at_most_5_bytes : forall data pos v p,
  read_varint data pos 32 = Ok (v, p) -> (p - pos <= 5)%nat.
Proof.
  intros data pos v p H. pose proof (C03_varint_reader_bounded data pos 32) as B.
  rewrite H in B. destruct B as [_ [B _]]. specialize (B ltac:(lia)). lia.
Qed.

Example C03_example :
  read_varint [255; 255; 255; 255; 15] 0 32 = Ok (4294967295, 5%nat) /\
  read_varint [128; 128; 128; 128; 128; 1] 0 32 = Err EDecode /\
  read_varint [128; 128] 0 0 = Err EDecode.
Proof. repeat split; reflexivity. Qed.

(** C04 *)
Theorem C04_int32_round_trip : forall (z : Z) (pre post : bytes),
  (-2 ^ 31 <= z < 2 ^ 31)%Z ->
  exists bs, int32_bytes z = Ok bs /\
    read_int32 (pre ++ bs ++ post) (length pre) = Ok (z, (length pre + length bs)%nat).
Proof.
  intros z pre post H. unfold int32_bytes. replace (in_int32 z) with true by (unfold in_int32; lia).
  eexists; split; [reflexivity|]. apply read_int32_write. unfold int32_bytes.
  replace (in_int32 z) with true by (unfold in_int32; lia). auto.
Qed.

Theorem C04_uint32_round_trip : forall (z : Z) (pre post : bytes),
  (0 <= z < 2 ^ 32)%Z ->
  exists bs, uint32_bytes z = Ok bs /\
    read_uint32 (pre ++ bs ++ post) (length pre) = Ok (Z.to_N z, (length pre + length bs)%nat).
Proof.
  intros z pre post H. assert (R : in_uint32 z = true) by (unfold in_uint32; lia).
  exists (varint_bytes (Z.to_N z)). split; [apply uint32_bytes_ok; auto|].
  apply read_uint32_write. apply uint32_bytes_ok; auto.
Qed.

Theorem C04_out_of_range_rejected : forall z : Z,
  ((z < -2 ^ 31 \/ 2 ^ 31 <= z)%Z -> int32_bytes z = Err EValue) /\
  ((z < 0 \/ 2 ^ 32 <= z)%Z -> uint32_bytes z = Err EValue).
Proof.
  intros z. split; intros H.
  - unfold int32_bytes. replace (in_int32 z) with false by (unfold in_int32; lia). auto.
  - unfold uint32_bytes. replace (in_uint32 z) with false by (unfold in_uint32; lia). auto.
Qed.

Theorem C04_read_in_range : forall (data : bytes) (pos : nat),
  (forall z p, read_int32 data pos = Ok (z, p) -> (-2 ^ 31 <= z < 2 ^ 31)%Z) /\
  (forall n p, read_uint32 data pos = Ok (n, p) -> n < 2 ^ 32).
Proof.
  intros data pos. split.
  - intros z p H. apply read_int32_range in H. unfold in_int32 in H. lia.
  - intros n p H. eapply read_uint32_range; eauto.
Qed.

Example C04_example :
  int32_bytes (-2147483648) = Ok [255; 255; 255; 255; 15] /\
  read_int32 [255; 255; 255; 255; 15] 0 = Ok ((-2147483648)%Z, 5%nat) /\
  read_int32 [255; 255; 255; 255; 31] 0 = Err EDecode.
Proof. repeat split; reflexivity. Qed.

(** C05 *)
Theorem C05_zigzag_bijection :
  (forall z : Z, decode_zigzag (encode_zigzag z) = z) /\
  (forall n : N, encode_zigzag (decode_zigzag n) = n).
Proof. split; [exact zigzag_decode_encode | exact zigzag_encode_decode]. Qed.

(** The documented order 0, -1, 1, -2, 2, ... *)
Theorem C05_zigzag_order : forall n : N,
  encode_zigzag (Z.of_N n) = 2 * n /\ (0 < n -> encode_zigzag (- Z.of_N n) = 2 * n - 1).
Proof.
  intros n. unfold encode_zigzag. split.
  - replace (Z.of_N n <? 0)%Z with false by lia. lia.
  - intros H. replace (- Z.of_N n <? 0)%Z with true by lia. lia.
Qed.

(** C06 *)
Theorem C06_bigint_round_trip : forall (z : Z) (pre post : bytes),
  Z.abs_N z < 2 ^ (8 * (2 ^ 30 - 1) - 1) ->
  exists bs, bigint_bytes z = Ok bs /\
    read_bigint (pre ++ bs ++ post) (length pre) = Ok (z, (length pre + length bs)%nat).
Proof.
  intros z pre post H. apply bigint_accepts in H as [bs Hb]. exists bs. split; auto.
  apply read_bigint_write; auto.
Qed.

Theorem C06_bigint_too_large_rejected : forall z : Z,
  2 ^ (8 * (2 ^ 30 - 1) - 1) <= Z.abs_N z -> bigint_bytes z = Err EValue.
Proof.
  intros z H. destruct (bigint_bytes z) eqn:E.
  - assert (Z.abs_N z < 2 ^ (8 * (2 ^ 30 - 1) - 1)) by (apply bigint_accepts; eauto).
    apply N.lt_nge in H0. contradiction.
  - apply bigint_rejects in E. congruence.
Qed.

Example C06_example :
  bigint_bytes (-65536) = Ok [7; 0; 0; 1] /\ read_bigint [7; 0; 0; 1] 0 = Ok ((-65536)%Z, 4%nat) /\
  bigint_bytes 255 = Ok [4; 255; 0].
Proof. repeat split; reflexivity. Qed.

(** C07 *)
Theorem C07_double_bit_exact : forall (bits : N) (pre post : bytes),
  bits < 2 ^ 64 ->
  length (double_bytes bits) = 8%nat /\
  read_double (pre ++ double_bytes bits ++ post) (length pre) = Ok (bits, (length pre + 8)%nat).
Proof.
  intros bits pre post H. split; [reflexivity|]. apply read_double_write; auto.
Qed.

(** and every 8 bytes are the encoding of the double that is read from them *)
Theorem C07_double_surjective : forall (data : bytes) (pos : nat) bits p,
  bytes_ok data -> read_double data pos = Ok (bits, p) ->
  bits < 2 ^ 64 /\ slice data pos 8 = double_bytes bits /\ p = (pos + 8)%nat.
Proof.
  intros data pos bits p B H. apply read_double_sound in H as [Hb C]; auto. split; auto.
  destruct C as (pre & post & -> & <- & ->). split; auto.
  replace 8%nat with (length (double_bytes bits)) by reflexivity. apply slice_app.
Qed.

Example C07_example : (* -0.0 and a NaN with payload *)
  read_double (double_bytes 0x8000000000000000) 0 = Ok (0x8000000000000000, 8%nat) /\
  read_double (double_bytes 0x7FF8000000000001) 0 = Ok (0x7FF8000000000001, 8%nat).
Proof. split; reflexivity. Qed.

(** C08 *)
Theorem C08_onebyte_round_trip : forall (s : list N) (pre post : bytes),
  Forall code_point s ->
  (Forall (fun c => c < 256) s ->
   exists bs, onebyte_payload s = Ok bs /\
     read_onebyte (pre ++ bs ++ post) (length pre) = Ok (s, (length pre + length bs)%nat)) /\
  (Exists (fun c => 256 <= c) s -> onebyte_payload s = Err EValue).
Proof.
  intros s pre post _. unfold onebyte_payload, latin1_encode. split; intros H.
  - replace (forallb (fun c => c <? 256) s) with true.
    2:{ symmetry. apply forallb_forall. intros c Hc. rewrite Forall_forall in H. specialize (H c Hc). lia. }
    cbn [bind]. eexists; split; [reflexivity|]. unfold lp. eapply read_onebyte_spec; auto.
    apply is_varint_bytes.
  - replace (forallb (fun c => c <? 256) s) with false; auto.
    symmetry. apply not_true_is_false. intros F. rewrite forallb_forall in F.
    apply Exists_exists in H as [c [Hc L]]. specialize (F c Hc). lia.
Qed.

Theorem C08_utf8_round_trip : forall (s : list N) (pre post : bytes),
  Forall code_point s ->
  (Forall scalar s ->
   exists bs, utf8_payload s = Ok bs /\
     read_utf8 (pre ++ bs ++ post) (length pre) = Ok (s, (length pre + length bs)%nat)) /\
  (Exists (fun c => 0xD800 <= c <= 0xDFFF) s -> utf8_payload s = Err EUnicode).
Proof.
  intros s pre post CP. unfold utf8_payload. split; intros H.
  - destruct (utf8_encode_total s H) as [bs E]. rewrite E. cbn [bind]. eexists; split; [reflexivity|].
    unfold lp. eapply read_utf8_spec; auto. apply is_varint_bytes. apply utf8_encode_spec; auto.
  - unfold utf8_encode. replace (existsb is_surrogate s) with true; auto.
    symmetry. apply existsb_exists. apply Exists_exists in H as [c [Hc L]]. exists c. split; auto.
    unfold is_surrogate. lia.
Qed.

(** Two-byte strings: written after any data (with their tag), then read back with the tag.
    C09 adds the alignment. *)
Lemma write_twobyte_shape data s data' :
  write_twobyte data true s = Ok data' ->
  exists k encoded, utf16_encode s = Ok encoded /\ (k <= 1)%nat /\
    data' = data ++ (zeros k ++ [tag_byte kTwoByteString]) ++ (varint_bytes (lenN encoded) ++ encoded) /\
    Nat.even (length data' - length encoded) = true.
Proof.
  unfold write_twobyte. intros H. apply bind_Ok in H as [enc [E H]].
  cbv zeta in H. cbn [andb] in H.
  set (d1 := data ++ [tag_byte kTwoByteString]) in H.
  set (d2 := d1 ++ varint_bytes (lenN enc)) in H.
  destruct (Nat.odd (length d2)) eqn:O; injection H as <-.
  - exists 1%nat, enc. repeat split; auto.
    + unfold d2, d1. rewrite <- !app_assoc. rewrite firstn_app, firstn_all, Nat.sub_diag, firstn_O, app_nil_r.
      rewrite skipn_app_length. reflexivity.
    + rewrite app_length, Nat.add_sub, !app_length. cbn [length app].
      rewrite firstn_length, skipn_length.
      replace (_ + _)%nat with (S (length d2)) by (unfold d2, d1; rewrite !app_length; lia).
      rewrite Nat.even_succ. auto.
  - exists 0%nat, enc. repeat split; auto.
    + unfold d2, d1. rewrite <- !app_assoc. reflexivity.
    + rewrite app_length, Nat.add_sub.
      rewrite <- Nat.negb_odd, O. auto.
Qed.

Theorem C08_twobyte_round_trip : forall (s : list N) (data post : bytes),
  Forall code_point s ->
  (Forall scalar s ->
   exists data', write_twobyte data true s = Ok data' /\
     exists p, read_tag (data' ++ post) (length data) = Ok (kTwoByteString, p) /\
       read_twobyte (data' ++ post) p = Ok (s, length data')) /\
  (Exists (fun c => 0xD800 <= c <= 0xDFFF) s -> write_twobyte data true s = Err EUnicode).
Proof.
  intros s data post CP. split; intros H.
  - destruct (utf16_encode_total s H) as [enc E].
    assert (exists d, write_twobyte data true s = Ok d) as [d Hd].
    { unfold write_twobyte. rewrite E. cbn [bind]. eauto. }
    exists d. split; auto.
    destruct (write_twobyte_shape _ _ _ Hd) as (k & enc' & E' & Hk & -> & _).
    rewrite E in E'. injection E' as <-.
    exists (length data + length (zeros k ++ [tag_byte kTwoByteString]))%nat. split.
    + rewrite <- !(app_assoc data). rewrite <- (app_assoc (zeros k ++ _)). apply read_tag_spec. discriminate.
    + rewrite <- app_length.
      set (tg := zeros k ++ [tag_byte kTwoByteString]). set (vb := varint_bytes (lenN enc)).
      replace ((data ++ tg ++ vb ++ enc) ++ post) with ((data ++ tg) ++ (vb ++ enc) ++ post)
        by (rewrite <- !app_assoc; reflexivity).
      rewrite (read_twobyte_spec (data ++ tg) vb (lenN enc) enc s post (is_varint_bytes _) eq_refl).
      * f_equal. f_equal. rewrite !app_length. lia.
      * apply utf16_encode_spec; auto.
  - unfold write_twobyte, utf16_encode. replace (existsb is_surrogate s) with true; auto.
    symmetry. apply existsb_exists. apply Exists_exists in H as [c [Hc L]]. exists c. split; auto.
    unfold is_surrogate. lia.
Qed.

Example C08_example : (* "é" and "😀" *)
  utf8_payload [0xE9; 0x1F600] = Ok [6; 0xC3; 0xA9; 0xF0; 0x9F; 0x98; 0x80] /\
  read_utf8 [6; 0xC3; 0xA9; 0xF0; 0x9F; 0x98; 0x80] 0 = Ok ([0xE9; 0x1F600], 7%nat) /\
  write_twobyte [] true [0x1F600] = Ok [99; 4; 0x3D; 0xD8; 0x00; 0xDE] /\
  onebyte_payload [0xE9] = Ok [1; 0xE9].
Proof. repeat split; reflexivity. Qed.

(** C09 *)
Theorem C09_twobyte_aligned : forall (s : list N) (data data' : bytes),
  write_twobyte data true s = Ok data' ->
  exists k chars, (k <= 1)%nat /\ utf16_encode s = Ok chars /\
    data' = data ++ zeros k ++ [tag_byte kTwoByteString] ++ varint_bytes (lenN chars) ++ chars /\
    Nat.even (length data' - length chars) = true.
Proof.
  intros s data data' H. destruct (write_twobyte_shape _ _ _ H) as (k & enc & E & Hk & -> & Ev).
  exists k, enc. repeat split; auto. rewrite <- !app_assoc. reflexivity.
Qed.

Example C09_example :
  write_twobyte [1] true [65] = Ok [1; 0; 99; 2; 65; 0] /\ write_twobyte [1; 2] true [65] = Ok [1; 2; 99; 2; 65; 0].
Proof. split; reflexivity. Qed.

(** C10 *)
Theorem C10_utf8_strict : forall (bs : bytes) (s : list N),
  utf8_decode bs = Some s <-> utf8_string s bs.
Proof. exact utf8_decode_iff. Qed.

Theorem C10_utf8_reader_strict : forall (payload pre post : bytes),
  match read_utf8 (pre ++ lp payload ++ post) (length pre) with
  | Ok (s, p) => utf8_string s payload /\ p = (length pre + length (lp payload))%nat
  | Err e => e = EDecode /\ ~ exists s, utf8_string s payload
  end.
Proof.
  intros payload pre post. unfold read_utf8.
  pose proof (read_lp pre (varint_bytes (lenN payload)) _ payload post (is_varint_bytes _) eq_refl) as R.
  change (varint_bytes (lenN payload) ++ payload) with (lp payload) in R.
  destruct (read_varint _ _ _) as [[m p]|]; cbn [bind] in *; [|discriminate].
  rewrite R. cbn [bind]. destruct (utf8_decode payload) as [s|] eqn:E.
  - split; auto. apply utf8_decode_iff; auto.
  - split; auto. intros [s Hs]. apply utf8_decode_iff in Hs. congruence.
Qed.

Theorem C10_utf8_injective : forall (b1 b2 : bytes) (s : list N),
  utf8_decode b1 = Some s -> utf8_decode b2 = Some s -> b1 = b2.
Proof.
  intros b1 b2 s H1 H2. apply utf8_decode_iff in H1, H2. eapply utf8_string_det; eauto.
Qed.

Example C10_example : (* overlong, surrogate, above 0x10FFFF, truncated *)
  utf8_decode [0xC0; 0x80] = None /\ utf8_decode [0xED; 0xA0; 0x80] = None /\
  utf8_decode [0xF4; 0x90; 0x80; 0x80] = None /\ utf8_decode [0xE2; 0x82] = None /\
  utf8_decode [0xE2; 0x82; 0xAC] = Some [0x20AC].
Proof. repeat split; reflexivity. Qed.

Print Assumptions C01_varint_round_trip.
Print Assumptions C02_varint_prefix_free.
Print Assumptions C03_varint_reader_bounded.
Print Assumptions C04_int32_round_trip.
Print Assumptions C06_bigint_round_trip.
Print Assumptions C08_twobyte_round_trip.
Print Assumptions C10_utf8_strict.
Print Assumptions C01_varint_rejects_negative.
Print Assumptions C03_varint32_at_most_5_bytes.
Print Assumptions C04_uint32_round_trip.
Print Assumptions C04_out_of_range_rejected.
Print Assumptions C04_read_in_range.
Print Assumptions C05_zigzag_bijection.
Print Assumptions C05_zigzag_order.
Print Assumptions C06_bigint_too_large_rejected.
Print Assumptions C07_double_bit_exact.
Print Assumptions C07_double_surjective.
Print Assumptions C08_onebyte_round_trip.
Print Assumptions C08_utf8_round_trip.
Print Assumptions C09_twobyte_aligned.
Print Assumptions C10_utf8_reader_strict.
Print Assumptions C10_utf8_injective.
