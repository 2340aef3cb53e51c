(** Proofs about integers, doubles, strings, tags and headers. *)
From Coq Require Import List NArith ZArith Bool Lia ZifyBool ZifyNat ZifyN.
From Verif Require Import Base ModelTags ModelPrim SpecPrim PrimFacts.
Import ListNotations.
Open Scope N_scope.
Ltac Zify.zify_post_hook ::= Z.div_mod_to_equations.

(** ** Zigzag *)
Lemma zigzag_decode_encode z : decode_zigzag (encode_zigzag z) = z.
Proof. unfold decode_zigzag, encode_zigzag. destruct (Z.ltb_spec z 0); destruct (N.eqb_spec (Z.to_N (Z.abs (z * 2) - 1) mod 2) 1); destruct (N.eqb_spec (Z.to_N (Z.abs (z * 2) - 0) mod 2) 1); lia. Qed.

Lemma zigzag_encode_decode n : encode_zigzag (decode_zigzag n) = n.
Proof.
  unfold decode_zigzag, encode_zigzag. destruct (N.eqb_spec (n mod 2) 1).
  - destruct (Z.ltb_spec (- ((Z.of_N n + 1) / 2)) 0); lia.
  - destruct (Z.ltb_spec (Z.of_N n / 2) 0); lia.
Qed.

Lemma zigzag_int32_range z : in_int32 z = true -> encode_zigzag z < 2 ^ 32.
Proof. unfold in_int32, encode_zigzag. destruct (Z.ltb_spec z 0); intros; lia. Qed.

Lemma max_ok_32 n : n < 2 ^ 32 -> max_ok 32 0 n.
Proof. intros H. right. change (2 ^ 0) with 1. lia. Qed.

(** ** int32 / uint32 *)
Lemma read_int32_write pre bs post z :
  int32_bytes z = Ok bs ->
  read_int32 (pre ++ bs ++ post) (length pre) = Ok (z, (length pre + length bs)%nat).
Proof.
  unfold int32_bytes. destruct (in_int32 z) eqn:R; [|discriminate]. intros [= <-].
  unfold read_int32. rewrite read_varint_write by (apply max_ok_32, zigzag_int32_range; auto).
  cbn [bind]. rewrite zigzag_decode_encode, R. reflexivity.
Qed.

Lemma uint32_bytes_eq z bs : uint32_bytes z = Ok bs ->
  in_uint32 z = true /\ bs = varint_bytes (Z.to_N z).
Proof.
  unfold uint32_bytes, write_varint. destruct (in_uint32 z) eqn:R; [|discriminate].
  unfold in_uint32 in R. replace (z <? 0)%Z with false by lia. intros [= <-]. auto.
Qed.

Lemma uint32_bytes_ok z : in_uint32 z = true -> uint32_bytes z = Ok (varint_bytes (Z.to_N z)).
Proof.
  intros H. unfold uint32_bytes, write_varint. rewrite H. unfold in_uint32 in H.
  replace (z <? 0)%Z with false by lia. auto.
Qed.

Lemma read_uint32_write pre bs post z :
  uint32_bytes z = Ok bs ->
  read_uint32 (pre ++ bs ++ post) (length pre) = Ok (Z.to_N z, (length pre + length bs)%nat).
Proof.
  intros H. apply uint32_bytes_eq in H as [R ->].
  unfold read_uint32. unfold in_uint32 in R. rewrite read_varint_write by (apply max_ok_32; lia).
  cbn [bind]. unfold in_uint32. replace (_ && _)%bool with true by lia. reflexivity.
Qed.

Lemma read_int32_range data pos z p : read_int32 data pos = Ok (z, p) -> in_int32 z = true.
Proof.
  unfold read_int32. intros H. apply bind_Ok in H as [[v q] [_ H]].
  destruct (in_int32 (decode_zigzag v)) eqn:E; [injection H as <- <-; auto|discriminate].
Qed.

Lemma read_uint32_range data pos n p : read_uint32 data pos = Ok (n, p) -> n < 2 ^ 32.
Proof.
  unfold read_uint32. intros H. apply bind_Ok in H as [[v q] [_ H]].
  destruct (in_uint32 (Z.of_N v)) eqn:E; [injection H as <- <-|discriminate].
  unfold in_uint32 in E. lia.
Qed.

(** ** Raw bytes *)
Lemma read_bytes_app pre bs post :
  read_bytes (pre ++ bs ++ post) (length pre) (lenN bs) = Ok (bs, (length pre + length bs)%nat).
Proof.
  unfold read_bytes, has_capacity. rewrite !lenN_app.
  replace (_ <=? _) with true by (unfold lenN; lia).
  replace (N.to_nat (lenN bs)) with (length bs) by (unfold lenN; lia).
  rewrite slice_app. auto.
Qed.

Lemma read_bytes_sound data pos n bs p :
  read_bytes data pos n = Ok (bs, p) -> consumed data pos p bs /\ lenN bs = n.
Proof.
  unfold read_bytes, has_capacity. destruct (N.leb_spec (N.of_nat pos + n) (lenN data)) as [H|H]; [|discriminate].
  intros [= <- <-]. unfold lenN in H.
  split.
  - pose proof (consumed_slice data pos (pos + N.to_nat n) ltac:(lia)) as C.
    replace (pos + N.to_nat n - pos)%nat with (N.to_nat n) in C by lia. exact C.
  - unfold lenN, slice. rewrite firstn_length, skipn_length. lia.
Qed.

Lemma read_bytes_err data pos n e : read_bytes data pos n = Err e -> e = EDecode.
Proof. unfold read_bytes. destruct (has_capacity _ _ _); congruence. Qed.

(** ** Doubles *)
Lemma read_double_write pre bits post :
  bits < 2 ^ 64 ->
  read_double (pre ++ double_bytes bits ++ post) (length pre) = Ok (bits, (length pre + 8)%nat).
Proof.
  intros H. unfold read_double, double_bytes.
  pose proof (read_bytes_app pre (le_bytes 8 bits) post) as R.
  unfold lenN in R. rewrite le_bytes_length in R. change (N.of_nat 8) with 8 in R.
  rewrite R. cbn [bind]. rewrite of_le_le_bytes by (change (256 ^ N.of_nat 8) with (2^64); auto). auto.
Qed.

Lemma read_double_sound data pos bits p :
  bytes_ok data -> read_double data pos = Ok (bits, p) ->
  bits < 2 ^ 64 /\ consumed data pos p (double_bytes bits).
Proof.
  intros B H. unfold read_double in H. apply bind_Ok in H as [[bs q] [E H]]. injection H as <- <-.
  apply read_bytes_sound in E as [C L]. pose proof (consumed_ok _ _ _ _ B C) as Hb.
  split.
  - pose proof (of_le_bound bs Hb). rewrite L in H. exact H.
  - unfold double_bytes. assert (L8 : length bs = 8%nat) by (unfold lenN in L; lia).
    rewrite <- L8 at 1. rewrite le_bytes_of_le by auto. auto.
Qed.

(** ** BigInt *)
Lemma lor1 n (b : bool) : N.lor (N.shiftl n 1) (if b then 1 else 0) = 2 * n + (if b then 1 else 0).
Proof.
  rewrite N.shiftl_mul_pow2. change (2^1) with 2. rewrite N.mul_comm.
  destruct n; destruct b; reflexivity.
Qed.

Lemma bigint_fits z : Z.abs_N z < 256 ^ ((bit_length z + 8) / 8).
Proof.
  unfold bit_length. set (a := Z.abs_N z).
  assert (Ha : a < 2 ^ N.size a) by apply N.size_gt.
  eapply N.lt_le_trans; [exact Ha|].
  change 256 with (2 ^ 8). rewrite <- N.pow_mul_r. apply N.pow_le_mono_r; lia.
Qed.

Lemma size_le_30 n : N.size n <= 30 <-> n < 2 ^ 30.
Proof.
  destruct (N.eq_dec n 0) as [->|Hn]; [cbn; lia|].
  rewrite N.size_log2 by auto. rewrite (N.log2_lt_pow2 n 30) by lia. lia.
Qed.

Lemma read_bigint_raw pre vb k (neg : bool) digits post :
  is_varint vb (2 * k + (if neg then 1 else 0)) -> k < 2 ^ 30 -> lenN digits = k ->
  read_bigint (pre ++ (vb ++ digits) ++ post) (length pre)
  = Ok (if neg then - Z.of_N (of_le digits) else Z.of_N (of_le digits), (length pre + length (vb ++ digits))%nat)%Z.
Proof.
  intros V K L. unfold read_bigint. rewrite <- app_assoc.
  rewrite (read_varint_spec pre vb _ (digits ++ post) 0 V) by auto. cbn [bind].
  replace (N.land (2 * k + (if neg then 1 else 0)) 1) with (if neg then 1 else 0).
  2:{ pose proof (N.land_ones (2 * k + (if neg then 1 else 0)) 1) as Q. change (N.ones 1) with 1 in Q.
      change (2^1) with 2 in Q. rewrite Q. destruct neg; lia. }
  replace (N.land (N.shiftr (2 * k + (if neg then 1 else 0)) 1) 0x3FFFFFFF) with k.
  2:{ change 0x3FFFFFFF with (N.ones 30). rewrite N.land_ones, N.shiftr_div_pow2. change (2^1) with 2.
      replace ((2 * k + (if neg then 1 else 0)) / 2) with k by (destruct neg; lia).
      symmetry. apply N.mod_small. auto. }
  rewrite <- L. rewrite (app_assoc pre vb).
  rewrite <- app_length. rewrite read_bytes_app. cbn [bind]. rewrite !app_length.
  destruct neg; cbn; f_equal; f_equal; lia.
Qed.

Lemma read_bigint_write pre bs post z :
  bigint_bytes z = Ok bs ->
  read_bigint (pre ++ bs ++ post) (length pre) = Ok (z, (length pre + length bs)%nat).
Proof.
  unfold bigint_bytes. destruct (N.ltb_spec 30 (N.size ((bit_length z + 8) / 8))) as [H|H]; [discriminate|].
  intros [= <-]. rewrite lor1. set (k := (bit_length z + 8) / 8) in *.
  rewrite (read_bigint_raw pre _ k (z <? 0)%Z).
  - f_equal. f_equal. rewrite of_le_le_bytes.
    + destruct (Z.ltb_spec z 0); lia.
    + rewrite N2Nat.id. apply bigint_fits.
  - apply is_varint_bytes.
  - apply size_le_30; auto.
  - unfold lenN. rewrite le_bytes_length. lia.
Qed.

(** The integers accepted: bit length at most 8 * (2^30 - 1) - 1. *)
Lemma bigint_accepts z :
  (exists bs, bigint_bytes z = Ok bs) <-> Z.abs_N z < 2 ^ (8 * (2 ^ 30 - 1) - 1).
Proof.
  unfold bigint_bytes. set (k := (bit_length z + 8) / 8).
  assert (A : Z.abs_N z < 2 ^ (8 * (2^30 - 1) - 1) <-> k < 2 ^ 30).
  { unfold k, bit_length. destruct (N.eq_dec (Z.abs_N z) 0) as [E|E].
    - rewrite E. split; intros _; [cbn; lia|]. apply N.neq_0_lt_0. apply N.pow_nonzero. lia.
    - rewrite N.size_log2 by auto. rewrite (N.log2_lt_pow2 (Z.abs_N z)) by lia.
      change (2 ^ 30) with 1073741824. lia. }
  rewrite A, <- size_le_30. destruct (N.ltb_spec 30 (N.size k)).
  - split; [intros [? ?]; discriminate|lia].
  - split; [lia|eauto].
Qed.

Lemma bigint_rejects z e : bigint_bytes z = Err e -> e = EValue.
Proof. unfold bigint_bytes. destruct (30 <? _); congruence. Qed.
