(** Proofs about the primitive codecs. *)
From Coq Require Import List NArith ZArith Bool Lia ZifyBool ZifyNat ZifyN.
From Verif Require Import Base ModelTags ModelPrim.
Import ListNotations.
Open Scope N_scope.
Ltac Zify.zify_post_hook ::= Z.div_mod_to_equations.

(** ** Tags *)
Lemma tag_of_byte_tag t : tag_of_byte (tag_byte t) = Some t.
Proof. destruct t; reflexivity. Qed.

Lemma tag_of_byte_inv b t : tag_of_byte b = Some t -> b = tag_byte t.
Proof.
  unfold tag_of_byte. intros H. apply find_some in H. destruct H as [_ H].
  apply N.eqb_eq in H. auto.
Qed.

Lemma tag_byte_inj t1 t2 : tag_byte t1 = tag_byte t2 -> t1 = t2.
Proof.
  intros H. apply (f_equal tag_of_byte) in H. rewrite !tag_of_byte_tag in H. congruence.
Qed.

Lemma tag_byte_byte t : is_byte (tag_byte t).
Proof. destruct t; reflexivity. Qed.

Lemma stag_eqb_eq t1 t2 : stag_eqb t1 t2 = true <-> t1 = t2.
Proof.
  split.
  - apply internal_stag_dec_bl.
  - apply internal_stag_dec_lb.
Qed.

Lemma stag_eqb_refl t : stag_eqb t t = true.
Proof. apply stag_eqb_eq; auto. Qed.

Lemma tag_in_In t l : tag_in t l = true <-> In t l.
Proof.
  unfold tag_in. rewrite existsb_exists. split.
  - intros [x [Hx E]]. apply stag_eqb_eq in E. subst; auto.
  - intros H. exists t. split; auto. apply stag_eqb_refl.
Qed.

Lemma vtag_of_code_tag t : vtag_of_code (vtag_byte t) = Some t.
Proof. destruct t; reflexivity. Qed.
Lemma vtag_of_code_inv n t : vtag_of_code n = Some t -> n = vtag_byte t.
Proof.
  unfold vtag_of_code. intros H. apply find_some in H. destruct H as [_ H].
  apply N.eqb_eq in H. auto.
Qed.
Lemma etag_of_code_tag t : etag_of_code (etag_byte t) = Some t.
Proof. destruct t; reflexivity. Qed.
Lemma etag_of_code_inv n t : etag_of_code n = Some t -> n = etag_byte t.
Proof.
  unfold etag_of_code. intros H. apply find_some in H. destruct H as [_ H].
  apply N.eqb_eq in H. auto.
Qed.

(** ** Varint *)
Lemma land127 n : N.land n 127 = n mod 128.
Proof. change 127 with (N.ones 7). rewrite N.land_ones. reflexivity. Qed.
Lemma shiftr7 n : N.shiftr n 7 = n / 128.
Proof. rewrite N.shiftr_div_pow2. reflexivity. Qed.
Lemma lor128 n : n < 128 -> N.lor n 128 = n + 128.
Proof.
  intros H. rewrite <- N.lxor_lor, <- N.add_nocarry_lxor; auto.
  all: apply N.bits_inj_0; intros k; rewrite N.land_spec;
    change 128 with (2 ^ 7); rewrite N.pow2_bits_eqb;
    destruct (N.eqb_spec 7 k); [subst | apply andb_false_r];
    rewrite andb_true_r.
  all: destruct (N.eq_dec n 0) as [->|Hn]; [apply N.bits_0 | apply N.bits_above_log2];
    apply N.log2_lt_pow2; lia.
Qed.

(** Without bit operations. *)
Fixpoint varint_loop' (fuel : nat) (n : N) : bytes :=
  match fuel with
  | O => []
  | S f => if n <? 128 then [n] else (n mod 128 + 128) :: varint_loop' f (n / 128)
  end.

Lemma varint_loop_eq fuel n : varint_loop fuel n = varint_loop' fuel n.
Proof.
  revert n; induction fuel; intros n; cbn [varint_loop varint_loop']; auto.
  rewrite land127, shiftr7. destruct (N.ltb_spec n 128).
  - replace (n / 128) with 0 by lia. change (0 =? 0) with true. cbv iota. f_equal. lia.
  - replace (n / 128 =? 0) with false by lia. rewrite lor128 by lia. rewrite IHfuel. auto.
Qed.

Lemma size_nat_div128 n : 128 <= n -> (S (N.size_nat (n / 128)) <= N.size_nat n)%nat.
Proof.
  intros H.
  assert (Hs : forall m, N.of_nat (N.size_nat m) = N.size m).
  { intros [|p]; cbn; auto. induction p; cbn in *; lia. }
  pose proof (Hs n). pose proof (Hs (n/128)).
  rewrite !N.size_log2 in * by lia.
  assert (N.log2 (n/128) < N.log2 n); [|lia].
  replace (n / 128) with (N.shiftr n 7) by apply shiftr7.
  rewrite N.log2_shiftr. assert (7 <= N.log2 n); [|lia].
  change 7 with (N.log2 128). apply N.log2_le_mono. lia.
Qed.

Lemma varint_loop'_fuel f1 f2 n :
  (N.size_nat n < f1)%nat -> (N.size_nat n < f2)%nat -> varint_loop' f1 n = varint_loop' f2 n.
Proof.
  revert f2 n; induction f1; intros f2 n H1 H2; [lia|].
  destruct f2; [lia|]. cbn [varint_loop']. destruct (N.ltb_spec n 128); auto.
  pose proof (size_nat_div128 n H). f_equal. apply IHf1; lia.
Qed.

(** The defining equation of the writer. *)
Lemma varint_bytes_eq n :
  varint_bytes n = if n <? 128 then [n] else (n mod 128 + 128) :: varint_bytes (n / 128).
Proof.
  unfold varint_bytes at 1. rewrite varint_loop_eq. cbn [varint_loop'].
  destruct (N.ltb_spec n 128); auto. f_equal.
  unfold varint_bytes. rewrite varint_loop_eq.
  pose proof (size_nat_div128 n H). apply varint_loop'_fuel; lia.
Qed.

Lemma varint_ind (P : N -> Prop) :
  (forall n, n < 128 -> P n) ->
  (forall n, 128 <= n -> P (n / 128) -> P n) ->
  forall n, P n.
Proof.
  intros H1 H2 n. induction n as [n IH] using (well_founded_induction N.lt_wf_0).
  destruct (N.lt_ge_cases n 128); auto. apply H2; auto. apply IH. lia.
Qed.

Lemma varint_bytes_ok n : bytes_ok (varint_bytes n).
Proof.
  unfold bytes_ok. induction n as [n H|n H IH] using varint_ind; rewrite varint_bytes_eq.
  - replace (n <? 128) with true by lia. constructor; auto. unfold is_byte. lia.
  - replace (n <? 128) with false by lia. constructor; auto. unfold is_byte. lia.
Qed.

Lemma varint_bytes_nonempty n : exists b r, varint_bytes n = b :: r.
Proof. rewrite varint_bytes_eq. destruct (n <? 128); eauto. Qed.

Lemma varint_bytes_length_pos n : (1 <= length (varint_bytes n))%nat.
Proof. destruct (varint_bytes_nonempty n) as [b [r ->]]. simpl. lia. Qed.

Definition max_ok (max_bits offset n : N) : Prop := max_bits = 0 \/ n * 2 ^ offset < 2 ^ max_bits.

(** Reading what was written, from any accumulator state. *)
Lemma varint_read_loop_write n post maxb acc off c :
  max_ok maxb off n ->
  varint_read_loop (varint_bytes n ++ post) maxb acc off c
  = Ok (acc + n * 2 ^ off, (c + length (varint_bytes n))%nat).
Proof.
  revert acc off c. induction n as [n H|n H IH] using varint_ind; intros acc off c M;
    rewrite varint_bytes_eq.
  - replace (n <? 128) with true by lia. cbn [app varint_read_loop length].
    rewrite land127. replace (n mod 128) with n by lia. rewrite N.eqb_refl.
    rewrite N.shiftl_mul_pow2. f_equal. f_equal. simpl; lia.
  - replace (n <? 128) with false by lia. cbn [app varint_read_loop length].
    rewrite land127. replace ((n mod 128 + 128) mod 128) with (n mod 128) by lia.
    replace (n mod 128 + 128 =? n mod 128) with false by lia.
    assert (M' : max_ok maxb (off + 7) (n / 128)).
    { destruct M as [M|M]; [left; auto|right]. rewrite N.pow_add_r. change (2^7) with 128. nia. }
    assert (Hb : (negb (maxb =? 0) && (maxb <=? off + 7)) = false).
    { destruct M' as [M'|M']; [rewrite M'; reflexivity|].
      apply andb_false_iff. right. apply N.leb_gt.
      apply (N.pow_lt_mono_r_iff 2); [lia|].
      assert (1 <= n / 128) by lia. revert M' H0. generalize (n / 128) (2 ^ (off + 7)). nia. }
    rewrite Hb. rewrite IH by auto. f_equal. f_equal; [|simpl; lia].
    rewrite N.shiftl_mul_pow2, N.pow_add_r. change (2^7) with 128.
    pose proof (N.div_mod n 128). nia.
Qed.

Lemma read_varint_write pre n post maxb :
  max_ok maxb 0 n ->
  read_varint (pre ++ varint_bytes n ++ post) (length pre) maxb
  = Ok (n, (length pre + length (varint_bytes n))%nat).
Proof.
  intros M. unfold read_varint. rewrite skipn_app_length.
  rewrite varint_read_loop_write by auto. cbn [bind]. f_equal. f_equal. change (2^0) with 1. lia.
Qed.

(** ** Reader bounds *)
Lemma varint_read_loop_bounds bs maxb acc off c v k :
  varint_read_loop bs maxb acc off c = Ok (v, k) ->
  (c < k)%nat /\ (k <= c + length bs)%nat.
Proof.
  revert acc off c; induction bs as [|b r IH]; intros acc off c; cbn [varint_read_loop length].
  - discriminate.
  - destruct (b =? N.land b 127); [intros [= <- <-]; lia|].
    destruct (_ && _); [discriminate|]. intros H. apply IH in H. lia.
Qed.

Lemma varint_read_loop_err bs maxb acc off c e :
  varint_read_loop bs maxb acc off c = Err e -> e = EDecode.
Proof.
  revert acc off c; induction bs as [|b r IH]; intros acc off c; cbn [varint_read_loop].
  - congruence.
  - destruct (b =? N.land b 127); [discriminate|].
    destruct (_ && _); [congruence|]. apply IH.
Qed.

(** Only the consumed bytes matter. *)
Lemma varint_read_loop_prefix bs maxb acc off c v k :
  varint_read_loop bs maxb acc off c = Ok (v, k) ->
  forall post, varint_read_loop (firstn (k - c) bs ++ post) maxb acc off c = Ok (v, k).
Proof.
  revert acc off c; induction bs as [|b r IH]; intros acc off c; cbn [varint_read_loop].
  - discriminate.
  - destruct (b =? N.land b 127) eqn:E.
    + intros [= <- <-] post. replace (S c - c)%nat with 1%nat by lia.
      cbn [firstn app varint_read_loop]. rewrite E. reflexivity.
    + destruct (_ && _) eqn:E2; [discriminate|]. intros H post.
      pose proof (varint_read_loop_bounds _ _ _ _ _ _ _ H) as B.
      replace (k - c)%nat with (S (k - S c)) by lia.
      cbn [firstn app varint_read_loop]. rewrite E, E2. apply IH. auto.
Qed.

Lemma read_varint_bounds data pos maxb v p :
  read_varint data pos maxb = Ok (v, p) -> (pos < p <= length data)%nat.
Proof.
  unfold read_varint. intros H. inv_bind.
  apply varint_read_loop_bounds in E. rewrite skipn_length in E. lia.
Qed.

Lemma read_varint_err data pos maxb e : read_varint data pos maxb = Err e -> e = EDecode.
Proof.
  unfold read_varint. intros H. apply bind_Err in H. destruct H as [H|[[? ?] [? H]]].
  - eapply varint_read_loop_err; eauto.
  - discriminate.
Qed.

Lemma varint_read_loop_max bs maxb acc off c v k :
  maxb <> 0 -> off < maxb ->
  varint_read_loop bs maxb acc off c = Ok (v, k) ->
  7 * N.of_nat (k - c) < maxb - off + 7.
Proof.
  intros Hm. revert acc off c; induction bs as [|b r IH]; intros acc off c Ho; cbn [varint_read_loop].
  - discriminate.
  - destruct (b =? N.land b 127); [intros [= <- <-]; lia|].
    replace (maxb =? 0) with false by lia. cbn [negb andb].
    destruct (N.leb_spec maxb (off + 7)); [discriminate|]. intros H2.
    pose proof (varint_read_loop_bounds _ _ _ _ _ _ _ H2).
    apply IH in H2; lia.
Qed.

(** ** Relation with the varint specification *)
From Verif Require Import SpecPrim.

Lemma is_varint_bytes n : is_varint (varint_bytes n) n.
Proof.
  induction n as [n H|n H IH] using varint_ind; rewrite varint_bytes_eq.
  - replace (n <? 128) with true by lia. constructor; lia.
  - replace (n <? 128) with false by lia.
    replace n with (n mod 128 + 128 - 128 + 128 * (n / 128)) at 3 by lia.
    constructor; auto. lia.
Qed.

Lemma is_varint_ok bs n : is_varint bs n -> bytes_ok bs.
Proof.
  unfold bytes_ok, is_byte. induction 1; constructor; auto; lia.
Qed.

Lemma is_varint_length bs n : is_varint bs n -> (1 <= length bs)%nat.
Proof. induction 1; simpl; lia. Qed.

Lemma varint_read_loop_spec bs n : is_varint bs n -> forall post maxb acc off c,
  (maxb = 0 \/ off + 7 * N.of_nat (length bs - 1) < maxb) ->
  varint_read_loop (bs ++ post) maxb acc off c = Ok (acc + n * 2 ^ off, (c + length bs)%nat).
Proof.
  induction 1 as [b Hb|b bs n Hb Hv IH]; intros post maxb acc off c M;
    cbn [app varint_read_loop]; rewrite land127.
  - replace (b mod 128) with b by lia. rewrite N.eqb_refl, N.shiftl_mul_pow2.
    f_equal. f_equal. simpl; lia.
  - replace (b mod 128) with (b - 128) by lia.
    replace (b =? b - 128) with false by lia.
    pose proof (is_varint_length _ _ Hv). cbn [length] in M.
    assert (Hmb : (negb (maxb =? 0) && (maxb <=? off + 7)) = false) by lia.
    rewrite Hmb, IH by lia. f_equal. f_equal; [|simpl; lia].
    rewrite N.shiftl_mul_pow2, N.pow_add_r. change (2^7) with 128. nia.
Qed.

Lemma read_varint_spec pre bs n post maxb :
  is_varint bs n -> (maxb = 0 \/ 7 * N.of_nat (length bs - 1) < maxb) ->
  read_varint (pre ++ bs ++ post) (length pre) maxb = Ok (n, (length pre + length bs)%nat).
Proof.
  intros H M. unfold read_varint. rewrite skipn_app_length.
  rewrite (varint_read_loop_spec _ _ H) by lia. cbn [bind]. f_equal. f_equal.
  change (2^0) with 1. lia.
Qed.

Lemma varint_read_loop_sound bs : bytes_ok bs -> forall maxb acc off c v k,
  varint_read_loop bs maxb acc off c = Ok (v, k) ->
  exists n, is_varint (firstn (k - c) bs) n /\ v = acc + n * 2 ^ off.
Proof.
  unfold bytes_ok, is_byte.
  induction 1 as [|b r Hb Hr IH]; intros maxb acc off c v k; cbn [varint_read_loop].
  - discriminate.
  - rewrite land127. destruct (N.eqb_spec b (b mod 128)) as [E|E].
    + intros [= <- <-]. exists b. replace (S c - c)%nat with 1%nat by lia. cbn [firstn].
      split; [constructor; lia|]. rewrite N.shiftl_mul_pow2. lia.
    + destruct (_ && _) eqn:E2; [discriminate|]. intros H.
      pose proof (varint_read_loop_bounds _ _ _ _ _ _ _ H) as B.
      apply IH in H. destruct H as [n [Hn Hv]].
      exists (b - 128 + 128 * n). replace (k - c)%nat with (S (k - S c)) by lia.
      cbn [firstn]. split; [constructor; auto; lia|].
      rewrite Hv, N.shiftl_mul_pow2, N.pow_add_r. change (2^7) with 128.
      replace (b mod 128) with (b - 128) by lia. nia.
Qed.

Lemma bytes_ok_skipn k bs : bytes_ok bs -> bytes_ok (skipn k bs).
Proof.
  unfold bytes_ok. intros H. rewrite <- (firstn_skipn k bs) in H. apply Forall_app in H. tauto.
Qed.
Lemma bytes_ok_firstn k bs : bytes_ok bs -> bytes_ok (firstn k bs).
Proof.
  unfold bytes_ok. intros H. rewrite <- (firstn_skipn k bs) in H. apply Forall_app in H. tauto.
Qed.

(** What a successful read consumed: the split of the data at the old and new position. *)
Definition consumed (data : bytes) (pos p : nat) (bs : bytes) : Prop :=
  exists pre post, data = pre ++ bs ++ post /\ length pre = pos /\ p = (pos + length bs)%nat.

Lemma skipn_skipn' {A} x y (l : list A) : skipn x (skipn y l) = skipn (y + x) l.
Proof.
  revert l; induction y; intros l; cbn; auto. destruct l; cbn; auto. apply skipn_nil.
Qed.

Lemma consumed_slice data pos p :
  (pos <= p <= length data)%nat -> consumed data pos p (slice data pos (p - pos)).
Proof.
  intros H. exists (firstn pos data), (skipn p data). repeat split.
  - unfold slice. replace (skipn p data) with (skipn (p - pos) (skipn pos data))
      by (rewrite skipn_skipn'; f_equal; lia).
    rewrite firstn_skipn, firstn_skipn. auto.
  - rewrite firstn_length. lia.
  - unfold slice. rewrite firstn_length, skipn_length. lia.
Qed.

Lemma consumed_app data pos p1 p2 a b :
  consumed data pos p1 a -> consumed data p1 p2 b -> consumed data pos p2 (a ++ b).
Proof.
  intros (pre & post & E & L & P) (pre2 & post2 & E2 & L2 & P2).
  exists pre, post2. repeat split; auto.
  - rewrite E in E2. rewrite (app_assoc pre a post) in E2.
    assert (pre2 = pre ++ a).
    { apply (f_equal (firstn (length pre2))) in E2.
      rewrite firstn_app in E2. rewrite (firstn_app (length pre2) pre2) in E2.
      rewrite firstn_all, Nat.sub_diag in E2. rewrite app_length in E2.
      replace (length pre2 - (length pre + length a))%nat with 0%nat in E2 by lia.
      rewrite !firstn_O, !app_nil_r in E2. rewrite firstn_all2 in E2; auto.
      rewrite app_length; lia. }
    subst pre2. rewrite <- !app_assoc in *. apply app_inv_head in E2. apply app_inv_head in E2.
    rewrite E. rewrite E2. auto.
  - rewrite app_length. lia.
Qed.

Lemma consumed_nil data pos : (pos <= length data)%nat -> consumed data pos pos [].
Proof.
  intros H. exists (firstn pos data), (skipn pos data). cbn. rewrite firstn_skipn.
  rewrite firstn_length. repeat split; lia.
Qed.

Lemma consumed_bounds data pos p bs : consumed data pos p bs -> (p = pos + length bs /\ p <= length data)%nat.
Proof.
  intros (pre & post & E & L & P). subst. rewrite !app_length. lia.
Qed.

Lemma consumed_ok data pos p bs : bytes_ok data -> consumed data pos p bs -> bytes_ok bs.
Proof.
  intros H (pre & post & E & L & P). subst data. apply bytes_ok_app in H as [_ H].
  apply bytes_ok_app in H. tauto.
Qed.

Lemma read_varint_sound data pos maxb v p :
  bytes_ok data -> read_varint data pos maxb = Ok (v, p) ->
  exists bs, consumed data pos p bs /\ is_varint bs v /\
             (maxb = 0 \/ 7 * N.of_nat (length bs - 1) < maxb).
Proof.
  intros B H. pose proof (read_varint_bounds _ _ _ _ _ H) as Hb.
  exists (slice data pos (p - pos)). split; [apply consumed_slice; lia|].
  unfold read_varint in H. apply bind_Ok in H as [[v' k'] [E H]]. injection H as <- <-.
  destruct (varint_read_loop_sound _ (bytes_ok_skipn pos _ B) _ _ _ _ _ _ E) as [n' [Hn Hv]].
  rewrite Nat.sub_0_r in Hn. change (2^0) with 1 in Hv. replace (pos + k' - pos)%nat with k' by lia.
  replace v' with n' by lia. split; auto.
  destruct (N.eq_dec maxb 0) as [|Hm]; [left; auto|right].
  pose proof (varint_read_loop_max _ _ _ _ _ _ _ Hm ltac:(rewrite N.neq_0_lt_0 in Hm; exact Hm) E) as HM.
  pose proof (varint_read_loop_bounds _ _ _ _ _ _ _ E) as HB. rewrite skipn_length in HB.
  unfold slice. rewrite firstn_length, skipn_length.
  rewrite Nat.sub_0_r, N.sub_0_r in HM. rewrite Nat.min_l by lia. lia.
Qed.
