(** Which bytes of the data account for an exception of the decoder that is not a decode error. *)
From Coq Require Import List NArith ZArith Bool Lia ZifyBool ZifyNat ZifyN Sorting.Sorted.
From Verif Require Import Base Dict SpecPrim ModelTags ModelPrim PrimFacts PrimFacts2 PrimFacts3 SpecArray ModelArray ArrayFacts
  ArrayFacts2 ArrayFacts3 SpecKey ModelValue KeyFacts SpecObject ModelObject ObjectFacts SpecMap ModelMap MapFacts
  ModelBuffer BufferFacts ModelHeap ModelDecode DecodeFacts SpecCauses.
Import ListNotations.

(** * Sparse storage that is only ever assigned elements *)
Section Calm.
Context {T : Type}.
Local Open Scope Z_scope.
Local Notation zlen := ModelArray.zlen.
(** The key cache is only missing when there are two elements. *)
Definition scalm (s : sparse T) : Prop := s_sorted s = None -> 2 <= zlen (s_items s).
Definition calm (a : arr T) : Prop := match a with ADense _ => True | ASparse s => scalm s end.

Lemma sparse_set_calm s i (v : option T) : sparse_ok s -> scalm s ->
  (v = None -> s_items s = []) ->
  scalm (snd (sparse_set s i v)) /\ fst (sparse_set s i v) <> Err EAssert.
Proof.
  intros OK C V. pose proof OK as [ND [B [M HS]]]. unfold sparse_set.
  destruct (sparse_norm s i) as [j|e] eqn:N.
  2: { cbn. split; [exact C|]. unfold sparse_norm in N.
       repeat match type of N with (if ?b then _ else _) = _ => destruct b end; congruence. }
  destruct v as [v|].
  - destruct (dmem Z.eqb j (s_items s)) eqn:MEM.
    + cbn [fst snd]. split; [|discriminate]. unfold scalm in *. cbn [s_sorted s_items]. intros H. specialize (C H).
      pose proof (dset_length Z.eqb j v (s_items s)) as DL. rewrite MEM in DL. unfold zlen in *. lia.
    + pose proof (dset_length Z.eqb j v (s_items s)) as DL. rewrite MEM in DL.
      destruct (s_sorted s) as [l|] eqn:ES.
      * replace (sorted_assert _ _) with true by (unfold sorted_assert; destruct (_ <=? _); reflexivity). cbn [negb].
        destruct (last l (-1) <? j) eqn:EL; cbn [fst snd]; (split; [|discriminate]); unfold scalm; cbn [s_sorted s_items];
          [discriminate|intros _].
        cbn in HS. destruct HS as [_ S2]. destruct l as [|a l'].
        { exfalso. cbn in EL. unfold sparse_norm, sparse_len in N.
          destruct (i <? 0) eqn:I0; [destruct (_ <? 0) eqn:I1 in N|destruct (_ <=? _) in N]; try discriminate N; injection N as <-; lia. }
        assert (In a (dkeys (s_items s))) as IA by (apply S2; left; reflexivity).
        destruct (s_items s) as [|p q] eqn:EI; [destruct IA|]. cbn [length] in DL. unfold zlen. lia.
      * specialize (C ES). unfold sorted_assert. replace (zlen _ <=? 1) with false by (unfold zlen in *; lia). cbn [negb fst snd].
        split; [|discriminate]. unfold scalm; cbn [s_sorted s_items]. unfold zlen in *. intros _. lia.
  - rewrite (V eq_refl). cbn [dmem dget]. cbn [fst snd]. split; [exact C|discriminate].
Qed.
Lemma sparse_init_calm (items : list (Z * T)) n s : sparse_init_length items n = Ok s -> scalm s.
Proof.
  unfold sparse_init_length. destruct (_ || _); [discriminate|]. destruct (sparse_fill n items []) as [it valid].
  destruct valid; [|discriminate]. intros H. injection H as <-. unfold scalm. cbn [s_sorted s_items].
  destruct it as [|x [|y r]]; try discriminate. intros _. unfold zlen. cbn [length]. lia.
Qed.
Lemma ensure_calm (a : arr T) k : calm a -> calm (snd (ensure_array_capacity a k)).
Proof.
  intros C. unfold ensure_array_capacity. destruct (k <? arr_len a); [exact C|].
  assert (calm (snd (arr_resize a (k + 1)))) as RS.
  { destruct a as [d|s]; cbn [arr_resize].
    - destruct (dense_resize d (k + 1)). exact I.
    - unfold sparse_resize. destruct (_ || _); [exact C|]. destruct (sparse_sorted s) as [l s1]. cbn. unfold scalm. cbn. discriminate. }
  destruct a as [d|s]; [|exact RS].
  destruct (_ && _); [|exact RS].
  destruct (view_items (ADense d)) as [[items|e] a2]; [|exact C].
  destruct (sparse_init_length items (k + 1)) as [s|e] eqn:E; [|exact C]. cbn. eapply sparse_init_calm; eauto.
Qed.
Lemma set_calm (o : jsobj T) m p v : rep o m -> pok p -> calm (jo_arr o) -> (v = None -> o = jo_empty) ->
  calm (jo_arr (snd (jo_set o p v))) /\ fst (jo_set o p v) <> Err EAssert.
Proof.
  intros R PK C V. destruct p as [s|z]; cbn [jo_set]; [cbn; split; [exact C|discriminate]|].
  pose proof (ensure_calm (jo_arr o) z C) as C1. pose proof R as [A _].
  destruct (ensure_spec (jo_arr o) z A PK) as [a1 [E1 [A1 [L1 [EL1 _]]]]]. rewrite E1 in *. cbn [snd] in C1.
  destruct a1 as [d|s]; cbn [arr_set].
  - cbn [arr_ok] in A1. pose proof (dense_set_spec d z v A1) as S1.
    destruct (position (d_items d) z) as [k|] eqn:P.
    + destruct S1 as [d' [-> _]]. cbn. split; [exact I|discriminate].
    + destruct (dense_set d z v) as [r d'] eqn:E. cbn. split; [exact I|]. injection S1 as -> ->. discriminate.
  - cbn [arr_ok calm] in *. destruct (sparse_set_calm s z v A1 C1) as [S1 S2].
    + intros EV. rewrite (V EV) in EL1. cbn [jo_empty jo_arr aabs dense_init d_items] in EL1.
      destruct (s_items s) as [|[k w] r] eqn:EI; [reflexivity|]. exfalso.
      specialize (EL1 k). pose proof A1 as [ND [B [M _]]]. rewrite EI in B.
      assert (0 <= k <= s_max s) as KB by (apply B; left; reflexivity).
      unfold elem_at in EL1. replace (k <? 0) with false in EL1 by lia. cbn [aabs] in EL1. unfold sabs in EL1.
      rewrite items_abs_nth in EL1. unfold sparse_len in EL1.
      replace (Z.to_nat k <? Z.to_nat (s_max s + 1))%nat with true in EL1 by lia.
      rewrite Z2Nat.id, EI in EL1 by lia. cbn [dget] in EL1. rewrite Z.eqb_refl in EL1.
      destruct (Z.to_nat k); discriminate EL1.
    + destruct (sparse_set s z v) as [r s']. cbn in *. split; auto.
Qed.
End Calm.

Open Scope N_scope.
(** * Sizes *)
Lemma varint_bound bs n : is_varint bs n -> n < 2 ^ (7 * lenN bs).
Proof.
  induction 1 as [b B|b bs n B V IH].
  - cbn. exact B.
  - unfold lenN in *. cbn [length]. rewrite Nat2N.inj_succ, N.mul_succ_r, N.pow_add_r.
    change (2 ^ 7) with 128. nia.
Qed.
Lemma product_lt a b c d : (0 < a -> a <= b -> 0 < c -> c < d -> a * c < b * d)%Z.
Proof. intros. apply Z.lt_le_trans with (a * d)%Z; [apply Zmult_lt_compat_l; lia|apply Zmult_le_compat_r; lia]. Qed.
Transparent digit_limit.
Lemma limit_bits : (2 ^ 14280 < digit_limit)%Z.
Proof.
  unfold digit_limit. replace 14280%Z with (93 * 153 + 51)%Z by reflexivity. replace 4300%Z with (28 * 153 + 16)%Z by reflexivity.
  rewrite !Z.pow_add_r, !Z.pow_mul_r by lia.
  apply product_lt; [apply Z.pow_pos_nonneg; lia|apply Z.pow_le_mono_l; lia|lia|lia].
Qed.
Opaque digit_limit.
Lemma varint_limit data pos mb n p : bytes_ok data -> read_varint data pos mb = Ok (n, p) ->
  (digit_limit <= Z.of_N n)%Z -> (2040 < length data)%nat.
Proof.
  intros B H L. apply read_varint_sound in H as [bs [C [V _]]]; auto. apply varint_bound in V.
  apply consumed_bounds in C.
  destruct (Nat.ltb_spec 2040 (length data)) as [X|X]; [exact X|exfalso].
  assert (length bs <= 2040)%nat as LB.
  { lia. }
  assert (n < 2 ^ 14280) as L1.
  { eapply N.lt_le_trans; [exact V|]. apply N.pow_le_mono_r; [discriminate|]. unfold lenN. clear - LB. lia. }
  apply N2Z.inj_lt in L1. rewrite N2Z.inj_pow in L1. change (Z.of_N 2 ^ Z.of_N 14280)%Z with (2 ^ 14280)%Z in L1.
  exact (Z.lt_irrefl _ (Z.le_lt_trans _ _ _ L (Z.lt_trans _ _ _ L1 limit_bits))).
Qed.

Lemma utf8_len s bs : utf8_decode bs = Some s -> (length s <= length bs)%nat.
Proof.
  intros H. apply utf8_decode_iff in H. induction H as [|c s b bs U H IH]; [cbn; lia|].
  rewrite app_length. cbn [length]. assert (1 <= length b)%nat; [|lia]. destruct U; cbn; lia.
Qed.
Lemma utf16_len s bs : bytes_ok bs -> utf16_decode bs = Some s -> (length s <= length bs)%nat.
Proof.
  intros B H. apply (utf16_decode_sound (length bs)) in H; auto. induction H as [|c s b bs U H IH]; [cbn; lia|].
  rewrite app_length. cbn [length]. apply bytes_ok_app in B as [_ B]. specialize (IH B).
  assert (1 <= length b)%nat; [|lia]. destruct U; cbn; lia.
Qed.

(** * The decoder *)
Section Causes.
Variable cfg : dcfg.
Variable data : bytes.
Variable version : N.
Hypothesis BD : bytes_ok data.
Hypothesis PC : plain_constants cfg.
Notation len := (length data).
Local Open Scope nat_scope.

Definition postc {A} (P : A -> Prop) (r : result A) : Prop :=
  match r with Ok a => P a | Err e => accounted data e end.
Lemma postc_bind {A B} (P : A -> Prop) (Q : B -> Prop) m (k : A -> result B) :
  postc P m -> (forall a, P a -> postc Q (k a)) -> postc Q (bind m k).
Proof. destruct m; cbn; auto. Qed.
Lemma postc_weaken {A} (P Q : A -> Prop) m : postc P m -> (forall a, P a -> Q a) -> postc Q m.
Proof. destruct m; cbn; auto. Qed.
(** A reader whose only exception is a decode error. *)
Lemma postc_leaf {A} (P : A -> Prop) m : post P m -> (forall e, m = Err e -> e = EDecode) -> postc P m.
Proof. destruct m; cbn; auto. intros _ H. rewrite (H e eq_refl). exact I. Qed.

Definition fine (v : val) : Prop :=
  (v = VHole -> has data kTheHole) /\ (huge v -> has data kBigInt \/ has data kBigIntObject).
Definition short (v : val) : Prop := forall k, val_key v = Some k -> too_long k -> 2040 < len.
Definition logged (st : dstate) : Prop := Forall fine (ds_log st).

Lemma fine_other v : v <> VHole -> (forall z, v <> VInt z) -> fine v.
Proof. intros A B. split; [congruence|]. intros [z [E _]]. destruct (B z E). Qed.
Lemma fine_small z : (Z.abs z < 2 ^ 64)%Z -> fine (VInt z).
Proof.
  intros L. split; [discriminate|]. intros [y [E H]]. injection E as <-. exfalso.
  assert (2 ^ 64 < 2 ^ 1024 - 2 ^ 970)%Z by (vm_compute; reflexivity). lia.
Qed.
Lemma record_logged st v : logged st -> fine v -> logged (record v st).
Proof. intros L F. unfold logged, record. cbn [ds_log]. apply Forall_app. split; [exact L|]. constructor; auto. Qed.

(** ** Leaf readers *)
Definition adv1c {A} (pos : nat) (x : A * nat) : Prop := pos < snd x <= len.
Definition advc {A} (pos : nat) (x : A * nat) : Prop := pos <= snd x <= len.
Ltac advl := unfold adv1c, advc in *; cbn [fst snd postc] in *; intros; lia.
Lemma has_consumed pos p a b c : consumed data pos p (a ++ b :: c) -> In b data.
Proof.
  intros (pre & post & E & _ & _). rewrite E. rewrite !in_app_iff. cbn [In]. tauto.
Qed.
Lemma tag_c pos : postc (fun x => adv1c pos x /\ has data (fst x)) (read_tag data pos).
Proof.
  destruct (read_tag data pos) as [[t p]|e] eqn:E; cbn.
  - apply read_tag_sound in E as [_ [k C]]. split; [|eapply has_consumed; exact C].
    apply consumed_bounds in C as [-> B]. unfold adv1c. rewrite app_length in *. cbn [length snd] in *. lia.
  - apply read_tag_err in E. subst. exact I.
Qed.
Lemma varint_c pos mb : postc (fun x => adv1c pos x /\ ((digit_limit <= Z.of_N (fst x))%Z -> 2040 < len)) (read_varint data pos mb).
Proof.
  destruct (read_varint data pos mb) as [[n p]|e] eqn:E; cbn.
  - split; [apply read_varint_bounds in E; exact E|]. eapply varint_limit; eauto.
  - apply read_varint_err in E. subst. exact I.
Qed.
Lemma uint32_c pos : postc (fun x => adv1c pos x /\ (fst x < 2 ^ 32)%N) (read_uint32 data pos).
Proof.
  destruct (read_uint32 data pos) as [[n p]|e] eqn:E; cbn.
  - split; [|eapply read_uint32_range; eauto]. unfold read_uint32 in E. apply bind_Ok in E as [[v q] [E H]].
    destruct (in_uint32 _); [|discriminate H]. injection H as <- <-. apply read_varint_bounds in E. exact E.
  - unfold read_uint32 in E. apply bind_Err in E as [E|[[v q] [_ E]]].
    + apply read_varint_err in E. subst. exact I.
    + destruct (in_uint32 _); [discriminate E|]. injection E as <-. exact I.
Qed.
Lemma int32_c pos : postc (fun x => adv1c pos x /\ (Z.abs (fst x) < 2 ^ 32)%Z) (read_int32 data pos).
Proof.
  destruct (read_int32 data pos) as [[n p]|e] eqn:E; cbn.
  - split; [|apply read_int32_range in E; unfold in_int32 in E; lia]. unfold read_int32 in E. apply bind_Ok in E as [[v q] [E H]].
    destruct (in_int32 _); [|discriminate H]. injection H as <- <-. apply read_varint_bounds in E. exact E.
  - unfold read_int32 in E. apply bind_Err in E as [E|[[v q] [_ E]]].
    + apply read_varint_err in E. subst. exact I.
    + destruct (in_int32 _); [discriminate E|]. injection E as <-. exact I.
Qed.
Lemma bytes_c pos n : postc (fun x => advc pos x /\ length (fst x) <= len /\ bytes_ok (fst x)) (read_bytes data pos n).
Proof.
  destruct (read_bytes data pos n) as [[t p]|e] eqn:E; cbn.
  - apply read_bytes_sound in E as [C _]. pose proof (consumed_ok _ _ _ _ BD C). apply consumed_bounds in C.
    unfold advc; cbn. split; [lia|]. split; [lia|auto].
  - apply read_bytes_err in E. subst. exact I.
Qed.
Lemma double_c pos : postc (advc pos) (read_double data pos).
Proof. unfold read_double. eapply postc_bind; [apply bytes_c|]. intros [v p] [A _]. exact A. Qed.
Lemma bigint_c pos : postc (adv1c pos) (read_bigint data pos).
Proof.
  unfold read_bigint. eapply postc_bind; [apply varint_c|]. intros [v p] [A _].
  eapply postc_bind; [apply bytes_c|]. intros [bs p2] [B _]. advl.
Qed.
Lemma onebyte_c pos : postc (fun x => adv1c pos x /\ length (fst x) <= len) (read_onebyte data pos).
Proof.
  unfold read_onebyte. eapply postc_bind; [apply varint_c|]. intros [v p] [A _].
  eapply postc_weaken; [apply bytes_c|]. intros x [B [C _]]. split; [advl|exact C].
Qed.
Lemma twobyte_c pos : postc (fun x => adv1c pos x /\ length (fst x) <= len) (read_twobyte data pos).
Proof.
  unfold read_twobyte. eapply postc_bind; [apply varint_c|]. intros [v p] [A _].
  eapply postc_bind; [apply bytes_c|]. intros [bs p2] [B [C O]]. destruct (utf16_decode bs) eqn:E; [|exact I].
  apply utf16_len in E; auto. cbn [postc fst] in *. split; [advl|lia].
Qed.
Lemma utf8_c pos : postc (fun x => adv1c pos x /\ length (fst x) <= len) (read_utf8 data pos).
Proof.
  unfold read_utf8. eapply postc_bind; [apply varint_c|]. intros [v p] [A _].
  eapply postc_bind; [apply bytes_c|]. intros [bs p2] [B [C O]]. destruct (utf8_decode bs) eqn:E; [|exact I].
  apply utf8_len in E; auto. cbn [postc fst] in *. split; [advl|lia].
Qed.
Lemma errtag_c pos : has data kError -> postc (adv1c pos) (read_error_tag data pos).
Proof.
  intros H. unfold read_error_tag. destruct (has_capacity data pos 1); cbn [negb]; [|exact I].
  eapply postc_bind; [apply varint_c|]. intros [v p] [A _]. destruct (etag_of_code v); [exact A|].
  destruct (nth_error data p); [exact I|]. left. exact H.
Qed.
Lemma count_c pos n : postc (fun p => pos < p <= len) (check_count data pos n).
Proof.
  unfold check_count. eapply postc_bind; [apply varint_c|]. intros [v p] [A _]. destruct (v =? n)%N; cbn; auto.
Qed.
Lemma peak_c pos : pos <= len \/ has data kResizableArrayBuffer ->
  postc (fun t => pos <= len /\ (t = Some kArrayBufferView -> has data kArrayBufferView)) (peak_tag data pos).
Proof.
  intros H. unfold peak_tag. destruct (Nat.eqb_spec pos len); [cbn; split; [lia|discriminate]|].
  destruct (nth_error data pos) as [b|] eqn:E; cbn.
  - assert (pos < len) by (apply nth_error_Some; congruence). split; [lia|]. intros T.
    apply tag_of_byte_inv in T. subst b. eapply nth_error_In; eauto.
  - apply nth_error_None in E. right. destruct H; [lia|auto].
Qed.

(** ** Composite readers *)
Definition reads {A} (pos : nat) (x : A * nat * dstate) : Prop := pos <= snd (fst x) <= len /\ logged (snd x).
Definition reads_val (pos : nat) (x : val * nat * dstate) : Prop := reads pos x /\ fine (fst (fst x)).
Ltac adv :=
  unfold adv1c, advc, reads_val, reads in *; cbn [fst snd postc alloc_rec alloc] in *; intros;
  repeat match goal with x : _ * _ |- _ => destruct x end; cbn [fst snd] in *;
  repeat match goal with H : _ /\ _ |- _ => destruct H end;
  first [split; [split; [lia|eauto]|eauto] | split; [lia|eauto] | lia].
Lemma fine_ref i : fine (VRef i).
Proof. apply fine_other; discriminate. Qed.
Hint Resolve fine_ref record_logged : core.
Lemma alloc_logged o st : logged st -> logged (snd (alloc o st)).
Proof. intros L. exact L. Qed.
Lemma alloc_rec_logged o st : logged st -> logged (snd (alloc_rec o st)).
Proof. intros L. unfold alloc_rec. cbn [alloc snd]. apply record_logged; [exact L|apply fine_ref]. Qed.
Lemma store_logged i o st : logged st -> logged (store i o st).
Proof. intros L. exact L. Qed.
Hint Resolve alloc_logged alloc_rec_logged store_logged : core.

Lemma view_c buffer pos st : has data kArrayBufferView -> logged st ->
  postc (reads_val pos) (dec_view data version buffer pos st).
Proof.
  intros V LG. unfold dec_view. eapply postc_bind; [apply varint_c|]. intros [code p] [A _].
  destruct (vtag_of_code code) as [vt|]; [|exact I].
  eapply postc_bind; [apply uint32_c|]. intros [off p2] [B _].
  eapply postc_bind; [apply uint32_c|]. intros [ln p3] [C _].
  eapply postc_bind with (P := advc p3).
  { destruct (14 <=? version)%N; [eapply postc_weaken; [apply varint_c|]; advl|]. advl. }
  intros [flags p4] D.
  destruct (view_from_bytes _ _ _ _ _) as [v|e] eqn:E; cbn [bind].
  - pose proof (alloc_rec_logged (OView buffer v) st LG) as LG2. destruct (alloc_rec _ _) as [i st2]. cbn [snd] in LG2.
    adv.
  - cbn. unfold view_from_bytes in E.
    repeat match type of E with (if ?b then _ else _) = _ => destruct b; [injection E as <-; exact V|] end.
    apply bind_Err in E. destruct E as [E|[x [_ E]]].
    + unfold view_new in E. 
      assert (0 <= isize vt)%Z by (unfold isize; lia).
      assert (0 < isize vt)%Z by (destruct vt; reflexivity).
      destruct (_ <? 0)%Z eqn:L in E.
      { exfalso. pose proof (Z.div_pos (Z.of_N off) (isize vt)). lia. }
      destruct (N.odd flags); [discriminate E|].
      destruct (_ <? 0)%Z eqn:L2 in E; [|discriminate E].
      exfalso. pose proof (Z.div_pos (Z.of_N ln) (isize vt)). lia.
    + destruct (bk_data _); [|discriminate E].
      match type of E with (if ?b then _ else _) = _ => destruct b; [injection E as <-; exact V|discriminate E] end.
Qed.
Lemma maybe_view_c buffer pos q st : q <= pos -> pos <= len \/ has data kResizableArrayBuffer -> logged st ->
  postc (reads_val q) (dec_maybe_view data version buffer pos st).
Proof.
  intros Q H LG. unfold dec_maybe_view. eapply postc_bind; [apply peak_c; exact H|]. intros t [L HV].
  assert (postc (reads_val q) (Ok (VRef buffer, pos, st))) as D by (adv).
  destruct t as [t|]; [|exact D]. destruct t; try exact D.
  eapply postc_weaken; [apply view_c; auto|]. intros x. unfold reads_val, reads. intros [[X Y] Z']. split; [split; [lia|auto]|auto].
Qed.
Lemma plain_c pos st : logged st -> postc (reads_val pos) (dec_buffer_plain data version pos st).
Proof.
  intros LG. unfold dec_buffer_plain. eapply postc_bind; [apply uint32_c|]. intros [n p] [A _].
  destruct (has_capacity data p n) eqn:HC; [cbn [negb]|exact I].
  rewrite jsbuf_plain. cbn [bind].
  pose proof (alloc_rec_logged (OBuffer (mkBuf (slice data p (N.to_nat n)) (zlen (slice data p (N.to_nat n))) false false)) st LG) as LG2.
  destruct (alloc_rec _ _) as [i st2]. cbn [snd] in LG2.
  unfold has_capacity, lenN in HC. unfold adv1c in A. cbn [snd] in A.
  apply maybe_view_c; [lia|left; lia|auto].
Qed.
Lemma resizable_c pos st : has data kResizableArrayBuffer -> logged st ->
  postc (reads_val pos) (dec_buffer_resizable data version pos st).
Proof.
  intros HR LG. unfold dec_buffer_resizable. eapply postc_bind; [apply uint32_c|]. intros [n p] [A _].
  destruct (_ <? _)%N; [cbn [negb]|exact I].
  eapply postc_bind; [apply uint32_c|]. intros [mx p2] [B _].
  destruct (mx <? n)%N eqn:L; [exact I|].
  rewrite jsbuf_resizable.
  2: { pose proof (slice_length data p2 (N.to_nat n)). unfold zlen. lia. }
  cbn [bind].
  pose proof (alloc_rec_logged (OBuffer (mkBuf (slice data p2 (N.to_nat n)) (Z.of_N mx) true false)) st LG) as LG2.
  destruct (alloc_rec _ _) as [i st2]. cbn [snd] in LG2. unfold adv1c in A, B. cbn [snd] in A, B.
  apply maybe_view_c; [lia|right; auto|auto].
Qed.
Lemma buffer_id_c mk pos st : logged st -> postc (reads_val pos) (dec_buffer_id data version mk pos st).
Proof.
  intros LG. unfold dec_buffer_id. eapply postc_bind; [apply uint32_c|]. intros [n p] [A _].
  pose proof (alloc_logged (mk n) st LG) as LG2. destruct (alloc _ _) as [i st2]. cbn [snd] in LG2.
  unfold adv1c in A. cbn [snd] in A. apply maybe_view_c; [lia|left; lia|auto].
Qed.
Lemma reference_c pos st : logged st -> postc (reads_val pos) (dec_reference data version pos st).
Proof.
  intros LG. unfold dec_reference. eapply postc_bind; [apply varint_c|]. intros [id p] [A _].
  destruct (_ <? _)%N; [cbn [negb]|exact I].
  destruct (nth_error (ds_log st) (N.to_nat id)) as [v|] eqn:E; [|exact I].
  assert (fine v) as FV. { unfold logged in LG. rewrite Forall_forall in LG. apply LG. eapply nth_error_In; eauto. }
  unfold adv1c in A. cbn [snd] in A.
  assert (postc (reads_val pos) (Ok (v, p, st))) as D by adv.
  destruct v as [| | | | | | |oid]; try exact D. destruct (nth_error (ds_heap st) oid) as [x|]; [|exact D].
  destruct (is_buffer x); [|exact D].
  apply maybe_view_c; [lia|left; lia|auto].
Qed.
Lemma host_c pos st : logged st -> postc (reads_val pos) (dec_host data pos st).
Proof.
  intros LG. unfold dec_host. eapply postc_bind; [apply uint32_c|]. intros [code p] [A _].
  eapply postc_bind; [apply uint32_c|]. intros [n p2] [B _].
  destruct (node_format code); [|exact I].
  destruct (has_capacity data p2 n) eqn:C; cbn [negb]; [|exact I].
  rewrite jsbuf_plain. change (view_new v 0 None false) with (Ok (mkView v 0 None false)). cbn [bind alloc].
  unfold has_capacity, lenN in C. adv.
Qed.
Lemma date_c pos st : has data kDate -> logged st -> postc (reads_val pos) (dec_date cfg data pos st).
Proof.
  intros HD LG. unfold dec_date. eapply postc_bind; [apply double_c|]. intros [b p] A.
  destruct (c_date cfg b) as [d|[]]; cbn [date_err]; [|cbn; auto|cbn; auto|cbn; auto].
  pose proof (alloc_rec_logged (ODate d) st LG) as LG2. destruct (alloc_rec _ _) as [i st2]. cbn [snd] in LG2.
  adv.
Qed.

(** ** Accumulators *)
Definition quiet (a : obj) : Prop :=
  acc_ok a /\
  match a with
  | OMap _ => has data kBeginJSMap
  | OObject o | OArray o => has data kTheHole \/ calm (jo_arr o)
  | _ => False
  end.
Lemma jo_put_c fr (o : jsobj val) k v : (exists m, rep o m) -> has data kTheHole \/ calm (jo_arr o) ->
  val_key k <> None -> short k -> (v = VHole -> has data kTheHole \/ o = jo_empty) ->
  postc (fun o' => (exists m, rep o' m) /\ (has data kTheHole \/ calm (jo_arr o'))) (jo_put fr o k v).
Proof.
  intros [m R] C K SH HV. unfold jo_put. destruct (val_key k) as [kk|] eqn:EK; [|congruence].
  destruct (normalise_property_key fr kk) as [p|e] eqn:N; cbn [bind].
  - pose proof (norm_pok _ _ _ N) as PK.
    destruct (rep_set o m p (elem_of v) R PK) as [r [o' [E [R' [Out _]]]]].
    assert (has data kTheHole \/ (calm (jo_arr o') /\ r <> Err EAssert)) as D.
    { destruct C as [C|C]; [left; exact C|].
      assert (has data kTheHole \/ (elem_of v = None -> o = jo_empty)) as [H|H].
      { destruct v; try (right; discriminate). destruct HV as [H|H]; auto. }
      - left; exact H.
      - right. pose proof (set_calm o m p (elem_of v) R PK C H) as SC. rewrite E in SC. exact SC. }
    rewrite E. destruct Out as [->|[-> _]]; cbn.
    + split; [eauto|]. tauto.
    + destruct D as [D|[_ D]]; [exact D|congruence].
  - apply normalise_error in N as [-> TL]. right. right. exact (SH kk EK TL).
Qed.
Lemma put_c acc k v : quiet acc -> key_ok acc k = true -> fine v ->
  (match acc with OMap _ => fine k | _ => short k end) ->
  postc (fun acc' => quiet acc' /\ same_kind acc acc') (put cfg acc k v).
Proof.
  intros [A Q] K FV FK. destruct acc; cbn [acc_ok] in A; try contradiction; cbn [put].
  - pose proof (jm_set_spec no_bytes m k v A) as J. destruct (jm_set no_bytes m k v); cbn.
    + split; [split; [apply J|exact Q]|exact I].
    + destruct J as [-> HG]. right. split; [left; exact Q|]. apply FK. exact HG.
  - eapply postc_bind; [apply jo_put_c; [exact A|exact Q| |exact FK|]|].
    + cbn in K. destruct (val_key k); congruence.
    + intros ->. left. apply FV. reflexivity.
    + intros o' [R C]. cbn. split; [split; [exact R|exact C]|exact I].
  - eapply postc_bind; [apply jo_put_c; [exact A|exact Q| |exact FK|]|].
    + cbn in K. destruct (val_key k); congruence.
    + intros ->. left. apply FV. reflexivity.
    + intros o' [R C]. cbn. split; [split; [exact R|exact C]|exact I].
Qed.
Lemma put_member_c acc v : set_ok acc -> has data kBeginJSSet -> fine v -> postc set_ok (put_member acc v).
Proof.
  destruct acc; cbn [set_ok]; try contradiction. intros A HS FV. cbn [put_member].
  pose proof (js_add_spec no_bytes m v A) as J. destruct (js_add no_bytes m v); cbn.
  - apply J.
  - destruct J as [-> HG]. right. split; [right; exact HS|]. apply FV. exact HG.
Qed.
Lemma short_string s : length s <= len -> short (VStr s).
Proof. intros L k E TL. injection E as <-. destruct TL as [_ TL]. lia. Qed.
Lemma short_int z : ((digit_limit <= Z.abs z)%Z -> 2040 < len) -> short (VInt z).
Proof. intros L k E TL. injection E as <-. exact (L TL). Qed.
Lemma short_small z : (Z.abs z < 2 ^ 64)%Z -> short (VInt z).
Proof.
  intros L. apply short_int. intros H. exfalso. 
  assert (2 ^ 64 < 2 ^ 14280)%Z as P by (apply Z.pow_lt_mono_r; reflexivity || discriminate).
  exact (Z.lt_irrefl _ (Z.le_lt_trans _ _ _ H (Z.lt_trans _ _ _ L (Z.lt_trans _ _ _ P limit_bits)))).
Qed.
Lemma short_float b : short (VFloat b).
Proof. intros k E TL. injection E as <-. destruct TL. Qed.

Definition rec_c (fuel : nat) (rec : reader) : Prop :=
  forall t pos st, pos <= len -> len - pos + 1 < fuel -> has data t -> logged st ->
    postc (fun x => reads_val pos x /\ typed t (fst (fst x)) /\
             (tag_in t JS_OBJECT_KEY_TAGS = true -> short (fst (fst x)))) (rec t pos st).

Section Rec.
Variable rec : reader.
Variable fuel : nat.
Hypothesis R : rec_c fuel rec.

Lemma value_c pos st : len - pos < fuel -> logged st -> postc (reads_val (S pos)) (dec_value data rec pos st).
Proof.
  intros F LG. unfold dec_value. eapply postc_bind; [apply tag_c|]. intros [t p] [A HT]. unfold adv1c in A; cbn in A, HT.
  eapply postc_weaken; [apply R; auto; lia|]. unfold reads_val, reads. intros x [[[B LX] FX] _].
  split; [split; [lia|exact LX]|exact FX].
Qed.
Lemma string_c pos st : len - pos < fuel -> logged st -> postc (reads (S pos)) (dec_string data rec pos st).
Proof.
  intros F LG. unfold dec_string. eapply postc_bind; [apply tag_c|]. intros [t p] [A HT]. unfold adv1c in A; cbn in A, HT.
  destruct (tag_in t JS_STRING_TAGS) eqn:T; cbn [negb]; [|exact I].
  eapply postc_bind; [apply R; auto; lia|]. intros [[v p2] st2] [B [[_ ST] _]]. destruct (ST T) as [s Es]. cbn in Es. subst v.
  unfold reads_val, reads in *. cbn in *. split; [lia|tauto].
Qed.
Lemma regexp_c pos st : has data kRegExp -> len - pos < fuel -> logged st -> postc (reads_val pos) (dec_regexp data rec pos st).
Proof.
  intros HR F LG. unfold dec_regexp. eapply postc_bind; [apply string_c; auto|]. intros [[s p] st2] [A LG2]. cbn in A, LG2.
  eapply postc_bind; [apply varint_c|]. intros [fl p2] [B _]. unfold adv1c in B. cbn in B.
  unfold regexp_new. destruct (_ && _)%bool; cbn [bind]; [left; exact HR|].
  match goal with |- context [alloc_rec ?o st2] => pose proof (alloc_rec_logged o st2 LG2) as LG3; destruct (alloc_rec o st2) as [i st3] end.
  cbn [snd] in LG3. unfold reads_val, reads. cbn. split; [split; [lia|exact LG3]|apply fine_ref].
Qed.
Lemma field_c f e pos st : has data kError -> len - pos < fuel -> pos <= len -> logged st ->
  postc (reads pos) (dec_field data rec f e pos st).
Proof.
  intros HE F L LG. unfold dec_field. destruct (etag_beq e f); [|cbn; unfold reads; cbn; split; [lia|exact LG]].
  eapply postc_bind; [apply string_c; auto|]. intros [[s p] st2] [A LG2]. cbn in A, LG2.
  eapply postc_bind; [apply errtag_c; exact HE|]. intros [e2 p2] B. unfold adv1c in B. cbn in B.
  cbn; unfold reads; cbn; split; [lia|exact LG2].
Qed.
Lemma error_c pos st : has data kError -> len - pos < fuel -> logged st -> postc (reads_val pos) (dec_error data rec pos st).
Proof.
  intros HE F LG. unfold dec_error. eapply postc_bind; [apply errtag_c; exact HE|]. intros [e p] A.
  eapply postc_bind with (P := advc p).
  { destruct (ename_beq _ _); [advl|]. eapply postc_weaken; [apply errtag_c; exact HE|]. advl. }
  intros [e2 p2] B. unfold advc, adv1c in A, B; cbn [fst snd] in A, B. cbn zeta.
  eapply postc_bind; [apply field_c; auto; lia|]. intros [[[m e3] p3] st3] [C LG3]. cbn in C, LG3.
  eapply postc_bind; [apply field_c; auto; lia|]. intros [[[s e4] p4] st4] [D LG4]. cbn in D, LG4.
  match goal with |- context [alloc_rec ?o st4] => pose proof (alloc_rec_logged o st4 LG4) as LG5; destruct (alloc_rec o st4) as [i st5] end.
  cbn [snd] in LG5.
  eapply postc_bind with (P := reads p4).
  { destruct (etag_beq e4 eCause); [|cbn; unfold reads; cbn; split; [lia|exact LG5]].
    eapply postc_bind; [apply value_c; auto; lia|]. intros [[c p5] st6] [[E LG6] _]. cbn in E, LG6.
    eapply postc_bind; [apply errtag_c; exact HE|]. intros [e6 p6] G. unfold adv1c in G. cbn in G.
    cbn; unfold reads; cbn; split; [lia|exact LG6]. }
  intros [[[c e5] p5] st6] [E LG6]. cbn in E, LG6.
  eapply postc_bind with (P := reads p5).
  { destruct s; [cbn; unfold reads; cbn; split; [lia|exact LG6]|]. apply field_c; auto; lia. }
  intros [[[s6 e6] p6] st7] [G LG7]. cbn in G, LG7.
  destruct (etag_beq e6 eEnd); [|exact I]. cbn. unfold reads_val, reads. cbn.
  split; [split; [lia|apply store_logged; exact LG7]|apply fine_ref].
Qed.

Lemma pairs_c isk endt : forall f pos acc n st, f <= fuel -> len - pos < f -> quiet acc -> logged st ->
  (match acc with OMap _ => True | _ => forall t, isk t = true -> is_object_key t = true end) ->
  postc (reads (S pos)) (dec_pairs cfg data rec isk endt f pos acc n st).
Proof.
  induction f as [|f IH]; intros pos acc n st LE F A LG K; [lia|]. cbn [dec_pairs].
  eapply postc_bind; [apply tag_c|]. intros [t p] [B HT]. unfold adv1c in B; cbn in B, HT.
  destruct (stag_eqb t endt).
  { cbn. unfold reads; cbn. split; [lia|exact LG]. }
  destruct (isk t) eqn:T; [|exact I].
  eapply postc_bind; [apply R; auto; lia|]. intros [[k p2] st2] [[[C LG2] FK] [[TK _] SK]]. cbn in C, TK, LG2, FK, SK.
  assert (key_ok acc k = true) as KO.
  { destruct acc; auto; cbn; (destruct (val_key k) eqn:V; [reflexivity|]); exfalso; apply (TK (K t T)); reflexivity. }
  rewrite KO. cbn [negb].
  eapply postc_bind; [apply value_c; auto; lia|]. intros [[v p3] st3] [[D LG3] FV]. cbn in D, LG3, FV.
  eapply postc_bind; [apply put_c; auto|].
  { destruct acc; try exact FK; apply SK; apply K; exact T. }
  intros acc' [A' SM].
  eapply postc_weaken; [apply IH; auto; try lia|].
  - destruct acc, acc'; cbn in SM; try contradiction; auto.
  - intros [[[a m] p4] st4]. unfold reads. cbn. intros [X Y]. split; [lia|exact Y].
Qed.
Lemma members_c : forall f pos acc n st, has data kBeginJSSet -> f <= fuel -> len - pos < f -> set_ok acc -> logged st ->
  postc (reads (S pos)) (dec_members data rec f pos acc n st).
Proof.
  induction f as [|f IH]; intros pos acc n st HS LE F A LG; [lia|]. cbn [dec_members].
  eapply postc_bind; [apply tag_c|]. intros [t p] [B HT]. unfold adv1c in B; cbn in B, HT.
  destruct (stag_eqb t kEndJSSet); [cbn; unfold reads; cbn; split; [lia|exact LG]|].
  eapply postc_bind; [apply R; auto; lia|]. intros [[v p2] st2] [[[C LG2] FV] _]. cbn in C, LG2, FV.
  eapply postc_bind; [apply put_member_c; auto|]. intros acc' A'.
  eapply postc_weaken; [apply IH; auto; try lia|].
  intros [[[a m] p4] st4]. unfold reads. cbn. intros [X Y]. split; [lia|exact Y].
Qed.
Lemma elems_c count : ((digit_limit <= Z.of_N count)%Z -> 2040 < len) ->
  forall f i pos acc st, (i <= count)%N -> f <= fuel -> len - pos < f -> pos <= len -> quiet acc -> logged st ->
  (match acc with OMap _ => False | _ => True end) ->
  postc (fun x => reads pos x /\ quiet (fst (fst x)) /\ same_kind acc (fst (fst x)))
       (dec_elems cfg data rec f count i pos acc st).
Proof.
  intros BIG. induction f as [|f IH]; intros i pos acc st LI LE F L A LG NM; [lia|]. cbn [dec_elems].
  destruct (N.eqb_spec i count) as [E|E].
  { cbn. split; [unfold reads; cbn; split; [lia|exact LG]|]. split; [exact A|]. apply same_kind_refl; apply A. }
  eapply postc_bind; [apply value_c; auto; lia|]. intros [[v p] st2] [[B LG2] FV]. cbn in B, LG2, FV.
  eapply postc_bind; [apply put_c; auto|].
  { destruct acc; reflexivity. }
  { assert (short (VInt (Z.of_N i))) as SI. { apply short_int. intros H. apply BIG. lia. }
    destruct acc; auto; contradiction. }
  intros acc' [A' SM]. eapply postc_weaken; [apply IH; auto; try lia|].
  { destruct acc, acc'; cbn in SM; try contradiction; auto. }
  intros [[a p4] st4]. unfold reads. cbn. intros [[X Y] [G SM2]]. split; [split; [lia|exact Y]|]. split; [exact G|].
  eapply same_kind_trans; eauto.
Qed.
Lemma quiet_empty : quiet (OObject jo_empty) /\ quiet (OArray jo_empty).
Proof. split; (split; [apply emptyish_ok|right; exact I]). Qed.
Lemma map_c pos st : has data kBeginJSMap -> len - pos < fuel -> logged st -> postc (reads_val pos) (dec_map cfg data rec fuel pos st).
Proof.
  intros H F LG. unfold dec_map.
  pose proof (alloc_rec_logged (OMap []) st LG) as LG2. destruct (alloc_rec (OMap []) st) as [i st2]. cbn [snd] in LG2.
  eapply postc_bind.
  { apply pairs_c; auto. split; [apply emptyish_ok|exact H]. }
  intros [[[a n] p] st3] [B LG3]. cbn in B, LG3. eapply postc_bind; [apply count_c|]. intros q C. cbn beta in C.
  unfold reads_val, reads. cbn. split; [split; [lia|apply store_logged; exact LG3]|apply fine_ref].
Qed.
Lemma set_c pos st : has data kBeginJSSet -> len - pos < fuel -> logged st -> postc (reads_val pos) (dec_set data rec fuel pos st).
Proof.
  intros H F LG. unfold dec_set.
  pose proof (alloc_rec_logged (OSet []) st LG) as LG2. destruct (alloc_rec (OSet []) st) as [i st2]. cbn [snd] in LG2.
  eapply postc_bind.
  { apply members_c; auto. apply emptyish_ok. }
  intros [[[a n] p] st3] [B LG3]. cbn in B, LG3. eapply postc_bind; [apply count_c|]. intros q C. cbn beta in C.
  unfold reads_val, reads. cbn. split; [split; [lia|apply store_logged; exact LG3]|apply fine_ref].
Qed.
Lemma object_c pos st : len - pos < fuel -> logged st -> postc (reads_val pos) (dec_object cfg data rec fuel pos st).
Proof.
  intros F LG. unfold dec_object.
  pose proof (alloc_rec_logged (OObject jo_empty) st LG) as LG2. destruct (alloc_rec (OObject jo_empty) st) as [i st2]. cbn [snd] in LG2.
  eapply postc_bind.
  { apply pairs_c; auto. apply quiet_empty. }
  intros [[[a n] p] st3] [B LG3]. cbn in B, LG3. eapply postc_bind; [apply count_c|]. intros q C. cbn beta in C.
  unfold reads_val, reads. cbn. split; [split; [lia|apply store_logged; exact LG3]|apply fine_ref].
Qed.
Lemma dense_c pos st : len - pos < fuel -> logged st -> postc (reads_val pos) (dec_dense cfg data rec fuel pos st).
Proof.
  intros F LG. unfold dec_dense.
  pose proof (alloc_rec_logged (OArray jo_empty) st LG) as LG2. destruct (alloc_rec (OArray jo_empty) st) as [i st2]. cbn [snd] in LG2.
  eapply postc_bind; [apply varint_c|]. intros [n p] [B BIG]. unfold adv1c in B. cbn [snd fst] in B, BIG.
  eapply postc_bind. { apply (elems_c n BIG); auto; try lia. apply quiet_empty. }
  intros [[a p2] st3] [[C LG3] [D E]]. cbn [fst snd] in *.
  eapply postc_bind. { apply pairs_c; auto; [lia|]. destruct a; auto; contradiction. }
  intros [[[a2 n2] p3] st4] [G LG4]. cbn [fst snd] in *.
  eapply postc_bind; [apply count_c|]. intros q H. cbn beta in H.
  eapply postc_bind; [apply count_c|]. intros q2 J. cbn beta in J.
  unfold reads_val, reads. cbn. split; [split; [lia|apply store_logged; exact LG4]|apply fine_ref].
Qed.
Lemma sparse_c pos st : len - pos < fuel -> logged st -> postc (reads_val pos) (dec_sparse cfg data rec fuel pos st).
Proof.
  intros F LG. unfold dec_sparse.
  pose proof (alloc_rec_logged (OArray jo_empty) st LG) as LG2. destruct (alloc_rec (OArray jo_empty) st) as [i st2]. cbn [snd] in LG2.
  eapply postc_bind; [apply varint_c|]. intros [n p] [B BIG]. unfold adv1c in B. cbn [snd fst] in B, BIG.
  eapply postc_bind with (P := fun a => quiet a /\ same_kind (OArray jo_empty) a).
  { destruct (0 <? n)%N eqn:N0; [|split; [apply quiet_empty|exact I]]. cbn [put].
    eapply postc_bind.
    - apply jo_put_c; [apply emptyish_ok|right; exact I|discriminate| |auto].
      apply short_int. intros H. apply BIG. lia.
    - intros o' [X Y]. cbn. split; [split; [exact X|exact Y]|exact I]. }
  intros a [D E].
  eapply postc_bind. { apply pairs_c; auto; [lia|]. destruct a; auto; contradiction. }
  intros [[[a2 n2] p3] st4] [G LG4]. cbn [fst snd] in *.
  eapply postc_bind; [apply count_c|]. intros q H. cbn beta in H.
  eapply postc_bind; [apply count_c|]. intros q2 J. cbn beta in J.
  unfold reads_val, reads. cbn. split; [split; [lia|apply store_logged; exact LG4]|apply fine_ref].
Qed.
End Rec.

Lemma dec_c : forall fuel, rec_c fuel (dec cfg data version fuel).
Proof.
  induction fuel as [|f IH]; intros t pos st L F HT LG; [lia|].
  assert (forall m, tag_in t JS_OBJECT_KEY_TAGS = false -> tag_in t JS_STRING_TAGS = false -> postc (reads_val pos) m ->
    postc (fun x => reads_val pos x /\ typed t (fst (fst x)) /\
             (tag_in t JS_OBJECT_KEY_TAGS = true -> short (fst (fst x)))) m) as NT.
  { intros m A B H. eapply postc_weaken; [exact H|]. intros x D. split; [exact D|]. split; [apply typed_not; auto|congruence]. }
  assert (forall v p, pos <= p <= len -> fine v -> reads_val pos (v, p, st)) as RV.
  { intros v p X Y. split; [split; [exact X|exact LG]|exact Y]. }
  assert (forall v p, pos <= p <= len -> fine v -> reads_val pos (v, p, record v st)) as RW.
  { intros v p X Y. split; [split; [exact X|apply record_logged; auto]|exact Y]. }
  assert (forall s, fine (VStr s)) as FS by (intros s; apply fine_other; discriminate).
  assert (forall b, fine (VFloat b)) as FF by (intros b; apply fine_other; discriminate).
  assert (fine (c_const cfg t)) as FC.
  { destruct (PC t) as [P1 P2]. split; [|intros H; contradiction]. intros H. apply P1 in H. rewrite <- H. exact HT. }
  destruct t; cbn [dec]; try exact I;
    try (apply NT; [reflexivity|reflexivity|]);
    try (apply RV; [lia|exact FC]); unfold dec_wrapped.
  all: try (apply RW; [lia|apply fine_other; discriminate]).
  - eapply postc_bind; [apply int32_c|]. intros [z p] [A Z1]. unfold adv1c in A. cbn [fst snd] in *.
    split; [apply RV; [lia|apply fine_small; lia]|]. split; [apply typed_num; [reflexivity|discriminate]|].
    intros _. apply short_small. cbn. lia.
  - eapply postc_bind; [apply uint32_c|]. intros [z p] [A Z1]. unfold adv1c in A. cbn [fst snd] in *.
    split; [apply RV; [lia|apply fine_small; lia]|]. split; [apply typed_num; [reflexivity|discriminate]|].
    intros _. apply short_small. cbn. lia.
  - eapply postc_bind; [apply double_c|]. intros [z p] A. unfold advc in A. cbn [fst snd] in *.
    split; [apply RV; [lia|apply FF]|]. split; [apply typed_num; [reflexivity|discriminate]|].
    intros _. apply short_float.
  - eapply postc_bind; [apply bigint_c|]. intros [z p] A. unfold adv1c in A. cbn [fst snd] in *.
    apply RV; [lia|]. split; [discriminate|]. intros _. left. exact HT.
  - eapply postc_bind; [apply utf8_c|]. intros [z p] [A LS]. unfold adv1c in A. cbn [fst snd] in *.
    split; [apply RV; [lia|apply FS]|]. split; [apply typed_str|]. intros _. apply short_string. exact LS.
  - eapply postc_bind; [apply onebyte_c|]. intros [z p] [A LS]. unfold adv1c in A. cbn [fst snd] in *.
    split; [apply RV; [lia|apply FS]|]. split; [apply typed_str|]. intros _. apply short_string. exact LS.
  - eapply postc_bind; [apply twobyte_c|]. intros [z p] [A LS]. unfold adv1c in A. cbn [fst snd] in *.
    split; [apply RV; [lia|apply FS]|]. split; [apply typed_str|]. intros _. apply short_string. exact LS.
  - apply reference_c; auto.
  - apply object_c; auto; lia.
  - apply sparse_c; auto; lia.
  - apply dense_c; auto; lia.
  - apply date_c; auto.
  - eapply postc_bind; [apply double_c|]. intros [z p] A. unfold advc in A. cbn [fst snd] in *.
    split; [apply RW; [lia|apply FF]|]. split; [apply typed_num; [reflexivity|discriminate]|].
    intros _. apply short_float.
  - eapply postc_bind; [apply bigint_c|]. intros [z p] A. unfold adv1c in A. cbn [fst snd] in *.
    apply RW; [lia|]. split; [discriminate|]. intros _. right. exact HT.
  - eapply postc_bind; [apply utf8_c|]. intros [z p] [A LS]. unfold adv1c in A. cbn [fst snd] in *.
    split; [apply RW; [lia|apply FS]|]. split; [apply typed_str|]. intros _. apply short_string. exact LS.
  - apply regexp_c with (fuel := f); auto; lia.
  - apply map_c; auto; lia.
  - apply set_c; auto; lia.
  - apply plain_c; auto.
  - apply resizable_c; auto.
  - apply buffer_id_c; auto.
  - apply buffer_id_c; auto.
  - eapply postc_bind; [apply uint32_c|]. intros [z p] [A _]. unfold adv1c in A. cbn [fst snd] in *.
    pose proof (alloc_rec_logged (OSharedRef z) st LG) as LG2. destruct (alloc_rec (OSharedRef z) st) as [i st2]. cbn [snd] in LG2.
    unfold reads_val, reads. cbn. split; [split; [lia|exact LG2]|apply fine_ref].
  - destruct (c_host cfg); [apply host_c; auto|exact I].
  - apply error_c with (fuel := f); auto; lia.
Qed.
Lemma header_c : postc (adv1c 0) (read_header data 0).
Proof.
  unfold read_header. eapply postc_bind; [apply tag_c|]. intros [t p] [A _].
  destruct (stag_eqb t kVersion); [cbn [guard bind]|exact I].
  eapply postc_bind; [apply varint_c|]. intros [v p2] [B _].
  repeat match goal with |- context [if ?b then _ else _] => destruct b end; try exact I.
  unfold adv1c in *. cbn [snd postc] in *. lia.
Qed.
End Causes.

Theorem loads_accounted cfg data e : bytes_ok data -> plain_constants cfg -> loads_at cfg data = Err e -> accounted data e.
Proof.
  intros B PC E.
  assert (postc data (fun _ => True) (loads_at cfg data)) as P.
  { unfold loads_at, loads_depth. eapply postc_bind; [apply header_c; exact B|]. intros [version p] A. unfold adv1c in A. cbn [snd] in A.
    eapply postc_bind; [eapply value_c; [apply dec_c; auto| |]|].
    - lia.
    - constructor.
    - intros [[v q] st] _. exact I. }
  rewrite E in P. exact P.
Qed.
