(** C15: which data can raise something other than a decode error. *)
From Coq Require Import List NArith ZArith Bool Lia.
From Verif Require Import Base SpecPrim ModelTags ModelValue SpecMap ModelPrim ModelHeap ModelDecode SpecCauses DecodeFacts DecodeCauses SpecKey ModelObject PrimFacts KeyFacts Prop_Decode.
Import ListNotations.
Open Scope N_scope.

(** Every exception has its cause in the data: IndexError needs an error or a resizable buffer,
    ValueError a regexp, a date or more than 2040 bytes, OverflowError a date or a bigint in a map
    or set, OSError a date, AssertionError a hole, and the errors of views a view. Missing for the full
    statement: that there are no such exceptions ([C15_*_refuted]). *)
Theorem C15_causes_partial : forall cfg data e, bytes_ok data -> plain_constants cfg ->
  loads_at cfg data = Err e -> accounted data e.
Proof. intros cfg data e B P E. eapply loads_accounted; eauto. Qed.
Print Assumptions C15_causes_partial.

(** So data without those bytes keeps the full statement. *)
Definition suspect : list stag :=
  [kError; kResizableArrayBuffer; kRegExp; kDate; kBeginJSMap; kBeginJSSet; kTheHole; kArrayBufferView].
Theorem C15_plain_data : forall cfg data e, bytes_ok data -> plain_constants cfg ->
  (length data <= 2040)%nat -> (forall t, In t suspect -> ~ has data t) ->
  loads_at cfg data = Err e -> is_decode_error e = true.
Proof.
  intros cfg data e B P L S E. apply (C15_causes_partial cfg data e B P) in E.
  assert (forall t, has data t -> In t suspect -> False) as C by (intros t H I; exact (S t I H)).
  unfold suspect in C. destruct e; cbn [accounted] in E; try reflexivity; try contradiction; exfalso;
    repeat match goal with
           | H : _ \/ _ |- _ => destruct H
           | H : _ /\ _ |- _ => destruct H
           end; try lia;
    match goal with H : has data ?t |- _ => solve [apply (C t H); cbn; tauto] end.
Qed.
Print Assumptions C15_plain_data.

(** The constants of the default decoder qualify. *)
Theorem C15_default_constants : forall fr dt host, plain_constants (mkCfg fr dt default_const host).
Proof.
  intros fr dt host t. cbn [c_const]. split; [destruct t; cbn; congruence|].
  intros [z [E _]]. destruct t; discriminate E.
Qed.
Print Assumptions C15_default_constants.

Definition is_err (r : result (val * nat * heap)) : bool := match r with Err _ => true | Ok _ => false end.
(** Malformed data of each sort, without the bytes above. *)
Example C15_plain_case : forall d, In d [[255;15;111;73]; [255;15;34;200;1;65]; [255;15;94;0]; [255;15;99;1;255]; [255;15;66;4;0]] ->
  forallb (fun t => negb (existsb (N.eqb (tag_byte t)) d)) suspect = true /\
  is_err (loads_at ex_cfg d) = true.
Proof.
  intros d H. cbn [In] in H.
  repeat (destruct H as [<-|H]; [split; vm_compute; reflexivity|]). destruct H.
Qed.
Transparent digit_limit.
Lemma limit_bits_above : (digit_limit <= 2 ^ 14285)%Z.
Proof.
  unfold digit_limit. replace 14285%Z with (196 * 72 + 173)%Z by reflexivity. replace 4300%Z with (59 * 72 + 52)%Z by reflexivity.
  rewrite !Z.pow_add_r, !Z.pow_mul_r by lia.
  apply Z.mul_le_mono_nonneg; [apply Z.pow_nonneg; lia|apply Z.pow_le_mono_l; lia|lia|lia].
Qed.
Opaque digit_limit.
Lemma long_varint k : exists n, is_varint (repeat 255 k ++ [1]) n /\ 2 ^ (7 * N.of_nat k) <= n.
Proof.
  induction k as [|k [n [V L]]].
  - exists 1. split; [apply vi_last; reflexivity|reflexivity].
  - exists (255 - 128 + 128 * n). split; [apply (vi_cont 255); [lia|exact V]|].
    rewrite Nat2N.inj_succ, N.mul_succ_r, N.pow_add_r. change (2 ^ 7) with 128. revert L.
    generalize (2 ^ (7 * N.of_nat k)). intros; lia.
Qed.
Lemma long_index_raises : raises EValue ([255;15;97] ++ repeat 255 2042 ++ [1]).
Proof.
  destruct (long_varint 2042) as [n [V L]].
  pose proof (read_varint_spec [255;15;97] _ _ [] 0 V (or_introl eq_refl)) as R. rewrite app_nil_r in R.
  assert (LI : (digit_limit <= Z.of_N n - 1)%Z).
  { eapply Z.le_trans; [apply limit_bits_above|]. change (7 * N.of_nat 2042) with (14285 + 9) in L.
    rewrite N.pow_add_r in L. change (2 ^ 9) with 512 in L. apply N2Z.inj_le in L.
    rewrite N2Z.inj_mul, N2Z.inj_pow in L. change (Z.of_N 2) with 2%Z in L. change (Z.of_N 14285) with 14285%Z in L.
    assert (0 < 2 ^ 14285)%Z as P by (apply Z.pow_pos_nonneg; lia). revert L P. generalize (2 ^ 14285)%Z. intros; lia. }
  assert (N0 : (0 <? n) = true).
  { pose proof index_limit as H. clear L V R. revert LI H. generalize digit_limit. intros; lia. }
  assert (PUT : put ex_cfg (OArray jo_empty) (VInt (Z.of_N n - 1)) VHole = Err EValue).
  { unfold put, jo_put. cbn [val_key normalise_property_key].
    destruct (normalise_int_spec (Z.of_N n - 1)) as [[A _]|[[_ [A _]]|[_ [_ A]]]];
      [apply index_small in A| |rewrite A; reflexivity];
      exfalso; pose proof index_limit as H; clear L V R; revert LI H A; generalize digit_limit; intros; lia. }
  clear L V LI. revert R. generalize (repeat 255 2042 ++ [1]). intros bs R.
  unfold raises, loads_at, loads_depth.
  change (read_header ([255;15;97] ++ bs) 0) with (Ok (15, 2%nat)). cbn [bind].
  unfold dec_value. change (read_tag ([255;15;97] ++ bs) 2) with (Ok (kBeginSparseJSArray, 3%nat)). cbn [bind dec].
  unfold dec_sparse. cbn [length] in R. rewrite R. cbn [bind]. rewrite N0, PUT. reflexivity.
Qed.
(** The bound on the length of the data is needed: a sparse array whose length has more than 4300
    decimal digits raises ValueError without a regexp or a date. *)
Theorem C15_long_refuted : exists data, bytes_ok data /\ raises EValue data /\ length data = 2046%nat /\
  ~ has data kRegExp /\ ~ has data kDate.
Proof.
  set (d := [255;15;97] ++ repeat 255 2042 ++ [1]). exists d.
  split. { unfold bytes_ok. apply Forall_forall. intros x H. unfold d in H. rewrite !in_app_iff in H.
           destruct H as [H|[H|H]]; [|apply repeat_spec in H; subst; reflexivity|];
           cbn in H; repeat (destruct H as [<-|H]; [reflexivity|]); destruct H. }
  split. { apply long_index_raises. }
  split; [reflexivity|].
  split; intros H; unfold has, d in H; rewrite !in_app_iff in H;
    (destruct H as [H|[H|H]]; [|apply repeat_spec in H; discriminate H|]);
    cbn in H; repeat (destruct H as [H|H]; [discriminate H|]); exact H.
Qed.
Print Assumptions C15_long_refuted.
