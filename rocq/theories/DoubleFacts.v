(** Integers below 2^53 as doubles. *)
From Coq Require Import List NArith ZArith Bool Lia.
From Verif Require Import Base SpecNumber ModelLog ModelValue ValueFacts ModelHeap ModelDecode ModelEncode SpecEncode KeyFacts.
Open Scope N_scope.

Lemma ieee_fields (s : bool) ex fr : ex < 2047 -> fr < 2 ^ 52 -> 0 < ex ->
  ieee ((if s then 2 ^ 63 else 0) + ex * 2 ^ 52 + fr) =
  Finite (if s then - (Z.of_N fr + 2 ^ 52) else Z.of_N fr + 2 ^ 52) (Z.of_N ex - 1075).
Proof.
  intros He Hf Hp. with_strategy transparent [ieee] unfold ieee.
  set (b := (if s then 2 ^ 63 else 0) + ex * 2 ^ 52 + fr).
  assert (Hfr : N.land b (2 ^ 52 - 1) = fr).
  { replace (2 ^ 52 - 1) with (N.ones 52) by reflexivity. rewrite N.land_ones. unfold b.
    change (2 ^ 63) with (2 ^ 11 * 2 ^ 52). destruct s.
    - rewrite <- N.mul_add_distr_r, N.add_comm, N.mod_add by lia. apply N.mod_small; auto.
    - rewrite N.add_0_l, N.add_comm, N.mod_add by lia. apply N.mod_small; auto. }
  assert (Hsh : N.shiftr b 52 = (if s then 2 ^ 11 else 0) + ex).
  { rewrite N.shiftr_div_pow2. unfold b. change (2 ^ 63) with (2 ^ 11 * 2 ^ 52). destruct s.
    - rewrite <- N.mul_add_distr_r, N.add_comm, N.div_add by lia. rewrite (N.div_small fr) by auto. lia.
    - rewrite N.add_0_l, N.add_comm, N.div_add by lia. rewrite (N.div_small fr) by auto. lia. }
  assert (Hex : N.land (N.shiftr b 52) 2047 = ex).
  { rewrite Hsh. replace 2047 with (N.ones 11) by reflexivity. rewrite N.land_ones. destruct s.
    - replace (2 ^ 11 + ex) with (ex + 1 * 2 ^ 11) by lia. rewrite N.mod_add by lia. apply N.mod_small. lia.
    - rewrite N.add_0_l. apply N.mod_small. lia. }
  assert (Hs : N.testbit b 63 = s).
  { change 63 with (11 + 52). rewrite <- N.shiftr_spec' , Hsh. destruct s.
    - replace (2 ^ 11 + ex) with (ex + 1 * 2 ^ 11) by lia.
      rewrite N.testbit_eqb. rewrite N.div_add by lia. rewrite (N.div_small ex) by lia. reflexivity.
    - rewrite N.testbit_eqb, N.add_0_l, N.div_small by lia. reflexivity. }
  rewrite Hfr, Hex, Hs.
  destruct (Z.eqb_spec (Z.of_N ex) 2047); [lia|]. destruct (Z.eqb_spec (Z.of_N ex) 0); [lia|]. reflexivity.
Qed.

Lemma log2_bounds m : 0 < m -> m < 2 ^ 53 ->
  let k := N.log2 m in k <= 52 /\ 2 ^ 52 <= m * 2 ^ (52 - k) /\ m * 2 ^ (52 - k) < 2 ^ 53.
Proof.
  intros Hp Hm k. destruct (N.log2_spec m Hp) as [A B]. fold k in A, B.
  assert (K : k <= 52). { apply N.log2_lt_pow2 in Hm; auto. unfold k. lia. }
  split; auto.
  assert (P : 2 ^ 52 = 2 ^ k * 2 ^ (52 - k)) by (rewrite <- N.pow_add_r; f_equal; lia).
  assert (P' : 2 ^ 53 = 2 ^ N.succ k * 2 ^ (52 - k)) by (rewrite <- N.pow_add_r; f_equal; lia).
  rewrite P, P'. split; [apply N.mul_le_mono_r; auto|apply N.mul_lt_mono_pos_r; auto].
  apply N.neq_0_lt_0, N.pow_nonzero. lia.
Qed.

Lemma double_of_Z_spec z : (Z.abs z < 2 ^ 53)%Z -> double_is (double_of_Z z) z.
Proof.
  intros Hz. unfold double_is. destruct (Z.eq_dec z 0) as [->|Nz].
  - split; [reflexivity|]. split; [|discriminate]. apply float_int_spec. with_strategy transparent [float_int ieee] vm_compute. reflexivity.
  - assert (Hm : 0 < Z.abs_N z /\ Z.abs_N z < 2 ^ 53) by (change (2 ^ 53)%Z with 9007199254740992%Z in Hz; change (2 ^ 53) with 9007199254740992; lia).
    destruct Hm as [Hm Hm']. destruct (log2_bounds _ Hm Hm') as (K & L & U).
    assert (E : double_of_Z z = (if (z <? 0)%Z then 2 ^ 63 else 0) + (1023 + N.log2 (Z.abs_N z)) * 2 ^ 52 +
                  (Z.abs_N z * 2 ^ (52 - N.log2 (Z.abs_N z)) - 2 ^ 52)).
    { destruct z; auto. lia. }
    rewrite E. clear E. set (k := N.log2 (Z.abs_N z)) in *. set (m := Z.abs_N z) in *.
    set (P := m * 2 ^ (52 - k)) in *.
    assert (F : P - 2 ^ 52 < 2 ^ 52).
    { change (2 ^ 53) with (2 ^ 52 + 2 ^ 52) in U. lia. }
    split; [|split].
    + change (2 ^ 64) with (2 ^ 63 + 2048 * 2 ^ 52). change (2 ^ 63) with 9223372036854775808.
      change (2 ^ 52) with 4503599627370496 in *. destruct (z <? 0)%Z; lia.
    + rewrite ieee_fields by lia.
      assert (Q : (Z.of_N (P - 2 ^ 52) + 2 ^ 52 = Z.of_N P)%Z).
      { change (2 ^ 52)%Z with (Z.of_N (2 ^ 52)). lia. }
      rewrite Q. unfold same_number, same_value.
      replace (Z.min (Z.of_N (1023 + k) - 1075) 0) with (Z.of_N k - 52)%Z by lia.
      replace (Z.of_N (1023 + k) - 1075 - (Z.of_N k - 52))%Z with 0%Z by lia.
      replace (0 - (Z.of_N k - 52))%Z with (Z.of_N (52 - k)) by lia.
      assert (T : Z.of_N P = (Z.abs z * 2 ^ Z.of_N (52 - k))%Z).
      { unfold P. rewrite N2Z.inj_mul, N2Z.inj_pow. unfold m. f_equal. lia. }
      rewrite T. rewrite Z.pow_0_r, Z.mul_1_r. destruct (Z.ltb_spec z 0); nia.
    + assert (1023 * 2 ^ 52 <= (1023 + k) * 2 ^ 52) by (apply N.mul_le_mono_r; lia).
      destruct (z <? 0)%Z.
      * change (2 ^ 63) with (2048 * 2 ^ 52). change (2 ^ 52) with 4503599627370496 in *. lia.
      * change (2 ^ 63) with (2048 * 2 ^ 52).
        assert ((1023 + k) * 2 ^ 52 <= 1075 * 2 ^ 52) by (apply N.mul_le_mono_r; lia).
        change (2 ^ 52) with 4503599627370496 in *. lia.
Qed.
