(** Doubles are determined by their value, except for the sign of zero. *)
From Coq Require Import List NArith ZArith Bool Lia ZifyBool ZifyNat ZifyN.
From Verif Require Import Base SpecNumber ModelValue SpecEncode SpecGraph.
Import ListNotations.
Open Scope N_scope.

Lemma bits_split b : b < 2 ^ 64 -> exists (s : bool) ex fr, ex < 2048 /\ fr < 2 ^ 52 /\ b = (if s then 2 ^ 63 else 0) + ex * 2 ^ 52 + fr /\
  N.testbit b 63 = s /\ N.land (N.shiftr b 52) 2047 = ex /\ N.land b (2 ^ 52 - 1) = fr.
Proof.
  intros L. exists (N.testbit b 63), (N.land (N.shiftr b 52) 2047), (N.land b (2 ^ 52 - 1)).
  change 2047 with (N.ones 11). change (2 ^ 52 - 1) with (N.ones 52). rewrite !N.land_ones, N.shiftr_div_pow2.
  assert (A : b / 2 ^ 52 mod 2 ^ 11 < 2 ^ 11) by (apply N.mod_lt; discriminate).
  assert (B : b mod 2 ^ 52 < 2 ^ 52) by (apply N.mod_lt; discriminate).
  split; [exact A|]. split; [exact B|]. split; [|auto].
  pose proof (N.div_mod b (2 ^ 52) ltac:(discriminate)) as E1. pose proof (N.div_mod (b / 2 ^ 52) (2 ^ 11) ltac:(discriminate)) as E2.
  assert (T : b / 2 ^ 52 / 2 ^ 11 = b / 2 ^ 63) by (rewrite N.div_div by discriminate; reflexivity). rewrite T in E2.
  assert (S : b / 2 ^ 63 = if N.testbit b 63 then 1 else 0).
  { pose proof (N.testbit_spec' b 63) as Q. assert (D : b / 2 ^ 63 < 2) by (apply N.div_lt_upper_bound; [discriminate|exact L]).
    rewrite (N.mod_small _ _ D) in Q. rewrite <- Q. destruct (N.testbit b 63); reflexivity. }
  rewrite S in E2. destruct (N.testbit b 63); lia.
Qed.
Lemma pow_ge (k : Z) : (0 < k)%Z -> (2 <= 2 ^ k)%Z.
Proof. intros K. change 2%Z with (2 ^ 1)%Z at 1. apply Z.pow_le_mono_r; lia. Qed.
(** A mantissa below 2^53 with an exponent; full mantissas unless the exponent is the smallest. *)
Lemma normal_unique m e m' e' : (0 <= m < 2 ^ 53)%Z -> (0 <= m' < 2 ^ 53)%Z -> (-1074 <= e)%Z -> (-1074 <= e')%Z ->
  (-1074 < e -> 2 ^ 52 <= m)%Z -> (-1074 < e' -> 2 ^ 52 <= m')%Z -> same_value m e m' e' -> m = m' /\ e = e'.
Proof.
  intros M M' E E' N N'. unfold same_value. destruct (Z.lt_trichotomy e e') as [L|[->|L]].
  - rewrite Z.min_l, Z.sub_diag by lia. pose proof (pow_ge (e' - e) ltac:(lia)). nia.
  - rewrite Z.min_l, Z.sub_diag by lia. lia.
  - rewrite Z.min_r, Z.sub_diag by lia. pose proof (pow_ge (e - e') ltac:(lia)). nia.
Qed.
Lemma same_value_neg m e m' e' : same_value (- m) e (- m') e' -> same_value m e m' e'.
Proof. unfold same_value. rewrite !Z.mul_opp_l. lia. Qed.
Lemma same_value_signs m e m' e' : (0 <= m)%Z -> (0 <= m')%Z -> same_value (- m) e m' e' -> m = 0%Z /\ m' = 0%Z.
Proof.
  unfold same_value. intros A B. rewrite Z.mul_opp_l.
  pose proof (Z.pow_pos_nonneg 2 (e - Z.min e e') ltac:(lia) ltac:(lia)). pose proof (Z.pow_pos_nonneg 2 (e' - Z.min e e') ltac:(lia) ltac:(lia)). nia.
Qed.
Lemma same_value_sym m e m' e' : same_value m e m' e' -> same_value m' e' m e.
Proof. unfold same_value. rewrite (Z.min_comm e' e). congruence. Qed.
Lemma ieee_shape b : b < 2 ^ 64 -> exists (s : bool) ex fr, ex < 2048 /\ fr < 2 ^ 52 /\ b = (if s then 2 ^ 63 else 0) + ex * 2 ^ 52 + fr /\
  ieee b = if ex =? 2047 then (if fr =? 0 then Infinite s else NaN) else
    let m := (Z.of_N fr + (if (ex =? 0)%N then 0 else 2 ^ 52))%Z in
    Finite (if s then - m else m) (if (ex =? 0)%N then -1074 else Z.of_N ex - 1075)%Z.
Proof.
  intros L. destruct (bits_split b L) as (s & ex & fr & A & B & E & T1 & T2 & T3). exists s, ex, fr. split; auto. split; auto. split; auto.
  with_strategy transparent [ieee] unfold ieee. rewrite T1, T2, T3. destruct (N.eqb_spec ex 2047) as [->|N1]; [destruct (N.eqb_spec fr 0) as [->|N2]|].
  - reflexivity.
  - destruct (Z.eqb_spec (Z.of_N fr) 0); [lia|reflexivity].
  - destruct (Z.eqb_spec (Z.of_N ex) 2047); [lia|]. destruct (N.eqb_spec ex 0) as [->|N2].
    + cbn [Z.of_N Z.eqb]. rewrite Z.add_0_r. reflexivity.
    + destruct (Z.eqb_spec (Z.of_N ex) 0); [lia|]. reflexivity.
Qed.
Lemma ieee_inj b b' : b < 2 ^ 64 -> b' < 2 ^ 64 -> same_number (ieee b) (ieee b') -> ieee b <> NaN ->
  b = b' \/ ((b = 0 \/ b = 2 ^ 63) /\ (b' = 0 \/ b' = 2 ^ 63)).
Proof.
  intros L L'. destruct (ieee_shape b L) as (s & ex & fr & A & B & E & ->). destruct (ieee_shape b' L') as (s' & ex' & fr' & A' & B' & E' & ->).
  destruct (N.eqb_spec ex 2047) as [X|X], (N.eqb_spec ex' 2047) as [X'|X'].
  - destruct (N.eqb_spec fr 0) as [F|F], (N.eqb_spec fr' 0) as [F'|F']; cbn [same_number]; try contradiction; try congruence.
    intros -> _. left. congruence.
  - destruct (N.eqb_spec fr 0); cbn [same_number]; contradiction.
  - destruct (N.eqb_spec fr' 0); cbn [same_number]; contradiction.
  - cbv zeta. cbn [same_number]. set (m := (Z.of_N fr + (if (ex =? 0)%N then 0 else 2 ^ 52))%Z). set (m' := (Z.of_N fr' + (if (ex' =? 0)%N then 0 else 2 ^ 52))%Z).
    set (e := (if (ex =? 0)%N then -1074 else Z.of_N ex - 1075)%Z). set (e' := (if (ex' =? 0)%N then -1074 else Z.of_N ex' - 1075)%Z).
    assert (P52 : (2 ^ 53 = 2 * 2 ^ 52)%Z) by reflexivity. change (2 ^ 52)%Z with (Z.of_N (2 ^ 52)) in *.
    assert (Hm : (0 <= m < 2 ^ 53)%Z) by (unfold m; destruct (ex =? 0); lia). assert (Hm' : (0 <= m' < 2 ^ 53)%Z) by (unfold m'; destruct (ex' =? 0); lia).
    assert (He : (-1074 <= e)%Z) by (unfold e; destruct (N.eqb_spec ex 0); lia). assert (He' : (-1074 <= e')%Z) by (unfold e'; destruct (N.eqb_spec ex' 0); lia).
    assert (Hn : (-1074 < e -> 2 ^ 52 <= m)%Z) by (change (2 ^ 52)%Z with (Z.of_N (2 ^ 52)); unfold e, m; destruct (N.eqb_spec ex 0); lia).
    assert (Hn' : (-1074 < e' -> 2 ^ 52 <= m')%Z) by (change (2 ^ 52)%Z with (Z.of_N (2 ^ 52)); unfold e', m'; destruct (N.eqb_spec ex' 0); lia).
    assert (Sm : same_value m e m' e' -> ex = ex' /\ fr = fr').
    { intros Q. destruct (normal_unique m e m' e' Hm Hm' He He' Hn Hn' Q) as [Q1 Q2]. clear Q Hn Hn' He He'.
      unfold m, e in Q1, Q2. unfold m', e' in Q1, Q2. destruct (N.eqb_spec ex 0), (N.eqb_spec ex' 0); split; lia. }
    assert (Zz : m = 0%Z -> ex = 0 /\ fr = 0).
    { unfold m. destruct (N.eqb_spec ex 0); lia. }
    assert (Zz' : m' = 0%Z -> ex' = 0 /\ fr' = 0).
    { unfold m'. destruct (N.eqb_spec ex' 0); lia. }
    clearbody m m' e e'.
    destruct s, s'; intros Q _.
    + apply same_value_neg in Q. destruct (Sm Q). left. congruence.
    + apply same_value_signs in Q as [Q1 Q2]; [|lia|lia]. destruct (Zz Q1) as [-> ->]. destruct (Zz' Q2) as [-> ->]. right. split; [right|left]; lia.
    + apply same_value_sym in Q. apply same_value_signs in Q as [Q1 Q2]; [|lia|lia]. destruct (Zz Q2) as [-> ->]. destruct (Zz' Q1) as [-> ->]. right. split; [left|right]; lia.
    + destruct (Sm Q). left. congruence.
Qed.
Lemma same_number_via a b c : same_number a b -> same_number c b -> b <> NaN -> same_number a c.
Proof.
  destruct a as [|s|m e], b as [|s'|m' e'], c as [|s''|m'' e'']; cbn [same_number]; try contradiction; try congruence.
  unfold same_value. intros A B _.
  assert (K : forall x m e y m' e' k, (k <= e)%Z -> (k <= e')%Z -> x = (m * 2 ^ (e - Z.min e e'))%Z -> y = (m' * 2 ^ (e' - Z.min e e'))%Z -> x = y ->
    (m * 2 ^ (e - k) = m' * 2 ^ (e' - k))%Z).
  { clear. intros x m e y m' e' k L L' -> -> E.
    replace (e - k)%Z with (e - Z.min e e' + (Z.min e e' - k))%Z by lia. replace (e' - k)%Z with (e' - Z.min e e' + (Z.min e e' - k))%Z by lia.
    rewrite !Z.pow_add_r by lia. rewrite !Z.mul_assoc. congruence. }
  set (k := Z.min (Z.min e e') e'').
  pose proof (K _ m e _ m' e' k ltac:(lia) ltac:(lia) eq_refl eq_refl A) as A1.
  pose proof (K _ m'' e'' _ m' e' k ltac:(lia) ltac:(lia) eq_refl eq_refl B) as B1.
  rewrite <- B1 in A1. clear -A1. revert A1. assert (Lk : (k <= Z.min e e'')%Z) by lia.
  replace (e - k)%Z with (e - Z.min e e'' + (Z.min e e'' - k))%Z by lia. replace (e'' - k)%Z with (e'' - Z.min e e'' + (Z.min e e'' - k))%Z by lia.
  rewrite !Z.pow_add_r by lia. rewrite !Z.mul_assoc. apply Z.mul_reg_r. pose proof (Z.pow_pos_nonneg 2 (Z.min e e'' - k) ltac:(lia) ltac:(lia)). lia.
Qed.
Lemma double_unique b b' z : double_is b z -> double_is b' z -> b = b'.
Proof.
  intros (L & S & N) (L' & S' & N'). assert (NN : ieee b <> NaN) by (intros E; rewrite E in S; exact S).
  destruct (ieee_inj b b' L L') as [E|[[->| ->] [->| ->]]]; auto; try congruence. eapply same_number_via; eauto. discriminate.
Qed.
Lemma leaf_fun v a b : leaf_image v a -> leaf_image v b -> a = b.
Proof.
  intros A B. inversion A; subst; inversion B; subst; auto; try lia. f_equal. eapply double_unique; eauto.
Qed.
