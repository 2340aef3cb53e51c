(** Facts about decimal digits and the texts made of them. *)
From Coq Require Import List NArith ZArith QArith Qabs Qpower Bool Lia Lqa ZifyBool ZifyNat ZifyN.
From Verif Require Import Base SpecNumber SpecDate SpecFloatText ModelValue ValueFacts KeyFacts ModelFloatText ModelDate DateFacts DateFacts2.
Import ListNotations.
Open Scope Q_scope.

Lemma inject_eq a b : inject_Z a == inject_Z b -> a = b. Proof. apply inject_Z_injective. Qed.
(** * Powers of ten *)
Lemma ten_nz : ~ 10 == 0. Proof. discriminate. Qed.
Lemma p10_add a b : 10 ^ (a + b) == 10 ^ a * 10 ^ b. Proof. apply Qpower_plus, ten_nz. Qed.
Lemma p10_pow a : (0 <= a)%Z -> 10 ^ a == inject_Z (10 ^ a). Proof. intros. rewrite Zpower_Qpower by auto. reflexivity. Qed.
Lemma p10_pos a : 0 < 10 ^ a. Proof. apply Qpower_0_lt. reflexivity. Qed.
Lemma p10_le a b : (a <= b)%Z -> 10 ^ a <= 10 ^ b.
Proof.
  intros L. replace b with (a + (b - a))%Z by lia. rewrite p10_add. pose proof (p10_pos a) as P.
  assert (1 <= 10 ^ (b - a)).
  { rewrite p10_pow by lia. change 1 with (inject_Z 1). rewrite <- Zle_Qle. pose proof (Z.pow_pos_nonneg 10 (b - a)). lia. }
  rewrite <- (Qmult_1_r (10 ^ a)) at 1. apply Qmult_le_l; auto.
Qed.
Lemma p10_lt_inv a b : 10 ^ a < 10 ^ b -> (a < b)%Z.
Proof. intros L. destruct (Z_lt_le_dec a b) as [|G]; auto. apply p10_le in G. lra. Qed.

(** * Digits *)
Lemma decimal_bounds s n : digits s -> s <> [] -> hd 0%N s <> 48%N -> 10 ^ (n - 1) <= decimal s n /\ decimal s n < 10 ^ n.
Proof.
  intros D NE H. unfold decimal. set (k := Z.of_nat (length s)).
  assert (K : (1 <= k)%Z) by (unfold k; destruct s; [congruence|cbn [length]; lia]).
  pose proof (digits_value_bound s D) as U.
  assert (Num : numeral s (digits_value s)) by (split; [auto|split; [auto|split; [intros X; congruence|auto]]]).
  assert (Lo : (10 ^ N.of_nat (length s - 1) <= digits_value s)%N).
  { destruct (numeral_low _ _ Num) as [Z|]; auto. exfalso. destruct s as [|c r]; [congruence|]. cbn [hd] in H. inversion D; subst.
    change (c :: r) with ([c] ++ r) in Z. rewrite digits_value_app in Z. change (digits_value [c]) with (10 * 0 + (c - 48))%N in Z.
    pose proof (N.pow_nonzero 10 (N.of_nat (length r)) ltac:(lia)). nia. }
  assert (Hi : (Z.of_N (digits_value s) < 10 ^ k)%Z) by (unfold k; rewrite nat_N_Z || idtac; apply N2Z.inj_lt in U; rewrite N2Z.inj_pow, nat_N_Z in U; exact U).
  assert (Lz : (10 ^ (k - 1) <= Z.of_N (digits_value s))%Z).
  { apply N2Z.inj_le in Lo. rewrite N2Z.inj_pow, nat_N_Z in Lo. unfold k. replace (Z.of_nat (length s) - 1)%Z with (Z.of_nat (length s - 1)) by lia. exact Lo. }
  rewrite Zle_Qle in Lz. rewrite Zlt_Qlt in Hi. rewrite <- p10_pow in Lz, Hi by lia.
  pose proof (p10_pos (n - k)) as P. split.
  - replace (n - 1)%Z with ((k - 1) + (n - k))%Z by lia. rewrite p10_add. apply Qmult_le_compat_r; [auto|lra].
  - replace n with (k + (n - k))%Z at 2 by lia. rewrite p10_add. apply Qmult_lt_compat_r; auto.
Qed.
Lemma decimal_integer s n : (Z.of_nat (length s) <= n)%Z ->
  decimal s n == inject_Z (Z.of_N (digits_value s) * 10 ^ (n - Z.of_nat (length s))).
Proof. intros L. unfold decimal. rewrite p10_pow by lia. rewrite <- inject_Z_mult. reflexivity. Qed.

(** * Closest doubles *)
Lemma closest_self y x : closest y x -> is_double y -> x == y.
Proof.
  intros C D. specialize (C y D). assert (Z : y - y == 0) by ring. rewrite Z in C. change (Qabs 0) with 0 in C. apply abs_le in C. lra.
Qed.
Lemma double_opp z : is_double z -> is_double (- z).
Proof. intros (m & e & A & B & C). exists (- m)%Z, e. split; [lia|split; [auto|]]. rewrite inject_Z_opp, C. ring. Qed.
Lemma closest_opp y x : closest y x -> closest (- y) (- x).
Proof.
  intros C z D. apply double_opp in D. specialize (C _ D). rewrite <- (Qabs_opp (- y - - x)), <- (Qabs_opp (- y - z)).
  assert (A : - (- y - - x) == y - x) by ring. assert (B : - (- y - z) == y - - z) by ring. rewrite A, B. auto.
Qed.
Lemma double_int z : (Z.abs z <= 2 ^ 53)%Z -> is_double (inject_Z z).
Proof. intros L. exists z, 0%Z. split; [auto|split; [lia|]]. change (2 ^ 0) with 1. ring. Qed.
(** No double lies between the number and its closest. *)
Lemma closest_below y x c : closest y x -> is_double c -> x < c -> y <= c.
Proof.
  intros C D L. specialize (C c D). destruct (Qlt_le_dec c y) as [G|]; auto. exfalso. rewrite !Qabs_pos in C by lra. lra.
Qed.
Lemma closest_above y x c : closest y x -> is_double c -> c < x -> c <= y.
Proof.
  intros C D L. specialize (C c D). destruct (Qlt_le_dec y c) as [G|]; auto. exfalso. rewrite !Qabs_neg in C by lra. lra.
Qed.

Lemma ieee_bound bits m e : ieee bits = Finite m e -> (Z.abs m < 2 ^ 53)%Z /\ (-1074 <= e <= 971)%Z.
Proof.
  intros I. with_strategy transparent [ieee] (unfold ieee in I).
  assert (F : (N.land bits (2 ^ 52 - 1) < 2 ^ 52)%N) by (change (2 ^ 52 - 1)%N with (N.ones 52); rewrite N.land_ones; apply N.mod_lt; lia).
  assert (X : (N.land (N.shiftr bits 52) 2047 < 2 ^ 11)%N) by (change 2047%N with (N.ones 11); rewrite N.land_ones; apply N.mod_lt; lia).
  change (2 ^ 52)%N with 4503599627370496%N in *. change (2 ^ 52)%Z with 4503599627370496%Z in *. change (2 ^ 53)%Z with 9007199254740992%Z.
  change (2 ^ 11)%N with 2048%N in X. set (fr := N.land bits _) in *. set (ex := N.land (N.shiftr bits 52) _) in *. cbv zeta in I.
  destruct (Z.of_N ex =? 2047)%Z eqn:E1; [destruct (Z.of_N fr =? 0)%Z; discriminate|].
  destruct (Z.of_N ex =? 0)%Z eqn:E2; destruct (N.testbit bits 63); injection I as <- <-; lia.
Qed.

(** * The magnitude *)
Section Magnitude.
Context (bits : N) (m e : Z).
Hypothesis I : ieee bits = Finite m e.
Hypothesis NZ : m <> 0%Z.
Definition magnitude : Q := inject_Z (Z.abs m) * 2 ^ e.
Lemma magnitude_signed : signed bits magnitude == inject_Z m * 2 ^ e.
Proof.
  unfold signed, negative, magnitude. rewrite I. destruct (m <? 0)%Z eqn:S.
  - replace m with (- Z.abs m)%Z at 2 by lia. rewrite inject_Z_opp. ring.
  - replace (Z.abs m) with m by lia. reflexivity.
Qed.
Lemma magnitude_closest y : rounds_to (signed bits y) bits -> closest y magnitude.
Proof.
  intros (m' & e' & I' & C & _). rewrite I in I'. injection I' as <- <-.
  assert (X : closest (signed bits y) (signed bits magnitude)) by (intros z D; rewrite magnitude_signed; apply C, D).
  unfold signed in X. destruct (negative bits); auto. apply closest_opp in X. intros z D. specialize (X z D).
  assert (A : - - y == y) by ring. assert (B : - - magnitude == magnitude) by ring. rewrite A, B in X. auto.
Qed.
Lemma rounds_self : forall y, y == magnitude -> rounds_to (signed bits y) bits.
Proof.
  intros y E. assert (X : signed bits y == inject_Z m * 2 ^ e) by (rewrite <- magnitude_signed; unfold signed; destruct (negative bits); rewrite E; reflexivity).
  exists m, e. split; [auto|split].
  - intros z D. rewrite X. assert (Z0 : inject_Z m * 2 ^ e - inject_Z m * 2 ^ e == 0) by ring. rewrite Z0. apply Qabs_nonneg.
  - intros z D NE T. exfalso. apply NE. rewrite X in T. assert (Z0 : inject_Z m * 2 ^ e - inject_Z m * 2 ^ e == 0) by ring. rewrite Z0 in T.
    change (Qabs 0) with 0 in T. assert (T' : Qabs (inject_Z m * 2 ^ e - z) <= 0) by (rewrite T; lra). apply abs_le in T'. lra.
Qed.
Lemma magnitude_pos : 0 < magnitude.
Proof. unfold magnitude. apply Qmult_lt_0_compat; [|apply p2_pos]. change 0 with (inject_Z 0). rewrite <- Zlt_Qlt. lia. Qed.
Lemma integral_value z : same_number (ieee bits) (Finite z 0) <-> inject_Z m * 2 ^ e == inject_Z z.
Proof.
  rewrite I. cbn [same_number]. unfold same_value. destruct (Z_le_gt_dec 0 e) as [L|G].
  - rewrite Z.min_r by lia. rewrite Z.sub_0_r. change (2 ^ (0 - 0))%Z with 1%Z. rewrite Z.mul_1_r. rewrite p2_pow by auto. rewrite <- inject_Z_mult.
    split; [intros ->; reflexivity|intros E; apply inject_Z_injective; exact E].
  - rewrite Z.min_l by lia. rewrite Z.sub_diag. change (2 ^ 0)%Z with 1%Z. rewrite Z.mul_1_r, Z.sub_0_l.
    pose proof (p2_opp e) as O. split; intros E.
    + rewrite E, inject_Z_mult, <- p2_pow by lia. rewrite <- Qmult_assoc, O. ring.
    + apply inject_Z_injective. rewrite inject_Z_mult, <- p2_pow by lia. rewrite <- E. rewrite <- Qmult_assoc, (Qmult_comm (2 ^ e)), O. ring.
Qed.
End Magnitude.

(** * Numbers that are not integral *)
Lemma fraction_digits bits m e s n : ieee bits = Finite m e -> (forall z, ~ same_number (ieee bits) (Finite z 0)) -> shortest bits s n ->
  m <> 0%Z /\ (n < Z.of_nat (length s))%Z /\ (n <= 16)%Z.
Proof.
  intros I NI (D & NE & H & R & _).
  assert (NZ : m <> 0%Z).
  { intros ->. apply (NI 0%Z). apply (integral_value bits 0 e I). ring. }
  pose proof (magnitude_closest bits m e I NZ _ R) as C. set (x := magnitude m e) in *.
  assert (Ne : (e < 0)%Z).
  { destruct (Z_lt_le_dec e 0) as [|G]; auto. exfalso. apply (NI (m * 2 ^ e)%Z). apply (integral_value bits m e I). rewrite inject_Z_mult, p2_pow by auto. reflexivity. }
  assert (X : x < inject_Z (2 ^ 53)).
  { destruct (ieee_bound bits m e I) as [M _]. unfold x, magnitude.
    assert (A : inject_Z (Z.abs m) < inject_Z (2 ^ 53)) by (rewrite <- Zlt_Qlt; auto).
    assert (B : 2 ^ e <= 1) by (change 1 with (2 ^ 0); apply p2_le; lia).
    assert (P : 0 <= inject_Z (Z.abs m)) by (change 0 with (inject_Z 0); rewrite <- Zle_Qle; lia).
    apply Qle_lt_trans with (inject_Z (Z.abs m) * 1); [apply Qmult_le_l; [|auto]|lra].
    change 0 with (inject_Z 0). rewrite <- Zlt_Qlt. lia. }
  assert (Y : decimal s n <= inject_Z (2 ^ 53)) by (apply (closest_below _ x); [auto|apply double_int; lia|auto]).
  destruct (decimal_bounds s n D NE H) as [Lo Hi]. split; [auto|]. split.
  - destruct (Z_lt_le_dec n (Z.of_nat (length s))) as [|G]; auto. exfalso.
    pose proof (decimal_integer s n G) as E. set (z := (Z.of_N (digits_value s) * 10 ^ (n - Z.of_nat (length s)))%Z) in *.
    assert (Zp : (0 <= z)%Z) by (unfold z; apply Z.mul_nonneg_nonneg; [lia|apply Z.pow_nonneg; lia]).
    assert (Zb : (z <= 2 ^ 53)%Z) by (rewrite Zle_Qle, <- E; auto).
    assert (Eq : x == inject_Z z).
    { rewrite <- E. apply closest_self; auto. destruct (double_int z ltac:(lia)) as (a & b & A & B & V). exists a, b. split; [auto|split; [auto|]]. rewrite E; auto. }
    apply (NI (if negative bits then - z else z)%Z). apply (integral_value bits m e I). rewrite <- (magnitude_signed bits m e I NZ). fold x. unfold signed.
    destruct (negative bits); [rewrite inject_Z_opp|]; rewrite Eq; reflexivity.
  - assert (10 ^ (n - 1) < 10 ^ 16) by (eapply Qle_lt_trans; [exact Lo|]; eapply Qle_lt_trans; [exact Y|]; reflexivity).
    apply p10_lt_inv in H0. lia.
Qed.

(** * Texts *)
Lemma mantissa_insert s : insert_point s 1 = mantissa s.
Proof. unfold insert_point. destruct s as [|a [|b r]]; reflexivity. Qed.
Lemma insert_inside s n : (n < length s)%nat -> insert_point s n = firstn n s ++ 46%N :: skipn n s.
Proof.
  intros L. unfold insert_point. destruct (skipn n s) eqn:E; auto. exfalso. apply (f_equal (@length N)) in E. rewrite skipn_length in E. cbn in E. lia.
Qed.
(** Digits and the point *)
Definition plain_char (c : N) : Prop := (48 <= c <= 57)%N \/ c = 46%N.
Lemma digits_plain s : digits s -> Forall plain_char s.
Proof. apply Forall_impl. intros c H. left. auto. Qed.
Lemma zeros_plain n : Forall plain_char (zeros n).
Proof. unfold zeros. apply Forall_forall. intros c H. apply repeat_spec in H. subst. left. lia. Qed.
Lemma mantissa_plain s : digits s -> Forall plain_char (mantissa s).
Proof.
  intros D. apply digits_plain in D. unfold mantissa. destruct s as [|a [|b r]]; auto. inversion D; subst. constructor; [auto|]. constructor; [right; auto|auto].
Qed.
(** A text is cut at its first e. *)
Lemma cut_e a b a' b' : Forall plain_char a -> Forall plain_char a' -> a ++ 101%N :: b = a' ++ 101%N :: b' -> a = a' /\ b = b'.
Proof.
  revert a'. induction a as [|c a IH]; intros [|c' a'] P P' E; cbn [app] in E.
  - injection E as ->. auto.
  - injection E as <- _. inversion P'; subst. destruct H1; lia.
  - injection E as -> _. inversion P; subst. destruct H1; lia.
  - injection E as -> E. inversion P; inversion P'; subst. destruct (IH a' H2 H6 E) as [-> ->]. auto.
Qed.
Lemma no_e a b t : Forall plain_char t -> t <> a ++ 101%N :: b.
Proof. intros P ->. apply Forall_app in P as [_ P]. inversion P; subst. destruct H1; lia. Qed.
Lemma js_plain s n t : digits s -> js_digits s n t -> (-6 < n <= 21)%Z -> Forall plain_char t.
Proof.
  intros D J R. pose proof (digits_plain s D) as P. destruct J as [| a b H1 H2 E H3| |e H1 H2|e H1 H2]; try lia.
  - apply Forall_app. split; [auto|apply zeros_plain].
  - subst s. apply Forall_app in P as [Pa Pb]. apply Forall_app; split; [auto|]. constructor; [right; auto|auto].
  - repeat (apply Forall_cons; [unfold plain_char; lia|]). apply Forall_app. split; [apply zeros_plain|auto].
Qed.
Lemma testbit_negative bits m e : ieee bits = Finite m e -> m <> 0%Z -> N.testbit bits 63 = negative bits.
Proof.
  intros I NZ. unfold negative. rewrite I. with_strategy transparent [ieee] (unfold ieee in I). cbv zeta in I.
  generalize dependent (N.land (N.shiftr bits 52) 2047). generalize (N.land bits (2 ^ 52 - 1)). intros fr ex.
  change (2 ^ 52)%Z with 4503599627370496%Z. generalize (N.testbit bits 63). intros b I.
  destruct (Z.of_N ex =? 2047)%Z; [destruct (Z.of_N fr =? 0)%Z; discriminate|]. injection I as I _.
  destruct (Z.of_N ex =? 0)%Z, b; lia.
Qed.
Lemma js_small_inv s n t : js_digits s n t -> (n <= -6)%Z -> exists e, numeral e (Z.to_N (1 - n)) /\ t = mantissa s ++ 101%N :: 45%N :: e.
Proof. intros J L. destruct J; try lia. exists e. auto. Qed.
Lemma js_large_inv s n t : js_digits s n t -> (21 < n)%Z -> exists e, numeral e (Z.to_N (n - 1)) /\ t = mantissa s ++ 101%N :: 43%N :: e.
Proof. intros J L. destruct J; try lia. exists e. auto. Qed.

(** * Integral numbers *)
Lemma decimal_numeral s n : numeral s n -> decimal s (Z.of_nat (length s)) == inject_Z (Z.of_N n).
Proof. intros (_ & _ & _ & V). unfold decimal. rewrite Z.sub_diag. change (10 ^ 0) with 1. rewrite V. ring. Qed.
Lemma zeros_value n : digits_value (zeros n) = 0%N.
Proof.
  unfold zeros. induction (Z.to_nat n) as [|k IH]; [reflexivity|]. cbn [repeat]. change (48%N :: repeat 48%N k) with ([48%N] ++ repeat 48%N k).
  rewrite digits_value_app, IH. reflexivity.
Qed.
Lemma padded_value s n : (Z.of_nat (length s) <= n)%Z ->
  Z.of_N (digits_value (s ++ zeros (n - Z.of_nat (length s)))) = (Z.of_N (digits_value s) * 10 ^ (n - Z.of_nat (length s)))%Z.
Proof.
  intros L. rewrite digits_value_app, zeros_value, N.add_0_r, N2Z.inj_mul, N2Z.inj_pow. unfold zeros. rewrite repeat_length.
  replace (Z.of_N (N.of_nat (Z.to_nat (n - Z.of_nat (length s))))) with (n - Z.of_nat (length s))%Z by lia. reflexivity.
Qed.
Lemma padded_numeral s n : digits s -> s <> [] -> hd 0%N s <> 48%N -> (Z.of_nat (length s) <= n)%Z ->
  numeral (s ++ zeros (n - Z.of_nat (length s))) (Z.to_N (Z.of_N (digits_value s) * 10 ^ (n - Z.of_nat (length s)))).
Proof.
  intros D NE H L. split; [apply Forall_app; split; [auto|]|].
  { unfold zeros. apply Forall_forall. intros c X. apply repeat_spec in X. subst. lia. }
  split; [destruct s; [congruence|discriminate]|]. split; [destruct s; [congruence|cbn [hd app] in *; intros; congruence]|].
  rewrite <- padded_value by auto. rewrite N2Z.id. auto.
Qed.
Lemma integral_magnitude bits m e z : ieee bits = Finite m e -> m <> 0%Z -> same_number (ieee bits) (Finite z 0) ->
  magnitude m e == inject_Z (Z.abs z) /\ z <> 0%Z /\ negative bits = (z <? 0)%Z.
Proof.
  intros I NZ E. apply (integral_value bits m e I) in E. pose proof (p2_pos e) as P.
  assert (A : Qabs (inject_Z m * 2 ^ e) == magnitude m e) by (unfold magnitude; rewrite Qabs_Qmult, abs_inject, (Qabs_pos (2 ^ e)) by lra; reflexivity).
  split; [rewrite <- A, E; apply abs_inject|]. unfold negative. rewrite I.
  assert (S : forall a b, (a < b)%Z -> inject_Z a * 2 ^ e < inject_Z b * 2 ^ e) by (intros; apply Qmult_lt_compat_r; [auto|rewrite <- Zlt_Qlt; auto]).
  assert (Z0 : inject_Z 0 * 2 ^ e == 0) by ring.
  destruct (Z.ltb_spec m 0) as [L|L].
  - pose proof (S m 0%Z L) as X. rewrite Z0, E in X. change 0 with (inject_Z 0) in X. rewrite <- Zlt_Qlt in X. lia.
  - pose proof (S 0%Z m ltac:(lia)) as X. rewrite Z0, E in X. change 0 with (inject_Z 0) in X. rewrite <- Zlt_Qlt in X. lia.
Qed.
(** Digits with an integral value have no digits after the point. *)
Lemma shortest_integral bits m e z s n : ieee bits = Finite m e -> m <> 0%Z -> same_number (ieee bits) (Finite z 0) -> shortest bits s n ->
  decimal s n == inject_Z (Z.abs z) -> (Z.of_nat (length s) <= n)%Z.
Proof.
  intros I NZ E (D & NE & H & R & M) V. destruct (integral_magnitude bits m e z I NZ E) as (X & Z0 & _).
  destruct (decimal_bounds s n D NE H) as [Lo Hi]. pose proof (dec_N_numeral (Z.to_N (Z.abs z))) as Nu.
  assert (Dn : decimal (dec_N (Z.to_N (Z.abs z))) (Z.of_nat (length (dec_N (Z.to_N (Z.abs z))))) == inject_Z (Z.abs z)).
  { rewrite (decimal_numeral _ _ Nu). replace (Z.of_N (Z.to_N (Z.abs z))) with (Z.abs z) by lia. reflexivity. }
  assert (L : (length s <= length (dec_N (Z.to_N (Z.abs z))))%nat).
  { apply (M _ (Z.of_nat (length (dec_N (Z.to_N (Z.abs z)))))); [apply Nu|]. apply (rounds_self bits m e I NZ). rewrite Dn, X. reflexivity. }
  assert (n1 : (1 <= n)%Z).
  { assert (Y : 10 ^ 0 < 10 ^ n).
    { eapply Qle_lt_trans; [|exact Hi]. rewrite V. change (10 ^ 0) with (inject_Z 1). rewrite <- Zle_Qle. lia. }
    apply p10_lt_inv in Y. lia. }
  assert (Zn : (Z.abs z < 10 ^ n)%Z) by (rewrite Zlt_Qlt, <- V, <- p10_pow by lia; auto).
  assert (Ln : (length (dec_N (Z.to_N (Z.abs z))) <= Z.to_nat n)%nat).
  { apply (numeral_length_le _ _ (Z.to_nat n) Nu); [lia|]. apply N2Z.inj_lt. rewrite N2Z.inj_pow. replace (Z.of_N (N.of_nat (Z.to_nat n))) with n by lia.
    replace (Z.of_N (Z.to_N (Z.abs z))) with (Z.abs z) by lia. exact Zn. }
  lia.
Qed.
(** The shortest digits of a safe integer are its own. *)
Lemma shortest_safe bits m e z s n : ieee bits = Finite m e -> m <> 0%Z -> same_number (ieee bits) (Finite z 0) -> (Z.abs z < 2 ^ 53)%Z -> shortest bits s n ->
  decimal s n == inject_Z (Z.abs z) /\ (n <= 16)%Z.
Proof.
  intros I NZ E B Sh. pose proof Sh as (D & NE & H & R & M). destruct (integral_magnitude bits m e z I NZ E) as (X & Z0 & _).
  pose proof (magnitude_closest bits m e I NZ _ R) as C0.
  assert (C : closest (decimal s n) (inject_Z (Z.abs z))) by (intros d Dd; rewrite <- X; apply C0, Dd). clear C0.
  destruct (decimal_bounds s n D NE H) as [Lo Hi].
  assert (Y : decimal s n <= inject_Z (2 ^ 53)) by (apply (closest_below _ _ _ C); [apply double_int; lia|rewrite <- Zlt_Qlt; auto]).
  assert (N16 : (n <= 16)%Z).
  { assert (A : 10 ^ (n - 1) < 10 ^ 16) by (eapply Qle_lt_trans; [exact Lo|]; eapply Qle_lt_trans; [exact Y|]; reflexivity). apply p10_lt_inv in A. lia. }
  split; [|auto].
  pose proof (dec_N_numeral (Z.to_N (Z.abs z))) as Nu. set (s0 := dec_N (Z.to_N (Z.abs z))) in *. set (n0 := Z.of_nat (length s0)).
  assert (Dn : decimal s0 n0 == inject_Z (Z.abs z)).
  { unfold n0. rewrite (decimal_numeral _ _ Nu). replace (Z.of_N (Z.to_N (Z.abs z))) with (Z.abs z) by lia. reflexivity. }
  assert (L : (length s <= length s0)%nat).
  { apply (M _ n0); [apply Nu|]. apply (rounds_self bits m e I NZ). rewrite Dn, X. reflexivity. }
  destruct (Z_le_gt_dec (Z.of_nat (length s)) n) as [K|K].
  - pose proof (decimal_integer s n K) as Ei. set (y := (Z.of_N (digits_value s) * 10 ^ (n - Z.of_nat (length s)))%Z) in *.
    assert (Yp : (0 <= y)%Z) by (unfold y; apply Z.mul_nonneg_nonneg; [lia|apply Z.pow_nonneg; lia]).
    assert (Yb : (y <= 2 ^ 53)%Z) by (rewrite Zle_Qle, <- Ei; auto).
    symmetry. apply closest_self; auto. destruct (double_int y ltac:(lia)) as (a & b & A1 & A2 & A3). exists a, b. split; [auto|split; [auto|]]. rewrite Ei; auto.
  - exfalso. set (c := (10 ^ (n0 - 1))%Z).
    assert (n0p : (1 <= n0)%Z) by (unfold n0; destruct Nu as (_ & Ne & _); destruct s0; [congruence|cbn [length]; lia]).
    assert (Cz : (c <= Z.abs z)%Z).
    { destruct (numeral_low _ _ Nu) as [A|A]; [lia|]. apply N2Z.inj_le in A. rewrite N2Z.inj_pow in A. unfold c, n0.
      replace (Z.of_nat (length s0) - 1)%Z with (Z.of_N (N.of_nat (length s0 - 1))) by (fold n0 in n0p; lia). replace (Z.abs z) with (Z.of_N (Z.to_N (Z.abs z))) by lia. exact A. }
    assert (Cp : (0 < c)%Z) by (apply Z.pow_pos_nonneg; lia).
    assert (Yc : decimal s n < inject_Z c).
    { eapply Qlt_le_trans; [exact Hi|]. unfold c. rewrite <- p10_pow by lia. apply p10_le. unfold n0. lia. }
    assert (Zc : Z.abs z = c).
    { destruct (Z.eq_dec (Z.abs z) c) as [|NEq]; auto. exfalso. assert (A : inject_Z c <= decimal s n); [|lra].
      apply (closest_above _ _ _ C); [apply double_int; lia|]. rewrite <- Zlt_Qlt. lia. }
    assert (L1 : (length s <= 1)%nat).
    { apply (M [49%N] n0); [constructor; [lia|constructor]|]. apply (rounds_self bits m e I NZ). rewrite X, Zc. unfold decimal, c.
      rewrite <- p10_pow by lia. change (inject_Z (Z.of_N (digits_value [49%N]))) with 1. change (Z.of_nat (length [49%N])) with 1%Z. ring. }
    destruct s as [|d [|? ?]]; [congruence| |cbn [length] in L1; lia]. cbn [length] in K.
    assert (Y9 : decimal [d] n <= 9 # 10).
    { unfold decimal. change (Z.of_nat (length [d])) with 1%Z. inversion D; subst. change (digits_value [d]) with (10 * 0 + (d - 48))%N.
      assert (A : 10 ^ (n - 1) <= 10 ^ (-1)) by (apply p10_le; lia). change (10 ^ (-1)) with (1 # 10) in A.
      assert (A2 : inject_Z (Z.of_N (10 * 0 + (d - 48))) <= 9) by (change 9 with (inject_Z 9); rewrite <- Zle_Qle; lia).
      assert (A3 : 0 <= inject_Z (Z.of_N (10 * 0 + (d - 48)))) by (change 0 with (inject_Z 0); rewrite <- Zle_Qle; lia).
      pose proof (p10_pos (n - 1)). nra. }
    assert (A : 15 # 16 <= decimal [d] n); [|lra].
    apply (closest_above _ _ _ C); [exists 15%Z, (-4)%Z; split; [lia|split; [lia|reflexivity]]|].
    apply Qlt_le_trans with 1; [reflexivity|]. change 1 with (inject_Z 1). rewrite <- Zle_Qle. lia.
Qed.
