(** C77: a number used as a property key is the property that JavaScript names with it. *)
From Coq Require Import List NArith ZArith QArith Qabs Qpower Bool Lia Lqa ZifyBool ZifyNat ZifyN.
From Verif Require Import Base SpecPrim SpecNumber SpecDate SpecFloatText ModelValue SpecKey ValueFacts KeyFacts ModelDecode ModelFloatText ModelDate DateFacts DateFacts2 FloatTextFacts Prop_Redump.
Import ListNotations.
Open Scope Q_scope.

(** The text of a property key *)
Definition key_text (p : pkey) (t : list N) : Prop := match p with PStr s => t = s | PInt n => znumeral t n end.

(** A float that is not integral: the key is a string, and it is JavaScript's text unless the number is from 10^-9 to 10^-4. *)
Theorem C77_fraction_iff : forall dtoa bits m e s n, ieee bits = Finite m e -> (forall z, ~ same_number (ieee bits) (Finite z 0)) ->
  dtoa bits = (s, n) -> shortest bits s n ->
  exists t, normalise_property_key (float_repr dtoa) (KFloat bits) = Ok (PStr t) /\
    (js_text bits t <-> ~ (10 ^ (-9) <= decimal s n /\ decimal s n < 10 ^ (-4))).
Proof.
  intros dtoa bits m e s n I NI DT Sh. exists (float_repr dtoa bits).
  split.
  { unfold normalise_property_key. destruct (float_int bits) as [z|] eqn:F; [apply float_int_spec in F; destruct (NI z F)|]. rewrite I. auto. }
  destruct (fraction_digits bits m e s n I NI Sh) as (NZ & L & U).
  assert (Sg : N.testbit bits 63 = negative bits) by (apply testbit_negative with m e; auto).
  unfold float_repr. rewrite DT, Sg. pose proof Sh as (D & NE & H & _).
  destruct (decimal_bounds s n D NE H) as [Lo Hi].
  assert (R : (10 ^ (-9) <= decimal s n /\ decimal s n < 10 ^ (-4)) <-> (-8 <= n <= -4)%Z).
  { split; [intros [A B]|intros [A B]].
    - assert (X : 10 ^ (-9) < 10 ^ n) by lra. assert (Y : 10 ^ (n - 1) < 10 ^ (-4)) by lra. apply p10_lt_inv in X, Y. lia.
    - assert (X : 10 ^ (-9) <= 10 ^ (n - 1)) by (apply p10_le; lia). assert (Y : 10 ^ n <= 10 ^ (-4)) by (apply p10_le; lia). lra. }
  rewrite R.
  assert (T : forall t, js_digits s n t -> js_text bits ((if negative bits then [45%N] else []) ++ t)).
  { intros t J. pose proof (jt_digits bits m e s n t I NZ Sh J) as X. destruct (negative bits); auto. }
  unfold format_short. destruct (Z_le_gt_dec n (-4)) as [N4|N4].
  - replace ((n <=? -4)%Z || (16 <? n)%Z)%bool with true by lia. rewrite mantissa_insert. unfold exponent_text. replace (n - 1 <? 0)%Z with true by lia.
    replace (Z.abs (n - 1)) with (1 - n)%Z by lia. pose proof (dec_N_numeral (Z.to_N (1 - n))) as Nu.
    assert (Len : (length (dec_N (Z.to_N (1 - n))) < 2)%nat <-> (-8 <= n)%Z).
    { pose proof (numeral_length_le _ _ 1 Nu ltac:(lia)) as X. change (10 ^ N.of_nat 1)%N with 10%N in X. lia. }
    destruct (Nat.ltb_spec (length (dec_N (Z.to_N (1 - n)))) 2) as [L2|L2].
    + split; [|lia]. intros J Hn. clear Hn. remember (mantissa s ++ 101%N :: 45%N :: 48%N :: dec_N (Z.to_N (1 - n))) as t eqn:Et.
      assert (J' : exists s' n', digits s' /\ js_digits s' n' t).
      { inversion J as [I'|e' I'|I'|I'|m' e' s' n' t' I' NZ' Sh' Jd Eq]; try congruence. exists s', n'. split; [apply Sh'|].
        destruct (negative bits); cbn [app] in Eq; [injection Eq as <-|subst t']; auto. }
      destruct J' as (s' & n' & D' & Jd). pose proof (mantissa_plain s D) as P. pose proof (mantissa_plain s' D') as P'.
      destruct (Z_lt_le_dec (-6) n') as [A|A]; [destruct (Z_le_gt_dec n' 21) as [B|B]|].
      * apply (no_e (mantissa s) (45%N :: 48%N :: dec_N (Z.to_N (1 - n))) t); [apply (js_plain s' n'); auto|auto].
      * apply js_large_inv in Jd as (e0 & _ & Jd); [|lia]. rewrite Et in Jd. apply cut_e in Jd as [_ Jd]; auto. discriminate.
      * apply js_small_inv in Jd as (e0 & (_ & _ & Hd & _) & Jd); [|lia]. rewrite Et in Jd. apply cut_e in Jd as [_ Jd]; auto. injection Jd as <-.
        cbn [hd length] in Hd. specialize (Hd eq_refl). destruct Nu as (_ & Ne & _). destruct (dec_N (Z.to_N (1 - n))); [congruence|discriminate].
    + split; [lia|]. intros _. apply (T (mantissa s ++ 101%N :: 45%N :: dec_N (Z.to_N (1 - n)))). apply (jd_small s n (dec_N (Z.to_N (1 - n)))); [lia|auto].
  - replace ((n <=? -4)%Z || (16 <? n)%Z)%bool with false by lia. split; [lia|]. intros _. apply T. destruct (Z.leb_spec n 0) as [N0|N0].
    + apply (jd_fraction s n). lia.
    + replace (Z.to_nat n + 1 - length s)%nat with 0%nat by lia. cbn [repeat]. rewrite app_nil_r, insert_inside by lia.
      apply (jd_point s n (firstn (Z.to_nat n) s) (skipn (Z.to_nat n) s)); try lia; [rewrite firstn_skipn; auto|rewrite firstn_length; lia].
Qed.
Print Assumptions C77_fraction_iff.
Lemma float_normalises fr bits z : same_number (ieee bits) (Finite z 0) ->
  exists p, normalise_property_key fr (KFloat bits) = Ok p /\ forall t, key_text p t <-> t = dec_Z z.
Proof.
  intros E. destruct (normalise_property_key fr (KFloat bits)) as [p|er] eqn:N.
  - exists p. split; [auto|]. intros t. destruct p as [s|i].
    + pose proof (normalise_string fr (KFloat bits) s N z E) as Z1. cbn [key_text]. rewrite (znumeral_unique _ _ _ (dec_Z_numeral z) Z1). reflexivity.
    + apply normalise_index in N as [_ N]. cbn [denotes] in N. apply float_int_spec in N, E. assert (i = z) by congruence. subst i. cbn [key_text].
      split; [intros Z1; apply (znumeral_unique _ _ z Z1 (dec_Z_numeral z))|intros ->; apply dec_Z_numeral].
  - apply normalise_error in N as [_ []].
Qed.
Lemma digits_no_other c t a b : digits t -> (c < 48 \/ 57 < c)%N -> t <> a ++ c :: b.
Proof. intros D C ->. apply Forall_app in D as [_ D]. inversion D; subst. lia. Qed.
(** An integral float: the text of the key is JavaScript's exactly when the shortest digits are the number itself and it is below 10^21. *)
Theorem C77_integer_iff : forall fr bits m e z, ieee bits = Finite m e -> m <> 0%Z -> same_number (ieee bits) (Finite z 0) ->
  exists p, normalise_property_key fr (KFloat bits) = Ok p /\
    forall t, key_text p t -> (js_text bits t <-> exists s n, shortest bits s n /\ decimal s n == inject_Z (Z.abs z) /\ (n <= 21)%Z).
Proof.
  intros fr bits m e z I NZ E. destruct (float_normalises fr bits z E) as (p & N & P). exists p. split; [auto|]. intros t T. apply P in T. subst t. clear p N P.
  destruct (integral_magnitude bits m e z I NZ E) as (X & Z0 & Sg). pose proof (dec_N_numeral (Z.to_N (Z.abs z))) as Nu.
  assert (Dz : dec_Z z = if negative bits then 45%N :: dec_N (Z.to_N (Z.abs z)) else dec_N (Z.to_N (Z.abs z))).
  { rewrite Sg. unfold dec_Z. destruct (Z.ltb_spec z 0); [replace (- z)%Z with (Z.abs z) by lia|replace (Z.abs z) with z by lia]; auto. }
  rewrite Dz. split.
  - intros J. assert (J' : exists s n, shortest bits s n /\ js_digits s n (dec_N (Z.to_N (Z.abs z)))).
    { inversion J as [I'|e' I'|I'|I'|m' e' s n t I' NZ' Sh Jd Eq]; try congruence. exists s, n. split; [auto|].
      destruct (negative bits); [injection Eq as Eq|]; rewrite <- Eq; auto. }
    destruct J' as (s & n & Sh & Jd). exists s, n. split; [auto|]. pose proof Sh as (D & NE & H & _).
    pose proof (proj1 Nu) as Dg. inversion Jd as [L Eq|a b L1 L2 Es La Eq|L Eq|ex L Ex Eq|ex L Ex Eq].
    + split; [|lia]. rewrite decimal_integer by lia.
      pose proof (padded_numeral s n D NE H (proj1 L)) as Pn. rewrite Eq in Pn. destruct Pn as (_ & _ & _ & V). destruct Nu as (_ & _ & _ & V').
      rewrite V in V'. set (y := (Z.of_N (digits_value s) * 10 ^ (n - Z.of_nat (length s)))%Z) in *.
      assert (0 <= y)%Z by (unfold y; apply Z.mul_nonneg_nonneg; [lia|apply Z.pow_nonneg; lia]).
      replace y with (Z.abs z) by lia. reflexivity.
    + exfalso. apply (digits_no_other 46%N _ a b Dg); [lia|]. rewrite <- Eq. reflexivity.
    + exfalso. apply (digits_no_other 46%N _ [48%N] (zeros (- n) ++ s) Dg); [lia|]. rewrite <- Eq. reflexivity.
    + exfalso. apply (digits_no_other 101%N _ (mantissa s) (45%N :: ex) Dg); [lia|]. rewrite <- Eq. reflexivity.
    + exfalso. apply (digits_no_other 101%N _ (mantissa s) (43%N :: ex) Dg); [lia|]. rewrite <- Eq. reflexivity.
  - intros (s & n & Sh & V & L). pose proof (shortest_integral bits m e z s n I NZ E Sh V) as K. pose proof Sh as (D & NE & H & _).
    assert (Eq : dec_N (Z.to_N (Z.abs z)) = s ++ zeros (n - Z.of_nat (length s))).
    { rewrite decimal_integer in V by auto. apply inject_eq in V. pose proof (padded_numeral s n D NE H K) as Pn. rewrite V in Pn.
      apply (numeral_unique _ _ _ Nu Pn). }
    rewrite Eq. apply (jt_digits bits m e s n _ I NZ Sh). constructor. lia.
Qed.
Print Assumptions C77_integer_iff.
(** It is for integers below 2^53 in magnitude, JavaScript's safe integers (the shortest digits exist: see the example). *)
Theorem C77_safe_integer_partial : forall fr bits z s n, same_number (ieee bits) (Finite z 0) -> (Z.abs z < 2 ^ 53)%Z -> (z <> 0%Z -> shortest bits s n) ->
  exists p t, normalise_property_key fr (KFloat bits) = Ok p /\ key_text p t /\ js_text bits t /\ znumeral t z.
Proof.
  intros fr bits z s n E B Sh. destruct (ieee bits) as [|neg|m e] eqn:I; [destruct E|destruct E|]. rewrite <- I in E.
  destruct (Z.eq_dec m 0) as [M0|NZ].
  - assert (Z0 : z = 0%Z).
    { apply (integral_value bits m e I) in E. subst m. assert (A : inject_Z 0 == inject_Z z) by (rewrite <- E; ring). apply inject_eq in A. auto. }
    subst z m. destruct (float_normalises fr bits 0 E) as (p & N & P). exists p, [48%N]. split; [auto|]. split; [apply P; reflexivity|].
    split; [apply (jt_zero bits e I)|apply (dec_Z_numeral 0)].
  - destruct (integral_magnitude bits m e z I NZ E) as (_ & Z0 & _). destruct (shortest_safe bits m e z s n I NZ E B (Sh Z0)) as [V L].
    destruct (C77_integer_iff fr bits m e z I NZ E) as (p & N & P). destruct (float_normalises fr bits z E) as (p' & N' & P').
    rewrite N in N'. injection N' as <-. exists p, (dec_Z z). assert (K : key_text p (dec_Z z)) by (apply P'; auto).
    split; [auto|]. split; [auto|]. split; [|apply dec_Z_numeral]. apply P; [auto|]. exists s, n. split; [auto|split; [auto|lia]].
Qed.
Print Assumptions C77_safe_integer_partial.
(** It never is from 10^21 on, where JavaScript writes an exponent. *)
Theorem C77_large_refuted : forall fr bits z, same_number (ieee bits) (Finite z 0) -> (10 ^ 21 <= Z.abs z)%Z ->
  exists p, normalise_property_key fr (KFloat bits) = Ok p /\ forall t, key_text p t -> ~ js_text bits t.
Proof.
  intros fr bits z E B. destruct (ieee bits) as [|neg|m e] eqn:I; [destruct E|destruct E|]. rewrite <- I in E.
  assert (NZ : m <> 0%Z).
  { intros ->. apply (integral_value bits 0 e I) in E. assert (A : inject_Z 0 == inject_Z z) by (rewrite <- E; ring). apply inject_eq in A. subst z. cbn in B. lia. }
  destruct (C77_integer_iff fr bits m e z I NZ E) as (p & N & P). exists p. split; [auto|]. intros t K J. apply (P t K) in J as (s & n & (D & NE & H & _) & V & L).
  destruct (decimal_bounds s n D NE H) as [_ Hi]. assert (A : 10 ^ n <= 10 ^ 21) by (apply p10_le; lia).
  rewrite Zle_Qle, <- V in B. change (inject_Z (10 ^ 21)) with (10 ^ 21) in B. lra.
Qed.
Print Assumptions C77_large_refuted.
(** NaN and the infinities have other names. *)
Theorem C77_nan_refuted : forall fr bits, (forall m e, ieee bits <> Finite m e) ->
  exists t, normalise_property_key fr (KFloat bits) = Ok (PStr t) /\ ~ js_text bits t.
Proof.
  intros fr bits NF. unfold normalise_property_key. destruct (float_int bits) as [z|] eqn:F.
  { apply float_int_spec in F. destruct (ieee bits) as [|neg|m e] eqn:I; [destruct F|destruct F|destruct (NF m e eq_refl)]. }
  destruct (ieee bits) as [|neg|m e] eqn:I; [| |destruct (NF m e eq_refl)].
  - eexists. split; [reflexivity|]. intros J. inversion J; congruence.
  - destruct neg; eexists; (split; [reflexivity|]); intros J; inversion J; congruence.
Qed.
Print Assumptions C77_nan_refuted.
(** Nor for many integers from 2^53 on: 2^60 has the key "1152921504606846976" and the name "1152921504606847000". *)
Theorem C77_padded_refuted : exists bits z, same_number (ieee bits) (Finite z 0) /\ (Z.abs z < 10 ^ 21)%Z /\
  forall fr, exists p, normalise_property_key fr (KFloat bits) = Ok p /\ forall t, key_text p t -> ~ js_text bits t.
Proof.
  exists 4877398396442247168%N, (2 ^ 60)%Z. assert (I : ieee 4877398396442247168 = Finite (2 ^ 52) 8) by (vm_compute; reflexivity).
  assert (E : same_number (ieee 4877398396442247168) (Finite (2 ^ 60) 0)) by (rewrite I; vm_compute; reflexivity).
  split; [auto|]. split; [reflexivity|]. intros fr.
  destruct (C77_integer_iff fr _ _ _ _ I ltac:(discriminate) E) as (p & N & P). exists p. split; [auto|]. intros t K J. apply (P t K) in J as (s & n & Sh & V & L).
  pose proof (shortest_integral _ _ _ _ s n I ltac:(discriminate) E Sh V) as Kn. destruct Sh as (D & NE & H & R & M).
  assert (Ls : (length s <= 16)%nat).
  { apply (M [49;49;53;50;57;50;49;53;48;52;54;48;54;56;52;55]%N 19%Z); [repeat constructor; lia|].
    exists (2 ^ 52)%Z, 8%Z. split; [auto|]. split; [|intros; reflexivity].
    set (y := signed _ _). assert (Y : y == 1152921504606847000) by (vm_compute; reflexivity).
    pose proof (nearest_closest 1152921504606847000) as C. intros z Dz. specialize (C z Dz). rewrite Y.
    assert (X : exact (nearest 1152921504606847000) == inject_Z (2 ^ 52) * 2 ^ 8) by (vm_compute; reflexivity). rewrite X in C. auto. }
  destruct (decimal_bounds s n D NE H) as [Lo Hi]. rewrite V in Lo, Hi. change (inject_Z (Z.abs (2 ^ 60))) with 1152921504606846976 in *.
  assert (A1 : 10 ^ 18 < 10 ^ n) by (eapply Qlt_trans; [|exact Hi]; reflexivity). assert (A2 : 10 ^ (n - 1) < 10 ^ 19) by (eapply Qle_lt_trans; [exact Lo|]; reflexivity).
  apply p10_lt_inv in A1, A2. assert (n = 19)%Z by lia. subst n. rewrite decimal_integer in V by auto.
  change 1152921504606846976 with (inject_Z 1152921504606846976) in V. apply inject_eq in V.
  replace (19 - Z.of_nat (length s))%Z with (1 + (18 - Z.of_nat (length s)))%Z in V by lia. rewrite Z.pow_add_r in V by lia. change (10 ^ 1)%Z with 10%Z in V.
  apply (f_equal (fun x => (x mod 10)%Z)) in V. rewrite Z.mul_assoc, (Z.mul_comm _ 10), <- Z.mul_assoc, Z.mul_comm, Z.mod_mul in V by lia. discriminate.
Qed.
Print Assumptions C77_padded_refuted.

(** A key that is a number which is not integral and the string of its text are one property. *)
Lemma repr_no_digits dtoa bits : exists a b c, (c = 46 \/ c = 101)%N /\ float_repr dtoa bits = a ++ c :: b.
Proof.
  unfold float_repr. destruct (dtoa bits) as [s n]. unfold format_short. set (sg := if N.testbit bits 63 then _ else _).
  destruct ((n <=? -4)%Z || (16 <? n)%Z)%bool eqn:U; [exists (sg ++ insert_point s 1), (exponent_text (n - 1)), 101%N; split; [auto|]; rewrite app_assoc; auto|].
  destruct (n <=? 0)%Z eqn:N0.
  - exists (sg ++ [48%N]), (repeat 48%N (Z.to_nat (- n)) ++ s), 46%N. split; [auto|]. rewrite <- app_assoc. reflexivity.
  - set (s' := s ++ _). assert (L : (Z.to_nat n < length s')%nat) by (unfold s'; rewrite app_length, repeat_length; lia).
    rewrite insert_inside by auto. exists (sg ++ firstn (Z.to_nat n) s'), (skipn (Z.to_nat n) s'), 46%N. split; [auto|]. rewrite <- app_assoc. reflexivity.
Qed.
Lemma repr_not_digits dtoa bits : ~ digits (float_repr dtoa bits).
Proof. intros D. destruct (repr_no_digits dtoa bits) as (a & b & c & C & E). apply (digits_no_other c _ a b D); [lia|auto]. Qed.
Theorem C77_same_property : forall dtoa bits t, normalise_property_key (float_repr dtoa) (KFloat bits) = Ok (PStr t) -> (exists m e, ieee bits = Finite m e) ->
  (forall z, ~ same_number (ieee bits) (Finite z 0)) -> normalise_property_key (float_repr dtoa) (KStr t) = Ok (PStr t).
Proof.
  intros dtoa bits t E (m & e & I) NI. unfold normalise_property_key in E. destruct (float_int bits) as [z|] eqn:F; [apply float_int_spec in F; destruct (NI z F)|].
  rewrite I in E. injection E as <-. unfold normalise_property_key.
  assert (C : canonical_numeric_index_string (float_repr dtoa bits) = Ok None).
  { apply not_numeral_canonical; [intros n (D & _); apply (repr_not_digits _ _ D)|intros [D _]; apply (repr_not_digits _ _ D)]. }
  rewrite C. reflexivity.
Qed.
Print Assumptions C77_same_property.
(** Python's texts are as C69, C70 and C75 ask for. *)
Theorem C77_readable : forall dcfg dtoa, (forall bits, c_float_repr dcfg bits = float_repr dtoa bits) -> (forall bits, digits (fst (dtoa bits))) -> readable_floats dcfg.
Proof.
  intros dcfg dtoa E Dt bits m e I NI. rewrite E. split; [apply repr_not_digits|].
  assert (P : forall l, Forall (fun c => c < 128)%N l -> Forall scalar l) by (intros l; apply Forall_impl; intros c H; left; lia). apply P. clear P.
  assert (Pd : forall l, digits l -> Forall (fun c => c < 128)%N l) by (intros l; apply Forall_impl; intros c H; lia).
  assert (Pi : forall l n, Forall (fun c => c < 128)%N l -> Forall (fun c => c < 128)%N (insert_point l n)).
  { intros l n F. unfold insert_point. rewrite <- (firstn_skipn n l) in F. apply Forall_app in F as [Fa Fb]. destruct (skipn n l); [auto|]. apply Forall_app. split; [auto|]. constructor; [lia|auto]. }
  assert (Pr : forall k, Forall (fun c => c < 128)%N (repeat 48%N k)) by (intros k; apply Forall_forall; intros c H; apply repeat_spec in H; lia).
  unfold float_repr. specialize (Dt bits). destruct (dtoa bits) as [s n]. cbn [fst] in Dt. apply Pd in Dt.
  apply Forall_app. split; [destruct (N.testbit bits 63); repeat constructor; lia|]. unfold format_short.
  destruct ((n <=? -4)%Z || (16 <? n)%Z)%bool; [|destruct (n <=? 0)%Z].
  - apply Forall_app. split; [auto|]. constructor; [lia|]. unfold exponent_text. constructor; [destruct (n - 1 <? 0)%Z; lia|].
    pose proof (Pd _ (proj1 (dec_N_numeral (Z.to_N (Z.abs (n - 1)))))) as Pn. destruct (_ <? 2)%nat; [constructor; [lia|auto]|auto].
  - repeat (constructor; [lia|]). apply Forall_app. auto.
  - apply Pi. apply Forall_app. auto.
Qed.
Print Assumptions C77_readable.

(** * Examples *)
Lemma not_zero bits m e n : ieee bits = Finite m e -> m <> 0%Z -> ~ rounds_to (signed bits (decimal [] n)) bits.
Proof.
  intros I NZ R. apply (magnitude_closest bits m e I NZ) in R. pose proof (magnitude_pos m e NZ) as P.
  assert (D : is_double (decimal [] n)) by (exists 0%Z, 0%Z; split; [lia|split; [lia|unfold decimal; cbn; ring]]).
  apply closest_self in R; [|auto]. unfold decimal in R. change (inject_Z (Z.of_N (digits_value []))) with 0 in R. rewrite Qmult_0_l in R. lra.
Qed.
(** 0.5: the text is "0.5". *)
Example C77_half : let bits := 4602678819172646912%N in
  ieee bits = Finite (2 ^ 52) (-53) /\ (forall z, ~ same_number (ieee bits) (Finite z 0)) /\ shortest bits [53%N] 0 /\ ~ (10 ^ (-9) <= decimal [53%N] 0 /\ decimal [53%N] 0 < 10 ^ (-4)).
Proof.
  cbv zeta. assert (I : ieee 4602678819172646912 = Finite (2 ^ 52) (-53)) by (vm_compute; reflexivity). split; [auto|].
  split; [intros z E; rewrite I in E; cbn [same_number] in E; unfold same_value in E; change (Z.min (-53) 0) with (-53)%Z in E; change (2 ^ (-53 - -53))%Z with 1%Z in E;
    change (2 ^ (0 - -53))%Z with 9007199254740992%Z in E; change (2 ^ 52)%Z with 4503599627370496%Z in E; lia|].
  split; [|intros [_ X]; vm_compute in X; discriminate].
  split; [repeat constructor; lia|]. split; [discriminate|]. split; [discriminate|].
  split; [apply (rounds_self _ _ _ I); [discriminate|vm_compute; reflexivity]|].
  intros s' n' D R. destruct s'; [exfalso; apply (not_zero _ _ _ _ I ltac:(discriminate) R)|cbn [length]; lia].
Qed.
(** 3.0: the key is 3. *)
Example C77_three : let bits := 4613937818241073152%N in same_number (ieee bits) (Finite 3 0) /\ shortest bits [51%N] 1.
Proof.
  cbv zeta. assert (I : ieee 4613937818241073152 = Finite 6755399441055744 (-51)) by (vm_compute; reflexivity).
  split; [rewrite I; vm_compute; reflexivity|]. split; [repeat constructor; lia|]. split; [discriminate|]. split; [discriminate|].
  split; [apply (rounds_self _ _ _ I); [discriminate|vm_compute; reflexivity]|].
  intros s' n' D R. destruct s'; [exfalso; apply (not_zero _ _ _ _ I ltac:(discriminate) R)|cbn [length]; lia].
Qed.
(** 2^-14: the key is "6.103515625e-05", JavaScript's text "0.00006103515625". *)
Example C77_small : let bits := 4544132024016830464%N in
  ieee bits = Finite (2 ^ 52) (-66) /\ shortest bits [54;49;48;51;53;49;53;54;50;53]%N (-4) /\
  10 ^ (-9) <= decimal [54;49;48;51;53;49;53;54;50;53]%N (-4) /\ decimal [54;49;48;51;53;49;53;54;50;53]%N (-4) < 10 ^ (-4) /\
  js_text bits [48;46;48;48;48;48;54;49;48;51;53;49;53;54;50;53]%N /\
  normalise_property_key (float_repr (fun _ => ([54;49;48;51;53;49;53;54;50;53]%N, (-4)%Z))) (KFloat bits) = Ok (PStr [54;46;49;48;51;53;49;53;54;50;53;101;45;48;53]%N).
Proof.
  cbv zeta. assert (I : ieee 4544132024016830464 = Finite (2 ^ 52) (-66)) by (vm_compute; reflexivity). split; [auto|].
  assert (Sh : shortest 4544132024016830464 [54;49;48;51;53;49;53;54;50;53]%N (-4)).
  { split; [repeat constructor; lia|]. split; [discriminate|]. split; [discriminate|].
    split; [apply (rounds_self _ _ _ I); [discriminate|vm_compute; reflexivity]|].
    intros s' n' D R. cbn [length]. destruct (le_lt_dec 10 (length s')) as [|L]; [auto|exfalso].
    apply (magnitude_closest _ _ _ I ltac:(discriminate)) in R.
    assert (X : magnitude (2 ^ 52) (-66) == 6103515625 # 100000000000000) by (vm_compute; reflexivity).
    assert (C : closest (decimal s' n') (6103515625 # 100000000000000)) by (intros d Dd; rewrite <- X; apply R, Dd). clear R X.
    assert (Lo : (6103515625 # 100000000000000) - (1 # 1152921504606846976) <= decimal s' n').
    { apply (closest_above _ _ _ C); [exists (2 ^ 46 - 1)%Z, (-60)%Z; split; [lia|split; [lia|vm_compute; reflexivity]]|vm_compute; reflexivity]. }
    assert (Hi : decimal s' n' <= (6103515625 # 100000000000000) + (1 # 1152921504606846976)).
    { apply (closest_below _ _ _ C); [exists (2 ^ 46 + 1)%Z, (-60)%Z; split; [lia|split; [lia|vm_compute; reflexivity]]|vm_compute; reflexivity]. }
    unfold decimal in Lo, Hi. pose proof (digits_value_bound s' D) as Vb. set (v := Z.of_N (digits_value s')) in *. set (j := (n' - Z.of_nat (length s'))%Z) in *.
    assert (V : (0 <= v < 10 ^ 9)%Z).
    { unfold v. split; [lia|]. apply N2Z.inj_lt in Vb. rewrite N2Z.inj_pow in Vb. eapply Z.lt_le_trans; [exact Vb|]. apply Z.pow_le_mono_r; lia. }
    destruct (Z_le_gt_dec (-13) j) as [J|J].
    - assert (W : inject_Z v * 10 ^ j * 10000000000000 == inject_Z (v * 10 ^ (j + 13))).
      { rewrite inject_Z_mult, <- p10_pow by lia. rewrite p10_add. change (10 ^ 13) with 10000000000000. ring. }
      set (w := (v * 10 ^ (j + 13))%Z) in *.
      assert (W1 : inject_Z 610351562 < inject_Z w) by (rewrite <- W; change (inject_Z 610351562) with 610351562; lra).
      assert (W2 : inject_Z w < inject_Z 610351563) by (rewrite <- W; change (inject_Z 610351563) with 610351563; lra).
      rewrite <- Zlt_Qlt in W1, W2. lia.
    - assert (P : 10 ^ j <= 10 ^ (-14)) by (apply p10_le; lia). change (10 ^ (-14)) with (1 # 100000000000000) in P. pose proof (p10_pos j) as P0.
      assert (V1 : inject_Z v <= 1000000000) by (change 1000000000 with (inject_Z (10 ^ 9)); rewrite <- Zle_Qle; lia).
      assert (V0 : 0 <= inject_Z v) by (change 0 with (inject_Z 0); rewrite <- Zle_Qle; lia). nra. }
  split; [auto|]. split; [vm_compute; discriminate|]. split; [vm_compute; reflexivity|]. split.
  - apply (jt_digits _ _ _ _ _ [48;46;48;48;48;48;54;49;48;51;53;49;53;54;50;53]%N I ltac:(discriminate) Sh). apply (jd_fraction [54;49;48;51;53;49;53;54;50;53]%N (-4)). lia.
  - vm_compute. reflexivity.
Qed.
