(** Facts about numbers, same_value_zero and property keys. *)
From Coq Require Import List NArith ZArith Bool Lia ZifyBool ZifyNat ZifyN.
From Verif Require Import Base Dict SpecNumber ModelValue.
Import ListNotations.
Open Scope Z_scope.
Ltac Zify.zify_post_hook ::= Z.div_mod_to_equations.

Lemma listN_eqb_spec a : forall b, listN_eqb a b = true <-> a = b.
Proof.
  induction a as [|x a IH]; intros [|y b]; cbn [listN_eqb]; try (split; [discriminate|discriminate]); try tauto.
  rewrite andb_true_iff, N.eqb_eq, IH. split; [intros [-> ->]; auto|intros H; injection H; auto].
Qed.
Lemma svz_eqb_spec : forall a b, svz_eqb a b = true <-> a = b.
Proof.
  intros a b. destruct a, b; cbn [svz_eqb]; try (split; [discriminate|discriminate]); try tauto.
  - rewrite Bool.eqb_true_iff. split; [intros ->; auto|intros H; injection H; auto].
  - rewrite Bool.eqb_true_iff. split; [intros ->; auto|intros H; injection H; auto].
  - rewrite andb_true_iff, !Z.eqb_eq. split; [intros [-> ->]; auto|intros H; injection H; auto].
  - rewrite listN_eqb_spec. split; [intros ->; auto|intros H; injection H; auto].
  - rewrite listN_eqb_spec. split; [intros ->; auto|intros H; injection H; auto].
  - rewrite Nat.eqb_eq. split; [intros ->; auto|intros H; injection H; auto].
Qed.

(** ** Canonical dyadics *)
Lemma pos_strip_spec p : forall e q e', pos_strip p e = (q, e') ->
  e <= e' /\ Zpos p = Zpos q * 2 ^ (e' - e) /\ Z.odd (Zpos q) = true.
Proof.
  induction p; intros e q e' H; cbn [pos_strip] in H.
  - injection H as <- <-. rewrite Z.sub_diag. split; [lia|]. split; [lia|]. auto.
  - apply IHp in H as [L [E O]]. split; [lia|]. split; auto.
    replace (e' - e) with (1 + (e' - (e + 1))) by lia. rewrite Z.pow_add_r by lia. rewrite Pos2Z.inj_xO, E.
    change (2 ^ 1) with 2. ring.
  - injection H as <- <-. rewrite Z.sub_diag. split; [lia|]. split; [lia|]. auto.
Qed.
Lemma canon_spec m e : m <> 0 -> exists q e', canon m e = (q, e') /\ e <= e' /\ m = q * 2 ^ (e' - e) /\ Z.odd q = true.
Proof.
  intros H. destruct m as [|p|p]; [lia| |]; cbn [canon]; destruct (pos_strip p e) as [q e'] eqn:E;
    apply pos_strip_spec in E as [L [E O]]; eexists; eexists; (split; [reflexivity|]); (split; [auto|]).
  - auto.
  - split; [rewrite <- Pos2Z.opp_pos, E; change (Z.neg q) with (- Z.pos q); ring|].
    change (Z.neg q) with (- Z.pos q). rewrite Z.odd_opp. auto.
Qed.
Lemma odd_pow2_unique q a q' a' : Z.odd q = true -> Z.odd q' = true -> 0 <= a -> 0 <= a' ->
  q * 2 ^ a = q' * 2 ^ a' -> q = q' /\ a = a'.
Proof.
  intros O O' A A' E.
  assert (a = a') as ->.
  { destruct (Z.lt_trichotomy a a') as [L|[->|L]]; auto; exfalso.
    - replace (2 ^ a') with (2 ^ a * (2 * 2 ^ (a' - a - 1))) in E.
      2: { rewrite <- Z.pow_succ_r by lia. rewrite <- Z.pow_add_r by lia. f_equal. lia. }
      assert (q = q' * (2 * 2 ^ (a' - a - 1))) as Q by (apply (Z.mul_reg_r _ _ (2 ^ a)); [lia|]; rewrite E; ring).
      rewrite Q, !Z.odd_mul in O. cbn [Z.odd] in O. rewrite andb_false_r in O. discriminate.
    - replace (2 ^ a) with (2 ^ a' * (2 * 2 ^ (a - a' - 1))) in E.
      2: { rewrite <- Z.pow_succ_r by lia. rewrite <- Z.pow_add_r by lia. f_equal. lia. }
      assert (q' = q * (2 * 2 ^ (a - a' - 1))) as Q by (apply (Z.mul_reg_r _ _ (2 ^ a')); [lia|]; rewrite <- E; ring).
      rewrite Q, !Z.odd_mul in O'. cbn [Z.odd] in O'. rewrite andb_false_r in O'. discriminate. }
  split; auto. apply (Z.mul_reg_r _ _ (2 ^ a')); auto. lia.
Qed.
Lemma canon_eq m e m' e' : canon m e = canon m' e' <-> same_value m e m' e'.
Proof.
  unfold same_value.
  assert (0 < 2 ^ (e - Z.min e e')) as P1 by (apply Z.pow_pos_nonneg; lia).
  assert (0 < 2 ^ (e' - Z.min e e')) as P2 by (apply Z.pow_pos_nonneg; lia).
  assert (forall q, Z.odd q = true -> q <> 0) as ON by (intros q O ->; discriminate).
  destruct (Z.eq_dec m 0) as [->|N]; destruct (Z.eq_dec m' 0) as [->|N'].
  - split; auto.
  - destruct (canon_spec m' e' N') as [q [x [-> [L [E O]]]]]. cbn [canon].
    split; [intros H; injection H as <- <-; discriminate|]. intros H. exfalso. nia.
  - destruct (canon_spec m e N) as [q [x [-> [L [E O]]]]]. cbn [canon].
    split; [intros H; injection H as -> ->; discriminate|]. intros H. exfalso. nia.
  - destruct (canon_spec m e N) as [q [x [-> [L [E O]]]]]. destruct (canon_spec m' e' N') as [q' [x' [-> [L' [E' O']]]]].
    rewrite E, E' at 1. rewrite <- !Z.mul_assoc, <- !Z.pow_add_r by lia.
    replace (x - e + (e - Z.min e e')) with (x - Z.min e e') by lia.
    replace (x' - e' + (e' - Z.min e e')) with (x' - Z.min e e') by lia.
    split.
    + intros H. injection H as -> ->. auto.
    + intros H. apply odd_pow2_unique in H as [-> H]; auto; try lia. f_equal. lia.
Qed.

Lemma num_key_eq a b : num_key a = num_key b <-> same_number a b.
Proof.
  destruct a as [| |m e], b as [| |m' e']; cbn [num_key same_number];
    repeat match goal with |- context [canon ?m ?e] => let C := fresh "C" in destruct (canon m e) as [? ?] eqn:C end;
    try (split; [discriminate|tauto]); try tauto.
  - split; [intros H; injection H; auto|intros ->; auto].
  - rewrite <- canon_eq, C, C0. split; [intros H; injection H as -> ->; auto|intros H; injection H as -> ->; auto].
Qed.

(** ** Integers held by floats *)
Lemma float_int_spec bits z : float_int bits = Some z <-> same_number (ieee bits) (Finite z 0).
Proof.
  unfold float_int. destruct (ieee bits) as [| |m e]; cbn [same_number]; try (split; [discriminate|tauto]).
  unfold same_value. destruct (Z.leb_spec 0 e).
  - replace (Z.min e 0) with 0 by lia. rewrite !Z.sub_0_r. change (2 ^ 0) with 1. rewrite Z.mul_1_r.
    split; [intros H1; injection H1; auto|intros ->; auto].
  - replace (Z.min e 0) with e by lia. rewrite Z.sub_diag. replace (0 - e) with (- e) by lia. change (2 ^ 0) with 1. rewrite Z.mul_1_r.
    assert (0 < 2 ^ (- e)) as P by (apply Z.pow_pos_nonneg; lia).
    destruct (Z.eqb_spec (m mod 2 ^ (- e)) 0) as [E|E].
    + split.
      * intros H1. injection H1 as <-. rewrite Z.mul_comm. apply Z.div_exact; auto. lia.
      * intros ->. rewrite Z.div_mul by lia. auto.
    + split; [discriminate|]. intros ->. exfalso. apply E. apply Z.mod_mul. lia.
Qed.

(** ** Decimal numerals *)
Lemma fold_digits_shift s : forall a,
  fold_left (fun a c => (10 * a + (c - 48))%N) s a =
  (a * 10 ^ N.of_nat (length s) + digits_value s)%N.
Proof.
  unfold digits_value. induction s as [|c s IH]; intros a; cbn [fold_left length].
  - change (N.of_nat 0) with 0%N. rewrite N.pow_0_r. lia.
  - rewrite IH, (IH (10 * 0 + (c - 48))%N). rewrite Nat2N.inj_succ, N.pow_succ_r'. lia.
Qed.
Lemma digits_value_app s t : digits_value (s ++ t) = (digits_value s * 10 ^ N.of_nat (length t) + digits_value t)%N.
Proof. unfold digits_value at 1. rewrite fold_left_app. apply fold_digits_shift. Qed.
Lemma digits_value_bound s : digits s -> (digits_value s < 10 ^ N.of_nat (length s))%N.
Proof.
  intros H. induction s as [|c s IH] using rev_ind; [reflexivity|]. apply Forall_app in H as [H1 H2].
  inversion H2; subst. rewrite digits_value_app, app_length. cbn [length]. unfold digits_value at 2. cbn [fold_left].
  change (10 ^ N.of_nat 1)%N with 10%N. rewrite Nat.add_1_r, Nat2N.inj_succ, N.pow_succ_r'. specialize (IH H1). lia.
Qed.

Lemma dec_digits_app fuel : forall n acc, exists s, dec_digits fuel n acc = s ++ acc /\ digits s /\
  ((n < 10 ^ N.of_nat fuel)%N -> digits_value s = n) /\ (fuel <> O -> s <> []) /\
  ((n < 10 ^ N.of_nat fuel)%N -> (0 < n)%N -> hd 0%N s <> 48%N) /\ ((n < 10)%N -> (length s <= 1)%nat).
Proof.
  induction fuel as [|fuel IH]; intros n acc; cbn [dec_digits].
  - exists []. change (10 ^ N.of_nat 0)%N with 1%N. repeat split; auto; try constructor; try congruence; cbn [digits_value fold_left length]; try lia.
  - destruct (N.ltb_spec n 10) as [L|L].
    + exists [(48 + n mod 10)%N]. split; auto. split; [constructor; [lia|constructor]|].
      split; [intros _; unfold digits_value; cbn [fold_left]; rewrite N.mod_small by lia; lia|].
      split; [discriminate|]. split; [|cbn; lia]. intros _ P. cbn [hd]. rewrite N.mod_small by lia. lia.
    + destruct (IH (n / 10)%N ((48 + n mod 10)%N :: acc)) as [s [E [D [V [NE [HD LE]]]]]].
      exists (s ++ [(48 + n mod 10)%N]). split; [rewrite E, <- app_assoc; auto|].
      split; [apply Forall_app; split; auto; constructor; [lia|constructor]|].
      assert ((n < 10 ^ N.of_nat (S fuel))%N -> (n / 10 < 10 ^ N.of_nat fuel)%N) as B.
      { rewrite Nat2N.inj_succ, N.pow_succ_r'. intros B. apply N.div_lt_upper_bound; lia. }
      split.
      * intros H. rewrite digits_value_app, V by auto. cbn [length].
        unfold digits_value. cbn [fold_left]. change (10 ^ N.of_nat 1)%N with 10%N. lia.
      * split; [destruct s; discriminate|]. split; [|lia].
        intros H P. destruct s as [|c s'].
        -- exfalso. destruct fuel as [|f].
           ++ change (10 ^ N.of_nat 1)%N with 10%N in H. lia.
           ++ apply NE; auto.
        -- cbn [app hd]. apply HD; auto. lia.
Qed.
Lemma size_pow10 n : (n < 10 ^ N.of_nat (S (N.size_nat n)))%N.
Proof.
  apply N.lt_le_trans with (2 ^ N.size n)%N; [apply N.size_gt|].
  apply N.le_trans with (10 ^ N.size n)%N; [apply N.pow_le_mono_l; lia|].
  apply N.pow_le_mono_r; [lia|].
  enough (N.of_nat (N.size_nat n) = N.size n) by lia.
  destruct n as [|p]; auto. cbn [N.size_nat N.size].
  induction p; cbn [Pos.size_nat Pos.size]; auto; rewrite Nat2N.inj_succ, IHp; destruct (Pos.size p); auto.
Qed.
Lemma dec_N_numeral n : numeral (dec_N n) n.
Proof.
  unfold dec_N. destruct (dec_digits_app (S (N.size_nat n)) n []) as [s [E [D [V [NE [HD LE]]]]]].
  rewrite E, app_nil_r. pose proof (size_pow10 n) as B. split; auto. split; [auto|]. split; [|auto].
  intros H. destruct (N.eq_dec n 0) as [->|N0].
  - assert (length s <= 1)%nat by (apply LE; lia). destruct s as [|a [|b r]]; cbn [length] in *; auto; try lia; try (exfalso; apply NE; auto).
  - exfalso. apply HD; auto. lia.
Qed.
Lemma digits_eq_of_value s : forall t, digits s -> digits t -> length s = length t ->
  digits_value s = digits_value t -> s = t.
Proof.
  induction s as [|c s IH] using rev_ind; intros t DS DT L V.
  - destruct t; auto. discriminate.
  - destruct (exists_last (l := t)) as [t' [d ->]]; [intros ->; rewrite app_length in L; cbn in L; lia|].
    rewrite !app_length in L. cbn [length] in L. rewrite !digits_value_app in V. cbn [length] in V.
    change (10 ^ N.of_nat 1)%N with 10%N in V.
    apply Forall_app in DS as [DS1 DS2]. apply Forall_app in DT as [DT1 DT2]. inversion DS2; subst. inversion DT2; subst.
    unfold digits_value in V at 2 4. cbn [fold_left] in V.
    assert (c = d) by lia. subst. f_equal. apply IH; auto; lia.
Qed.
Lemma numeral_low s n : numeral s n -> (n = 0 \/ 10 ^ N.of_nat (length s - 1) <= n)%N.
Proof.
  intros [D [NE [HD V]]]. destruct s as [|c s]; [congruence|]. cbn [hd length] in HD.
  inversion D; subst. change (c :: s) with ([c] ++ s) in *. rewrite digits_value_app in *. cbn [app length] in *.
  rewrite Nat.sub_succ, Nat.sub_0_r. unfold digits_value at 1 3. cbn [fold_left].
  destruct (N.eq_dec c 48) as [->|NC].
  - left. specialize (HD eq_refl). destruct s; [|discriminate]. reflexivity.
  - right. nia.
Qed.
Lemma numeral_unique s t n : numeral s n -> numeral t n -> s = t.
Proof.
  intros S T. pose proof (numeral_low s n S) as LS. pose proof (numeral_low t n T) as LT.
  destruct S as [DS [NS [HS VS]]]. destruct T as [DT [NT [HT VT]]].
  apply digits_eq_of_value; auto; [|congruence].
  pose proof (digits_value_bound s DS) as BS. pose proof (digits_value_bound t DT) as BT. rewrite VS in BS. rewrite VT in BT.
  destruct (N.eq_dec n 0) as [->|N0].
  - assert (forall u, digits u -> u <> [] -> (hd 0%N u = 48%N -> length u = 1%nat) -> digits_value u = 0%N -> length u = 1%nat) as ONE.
    { intros u DU NU HU VU. apply HU. destruct u as [|c u]; [congruence|]. cbn [hd].
      change (c :: u) with ([c] ++ u) in VU. rewrite digits_value_app in VU. unfold digits_value in VU at 1. cbn [fold_left] in VU.
      inversion DU; subst. assert (0 < 10 ^ N.of_nat (length u))%N by (apply N.neq_0_lt_0, N.pow_nonzero; lia). nia. }
    rewrite (ONE s), (ONE t); auto.
  - destruct LS as [LS|LS]; [lia|]. destruct LT as [LT|LT]; [lia|].
    assert (0 < length s)%nat by (destruct s; [congruence|cbn; lia]).
    assert (0 < length t)%nat by (destruct t; [congruence|cbn; lia]).
    assert (N.of_nat (length s - 1) < N.of_nat (length t))%N by (apply (N.pow_lt_mono_r_iff 10); lia).
    assert (N.of_nat (length t - 1) < N.of_nat (length s))%N by (apply (N.pow_lt_mono_r_iff 10); lia).
    lia.
Qed.
Lemma dec_Z_numeral z : znumeral (dec_Z z) z.
Proof.
  unfold znumeral, dec_Z. destruct (z <? 0); [eexists; split; [reflexivity|]|]; apply dec_N_numeral.
Qed.
Lemma znumeral_unique s t z : znumeral s z -> znumeral t z -> s = t.
Proof.
  unfold znumeral. destruct (z <? 0).
  - intros [a [-> A]] [b [-> B]]. f_equal. eapply numeral_unique; eauto.
  - apply numeral_unique.
Qed.
Lemma numeral_dec s n : numeral s n -> s = dec_N n.
Proof. intros H. eapply numeral_unique; [exact H|apply dec_N_numeral]. Qed.

Lemma is_digit_iff c : is_digit c = true <-> (48 <= c <= 57)%N.
Proof. unfold is_digit. rewrite andb_true_iff, !N.leb_le. tauto. Qed.
Lemma forallb_digits s : forallb is_digit s = true <-> digits s.
Proof.
  unfold digits. rewrite forallb_forall, Forall_forall. split; intros H x HX; apply is_digit_iff; auto.
Qed.

Lemma canonical_spec s :
  match canonical_numeric_index_string s with
  | Ok (Some n) => numeral s n /\ (length s <= MAX_STR_DIGITS)%nat
  | Ok None => forall n, ~ numeral s n
  | Err e => e = EValue /\ digits s /\ (MAX_STR_DIGITS < length s)%nat
  end.
Proof.
  unfold canonical_numeric_index_string. destruct s as [|c r].
  - intros n [_ [H _]]. congruence.
  - destruct (forallb is_digit (c :: r)) eqn:D.
    + apply forallb_digits in D. destruct (Nat.ltb_spec MAX_STR_DIGITS (length (c :: r))); [auto|].
      destruct (N.eqb_spec c 48) as [->|NC]; cbn [andb].
      * destruct r as [|d r]; cbn [negb].
        -- split; [|auto]. split; auto. split; [discriminate|]. split; auto.
        -- intros n [_ [_ [H1 _]]]. specialize (H1 eq_refl). discriminate.
      * split; [|auto]. split; auto. split; [discriminate|]. split; auto. cbn [hd]. intros; contradiction.
    + intros n [H _]. apply forallb_digits in H. congruence.
Qed.
Lemma numeral_canonical s n : numeral s n -> (length s <= MAX_STR_DIGITS)%nat ->
  canonical_numeric_index_string s = Ok (Some n).
Proof.
  intros H L. pose proof (canonical_spec s) as C. destruct (canonical_numeric_index_string s) as [[m|]|e].
  - destruct C as [[_ [_ [_ C]]] _]. destruct H as [_ [_ [_ H]]]. congruence.
  - exfalso. eapply C; eauto.
  - lia.
Qed.
Lemma not_numeral_canonical s : (forall n, ~ numeral s n) -> ~ (digits s /\ (MAX_STR_DIGITS < length s)%nat) ->
  canonical_numeric_index_string s = Ok None.
Proof.
  intros H L. pose proof (canonical_spec s) as C. destruct (canonical_numeric_index_string s) as [[m|]|e]; auto.
  - exfalso. eapply H. apply C.
  - exfalso. apply L. tauto.
Qed.

Lemma znumeral_neg_not_numeral s z n : z < 0 -> znumeral s z -> ~ numeral s n.
Proof.
  unfold znumeral. intros L. replace (z <? 0) with true by lia. intros [t [-> H]] [D _].
  inversion D; subst. lia.
Qed.
