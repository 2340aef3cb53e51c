(** Facts about normalise_property_key and same_value_zero. *)
From Coq Require Import List NArith ZArith Bool Lia ZifyBool ZifyNat ZifyN.
From Verif Require Import Base Dict SpecNumber ModelValue SpecKey ValueFacts.
Import ListNotations.
Open Scope Z_scope.

Lemma numeral_length s n : numeral s n -> n <> 0%N ->
  (10 ^ N.of_nat (length s - 1) <= n < 10 ^ N.of_nat (length s))%N.
Proof.
  intros H N0. destruct (numeral_low s n H) as [|L]; [lia|]. split; auto.
  destruct H as [D [_ [_ <-]]]. apply digits_value_bound. auto.
Qed.
Lemma numeral_zero s : numeral s 0 -> length s = 1%nat.
Proof. intros H. rewrite (numeral_unique s [48%N] 0 H); auto. repeat split; auto; try discriminate. repeat constructor; lia. Qed.
(** [k] digits are enough exactly for the numbers below 10^k. *)
Lemma numeral_length_le s n k : numeral s n -> (0 < k)%nat -> ((length s <= k)%nat <-> (n < 10 ^ N.of_nat k)%N).
Proof.
  intros H K. destruct (N.eq_dec n 0) as [->|N0].
  - apply numeral_zero in H. assert (0 < 10 ^ N.of_nat k)%N by (apply N.neq_0_lt_0, N.pow_nonzero; lia). lia.
  - destruct (numeral_length s n H N0) as [A B]. split; intros L.
    + apply (N.lt_le_trans _ _ _ B). apply N.pow_le_mono_r; lia.
    + assert (N.of_nat (length s - 1) < N.of_nat k)%N; [|lia].
      apply (N.pow_lt_mono_r_iff 10); [lia|]. lia.
Qed.

Lemma digit_limit_eq : Z.of_N (10 ^ N.of_nat MAX_STR_DIGITS) = digit_limit.
Proof. vm_compute. reflexivity. Qed.
Lemma max_str_pos : (0 < MAX_STR_DIGITS)%nat.
Proof. unfold MAX_STR_DIGITS. lia. Qed.
Lemma float_limit : 2 ^ 1024 < digit_limit.
Proof. vm_compute. reflexivity. Qed.
Lemma index_limit : 2 ^ 32 < digit_limit.
Proof. vm_compute. reflexivity. Qed.

Lemma int_str_spec z :
  (Z.abs z < digit_limit /\ int_str z = Ok (dec_Z z)) \/ (digit_limit <= Z.abs z /\ int_str z = Err EValue).
Proof.
  unfold int_str. pose proof (numeral_length_le _ _ MAX_STR_DIGITS (dec_N_numeral (Z.to_N (Z.abs z))) max_str_pos) as L.
  pose proof digit_limit_eq as P. revert L P.
  generalize (10 ^ N.of_nat MAX_STR_DIGITS)%N digit_limit MAX_STR_DIGITS. intros a b c L P.
  destruct (Nat.ltb_spec c (length (dec_N (Z.to_N (Z.abs z))))) as [X|X].
  - right. split; auto. lia.
  - left. split; auto. lia.
Qed.

Lemma float_int_bound bits z : float_int bits = Some z -> Z.abs z < 2 ^ 1024.
Proof.
  unfold float_int, ieee.
  set (ex := Z.of_N (N.land (N.shiftr bits 52) 2047)). set (fr := Z.of_N (N.land bits (2 ^ 52 - 1))).
  assert (0 <= ex < 2048) as BE.
  { unfold ex. change 2047%N with (N.ones 11). rewrite N.land_ones.
    pose proof (N.mod_lt (N.shiftr bits 52) (2 ^ 11) ltac:(lia)). change (2 ^ 11)%N with 2048%N in *. lia. }
  assert (0 <= fr < 2 ^ 52) as BF.
  { unfold fr. change (2 ^ 52 - 1)%N with (N.ones 52). rewrite N.land_ones.
    pose proof (N.mod_lt bits (2 ^ 52) ltac:(lia)). change (2 ^ 52)%N with 4503599627370496%N in *. lia. }
  destruct (ex =? 2047) eqn:E1; [destruct (fr =? 0); discriminate|].
  set (m0 := if ex =? 0 then fr else fr + 2 ^ 52). set (e := if ex =? 0 then -1074 else ex - 1075).
  assert (0 <= m0 < 2 ^ 53) as BM by (unfold m0; destruct (ex =? 0); lia).
  assert (e <= 971) as BEE by (unfold e; destruct (ex =? 0); lia).
  set (m := if N.testbit bits 63 then - m0 else m0).
  assert (Z.abs m < 2 ^ 53) as BMM by (unfold m; destruct (N.testbit bits 63); lia).
  clearbody m e. clear -BMM BEE.
  destruct (Z.leb_spec 0 e).
  - intros H1. injection H1 as <-. rewrite Z.abs_mul, (Z.abs_eq (2 ^ e)) by (apply Z.pow_nonneg; lia).
    apply Z.lt_le_trans with (2 ^ 53 * 2 ^ e).
    + apply Z.mul_lt_mono_pos_r; auto. apply Z.pow_pos_nonneg; lia.
    + rewrite <- Z.pow_add_r by lia. apply Z.pow_le_mono_r; lia.
  - assert (0 < 2 ^ (- e)) as P by (apply Z.pow_pos_nonneg; lia).
    destruct (_ =? 0); [|discriminate]. intros H1. injection H1 as <-.
    apply Z.le_lt_trans with (2 ^ 53).
    + generalize dependent (2 ^ (- e)). intros d P. change (2 ^ 53) with 9007199254740992 in *.
      assert (Z.abs (m / d) <= Z.abs m + 1) by nia. lia.
    + apply Z.pow_lt_mono_r; lia.
Qed.
Lemma float_small bits z : float_int bits = Some z -> Z.abs z < digit_limit.
Proof.
  intros H. apply float_int_bound in H. eapply Z.lt_trans; [exact H|]. exact float_limit.
Qed.

#[global] Opaque ieee float_int canon.

Section Norm.
Variable float_repr : N -> list N.
Notation normalise := (normalise_property_key float_repr).

Lemma normalise_int_spec z :
  (array_index z /\ normalise_int z = Ok (PInt z)) \/
  (~ array_index z /\ Z.abs z < digit_limit /\ normalise_int z = Ok (PStr (dec_Z z))) \/
  (~ array_index z /\ digit_limit <= Z.abs z /\ normalise_int z = Err EValue).
Proof.
  unfold normalise_int, array_index, MAX_ARRAY_LENGTH.
  destruct ((0 <=? z) && (z <? 2 ^ 32 - 1)) eqn:B; [left; split; auto; lia|].
  destruct (int_str_spec z) as [[A ->]|[A ->]]; cbn [bind]; right; [left|right]; (split; [lia|auto]).
Qed.
Lemma index_small z : array_index z -> Z.abs z < digit_limit.
Proof.
  unfold array_index. intros H. apply Z.lt_trans with (2 ^ 32); [lia|]. exact index_limit.
Qed.
Lemma numeral_digit_limit s n : numeral s n -> ((length s <= MAX_STR_DIGITS)%nat <-> Z.of_N n < digit_limit).
Proof.
  intros H. rewrite (numeral_length_le s n MAX_STR_DIGITS H max_str_pos).
  pose proof digit_limit_eq as P.
  revert P. generalize (10 ^ N.of_nat MAX_STR_DIGITS)%N digit_limit. intros; lia.
Qed.

Lemma normalise_index k n : normalise k = Ok (PInt n) <-> array_index n /\ denotes k n.
Proof.
  destruct k as [s|z|bits]; cbn [normalise_property_key denotes].
  - pose proof (canonical_spec s) as C. destruct (canonical_numeric_index_string s) as [[m|]|e] eqn:E; cbn [bind].
    + destruct C as [NM L].
      destruct (normalise_int_spec (Z.of_N m)) as [[A ->]|[[A [B ->]]|[A [B ->]]]].
      * split.
        -- intros H. injection H as <-. split; auto. split; [lia|]. rewrite N2Z.id. auto.
        -- intros [AI [P NM2]]. destruct NM as [_ [_ [_ V]]]. destruct NM2 as [_ [_ [_ V2]]]. f_equal. f_equal. lia.
      * split; [discriminate|]. intros [AI [P NM2]]. exfalso. apply A.
        destruct NM as [_ [_ [_ V]]]. destruct NM2 as [_ [_ [_ V2]]]. replace (Z.of_N m) with n by lia. auto.
      * split; [discriminate|]. intros [AI [P NM2]]. exfalso. apply A.
        destruct NM as [_ [_ [_ V]]]. destruct NM2 as [_ [_ [_ V2]]]. replace (Z.of_N m) with n by lia. auto.
    + split; [discriminate|]. intros [_ [_ H]]. exfalso. eapply C; eauto.
    + split; [discriminate|]. intros [AI [P H]]. exfalso.
      pose proof (proj2 (numeral_digit_limit s _ H)) as L. apply index_small in AI.
      destruct C as [_ [_ C]]. assert (Z.of_N (Z.to_N n) < digit_limit) as X.
      { rewrite Z2N.id by lia. revert AI. generalize digit_limit. intros; lia. }
      apply L in X. lia.
  - destruct (normalise_int_spec z) as [[A ->]|[[A [B ->]]|[A [B ->]]]].
    + split; [intros H; injection H as <-; auto|intros [_ ->]; auto].
    + split; [discriminate|]. intros [H ->]. contradiction.
    + split; [discriminate|]. intros [H ->]. contradiction.
  - destruct (float_int bits) as [z|] eqn:F.
    + destruct (normalise_int_spec z) as [[A ->]|[[A [B ->]]|[A [B ->]]]];
        (split; [|intros [H D]; apply float_int_spec in D; rewrite D in F; injection F as ->; auto; contradiction]).
      * intros H. injection H as <-. split; auto. apply float_int_spec. auto.
      * discriminate.
      * discriminate.
    + split; [destruct (ieee bits) as [|[]|]; discriminate|].
      intros [_ D]. apply float_int_spec in D. congruence.
Qed.

Lemma normalise_error k e : normalise k = Err e -> e = EValue /\ too_long k.
Proof.
  destruct k as [s|z|bits]; cbn [normalise_property_key too_long].
  - pose proof (canonical_spec s) as C. destruct (canonical_numeric_index_string s) as [[m|]|e'] eqn:E; cbn [bind].
    + destruct C as [NM L]. destruct (normalise_int_spec (Z.of_N m)) as [[A ->]|[[A [B ->]]|[A [B ->]]]]; try discriminate.
      intros _. exfalso. apply (numeral_digit_limit s m NM) in L. revert L B. generalize digit_limit. intros; lia.
    + discriminate.
    + intros H. injection H as <-. destruct C as [-> [D L]]. unfold MAX_STR_DIGITS in L. split; auto. split; auto. lia.
  - destruct (normalise_int_spec z) as [[A ->]|[[A [B ->]]|[A [B ->]]]]; try discriminate.
    intros H. injection H as <-. auto.
  - destruct (float_int bits) as [z|] eqn:F.
    + destruct (normalise_int_spec z) as [[A ->]|[[A [B ->]]|[A [B ->]]]]; try discriminate.
      exfalso. apply float_small in F. revert F B. generalize digit_limit. intros; lia.
    + destruct (ieee bits) as [|[]|]; discriminate.
Qed.
Lemma normalise_too_long k : too_long k -> normalise k = Err EValue.
Proof.
  destruct k as [s|z|bits]; cbn [normalise_property_key too_long]; [| |tauto].
  - intros [D L]. pose proof (canonical_spec s) as C.
    unfold canonical_numeric_index_string in *. destruct s as [|c r]; [cbn in L; lia|].
    rewrite (proj2 (forallb_digits _) D) in *. 
    destruct (Nat.ltb_spec MAX_STR_DIGITS (length (c :: r))) as [X|X]; [reflexivity|].
    unfold MAX_STR_DIGITS in X. lia.
  - intros L. destruct (normalise_int_spec z) as [[A ->]|[[A [B ->]]|[A [B ->]]]]; auto.
    + apply index_small in A. revert A L. generalize digit_limit. intros; lia.
    + revert B L. generalize digit_limit. intros; lia.
Qed.

(** What the string is. *)
Lemma normalise_string k s : normalise k = Ok (PStr s) ->
  match k with
  | KStr t => s = t
  | KInt z => znumeral s z
  | KFloat bits => (forall z, same_number (ieee bits) (Finite z 0) -> znumeral s z)
  end.
Proof.
  destruct k as [t|z|bits]; cbn [normalise_property_key].
  - pose proof (canonical_spec t) as C. destruct (canonical_numeric_index_string t) as [[m|]|e'] eqn:E; cbn [bind].
    + destruct C as [NM L]. destruct (normalise_int_spec (Z.of_N m)) as [[A ->]|[[A [B ->]]|[A [B ->]]]]; try discriminate.
      intros H. injection H as <-. unfold dec_Z. replace (Z.of_N m <? 0) with false by lia. rewrite N2Z.id.
      symmetry. apply numeral_dec. auto.
    + intros H. injection H as <-. auto.
    + discriminate.
  - destruct (normalise_int_spec z) as [[A ->]|[[A [B ->]]|[A [B ->]]]]; try discriminate.
    intros H. injection H as <-. apply dec_Z_numeral.
  - destruct (float_int bits) as [z|] eqn:F.
    + intros H. destruct (normalise_int_spec z) as [[A E]|[[A [B E]]|[A [B E]]]]; rewrite E in H; try discriminate H.
      injection H as <-. intros z' Z'. apply float_int_spec in Z'. rewrite F in Z'. injection Z' as <-.
      apply dec_Z_numeral.
    + intros _ z Z. apply float_int_spec in Z. congruence.
Qed.

Lemma dec_Z_normalises z : ~ array_index z -> Z.abs z < digit_limit -> normalise (KStr (dec_Z z)) = Ok (PStr (dec_Z z)).
Proof.
  intros A B. cbn [normalise_property_key].
  destruct (Z.ltb_spec z 0) as [L|L].
  - rewrite not_numeral_canonical; auto.
    + intros n. eapply znumeral_neg_not_numeral; eauto. apply dec_Z_numeral.
    + intros [D _]. unfold dec_Z in D. replace (z <? 0) with true in D by lia. inversion D; subst. lia.
  - unfold dec_Z. replace (z <? 0) with false by lia.
    rewrite (numeral_canonical _ _ (dec_N_numeral (Z.to_N z))).
    + cbn [bind]. rewrite Z2N.id by lia. destruct (normalise_int_spec z) as [[A' ->]|[[A' [B' ->]]|[A' [B' ->]]]].
      * contradiction.
      * unfold dec_Z. replace (z <? 0) with false by lia. auto.
      * exfalso. revert B B'. generalize digit_limit. intros; lia.
    + apply (numeral_digit_limit _ _ (dec_N_numeral (Z.to_N z))). rewrite Z2N.id by lia.
      revert B. generalize digit_limit. intros; lia.
Qed.

Lemma normalise_idempotent k p :
  (forall bits m e, ieee bits = Finite m e -> float_int bits = None -> ~ digits (float_repr bits)) ->
  normalise k = Ok p -> normalise (key_of p) = Ok p.
Proof.
  intros FR H. destruct p as [s|n]; cbn [key_of].
  - destruct k as [t|z|bits].
    + pose proof (normalise_string _ _ H) as E. cbn in E. subst t. auto.
    + cbn [normalise_property_key] in H.
      destruct (normalise_int_spec z) as [[A E]|[[A [B E]]|[A [B E]]]]; rewrite E in H; try discriminate.
      injection H as <-. apply dec_Z_normalises; auto.
    + cbn [normalise_property_key] in H. destruct (float_int bits) as [z|] eqn:F.
      * destruct (normalise_int_spec z) as [[A E]|[[A [B E]]|[A [B E]]]]; rewrite E in H; try discriminate.
        injection H as <-. apply dec_Z_normalises; auto.
      * assert (~ digits s) as ND.
        { destruct (ieee bits) as [|[]|m e] eqn:I; injection H as <-; intros D.
          - inversion D; subst; lia.
          - inversion D; subst; lia.
          - inversion D; subst; lia.
          - eapply FR; eauto. }
        cbn [normalise_property_key]. rewrite not_numeral_canonical; auto.
        -- intros n [D _]. auto.
        -- intros [D _]. auto.
  - apply normalise_index in H as [A _]. apply normalise_index. cbn. auto.
Qed.

(** Same name, same key. *)
Lemma name_normalise k s : js_name k s -> plain k -> (length s <= 4300)%nat ->
  exists p, normalise k = Ok p /\ normalise (KStr s) = Ok p.
Proof.
  intros N P L.
  assert (forall z, znumeral s z -> exists p, normalise_int z = Ok p /\ normalise (KStr s) = Ok p) as INT.
  { intros z Z. assert (s = dec_Z z) as -> by (eapply znumeral_unique; eauto; apply dec_Z_numeral).
    destruct (normalise_int_spec z) as [[A E]|[[A [B E]]|[A [B E]]]]; rewrite E.
    - eexists. split; [reflexivity|]. apply normalise_index. split; auto. cbn [denotes]. destruct A as [A A2].
      split; auto. unfold znumeral in Z. replace (z <? 0) with false in Z by lia. auto.
    - eexists. split; [reflexivity|]. apply dec_Z_normalises; auto.
    - exfalso. unfold dec_Z in L.
      assert (length (dec_N (Z.to_N (Z.abs z))) <= MAX_STR_DIGITS)%nat as LL.
      { destruct (z <? 0) eqn:E0; cbn [length] in L.
        - replace (Z.abs z) with (- z) by lia. unfold MAX_STR_DIGITS. lia.
        - replace (Z.abs z) with z by lia. auto. }
      apply (numeral_digit_limit _ _ (dec_N_numeral _)) in LL. rewrite Z2N.id in LL by lia.
      revert LL B. generalize digit_limit. intros; lia. }
  destruct N as [t|z t Z|bits z t Z B NZ|bits Z|bits Z].
  - destruct (normalise (KStr t)) as [p|e] eqn:E; eauto. apply normalise_error in E as [_ [_ E]]. lia.
  - apply INT in Z. auto.
  - apply INT in NZ as [p [NP SP]]. exists p. split; [|exact SP]. apply float_int_spec in Z.
    cbn [normalise_property_key]. rewrite Z. auto.
  - cbn in P. destruct P as [z P]. rewrite Z in P. destruct P.
  - cbn in P. destruct P as [z P]. rewrite Z in P. destruct P.
Qed.
Lemma normalise_name k p :
  normalise k = Ok p -> plain k ->
  safe_integer k ->
  js_name k (match p with PStr s => s | PInt n => dec_Z n end).
Proof.
  intros H P B. destruct p as [s|n].
  - apply normalise_string in H. destruct k as [t|z|bits].
    + subst. constructor.
    + constructor. auto.
    + destruct P as [z P]. eapply name_float; eauto.
  - apply normalise_index in H as [A D]. destruct k as [t|z|bits]; cbn [denotes] in D.
    + destruct D as [D1 D2]. unfold dec_Z. replace (n <? 0) with false by lia. apply numeral_dec in D2. rewrite <- D2. constructor.
    + subst. constructor. apply dec_Z_numeral.
    + eapply name_float; eauto. apply dec_Z_numeral.
Qed.
End Norm.

(** ** same_value_zero *)
Lemma svz_error bytes_of v e : same_value_zero bytes_of v = Err e ->
  e = EOverflow /\ exists z, v = VInt z /\ 2 ^ 1024 - 2 ^ 970 <= Z.abs z.
Proof.
  destruct v; cbn [same_value_zero]; try discriminate.
  - unfold float_overflows. destruct (_ <=? _) eqn:E; [|discriminate]. intros H. injection H as <-.
    split; auto. exists z. split; auto. apply Z.leb_le. auto.
  - destruct (bytes_of oid); discriminate.
Qed.
Lemma Ok_inj {A} (x y : A) : Ok x = Ok y -> x = y.
Proof. intros H. injection H. auto. Qed.
Lemma num_key_kind n : match num_key n with SNan | SInf _ | SNum _ _ => True | _ => False end.
Proof. destruct n as [| |m e]; cbn [num_key]; auto. destruct (canon m e). auto. Qed.
Lemma svz_js_same bytes_of a b ka kb :
  same_value_zero bytes_of a = Ok ka -> same_value_zero bytes_of b = Ok kb ->
  (svz_eqb ka kb = true <-> js_same bytes_of a b).
Proof.
  intros A B. rewrite svz_eqb_spec.
  destruct a as [| | |ba|za|fa|sa|oa]; destruct b as [| | |bb|zb|fb|sb|ob];
    cbn [same_value_zero] in A, B; unfold js_same; cbn [number_of];
    repeat match goal with
    | H : (if float_overflows ?z then _ else _) = _ |- _ => destruct (float_overflows z); [discriminate|]
    | H : match bytes_of ?o with _ => _ end = _ |- _ => destruct (bytes_of o) eqn:?
    | H : Ok _ = Ok _ |- _ => apply Ok_inj in H
    end; subst;
    try (rewrite num_key_eq; tauto);
    try (split; intros; congruence).
  all: try solve [match goal with |- context [num_key ?n] => pose proof (num_key_kind n) as K; destruct (num_key n) end;
         (split; [intros EE; first [discriminate EE|destruct K]|intros []])].
  - split; [intros H; injection H as ->; right; eauto|]. intros [E|[c [H1 H2]]]; congruence.
  - split; [discriminate|]. intros [->|[c [H1 H2]]]; congruence.
  - split; [discriminate|]. intros [->|[c [H1 H2]]]; congruence.
  - split; [intros H; injection H as ->; auto|]. intros [->|[c [H1 H2]]]; congruence.
Qed.
