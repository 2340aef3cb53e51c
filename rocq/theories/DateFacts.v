(** Rounding to doubles: the result is the closest double, the error is at most half a unit in the last place, and the order is kept. *)
From Coq Require Import NArith ZArith QArith Qabs Qpower Qround Bool Lia Lqa.
From Verif Require Import Base SpecNumber SpecDate ModelDecode ModelEncode ModelDate.
Open Scope Q_scope.

(** * Powers of two *)
Lemma two_nz : ~ 2 == 0.
Proof. discriminate. Qed.
Lemma p2_add a b : 2 ^ (a + b) == 2 ^ a * 2 ^ b.
Proof. apply Qpower_plus, two_nz. Qed.
Lemma p2_pow a : (0 <= a)%Z -> 2 ^ a == inject_Z (2 ^ a).
Proof. intros L. rewrite Zpower_Qpower by exact L. reflexivity. Qed.
Lemma p2_pos a : 0 < 2 ^ a.
Proof.
  assert (L : 0 <= 2 ^ a) by (apply Qpower_pos; discriminate). assert (N : ~ 2 ^ a == 0) by (apply Qpower_not_0, two_nz).
  apply Qle_lteq in L as [L|L]; auto. elim N. symmetry. exact L.
Qed.
Lemma p2_ge1 a : (0 <= a)%Z -> 1 <= 2 ^ a.
Proof. intros L. rewrite p2_pow by exact L. change 1 with (inject_Z 1). rewrite <- Zle_Qle. pose proof (Z.pow_pos_nonneg 2 a ltac:(lia) L). lia. Qed.
Lemma p2_le a b : (a <= b)%Z -> 2 ^ a <= 2 ^ b.
Proof.
  intros L. assert (E : 2 ^ b == 2 ^ a * 2 ^ (b - a)) by (rewrite <- p2_add; f_equiv; lia).
  rewrite E. pose proof (p2_ge1 (b - a) ltac:(lia)). pose proof (p2_pos a). nra.
Qed.
Lemma p2_lt_inv a b : 2 ^ a < 2 ^ b -> (a < b)%Z.
Proof. intros L. apply Z.nle_gt. intros G. apply p2_le in G. lra. Qed.
Lemma p2_succ a : 2 ^ (a + 1) == 2 * 2 ^ a.
Proof. rewrite p2_add. change (2 ^ 1) with 2. ring. Qed.
Lemma p2_opp a : 2 ^ (- a) * 2 ^ a == 1.
Proof. rewrite <- p2_add. replace (- a + a)%Z with 0%Z by lia. reflexivity. Qed.

(** * Nearest integers *)
Definition rounded (x : Q) (h : Z) : Prop := Qabs (x - inject_Z h) <= 1 # 2 /\ (Qabs (x - inject_Z h) == 1 # 2 -> Z.even h = true).
Lemma abs_le x y : Qabs x <= y <-> - y <= x /\ x <= y.
Proof. apply Qabs_Qle_condition. Qed.
Lemma rounded_mono x y h h' : x <= y -> rounded x h -> rounded y h' -> (h <= h')%Z.
Proof.
  intros L [A T] [A' T']. destruct (Z.le_gt_cases h h') as [?|G]; auto. exfalso.
  apply abs_le in A, A'. assert (Q : inject_Z h' + 1 <= inject_Z h) by (change 1 with (inject_Z 1); rewrite <- inject_Z_plus, <- Zle_Qle; lia).
  assert (E1 : x - inject_Z h == - (1 # 2)) by lra. assert (E2 : y - inject_Z h' == 1 # 2) by lra.
  specialize (T ltac:(rewrite E1; reflexivity)). specialize (T' ltac:(rewrite E2; reflexivity)).
  assert (E : h = (h' + 1)%Z). { apply Z.le_antisymm; [|lia]. rewrite Zle_Qle, inject_Z_plus. change (inject_Z 1) with 1. lra. }
  subst h. rewrite Z.even_add, T' in T. discriminate T.
Qed.
Lemma rounded_unique x y h h' : x == y -> rounded x h -> rounded y h' -> h = h'.
Proof. intros E A B. apply Z.le_antisymm; [eapply rounded_mono with (x := x) (y := y)|eapply rounded_mono with (x := y) (y := x)]; eauto; lra. Qed.
Lemma rounded_opp x h : rounded x h -> rounded (- x) (- h).
Proof.
  intros [A T]. assert (E : - x - inject_Z (- h) == - (x - inject_Z h)) by (rewrite inject_Z_opp; ring).
  unfold rounded. rewrite E, Qabs_opp. split; auto. intros X. rewrite Z.even_opp. auto.
Qed.
Lemma rounded_near x h n : rounded x h -> Qabs (x - inject_Z n) < 1 # 2 -> h = n.
Proof.
  intros R A. assert (R' : rounded x n). { split; [lra|]. intros E. lra. } exact (rounded_unique x x h n (Qeq_refl x) R R').
Qed.
Lemma rounded_least x h n : rounded x h -> Qabs (x - inject_Z h) <= Qabs (x - inject_Z n).
Proof.
  intros R. destruct (Qlt_le_dec (Qabs (x - inject_Z n)) (1 # 2)) as [L|L].
  - rewrite (rounded_near _ _ _ R L). apply Qle_refl.
  - destruct R. lra.
Qed.
Lemma half_even_rounded n d : (0 < d)%Z -> rounded (inject_Z n / inject_Z d) (half_even n d).
Proof.
  intros P. assert (PQ : 0 < inject_Z d) by (change 0 with (inject_Z 0); rewrite <- Zlt_Qlt; auto).
  assert (E : forall h, inject_Z n / inject_Z d - inject_Z h == inject_Z (n - d * h) / inject_Z d).
  { intros h. unfold Z.sub. rewrite inject_Z_plus, inject_Z_opp, inject_Z_mult. field. lra. }
  assert (B : forall z, (2 * Z.abs z <= d)%Z -> Qabs (inject_Z z / inject_Z d) <= 1 # 2).
  { intros z L. rewrite abs_le. assert (L1 : inject_Z (2 * z) <= inject_Z d) by (rewrite <- Zle_Qle; lia).
    assert (L2 : inject_Z (- d) <= inject_Z (2 * z)) by (rewrite <- Zle_Qle; lia). rewrite inject_Z_opp in L2. rewrite inject_Z_mult in L1, L2.
    change (inject_Z 2) with 2 in L1, L2. split; [apply Qle_shift_div_l|apply Qle_shift_div_r]; lra. }
  assert (B' : forall z, (2 * Z.abs z < d)%Z -> Qabs (inject_Z z / inject_Z d) == 1 # 2 -> False).
  { intros z L X. assert (L1 : inject_Z (2 * z) < inject_Z d) by (rewrite <- Zlt_Qlt; lia).
    assert (L2 : inject_Z (- d) < inject_Z (2 * z)) by (rewrite <- Zlt_Qlt; lia). rewrite inject_Z_opp in L2. rewrite inject_Z_mult in L1, L2.
    change (inject_Z 2) with 2 in L1, L2. assert (Y : Qabs (inject_Z z / inject_Z d) < 1 # 2); [|lra].
    apply Qabs_case; intros _; [apply Qlt_shift_div_r; lra|].
    assert (Z : - (inject_Z z / inject_Z d) == (- inject_Z z) / inject_Z d) by (field; lra). rewrite Z. apply Qlt_shift_div_r; lra. }
  pose proof (Z.div_mod n d ltac:(lia)) as D. pose proof (Z.mod_pos_bound n d P) as M. unfold rounded, half_even.
  destruct (Z.ltb_spec (2 * (n mod d)) d) as [L|L]; [|destruct (Z.ltb_spec d (2 * (n mod d))) as [G|G]].
  - rewrite E. replace (n - d * (n / d))%Z with (n mod d)%Z by lia. split; [apply B; lia|]. intros X. elim (B' (n mod d)%Z ltac:(lia) X).
  - rewrite E. replace (n - d * (n / d + 1))%Z with (n mod d - d)%Z by lia. split; [apply B; lia|]. intros X. elim (B' (n mod d - d)%Z ltac:(lia) X).
  - destruct (Z.even (n / d)) eqn:Ev.
    + rewrite E. replace (n - d * (n / d))%Z with (n mod d)%Z by lia. split; [apply B; lia|]. auto.
    + rewrite E. replace (n - d * (n / d + 1))%Z with (n mod d - d)%Z by lia. split; [apply B; lia|]. intros _. rewrite Z.even_add, Ev. reflexivity.
Qed.
Lemma half_even_Q x : rounded x (half_even (Qnum x) (Zpos (Qden x))).
Proof. pose proof (half_even_rounded (Qnum x) (Zpos (Qden x)) ltac:(lia)) as R. unfold rounded in *. rewrite <- Qmake_Qdiv in R. destruct x. exact R. Qed.

(** * The exponent *)
Lemma log2_Q p : (0 < p)%Z -> 2 ^ (Z.log2 p) <= inject_Z p /\ inject_Z p < 2 ^ (Z.log2 p + 1).
Proof.
  intros P. destruct (Z.log2_spec p P) as [A B]. pose proof (Z.log2_nonneg p). rewrite !p2_pow by lia. rewrite <- Zle_Qle, <- Zlt_Qlt. split; auto.
Qed.
Lemma scaled_cmp p q k : (0 < q)%Z -> (if 0 <=? k then q * 2 ^ k <=? p else q <=? p * 2 ^ (- k))%Z = true <-> 2 ^ k * inject_Z q <= inject_Z p.
Proof.
  intros Q. destruct (Z.leb_spec 0 k) as [L|L].
  - rewrite Z.leb_le, Zle_Qle, inject_Z_mult, <- p2_pow by exact L. rewrite (Qmult_comm (2 ^ k)). reflexivity.
  - rewrite Z.leb_le, Zle_Qle, inject_Z_mult, <- p2_pow by lia.
    pose proof (p2_opp k) as E. pose proof (p2_pos k) as P1. pose proof (p2_pos (- k)) as P2.
    set (a := 2 ^ k) in *. set (b := 2 ^ (- k)) in *. set (x := inject_Z q) in *. set (y := inject_Z p) in *.
    split; intros H.
    + assert (X : a * x <= a * (y * b)) by (apply Qmult_le_l; auto). assert (Y : a * (y * b) == y) by (setoid_replace (a * (y * b)) with (y * (b * a)) by ring; rewrite E; ring). lra.
    + assert (X : b * (a * x) <= b * y) by (apply Qmult_le_l; auto). assert (Y : b * (a * x) == x) by (setoid_replace (b * (a * x)) with (x * (b * a)) by ring; rewrite E; ring). lra.
Qed.
Lemma exponent_spec p q : (0 < p)%Z -> (0 < q)%Z ->
  (-1074 <= exponent p q)%Z /\ inject_Z p < 2 ^ (53 + exponent p q) * inject_Z q /\
  (exponent p q = (-1074)%Z \/ 2 ^ (52 + exponent p q) * inject_Z q <= inject_Z p).
Proof.
  intros P Q. destruct (log2_Q p P) as [A B]. destruct (log2_Q q Q) as [C D]. unfold exponent.
  set (k := (Z.log2 p - Z.log2 q)%Z). pose proof (scaled_cmp p q k Q) as S.
  set (c := (if 0 <=? k then q * 2 ^ k <=? p else q <=? p * 2 ^ (- k))%Z) in *.
  assert (QP : 0 < inject_Z q) by (change 0 with (inject_Z 0); rewrite <- Zlt_Qlt; auto).
  assert (U : inject_Z p < 2 ^ (k + 1) * inject_Z q).
  { assert (X : 2 ^ (Z.log2 p + 1) == 2 ^ (k + 1) * 2 ^ (Z.log2 q)) by (rewrite <- p2_add; f_equiv; unfold k; lia).
    pose proof (p2_pos (k + 1)). assert (2 ^ (k + 1) * 2 ^ Z.log2 q <= 2 ^ (k + 1) * inject_Z q) by (apply Qmult_le_l; auto). lra. }
  assert (V : 2 ^ (k - 1) * inject_Z q <= inject_Z p).
  { assert (X : 2 ^ (Z.log2 p) == 2 ^ (k - 1) * 2 ^ (Z.log2 q + 1)) by (rewrite <- p2_add; f_equiv; unfold k; lia).
    pose proof (p2_pos (k - 1)). assert (2 ^ (k - 1) * inject_Z q <= 2 ^ (k - 1) * 2 ^ (Z.log2 q + 1)) by (apply Qmult_le_l; lra). lra. }
  assert (K : exists j, (if c then k else (k - 1)%Z) = j /\ 2 ^ j * inject_Z q <= inject_Z p /\ inject_Z p < 2 ^ (j + 1) * inject_Z q).
  { destruct c eqn:Ec.
    - exists k. split; auto. split; auto. apply S. reflexivity.
    - exists (k - 1)%Z. split; auto. split; auto. replace (k - 1 + 1)%Z with k by lia. apply Qnot_le_lt. intros X. apply S in X. discriminate X. }
  destruct K as (j & -> & J1 & J2). split; [lia|]. split.
  - eapply Qlt_le_trans; [exact J2|]. apply Qmult_le_r; auto. apply p2_le. lia.
  - destruct (Z.max_spec (-1074) (j - 52)) as [[L ->]|[L ->]]; auto. right. replace (52 + (j - 52))%Z with j by lia. exact J1.
Qed.

(** * Nearest doubles *)
Lemma abs_inject z : Qabs (inject_Z z) == inject_Z (Z.abs z).
Proof. reflexivity. Qed.
Lemma Q_frac (x : Q) : x == inject_Z (Qnum x) / inject_Z (Zpos (Qden x)).
Proof. destruct x as [n d]. apply Qmake_Qdiv. Qed.
(** The result for [x], with everything that is used about it *)
Record near (x : Q) (r : double) : Prop := {
  nr_low : (-1074 <= d_e r)%Z;
  nr_rounded : rounded (x * 2 ^ (- d_e r)) (d_m r);
  nr_high : Qabs x < 2 ^ (53 + d_e r);
  nr_full : d_e r = (-1074)%Z \/ 2 ^ (52 + d_e r) <= Qabs x }.
Lemma nearest_near x : near x (nearest x).
Proof.
  unfold nearest. set (p := Qnum x). set (q := Zpos (Qden x)).
  assert (QP : 0 < inject_Z q) by (change 0 with (inject_Z 0); rewrite <- Zlt_Qlt; unfold q; lia).
  assert (X : x * inject_Z q == inject_Z p). { rewrite (Q_frac x). fold p. fold q. field. lra. }
  destruct (Z.eqb_spec p 0) as [Z|NZ].
  - assert (Z0 : x == 0). { apply (Qmult_inj_r _ _ (inject_Z q)); [lra|]. rewrite X, Z. ring. }
    constructor; cbn [d_m d_e].
    + lia.
    + assert (E : x * 2 ^ (- (-1074)) - inject_Z 0 == 0) by (rewrite Z0; change (inject_Z 0) with 0; ring).
      split; rewrite E; [discriminate|]. intros F. discriminate F.
    + rewrite Z0. apply p2_pos.
    + auto.
  - destruct (exponent_spec (Z.abs p) q ltac:(lia) ltac:(unfold q; lia)) as (E1 & E2 & E3). set (e := exponent (Z.abs p) q) in *.
    assert (XA : Qabs x * inject_Z q == inject_Z (Z.abs p)).
    { rewrite <- (Qabs_pos (inject_Z q)) by lra. rewrite <- Qabs_Qmult, X. apply abs_inject. }
    constructor; cbn [d_m d_e].
    + exact E1.
    + assert (R : forall n d, (0 < d)%Z -> inject_Z n / inject_Z d == x * 2 ^ (- e) -> rounded (x * 2 ^ (- e)) (half_even n d)).
      { intros n d P E. pose proof (half_even_rounded n d P) as R. unfold rounded in *. rewrite E in R. exact R. }
      pose proof (p2_pos e) as Pe. pose proof (p2_opp e) as Oe. destruct (Z.leb_spec 0 e) as [L|L].
      * pose proof (Z.pow_pos_nonneg 2 e ltac:(lia) L). apply R; [unfold q; nia|]. rewrite inject_Z_mult, <- p2_pow by exact L. rewrite <- X.
        assert (I : 2 ^ (- e) == / 2 ^ e) by (rewrite Qpower_opp; reflexivity). rewrite I. field. lra.
      * apply R; [unfold q; lia|]. rewrite inject_Z_mult, <- p2_pow by lia. rewrite <- X. field. lra.
    + apply (Qmult_lt_r _ _ (inject_Z q)); auto. rewrite XA. exact E2.
    + destruct E3 as [E3|E3]; auto. right. apply (Qmult_le_r _ _ (inject_Z q)); auto. rewrite XA. exact E3.
Qed.

Section Near.
Variables (x : Q) (r : double).
Hypothesis HN : near x r.
Lemma unscale : x == x * 2 ^ (- d_e r) * 2 ^ (d_e r).
Proof. rewrite <- Qmult_assoc, p2_opp. ring. Qed.
Lemma near_error : Qabs (exact r - x) <= 2 ^ (d_e r - 1).
Proof.
  destruct (nr_rounded _ _ HN) as [A _]. unfold exact.
  assert (E : inject_Z (d_m r) * 2 ^ d_e r - x == - ((x * 2 ^ (- d_e r) - inject_Z (d_m r)) * 2 ^ d_e r)).
  { setoid_rewrite unscale at 1. ring. }
  rewrite E, Qabs_opp, Qabs_Qmult, (Qabs_pos (2 ^ d_e r)) by (apply Qlt_le_weak, p2_pos).
  assert (F : 2 ^ (d_e r - 1) == (1 # 2) * 2 ^ d_e r). { setoid_replace (2 ^ d_e r) with (2 * 2 ^ (d_e r - 1)); [ring|]. rewrite <- p2_succ. f_equiv. lia. }
  rewrite F. apply Qmult_le_r; [apply p2_pos|exact A].
Qed.
Lemma near_m_high : (Z.abs (d_m r) <= 2 ^ 53)%Z.
Proof.
  assert (B : Qabs (x * 2 ^ (- d_e r)) < inject_Z (2 ^ 53)).
  { rewrite Qabs_Qmult, (Qabs_pos (2 ^ (- d_e r))) by (apply Qlt_le_weak, p2_pos). rewrite <- p2_pow by lia.
    assert (E : 2 ^ 53 == 2 ^ (53 + d_e r) * 2 ^ (- d_e r)) by (rewrite <- p2_add; f_equiv; lia). rewrite E.
    apply Qmult_lt_r; [apply p2_pos|exact (nr_high _ _ HN)]. }
  apply Qabs_Qlt_condition in B as [B1 B2].
  assert (I : forall n, rounded (inject_Z n) n). { intros n. assert (E : inject_Z n - inject_Z n == 0) by ring. split; rewrite E; [discriminate|]. intros F. discriminate F. }
  assert (U : (d_m r <= 2 ^ 53)%Z) by (eapply rounded_mono; [apply Qlt_le_weak, B2|exact (nr_rounded _ _ HN)|apply I]).
  assert (L : (- 2 ^ 53 <= d_m r)%Z) by (eapply rounded_mono; [|apply I|exact (nr_rounded _ _ HN)]; rewrite inject_Z_opp; lra).
  lia.
Qed.
Lemma near_m_low : d_e r = (-1074)%Z \/ (2 ^ 52 <= Z.abs (d_m r))%Z.
Proof.
  destruct (nr_full _ _ HN) as [|F]; auto. right.
  assert (B : inject_Z (2 ^ 52) <= Qabs (x * 2 ^ (- d_e r))).
  { rewrite Qabs_Qmult, (Qabs_pos (2 ^ (- d_e r))) by (apply Qlt_le_weak, p2_pos). rewrite <- p2_pow by lia.
    assert (E : 2 ^ 52 == 2 ^ (52 + d_e r) * 2 ^ (- d_e r)) by (rewrite <- p2_add; f_equiv; lia). rewrite E.
    apply Qmult_le_r; [apply p2_pos|exact F]. }
  assert (I : forall n, rounded (inject_Z n) n). { intros n. assert (E : inject_Z n - inject_Z n == 0) by ring. split; rewrite E; [discriminate|]. intros X. discriminate X. }
  revert B. apply Qabs_case; intros S B.
  - assert (U : (2 ^ 52 <= d_m r)%Z) by (eapply rounded_mono; [exact B|apply I|exact (nr_rounded _ _ HN)]). lia.
  - assert (U : (d_m r <= - 2 ^ 52)%Z) by (eapply rounded_mono; [|exact (nr_rounded _ _ HN)|apply I]; rewrite inject_Z_opp; lra). lia.
Qed.
(** Half a unit in the last place *)
Lemma near_error_below k : Qabs x < 2 ^ k -> (-1021 <= k)%Z -> Qabs (exact r - x) <= 2 ^ (k - 54).
Proof.
  intros B K. eapply Qle_trans; [apply near_error|]. apply p2_le. destruct (nr_full _ _ HN) as [->|F]; [lia|].
  assert (52 + d_e r < k)%Z by (apply p2_lt_inv; lra). lia.
Qed.
(** On the grid of the result's exponent, nothing is closer. *)
Lemma near_grid n : Qabs (x - exact r) <= Qabs (x - inject_Z n * 2 ^ d_e r).
Proof.
  pose proof (p2_pos (d_e r)) as P.
  assert (E : forall z, Qabs (x - inject_Z z * 2 ^ d_e r) == Qabs (x * 2 ^ (- d_e r) - inject_Z z) * 2 ^ d_e r).
  { intros z. transitivity (Qabs (x * 2 ^ (- d_e r) - inject_Z z) * Qabs (2 ^ d_e r)); [|rewrite (Qabs_pos (2 ^ d_e r)) by lra; reflexivity].
    rewrite <- Qabs_Qmult. apply Qabs_wd. setoid_rewrite unscale at 1. ring. }
  unfold exact. rewrite !E. apply Qmult_le_r; auto. apply rounded_least, (nr_rounded _ _ HN).
Qed.
Lemma near_closest m e : (Z.abs m <= 2 ^ 53)%Z -> (-1074 <= e)%Z -> Qabs (x - exact r) <= Qabs (x - inject_Z m * 2 ^ e).
Proof.
  intros M E. destruct (Z.le_gt_cases (d_e r) e) as [L|L].
  - assert (G : inject_Z m * 2 ^ e == inject_Z (m * 2 ^ (e - d_e r)) * 2 ^ d_e r).
    { rewrite inject_Z_mult, <- p2_pow by lia. rewrite <- Qmult_assoc, <- p2_add. replace (e - d_e r + d_e r)%Z with e by lia. reflexivity. }
    rewrite G. apply near_grid.
  - destruct (nr_full _ _ HN) as [F|F]; [lia|].
    assert (Y : Qabs (inject_Z m * 2 ^ e) <= 2 ^ (52 + d_e r)).
    { rewrite Qabs_Qmult, (Qabs_pos (2 ^ e)) by (apply Qlt_le_weak, p2_pos). rewrite abs_inject.
      assert (X : 2 ^ (53 + e) == inject_Z (2 ^ 53) * 2 ^ e) by (rewrite p2_add, <- p2_pow by lia; reflexivity).
      eapply Qle_trans; [|apply (p2_le (53 + e)); lia]. rewrite X. apply Qmult_le_r; [apply p2_pos|]. rewrite <- Zle_Qle. exact M. }
    assert (G : exists n, Qabs (x - inject_Z n * 2 ^ d_e r) == Qabs x - 2 ^ (52 + d_e r)).
    { assert (X : 2 ^ (52 + d_e r) == inject_Z (2 ^ 52) * 2 ^ d_e r) by (rewrite p2_add, <- p2_pow by lia; reflexivity).
      revert F. apply Qabs_case; intros S F.
      - exists (2 ^ 52)%Z. rewrite <- X. rewrite Qabs_pos; lra.
      - exists (- 2 ^ 52)%Z. rewrite inject_Z_opp. setoid_replace (x - - inject_Z (2 ^ 52) * 2 ^ d_e r) with (x + 2 ^ (52 + d_e r)) by (rewrite X; ring).
        rewrite Qabs_neg; lra. }
    destruct G as [n G]. pose proof (near_grid n) as H. pose proof (Qabs_triangle_reverse x (inject_Z m * 2 ^ e)). lra.
Qed.
End Near.

Lemma near_opp x r : near x r -> near (- x) (mkDouble (- d_m r) (d_e r)).
Proof.
  intros [A B C D]. constructor; cbn [d_m d_e]; auto.
  - assert (E : - x * 2 ^ (- d_e r) == - (x * 2 ^ (- d_e r))) by ring. unfold rounded. rewrite E. apply rounded_opp. exact B.
  - rewrite Qabs_opp. exact C.
  - rewrite Qabs_opp. exact D.
Qed.
Lemma exact_opp r : exact (mkDouble (- d_m r) (d_e r)) == - exact r.
Proof. unfold exact. cbn [d_m d_e]. rewrite inject_Z_opp. ring. Qed.
Lemma near_sign x r : near x r -> 0 <= x -> 0 <= exact r.
Proof.
  intros A P. assert (L : (0 <= d_m r)%Z).
  { eapply rounded_mono with (x := 0); [|split; [discriminate|discriminate]|exact (nr_rounded _ _ A)]. pose proof (p2_pos (- d_e r)). nra. }
  unfold exact. rewrite Zle_Qle in L. change (inject_Z 0) with 0 in L. pose proof (p2_pos (d_e r)). nra.
Qed.
Lemma near_mono_pos x y r s : near x r -> near y s -> 0 <= x -> x <= y -> exact r <= exact s.
Proof.
  intros A B P L. assert (AX : Qabs x == x) by (apply Qabs_pos; lra). assert (AY : Qabs y == y) by (apply Qabs_pos; lra).
  assert (E : (d_e r <= d_e s)%Z).
  { destruct (nr_full _ _ A) as [->|F]; [apply (nr_low _ _ B)|]. pose proof (nr_high _ _ B). assert (52 + d_e r < 53 + d_e s)%Z by (apply p2_lt_inv; lra). lia. }
  destruct (Z.eq_dec (d_e r) (d_e s)) as [Q|Q].
  - assert (M : (d_m r <= d_m s)%Z).
    { eapply rounded_mono; [|exact (nr_rounded _ _ A)|exact (nr_rounded _ _ B)]. rewrite Q. apply Qmult_le_r; [apply p2_pos|exact L]. }
    unfold exact. rewrite Q. apply Qmult_le_r; [apply p2_pos|]. rewrite <- Zle_Qle. exact M.
  - pose proof (near_m_high _ _ A) as M. destruct (near_m_low _ _ B) as [M'|M']; [pose proof (nr_low _ _ A); lia|].
    pose proof (near_sign _ _ B ltac:(lra)) as S. unfold exact in *.
    assert (P2 : (0 <= d_m s)%Z). { apply Z.nlt_ge. intros N. rewrite Zlt_Qlt in N. change (inject_Z 0) with 0 in N. pose proof (p2_pos (d_e s)). nra. }
    assert (X : inject_Z (d_m r) * 2 ^ d_e r <= 2 ^ (53 + d_e r)).
    { rewrite p2_add, (p2_pow 53) by lia. apply Qmult_le_r; [apply p2_pos|]. rewrite <- Zle_Qle. lia. }
    assert (Y : 2 ^ (52 + d_e s) <= inject_Z (d_m s) * 2 ^ d_e s).
    { rewrite p2_add, (p2_pow 52) by lia. apply Qmult_le_r; [apply p2_pos|]. rewrite <- Zle_Qle. lia. }
    pose proof (p2_le (53 + d_e r) (52 + d_e s) ltac:(lia)). lra.
Qed.
Lemma near_mono x y r s : near x r -> near y s -> x <= y -> exact r <= exact s.
Proof.
  intros A B L. destruct (Qlt_le_dec x 0) as [P|P]; [|exact (near_mono_pos _ _ _ _ A B P L)].
  pose proof (near_opp _ _ A) as A'. pose proof (near_opp _ _ B) as B'. destruct (Qlt_le_dec y 0) as [P'|P'].
  - pose proof (near_mono_pos _ _ _ _ B' A' ltac:(lra) ltac:(lra)) as X. rewrite !exact_opp in X. lra.
  - pose proof (near_sign _ _ A' ltac:(lra)) as X. rewrite exact_opp in X. pose proof (near_sign _ _ B P'). lra.
Qed.
Lemma near_unique x y r s : near x r -> near y s -> x == y -> exact r == exact s.
Proof. intros A B E. apply Qle_antisym; [eapply near_mono with (x := x) (y := y)|eapply near_mono with (x := y) (y := x)]; eauto; lra. Qed.
Lemma near_exact x r m e : near x r -> (Z.abs m <= 2 ^ 53)%Z -> (-1074 <= e)%Z -> x == inject_Z m * 2 ^ e -> exact r == x.
Proof.
  intros A M E X. pose proof (near_closest _ _ A m e M E) as C. rewrite <- X in C. setoid_replace (x - x) with 0 in C by ring. change (Qabs 0) with 0 in C.
  apply abs_le in C. lra.
Qed.

(** Rounding is to the closest double. *)
Lemma nearest_closest x : closest x (exact (nearest x)).
Proof. intros z (m & e & M & E & Z). rewrite Z. apply near_closest; auto; [apply nearest_near|lia]. Qed.
