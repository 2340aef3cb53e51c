(** The conversions of dates: their error, and that they keep the order. *)
From Coq Require Import NArith ZArith QArith Qabs Qpower Bool Lia Lqa.
From Verif Require Import Base SpecNumber SpecDate ModelDecode ModelEncode ModelDate DateFacts DoubleFacts DoubleFacts2.
Open Scope Q_scope.

Lemma le_abs x y : x <= Qabs y -> 0 <= y -> x <= y.
Proof. intros A B. rewrite Qabs_pos in A; auto. Qed.
(** * The bits of a double *)
Lemma pack_value x r : near x r -> Qabs x < 2 ^ 1000 ->
  (pack r < 2 ^ 64)%N /\ exists m e, ieee (pack r) = Finite m e /\ inject_Z m * 2 ^ e == exact r.
Proof.
  intros A B. pose proof (near_m_high _ _ A) as M. pose proof (near_m_low _ _ A) as L. pose proof (nr_low _ _ A) as E1.
  assert (E2 : (d_e r <= 970)%Z). { destruct (nr_full _ _ A) as [->|F]; [lia|]. assert (52 + d_e r < 1000)%Z by (apply p2_lt_inv; lra). lia. }
  destruct r as [m e]. cbn [d_m d_e] in *. unfold pack, exact. cbn [d_m d_e].
  change (2 ^ 53)%Z with 9007199254740992%Z in *. change (2 ^ 52)%Z with 4503599627370496%Z in *. change (2047 * 2 ^ 52)%N with 9218868437227405312%N.
  set (b := Z.to_N _). assert (BE : Z.of_N b = ((e + 1074) * 4503599627370496 + Z.abs m)%Z) by (unfold b; lia).
  destruct (N.leb_spec 9218868437227405312 b) as [X|X]; [lia|].
  set (c := (if (m <? 0)%Z then 2 ^ 63 + b else b)%N).
  assert (C : (c < 2 ^ 64)%N). { unfold c. change (2 ^ 63)%N with 9223372036854775808%N. change (2 ^ 64)%N with 18446744073709551616%N. destruct (m <? 0)%Z; lia. }
  split; [exact C|]. destruct (ieee_shape c C) as (s & ex & fr & X1 & X2 & X3 & ->). change (2 ^ 52)%N with 4503599627370496%N in *. change (2 ^ 52)%Z with 4503599627370496%Z.
  assert (S : s = (m <? 0)%Z). { unfold c in X3. change (2 ^ 63)%N with 9223372036854775808%N in X3. revert X3. destruct s, (Z.ltb_spec m 0); auto; lia. }
  assert (F : (b = ex * 4503599627370496 + fr)%N). { unfold c in X3. rewrite <- S in X3. destruct s; lia. }
  destruct (N.eqb_spec ex 2047) as [Y|Y]; [lia|]. cbv zeta. eexists _, _. split; [reflexivity|].
  assert (V : forall z, (if s then - z else z)%Z = (if (m <? 0)%Z then - z else z)%Z) by (intros; rewrite S; reflexivity). rewrite V. clear V S X3 C c.
  destruct (N.eqb_spec ex 0) as [Z0|Z0].
  - assert (e = -1074)%Z as -> by lia.
    match goal with |- inject_Z ?z * _ == _ => assert (V : z = m) by (destruct (Z.ltb_spec m 0); lia); rewrite V; reflexivity end.
  - destruct (Z.eq_dec (Z.abs m) 9007199254740992) as [Q|Q].
    + assert (W : (Z.of_N ex = e + 1076 /\ fr = 0%N)%Z) by nia. destruct W as [W ->]. rewrite W. replace (e + 1076 - 1075)%Z with (e + 1)%Z by lia. rewrite p2_succ.
      assert (G : forall z, m = (2 * z)%Z -> inject_Z z * (2 * 2 ^ e) == inject_Z m * 2 ^ e) by (intros z ->; rewrite inject_Z_mult; change (inject_Z 2) with 2; ring).
      apply G. change (Z.of_N 0) with 0%Z. destruct (Z.ltb_spec m 0); lia.
    + assert (W : (Z.of_N ex = e + 1075 /\ Z.of_N fr = Z.abs m - 4503599627370496)%Z) by nia. destruct W as [W1 W2]. rewrite W1, W2. replace (e + 1075 - 1075)%Z with e by lia.
      match goal with |- inject_Z ?z * _ == _ => assert (V : z = m) by (destruct (Z.ltb_spec m 0); lia); rewrite V; reflexivity end.
Qed.

(** * fromtimestamp's microseconds *)
Lemma truncate_spec x : Qabs (x - inject_Z (truncate x)) < 1 /\ (0 <= x -> 0 <= x - inject_Z (truncate x) /\ (0 <= truncate x)%Z) /\
  (x <= 0 -> x - inject_Z (truncate x) <= 0 /\ (truncate x <= 0)%Z).
Proof.
  destruct x as [n d]. unfold truncate. cbn [Qnum Qden]. set (q := Z.quot n (Zpos d)).
  pose proof (Z.quot_rem n (Zpos d) ltac:(lia)) as D. fold q in D.
  assert (P : 0 < inject_Z (Zpos d)) by reflexivity.
  assert (E : (n # d) - inject_Z q == inject_Z (Z.rem n (Zpos d)) / inject_Z (Zpos d)).
  { rewrite Qmake_Qdiv. rewrite D at 1. rewrite inject_Z_plus, inject_Z_mult. field. lra. }
  pose proof (Z.rem_bound_abs n (Zpos d) ltac:(lia)) as B. rewrite E. split; [|split].
  - assert (B1 : inject_Z (Z.rem n (Zpos d)) < inject_Z (Zpos d)) by (rewrite <- Zlt_Qlt; lia).
    assert (B2 : inject_Z (- (Z.rem n (Zpos d))) < inject_Z (Zpos d)) by (rewrite <- Zlt_Qlt; lia). rewrite inject_Z_opp in B2.
    apply Qabs_case; intros _; [apply Qlt_shift_div_r; lra|].
    assert (Z : - (inject_Z (Z.rem n (Zpos d)) / inject_Z (Zpos d)) == (- inject_Z (Z.rem n (Zpos d))) / inject_Z (Zpos d)) by (field; lra).
    rewrite Z. apply Qlt_shift_div_r; lra.
  - intros L. assert (N : (0 <= n)%Z) by (unfold Qle in L; cbn in L; lia).
    split; [apply Qle_shift_div_l; [lra|]; rewrite Qmult_0_l; change 0 with (inject_Z 0); rewrite <- Zle_Qle; apply Z.rem_nonneg; lia|].
    apply Z.quot_pos; lia.
  - intros L. assert (N : (n <= 0)%Z) by (unfold Qle in L; cbn in L; lia).
    split; [apply Qle_shift_div_r; [lra|]; rewrite Qmult_0_l; change 0 with (inject_Z 0); rewrite <- Zle_Qle; apply Z.rem_nonpos; lia|].
    unfold q. replace n with (- (- n))%Z by lia. rewrite Z.quot_opp_l by lia. pose proof (Z.quot_pos (- n) (Zpos d) ltac:(lia) ltac:(lia)). lia.
Qed.

Definition micros (x : Q) : Z := let '(s, us) := seconds_and_us x in (s * 1000000 + us)%Z.
(** The microseconds added to the whole seconds *)
Definition part (x : Q) : Z := let f := exact (nearest ((x - inject_Z (truncate x)) * 1000000)) in half_even (Qnum f) (Zpos (Qden f)).
Lemma part_rounded x : exists r, near ((x - inject_Z (truncate x)) * 1000000) r /\ rounded (exact r) (part x).
Proof. eexists. split; [apply nearest_near|apply half_even_Q]. Qed.
Lemma micros_part x : micros x = (truncate x * 1000000 + part x)%Z.
Proof. unfold micros, seconds_and_us. fold (part x). destruct (Z.leb_spec 1000000 (part x)); [lia|]. destruct (Z.ltb_spec (part x) 0); lia. Qed.
Lemma integer_rounded n : rounded (inject_Z n) n.
Proof. assert (E : inject_Z n - inject_Z n == 0) by ring. split; rewrite E; [discriminate|]. intros F. discriminate F. Qed.
Lemma near_integer x r n : near x r -> (Z.abs n <= 2 ^ 53)%Z -> x == inject_Z n -> exact r == inject_Z n.
Proof. intros A L E. rewrite (near_exact x r n 0 A L ltac:(lia)); auto. rewrite E. change (2 ^ 0) with 1. ring. Qed.
Lemma part_range x : (-1000000 <= part x <= 1000000)%Z /\ (0 <= x -> (0 <= part x)%Z) /\ (x <= 0 -> (part x <= 0)%Z).
Proof.
  destruct (part_rounded x) as (r & A & R). destruct (truncate_spec x) as (T & TP & TN). apply Qabs_Qlt_condition in T as [T1 T2].
  pose proof (nearest_near (inject_Z 1000000)) as M1. pose proof (nearest_near (inject_Z (-1000000))) as M2. pose proof (nearest_near (inject_Z 0)) as M0.
  pose proof (near_integer _ _ 1000000 M1 ltac:(lia) (Qeq_refl _)) as I1. pose proof (near_integer _ _ (-1000000) M2 ltac:(lia) (Qeq_refl _)) as I2.
  pose proof (near_integer _ _ 0 M0 ltac:(lia) (Qeq_refl _)) as I0.
  assert (X1 : exact r <= inject_Z 1000000) by (rewrite <- I1; eapply near_mono; [exact A|exact M1|]; change (inject_Z 1000000) with 1000000; lra).
  assert (X2 : inject_Z (-1000000) <= exact r) by (rewrite <- I2; eapply near_mono; [exact M2|exact A|]; change (inject_Z (-1000000)) with (-1000000); lra).
  split; [split|split].
  - eapply rounded_mono; [exact X2|apply integer_rounded|exact R].
  - eapply rounded_mono; [exact X1|exact R|apply integer_rounded].
  - intros P. assert (X0 : inject_Z 0 <= exact r) by (rewrite <- I0; eapply near_mono; [exact M0|exact A|]; change (inject_Z 0) with 0; apply TP in P; lra).
    eapply rounded_mono; [exact X0|apply integer_rounded|exact R].
  - intros P. assert (X0 : exact r <= inject_Z 0) by (rewrite <- I0; eapply near_mono; [exact A|exact M0|]; change (inject_Z 0) with 0; apply TN in P; lra).
    eapply rounded_mono; [exact X0|exact R|apply integer_rounded].
Qed.
Lemma seconds_divide x : seconds_and_us x = (micros x / 1000000, micros x mod 1000000)%Z.
Proof.
  assert (U : (0 <= snd (seconds_and_us x) < 1000000)%Z).
  { unfold seconds_and_us. fold (part x). destruct (part_range x) as [P _]. destruct (Z.leb_spec 1000000 (part x)); [cbn; lia|]. destruct (Z.ltb_spec (part x) 0); cbn; lia. }
  unfold micros. destruct (seconds_and_us x) as [s u]. cbn [snd] in U. f_equal.
  - rewrite Z.add_comm, Z.div_add by lia. rewrite Z.div_small by lia. lia.
  - rewrite Z.add_comm, Z.mod_add by lia. rewrite Z.mod_small by lia. lia.
Qed.
Lemma part_error x : Qabs (inject_Z (part x) - (x - inject_Z (truncate x)) * 1000000) <= (1 # 2) + (1 # 17179869184).
Proof.
  destruct (part_rounded x) as (r & A & [R _]). destruct (truncate_spec x) as (T & _).
  assert (B : Qabs ((x - inject_Z (truncate x)) * 1000000) < 2 ^ 20).
  { rewrite Qabs_Qmult. change (Qabs 1000000) with 1000000. change (2 ^ 20) with 1048576. lra. }
  pose proof (near_error_below _ _ A 20 B ltac:(lia)) as E. change (2 ^ (20 - 54)) with (1 # 17179869184) in E.
  apply abs_le in R, E. apply abs_le. lra.
Qed.
Lemma micros_near x n : Qabs (x * 1000000 - inject_Z n) <= (1 # 2) - (1 # 8589934592) -> micros x = n.
Proof.
  intros L. destruct (part_rounded x) as (r & A & R). destruct (truncate_spec x) as (T & _).
  assert (B : Qabs ((x - inject_Z (truncate x)) * 1000000) < 2 ^ 20).
  { rewrite Qabs_Qmult. change (Qabs 1000000) with 1000000. change (2 ^ 20) with 1048576. lra. }
  pose proof (near_error_below _ _ A 20 B ltac:(lia)) as E. change (2 ^ (20 - 54)) with (1 # 17179869184) in E.
  rewrite micros_part. enough (part x = n - truncate x * 1000000)%Z by lia. apply (rounded_near (exact r)); auto.
  assert (I : inject_Z (n - truncate x * 1000000) == inject_Z n - inject_Z (truncate x) * 1000000).
  { unfold Z.sub. rewrite inject_Z_plus, inject_Z_opp, inject_Z_mult. reflexivity. }
  rewrite I. apply abs_le in L, E. apply Qabs_Qlt_condition. lra.
Qed.
Lemma micros_error x : Qabs (inject_Z (micros x) - x * 1000000) <= (1 # 2) + (1 # 17179869184).
Proof.
  pose proof (part_error x) as E. rewrite micros_part, inject_Z_plus, inject_Z_mult. change (inject_Z 1000000) with 1000000.
  eapply Qle_trans; [|exact E]. apply Qeq_bool_iff || apply Qle_lteq; right. apply Qabs_wd. ring.
Qed.
Lemma micros_mono x y : x <= y -> (micros x <= micros y)%Z.
Proof.
  intros L. rewrite !micros_part. destruct (part_range x) as (P & PP & PN). destruct (part_range y) as (P' & PP' & PN').
  destruct (truncate_spec x) as (T & TP & TN). destruct (truncate_spec y) as (T' & TP' & TN'). apply Qabs_Qlt_condition in T, T'.
  assert (LE : (truncate x <= truncate y)%Z).
  { apply Z.nlt_ge. intros G. assert (G' : inject_Z (truncate y) + 1 <= inject_Z (truncate x)) by (change 1 with (inject_Z 1); rewrite <- inject_Z_plus, <- Zle_Qle; lia).
    destruct (Qlt_le_dec x 0) as [X|X].
    - destruct (Qlt_le_dec y 0) as [Y|Y]; [pose proof (TN ltac:(lra)); pose proof (TN' ltac:(lra)); lra|].
      destruct (TN ltac:(lra)) as [_ A]. destruct (TP' ltac:(lra)) as [_ B]. lia.
    - pose proof (TP X). pose proof (TP' ltac:(lra)). lra. }
  destruct (Z.eq_dec (truncate x) (truncate y)) as [E|E].
  - destruct (part_rounded x) as (r & A & R). destruct (part_rounded y) as (r' & A' & R'). rewrite <- E in A'.
    enough (part x <= part y)%Z by lia. eapply rounded_mono; [|exact R|exact R']. eapply near_mono; [exact A|exact A'|]. lra.
  - destruct (Qlt_le_dec x 0) as [X|X]; [destruct (Qlt_le_dec y 0) as [Y|Y]|].
    + pose proof (PN ltac:(lra)). lia.
    + pose proof (PN ltac:(lra)). pose proof (PP' Y). destruct (TN ltac:(lra)) as [_ U]. destruct (TP' Y) as [_ V]. lia.
    + pose proof (PP' ltac:(lra)). lia.
Qed.

(** * The instant of a datetime and the numbers made of it *)
Section Instants.
Variable k : clock.
Definition seconds (n : Z) : Q := inject_Z n / 1000000.
(** timestamp() is within half a unit in the last place of the seconds, and 2^-54 more without a timezone. *)
Lemma timestamp_spec d n K : instant k d n -> Qabs (seconds n) <= 2 ^ K - 1 -> (1 <= K)%Z ->
  exists y r, timestamp k d = inl r /\ near y r /\ Qabs (y - seconds n) <= 2 ^ (-54) /\ Qabs (exact r - y) <= 2 ^ (K - 54) /\
    match d with Aware _ => y == seconds n | _ => True end.
Proof.
  intros I B KB. change (2 ^ (-54)) with (1 # 18014398509481984). destruct d as [us|us fold]; cbn [instant timestamp] in *.
  - subst n. exists (us # 1000000), (nearest (us # 1000000)). pose proof (nearest_near (us # 1000000)) as A.
    assert (E : us # 1000000 == seconds us) by (unfold seconds; rewrite Qmake_Qdiv; reflexivity).
    split; auto. split; auto. split; [rewrite E; setoid_replace (seconds us - seconds us) with 0 by ring; discriminate|]. split; auto.
    apply (near_error_below _ _ A K); [rewrite E; lra|lia].
  - destruct I as (s & -> & ->). set (u := (us mod 1000000)%Z) in *. assert (U : (0 <= u < 1000000)%Z) by (apply Z.mod_pos_bound; lia).
    pose proof (nearest_near (u # 1000000)) as A. set (a := exact (nearest (u # 1000000))) in *.
    assert (UQ : u # 1000000 == inject_Z u / 1000000) by (rewrite Qmake_Qdiv; reflexivity).
    assert (U0 : 0 <= inject_Z u) by (change 0 with (inject_Z 0); rewrite <- Zle_Qle; lia).
    assert (U1 : inject_Z u <= 999999) by (change 999999 with (inject_Z 999999); rewrite <- Zle_Qle; lia).
    assert (UB : Qabs (u # 1000000) < 2 ^ 0). { rewrite UQ. change (2 ^ 0) with 1. apply Qabs_Qlt_condition. unfold Qdiv. change (/ 1000000) with (1 # 1000000). lra. }
    pose proof (near_error_below _ _ A 0 UB ltac:(lia)) as E. fold a in E. change (2 ^ (0 - 54)) with (1 # 18014398509481984) in E.
    pose proof (nearest_near (inject_Z s + a)) as R. exists (inject_Z s + a), (nearest (inject_Z s + a)).
    assert (SE : seconds (s * 1000000 + u) == inject_Z s + (u # 1000000)).
    { unfold seconds. rewrite UQ, inject_Z_plus, inject_Z_mult. change (inject_Z 1000000) with 1000000. field. }
    split; auto. split; auto. rewrite SE in *. apply abs_le in E, B. split; [apply abs_le; lra|]. split; auto.
    apply (near_error_below _ _ R K); [|lia]. apply Qabs_Qlt_condition. lra.
Qed.
(** The number that is written, for instants less than 2^K seconds away *)
Lemma epoch_ms_spec d n K : instant k d n -> Qabs (seconds n) <= 2 ^ K - 1 -> (1 <= K <= 100)%Z ->
  exists y r, epoch_ms k d = inl r /\ near y r /\ Qabs (y - 1000 * seconds n) <= 1000 * (2 ^ (K - 54) + 2 ^ (-54)) /\ Qabs (exact r - y) <= 2 ^ (K - 44) /\ Qabs y < 2 ^ 1000.
Proof.
  intros I B KB. destruct (timestamp_spec d n K I B ltac:(lia)) as (y & r & T & A & E1 & E2 & _). unfold epoch_ms. rewrite T.
  exists (exact r * 1000), (nearest (exact r * 1000)). split; auto. pose proof (nearest_near (exact r * 1000)) as A2. split; auto.
  assert (S1 : 2 ^ K == 2 ^ (K - 54) * 18014398509481984) by (change 18014398509481984 with (2 ^ 54); rewrite <- p2_add; f_equiv; lia).
  assert (S2 : 2 ^ (K + 10) == 2 ^ (K - 54) * 18446744073709551616) by (change 18446744073709551616 with (2 ^ 64); rewrite <- p2_add; f_equiv; lia).
  assert (S3 : 1 <= 2 ^ K) by (apply p2_ge1; lia). pose proof (p2_pos (K - 54)) as PP. change (2 ^ (-54)) with (1 # 18014398509481984) in *.
  apply abs_le in E1, E2, B. split; [apply abs_le; lra|].
  assert (BB : Qabs (exact r * 1000) < 2 ^ (K + 10)) by (apply Qabs_Qlt_condition; lra).
  split.
  - pose proof (near_error_below _ _ A2 (K + 10) BB ltac:(lia)) as X. replace (K + 10 - 54)%Z with (K - 44)%Z in X by lia. exact X.
  - eapply Qlt_le_trans; [exact BB|]. apply p2_le. lia.
Qed.
(** What is read back, before the microseconds are taken *)
Lemma back_error d n K r : instant k d n -> Qabs (seconds n) <= 2 ^ K - 1 -> (1 <= K <= 50)%Z -> epoch_ms k d = inl r ->
  forall x s, x == exact r / 1000 -> near x s -> Qabs (exact s - seconds n) <= 2 * 2 ^ (K - 54) + 2 ^ (K - 44) / 1000 + 2 ^ (-54).
Proof.
  intros I B KB T x s X A. destruct (epoch_ms_spec d n K I B ltac:(lia)) as (y & r' & T' & _ & E1 & E2 & _). rewrite T in T'. injection T' as <-.
  assert (S1 : 2 ^ K == 2 ^ (K - 54) * 18014398509481984) by (change 18014398509481984 with (2 ^ 54); rewrite <- p2_add; f_equiv; lia).
  assert (S2 : 2 ^ (K - 44) == 2 ^ (K - 54) * 1024) by (change 1024 with (2 ^ 10); rewrite <- p2_add; f_equiv; lia).
  assert (S3 : 1 <= 2 ^ K) by (apply p2_ge1; lia). pose proof (p2_pos (K - 54)) as PP. change (2 ^ (-54)) with (1 # 18014398509481984) in *.
  assert (S4 : 2 ^ (K - 54) <= 1 # 16) by (change (1 # 16) with (2 ^ (-4)); apply p2_le; lia).
  apply abs_le in E1, E2, B. assert (XE : Qabs (x - seconds n) <= 2 ^ (K - 54) + 2 ^ (K - 44) / 1000 + (1 # 18014398509481984)).
  { rewrite X. apply abs_le. unfold Qdiv. change (/ 1000) with (1 # 1000). lra. }
  apply abs_le in XE. unfold Qdiv in *. change (/ 1000) with (1 # 1000) in *. assert (XB : Qabs x < 2 ^ K) by (apply Qabs_Qlt_condition; lra).
  pose proof (near_error_below _ _ A K XB ltac:(lia)) as E3. apply abs_le in E3. apply abs_le. lra.
Qed.
End Instants.
