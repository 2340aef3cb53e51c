(** C76: dates keep their instant.

    The number that dumps writes and the datetime that loads makes of it, with the conversions of ModelDate.v. *)
From Coq Require Import List NArith ZArith QArith Qabs Qpower Bool Lia Lqa ZifyBool ZifyNat ZifyN.
From Verif Require Import Base SpecNumber ModelTags ModelLog ModelPrim PrimFacts ModelValue ModelHeap ModelDecode ModelEncode SpecDate ModelDate DateFacts DateFacts2.
From Verif Require Import SpecPrim SpecWire SpecEncode DecodeFacts DecodeSound DecodeComplete ValueFacts SpecPyEq Prop_Encode Prop_Redump Prop_Same.
Import ListNotations.
Open Scope Q_scope.

(** The encoder and the decoder use Python's conversions. *)
Definition python_dates (k : clock) (timezone : bool) (err : Z -> date_exn) (cfg : ecfg) (dcfg : ModelDecode.dcfg) : Prop :=
  (forall n, e_timestamp cfg n = python_timestamp k n) /\ (forall b, c_date dcfg b = python_date k timezone err b).
(** The data of a date: the header, the tag D and the bits of a double *)
Definition date_data (b : N) : bytes := ([255; 15; 68] ++ le_bytes 8 b)%N.
(** A datetime, as the clock shows it, lies in the years 1 to 9999. *)
Definition valid (d : datetime) : Prop := match d with Aware us | Naive us _ => in_years us end.
Definition dumps_date (cfg : ecfg) (d : datetime) : result bytes := dumps [ODate (number_of d)] cfg (VRef 0).
Definition loads_date (dcfg : ModelDecode.dcfg) (data : bytes) (d : datetime) : Prop := loads dcfg data = Ok (VRef 0, [ODate (number_of d)]).

Lemma dumps_date_data cfg n b : e_timestamp cfg n = inl b -> dumps [ODate n] cfg (VRef 0) = Ok (date_data b).
Proof. intros E. unfold dumps, dumps_depth. cbn. unfold write_date. rewrite E. cbn. reflexivity. Qed.
Lemma loads_date_data dcfg b : (b < 2 ^ 64)%N ->
  loads dcfg (date_data b) = match c_date dcfg b with inl d => Ok (VRef 0, [ODate d]) | inr e => Err (date_err e) end.
Proof.
  intros B. unfold date_data. assert (D : ([255;15;68] ++ le_bytes 8 b = ([255] ++ [15]) ++ (68 :: le_bytes 8 b))%N) by reflexivity.
  unfold loads, loads_at, loads_depth.
  rewrite (header_complete _ [255%N] [15%N] _ 15%N D); [|exists O; reflexivity|apply vi_last; lia|lia].
  cbn [bind]. unfold dec_value. change (read_tag _ _) with (@Ok (stag * nat) (kDate, 3%nat)). cbn [bind dec]. unfold dec_date.
  rewrite (double_c _ 3 (le_bytes 8 b) [] b); [|split; auto|exists [255;15;68]%N; rewrite app_nil_r; auto].
  cbn [bind]. destruct (c_date dcfg b); reflexivity.
Qed.

Lemma datetime_number d : valid d -> datetime_of (number_of d) = d.
Proof.
  intros V. unfold datetime_of, number_of. destruct d as [us|us fold]; cbn [valid] in V; unfold in_years in V.
  - replace (4 * Z.to_N (us - min_second * 1000000) / 4)%N with (Z.to_N (us - min_second * 1000000)) by (rewrite N.mul_comm, N.div_mul; lia).
    replace ((4 * Z.to_N (us - min_second * 1000000)) mod 4)%N with 0%N by (rewrite N.mul_comm, N.mod_mul; lia).
    f_equal. unfold min_second. lia.
  - set (z := Z.to_N (us - min_second * 1000000)).
    assert (A : forall i, (i < 4)%N -> ((4 * z + i) / 4 = z /\ (4 * z + i) mod 4 = i)%N).
    { intros i Hi. split; [symmetry; apply (N.div_unique _ 4 z i); lia|symmetry; apply (N.mod_unique _ 4 z i); lia]. }
    assert (Z.of_N z + min_second * 1000000 = us)%Z by (unfold z, min_second; lia).
    destruct fold; [destruct (A 3%N ltac:(lia)) as [-> ->]|destruct (A 2%N ltac:(lia)) as [-> ->]]; f_equal; auto.
Qed.

Section Reading.
Context (k : clock) (tz : bool) (ge : Z -> date_exn).
(** What reading makes of the microseconds *)
Definition finish (n : Z) : datetime + date_exn :=
  let s := (n / 1000000)%Z in
  if negb ((- 2 ^ 63 <=? s) && (s <? 2 ^ 63))%Z then inr DOverflow
  else if tz then
    if ((min_second <=? s) && (s <=? max_second))%Z then inl (Aware n) else inr (ge s)
  else
    match k_shows k s with
    | inl (l, fold) => inl (Naive (l * 1000000 + n mod 1000000) fold)
    | inr e => inr e
    end.
Lemma read_date_spec b y : double_value b y ->
  exists x s, x == y / 1000 /\ near x s /\ read_date k tz ge b = finish (micros (exact s)).
Proof.
  intros (m & e & E & Y). exists (exact (mkDouble m e) / 1000), (nearest (exact (mkDouble m e) / 1000)).
  split; [rewrite Y; reflexivity|]. split; [apply nearest_near|].
  unfold read_date. rewrite E. rewrite seconds_divide. set (n := micros _). unfold finish.
  replace (n / 1000000 * 1000000 + n mod 1000000)%Z with n by (pose proof (Z.div_mod n 1000000); lia). reflexivity.
Qed.
Lemma years_seconds n : in_years n -> (min_second <= n / 1000000 <= max_second)%Z.
Proof. unfold in_years, min_second, max_second. intros. pose proof (Z.div_mod n 1000000). pose proof (Z.mod_pos_bound n 1000000). lia. Qed.
Lemma seconds_years n : (min_second <= n / 1000000 <= max_second)%Z -> in_years n.
Proof. unfold in_years, min_second, max_second. intros. pose proof (Z.div_mod n 1000000). pose proof (Z.mod_pos_bound n 1000000). lia. Qed.
Lemma finish_shows n d : in_years n -> shows k tz n d -> finish n = inl d.
Proof.
  intros R S. pose proof (years_seconds n R) as Y. unfold min_second, max_second in Y. unfold finish.
  replace (negb _) with false by (symmetry; apply negb_false_iff, andb_true_iff; lia).
  unfold shows in S. destruct tz.
  - replace (_ && _)%bool with true by (symmetry; apply andb_true_iff; unfold min_second, max_second; lia). subst; auto.
  - destruct S as (l & fold & -> & ->). auto.
Qed.
Lemma finish_inv n d : finish n = inl d -> shows k tz n d /\ (tz = true -> in_years n).
Proof.
  unfold finish, shows. destruct (negb _); [discriminate|]. destruct tz.
  - destruct ((_ <=? _)%Z && _)%bool eqn:E; [|discriminate]. intros [= <-]. split; auto. intros _. apply seconds_years. apply andb_true_iff in E. lia.
  - destruct (k_shows k _) as [[l fold]|e] eqn:E; [|discriminate]. intros [= <-]. split; [|discriminate]. exists l, fold. auto.
Qed.
End Reading.

Lemma seconds_bound n B : (Z.abs n <= B * 1000000)%Z -> Qabs (seconds n) <= inject_Z B.
Proof.
  intros L. unfold seconds. apply abs_le. rewrite Zle_Qle in L. rewrite <- abs_inject in L. apply abs_le in L. rewrite inject_Z_mult in L.
  change (inject_Z 1000000) with 1000000 in L. unfold Qdiv. change (/ 1000000) with (1 # 1000000). lra.
Qed.
Lemma years_bound n : in_years n -> Qabs (seconds n) <= 2 ^ 38 - 1.
Proof. intros R. apply (seconds_bound n 274877906943). unfold in_years in R. lia. Qed.

Section Written.
Context (k : clock) (tz : bool) (ge : Z -> date_exn) (cfg : ecfg) (dcfg : ModelDecode.dcfg).
Hypothesis PY : python_dates k tz ge cfg dcfg.
Lemma written d n K : valid d -> instant k d n -> Qabs (seconds n) <= 2 ^ K - 1 -> (1 <= K <= 100)%Z ->
  exists r, epoch_ms k d = inl r /\ dumps_date cfg d = Ok (date_data (pack r)) /\ (pack r < 2 ^ 64)%N /\ double_value (pack r) (exact r).
Proof.
  intros V In B HK. destruct (epoch_ms_spec k d n K In B HK) as (y & r & E & N & _ & _ & Y). exists r. split; auto.
  destruct (pack_value y r N Y) as (P & m & e & I & X).
  split; [|split; [auto|exists m, e; split; [auto|symmetry; auto]]].
  apply dumps_date_data. rewrite (proj1 PY). unfold python_timestamp. rewrite datetime_number, E by auto. auto.
Qed.
Lemma loaded b : (b < 2 ^ 64)%N -> forall d, read_date k tz ge b = inl d -> loads_date dcfg (date_data b) d.
Proof. intros B d R. unfold loads_date. rewrite loads_date_data by auto. rewrite (proj2 PY). unfold python_date. rewrite R. auto. Qed.
End Written.

(** * What dumps writes *)
Definition p54 : 2 ^ (-54) = (1 # 18014398509481984) := eq_refl.
Definition p44 : 2 ^ (-44) = (1 # 17592186044416) := eq_refl.
(** A datetime in the years 1 to 9999 is written as a double that is less than 1/32 ms from its instant, and, up to 2038 and back to 1901,
    less than 1/4000 ms. *)
Theorem C76_written : forall k tz err cfg dcfg d n, python_dates k tz err cfg dcfg -> valid d -> instant k d n -> in_years n ->
  exists b x, dumps_date cfg d = Ok (date_data b) /\ double_value b x /\ Qabs (x - inject_Z n / 1000) <= 1 # 32 /\
    ((Z.abs n <= (2 ^ 31 - 1) * 1000000)%Z -> Qabs (x - inject_Z n / 1000) <= 1 # 4000).
Proof.
  intros k tz err cfg dcfg d n PY V In R.
  destruct (written k tz err cfg dcfg PY d n 38 V In (years_bound n R) ltac:(lia)) as (r & E & D & _ & X).
  exists (pack r), (exact r). split; [auto|split; [auto|]].
  assert (G : forall K, (1 <= K <= 100)%Z -> Qabs (seconds n) <= 2 ^ K - 1 -> Qabs (exact r - inject_Z n / 1000) <= 1000 * (2 ^ (K - 54) + 2 ^ (-54)) + 2 ^ (K - 44)).
  { intros K HK B. destruct (epoch_ms_spec k d n K In B HK) as (y & r' & E' & _ & A1 & A2 & _). rewrite E in E'. injection E' as <-.
    apply abs_le in A1, A2. apply abs_le. unfold seconds in A1. unfold Qdiv in *. change (/ 1000000) with (1 # 1000000) in A1. change (/ 1000) with (1 # 1000). lra. }
  split.
  - refine (Qle_trans _ _ _ (G 38%Z ltac:(lia) (years_bound n R)) _). vm_compute. discriminate.
  - intros L. refine (Qle_trans _ _ _ (G 31%Z ltac:(lia) _) _); [|vm_compute; discriminate]. apply (seconds_bound n 2147483647). lia.
Qed.
Print Assumptions C76_written.

(** Instants at a whole number of milliseconds are written as that number, unless the number is between 1000 * 2^j and 1024 * 2^j for some j
    (for j = 30: 2004-01-10 to 2004-11-03). *)
Theorem C76_whole_ms_partial : forall k tz err cfg dcfg d m j, python_dates k tz err cfg dcfg -> valid d -> instant k d (1000 * m) ->
  (6 <= j <= 38)%Z -> (2 ^ (j + 9) < Z.abs m <= 1000 * (2 ^ j - 1))%Z ->
  exists b, dumps_date cfg d = Ok (date_data b) /\ double_value b (inject_Z m).
Proof.
  intros k tz err cfg dcfg d m j PY V In HJ [L H].
  assert (B : Qabs (seconds (1000 * m)) <= 2 ^ j - 1).
  { refine (Qle_trans _ _ _ (seconds_bound (1000 * m) (2 ^ j - 1) _) _); [lia|]. unfold Z.sub. rewrite inject_Z_plus, p2_pow by lia. apply Qle_refl. }
  destruct (written k tz err cfg dcfg PY d (1000 * m) j V In B ltac:(lia)) as (r & E & D & _ & (m' & e' & I & X)).
  exists (pack r). split; [auto|]. exists m', e'. split; [auto|]. rewrite <- X. clear m' e' I X.
  destruct (epoch_ms_spec k d (1000 * m) j In B ltac:(lia)) as (y & r' & E' & Ny & A & _). rewrite E in E'. injection E' as <-.
  assert (S : 1000 * seconds (1000 * m) == inject_Z m).
  { unfold seconds. rewrite inject_Z_mult. change (inject_Z 1000) with 1000. field. }
  rewrite S in A. unfold Z.sub in A. rewrite p2_add in A. change (- (54))%Z with (-54)%Z in A. rewrite p54 in A.
  set (P := 2 ^ j) in *.
  assert (HP : 64 <= P) by (unfold P; change 64 with (2 ^ 6); apply p2_le; lia).
  assert (A' : Qabs (y - inject_Z m) < P * (1 # 17592186044416)) by (eapply Qle_lt_trans; [exact A|]; lra).
  assert (L' : 2 ^ (j + 9) + 1 <= Qabs (inject_Z m)).
  { rewrite p2_pow by lia. change 1 with (inject_Z 1). rewrite <- inject_Z_plus, abs_inject, <- Zle_Qle. lia. }
  assert (H' : Qabs (inject_Z m) <= 1000 * (P - 1)).
  { unfold P. rewrite p2_pow by lia. rewrite abs_inject. change 1000 with (inject_Z 1000). change 1 with (inject_Z 1).
    unfold Qminus. rewrite <- inject_Z_opp, <- inject_Z_plus, <- inject_Z_mult, <- Zle_Qle. lia. }
  assert (HP' : P <= 2 ^ 38) by (apply p2_le; lia). change (2 ^ 38) with 274877906944 in HP'.
  pose proof (Qabs_triangle (y - inject_Z m) (inject_Z m)) as T1. pose proof (Qabs_triangle (inject_Z m - y) y) as T2.
  assert (Z1 : y - inject_Z m + inject_Z m == y) by ring. assert (Z2 : inject_Z m - y + y == inject_Z m) by ring. rewrite Z1 in T1. rewrite Z2 in T2.
  rewrite (Qabs_Qminus (inject_Z m) y) in T2.
  assert (Y1 : 2 ^ (j + 9) <= Qabs y) by lra.
  assert (Y2 : Qabs y < 2 ^ (j + 10)) by (rewrite (p2_add j 10); fold P; change (2 ^ 10) with 1024; lra).
  assert (De : d_e r = (j - 43)%Z).
  { pose proof (nr_high _ _ Ny) as F1. assert (C1 : (j + 9 < 53 + d_e r)%Z) by (apply p2_lt_inv; lra).
    destruct (nr_full _ _ Ny) as [F2|F2]; [lia|]. assert (C2 : (52 + d_e r < j + 10)%Z) by (apply p2_lt_inv; lra). lia. }
  pose proof (nr_rounded _ _ Ny) as Rd. rewrite De in Rd.
  assert (Hm : d_m r = (m * 2 ^ (43 - j))%Z).
  { apply (rounded_near _ _ _ Rd). rewrite inject_Z_mult, <- p2_pow by lia. replace (- (j - 43))%Z with (43 - j)%Z by lia.
    assert (Z3 : y * 2 ^ (43 - j) - inject_Z m * 2 ^ (43 - j) == (y - inject_Z m) * 2 ^ (43 - j)) by ring.
    rewrite Z3, Qabs_Qmult, (Qabs_pos (2 ^ (43 - j))) by (pose proof (p2_pos (43 - j)); lra).
    assert (Z4 : 1 # 2 == P * (1 # 17592186044416) * 2 ^ (43 - j)).
    { unfold P. rewrite <- p44. rewrite <- !p2_add. replace (j + -44 + (43 - j))%Z with (-1)%Z by lia. reflexivity. }
    rewrite Z4. apply Qmult_lt_compat_r; [apply p2_pos|auto]. }
  unfold exact. rewrite Hm, De, inject_Z_mult. rewrite <- p2_pow by lia. rewrite <- Qmult_assoc, <- p2_add. replace (43 - j + (j - 43))%Z with 0%Z by lia.
  change (2 ^ 0) with 1. ring.
Qed.
Print Assumptions C76_whole_ms_partial.
(** For 2004-02-05T21:12:09.774Z dumps writes 1076015529773.9999: JavaScript drops the fraction and shows 773 ms. *)
Theorem C76_whole_ms_refuted : forall k tz err cfg dcfg, python_dates k tz err cfg dcfg ->
  exists d m b x, d = Aware (1000 * m) /\ valid d /\ dumps_date cfg d = Ok (date_data b) /\ double_value b x /\ inject_Z (m - 1) < x /\ x < inject_Z m.
Proof.
  intros k tz err cfg dcfg PY. exists (Aware 1076015529774000), 1076015529774%Z, 4787133923860004863%N, (inject_Z 8814719219908607 * 2 ^ (-13)).
  split; [reflexivity|]. split; [cbn [valid]; unfold in_years; lia|]. split; [apply dumps_date_data; rewrite (proj1 PY); vm_compute; reflexivity|].
  split; [exists 8814719219908607%Z, (-13)%Z; split; [vm_compute; reflexivity|reflexivity]|]. split; vm_compute; reflexivity.
Qed.
Print Assumptions C76_whole_ms_refuted.

(** Dates are written in their order. *)
Lemma fraction_le n n' r r' : (0 <= n <= n')%Z -> (n' < 1000000)%Z -> near (n # 1000000) r -> near (n' # 1000000) r' -> exact r <= exact r'.
Proof. intros L H N N'. apply (near_mono _ _ _ _ N N'). unfold Qle; cbn [Qnum Qden]. lia. Qed.
Lemma unit_range n r : (0 <= n < 1000000)%Z -> near (n # 1000000) r -> 0 <= exact r /\ exact r <= 1.
Proof.
  intros R N. split; [apply (near_sign _ _ N); unfold Qle; cbn [Qnum Qden]; lia|].
  assert (E : exact (nearest 1) == 1) by (apply (near_integer 1 (nearest 1) 1 (nearest_near 1)); [lia|reflexivity]).
  rewrite <- E. apply (near_mono _ _ _ _ N (nearest_near 1)). unfold Qle; cbn [Qnum Qden]. lia.
Qed.
Definition same_kind (d d' : datetime) : Prop := match d, d' with Aware _, Aware _ | Naive _ _, Naive _ _ => True | _, _ => False end.
Lemma timestamp_mono k d d' n n' r r' : same_kind d d' -> instant k d n -> instant k d' n' -> (n <= n')%Z ->
  timestamp k d = inl r -> timestamp k d' = inl r' -> exact r <= exact r'.
Proof.
  intros SK In In' L. destruct d as [us|us fold], d' as [us'|us' fold']; cbn [same_kind] in SK; try tauto; cbn [instant timestamp] in *.
  - subst. intros [= <-] [= <-]. apply (near_mono _ _ _ _ (nearest_near _) (nearest_near _)). unfold Qle; cbn [Qnum Qden]. lia.
  - destruct In as (s & -> & ->), In' as (s' & -> & ->). intros [= <-] [= <-].
    apply (near_mono _ _ _ _ (nearest_near _) (nearest_near _)).
    pose proof (Z.mod_pos_bound us 1000000 ltac:(lia)) as M. pose proof (Z.mod_pos_bound us' 1000000 ltac:(lia)) as M'.
    pose proof (nearest_near ((us mod 1000000) # 1000000)) as N. pose proof (nearest_near ((us' mod 1000000) # 1000000)) as N'.
    destruct (Z.eq_dec s s') as [->|D].
    + apply Qplus_le_r. apply (fraction_le (us mod 1000000) (us' mod 1000000)); auto; lia.
    + assert (Q1 : inject_Z s + 1 <= inject_Z s') by (change 1 with (inject_Z 1); rewrite <- inject_Z_plus, <- Zle_Qle; lia).
      destruct (unit_range _ _ M N), (unit_range _ _ M' N'). lra.
Qed.
Theorem C76_written_in_order : forall k tz err cfg dcfg d d' n n', python_dates k tz err cfg dcfg -> valid d -> valid d' -> same_kind d d' ->
  instant k d n -> instant k d' n' -> in_years n -> in_years n' -> (n <= n')%Z ->
  exists b x b' x', dumps_date cfg d = Ok (date_data b) /\ double_value b x /\ dumps_date cfg d' = Ok (date_data b') /\ double_value b' x' /\ x <= x'.
Proof.
  intros k tz err cfg dcfg d d' n n' PY V V' SK In In' R R' L.
  destruct (written k tz err cfg dcfg PY d n 38 V In (years_bound n R) ltac:(lia)) as (r & E & D & _ & X).
  destruct (written k tz err cfg dcfg PY d' n' 38 V' In' (years_bound n' R') ltac:(lia)) as (r' & E' & D' & _ & X').
  exists (pack r), (exact r), (pack r'), (exact r'). do 4 (split; [assumption|]).
  unfold epoch_ms in E, E'. destruct (timestamp k d) as [t|] eqn:T; [|discriminate]. destruct (timestamp k d') as [t'|] eqn:T'; [|discriminate].
  injection E as <-. injection E' as <-. apply (near_mono _ _ _ _ (nearest_near _) (nearest_near _)).
  pose proof (timestamp_mono k d d' n n' t t' SK In In' L T T'). lra.
Qed.
Print Assumptions C76_written_in_order.

(** * What loads makes of a number *)
Theorem C76_loaded_in_order : forall k err cfg dcfg b b' x x' v h v' h', python_dates k true err cfg dcfg ->
  (b < 2 ^ 64)%N -> (b' < 2 ^ 64)%N -> double_value b x -> double_value b' x' -> x <= x' ->
  loads dcfg (date_data b) = Ok (v, h) -> loads dcfg (date_data b') = Ok (v', h') ->
  exists n n', loads_date dcfg (date_data b) (Aware n) /\ loads_date dcfg (date_data b') (Aware n') /\ (n <= n')%Z.
Proof.
  intros k err cfg dcfg b b' x x' v h v' h' PY B B' X X' L E E'.
  rewrite loads_date_data in E, E' by auto. rewrite (proj2 PY) in E, E'. unfold python_date in E, E'.
  destruct (read_date k true err b) as [d|] eqn:Rd; [|discriminate]. destruct (read_date k true err b') as [d'|] eqn:Rd'; [|discriminate].
  pose proof (loaded k true err cfg dcfg PY b B d Rd) as Ld. pose proof (loaded k true err cfg dcfg PY b' B' d' Rd') as Ld'.
  destruct (read_date_spec k true err b x X) as (y & s & Y & Ny & F). destruct (read_date_spec k true err b' x' X') as (y' & s' & Y' & Ny' & F').
  rewrite F in Rd. rewrite F' in Rd'. apply finish_inv in Rd as [Sd _]. apply finish_inv in Rd' as [Sd' _]. cbn [shows] in Sd, Sd'. subst d d'.
  exists (micros (exact s)), (micros (exact s')). split; [auto|split; [auto|]].
  apply micros_mono, (near_mono _ _ _ _ Ny Ny'). rewrite Y, Y'. unfold Qdiv. change (/ 1000) with (1 # 1000). lra.
Qed.
Print Assumptions C76_loaded_in_order.

(** A whole number of milliseconds, as JavaScript writes, is read as that instant, up to 2242 and back to 1697. *)
Theorem C76_loaded_partial : forall k tz err cfg dcfg b m d, python_dates k tz err cfg dcfg -> (b < 2 ^ 64)%N -> double_value b (inject_Z m) ->
  (Z.abs m <= (2 ^ 33 - 1) * 1000)%Z -> shows k tz (1000 * m) d -> loads_date dcfg (date_data b) d.
Proof.
  intros k tz err cfg dcfg b m d PY B X L Sh. apply (loaded k tz err cfg dcfg PY b B).
  destruct (read_date_spec k tz err b _ X) as (y & s & Y & Ny & ->).
  assert (Bs : Qabs y < 2 ^ 33).
  { rewrite Y. refine (Qle_lt_trans _ (inject_Z (2 ^ 33 - 1)) _ _ _); [|reflexivity].
    apply abs_le. rewrite Zle_Qle in L. rewrite <- abs_inject in L. apply abs_le in L. rewrite inject_Z_mult in L.
    change (inject_Z 1000) with 1000 in L. unfold Qdiv. change (/ 1000) with (1 # 1000). lra. }
  pose proof (near_error_below _ _ Ny 33 Bs ltac:(lia)) as Er. change (2 ^ (33 - 54)) with (1 # 2097152) in Er.
  rewrite (micros_near _ (1000 * m)); [apply finish_shows; auto; unfold in_years; lia|].
  apply abs_le. apply abs_le in Er. rewrite inject_Z_mult. change (inject_Z 1000) with 1000.
  rewrite Y in Er. unfold Qdiv in Er. change (/ 1000) with (1 # 1000) in Er. lra.
Qed.
Print Assumptions C76_loaded_partial.
(** Beyond, it may be read as a microsecond more or less: -60046661798015 ms, in the year 67. *)
Theorem C76_loaded_refuted : forall k err cfg dcfg, python_dates k true err cfg dcfg ->
  exists b m, (b < 2 ^ 64)%N /\ double_value b (inject_Z m) /\ in_years (1000 * m) /\ loads_date dcfg (date_data b) (Aware (1000 * m + 1)).
Proof.
  intros k err cfg dcfg PY. exists 14036398811969240960%N, (-60046661798015)%Z. split; [reflexivity|].
  split; [eexists _, _; split; [vm_compute; reflexivity|vm_compute; reflexivity]|]. split; [unfold in_years; lia|].
  apply (loaded k true err cfg dcfg PY); [reflexivity|]. vm_compute. reflexivity.
Qed.
Print Assumptions C76_loaded_refuted.

(** * There and back *)
(** Up to 2038 and back to 1901, loads(dumps(d)) is the datetime that shows the instant of d. *)
Theorem C76_round_trip_partial : forall k tz err cfg dcfg d n d', python_dates k tz err cfg dcfg -> valid d -> instant k d n ->
  (Z.abs n <= (2 ^ 31 - 1) * 1000000)%Z -> shows k tz n d' ->
  exists bs, dumps_date cfg d = Ok bs /\ loads_date dcfg bs d'.
Proof.
  intros k tz err cfg dcfg d n d' PY V In L Sh.
  assert (B : Qabs (seconds n) <= 2 ^ 31 - 1) by (apply (seconds_bound n 2147483647); lia).
  destruct (written k tz err cfg dcfg PY d n 31 V In B ltac:(lia)) as (r & E & D & P & X).
  exists (date_data (pack r)). split; [auto|]. apply (loaded k tz err cfg dcfg PY _ P).
  destruct (read_date_spec k tz err _ _ X) as (y & s & Y & Ny & ->).
  pose proof (back_error k d n 31 r In B ltac:(lia) E y s Y Ny) as Er.
  rewrite (micros_near _ n); [apply finish_shows; auto; unfold in_years; lia|].
  change (2 * 2 ^ (31 - 54) + 2 ^ (31 - 44) / 1000 + 2 ^ (-54)) with (2 * (1 # 8388608) + (1 # 8192) / 1000 + (1 # 18014398509481984)) in Er.
  unfold seconds, Qdiv in Er. change (/ 1000000) with (1 # 1000000) in Er. change (/ 1000) with (1 # 1000) in Er. apply abs_le in Er. apply abs_le. lra.
Qed.
Print Assumptions C76_round_trip_partial.
(** In particular a datetime with a timezone is equal to what comes back, if loads has a default timezone. *)
Corollary C76_aware_partial : forall k err cfg dcfg n, python_dates k true err cfg dcfg -> (Z.abs n <= (2 ^ 31 - 1) * 1000000)%Z ->
  exists bs, dumps_date cfg (Aware n) = Ok bs /\ loads_date dcfg bs (Aware n).
Proof.
  intros k err cfg dcfg n PY L. apply (C76_round_trip_partial k true err cfg dcfg (Aware n) n (Aware n) PY); auto; cbn; auto. unfold in_years; lia.
Qed.
Print Assumptions C76_aware_partial.
(** Later it may come back as a microsecond more: 2095-11-06T20:49:48.585154Z. *)
Theorem C76_round_trip_refuted : forall k err cfg dcfg, python_dates k true err cfg dcfg ->
  exists n bs, in_years n /\ dumps_date cfg (Aware n) = Ok bs /\ loads_date dcfg bs (Aware (n + 1)).
Proof.
  intros k err cfg dcfg PY. exists 3971438988585154%Z, (date_data (match python_timestamp k (number_of (Aware 3971438988585154)) with inl b => b | inr _ => 0%N end)).
  split; [unfold in_years; lia|]. split.
  - apply dumps_date_data. rewrite (proj1 PY). vm_compute. reflexivity.
  - apply (loaded k true err cfg dcfg PY); vm_compute; reflexivity.
Qed.
Print Assumptions C76_round_trip_refuted.
(** loads' default is no timezone: then what comes back is not the datetime that was dumped but one without timezone. *)
Theorem C76_timezone_refuted : forall k err cfg dcfg n d, python_dates k false err cfg dcfg -> (Z.abs n <= (2 ^ 31 - 1) * 1000000)%Z ->
  shows k false n d -> (exists bs, dumps_date cfg (Aware n) = Ok bs /\ loads_date dcfg bs d) /\ d <> Aware n.
Proof.
  intros k err cfg dcfg n d PY L Sh. split.
  - apply (C76_round_trip_partial k false err cfg dcfg (Aware n) n d PY); auto; cbn; auto. unfold in_years; lia.
  - destruct Sh as (l & fold & _ & ->). discriminate.
Qed.
Print Assumptions C76_timezone_refuted.

(** In all the years 1 to 9999, what comes back is less than 47 microseconds away, or raises because that is outside these years. *)
Theorem C76_back_within : forall k tz err cfg dcfg d n, python_dates k tz err cfg dcfg -> valid d -> instant k d n -> in_years n ->
  exists bs n', dumps_date cfg d = Ok bs /\ (Z.abs (n' - n) <= 46)%Z /\
    (forall d', in_years n' -> shows k tz n' d' -> loads_date dcfg bs d') /\
    (tz = true -> ~ in_years n' -> exists e, loads dcfg bs = Err (date_err e)).
Proof.
  intros k tz err cfg dcfg d n PY V In R.
  destruct (written k tz err cfg dcfg PY d n 38 V In (years_bound n R) ltac:(lia)) as (r & E & D & P & X).
  destruct (read_date_spec k tz err _ _ X) as (y & s & Y & Ny & F).
  pose proof (back_error k d n 38 r In (years_bound n R) ltac:(lia) E y s Y Ny) as Er.
  exists (date_data (pack r)), (micros (exact s)). split; [auto|]. split; [|split].
  - change (2 * 2 ^ (38 - 54) + 2 ^ (38 - 44) / 1000 + 2 ^ (-54)) with (2 * (1 # 65536) + (1 # 64) / 1000 + (1 # 18014398509481984)) in Er.
    unfold seconds, Qdiv in Er. change (/ 1000000) with (1 # 1000000) in Er. change (/ 1000) with (1 # 1000) in Er. apply abs_le in Er.
    pose proof (micros_error (exact s)) as M. apply abs_le in M.
    assert (A : Qabs (inject_Z (micros (exact s) - n)) < inject_Z 47).
    { unfold Z.sub. rewrite inject_Z_plus, inject_Z_opp. change (inject_Z 47) with 47. apply Qabs_Qlt_condition. lra. }
    rewrite abs_inject, <- Zlt_Qlt in A. lia.
  - intros d' R' Sh. apply (loaded k tz err cfg dcfg PY _ P). rewrite F. apply finish_shows; auto.
  - intros -> O. rewrite loads_date_data by auto. rewrite (proj2 PY). unfold python_date. rewrite F.
    destruct (finish k true err (micros (exact s))) as [d'|e] eqn:Fi; [|exists e; auto]. apply finish_inv in Fi as [_ Y']. destruct (O (Y' eq_refl)).
Qed.
Print Assumptions C76_back_within.
(** loads(dumps(datetime.max)) raises. *)
Theorem C76_max_refuted : forall k err cfg dcfg, python_dates k true err cfg dcfg ->
  exists n bs e, in_years n /\ dumps_date cfg (Aware n) = Ok bs /\ loads dcfg bs = Err (date_err e).
Proof.
  intros k err cfg dcfg PY. exists 253402300799999999%Z, (date_data (match python_timestamp k (number_of (Aware 253402300799999999)) with inl b => b | inr _ => 0%N end)), (err 253402300800%Z).
  split; [unfold in_years; lia|]. split.
  - apply dumps_date_data. rewrite (proj1 PY). vm_compute. reflexivity.
  - rewrite loads_date_data by (vm_compute; reflexivity). rewrite (proj2 PY). replace (python_date _ _ _ _) with (@inr N date_exn (err 253402300800%Z)) by (vm_compute; reflexivity). reflexivity.
Qed.
Print Assumptions C76_max_refuted.

(** loads and then dumps may change a date that JavaScript wrote: 1076015529774 is written as 1076015529773.9999. *)
Theorem C76_rewritten_refuted : forall k err cfg dcfg, python_dates k true err cfg dcfg ->
  exists b m d b' x, (b < 2 ^ 64)%N /\ double_value b (inject_Z m) /\ loads_date dcfg (date_data b) d /\
    dumps_date cfg d = Ok (date_data b') /\ double_value b' x /\ inject_Z (m - 1) < x /\ x < inject_Z m.
Proof.
  intros k err cfg dcfg PY. exists 4787133923860004864%N, 1076015529774%Z, (Aware 1076015529774000), 4787133923860004863%N, (inject_Z 8814719219908607 * 2 ^ (-13)).
  split; [reflexivity|]. split; [eexists _, _; split; vm_compute; reflexivity|]. split; [apply (loaded k true err cfg dcfg PY); vm_compute; reflexivity|].
  split; [apply dumps_date_data; rewrite (proj1 PY); vm_compute; reflexivity|].
  split; [exists 8814719219908607%Z, (-13)%Z; split; [vm_compute; reflexivity|reflexivity]|]. split; vm_compute; reflexivity.
Qed.
Print Assumptions C76_rewritten_refuted.

(** * The hypotheses about dates of C69, C70 and C73 *)
(** With a default timezone, the datetimes that loads makes can be dumped (the hypothesis of C69 and C70). *)
Theorem C76_loaded_dumps : forall k err cfg dcfg, python_dates k true err cfg dcfg -> dates_back dcfg cfg.
Proof.
  intros k err cfg dcfg PY b d B E. rewrite (proj2 PY) in E. unfold python_date in E. destruct (read_date k true err b) as [d'|] eqn:Rd; [|discriminate].
  injection E as <-. assert (X : exists x, double_value b x).
  { unfold read_date in Rd. destruct (ieee b) as [|neg|m e] eqn:I; try discriminate. exists (inject_Z m * 2 ^ e), m, e. split; [auto|reflexivity]. }
  destruct X as [x X]. destruct (read_date_spec k true err b x X) as (y & s & _ & _ & F). rewrite F in Rd. apply finish_inv in Rd as [Sh R]. cbn [shows] in Sh. specialize (R eq_refl).
  subst d'. set (n := micros (exact s)) in *.
  destruct (epoch_ms_spec k (Aware n) n 38 eq_refl (years_bound n R) ltac:(lia)) as (y' & r & E & N & _ & _ & Y).
  destruct (pack_value y' r N Y) as (P & _). exists (pack r). split; [auto|].
  rewrite (proj1 PY). unfold python_timestamp. rewrite datetime_number, E by (cbn [valid]; auto). auto.
Qed.
Print Assumptions C76_loaded_dumps.
(** A datetime with a timezone, up to 2038 and back to 1901, is one that C73 asks for. *)
Theorem C76_comparable_partial : forall narrow cast32 widen float_of py312 H k err cfg dcfg n, python_dates k true err cfg dcfg ->
  (Z.abs n <= (2 ^ 31 - 1) * 1000000)%Z -> comparable_obj narrow cast32 widen float_of py312 H cfg dcfg (ODate (number_of (Aware n))).
Proof.
  intros narrow cast32 widen float_of py312 H k err cfg dcfg n PY L b E. cbn [comparable_obj].
  destruct (C76_aware_partial k err cfg dcfg n PY L) as (bs & D & Ld).
  unfold dumps_date in D. rewrite (dumps_date_data _ _ b E) in D. injection D as <-. unfold loads_date in Ld.
  assert (B : (b < 2 ^ 64)%N).
  { rewrite (proj1 PY) in E. unfold python_timestamp in E. rewrite datetime_number in E by (cbn [valid]; unfold in_years; lia).
    destruct (epoch_ms_spec k (Aware n) n 31 eq_refl (seconds_bound n 2147483647 ltac:(lia)) ltac:(lia)) as (y' & r & E' & N & _ & _ & Y).
    rewrite E' in E. injection E as <-. apply (pack_value y' r N Y). }
  rewrite loads_date_data in Ld by auto. destruct (c_date dcfg b); [|discriminate]. injection Ld as ->. auto.
Qed.
Print Assumptions C76_comparable_partial.
(** The hypothesis of C70 that dates settle after loads and dumps is false of Python from 2038 on: 3971438988585.154 ms. *)
Theorem C76_settles_refuted : forall k err cfg dcfg, python_dates k true err cfg dcfg -> ~ dates_settle dcfg cfg.
Proof.
  intros k err cfg dcfg PY S.
  assert (A : python_date k true err 4795459910943459643 = inl (number_of (Aware 3971438988585154))) by (vm_compute; reflexivity).
  assert (T : python_timestamp k (number_of (Aware 3971438988585154)) = inl 4795459910943459644%N) by (vm_compute; reflexivity).
  assert (A' : python_date k true err 4795459910943459644 = inl (number_of (Aware 3971438988585155))) by (vm_compute; reflexivity).
  assert (NE : number_of (Aware 3971438988585155) <> number_of (Aware 3971438988585154)) by (vm_compute; discriminate).
  rewrite <- (proj2 PY) in A, A'. rewrite <- (proj1 PY) in T.
  assert (B : (4795459910943459643 < 2 ^ 64)%N) by reflexivity.
  pose proof (S _ _ _ B A T) as F. rewrite A' in F. apply NE. congruence.
Qed.
Print Assumptions C76_settles_refuted.

(** * Examples *)
(** A clock two hours ahead of UTC *)
Definition two_hours : clock := mkClock (fun s => inl (s + 7200, false)%Z) (fun l _ => inl (l - 7200)%Z).
Definition date_ecfg : ecfg := mkEcfg ex_all (python_timestamp two_hours).
Definition date_dcfg (tz : bool) : ModelDecode.dcfg := mkCfg (fun _ => [46%N]) (python_date two_hours tz (fun _ => DValue)) default_const true.
Example C76_dates tz : python_dates two_hours tz (fun _ => DValue) date_ecfg (date_dcfg tz).
Proof. split; reflexivity. Qed.
(** 2023-11-14T22:13:20.123Z is 2023-11-15T00:13:20.123 there. *)
Example C76_case : let d := Naive 1700007200123000 false in
  valid d /\ instant two_hours d (1000 * 1700000000123) /\ in_years (1000 * 1700000000123) /\ (2 ^ (31 + 9) < Z.abs 1700000000123 <= 1000 * (2 ^ 31 - 1))%Z /\
  (Z.abs (1000 * 1700000000123) <= (2 ^ 31 - 1) * 1000000)%Z /\ shows two_hours false (1000 * 1700000000123) d /\ shows two_hours true (1000 * 1700000000123) (Aware 1700000000123000).
Proof.
  cbv zeta. split; [cbn; unfold in_years; lia|]. split; [exists 1700000000%Z; split; reflexivity|]. split; [unfold in_years; lia|]. split; [lia|]. split; [lia|].
  split; [exists 1700007200%Z, false; split; reflexivity|reflexivity].
Qed.
(** The bytes: 1700000000123 as a double *)
Example C76_case_bytes : dumps_date date_ecfg (Naive 1700007200123000 false) = Ok [255; 15; 68; 0; 176; 135; 86; 254; 188; 120; 66]%N /\
  loads_date (date_dcfg false) [255; 15; 68; 0; 176; 135; 86; 254; 188; 120; 66]%N (Naive 1700007200123000 false) /\
  loads_date (date_dcfg true) [255; 15; 68; 0; 176; 135; 86; 254; 188; 120; 66]%N (Aware 1700000000123000).
Proof. split; [|split]; vm_compute; reflexivity. Qed.
