(** C31: feature sets are monotone in the V8 version. *)
From Coq Require Import List NArith Bool Lia.
From Coq Require Import ZifyBool ZifyN ZifyNat.
From Verif Require Import Base ModelEncode ModelVersion VersionFacts.
Import ListNotations.
Open Scope N_scope.

(** When each feature was introduced. *)
Definition introduced (f : feature) (v : any_version) : Prop :=
  match f with
  | RegExpUnicodeSets => v = Released (release [10; 7; 123])
  | ResizableArrayBuffers => v = Released (release [11; 0; 193])
  | CircularErrorCause => v = Released (release [12; 1; 109])
  | Float16Array => v = Unreleased
  end.
Definition minimum : any_version := Released (release [10; 0; 29]).
(** A set of flags is a number below 16, with one bit for each feature. *)
Definition bit (f : feature) : N := match f with RegExpUnicodeSets => 0 | ResizableArrayBuffers => 1 | CircularErrorCause => 2 | Float16Array => 3 end.
Definition has (fs : N) (f : feature) : Prop := N.testbit fs (bit f) = true.
Definition includes (fs gs : N) : Prop := forall f, has gs f -> has fs f.

(** The order on versions is total, and compares releases number by number, as if followed by zeros. *)
Theorem C31_order : (forall a, vle a a = true) /\ (forall a b d, vle a b = true -> vle b d = true -> vle a d = true) /\
  (forall a b, vle a b = true \/ vle b a = true) /\ (forall a b, vlt a b = true <-> vle b a = false) /\
  (forall a, vle a Unreleased = true /\ vlt Unreleased a = false) /\
  (forall a b, vlt (Released (release a)) (Released (release b)) = true <-> before a b).
Proof.
  split; [exact vle_refl|]. split; [exact vle_trans|]. split; [exact vle_total|].
  split. { intros a b. rewrite vlt_vle. destruct (vle b a); split; auto. }
  split; [intros [a|]; split; auto|]. intros a b. rewrite <- release_lt. unfold vlt. destruct (version_cmp (release a) (release b)); split; auto; discriminate.
Qed.
Print Assumptions C31_order.

(** The stages of one release, from first to last: its development releases, its pre-releases (a, b and rc, by number), the release, its
    post releases. A development release of any of them comes before it, a local version after it. A greater release or epoch is
    greater at any stage. *)
Theorem C31_stages : forall e r, let at_ p q d l := Released (mkVersion e r p q d l) in
  (forall d d' l l', d < d' -> vlt (at_ None None (Some d) l) (at_ None None (Some d') l') = true) /\
  (forall d l p q d' l', vlt (at_ None None (Some d) l) (at_ (Some p) q d' l') = true) /\
  (forall x n y m q d l q' d' l', x < y \/ x = y /\ n < m -> vlt (at_ (Some (x, n)) q d l) (at_ (Some (y, m)) q' d' l') = true) /\
  (forall p q d l l', vlt (at_ (Some p) q d l) (at_ None None None l') = true) /\
  (forall d l l', vlt (at_ None None (Some d) l) (at_ None None None l') = true) /\
  (forall p n d l d' l', vlt (at_ p None d l) (at_ p (Some n) d' l') = true) /\
  (forall p n m d l d' l', n < m -> vlt (at_ p (Some n) d l) (at_ p (Some m) d' l') = true) /\
  (forall p n d l l', vlt (at_ p (Some n) (Some d) l) (at_ p (Some n) None l') = true) /\
  (forall p q d l, vlt (at_ p q d None) (at_ p q d (Some l)) = true) /\
  (forall s p q d l p' q' d' l', before r s -> vlt (at_ p q d l) (Released (mkVersion e s p' q' d' l')) = true) /\
  (forall e' s p q d l p' q' d' l', e < e' -> vlt (at_ p q d l) (Released (mkVersion e' s p' q' d' l')) = true).
Proof.
  intros e r at_. assert (L : forall n m, n < m -> (n ?= m) = Lt) by (intros n m; apply N.compare_lt_iff).
  assert (R : list_cmp N.compare (strip_zeros r) (strip_zeros r) = Eq) by (apply o_refl, ordered_list, ordered_N).
  assert (Q : forall p : N * N, pair_cmp N.compare N.compare p p = Eq) by (apply o_refl, ordered_pair; apply ordered_N).
  unfold at_, vlt, version_cmp, key_cmp, version_key, pair_cmp, pre_key, post_key, dev_key, local_key.
  cbn [fst snd v_epoch v_release v_pre v_post v_dev v_local].
  repeat match goal with |- _ /\ _ => split end; intros; cbn [fst snd v_epoch v_release v_pre v_post v_dev v_local]; rewrite ?N.compare_refl, ?R; cbn [then_cmp inf_cmp fst snd].
  - now rewrite L.
  - reflexivity.
  - destruct H as [H|[-> H]]; [rewrite (L x y H); reflexivity|]. rewrite N.compare_refl, (L n m H). reflexivity.
  - reflexivity.
  - reflexivity.
  - destruct p as [p|], d; cbn [inf_cmp then_cmp]; try (change (then_cmp (fst p ?= fst p) (snd p ?= snd p)) with (pair_cmp N.compare N.compare p p); rewrite Q); reflexivity.
  - destruct p as [p|]; cbn [inf_cmp then_cmp]; try (change (then_cmp (fst p ?= fst p) (snd p ?= snd p)) with (pair_cmp N.compare N.compare p p); rewrite Q); cbn [then_cmp]; now rewrite L.
  - destruct p as [p|]; cbn [inf_cmp then_cmp]; try (change (then_cmp (fst p ?= fst p) (snd p ?= snd p)) with (pair_cmp N.compare N.compare p p); rewrite Q); cbn [then_cmp]; rewrite ?N.compare_refl; reflexivity.
  - destruct p as [p|], q, d; cbn [inf_cmp then_cmp]; try (change (then_cmp (fst p ?= fst p) (snd p ?= snd p)) with (pair_cmp N.compare N.compare p p); rewrite Q); cbn [then_cmp]; rewrite ?N.compare_refl; cbn [then_cmp]; rewrite ?N.compare_refl; reflexivity.
  - rewrite (proj2 (list_lt _ _ (strip_no_tail _) (strip_no_tail _))); [reflexivity|]. destruct H as (i & Li & Hi). exists i. rewrite !strip_nth.
    split; auto. intros j Lj. rewrite !strip_nth. auto.
  - now rewrite L.
Qed.
Print Assumptions C31_stages.

(** Local versions of one version come in the order of their segments, texts before numbers. *)
Inductive text_before : list N -> list N -> Prop :=
| tb_longer c t : text_before [] (c :: t)
| tb_less c d s t : c < d -> text_before (c :: s) (d :: t)
| tb_same c s t : text_before s t -> text_before (c :: s) (c :: t).
Inductive segment_before : N + list N -> N + list N -> Prop :=
| sb_number n m : n < m -> segment_before (inl n) (inl m)
| sb_text s t : text_before s t -> segment_before (inr s) (inr t)
| sb_mixed s n : segment_before (inr s) (inl n).
Inductive local_before : list (N + list N) -> list (N + list N) -> Prop :=
| lb_longer x l : local_before [] (x :: l)
| lb_less x y l k : segment_before x y -> local_before (x :: l) (y :: k)
| lb_same x l k : local_before l k -> local_before (x :: l) (x :: k).
Theorem C31_local : forall e r p q d l l', local_before l l' -> vlt (Released (mkVersion e r p q d (Some l))) (Released (mkVersion e r p q d (Some l'))) = true.
Proof.
  intros e r p q d l l' B. assert (L : forall n m, n < m -> (n ?= m) = Lt) by (intros n m; apply N.compare_lt_iff).
  assert (TL : forall s t, text_before s t -> list_cmp N.compare s t = Lt) by (intros s t T; induction T; cbn [list_cmp]; [reflexivity|now rewrite L|now rewrite N.compare_refl]).
  assert (TR : forall s, list_cmp N.compare s s = Eq) by (apply o_refl, ordered_list, ordered_N).
  assert (SR : forall x, pair_cmp (inf_cmp N.compare) (list_cmp N.compare) (segment_key x) (segment_key x) = Eq).
  { intros [n|s]; unfold pair_cmp, segment_key; cbn [fst snd inf_cmp then_cmp]; [rewrite N.compare_refl; reflexivity|cbn [then_cmp]; apply TR]. }
  assert (LL : list_cmp (pair_cmp (inf_cmp N.compare) (list_cmp N.compare)) (map segment_key l) (map segment_key l') = Lt).
  { induction B as [x l|x y l k S|x l k B IH]; cbn [map list_cmp]; [reflexivity| |rewrite SR; exact IH].
    destruct S as [n m H|s t H|s n]; unfold pair_cmp, segment_key; cbn [fst snd inf_cmp then_cmp]; [rewrite (L n m H)|rewrite (TL s t H)|]; reflexivity. }
  assert (R : list_cmp N.compare (strip_zeros r) (strip_zeros r) = Eq) by (apply o_refl, ordered_list, ordered_N).
  assert (Q : forall p : inf (N * N), inf_cmp (pair_cmp N.compare N.compare) p p = Eq) by (intros [|x|]; cbn [inf_cmp]; auto; apply o_refl, ordered_pair; apply ordered_N).
  assert (QN : forall p : inf N, inf_cmp N.compare p p = Eq) by (intros [|x|]; cbn [inf_cmp]; auto using N.compare_refl).
  assert (PC : forall A B (ca : A -> A -> comparison) (cb : B -> B -> comparison) a x y, ca a a = Eq -> pair_cmp ca cb (a, x) (a, y) = cb x y) by (intros A B0 ca cb a x y E; unfold pair_cmp; cbn [fst snd]; rewrite E; reflexivity).
  unfold vlt, version_cmp, key_cmp, version_key. unfold pre_key, post_key, dev_key, local_key. cbn [v_epoch v_release v_pre v_post v_dev v_local].
  rewrite PC by apply N.compare_refl. rewrite PC by exact R. rewrite PC by apply Q. rewrite !PC by apply QN. cbn [inf_cmp]. rewrite LL. reflexivity.
Qed.
Print Assumptions C31_local.

Lemma flag_bit f g (b : bool) fs : N.testbit (if b then N.lor fs (feature_flag f) else fs) (bit g) = N.testbit fs (bit g) || (b && (bit f =? bit g)).
Proof.
  destruct b; cbn [andb]; [|rewrite orb_false_r; auto]. rewrite N.lor_spec. f_equal. destruct f, g; reflexivity.
Qed.
Lemma Ok_inj {A} (a b : A) : Ok a = Ok b -> a = b.
Proof. congruence. Qed.
Lemma supported_has v fs : supported_by v = Ok fs -> forall f, N.testbit fs (bit f) = vle (feature_version f) v.
Proof.
  unfold supported_by. destruct (vlt _ _); [discriminate|]. intros E f. apply Ok_inj in E as <-. unfold all_features, fold_left. rewrite !flag_bit.
  change (N.testbit max_compatibility (bit f)) with false. set (V := fun f => vle (feature_version f) v).
  change (vle (feature_version RegExpUnicodeSets) v) with (V RegExpUnicodeSets). change (vle (feature_version ResizableArrayBuffers) v) with (V ResizableArrayBuffers).
  change (vle (feature_version CircularErrorCause) v) with (V CircularErrorCause). change (vle (feature_version Float16Array) v) with (V Float16Array).
  change (vle (feature_version f) v) with (V f). clearbody V. destruct f; cbn [bit]; rewrite ?N.eqb_refl; cbn -[N.eqb]; destruct (V _), (V _), (V _), (V _); reflexivity.
Qed.
Lemma introduced_version f v : introduced f v -> v = feature_version f.
Proof. destruct f; auto. Qed.
Lemma introduced_has f : introduced f (feature_version f).
Proof. destruct f; reflexivity. Qed.

(** supported_by is defined exactly from the minimum version on, and otherwise raises LookupError. *)
Theorem C31_defined : forall v, (exists fs, supported_by v = Ok fs) <-> vle minimum v = true.
Proof.
  intros v. unfold supported_by. rewrite vlt_vle. fold minimum. unfold max_compatibility_version. fold minimum.
  destruct (vle minimum v); cbn; split; eauto; [intros [fs E]; discriminate|discriminate].
Qed.
Print Assumptions C31_defined.
Theorem C31_undefined_raises : forall v e, supported_by v = Err e -> e = ELookup.
Proof. intros v e. unfold supported_by. destruct (vlt _ _); [intros [= <-]; auto|discriminate]. Qed.
Print Assumptions C31_undefined_raises.
(** It contains exactly the features introduced at or before the version. *)
Theorem C31_contains : forall v fs f u, supported_by v = Ok fs -> introduced f u -> (has fs f <-> vle u v = true).
Proof. intros v fs f u E I. apply introduced_version in I as ->. unfold has. rewrite (supported_has v fs E). reflexivity. Qed.
Print Assumptions C31_contains.
Theorem C31_only_features : forall v fs, supported_by v = Ok fs -> fs < 16.
Proof.
  intros v fs. unfold supported_by. destruct (vlt _ _); [discriminate|]. intros E. apply Ok_inj in E as <-. unfold all_features, fold_left.
  repeat match goal with |- context [vle ?a ?b] => destruct (vle a b) end; reflexivity.
Qed.
Print Assumptions C31_only_features.
(** It never shrinks as the version grows. *)
Theorem C31_monotone : forall v w fs, supported_by v = Ok fs -> vle v w = true -> exists gs, supported_by w = Ok gs /\ includes gs fs.
Proof.
  intros v w fs E L. assert (D : exists gs, supported_by w = Ok gs).
  { apply C31_defined. apply vle_trans with v; auto. apply C31_defined. eauto. }
  destruct D as [gs Eg]. exists gs. split; auto. intros f. unfold has. rewrite (supported_has v fs E), (supported_has w gs Eg). intros Hf. apply vle_trans with v; auto.
Qed.
Print Assumptions C31_monotone.

Lemma flag_member fs f : negb (N.land fs (feature_flag f) =? 0) = N.testbit fs (bit f).
Proof.
  assert (P : feature_flag f = 2 ^ bit f) by (destruct f; reflexivity). rewrite P. destruct (N.testbit fs (bit f)) eqn:T.
  - destruct (N.eqb_spec (N.land fs (2 ^ bit f)) 0) as [E|]; auto. assert (X : N.testbit (N.land fs (2 ^ bit f)) (bit f) = false) by (rewrite E; apply N.bits_0).
    rewrite N.land_spec, T, N.pow2_bits_true in X. discriminate.
  - assert (X : N.land fs (2 ^ bit f) = 0). { apply N.bits_inj_0. intros n. rewrite N.land_spec. destruct (N.eq_dec n (bit f)) as [->|Ne]; [rewrite T; auto|]. rewrite N.pow2_bits_false by auto. apply andb_false_r. }
    rewrite X. reflexivity.
Qed.
Lemma member_iff fs f : In f (members fs) <-> has fs f.
Proof. unfold members, has. rewrite filter_In, flag_member. split; [tauto|]. intros T. split; auto. destruct f; cbn; auto. Qed.
Lemma max_spec l m : max_version l = Ok m -> In m l /\ forall x, In x l -> vle x m = true.
Proof.
  destruct l as [|v l]; cbn; [discriminate|]. intros [= <-]. revert v. induction l as [|x l IH]; intros v; cbn.
  - split; auto. intros y [<-|[]]. apply vle_refl.
  - rewrite vlt_vle. destruct (vle x v) eqn:E; cbn.
    + destruct (IH v) as [I M]. split; [destruct I; auto|]. intros y [<-|[<-|Iy]]; try solve [apply M; auto]. apply vle_trans with v; auto.
    + destruct (IH x) as [I M]. split; [destruct I; auto|]. intros y [<-|[<-|Iy]]; try solve [apply M; auto].
      apply vle_trans with x; [destruct (vle_total x v); congruence|]. apply M. auto.
Qed.
(** The first version that supports a nonempty set of features is the least whose supported set contains it. *)
Theorem C31_first_version_partial : forall fs, (exists f, has fs f) -> exists v gs, first_v8_version fs = Ok v /\
  supported_by v = Ok gs /\ includes gs fs /\ forall w hs, supported_by w = Ok hs -> includes hs fs -> vle v w = true.
Proof.
  intros fs [f0 Hf0]. unfold first_v8_version. destruct (max_version (map feature_version (members fs))) as [v|e] eqn:E.
  2:{ exfalso. apply member_iff in Hf0. destruct (members fs); [contradiction|discriminate]. }
  destruct (max_spec _ _ E) as [I M]. apply in_map_iff in I as (f & <- & If).
  assert (D : exists gs, supported_by (feature_version f) = Ok gs) by (apply C31_defined; destruct f; reflexivity). destruct D as [gs Eg].
  exists (feature_version f), gs. split; auto. split; auto. split.
  - intros g Hg. apply (C31_contains _ _ g (feature_version g) Eg (introduced_has g)). apply M, in_map, member_iff, Hg.
  - intros w hs Ew Iw. apply (C31_contains w hs f _ Ew (introduced_has f)), Iw, member_iff, If.
Qed.
Print Assumptions C31_first_version_partial.
(** With no feature enabled, as by default, asking for it raises ValueError, though the minimum version supports
    the empty set and no version below it does. *)
Theorem C31_first_version_refuted : exists fs gs, encoder_features None None = Ok fs /\ supported_by minimum = Ok gs /\ includes gs fs /\
  (forall w hs, supported_by w = Ok hs -> vle minimum w = true) /\ first_v8_version fs = Err EValue.
Proof.
  exists 0, 0. split; [reflexivity|]. split; [reflexivity|]. split; [intros f; auto|]. split; [|reflexivity]. intros w hs E. apply C31_defined. eauto.
Qed.
Print Assumptions C31_first_version_refuted.
(** An encoder made for a version enables exactly what was asked for and what the version supports; what it then
    writes can be read from that version on if nothing else was asked for. *)
Theorem C31_encoder_features : forall fs v gs f, encoder_features fs (Some v) = Ok gs ->
  (has gs f <-> (exists x, fs = Some x /\ has x f) \/ (forall u, introduced f u -> vle u v = true)).
Proof.
  intros fs v gs f. unfold encoder_features. destruct (supported_by v) as [ms|] eqn:E; cbn [bind]; [|discriminate]. intros [= <-].
  unfold has. rewrite N.lor_spec, orb_true_iff, (supported_has v ms E). split.
  - intros [A|A]; [|right; intros u I; apply introduced_version in I as ->; auto]. destruct fs as [x|]; [left; eauto|]. destruct f; discriminate.
  - intros [(x & -> & A)|A]; [left; auto|right; apply A, introduced_has].
Qed.
Print Assumptions C31_encoder_features.
Theorem C31_encoder_version : forall v gs w, encoder_features None (Some v) = Ok gs -> first_v8_version gs = Ok w -> vle w v = true.
Proof.
  intros v gs w E F. unfold encoder_features in E. destruct (supported_by v) as [ms|] eqn:S; cbn [bind] in E; [|discriminate]. injection E as <-.
  change (N.lor max_compatibility ms) with ms in F. apply max_spec in F as [I _]. apply in_map_iff in I as (f & <- & If).
  apply (C31_contains v ms f _ S (introduced_has f)), member_iff, If.
Qed.
Print Assumptions C31_encoder_version.
(** The flags [dumps] consults are these sets. *)
Theorem C31_flags : forall fs, (f_regexp_sets (features_of fs) = true <-> has fs RegExpUnicodeSets) /\
  (f_resizable (features_of fs) = true <-> has fs ResizableArrayBuffers) /\
  (f_circular (features_of fs) = true <-> has fs CircularErrorCause) /\ (f_float16 (features_of fs) = true <-> has fs Float16Array).
Proof.
  intros fs. unfold has. rewrite <- !flag_member. repeat split; auto.
Qed.
Print Assumptions C31_flags.
Example C31_case : supported_by (Released (release [11; 8])) = Ok 3 /\ first_v8_version 3 = Ok (Released (release [11; 0; 193])) /\
  before [11; 0; 193] [11; 8] /\ supported_by (Released (release [9; 9; 9; 9])) = Err ELookup /\
  supported_by (Released (mkVersion 0 [12; 1; 109] (Some (2, 1)) None None None)) = Ok 3 /\
  supported_by (Released (mkVersion 0 [12; 1; 109; 0] None None None (Some [inr [114]]))) = Ok 7.
Proof. repeat split. exists 1%nat. split; [cbn; lia|]. intros [|j] L; [reflexivity|lia]. Qed.
