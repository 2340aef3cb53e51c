(** C61: the text of a V8 version. *)
From Coq Require Import Ascii String List NArith Bool Arith Lia ZifyBool ZifyN ZifyNat.
From Verif Require Import Base ModelEncode ModelVersion ModelOptions ModelVersionText SpecVersion VersionFacts VersionTextFacts VersionTextFacts2 VersionTextFacts3.
Import ListNotations.
Open Scope list_scope.

(** Numbers with dots between them are read as that release. *)
Theorem C61_release : forall s ns, dotted s ns -> parse_lenient_version false s = Parsed (release ns).
Proof. intros s ns H. apply dotted_text in H as [l [-> [-> [F Ne]]]]. now apply parse_release. Qed.
Print Assumptions C61_release.
(** A suffix after a dash becomes the local part. Missing: suffixes that are not local segments (they are rejected), and those that
    read as a pre-release, post-release or development release (see the refutations). *)
Theorem C61_suffix_partial : forall s ns suffix l, dotted s ns -> segments suffix l -> ~ reads_as_marker suffix ->
  parse_lenient_version false (s ++ 45%N :: suffix) = Parsed (mkVersion 0 ns None None None (Some l)).
Proof. intros s ns suffix l H Hs Nm. apply dotted_text in H as [r [-> [-> [F Ne]]]]. now apply parse_suffix. Qed.
Print Assumptions C61_suffix_partial.
(** A local part does not change which features are supported. *)
Lemma then_cmp_key : forall a b c d e x l, then_cmp a (then_cmp b (then_cmp c (then_cmp d (then_cmp e (inf_cmp x (Fin l) NegInf))))) = Lt <->
  then_cmp a (then_cmp b (then_cmp c (then_cmp d (then_cmp e (inf_cmp x (NegInf : inf (list (inf N * list N))) NegInf))))) = Lt.
Proof. intros [] [] [] [] [] x l; cbn; split; auto; discriminate. Qed.
Lemma local_vlt : forall e r p q d l u, v_local u = None ->
  vlt (Released (mkVersion e r p q d (Some l))) (Released u) = vlt (Released (mkVersion e r p q d None)) (Released u).
Proof.
  intros e r p q d l u Hu. unfold vlt. set (x := version_cmp (mkVersion e r p q d (Some l)) u). set (y := version_cmp (mkVersion e r p q d None) u).
  assert (H : x = Lt <-> y = Lt).
  { subst x y. unfold version_cmp, key_cmp, pair_cmp, version_key, local_key. rewrite Hu. cbn [fst snd v_local v_epoch v_release].
    apply then_cmp_key. }
  destruct x, y; auto; destruct H as [H1 H2]; try discriminate (H1 eq_refl); try discriminate (H2 eq_refl).
Qed.
Lemma local_vle : forall e r p q d l u, (forall w, u = Released w -> v_local w = None) ->
  vle u (Released (mkVersion e r p q d (Some l))) = vle u (Released (mkVersion e r p q d None)).
Proof.
  intros e r p q d l [u|] Hu; [|reflexivity]. specialize (Hu u eq_refl).
  pose proof (vlt_vle (Released (mkVersion e r p q d (Some l))) (Released u)) as H1.
  pose proof (vlt_vle (Released (mkVersion e r p q d None)) (Released u)) as H2. rewrite local_vlt in H1 by auto. rewrite H1 in H2.
  destruct (vle (Released u) (Released (mkVersion e r p q d (Some l)))), (vle (Released u) (Released (mkVersion e r p q d None))); auto; discriminate.
Qed.
Theorem C61_local_supports_same : forall e r p q d l, supported_by (Released (mkVersion e r p q d (Some l))) = supported_by (Released (mkVersion e r p q d None)).
Proof.
  intros e r p q d l. unfold supported_by. unfold max_compatibility_version. rewrite local_vlt by reflexivity.
  destruct (vlt _ _); auto. unfold all_features. cbn [fold_left].
  rewrite !local_vle by (intros w Hw; try discriminate; injection Hw as <-; reflexivity). reflexivity.
Qed.
Print Assumptions C61_local_supports_same.
(** So an encoder for "12.4.254.21-node.33" uses what it uses for "12.4.254.21". *)
Theorem C61_suffix_supports_same : forall s ns suffix l, dotted s ns -> segments suffix l -> ~ reads_as_marker suffix ->
  supported_by_text false (s ++ 45%N :: suffix) = supported_by_text false s /\ supported_by_text false s = Some (supported_by (Released (release ns))).
Proof.
  intros s ns suffix l H Hs Nm. unfold supported_by_text. rewrite (C61_suffix_partial s ns suffix l), (C61_release s ns) by auto.
  rewrite C61_local_supports_same. auto.
Qed.
Print Assumptions C61_suffix_supports_same.
(** Feature sets are only given for texts that are read as a version, and then they are those of the version. *)
Theorem C61_supported_by_text : forall p s, match supported_by_text p s with
  | Some fs => exists v, parse_lenient_version p s = Parsed v /\ fs = supported_by (Released v)
  | None => forall v, parse_lenient_version p s <> Parsed v
  end.
Proof. intros p s. unfold supported_by_text. destruct (parse_lenient_version p s) as [v| |]; [eauto|discriminate|discriminate]. Qed.
Print Assumptions C61_supported_by_text.
(** A text without dashes, capital letters and whitespace is read as packaging reads it. *)
Theorem C61_without_dash : forall s, ~ In 45%N s -> (forall c, In c s -> ~ upper_letter c /\ space_char c = false) ->
  parse_lenient_version false s = match whole_version false s with Some v => Parsed v | None => InvalidVersion end.
Proof.
  intros s Nd H. apply parse_no_dash; auto; apply Forall_forall; intros c Hc; destruct (H c Hc) as [U Sp].
  - unfold no_upper, is_upper, upper_letter in *. lia.
  - now rewrite Sp.
Qed.
Print Assumptions C61_without_dash.
(** Nothing but InvalidVersion is raised for texts without both a plus sign and a dash. *)
Theorem C61_other_exception_partial : forall s, parse_lenient_version false s = AssertionFailed -> In 43%N s /\ In 45%N s.
Proof. exact parse_assertion. Qed.
Print Assumptions C61_other_exception_partial.
Theorem C61_other_exception_refuted : exists s, parse_lenient_version false s = AssertionFailed.
Proof. exists (SpecVersion.chars "1.0+abc-D"). vm_compute. reflexivity. Qed.
Print Assumptions C61_other_exception_refuted.
(** Suffixes that are not kept as the local part: part of the suffix -b-x makes the version a beta of its release, which supports less
    than the release; -foo! is rejected. The same text in another case is read differently, though packaging ignores case. *)
Theorem C61_suffix_refuted : exists s ns suffix l v, dotted s ns /\ segments suffix l /\
  parse_lenient_version false (s ++ 45%N :: suffix) = Parsed v /\ v_local v <> Some l /\ supported_by (Released v) <> supported_by (Released (release ns)).
Proof.
  exists (SpecVersion.chars "12.1.109"), [12; 1; 109]%N, (SpecVersion.chars "b-x"), [inr [98%N]; inr [120%N]]. eexists. split; [|split; [|split; [vm_compute; reflexivity|split; [discriminate|vm_compute; discriminate]]]].
  - change (SpecVersion.chars "12.1.109") with ((([] ++ [48 + 1]) ++ [48 + 2]) ++ 46 :: (([] ++ [48 + 1]) ++ 46 :: (((([] ++ [48 + 1]) ++ [48 + 0]) ++ [48 + 9]))))%N.
    apply dotted_more; [exact (denotes_snoc [49%N] 1 2 (denotes_one 1 eq_refl) eq_refl)|].
    apply dotted_more; [exact (denotes_one 1 eq_refl)|]. apply dotted_one.
    exact (denotes_snoc _ 10 9 (denotes_snoc [49%N] 1 0 (denotes_one 1 eq_refl) eq_refl) eq_refl).
  - change (SpecVersion.chars "b-x") with ([98%N] ++ 45%N :: [120%N]).
    assert (X : forall c, (97 <= c <= 122)%N -> is_segment [c] (inr [c])).
    { intros c Hc. apply seg_text; [discriminate| | |].
      - repeat (apply Forall_cons; [unfold letter_or_digit, digit, upper_letter; lia|]); apply Forall_nil.
      - intros F. inversion F; subst. unfold digit in *. lia.
      - repeat (apply Forall2_cons; [right; unfold upper_letter; lia|]); apply Forall2_nil. }
    apply segments_more; [apply X; lia|left; reflexivity|]. apply segments_one, X. lia.
Qed.
Print Assumptions C61_suffix_refuted.
Theorem C61_suffix_characters_refuted : exists s ns, dotted s ns /\ parse_lenient_version false (s ++ SpecVersion.chars "-foo!") = InvalidVersion.
Proof. exists [49%N], [1%N]. split; [apply dotted_one; exact (denotes_one 1 eq_refl)|]. vm_compute. reflexivity. Qed.
Print Assumptions C61_suffix_characters_refuted.
Theorem C61_case_refuted : exists s t v w, map lower s = t /\ whole_version false s = whole_version false t /\
  parse_lenient_version false s = Parsed v /\ parse_lenient_version false t = Parsed w /\ supported_by (Released v) <> supported_by (Released w).
Proof.
  exists (SpecVersion.chars "12.1.109-RC1"), (SpecVersion.chars "12.1.109-rc1"). do 2 eexists. split; [reflexivity|]. split; [reflexivity|].
  split; [vm_compute; reflexivity|]. split; [vm_compute; reflexivity|]. vm_compute. discriminate.
Qed.
Print Assumptions C61_case_refuted.
(** With the pattern of packaging 26, which does not backtrack, the docstring's example is rejected. *)
Theorem C61_possessive_refuted : parse_lenient_version false (SpecVersion.chars "12.9.202.2-rusty") = Parsed (mkVersion 0 [12; 9; 202; 2]%N None None None (Some [inr (SpecVersion.chars "rusty")])) /\
  parse_lenient_version true (SpecVersion.chars "12.9.202.2-rusty") = InvalidVersion.
Proof. split; vm_compute; reflexivity. Qed.
Print Assumptions C61_possessive_refuted.

(** The version of a Node release and the docstring's example satisfy the hypotheses. *)
Example C61_case : exists s ns l, s = SpecVersion.chars "12.4" /\ dotted s ns /\ segments (SpecVersion.chars "node.33") l /\
  ~ reads_as_marker (SpecVersion.chars "node.33") /\ ~ reads_as_marker (SpecVersion.chars "rusty") /\ reads_as_marker (SpecVersion.chars "r-usty").
Proof.
  exists (SpecVersion.chars "12.4"), [12; 4]%N, [inr (SpecVersion.chars "node"); inl 33%N]. split; [reflexivity|]. split; [|split; [|split; [|split]]].
  - change (SpecVersion.chars "12.4") with ([49; 50] ++ 46 :: [52])%N.
    apply dotted_more; [exact (denotes_snoc [49%N] 1 2 (denotes_one 1 eq_refl) eq_refl)|]. apply dotted_one. exact (denotes_one 4 eq_refl).
  - change (SpecVersion.chars "node.33") with (SpecVersion.chars "node" ++ 46 :: [51; 51])%N. apply segments_more.
    + apply seg_text; [discriminate| | |].
      * cbn. repeat (apply Forall_cons; [unfold letter_or_digit, digit, upper_letter; lia|]); apply Forall_nil.
      * intros F. cbn in F. inversion F; subst. unfold digit in *. lia.
      * cbn. repeat (apply Forall2_cons; [right; unfold upper_letter; lia|]); apply Forall2_nil.
    + right. right. reflexivity.
    + apply segments_one, seg_number. exact (denotes_snoc [51%N] 3 3 (denotes_one 3 eq_refl) eq_refl).
  - apply marker_free_spec. vm_compute. reflexivity.
  - apply marker_free_spec. vm_compute. reflexivity.
  - exists [114%N], (SpecVersion.chars "-usty"). split; [reflexivity|]. split; [|right; exists (SpecVersion.chars "usty"); reflexivity].
    exists [], (SpecVersion.chars "-r"), []. split; [reflexivity|]. split; [left; auto|]. split; [|left; auto]. right. left.
    exists [45%N], "r"%string, [], []. split; [reflexivity|]. split; [right; exists 45%N; unfold separator; auto|]. split; [cbn; auto|]. split; [left; auto|constructor].
Qed.
