(** parse_lenient_version of releases, with and without a suffix. *)
From Coq Require Import Ascii String List NArith Bool Arith Lia ZifyBool ZifyN ZifyNat.
From Verif Require Import Base ModelVersion ModelOptions ModelVersionText SpecVersion VersionTextFacts VersionTextFacts2.
Import ListNotations.
Open Scope list_scope.
Open Scope nat_scope.

Lemma filter_all : forall A (f : A -> bool) l q, In q l -> f q = true -> (forall x, In x l -> f x = true -> x = q) -> exists r, filter f l = q :: r.
Proof.
  intros A f l q. induction l as [|y l IH]; intros Hq Fq H; [destruct Hq|]. cbn. destruct (f y) eqn:E.
  - exists (filter f l). f_equal. apply H; cbn; auto.
  - destruct Hq as [->|Hq]; [congruence|]. apply IH; auto. intros x Hx. apply H. cbn. auto.
Qed.
Lemma at_end_spec : forall A (x : A) r, at_end (x, r) = true <-> r = [] \/ r = [10%N].
Proof.
  intros A x r. unfold at_end. cbn [snd]. destruct r as [|c r]; [tauto|]. destruct (N.eq_dec c 10) as [->|Nc].
  - destruct r; split; auto; try (intros [H|H]; discriminate); discriminate.
  - split; [|intros [H|H]; [discriminate|injection H as -> _; congruence]].
    intros H. exfalso. destruct c as [|c]; [discriminate|]. do 4 (destruct c as [c|c|]; try discriminate; try congruence).
Qed.
Lemma all_app : forall f a b, all f (a ++ b) <-> all f a /\ all f b.
Proof. intros f a b. apply Forall_app. Qed.
Lemma all_space_nil : forall t, all space_char t -> all (fun c => negb (space_char c)) t -> t = [].
Proof. intros [|c t] H1 H2; auto. inversion H1; inversion H2; subst. rewrite H3 in H7. discriminate. Qed.
(** Version of a text without whitespace *)
Lemma whole_unique : forall s v, all (fun c => negb (space_char c)) s -> (exists p, Version true p s) ->
  (forall p, Version true p s -> version_of p = v) -> whole_version false s = Some v.
Proof.
  intros s v Ns [p Vp] U. unfold whole_version.
  set (l := (let+ _ := spaces in let+ p := version_pattern false true in let+ _ := spaces in pret p) s).
  assert (X : forall x r, In (x, r) l -> at_end (x, r) = true -> version_of x = v).
  { intros x r H A1. apply m_whole in H as [t [-> [a [b [c [-> [Ha [Hb Hc]]]]]]]].
    rewrite !all_app in Ns. destruct Ns as [[Na [_ Nc]] Nr].
    rewrite (all_space_nil a Ha Na), (all_space_nil c Hc Nc) in *. apply at_end_spec in A1 as [->| ->].
    - apply U. cbn [app]. rewrite !app_nil_r. exact Hb.
    - inversion Nr; discriminate. }
  assert (I1 : In (p, []) l).
  { apply m_whole. exists s. rewrite app_nil_r. split; auto. exists [], s, []. rewrite app_nil_r. split; auto. split; [constructor|]. split; auto. constructor. }
  destruct (filter at_end l) as [|[x r] k] eqn:E.
  - assert (J : In (p, []) (filter at_end l)) by (apply filter_In; auto). rewrite E in J. destruct J.
  - assert (J : In (x, r) (filter at_end l)) by (rewrite E; left; auto). apply filter_In in J as [J1 J2]. f_equal. eauto.
Qed.
Lemma whole_none : forall s, all (fun c => negb (space_char c)) s -> (forall p, ~ Version true p s) -> whole_version false s = None.
Proof.
  intros s Ns U. unfold whole_version.
  destruct (filter at_end ((let+ _ := spaces in let+ p := version_pattern false true in let+ _ := spaces in pret p) s)) as [|[x r] k] eqn:E; auto.
  exfalso. assert (J : In (x, r) ((x, r) :: k)) by (left; auto). rewrite <- E in J. apply filter_In in J as [H A1].
  apply m_whole in H as [t [-> [a [b [c [-> [Ha [Hb Hc]]]]]]]].
  rewrite !all_app in Ns. destruct Ns as [[Na [_ Nc]] Nr].
  rewrite (all_space_nil a Ha Na), (all_space_nil c Hc Nc) in *. apply at_end_spec in A1 as [->| ->].
  - apply (U x). cbn [app]. rewrite !app_nil_r. exact Hb.
  - inversion Nr; discriminate.
Qed.

Lemma digit_dot : forall c, is_digit c || (c =? 46)%N = true -> negb (space_char c) = true /\ c <> 43%N /\ c <> 45%N /\ c <> 10%N.
Proof. intros c. unfold is_digit, space_char. lia. Qed.
Lemma text_no_space : forall l, Forall numeral l -> all (fun c => negb (space_char c)) (text l).
Proof. intros l F. eapply Forall_impl; [|apply text_chars, F]. intros c H. now apply digit_dot. Qed.
Lemma mark_char_plus : forall ic c, mark_char ic c = true -> c <> 43%N.
Proof. intros ic c H ->. destruct ic; discriminate. Qed.

Lemma whole_release : forall l, Forall numeral l -> l <> [] -> whole_version false (text l) = Some (release (map value l)).
Proof.
  intros l F Ne. apply whole_unique; [now apply text_no_space|exists (mkParts None l None None None None); now apply version_of_release|].
  intros p V. destruct (version_release true p (text l) l [] [] F Ne V) as [E1 [E2 [m [q [E3 [M Q]]]]]]; cbn; auto.
  rewrite app_nil_r in E3. symmetry in E3. apply app_eq_nil in E3 as [-> ->].
  destruct (mark_starts _ _ _ M) as [_ [[_ [E4 [E5 E6]]]|[]]].
  unfold version_of, release. rewrite E1, E2, E4, E5, E6. destruct (p_local p) as [k|]; auto.
  destruct Q as [d [w [_ [Q _]]]]. discriminate.
Qed.
Lemma whole_local : forall l s x, Forall numeral l -> l <> [] -> segments s x ->
  whole_version false (text l ++ 43%N :: s) = Some (mkVersion 0 (map value l) None None None (Some x)).
Proof.
  intros l s x F Ne S1. destruct (segments_joined _ _ S1) as [d [r [Es [Ex [Fd Hr]]]]].
  assert (L : Local true (d :: map snd r) (43%N :: s)) by (exists d, r; rewrite Es; auto).
  apply whole_unique.
  - apply all_app. split; [now apply text_no_space|]. constructor; [reflexivity|]. destruct (segments_chars _ _ S1) as [_ H].
    eapply Forall_impl; [|exact H]. intros c Hc. apply suffix_char in Hc as [-> _]. reflexivity.
  - eexists. apply version_of_local; eauto.
  - intros p V. destruct (version_release true p (text l ++ 43%N :: s) l (43%N :: s) [] F Ne V) as [E1 [E2 [m [q [E3 [M Q]]]]]]; cbn; auto.
    { split; auto. discriminate. }
    { discriminate. }
    { now rewrite app_nil_r. }
    rewrite app_nil_r in E3. destruct (mark_starts _ _ _ M) as [Mc [[-> [E4 [E5 E6]]]|Ms]].
    + cbn in E3. subst q. unfold version_of. rewrite E1, E2, E4, E5, E6. destruct (p_local p) as [k|]; [|discriminate].
      destruct Q as [d' [r' [-> [Q [Fd' Hr']]]]]. injection Q as Q. rewrite Es in Q. apply (joined_split true) in Q as [-> ->]; auto.
      cbn [option_map]. now rewrite Ex.
    + exfalso. destruct m as [|c m]; [destruct Ms|]. injection E3 as <- _. inversion Mc; subst. apply mark_char_plus in H1. congruence.
Qed.

(** The lenient pattern *)
Lemma parse_release : forall l, Forall numeral l -> l <> [] -> parse_lenient_version false (text l) = Parsed (release (map value l)).
Proof.
  intros l F Ne. unfold parse_lenient_version.
  destruct (filter_all _ at_end (lenient_pattern false (text l)) (mkParts None l None None None None, [], None, [])) as [k ->].
  - apply m_lenient. exists (text l). rewrite app_nil_r. split; auto. split; [now apply version_of_release|]. split; reflexivity.
  - reflexivity.
  - intros [[[p rest] x] r] H A1. apply m_lenient in H as [t [Et [V [Hx Hr]]]]. apply at_end_spec in A1.
    assert (Sr : stop rest).
    { rewrite Hr. destruct x as [w|]; cbn in Hx; [destruct Hx as [-> _]; cbn; split; auto; discriminate|rewrite Hx]. cbn.
      destruct A1 as [->| ->]; cbn; [exact I|]. split; [reflexivity|discriminate]. }
    destruct (version_release false p t l [] rest F Ne V) as [E1 [E2 [m [q [E3 [M Q]]]]]]; cbn; auto; [now rewrite app_nil_r|].
    symmetry in E3. apply app_eq_nil in E3 as [-> E3]. apply app_eq_nil in E3 as [-> ->].
    destruct (mark_starts _ _ _ M) as [_ [[_ [E4 [E5 E6]]]|[]]].
    assert (x = None) as ->. { destruct x as [w|]; auto. cbn in Hx. destruct Hx as [Hx _]. discriminate. }
    assert (r = []) as -> by (destruct r; auto; discriminate).
    assert (p_local p = None) as E7. { destruct (p_local p) as [k|]; auto. destruct Q as [d [w [_ [Q _]]]]. discriminate. }
    destruct p; cbn in *; subst; reflexivity.
  - rewrite whole_release; auto.
Qed.
Lemma parse_suffix : forall l s x, Forall numeral l -> l <> [] -> segments s x -> ~ reads_as_marker s ->
  parse_lenient_version false (text l ++ 45%N :: s) = Parsed (mkVersion 0 (map value l) None None None (Some x)).
Proof.
  intros l s x F Ne S1 Nm. destruct (segments_chars _ _ S1) as [Ns Cs].
  assert (C10 : ~ In 10%N s). { intros H. eapply Forall_forall in Cs; [|exact H]. discriminate. }
  assert (C43 : ~ In 43%N s). { intros H. eapply Forall_forall in Cs; [|exact H]. discriminate. }
  unfold parse_lenient_version.
  destruct (filter_all _ at_end (lenient_pattern false (text l ++ 45%N :: s)) (mkParts None l None None None None, 45%N :: s, Some s, [])) as [k ->].
  - apply m_lenient. exists (text l). split; auto. split; [now apply version_of_release|]. cbn [List.length]. rewrite Nat.sub_0_r.
    change (S (List.length s)) with (List.length (45%N :: s)). rewrite firstn_all, app_nil_r. split; auto. cbn. split; auto. split; auto.
    eapply Forall_impl; [|exact Cs]. intros c Hc. apply suffix_char in Hc as [-> _]. reflexivity.
  - reflexivity.
  - intros [[[p rest] y] r] H A1. apply m_lenient in H as [t [Et [V [Hx Hr]]]]. apply at_end_spec in A1.
    assert (Sr : stop rest).
    { rewrite Hr. destruct y as [w|]; cbn in Hx; [destruct Hx as [-> _]; cbn; split; auto; discriminate|rewrite Hx]. cbn.
      destruct A1 as [->| ->]; cbn; [exact I|]. split; [reflexivity|discriminate]. }
    destruct (version_release false p t l (45%N :: s) rest F Ne V) as [E1 [E2 [m [q [E3 [M Q]]]]]]; cbn; auto; [split; auto; discriminate|discriminate|].
    assert (p_local p = None /\ q = []) as [E7 ->].
    { destruct (p_local p) as [k|]; auto. exfalso. destruct Q as [d [w [_ [-> _]]]].
      assert (J : In 43%N (45%N :: s)) by (rewrite E3; apply in_app_iff; right; left; auto). destruct J; [discriminate|auto]. }
    cbn [app] in E3.
    assert (r = []) as ->.
    { destruct A1 as [->| ->]; auto. exfalso. assert (J : In 10%N (45%N :: s)). { rewrite E3, Hr. rewrite !in_app_iff. cbn. auto. }
      destruct J; [discriminate|auto]. }
    rewrite app_nil_r, Nat.sub_0_r, firstn_all in *. clear Hr A1.
    destruct (mark_starts _ _ _ M) as [_ [[-> [E4 [E5 E6]]]|Ms]].
    + cbn [app] in E3. subst rest. destruct y as [w|]; cbn in Hx; [|discriminate]. destruct Hx as [Hx _]. injection Hx as <-. destruct p; cbn in *; subst; reflexivity.
    + exfalso. apply Nm. destruct m as [|c m]; [destruct Ms|]. injection E3 as <- E3. exists m, rest. split; auto. split; [eapply mark_release_marker, M|].
      destruct y as [w|]; cbn in Hx; [right|left; auto]. exists w. apply Hx.
  - cbn [p_local]. rewrite app_length, Nat.add_sub, firstn_app, firstn_all, Nat.sub_diag. cbn [firstn]. rewrite app_nil_r.
    rewrite (whole_local l s x); auto.
Qed.

(** Case *)
Definition no_upper (c : N) : bool := negb (is_upper c).
Lemma fold_no_upper : forall w, all no_upper w -> map (fold_case true) w = map (fold_case false) w.
Proof.
  induction 1 as [|c w H _ IH]; auto. cbn [map]. rewrite IH. f_equal. unfold fold_case, lower, no_upper in *. destruct (is_upper c); auto. discriminate.
Qed.
Lemma marker_case : forall ws q t, all no_upper t -> Marker true ws q t -> Marker false ws q t.
Proof.
  intros ws q t U [a [b [n [-> [Ha [[w [Hw E]] H]]]]]]. exists a, b, n. split; auto. split; auto. split; auto. exists w. split; auto.
  rewrite <- E. symmetry. apply fold_no_upper. rewrite !all_app in U. tauto.
Qed.
Lemma version_case : forall p t, all no_upper t -> Version true p t -> Version false p t.
Proof.
  intros p t U [v [e [r [a [b [c [q [-> [Hv [He [Hr [Ha [Hb [Hc Hq]]]]]]]]]]]]]]. rewrite !all_app in U.
  destruct U as [Uv [_ [_ [Ua [Ub [Uc Uq]]]]]]. exists v, e, r, a, b, c, q. split; auto. split.
  { destruct Hv as [->|[x [-> Hx]]]; auto. right. exists x. split; auto. pose proof (fold_no_upper _ Uv) as Ef. injection Ef as Ef. rewrite <- Hx. symmetry. exact Ef. }
  split; auto. split; auto. split; [|split; [|split]].
  - destruct (p_pre p); cbn in *; auto. now apply marker_case.
  - destruct (p_post p) as [o|]; cbn in *; auto. destruct Hb as [Hb|Hb]; [left; auto|right; now apply marker_case].
  - destruct (p_dev p); cbn in *; auto. now apply marker_case.
  - destruct (p_local p) as [k|]; cbn in *; auto. destruct Hq as [d [w [-> [-> [Fd Hs]]]]]. exists d, w. split; auto. split; auto. split; auto.
    inversion Uq as [|? ? _ U2]; subst. apply all_app in U2 as [Ud Uw].
    assert (X : forall d, all no_upper d -> all (alnum true) d -> all (alnum false) d).
    { intros x Ux Hx. unfold all in *. apply Forall_forall. intros y Hy. eapply Forall_forall in Ux; [|exact Hy]. eapply Forall_forall in Hx; [|exact Hy].
      unfold alnum, fold_case, lower, no_upper in *. destruct (is_upper y); auto. discriminate. }
    inversion Fd as [|? ? [Nd Hd] Fw]; subst. constructor; auto. clear -Uw Fw X.
    induction w as [|[c d] w IH]; [constructor|]. cbn [joined map snd] in *. inversion Uw as [|? ? _ U2]; subst. apply all_app in U2 as [Ud U2].
    inversion Fw as [|? ? [Nd Hd] Fw2]; subst. constructor; auto.
Qed.
(** Without a dash it is Version's answer. *)
Lemma parse_no_dash : forall s, ~ In 45%N s -> all no_upper s -> all (fun c => negb (space_char c)) s ->
  parse_lenient_version false s = of_version (whole_version false s).
Proof.
  intros s Nd U Ns. unfold parse_lenient_version.
  destruct (filter at_end (lenient_pattern false s)) as [|[[[p rest] [w|]] r] k] eqn:E.
  - rewrite whole_none; auto. intros p V. apply (version_case _ _ U) in V.
    assert (J : In ((p, [], None), []) (filter at_end (lenient_pattern false s))).
    { apply filter_In. split; [|reflexivity]. apply m_lenient. exists s. rewrite app_nil_r. split; [auto|]. split; [exact V|]. split; reflexivity. }
    rewrite E in J. destruct J.
  - exfalso. assert (J : In ((p, rest, Some w), r) (filter at_end (lenient_pattern false s))) by (rewrite E; left; auto).
    apply filter_In in J as [J _]. apply m_lenient in J as [t [-> [_ [[Hx _] Hr]]]]. apply Nd. rewrite Hr, Hx, in_app_iff. right. left. auto.
  - reflexivity.
Qed.
Lemma parse_assertion : forall s, parse_lenient_version false s = AssertionFailed -> In 43%N s /\ In 45%N s.
Proof.
  intros s H. unfold parse_lenient_version in H.
  destruct (filter at_end (lenient_pattern false s)) as [|[[[p rest] [w|]] r] k] eqn:E; [discriminate| |destruct (whole_version false s); discriminate].
  assert (J : In ((p, rest, Some w), r) (filter at_end (lenient_pattern false s))) by (rewrite E; left; auto).
  apply filter_In in J as [J _]. apply m_lenient in J as [t [-> [V [[Hx _] Hr]]]].
  destruct (p_local p) as [k'|] eqn:El; [|destruct (whole_version false _) in H; discriminate].
  split; [|rewrite Hr, Hx, in_app_iff; right; left; auto].
  destruct V as [v [e [r0 [a [b [c [q [-> [_ [_ [_ [_ [_ [_ Hq]]]]]]]]]]]]]]. rewrite El in Hq. destruct Hq as [d [z [_ [-> _]]]].
  rewrite !in_app_iff. cbn. tauto.
Qed.
(** A suffix is a marker exactly if the model finds it so. *)
Definition mark : P parts := let+ a := opt false (pre false false) in let+ b := opt false (post false false) in let+ c := opt false (dev false false) in
  pret (mkParts None [] a b c None).
Lemma m_mark : forall s r, (exists x, In (x, r) (mark s)) <-> exists t, s = t ++ r /\ release_marker t.
Proof.
  assert (M : matches mark (fun p t => Mark false p t /\ p = mkParts None [] (p_pre p) (p_post p) (p_dev p) None)).
  { unfold mark. eapply m_ext; [|apply m_bind; [apply m_opt; apply m_marker|intros a; apply m_bind; [apply m_opt; apply m_post
      |intros b; apply m_bind; [apply m_opt; apply m_marker|intros c; apply m_ret]]]].
    intros p t. cbn beta. split.
    - intros [oa [a [t4 [-> [Ha [ob [b [t5 [-> [Hb [oc [c [t6 [-> [Hc [-> ->]]]]]]]]]]]]]]]]. rewrite app_nil_r. split; auto. exists a, b, c. auto.
    - intros [[a [b [c [-> [Ha [Hb Hc]]]]]] E]. exists (p_pre p), a, (b ++ c). split; auto. split; auto.
      exists (p_post p), b, c. split; auto. split; auto. exists (p_dev p), c, []. rewrite app_nil_r. auto. }
  intros s r. split.
  - intros [x H]. apply M in H as [t [-> [H _]]]. exists t. split; auto. eapply mark_release_marker, H.
  - intros [t [-> H]]. apply release_marker_mark in H as [p H]. exists (mkParts None [] (p_pre p) (p_post p) (p_dev p) None). apply M. exists t. auto.
Qed.
Definition marker_free (s : str) : bool :=
  forallb (fun q => match snd q with [] => false | c :: _ => negb (c =? 45)%N || (List.length (snd q) =? S (List.length s)) end) (mark (45%N :: s)).
Lemma marker_free_spec : forall s, marker_free s = true -> ~ reads_as_marker s.
Proof.
  intros s H [m [r [-> [M R]]]]. unfold marker_free in H. rewrite forallb_forall in H.
  destruct (m_mark (45%N :: m ++ r) r) as [_ X]. destruct X as [x Hx]; [exists (45%N :: m); auto|].
  apply H in Hx. cbn [snd] in Hx. destruct R as [->|[r' ->]]; [discriminate|]. rewrite app_length in Hx. cbn in Hx.
  apply Nat.eqb_eq in Hx. lia.
Qed.
