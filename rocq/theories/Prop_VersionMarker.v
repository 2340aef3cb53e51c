(** C61: the text of a V8 version, with a marker of a pre-release, post-release or development release. *)
From Coq Require Import Ascii String List NArith Bool Arith Lia ZifyBool ZifyN ZifyNat.
From Verif Require Import Base ModelEncode ModelVersion ModelOptions ModelVersionText SpecVersion VersionFacts VersionTextFacts VersionTextFacts2 VersionTextFacts3.
Import ListNotations.
Open Scope list_scope.

(** [stage w k pre post dev]: what the word [w] with the number [k] says of a version (PEP 440). *)
Inductive stage (k : N) : string -> option (N * N) -> option N -> option N -> Prop :=
| stage_alpha : forall w, In w ["a"; "alpha"]%string -> stage k w (Some (0%N, k)) None None
| stage_beta : forall w, In w ["b"; "beta"]%string -> stage k w (Some (1%N, k)) None None
| stage_candidate : forall w, In w ["c"; "rc"; "pre"; "preview"]%string -> stage k w (Some (2%N, k)) None None
| stage_post : forall w, In w ["post"; "rev"; "r"]%string -> stage k w None (Some k) None
| stage_dev : stage k "dev" None None (Some k).
(** The number after the word may be missing: it is 0 then. *)
Inductive counted : list N -> N -> Prop :=
| counted_none : counted [] 0
| counted_some : forall d k, denotes d k -> counted d k.
(** What stands between the release and the word: nothing, a dot or an underscore. *)
Inductive glue : list N -> Prop :=
| glue_none : glue []
| glue_dot : glue [46%N]
| glue_underscore : glue [95%N].

Definition low (t : list N) : list N := filter is_lower t.
Lemma low_app : forall a b, low (a ++ b) = low a ++ low b.
Proof. intros. apply filter_app. Qed.
Lemma low_none : forall t, all (fun c => negb (is_lower c)) t -> low t = [].
Proof. unfold low, all. induction 1 as [|c t H _ IH]; cbn; auto. destruct (is_lower c); auto. discriminate. Qed.
Lemma digits_low : forall n, all is_digit n -> low n = [].
Proof. intros n H. apply low_none. eapply Forall_impl; [|exact H]. intros c. unfold is_digit, is_lower. cbn. lia. Qed.
Lemma sep_low : forall a, Opt (fun c t => t = [c] /\ is_sep c = true) (hd_error a) a -> low a = [].
Proof.
  intros [|c a] H; auto. cbn [hd_error Opt] in H. destruct H as [E H]. injection E as ->. unfold low. cbn [filter].
  assert (L : is_lower c = false) by (unfold is_sep, is_lower in *; lia). rewrite L. auto.
Qed.
Lemma low_letters : forall w, In w all_words -> low (letters w) = letters w.
Proof.
  assert (H : forallb (fun w => if list_eq_dec N.eq_dec (low (letters w)) (letters w) then true else false) all_words = true) by (vm_compute; reflexivity).
  rewrite forallb_forall in H. intros w Hw. specialize (H w Hw). cbn beta in H. destruct (list_eq_dec _ _ _); auto. discriminate.
Qed.
(** The only way to read a word of the list as a word for a pre-release, one for a post-release and "dev" in a row is as itself. *)
Definition opts (ws : list string) : list str := [] :: map letters ws.
Lemma words_apart : forall w x y z, In w all_words -> In x (opts pre_words) -> In y (opts ["post"; "rev"; "r"]%string) -> In z (opts ["dev"]%string) ->
  x ++ y ++ z = letters w ->
  (In w pre_words /\ x = letters w /\ y = [] /\ z = []) \/ (In w ["post"; "rev"; "r"]%string /\ y = letters w /\ x = [] /\ z = []) \/
  (w = "dev"%string /\ z = letters w /\ x = [] /\ y = []).
Proof.
  pose (eqb := fun a b : str => if list_eq_dec N.eq_dec a b then true else false).
  pose (mem := fun w l => if in_dec string_dec w l then true else false).
  pose (ok := fun w x y z => negb (eqb (x ++ y ++ z) (letters w)) ||
    (mem w pre_words && eqb x (letters w) && eqb y [] && eqb z []) || (mem w ["post"; "rev"; "r"]%string && eqb y (letters w) && eqb x [] && eqb z []) ||
    (mem w ["dev"]%string && eqb z (letters w) && eqb x [] && eqb y [])).
  assert (H : forallb (fun w => forallb (fun x => forallb (fun y => forallb (fun z => ok w x y z) (opts ["dev"]%string)) (opts ["post"; "rev"; "r"]%string)) (opts pre_words)) all_words = true)
    by (vm_compute; reflexivity).
  intros w x y z Hw Hx Hy Hz E. rewrite forallb_forall in H. specialize (H w Hw). rewrite forallb_forall in H. specialize (H x Hx).
  rewrite forallb_forall in H. specialize (H y Hy). rewrite forallb_forall in H. specialize (H z Hz).
  assert (Q : forall a b, eqb a b = true -> a = b) by (intros a b; unfold eqb; destruct (list_eq_dec _ a b); auto; discriminate).
  assert (Q1 : eqb (x ++ y ++ z) (letters w) = true) by (rewrite E; unfold eqb; destruct (list_eq_dec _ (letters w) (letters w)); congruence).
  assert (M : forall a l, mem a l = true -> In a l) by (intros a l; unfold mem; destruct (in_dec _ a l); auto; discriminate).
  unfold ok in H. rewrite Q1 in H. cbn [negb orb] in H. apply orb_true_iff in H as [H|H]; [apply orb_true_iff in H as [H|H]|].
  - left. rewrite !andb_true_iff in H. destruct H as [[[H1 H2] H3] H4]. auto 10.
  - right. left. rewrite !andb_true_iff in H. destruct H as [[[H1 H2] H3] H4]. auto 10.
  - right. right. rewrite !andb_true_iff in H. destruct H as [[[H1 H2] H3] H4]. apply M in H1 as [<-|[]]. auto 10.
Qed.
Lemma incl_pre : incl pre_words all_words. Proof. intros x H. cbn in *. tauto. Qed.
Lemma incl_post : incl ["post"; "rev"; "r"]%string all_words. Proof. intros x H. cbn in *. tauto. Qed.
Lemma incl_dev : incl ["dev"]%string all_words. Proof. intros x H. cbn in *. tauto. Qed.
Lemma marker_low : forall ws q t, incl ws all_words -> Marker false ws q t -> In (low t) (opts ws) /\ low t = fst q /\ fst q <> [].
Proof.
  intros ws q t Hi [a [b [n [-> [Ha [[w [Hw E]] [Hb Hn]]]]]]]. rewrite map_fold_false in E.
  rewrite !low_app, (sep_low a Ha), (sep_low b Hb), E, (low_letters w (Hi w Hw)). cbn [app].
  assert (Ln : low n = []). { destruct (snd q); cbn in Hn; [destruct Hn as [-> [_ Hn]]; now apply digits_low|subst; auto]. }
  rewrite Ln, app_nil_r. split; [right; now apply in_map|]. split; auto. apply Hi in Hw. clear -Hw. cbn in Hw. intuition subst; discriminate.
Qed.
Lemma run_split : forall L a a' n m, L <> [] -> all is_lower L -> low a = [] -> low a' = [] -> a ++ L ++ n = a' ++ L ++ m -> a = a' /\ n = m.
Proof.
  intros [|x L] a a' n m Ne HL; [congruence|]. inversion HL as [|? ? Hx _]; subst. clear Ne HL. revert a'.
  assert (Q : forall c a, low (c :: a) = [] -> is_lower c = false /\ low a = []).
  { intros c b. unfold low. cbn [filter]. destruct (is_lower c); [discriminate|auto]. }
  induction a as [|c a IH]; intros [|c' a'] Ha Ha' E.
  - split; auto. exact (app_inv_head (x :: L) n m E).
  - apply Q in Ha' as [Hc _]. cbn in E. injection E as <- _. congruence.
  - apply Q in Ha as [Hc _]. cbn in E. injection E as -> _. congruence.
  - apply Q in Ha as [_ Ha]. apply Q in Ha' as [_ Ha']. cbn [app] in E. injection E as <- E. destruct (IH a' Ha Ha') as [-> ->]; auto.
Qed.
Lemma marker_number : forall ws q a w n, low a = [] -> In w all_words -> all is_digit n -> Marker false ws q (a ++ letters w ++ n) -> fst q = letters w ->
  number (snd q) = value n.
Proof.
  intros ws q a w n La Hw Hn [a' [b [m [E [Ha [_ [Hb Hm]]]]]]] Eq. rewrite Eq in E.
  destruct (letters_lower w Hw) as [c [l [El Al]]].
  apply run_split in E as [<- ->]; auto; [|rewrite El; discriminate|now apply sep_low].
  assert (Eb : b = []). { destruct b as [|d b]; auto. cbn in Hb. destruct Hb as [_ Hd]. inversion Hn as [|? ? Hd2 _]; subst. unfold is_sep, is_digit in *. lia. }
  subst b. cbn [app] in *. destruct (snd q) as [d|]; cbn in Hm.
  - destruct Hm as [-> _]. reflexivity.
  - subst m. reflexivity.
Qed.
Lemma post_low : forall q t, ~ In 45%N t -> Post false q t -> In (low t) (opts ["post"; "rev"; "r"]%string) /\ low t <> [] /\ Marker false ["post"; "rev"; "r"]%string q t.
Proof.
  intros q t Nd [[n [-> _]]|M]; [destruct Nd; now left|]. destruct (marker_low _ _ _ incl_post M) as [H1 [H2 H3]].
  split; auto. split; auto. congruence.
Qed.
Lemma opt_low : forall ws o t, incl ws all_words -> Opt (Marker false ws) o t -> In (low t) (opts ws) /\ (low t = [] -> o = None /\ t = []).
Proof.
  intros ws [q|] t Hi H; cbn in H.
  - destruct (marker_low _ _ _ Hi H) as [H1 [H2 H3]]. split; auto. intros E. congruence.
  - subst. split; [now left|]. auto.
Qed.
Lemma mark_unique : forall p a w n, ~ In 45%N (a ++ letters w ++ n) -> low a = [] -> In w all_words -> all is_digit n -> Mark false p (a ++ letters w ++ n) ->
  (In w pre_words /\ option_map (fun q => (fst q, number (snd q))) (p_pre p) = Some (letters w, value n) /\ p_post p = None /\ p_dev p = None) \/
  (In w ["post"; "rev"; "r"]%string /\ p_pre p = None /\ option_map (fun q => number (snd q)) (p_post p) = Some (value n) /\ p_dev p = None) \/
  (w = "dev"%string /\ p_pre p = None /\ p_post p = None /\ option_map (fun q => number (snd q)) (p_dev p) = Some (value n)).
Proof.
  intros p a w n Nd La Hw Hn [x [y [z [E [Hx [Hy Hz]]]]]].
  assert (Ny : ~ In 45%N y) by (intros H; apply Nd; rewrite E, !in_app_iff; auto).
  assert (Lx := opt_low pre_words _ _ incl_pre Hx).
  assert (Lz := opt_low ["dev"]%string _ _ incl_dev Hz).
  assert (Ly : In (low y) (opts ["post"; "rev"; "r"]%string) /\ (low y = [] -> p_post p = None /\ y = [])).
  { destruct (p_post p) as [q|]; cbn in Hy; [|subst; split; [now left|auto]]. destruct (post_low _ _ Ny Hy) as [H1 [H2 _]]. split; auto. congruence. }
  destruct Lx as [Lx1 Lx2], Ly as [Ly1 Ly2], Lz as [Lz1 Lz2].
  assert (EL : low x ++ low y ++ low z = letters w).
  { rewrite <- !low_app, <- E, !low_app, La, (low_letters w Hw), (digits_low n Hn), app_nil_r. reflexivity. }
  assert (Nl : letters w <> []) by (destruct (letters_lower w Hw) as [c [l [-> _]]]; discriminate).
  destruct (words_apart w _ _ _ Hw Lx1 Ly1 Lz1 EL) as [[H1 [H2 [H3 H4]]]|[[H1 [H2 [H3 H4]]]|[H1 [H2 [H3 H4]]]]].
  - left. apply Ly2 in H3 as [-> ->]. apply Lz2 in H4 as [-> ->]. rewrite !app_nil_r in E. subst x. split; auto. split; auto.
    destruct (p_pre p) as [q|]; cbn [Opt] in Hx; [|rewrite Hx in H2; cbn in H2; congruence].
    destruct (marker_low _ _ _ incl_pre Hx) as [_ [H5 _]]. cbn [option_map].
    rewrite (marker_number _ _ _ _ _ La Hw Hn Hx) by congruence. congruence.
  - right. left. apply Lx2 in H3 as [-> ->]. apply Lz2 in H4 as [-> ->]. cbn [app] in E. rewrite !app_nil_r in E. subst y. split; auto. split; auto. split; auto.
    destruct (p_post p) as [q|]; cbn [Opt] in Hy; [|rewrite Hy in H2; cbn in H2; congruence].
    destruct (post_low _ _ Ny Hy) as [_ [_ M]]. destruct (marker_low _ _ _ incl_post M) as [_ [H5 _]]. cbn [option_map].
    rewrite (marker_number _ _ _ _ _ La Hw Hn M) by congruence. congruence.
  - right. right. apply Lx2 in H3 as [-> ->]. apply Ly2 in H4 as [-> ->]. cbn [app] in E. subst z. split; auto. split; auto. split; auto.
    destruct (p_dev p) as [q|]; cbn [Opt] in Hz; [|rewrite Hz in H2; cbn in H2; congruence].
    destruct (marker_low _ _ _ incl_dev Hz) as [_ [H5 _]]. cbn [option_map].
    rewrite (marker_number _ _ _ _ _ La Hw Hn Hz) by congruence. congruence.
Qed.
(** A release with a marker after it is read as that pre-release, post-release or development release. Missing: markers after a dash and markers
    in a row ("1.0a1.post2.dev3"). *)
Theorem C61_marker_partial : forall s ns a w d k pre post dev, dotted s ns -> glue a -> stage k w pre post dev -> counted d k ->
  parse_lenient_version false (s ++ a ++ chars w ++ d) = Parsed (mkVersion 0 ns pre post dev None).
Proof.
  intros s ns a w d k pre post dev H Hg Hs Hc. change (chars w) with (letters w). apply dotted_text in H as [l [-> [-> [F Ne]]]].
  assert (Hd : all is_digit d /\ value d = k).
  { destruct Hc as [|d k Hd]; [split; [constructor|reflexivity]|]. apply denotes_value in Hd as [E [_ Hd]]. auto. }
  destruct Hd as [Hd <-].
  assert (Hw : In w all_words) by (destruct Hs as [w Hw|w Hw|w Hw|w Hw|]; cbn in *; tauto).
  assert (La : low a = []) by (destruct Hg; reflexivity).
  destruct (letters_lower w Hw) as [c0 [l0 [El Al]]].
  set (u := a ++ letters w ++ d).
  assert (Cu : all (fun c => is_digit c || is_lower c || (c =? 46)%N || (c =? 95)%N) u).
  { unfold u, all. apply Forall_app. split; [destruct Hg; repeat constructor|]. apply Forall_app. split; (eapply Forall_impl; [|eassumption]); cbn beta; intros c ->; auto.
    now rewrite orb_true_r. }
  assert (Ct : all (fun c => is_digit c || is_lower c || (c =? 46)%N || (c =? 95)%N) (text l ++ u)).
  { apply Forall_app. split; auto. eapply Forall_impl; [|apply text_chars, F]. cbn beta. intros c. destruct (is_digit c), (is_lower c), (c =? 46)%N; auto; discriminate. }
  assert (Nc : forall c t, all (fun c => is_digit c || is_lower c || (c =? 46)%N || (c =? 95)%N) t -> is_digit c || is_lower c || (c =? 46)%N || (c =? 95)%N = false -> ~ In c t).
  { intros c t Ht Hf Hi. eapply Forall_forall in Ht; [|exact Hi]. cbn beta in Ht. congruence. }
  assert (Up : all no_upper (text l ++ u)).
  { eapply Forall_impl; [|exact Ct]. cbn beta. intros c. unfold no_upper, is_upper, is_digit, is_lower. lia. }
  assert (Sp : all (fun c => negb (space_char c)) (text l ++ u)).
  { eapply Forall_impl; [|exact Ct]. cbn beta. intros c. unfold space_char, is_digit, is_lower. lia. }
  rewrite parse_no_dash by (auto; apply Nc; auto).
  rewrite (whole_unique (text l ++ u) (mkVersion 0 (map value l) pre post dev None)); auto.
  - (* there is a reading *)
    set (q := (letters w, match d with [] => None | _ => Some d end)).
    assert (M : forall ws, In w ws -> Marker true ws q u).
    { intros ws Hi. exists a, [], d. split; auto. split; [destruct Hg; cbn; auto|]. split.
      - exists w. split; auto. rewrite fold_no_upper; [apply map_fold_false|]. eapply Forall_impl; [|exact Al]. cbn. intros c. unfold no_upper, is_upper, is_lower. lia.
      - split; [reflexivity|]. unfold q. destruct d; cbn; auto. split; auto. split; auto. discriminate. }
    assert (V : exists x y z, Opt (Marker true pre_words) x (match x with Some _ => u | None => [] end) /\ Opt (Post true) y (match y with Some _ => u | None => [] end) /\
      Opt (Marker true ["dev"]%string) z (match z with Some _ => u | None => [] end) /\
      match x with Some _ => u | None => [] end ++ match y with Some _ => u | None => [] end ++ match z with Some _ => u | None => [] end = u).
    { destruct Hs as [w Hw2|w Hw2|w Hw2|w Hw2|].
      1-3: exists (Some q), None, None; cbn [Opt]; rewrite !app_nil_r; repeat split; auto; apply M; cbn in *; tauto.
      - exists None, (Some q), None; cbn [Opt]; rewrite !app_nil_r; repeat split; auto; right; apply M; auto.
      - exists None, None, (Some q); cbn [Opt]; repeat split; auto; apply M; now left. }
    destruct V as [x [y [z [H1 [H2 [H3 H4]]]]]]. exists (mkParts None l x y z None).
    exists [], [], (text l), (match x with Some _ => u | None => [] end), (match y with Some _ => u | None => [] end), (match z with Some _ => u | None => [] end), [].
    cbn [p_epoch p_release p_pre p_post p_dev p_local Opt]. rewrite app_nil_r, H4. split; auto. split; auto. split; auto.
    split; [|repeat split; auto]. destruct l as [|e r]; [congruence|]. exists e, r. auto.
  - intros p V.
    destruct (version_release true p (text l ++ u) l u [] F Ne V) as [E1 [E2 [m [t [E3 [M Q]]]]]]; cbn; auto.
    + unfold u. rewrite El. rewrite El in Al. inversion Al as [|? ? A1 _]; subst. unfold is_lower, is_digit in *. destruct Hg; cbn [app stop]; split; unfold is_digit; try lia; auto.
    + unfold u. rewrite El. rewrite El in Al. inversion Al as [|? ? A1 _]; subst. unfold is_lower in *. destruct Hg; cbn [app]; lia.
    + now rewrite app_nil_r.
    + assert (Et : p_local p = None /\ t = []).
      { destruct (p_local p) as [k|]; [|auto]. destruct Q as [d1 [w1 [_ [-> _]]]]. exfalso. apply (Nc 43%N u Cu eq_refl). rewrite E3, !in_app_iff. right. left. now left. }
      destruct Et as [El2 ->]. cbn [app] in E3. rewrite app_nil_r in E3. subst m.
      assert (M2 : Mark false p u).
      { destruct M as [x [y [z [Ex [Hx [Hy Hz]]]]]]. exists x, y, z. split; auto. rewrite Ex, all_app in Up. destruct Up as [_ Up]. rewrite !all_app in Up. destruct Up as [Ux [Uy Uz]].
        split; [|split].
        - destruct (p_pre p); cbn in *; auto. now apply marker_case.
        - destruct (p_post p) as [o|]; cbn in *; auto. destruct Hy as [Hy|Hy]; [left; auto|right; now apply marker_case].
        - destruct (p_dev p); cbn in *; auto. now apply marker_case. }
      unfold version_of. rewrite E1, E2, El2. unfold u in M2. apply mark_unique in M2; auto.
      cbn [option_map].
      assert (X : forall b (o : option (str * option str)), option_map (fun q => (fst q, number (snd q))) o = Some b -> option_map (fun q => (pre_letter (fst q), number (snd q))) o = Some (pre_letter (fst b), snd b)).
      { intros b [q|]; cbn; [|discriminate]. intros E. injection E as <-. auto. }
      destruct M2 as [[I [H1 [H2 H3]]]|[[I [H1 [H2 H3]]]|[I [H1 [H2 H3]]]]]; rewrite ?H1, ?H2, ?H3; try rewrite (X _ _ H1); cbn [fst snd option_map];
        (destruct Hs as [w Hw2|w Hw2|w Hw2|w Hw2|]; [cbn [In] in Hw2..|]; cbn [In pre_words] in I;
         [intuition (subst; (reflexivity || discriminate))..|try reflexivity; exfalso; intuition discriminate]).
Qed.
Print Assumptions C61_marker_partial.
(** "12.1beta3" and "12.1.post" *)
Example C61_marker_example : parse_lenient_version false (letters "12.1beta3") = Parsed (mkVersion 0 [12; 1] (Some (1, 3)) None None None)%N /\
  parse_lenient_version false (letters "12.1.post") = Parsed (mkVersion 0 [12; 1] None (Some 0) None None)%N.
Proof.
  assert (D : dotted (letters "12.1") [12; 1]%N).
  { apply (dotted_more (letters "12") 12 (letters "1") [1%N]).
    - apply (denotes_snoc [49%N] 1 2); [|lia]. apply (denotes_one 1). lia.
    - apply dotted_one, (denotes_one 1). lia. }
  split.
  - apply (C61_marker_partial (letters "12.1") [12; 1]%N [] "beta" [51%N] 3); auto; [constructor|apply stage_beta; cbn; auto|].
    apply counted_some, (denotes_one 3). lia.
  - apply (C61_marker_partial (letters "12.1") [12; 1]%N [46%N] "post" [] 0); auto; [constructor|apply stage_post; cbn; auto|constructor].
Qed.
