(** Which of the matches of a release with a suffix there are. *)
From Coq Require Import Ascii String List NArith Bool Arith Lia ZifyBool ZifyN ZifyNat.
From Verif Require Import Base ModelVersion ModelOptions ModelVersionText SpecVersion VersionTextFacts.
Import ListNotations.
Open Scope list_scope.
Open Scope nat_scope.

Lemma is_digit_spec : forall c, is_digit c = true <-> digit c.
Proof. intros c. unfold is_digit, digit. lia. Qed.
Lemma is_sep_spec : forall c, is_sep c = true <-> separator c.
Proof. intros c. unfold is_sep, separator. lia. Qed.
Lemma all_digits : forall t, all is_digit t <-> Forall digit t.
Proof. intros t. unfold all. split; intros H; (eapply Forall_impl; [|exact H]); intros c; apply is_digit_spec. Qed.

(** ** Markers *)
Definition SepL (a : str) : Prop := Opt (fun c t => t = [c] /\ is_sep c = true) (hd_error a) a.
Lemma sep_iff : forall a, SepL a <-> maybe_separator a.
Proof.
  intros a. unfold SepL, maybe_separator. destruct a as [|c a]; cbn; [tauto|]. rewrite is_sep_spec. split.
  - intros [H Hc]. injection H as ->. right. eauto.
  - intros [H|[d [Hd H]]]; [discriminate|]. injection H as -> ->. auto.
Qed.
Lemma map_fold_false : forall w, map (fold_case false) w = w.
Proof. intros w. unfold fold_case. apply map_id. Qed.
Lemma marker_marked : forall ws t, (exists q, Marker false ws q t) <-> marked ws t.
Proof.
  intros ws t. split.
  - intros [[w n] [a [b [n0 [-> [Ha [[v [Hv E]] [Hb Hn]]]]]]]]. cbn [fst snd] in *. rewrite map_fold_false in E. subst w.
    exists a, v, b, n0. split; auto. split; [now apply sep_iff|]. split; auto. split; [now apply sep_iff|].
    unfold maybe_number. destruct n as [d|]; cbn in Hn; [|subst; constructor]. destruct Hn as [-> [_ H]]. now apply all_digits.
  - intros [a [w [b [n [-> [Ha [Hw [Hb Hn]]]]]]]]. exists (letters w, match n with [] => None | _ => Some n end), a, b, n.
    cbn [fst snd]. split; auto. split; [now apply sep_iff|]. split; [exists w; split; auto; apply map_fold_false|]. split; [now apply sep_iff|].
    destruct n as [|d n]; cbn; auto. split; auto. split; [discriminate|]. now apply all_digits.
Qed.
Definition Mark (ic : bool) (p : parts) (t : str) : Prop := exists a b c, t = a ++ b ++ c /\
  Opt (Marker ic pre_words) (p_pre p) a /\ Opt (Post ic) (p_post p) b /\ Opt (Marker ic ["dev"]%string) (p_dev p) c.
Lemma mark_release_marker : forall p t, Mark false p t -> release_marker t.
Proof.
  intros p t [a [b [c [-> [Ha [Hb Hc]]]]]]. exists a, b, c. split; auto. split; [|split].
  - destruct (p_pre p) as [q|]; [right|left; auto]. cbn in Ha. assert (M : marked pre_words a) by (apply marker_marked; eauto).
    destruct M as [x [w [y [n [E [Hx [Hw H]]]]]]]. exists x, w, y, n. split; auto. split; auto. split; auto.
    cbn in Hw |- *. tauto.
  - destruct (p_post p) as [q|]; [right|left; auto]. cbn in Hb. destruct Hb as [[n [-> [_ [Ne Hn]]]]|Hb].
    + right. exists n. split; auto. split; auto. now apply all_digits.
    + left. apply marker_marked. eauto.
  - destruct (p_dev p) as [q|]; [right|left; auto]. apply marker_marked. cbn in Hc. eauto.
Qed.
Lemma release_marker_mark : forall t, release_marker t -> exists p, Mark false p t.
Proof.
  intros t [a [b [c [-> [Ha [Hb Hc]]]]]].
  assert (A1 : exists o, Opt (Marker false pre_words) o a).
  { destruct Ha as [->|Ha]; [exists None; reflexivity|].
    assert (M : marked pre_words a).
    { destruct Ha as [x [w [y [n [E [Hx [Hw H]]]]]]]. exists x, w, y, n. split; auto. split; auto. split; auto. cbn in Hw |- *. tauto. }
    apply marker_marked in M as [q Hq]. exists (Some q). exact Hq. }
  assert (B1 : exists o, Opt (Post false) o b).
  { destruct Hb as [->|[Hb|[d [-> [Ne Hd]]]]]; [exists None; reflexivity| |].
    - apply marker_marked in Hb as [q Hq]. exists (Some q). right. exact Hq.
    - exists (Some ([], Some d)). left. exists d. split; auto. split; auto. split; auto. now apply all_digits. }
  assert (C1 : exists o, Opt (Marker false ["dev"]%string) o c).
  { destruct Hc as [->|Hc]; [exists None; reflexivity|]. apply marker_marked in Hc as [q Hq]. exists (Some q). exact Hq. }
  destruct A1 as [oa A1], B1 as [ob B1], C1 as [oc C1]. exists (mkParts None [] oa ob oc None), a, b, c. auto.
Qed.

(** The characters of a marker, and how it starts *)
Definition mark_char (ic : bool) (c : N) : bool := is_digit c || is_sep c || is_lower (fold_case ic c).
Definition all_words : list string := pre_words ++ ["post"; "rev"; "r"; "dev"]%string.
Lemma letters_lower : forall w, In w all_words -> exists c l, letters w = c :: l /\ all is_lower (letters w).
Proof.
  intros w H. cbn in H. repeat (destruct H as [<-|H]; [cbn; do 2 eexists; split; [reflexivity|]; repeat (constructor; [reflexivity|]); constructor|]). destruct H.
Qed.
Lemma word_chars : forall ic c w, map (fold_case ic) c = letters w -> In w all_words ->
  exists x y, c = x :: y /\ is_lower (fold_case ic x) = true /\ all (fun c => is_lower (fold_case ic c)) c.
Proof.
  intros ic c w E H. destruct (letters_lower w H) as [x [l [E2 F]]]. rewrite <- E in *. destruct c as [|y c]; [discriminate|].
  assert (A1 : all (fun c => is_lower (fold_case ic c)) (y :: c)).
  { clear -F. unfold all in *. induction (y :: c) as [|z r IH]; constructor; cbn in F; inversion F; auto. }
  exists y, c. split; auto. split; auto. inversion A1; auto.
Qed.
Lemma lower_not_digit : forall ic c, is_lower (fold_case ic c) = true -> is_digit c = false /\ is_sep c = false.
Proof.
  intros [|] c; unfold is_lower, fold_case, lower, is_upper, is_digit, is_sep; [destruct ((65 <=? c) && (c <=? 90))%N eqn:E|]; lia.
Qed.
(** Where the digits and dots of a release end *)
Definition stop (t : str) : Prop := match t with
  | [] => True
  | c :: r => is_digit c = false /\ (c = 46%N -> match r with [] => True | d :: _ => is_digit d = false end) end.
Definition starts (t : str) : Prop := match t with
  | [] => False
  | c :: r => is_digit c = false /\ (c = 46%N -> match r with [] => False | d :: _ => is_digit d = false end) end.
Lemma starts_app : forall a b, starts a -> starts (a ++ b).
Proof. intros [|c [|d a]] b; cbn; tauto. Qed.
Lemma starts_stop : forall a, starts a -> stop a.
Proof. intros [|c [|d a]]; cbn; tauto. Qed.
Lemma marker_starts : forall ic ws q t, incl ws all_words -> Marker ic ws q t ->
  starts t /\ all (mark_char ic) t.
Proof.
  intros ic ws [w n] t I1 [a [b [n0 [-> [Ha [[v [Hv E]] [Hb Hn]]]]]]]. cbn [fst snd] in *.
  destruct (word_chars ic w v E (I1 _ Hv)) as [x [y [-> [Hx F]]]].
  destruct (lower_not_digit ic x Hx) as [N1 N2]. split.
  - destruct a as [|c a]; cbn in Ha.
    + cbn. split; auto. intros ->. discriminate.
    + destruct Ha as [Ea Hs]. injection Ea as ->. cbn. split; auto.
      unfold is_sep, is_digit in *. lia.
  - unfold all, mark_char. rewrite !Forall_app.
    assert (Sp : forall a, SepL a -> Forall (fun c => is_digit c || is_sep c || is_lower (fold_case ic c) = true) a).
    { intros [|c r] H; [constructor|]. unfold SepL in H. cbn in H. destruct H as [H Hc]. injection H as ->. constructor; [|constructor].
      rewrite Hc. now rewrite orb_true_r. }
    split; [apply Sp, Ha|]. split; [|split; [apply Sp, Hb|]].
    + eapply Forall_impl; [|exact F]. cbn. intros c ->. now rewrite orb_true_r.
    + destruct n as [d|]; cbn in Hn; [|subst; constructor]. destruct Hn as [-> [_ Hd]]. eapply Forall_impl; [|exact Hd]. cbn. intros c ->. reflexivity.
Qed.
Lemma post_starts : forall ic q t, Post ic q t -> starts t /\ all (mark_char ic) t.
Proof.
  intros ic q t [[n [-> [_ [_ H]]]]|H].
  - split; [cbn; split; auto; discriminate|]. constructor; [reflexivity|]. eapply Forall_impl; [|exact H]. cbn. unfold mark_char. intros c ->. reflexivity.
  - eapply marker_starts; [|exact H]. intros w Hw. cbn in Hw |- *. tauto.
Qed.
Lemma opt_starts : forall A (L : A -> str -> Prop) (C : str -> Prop) o t, (forall x t, L x t -> starts t /\ C t) -> C [] -> Opt L o t ->
  C t /\ (o = None /\ t = [] \/ starts t).
Proof. intros A L C [x|] t H Cn Ho; cbn in Ho; [destruct (H _ _ Ho); auto|subst; auto]. Qed.
Lemma mark_starts : forall ic p t, Mark ic p t -> all (mark_char ic) t /\
  (t = [] /\ p_pre p = None /\ p_post p = None /\ p_dev p = None \/ starts t).
Proof.
  intros ic p t [a [b [c [-> [Ha [Hb Hc]]]]]].
  apply (opt_starts _ _ (all (mark_char ic))) in Ha; [|intros q x; apply marker_starts; intros w Hw; cbn in Hw |- *; tauto|constructor].
  apply (opt_starts _ _ (all (mark_char ic))) in Hb; [|intros q x; apply post_starts|constructor].
  apply (opt_starts _ _ (all (mark_char ic))) in Hc; [|intros q x; apply marker_starts; intros w Hw; cbn in Hw |- *; tauto|constructor].
  destruct Ha as [A1 A2], Hb as [B1 B2], Hc as [C1 C2]. split.
  { unfold all in *. rewrite !Forall_app. auto. }
  destruct A2 as [[Ea ->]|A2]; [|right; now apply starts_app]. cbn [app].
  destruct B2 as [[Eb ->]|B2]; [|right; now apply starts_app]. cbn [app].
  destruct C2 as [[Ec ->]|C2]; auto.
Qed.

(** ** Splitting *)
Lemma split_run : forall (f : N -> bool) d e u v, all f d -> all f e -> d ++ u = e ++ v ->
  match u with c :: _ => f c = false | [] => True end -> match v with c :: _ => f c = false | [] => True end -> d = e /\ u = v.
Proof.
  intros f. induction d as [|x d IH]; intros [|y e] u v Hd He E Hu Hv; cbn in E.
  - auto.
  - subst u. inversion He; subst. congruence.
  - subst v. inversion Hd; subst. congruence.
  - injection E as <- E. inversion Hd; inversion He; subst. apply IH in E as [-> ->]; auto.
Qed.
Definition numeral (d : str) : Prop := d <> [] /\ all is_digit d.
Lemma dots_not_digit : forall r u, stop u -> match dots r ++ u with c :: _ => is_digit c = false | [] => True end.
Proof. intros [|d r] [|c u] H; cbn; auto. apply H. Qed.
Lemma dots_split : forall r r' u v, Forall numeral r -> Forall numeral r' -> stop u -> stop v -> dots r ++ u = dots r' ++ v -> r = r' /\ u = v.
Proof.
  induction r as [|d r IH]; intros [|e r'] u v F G Su Sv E; cbn in E.
  - auto.
  - subst u. inversion G as [|? ? [Ne He] _]; subst. cbn in Su. destruct Su as [_ Su]. specialize (Su eq_refl).
    destruct e as [|y e]; [congruence|]. cbn in Su. inversion He; subst. congruence.
  - subst v. inversion F as [|? ? [Ne He] _]; subst. cbn in Sv. destruct Sv as [_ Sv]. specialize (Sv eq_refl).
    destruct d as [|y d]; [congruence|]. cbn in Sv. inversion He; subst. congruence.
  - injection E as E. inversion F as [|? ? [_ Hd] F2]; inversion G as [|? ? [_ He] G2]; subst.
    rewrite <- !app_assoc in E. apply (split_run is_digit) in E as [-> E]; try solve [auto | apply dots_not_digit; assumption].
    apply IH in E as [-> ->]; auto.
Qed.
Definition text (l : list str) : str := match l with [] => [] | d :: r => d ++ dots r end.
Lemma release_split : forall l l' t u v, Forall numeral l -> l <> [] -> Release l' t -> stop u -> stop v -> text l ++ u = t ++ v -> l = l' /\ u = v.
Proof.
  intros [|d r] l' t u v F Ne [d' [r' [-> [-> G]]]] Su Sv E; [congruence|]. cbn [text] in E. rewrite <- !app_assoc in E.
  inversion F as [|? ? [_ Hd] F2]; inversion G as [|? ? [_ He] G2]; subst.
  apply (split_run is_digit) in E as [-> E]; try solve [auto | apply dots_not_digit; assumption]. apply dots_split in E as [-> ->]; auto.
Qed.
(** The matches of a release followed by something else *)
Lemma version_release : forall ic p t l u z, Forall numeral l -> l <> [] -> Version ic p t -> stop u -> stop z ->
  match u with c :: _ => c <> 33%N | [] => True end -> text l ++ u = t ++ z ->
  p_epoch p = None /\ p_release p = l /\ exists m q, u = m ++ q ++ z /\ Mark ic p m /\ Opt (Local ic) (p_local p) q.
Proof.
  intros ic p t l u z F Ne [v [e [r [a [b [c [q [-> [Hv [He [Hr [Ha [Hb [Hc Hq]]]]]]]]]]]]]] Su Sz Hu E.
  assert (Hl : exists x y, l = x :: y /\ numeral x) by (destruct l as [|x y]; [congruence|]; inversion F; eauto).
  destruct Hl as [x [y [-> [Nx Hx]]]]. destruct x as [|x0 x]; [congruence|].
  assert (v = []) as ->.
  { destruct Hv as [->|[k [-> Hk]]]; auto. cbn in E. injection E as -> _. inversion Hx; subst.
    unfold fold_case, lower, is_upper, is_digit in *. destruct ic; [destruct ((65 <=? k) && (k <=? 90))%N eqn:E2|]; lia. }
  cbn [app] in E.
  assert (p_epoch p = None /\ e = []) as [Ep ->].
  { destruct (p_epoch p) as [n|]; cbn in He; auto. exfalso. destruct He as [-> [Nn Hn]]. cbn [text] in E. rewrite <- !app_assoc in E.
    apply (split_run is_digit) in E as [<- E]; try solve [auto | apply dots_not_digit; assumption | cbn; auto].
    destruct y as [|d y]; cbn in E; [subst u; congruence|discriminate]. }
  cbn [app] in E. split; auto. rewrite <- app_assoc in E.
  assert (M : Mark ic p (a ++ b ++ c)) by (exists a, b, c; auto).
  assert (Eq : (a ++ b ++ c ++ q) ++ z = (a ++ b ++ c) ++ q ++ z) by (now rewrite <- !app_assoc). rewrite Eq in E.
  apply (release_split _ _ _ _ _ F Ne Hr) in E as [-> ->]; auto.
  - split; auto. exists (a ++ b ++ c), q. auto.
  - destruct (mark_starts _ _ _ M) as [_ [[-> _]|St]]; [|apply starts_stop, starts_app, St]. cbn [app].
    destruct (p_local p) as [k|]; cbn in Hq; [|subst; auto]. destruct Hq as [d [w [_ [-> _]]]]. cbn. split; auto. discriminate.
Qed.
Lemma version_of_release : forall ic l, Forall numeral l -> l <> [] -> Version ic (mkParts None l None None None None) (text l).
Proof.
  intros ic l F Ne. exists [], [], (text l), [], [], [], []. rewrite !app_nil_r. split; auto. split; auto. split; [reflexivity|].
  split; [|repeat split; reflexivity]. destruct l as [|d r]; [congruence|]. exists d, r. auto.
Qed.
Lemma version_of_local : forall ic l k q, Forall numeral l -> l <> [] -> Local ic k q -> Version ic (mkParts None l None None None (Some k)) (text l ++ q).
Proof.
  intros ic l k q F Ne Hq. exists [], [], (text l), [], [], [], q. split; auto. split; auto. split; [reflexivity|].
  split; [|repeat split; try reflexivity; exact Hq]. destruct l as [|d r]; [congruence|]. exists d, r. auto.
Qed.

(** ** Local versions *)
Lemma joined_split : forall ic r d r' d', d ++ joined r = d' ++ joined r' ->
  Forall (fun d => d <> [] /\ all (alnum ic) d) (d :: map snd r) -> Forall (fun d => d <> [] /\ all (alnum ic) d) (d' :: map snd r') ->
  all is_sep (map fst r) -> all is_sep (map fst r') -> d = d' /\ r = r'.
Proof.
  intros ic. assert (Sa : forall c, is_sep c = true -> alnum ic c = false).
  { intros c H. unfold alnum. destruct (is_lower (fold_case ic c)) eqn:E; [destruct (lower_not_digit ic c E); congruence|].
    unfold is_sep, is_digit in *. lia. }
  assert (Hj : forall r, all is_sep (map fst r) -> match joined r with c :: _ => alnum ic c = false | [] => True end).
  { intros [|[c d] r] H; cbn; auto. inversion H; subst. auto. }
  induction r as [|[c x] r IH]; intros d [|[c' x'] r'] d' E F G Hr Hr'; cbn [map fst snd] in *.
  - apply (split_run (alnum ic)) in E as [-> _]; try solve [inversion F as [|? ? [_ H] _]; exact H | inversion G as [|? ? [_ H] _]; exact H | exact I | exact (Hj _ Hr) | exact (Hj _ Hr')]. auto.
  - apply (split_run (alnum ic)) in E as [-> E]; try solve [inversion F as [|? ? [_ H] _]; exact H | inversion G as [|? ? [_ H] _]; exact H | exact I | exact (Hj _ Hr) | exact (Hj _ Hr') | exact (Hj ((c', x') :: r') Hr')]. discriminate.
  - apply (split_run (alnum ic)) in E as [-> E]; try solve [inversion F as [|? ? [_ H] _]; exact H | inversion G as [|? ? [_ H] _]; exact H | exact I | exact (Hj _ Hr) | exact (Hj _ Hr') | exact (Hj ((c, x) :: r) Hr)]. discriminate.
  - apply (split_run (alnum ic)) in E as [-> E]; try solve [inversion F as [|? ? [_ H] _]; exact H | inversion G as [|? ? [_ H] _]; exact H | exact I | exact (Hj _ Hr) | exact (Hj _ Hr') | exact (Hj ((c, x) :: r) Hr) | exact (Hj ((c', x') :: r') Hr')].
    cbn [joined] in E. injection E as <- E. inversion F; inversion G; inversion Hr; inversion Hr'; subst.
    apply IH in E as [-> ->]; auto.
Qed.
Lemma denotes_value : forall d n, denotes d n -> value d = n /\ numeral d.
Proof.
  unfold value, numeral, all. induction 1 as [i Hi|d n i _ [IH [Ne F]] Hi].
  - cbn [fold_left]. split; [lia|]. split; [discriminate|]. constructor; [unfold is_digit; lia|constructor].
  - rewrite fold_left_app. cbn [fold_left]. rewrite IH. split; [lia|]. split; [now destruct d|]. apply Forall_app. split; auto.
    constructor; [unfold is_digit; lia|constructor].
Qed.
Lemma dotted_text : forall s ns, dotted s ns -> exists l, s = text l /\ ns = map value l /\ Forall numeral l /\ l <> [].
Proof.
  induction 1 as [d n H|d n s ns H _ [l [-> [-> [F Ne]]]]]; apply denotes_value in H as [<- Hd].
  - exists [d]. cbn [text dots map]. rewrite app_nil_r. repeat split; auto. discriminate.
  - exists (d :: l). destruct l as [|e l]; [congruence|]. cbn. repeat split; auto. discriminate.
Qed.
Lemma alnum_true : forall c, alnum true c = true <-> letter_or_digit c.
Proof.
  intros c. unfold alnum, fold_case, lower, is_upper, is_lower, is_digit, letter_or_digit, digit, upper_letter.
  destruct ((65 <=? c) && (c <=? 90))%N eqn:E; lia.
Qed.
Lemma segment_spec : forall s x, is_segment s x -> x = segment s /\ s <> [] /\ all (alnum true) s.
Proof.
  intros s x [n H|t Ne F Nd L].
  - apply denotes_value in H as [<- [Ne H]]. unfold segment. assert (forallb is_digit s = true) as ->.
    { apply forallb_forall. apply Forall_forall. exact H. }
    split; auto. split; auto. eapply Forall_impl; [|exact H]. cbn. intros c Hc. unfold alnum. now rewrite Hc.
  - unfold segment. destruct (forallb is_digit s) eqn:E.
    + exfalso. apply Nd, all_digits, Forall_forall. now apply forallb_forall.
    + split; [|split; auto; eapply Forall_impl; [|exact F]; intros c; apply alnum_true]. f_equal.
      clear -L. induction L as [|c d s t H _ IH]; cbn; auto. rewrite IH. f_equal.
      unfold lower_case, upper_letter, lower, is_upper in *. destruct ((65 <=? c) && (c <=? 90))%N eqn:E; lia.
Qed.
Lemma segments_joined : forall s l, segments s l -> exists d r, s = d ++ joined r /\ l = map segment (d :: map snd r) /\
  Forall (fun d => d <> [] /\ all (alnum true) d) (d :: map snd r) /\ all is_sep (map fst r).
Proof.
  induction 1 as [s x H|s x c r l H Hc _ [d [q [-> [-> [F Hq]]]]]]; apply segment_spec in H as [-> H].
  - exists s, []. cbn. rewrite app_nil_r. repeat split; auto. constructor.
  - exists s, ((c, d) :: q). cbn [joined map fst snd]. repeat split; auto. constructor; auto. now apply is_sep_spec.
Qed.
Lemma joined_chars : forall r, Forall (fun d => d <> [] /\ all (alnum true) d) (map snd r) -> all is_sep (map fst r) ->
  all (fun c => alnum true c || is_sep c) (joined r).
Proof.
  unfold all. induction r as [|[c d] r IH]; intros F S1; [constructor|]. cbn [map fst snd joined] in *. inversion F as [|? ? [_ Hd] F2]; inversion S1 as [|? ? Hc1 S2]; subst.
  constructor; [rewrite Hc1; apply orb_true_r|]. apply Forall_app. split; auto. eapply Forall_impl; [|exact Hd]. cbn. intros x ->. reflexivity.
Qed.
Lemma segments_chars : forall s l, segments s l -> s <> [] /\ all (fun c => alnum true c || is_sep c) s.
Proof.
  intros s l H. apply segments_joined in H as [d [r [-> [_ [F Hr]]]]]. inversion F as [|? ? [Ne Hd] F2]; subst. split; [now destruct d|].
  unfold all. apply Forall_app. split; [|now apply joined_chars]. eapply Forall_impl; [|exact Hd]. cbn. intros x ->. reflexivity.
Qed.
Lemma suffix_char : forall c, alnum true c || is_sep c = true -> space_char c = false /\ c <> 43%N /\ c <> 33%N /\ c <> 10%N.
Proof.
  intros c. unfold alnum, fold_case, lower, is_upper, is_lower, is_digit, is_sep, space_char.
  destruct ((65 <=? c) && (c <=? 90))%N eqn:E; lia.
Qed.
Lemma text_chars : forall l, Forall numeral l -> all (fun c => is_digit c || (c =? 46)%N) (text l).
Proof.
  unfold all. assert (D : forall r, Forall numeral r -> Forall (fun c => is_digit c || (c =? 46)%N = true) (dots r)).
  { induction 1 as [|d r [_ H] _ IH]; cbn; [constructor|]. constructor; [reflexivity|]. apply Forall_app. split; auto. eapply Forall_impl; [|exact H]. cbn. intros c ->. auto. }
  intros [|d r] F; cbn; [constructor|]. inversion F as [|? ? [_ H] F2]; subst. apply Forall_app. split; auto. eapply Forall_impl; [|exact H]. cbn. intros c ->. auto.
Qed.
