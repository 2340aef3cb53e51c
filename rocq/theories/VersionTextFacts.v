(** The texts that the patterns of [ModelVersionText] match. *)
From Coq Require Import Ascii String List NArith Bool Arith Lia ZifyBool ZifyN ZifyNat.
From Verif Require Import Base ModelVersion ModelOptions ModelVersionText.
Import ListNotations.
Open Scope list_scope.
Open Scope nat_scope.

(** [p] matches exactly the texts [t] with [S x t]. *)
Definition matches {A} (p : P A) (L : A -> str -> Prop) : Prop :=
  forall s x r, In (x, r) (p s) <-> exists t, s = t ++ r /\ L x t.

Lemma m_ext : forall A (p : P A) (L M : A -> str -> Prop), (forall x t, L x t <-> M x t) -> matches p L -> matches p M.
Proof.
  intros A p L M E H s x r. rewrite (H s x r). split; intros [t [Et Ht]]; exists t; split; auto; apply E; auto.
Qed.
Lemma m_ret : forall A (x : A), matches (pret x) (fun y t => y = x /\ t = []).
Proof.
  intros A x s y r. unfold pret. cbn [In]. split.
  - intros [H|[]]. injection H as <- <-. exists []. auto.
  - intros [t [-> [-> ->]]]. left. reflexivity.
Qed.
Lemma m_bind : forall A B (p : P A) (f : A -> P B) (L : A -> str -> Prop) (M : A -> B -> str -> Prop),
  matches p L -> (forall x, matches (f x) (M x)) ->
  matches (pbind p f) (fun y t => exists x a b, t = a ++ b /\ L x a /\ M x y b).
Proof.
  intros A B p f L M Hp Hf s y r. unfold pbind. rewrite in_flat_map. split.
  - intros [[x q] [H1 H2]]. cbn [fst snd] in H2. apply Hp in H1 as [a [-> La]]. apply Hf in H2 as [b [-> Mb]].
    exists (a ++ b). split; [now rewrite app_assoc|]. exists x, a, b. auto.
  - intros [t [-> [x [a [b [-> [La Mb]]]]]]]. exists (x, b ++ r). split.
    + apply Hp. exists a. rewrite <- app_assoc. auto.
    + cbn [fst snd]. apply Hf. exists b. auto.
Qed.
Lemma m_alt : forall A (p q : P A) (L M : A -> str -> Prop), matches p L -> matches q M -> matches (alt p q) (fun x t => L x t \/ M x t).
Proof.
  intros A p q L M Hp Hq s x r. unfold alt. rewrite in_app_iff, (Hp s x r), (Hq s x r). split.
  - intros [[t [E H]]|[t [E H]]]; exists t; auto.
  - intros [t [E [H|H]]]; [left|right]; exists t; auto.
Qed.
Lemma m_one : forall f, matches (one_of f) (fun c t => t = [c] /\ f c = true).
Proof.
  intros f s x r. destruct s as [|c s]; cbn [one_of].
  - split; [intros []|]. intros [t [E [-> _]]]. discriminate.
  - destruct (f c) eqn:F; cbn [In].
    + split.
      * intros [H|[]]. injection H as <- <-. exists [c]. auto.
      * intros [t [E [-> _]]]. injection E as <- <-. auto.
    + split; [intros []|]. intros [t [E [-> H]]]. injection E as <- <-. congruence.
Qed.
Lemma m_none : forall A, matches (fun _ => [] : list (A * str)) (fun _ _ => False).
Proof. intros A s x r. cbn. split; [intros []|intros [t [_ []]]]. Qed.
Lemma m_opt : forall A (p : P A) (L : A -> str -> Prop), matches p L ->
  matches (opt false p) (fun o t => match o with Some x => L x t | None => t = [] end).
Proof.
  intros A p L Hp s o r. unfold opt. rewrite in_app_iff, in_map_iff. cbn [In]. split.
  - intros [[[x q] [E H]]|[E|[]]].
    + cbn [fst snd] in E. injection E as <- <-. apply Hp. exact H.
    + injection E as <- <-. exists []. auto.
  - destruct o as [x|]; intros [t [-> H]].
    + left. exists (x, r). split; auto. apply Hp. exists t. auto.
    + right. left. subst. reflexivity.
Qed.
(** The concatenation of matches *)
Inductive many {A} (L : A -> str -> Prop) : list A -> str -> Prop :=
| many_nil : many L [] []
| many_cons : forall x l a b, L x a -> many L l b -> many L (x :: l) (a ++ b).
Lemma repeat_matches : forall A (p : P A) (L : A -> str -> Prop), matches p L -> (forall x t, L x t -> t <> []) ->
  forall n s l r, List.length s <= n -> In (l, r) (repeat_ n p s) <-> exists t, s = t ++ r /\ many L l t.
Proof.
  intros A p L Hp Ne. induction n as [|n IH]; intros s l r Hl; cbn [repeat_].
  - destruct s; cbn in Hl; [|lia]. cbn [pret In]. split.
    + intros [H|[]]. injection H as <- <-. exists []. split; auto. constructor.
    + intros [t [E M]]. destruct t; [|discriminate]. destruct r; [|discriminate]. left. inversion M; subst; auto.
      exfalso. apply (Ne x a); auto. destruct a; auto; discriminate.
  - rewrite in_app_iff, in_flat_map. cbn [In]. split.
    + intros [[[x q] [H1 H2]]|[H|[]]].
      * cbn [fst snd] in H2. apply Hp in H1 as [a [-> La]]. apply in_map_iff in H2 as [[l' r'] [E H2]]. injection E as <- <-.
        apply IH in H2 as [b [-> Mb]].
        -- exists (a ++ b). rewrite app_assoc. split; auto. constructor; auto.
        -- rewrite app_length in Hl. pose proof (Ne x a La). destruct a; [congruence|]. cbn in Hl. lia.
      * injection H as <- <-. exists []. split; auto. constructor.
    + intros [t [-> M]]. inversion M as [|x l' a b La Mb]; subst; [right; auto|left].
      exists (x, b ++ r). split; [apply Hp; exists a; rewrite <- app_assoc; auto|].
      cbn [fst snd]. apply in_map_iff. exists (l', r). split; auto. apply IH.
      * rewrite !app_length in *. pose proof (Ne x a La). destruct a; [congruence|]. cbn in Hl. lia.
      * exists b. auto.
Qed.
Lemma m_star : forall A (p : P A) (L : A -> str -> Prop), matches p L -> (forall x t, L x t -> t <> []) ->
  matches (star false p) (many L).
Proof. intros A p L Hp Ne s l r. unfold star. apply repeat_matches; auto. Qed.
Lemma many_chars : forall f l t, many (fun c t => t = [c] /\ f c = true) l t <-> t = l /\ Forall (fun c => f c = true) l.
Proof.
  intros f l t. split.
  - induction 1 as [|x l a b [-> H] _ [-> IH]]; auto.
  - intros [-> H]. induction H as [|c l H _ IH]; [constructor|]. change (c :: l) with ([c] ++ l) at 2. constructor; auto.
Qed.
Lemma m_star_chars : forall f, matches (star false (one_of f)) (fun l t => t = l /\ Forall (fun c => f c = true) l).
Proof.
  intros f. eapply m_ext; [apply many_chars|]. apply m_star; [apply m_one|]. intros x t [-> _]. discriminate.
Qed.
Lemma m_plus_chars : forall f, matches (plus (one_of f)) (fun l t => t = l /\ l <> [] /\ Forall (fun c => f c = true) l).
Proof.
  intros f. unfold plus. eapply m_ext; [|apply m_bind; [apply m_one|intros x; apply m_bind; [apply m_star_chars|intros l; apply m_ret]]].
  intros l t. cbn beta. split.
  - intros [x [a [b [-> [[-> Hx] [l' [a1 [b' [-> [[-> Hl] [-> ->]]]]]]]]]]]. rewrite app_nil_r. split; auto. split; [discriminate|].
    constructor; auto.
  - intros [-> [Ne H]]. destruct l as [|x l]; [congruence|]. inversion H; subst. exists x, [x], l. split; auto. split; auto.
    exists l, l, []. rewrite app_nil_r. auto.
Qed.
Lemma m_word : forall ic w, matches (word ic w) (fun c t => t = c /\ map (fold_case ic) c = w).
Proof.
  intros ic. induction w as [|x w IH]; cbn [word].
  - eapply m_ext; [|apply m_ret]. intros c t. cbn beta. split.
    + intros [-> ->]. auto.
    + intros [-> H]. destruct c; [auto|discriminate].
  - eapply m_ext; [|apply m_bind; [apply m_one|intros c; apply m_bind; [apply IH|intros r; apply m_ret]]].
    intros c t. cbn beta. split.
    + intros [y [a [b [-> [[-> H] [r [a1 [b' [-> [[-> Hr] [-> ->]]]]]]]]]]]. rewrite app_nil_r. cbn. split; auto.
      apply N.eqb_eq in H. congruence.
    + intros [-> H]. destruct c as [|y c]; [discriminate|]. cbn in H. injection H as H1 H2.
      exists y, [y], c. split; auto. split; [split; auto; now apply N.eqb_eq|]. exists c, c, []. rewrite app_nil_r. auto.
Qed.
Lemma m_words : forall ic ws, matches (words ic ws) (fun c t => t = c /\ exists w, In w ws /\ map (fold_case ic) c = letters w).
Proof.
  intros ic. induction ws as [|w ws IH]; cbn [words].
  - eapply m_ext; [|apply m_none]. intros c t. cbn. split; [intros []|intros [_ [w [[] _]]]].
  - eapply m_ext; [|apply m_alt; [apply m_word|apply IH]]. intros c t. cbn beta. cbn [In]. split.
    + intros [[-> H]|[-> [v [Hv H]]]]; (split; [auto|]); eexists; eauto.
    + intros [-> [v [[->|Hv] H]]]; auto. right. split; auto. eauto.
Qed.

(** ** The pieces of VERSION_PATTERN *)
Definition all (f : N -> bool) (t : str) : Prop := Forall (fun c => f c = true) t.
Definition Digits (x t : str) : Prop := t = x /\ x <> [] /\ all is_digit x.
Lemma m_digits : matches digits Digits. Proof. apply m_plus_chars. Qed.
Definition Opt {A} (L : A -> str -> Prop) (o : option A) (t : str) : Prop := match o with Some x => L x t | None => t = [] end.
Definition Marker (ic : bool) (ws : list string) (q : str * option str) (t : str) : Prop := exists a b n,
  t = a ++ fst q ++ b ++ n /\ Opt (fun c t => t = [c] /\ is_sep c = true) (hd_error a) a /\
  (exists w, In w ws /\ map (fold_case ic) (fst q) = letters w) /\
  Opt (fun c t => t = [c] /\ is_sep c = true) (hd_error b) b /\ Opt Digits (snd q) n.
Lemma opt_hd : forall (f : N -> bool) o t, Opt (fun c t => t = [c] /\ f c = true) o t -> o = hd_error t.
Proof. intros f [c|] t; cbn; [intros [-> _]; auto|intros ->; auto]. Qed.
Lemma m_marker : forall ic post ws, matches (marker false ic post ws) (Marker ic ws).
Proof.
  intros ic post ws. unfold marker. cbn [andb].
  eapply m_ext; [|apply m_bind; [apply m_opt; apply m_one|intros c; apply m_bind; [apply m_words|intros w; apply m_bind;
    [apply m_opt; apply m_one|intros d; apply m_bind; [apply m_opt; apply m_digits|intros n; apply m_ret]]]]].
  intros [w n] t. cbn beta. split.
  - intros [oa [a [b1 [-> [Ha [w' [a1 [b2 [-> [[-> Hw] [ob [b [b3 [-> [Hb [n' [n0 [b4 [-> [Hn [E ->]]]]]]]]]]]]]]]]]]]]].
    injection E as -> ->. exists a, b, n0. cbn [fst snd]. rewrite app_nil_r. split; auto.
    change (Opt (fun c t => t = [c] /\ is_sep c = true) oa a) in Ha. change (Opt (fun c t => t = [c] /\ is_sep c = true) ob b) in Hb.
    rewrite <- (opt_hd _ _ _ Ha), <- (opt_hd _ _ _ Hb). auto.
  - intros [a [b [n0 [-> [Ha [Hw [Hb Hn]]]]]]]. cbn [fst snd] in *.
    exists (hd_error a), a, (w ++ b ++ n0). split; auto. split; [exact Ha|].
    exists w, w, (b ++ n0). split; auto. split; auto. exists (hd_error b), b, n0. split; auto. split; [exact Hb|].
    exists n, n0, []. rewrite app_nil_r. auto.
Qed.
Definition pre_words : list string := ["alpha"; "a"; "beta"; "b"; "preview"; "pre"; "c"; "rc"]%string.
Definition Post (ic : bool) (q : str * option str) (t : str) : Prop :=
  (exists n, t = 45%N :: n /\ q = ([], Some n) /\ n <> [] /\ all is_digit n) \/ Marker ic ["post"; "rev"; "r"]%string q t.
Lemma m_post : forall ic, matches (post false ic) (Post ic).
Proof.
  intros ic. unfold post. eapply m_ext; [|apply m_alt; [apply m_bind; [apply m_one|intros c; apply m_bind; [apply m_digits|intros n; apply m_ret]]|apply m_marker]].
  intros q t. cbn beta. unfold Post. split; (intros [H|H]; [left|right; exact H]).
  - destruct H as [c [a [b [-> [[-> Hc] [n [a' [b' [-> [[-> Hn] [-> ->]]]]]]]]]]]. apply N.eqb_eq in Hc. subst c.
    exists n. rewrite app_nil_r. auto.
  - destruct H as [n [-> [-> [Ne Hn]]]]. exists 45%N, [45%N], n. split; auto. split; auto. exists n, n, []. rewrite app_nil_r.
    split; auto. split; auto. split; auto.
Qed.
(** The numerals of a release and its text *)
Fixpoint dots (l : list str) : str := match l with [] => [] | d :: l => 46%N :: d ++ dots l end.
Definition Release (l : list str) (t : str) : Prop := exists d r, l = d :: r /\ t = d ++ dots r /\ Forall (fun d => d <> [] /\ all is_digit d) l.
Lemma m_release : matches (release_text false) Release.
Proof.
  unfold release_text.
  eapply m_ext; [|apply m_bind; [apply m_digits|intros x; apply m_bind; [apply m_star; [apply m_bind; [apply m_one|intros c; apply m_digits]|]|intros l; apply m_ret]]].
  - intros l t. cbn beta. split.
    + intros [d [a [b [-> [[-> Hd] [r [a' [b' [-> [Hr [-> ->]]]]]]]]]]]. exists d, r. rewrite app_nil_r. split; auto.
      assert (a' = dots r /\ Forall (fun d => d <> [] /\ all is_digit d) r) as [-> F].
      { clear -Hr. induction Hr as [|x l a b [c [p [q [-> [[-> Hc] [-> Hx]]]]]] _ [-> IH]]; auto. apply N.eqb_eq in Hc. subst c.
        split; auto. }
      auto.
    + intros [d [r [-> [-> F]]]]. inversion F as [|x y Hd Hr]; subst. exists d, d, (dots r). split; auto. split; [split; auto|].
      exists r, (dots r), []. rewrite app_nil_r. split; auto. split; auto. clear -Hr.
      induction Hr as [|x l Hx _ IH]; [constructor|]. change (dots (x :: l)) with ((46%N :: x) ++ dots l).
      apply many_cons; auto. exists 46%N, [46%N], x. split; auto. split; auto. split; auto.
  - intros l t [c [a [b [-> [[-> _] _]]]]]. discriminate.
Qed.
Fixpoint joined (l : list (N * str)) : str := match l with [] => [] | (c, d) :: l => c :: d ++ joined l end.
Definition Local (ic : bool) (l : list str) (t : str) : Prop := exists d r, l = d :: map snd r /\ t = 43%N :: d ++ joined r /\
  Forall (fun d => d <> [] /\ all (alnum ic) d) l /\ all is_sep (map fst r).
Lemma m_local : forall ic, matches (local false ic) (Local ic).
Proof.
  intros ic. unfold local, run.
  eapply m_ext; [|apply m_bind; [apply m_one|intros k; apply m_bind; [apply m_plus_chars|intros x; apply m_bind;
    [apply m_star; [apply m_bind; [apply m_one|intros c; apply m_plus_chars]|]|intros l; apply m_ret]]]].
  - intros l t. cbn beta. split.
    + intros [k [a0 [b0 [-> [[-> Hk] [d [a [b [-> [[-> Hd] [r [a' [b' [-> [Hr [-> ->]]]]]]]]]]]]]]]]. apply N.eqb_eq in Hk. subst k.
      assert (exists q, r = map snd q /\ a' = joined q /\ Forall (fun d => d <> [] /\ all (alnum ic) d) r /\ all is_sep (map fst q))
        as [q [-> [-> [F S1]]]].
      { clear -Hr. induction Hr as [|x l a b [c [p [q [-> [[-> Hc] [-> Hx]]]]]] _ [r [-> [-> [F S1]]]]].
        - exists []. repeat split; constructor.
        - exists ((c, x) :: r). split; auto. split; auto. split; [constructor; auto|]. constructor; auto. }
      exists d, q. rewrite app_nil_r. split; auto.
    + intros [d [r [-> [-> [F S1]]]]]. inversion F as [|x y Hd Hr]; subst. exists 43%N, [43%N], (d ++ joined r). split; auto. split; auto.
      exists d, d, (joined r). split; auto. split; [split; auto|].
      exists (map snd r), (joined r), []. rewrite app_nil_r. split; auto. split; auto. clear -Hr S1.
      induction r as [|[c x] r IH]; [constructor|]. cbn [map fst snd] in *. inversion Hr; inversion S1; subst.
      change (joined ((c, x) :: r)) with ((c :: x) ++ joined r).
      apply many_cons; auto. exists c, [c], x. auto.
  - intros l t [c [a [b [-> [[-> _] _]]]]]. discriminate.
Qed.
(** The whole pattern *)
Definition Version (ic : bool) (p : parts) (t : str) : Prop := exists v e r a b c l,
  t = v ++ e ++ r ++ a ++ b ++ c ++ l /\ (v = [] \/ exists x, v = [x] /\ fold_case ic x = 118%N) /\
  Opt (fun n t => t = n ++ [33%N] /\ n <> [] /\ all is_digit n) (p_epoch p) e /\ Release (p_release p) r /\
  Opt (Marker ic pre_words) (p_pre p) a /\ Opt (Post ic) (p_post p) b /\ Opt (Marker ic ["dev"]%string) (p_dev p) c /\
  Opt (Local ic) (p_local p) l.
Lemma m_version : forall ic, matches (version_pattern false ic) (Version ic).
Proof.
  intros ic. unfold version_pattern.
  eapply m_ext; [|apply m_bind; [apply m_opt; apply m_one|intros v; apply m_bind; [apply m_opt; apply m_bind; [apply m_digits|intros n; apply m_bind; [apply m_one|intros x; apply m_ret]]
    |intros e; apply m_bind; [apply m_release|intros r; apply m_bind; [apply m_opt; apply m_marker|intros a; apply m_bind; [apply m_opt; apply m_post
    |intros b; apply m_bind; [apply m_opt; apply m_marker|intros c; apply m_bind; [apply m_opt; apply m_local|intros l; apply m_ret]]]]]]]].
  intros p t. cbn beta. split.
  - intros [ov [v [t1 [-> [Hv [oe [e [t2 [-> [He [l0 [r [t3 [-> [Hr [oa [a [t4 [-> [Ha [ob [b [t5 [-> [Hb [oc [c [t6 [-> [Hc [ol [l [t7 [-> [Hl [-> ->]]]]]]]]]]]]]]]]]]]]]]]]]]]]]]]]]]]].
    rewrite app_nil_r. exists v, e, r, a, b, c, l. split; auto. cbn [p_epoch p_release p_pre p_post p_dev p_local].
    split; [|split; [|repeat split; assumption]].
    + destruct ov as [x|]; [right|left; auto]. destruct Hv as [-> Hx]. exists x. split; auto. now apply N.eqb_eq.
    + destruct oe as [n|]; cbn [Opt]; auto. destruct He as [n' [a1 [b1 [-> [[-> Hn] [x [a2 [b2 [-> [[-> Hx] [-> ->]]]]]]]]]]].
      apply N.eqb_eq in Hx. subst x. auto.
  - intros [v [e [r [a [b [c [l [-> [Hv [He [Hr [Ha [Hb [Hc Hl]]]]]]]]]]]]]].
    exists (hd_error v), v, (e ++ r ++ a ++ b ++ c ++ l). split; auto. split.
    { destruct Hv as [->|[x [-> Hx]]]; cbn; auto. split; auto. now apply N.eqb_eq. }
    exists (p_epoch p), e, (r ++ a ++ b ++ c ++ l). split; auto. split.
    { destruct (p_epoch p) as [n|]; auto. destruct He as [-> Hn]. exists n, n, [33%N]. split; auto. split; [split; auto|].
      exists 33%N, [33%N], []. auto. }
    exists (p_release p), r, (a ++ b ++ c ++ l). split; auto. split; auto.
    exists (p_pre p), a, (b ++ c ++ l). split; auto. split; auto.
    exists (p_post p), b, (c ++ l). split; auto. split; auto.
    exists (p_dev p), c, l. split; auto. split; auto.
    exists (p_local p), l, []. rewrite app_nil_r. split; auto. split; auto. destruct p; auto.
Qed.
(** Version's regular expression and the lenient one *)
Lemma m_spaces : matches spaces (fun _ t => all space_char t).
Proof.
  intros s x r. unfold spaces. rewrite in_map_iff. pose proof (m_star_chars space_char s) as M. split.
  - intros [[l r'] [E H]]. cbn in E. injection E as <- <-. apply M in H as [t [-> [-> H]]]. exists l. auto.
  - intros [t [E H]]. destruct x. exists (t, r). split; auto. apply M. exists t. auto.
Qed.
Lemma m_whole : matches (let+ _ := spaces in let+ p := version_pattern false true in let+ _ := spaces in pret p)
  (fun p t => exists a b c, t = a ++ b ++ c /\ all space_char a /\ Version true p b /\ all space_char c).
Proof.
  eapply m_ext; [|apply m_bind; [apply m_spaces|intros u; apply m_bind; [apply m_version|intros p; apply m_bind; [apply m_spaces|intros w; apply m_ret]]]].
  intros p t. cbn beta. split.
  - intros [[] [a [t1 [-> [Ha [p' [b [t2 [-> [Hb [[] [c [t3 [-> [Hc [-> ->]]]]]]]]]]]]]]]]. exists a, b, c. rewrite app_nil_r. auto.
  - intros [a [b [c [-> [Ha [Hb Hc]]]]]]. exists tt, a, (b ++ c). split; auto. split; auto. exists p, b, c. split; auto. split; auto.
    exists tt, c, []. rewrite app_nil_r. auto.
Qed.
Lemma m_lenient : forall s p rest x r, In ((p, rest, x), r) (lenient_pattern false s) <->
  exists t, s = t ++ rest /\ Version false p t /\ Opt (fun w t => t = 45%N :: w /\ w <> [] /\ all (fun c => negb (space_char c)) w) x
    (firstn (List.length rest - List.length r) rest) /\ rest = firstn (List.length rest - List.length r) rest ++ r.
Proof.
  intros s p rest x r. unfold lenient_pattern, pbind at 1. rewrite in_flat_map.
  assert (M : matches (opt false (let+ _ := one_of (N.eqb 45) in plus (one_of (fun c => negb (space_char c)))))
            (Opt (fun w t => t = 45%N :: w /\ w <> [] /\ all (fun c => negb (space_char c)) w))).
  { eapply m_ext; [|apply m_opt; apply m_bind; [apply m_one|intros c; apply m_plus_chars]]. intros [w|] t; cbn; [|reflexivity]. split.
    - intros [c [a [b [-> [[-> Hc] [-> Hw]]]]]]. apply N.eqb_eq in Hc. subst c. auto.
    - intros [-> Hw]. exists 45%N, [45%N], w. auto. }
  split.
  - intros [[p' rest'] [H1 H2]]. cbn [fst snd] in H2. apply m_version in H1 as [t [-> Vt]].
    unfold pbind in H2. apply in_flat_map in H2 as [[x' r'] [H2 H3]]. cbn [fst snd pret In] in H3. destruct H3 as [H3|[]].
    injection H3 as -> -> -> ->. exists t. split; auto. split; auto. apply M in H2 as [w [-> Hw]].
    rewrite app_length, Nat.add_sub, firstn_app, firstn_all, Nat.sub_diag. cbn [firstn]. rewrite app_nil_r. auto.
  - intros [t [-> [Vt [Hx Hr]]]]. exists (p, rest). split; [apply m_version; exists t; auto|]. cbn [fst snd].
    unfold pbind. apply in_flat_map. exists (x, r). split; [|left; reflexivity]. apply M.
    exists (firstn (List.length rest - List.length r) rest). auto.
Qed.
