(** Comparing errors. *)
From Coq Require Import List NArith ZArith Bool Lia.
From Verif Require Import Base ModelError SpecError.
Import ListNotations.

Lemma text_eqb_spec s : forall t, text_eqb s t = true <-> s = t.
Proof.
  induction s as [|a s IH]; intros [|b t]; cbn [text_eqb]; split; intros E; try discriminate; auto.
  - apply andb_prop in E as [E F]. apply N.eqb_eq in E. apply IH in F. congruence.
  - injection E as -> ->. rewrite N.eqb_refl. cbn [andb]. apply IH. reflexivity.
Qed.
Lemma text_eqb_refl s : text_eqb s s = true. Proof. apply text_eqb_spec. reflexivity. Qed.
Lemma opt_eqb_spec (a b : option text) : opt_eqb text_eqb a b = true <-> a = b.
Proof.
  destruct a as [s|], b as [t|]; cbn [opt_eqb]; split; intros E; try discriminate; auto.
  - apply text_eqb_spec in E. congruence.
  - injection E as ->. apply text_eqb_refl.
Qed.
Lemma tb_eqb_spec (a b : option nat) : opt_eqb Nat.eqb a b = true <-> a = b.
Proof.
  destruct a as [s|], b as [t|]; cbn [opt_eqb]; split; intros E; try discriminate; auto.
  - apply Nat.eqb_eq in E. congruence.
  - injection E as ->. apply Nat.eqb_refl.
Qed.
Lemma parts_spec n n' m m' s s' : text_eqb n n' && opt_eqb text_eqb m m' && opt_eqb text_eqb s s' = true <-> n = n' /\ m = m' /\ s = s'.
Proof. rewrite !andb_true_iff, text_eqb_spec, !opt_eqb_spec. tauto. Qed.
Lemma same_sym a b : same_error a b -> same_error b a.
Proof. induction 1; constructor; auto. intros. symmetry. auto. Qed.

(** One comparison, when the comparison of causes is right. *)
Definition decides (eqv : pval -> pval -> result bool) (k : nat) : Prop :=
  forall a b, (depth a + depth b < k)%nat -> exists r, eqv a b = Ok r /\ (r = true <-> same_error a b).
Lemma method_right eqv k a b : decides eqv k -> (depth a + depth b < S k)%nat ->
  exists x, eq_method eqv a b = Ok x /\
    match x with Yes => same_error a b | No => ~ same_error a b
    | NotImpl => (forall y, eq_method eqv b a = Ok y -> y = Yes -> same_error a b) /\ (same_error a b -> eq_method eqv b a = Ok Yes) end.
Proof.
  intros D L.
  assert (CC : forall c c', (depth c + depth c' < k)%nat -> exists r, eqv c c' = Ok r /\ (r = true <-> same_error c c')) by (intros; apply D; auto).
  destruct a as [|s|o tb|x tb n m s c].
  - destruct b as [|t|o' tb'|x' tb' n' m' s' c']; cbn [eq_method]; eexists; (split; [reflexivity|]); try constructor.
    + discriminate + (cbn [eq_method]; intros; congruence).
    + intros J; inversion J.
    + cbn [eq_method]. intros; congruence.
    + intros J; inversion J.
    + cbn [eq_method is_exception]. intros y E ->. destruct x'; cbn [eq_method is_exception] in E; discriminate.
    + intros J; inversion J.
  - destruct b as [|t|o' tb'|x' tb' n' m' s' c']; cbn [eq_method]; eexists; (split; [reflexivity|]).
    + split; [cbn [eq_method]; intros; congruence|intros J; inversion J].
    + destruct (text_eqb s t) eqn:E; cbn [answer_of]; [apply text_eqb_spec in E; subst; constructor|].
      intros J. inversion J; subst. rewrite text_eqb_refl in E. discriminate.
    + split; [cbn [eq_method]; intros; congruence|intros J; inversion J].
    + split; [intros y E ->; destruct x'; cbn [eq_method is_exception] in E; discriminate|intros J; inversion J].
  - destruct b as [|t|o' tb'|x' tb' n' m' s' c']; cbn [eq_method]; eexists; (split; [reflexivity|]).
    + split; [cbn [eq_method]; intros; congruence|intros J; inversion J].
    + split; [cbn [eq_method]; intros; congruence|intros J; inversion J].
    + destruct (Nat.eqb o o') eqn:E; [apply Nat.eqb_eq in E; subst; constructor|]. cbn [eq_method]. rewrite Nat.eqb_sym, E.
      split; [intros; congruence|]. intros J. inversion J; subst. rewrite Nat.eqb_refl in E. discriminate.
    + split; [|intros J; inversion J]. intros y E ->. destruct x'; cbn [eq_method is_exception] in E; [|discriminate].
      destruct (negb (opt_eqb Nat.eqb tb' tb)); discriminate.
  - destruct b as [|t|o' tb'|x' tb' n' m' s' c'].
    + exists NotImpl. split; [destruct x; reflexivity|]. split; [cbn [eq_method]; intros; congruence|intros J; inversion J].
    + exists NotImpl. split; [destruct x; reflexivity|]. split; [cbn [eq_method]; intros; congruence|intros J; inversion J].
    + destruct x; cbn [eq_method is_exception].
      * destruct (negb (opt_eqb Nat.eqb tb tb')); eexists; (split; [reflexivity|]); [intros J; inversion J|].
        split; [intros; congruence|intros J; inversion J].
      * eexists. split; [reflexivity|]. split; [intros; congruence|intros J; inversion J].
    + cbn [depth] in L.
      assert (Step : forall (p : bool), (p = true <-> n = n' /\ m = m' /\ s = s') -> (x = true -> x' = true -> tb = tb') ->
        exists y, (if p then bind (eqv c c') (fun b => Ok (answer_of b)) else Ok No) = Ok y /\
          match y with Yes => same_error (PError x tb n m s c) (PError x' tb' n' m' s' c')
          | No => ~ same_error (PError x tb n m s c) (PError x' tb' n' m' s' c') | NotImpl => False end).
      { intros p P T. destruct p.
        - destruct (proj1 P eq_refl) as (-> & -> & ->). destruct (CC c c' ltac:(lia)) as (r & -> & Rr). cbn [bind].
          eexists. split; [reflexivity|]. destruct r; cbn [answer_of]; [constructor; [auto|apply Rr; auto]|].
          intros J. inversion J; subst. assert (false = true) by (apply Rr; auto). discriminate.
        - eexists. split; [reflexivity|]. intros J. inversion J; subst. assert (false = true) by (apply P; auto). discriminate. }
      destruct x.
      * cbn [eq_method].
        destruct (match is_exception (PError x' tb' n' m' s' c') with Some tb'0 => negb (opt_eqb Nat.eqb tb tb'0) | None => false end) eqn:X.
        { eexists. split; [reflexivity|]. intros J. destruct x'; cbn [is_exception] in X; [|discriminate].
          apply negb_true_iff in X. inversion J; subst. rewrite (proj2 (tb_eqb_spec tb tb')) in X; auto. discriminate. }
        destruct (Step _ (parts_spec n n' m m' s s')) as (y & E & Y).
        { intros _ ->. cbn [is_exception] in X. apply negb_false_iff, tb_eqb_spec in X. exact X. }
        exists y. split; [exact E|]. destruct y; auto. elim Y.
      * destruct x'.
        { exists NotImpl. split; [reflexivity|]. cbn [eq_method is_exception].
          assert (P : text_eqb n' n && opt_eqb text_eqb m' m && opt_eqb text_eqb s' s = true <-> n' = n /\ m' = m /\ s' = s) by apply parts_spec.
          destruct (text_eqb n' n && opt_eqb text_eqb m' m && opt_eqb text_eqb s' s).
          - destruct (proj1 P eq_refl) as (-> & -> & ->). destruct (CC c' c ltac:(lia)) as (r & -> & Rr). cbn [bind]. split.
            + intros y E ->. destruct r; [|discriminate]. constructor; [discriminate|]. apply same_sym, Rr. reflexivity.
            + intros J. inversion J; subst. rewrite (proj2 Rr); [reflexivity|]. apply same_sym. assumption.
          - split; [intros y E ->; discriminate|]. intros J. inversion J; subst. assert (false = true) by (apply P; auto). discriminate. }
        cbn [eq_method]. assert (P : opt_eqb text_eqb m m' && text_eqb n n' && opt_eqb text_eqb s s' = true <-> n = n' /\ m = m' /\ s = s')
          by (rewrite !andb_true_iff, text_eqb_spec, !opt_eqb_spec; tauto).
        destruct (Step _ P) as (y & E & Y); [discriminate|]. exists y. split; [exact E|]. destruct y; auto. elim Y.
Qed.
Lemma method_answers eqv k a b : decides eqv k -> (depth a + depth b < S k)%nat -> exists x, eq_method eqv a b = Ok x.
Proof. intros D L. destruct (method_right eqv k a b D L) as (x & E & _). eauto. Qed.
Lemma py_eq_decides fuel : decides (py_eq fuel) fuel.
Proof.
  induction fuel as [|k IH]; intros a b L; [lia|]. cbn [py_eq].
  destruct (method_right (py_eq k) k a b IH L) as (x & -> & X). cbn [bind]. destruct x.
  - eexists. split; [reflexivity|]. tauto.
  - eexists. split; [reflexivity|]. split; [discriminate|tauto].
  - destruct (method_answers (py_eq k) k b a IH ltac:(lia)) as (y & E). rewrite E. cbn [bind]. destruct X as [X1 X2].
    destruct y; eexists; (split; [reflexivity|]); split; intros J; try discriminate; auto; try (apply (X1 _ E); reflexivity); apply X2 in J; congruence.
Qed.

Lemma unraised_trans a b : same_error a b -> forall c, unraised a -> unraised c -> same_error b c -> same_error a c.
Proof.
  induction 1 as [|s|o tb tb'|x x' tb tb' n m s c c' T Sc IH]; intros d Ua Ud J; inversion J; subst; try constructor; cbn [unraised] in *.
  - intros Hx Hx'. rewrite (proj1 Ua Hx), (proj1 Ud Hx'). reflexivity.
  - apply IH; tauto.
Qed.
Lemma ltb_spec s : forall t, text_ltb s t = true <-> text_before s t.
Proof.
  induction s as [|a s IH]; intros [|b t]; cbn [text_ltb].
  - split; [discriminate|]. intros (p & [(b & r & <- & E)|(a & b & r & r' & E & _)]); [discriminate|destruct p; discriminate].
  - split; auto. intros _. exists []. left. exists b, t. auto.
  - split; [discriminate|]. intros (p & [(b & r & <- & E)|(a' & b & r & r' & _ & E & _)]); [discriminate|destruct p; discriminate].
  - rewrite orb_true_iff, andb_true_iff, N.ltb_lt, N.eqb_eq, IH. split.
    + intros [L|[-> (p & [(b' & r & -> & ->)|(a' & b' & r & r' & -> & -> & L)])]].
      * exists []. right. exists a, b, s, t. auto.
      * exists (b :: p). left. exists b', r. auto.
      * exists (b :: p). right. exists a', b', r, r'. auto.
    + intros ([|q p] & [(b' & r & E & F)|(a' & b' & r & r' & E & F & L)]); cbn [app] in *; try discriminate.
      * injection E as <- <-. injection F as <- <-. auto.
      * injection E as <- <-. injection F as <- ->. right. split; auto. exists s. left. eauto.
      * injection E as <- ->. injection F as <- ->. right. split; auto. exists p. right. exists a', b', r, r'. auto.
Qed.
Lemma ltb_irrefl s : text_ltb s s = false.
Proof. induction s as [|a s IH]; cbn [text_ltb]; auto. rewrite N.ltb_irrefl, N.eqb_refl, IH. reflexivity. Qed.
Lemma ltb_trans s : forall t u, text_ltb s t = true -> text_ltb t u = true -> text_ltb s u = true.
Proof.
  induction s as [|a s IH]; intros [|b t] [|c u]; cbn [text_ltb]; auto; try discriminate.
  rewrite !orb_true_iff, !andb_true_iff, !N.ltb_lt, !N.eqb_eq. intros [L|[-> L]] [M|[-> M]]; [left; lia|left; lia|left; lia|]. right. eauto.
Qed.
Lemma ltb_total s : forall t, text_ltb s t = true \/ s = t \/ text_ltb t s = true.
Proof.
  induction s as [|a s IH]; intros [|b t]; cbn [text_ltb]; auto.
  destruct (N.lt_trichotomy a b) as [L|[->|L]].
  - left. apply N.ltb_lt in L. rewrite L. reflexivity.
  - rewrite N.ltb_irrefl, N.eqb_refl. cbn [orb andb]. destruct (IH t) as [L|[->|L]]; auto.
  - right. right. apply N.ltb_lt in L. rewrite L. reflexivity.
Qed.
