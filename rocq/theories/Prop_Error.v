(** C82: errors compare by their parts. *)
From Coq Require Import List NArith ZArith Bool Lia.
From Verif Require Import Base ModelError SpecError ErrorFacts.
Import ListNotations.

(** [==] ends and is true exactly for the same errors. *)
Theorem C82_equal : forall a b fuel, (depth a + depth b < fuel)%nat ->
  exists r, py_eq fuel a b = Ok r /\ (r = true <-> same_error a b).
Proof. intros a b fuel L. exact (py_eq_decides fuel a b L). Qed.
Print Assumptions C82_equal.
Definition equals (a b : pval) : Prop := py_eq (S (depth a + depth b)) a b = Ok true.
Lemma equals_spec a b : equals a b <-> same_error a b.
Proof. unfold equals. destruct (C82_equal a b (S (depth a + depth b)) (le_n _)) as (r & -> & R). rewrite <- R. split; congruence. Qed.
Theorem C82_symmetric : forall a b, equals a b -> equals b a.
Proof. intros a b E. apply equals_spec in E. apply equals_spec, same_sym, E. Qed.
Theorem C82_reflexive : forall a, equals a a.
Proof. intros a. apply equals_spec. induction a; constructor; auto. Qed.
Print Assumptions C82_symmetric.
Print Assumptions C82_reflexive.
(** A copy of an error in either class equals the original exactly if the JSError made keeps the message, and was not to have a traceback. *)
Theorem C82_copies : forall e, is_error e ->
  equals (to_errordata e) e /\
  (equals (to_jserror e) e <-> message_of e <> None /\ forall tb n m s c, e = PError true tb n m s c -> tb = None).
Proof.
  intros [| | |x tb n m s c] [].
  assert (R : same_error c c) by (apply equals_spec, C82_reflexive). split; [apply equals_spec; constructor; [discriminate|auto]|].
  rewrite equals_spec. cbn [to_jserror jserror_new message_of]. split.
  - intros J. inversion J; subst. split; [congruence|]. intros tb' n' m' s' c' E. injection E. intros. subst tb' x. symmetry. auto.
  - intros [M T]. destruct m as [m|]; [|congruence]. constructor; auto. intros _ ->. rewrite (T _ _ _ _ _ eq_refl). reflexivity.
Qed.
Print Assumptions C82_copies.
(** Not transitive: an error that was raised and one that was not both equal the same error data, not each other. *)
Theorem C82_transitive_refuted : exists a b c, is_error a /\ is_error b /\ is_error c /\ equals a b /\ equals b c /\ ~ equals a c.
Proof.
  exists (error_do (jserror_new (Some [65%N]) [69%N] None PNone) (Raise 0)), (errordata_new (Some [65%N]) [69%N] None PNone), (jserror_new (Some [65%N]) [69%N] None PNone).
  repeat split; vm_compute; try reflexivity. discriminate.
Qed.
Print Assumptions C82_transitive_refuted.
(** Transitive among errors that were not raised. Missing: those that were (C82_transitive_refuted). *)
Theorem C82_transitive_partial : forall a b c, unraised a -> unraised c -> equals a b -> equals b c -> equals a c.
Proof. intros a b c Ua Uc E F. apply equals_spec in E. apply equals_spec in F. apply equals_spec. eapply unraised_trans; eauto. Qed.
Print Assumptions C82_transitive_partial.
(** Raising an error makes it unequal to its equal, unless both are given one traceback. *)
Theorem C82_raised_refuted : exists e f t, equals e f /\ ~ equals (error_do e (Raise t)) f.
Proof.
  exists (jserror_new (Some [65%N]) [69%N] None PNone), (jserror_new (Some [65%N]) [69%N] None PNone), 0%nat.
  split; vm_compute; [reflexivity|discriminate].
Qed.
Print Assumptions C82_raised_refuted.

(** The message of a JSError is always a str: the one given last, where None counts as the empty one; error data keeps None. *)
Theorem C82_message : forall m n s c ops,
  message_of (fold_left error_do ops (jserror_new m n s c)) = Some (match last_message m ops with Some t => t | None => [] end) /\
  message_of (fold_left error_do ops (errordata_new m n s c)) = last_message m ops.
Proof.
  intros m n s c ops. unfold jserror_new, errordata_new. generalize (@None nat) as tb.
  revert m n s c. induction ops as [|op ops IH]; intros m n s c tb; cbn [fold_left last_message]; [split; reflexivity|].
  destruct op as [m'|n'|s'|c'|t]; cbn [error_do]; apply IH || idtac.
  destruct (IH m n s c (Some t)) as [A _]. destruct (IH m n s c tb) as [_ B]. auto.
Qed.
Print Assumptions C82_message.

(** Error data with message and stack, and without cause, are ordered by message, name and stack; the order is total and strict. *)
Theorem C82_order_partial : forall a b fuel, plain_data a -> plain_data b -> (2 <= fuel)%nat ->
  (exists r, py_lt fuel true a b = Ok r /\ (r = true <-> data_before a b)) /\
  (exists r, py_lt fuel false a b = Ok r /\ (r = true <-> data_before a b \/ a = b)).
Proof.
  intros a b fuel (n & m & s & ->) (n' & m' & s' & ->) L. destruct fuel as [|[|k]]; [lia..|].
  assert (DB : data_before (PError false None n (Some m) (Some s) PNone) (PError false None n' (Some m') (Some s') PNone) <-> text_ltb m m' = true \/ m = m' /\ (text_ltb n n' = true \/ n = n' /\ text_ltb s s' = true)).
  { rewrite !ltb_spec. split.
    - intros (x & y & z & x' & y' & z' & E & F & D). injection E as -> -> ->. injection F as -> -> ->. exact D.
    - intros D. exists n, m, s, n', m', s'. auto. }
  assert (AB : PError false None n (Some m) (Some s) PNone = PError false None n' (Some m') (Some s') PNone <-> m = m' /\ n = n' /\ s = s').
  { split; [intros E; injection E; auto|intros (-> & -> & ->); reflexivity]. }
  assert (I : forall t, ~ text_ltb t t = true) by (intros t; rewrite ltb_irrefl; discriminate).
  assert (Ne : forall t u, text_eqb t u = false -> t <> u) by (intros t u E ->; rewrite text_eqb_refl in E; discriminate).
  cbn [py_lt opt_eqb].
  split; (destruct (text_eqb m m') eqn:Em; cbn [negb];
    [apply text_eqb_spec in Em; subst m'; destruct (text_eqb n n') eqn:En; cbn [negb];
      [apply text_eqb_spec in En; subst n'; destruct (text_eqb s s') eqn:Es; cbn [negb];
        [apply text_eqb_spec in Es; subst s'; cbn [py_eq eq_method bind answer_of negb]|apply Ne in Es]|apply Ne in En]|apply Ne in Em]);
  cbn [opt_lt negb andb]; rewrite ?orb_false_r; eexists; (split; [reflexivity|]); rewrite ?DB, ?AB.
  all: try (rewrite orb_true_iff, text_eqb_spec).
  all: pose proof (I m); pose proof (I n); pose proof (I s); intuition congruence.
Qed.
Print Assumptions C82_order_partial.
Theorem C82_order_total : forall a b c, plain_data a -> plain_data b -> plain_data c ->
  ~ data_before a a /\ (data_before a b -> data_before b c -> data_before a c) /\ (data_before a b \/ equals a b \/ data_before b a).
Proof.
  intros a b c (n & m & s & ->) (n' & m' & s' & ->) (n2 & m2 & s2 & ->).
  assert (DB : forall x y z x' y' z', data_before (PError false None x (Some y) (Some z) PNone) (PError false None x' (Some y') (Some z') PNone) <->
    text_ltb y y' = true \/ y = y' /\ (text_ltb x x' = true \/ x = x' /\ text_ltb z z' = true)).
  { intros. rewrite !ltb_spec. split.
    - intros (p & q & r & p' & q' & r' & E & F & D). injection E as -> -> ->. injection F as -> -> ->. exact D.
    - intros D. do 6 eexists. split; [reflexivity|]. split; [reflexivity|]. exact D. }
  rewrite !DB. split; [rewrite !ltb_irrefl; intuition discriminate|]. split.
  - intros [L|(-> & [L|(-> & L)])] [M|(-> & [M|(-> & M)])]; eauto 6 using ltb_trans.
  - destruct (ltb_total m m') as [L|[->|L]]; auto. destruct (ltb_total n n') as [L|[->|L]]; auto 7. destruct (ltb_total s s') as [L|[->|L]]; auto 9.
    right. left. apply C82_reflexive.
Qed.
Print Assumptions C82_order_total.
(** Otherwise comparing may raise TypeError: when one of the messages is missing. *)
Theorem C82_order_refuted : exists a b, ~ equals a b /\ (forall fuel, py_lt (S fuel) true a b = Err EType) /\
  a = errordata_new None [69%N] None PNone /\ b = errordata_new (Some [65%N]) [69%N] None PNone.
Proof. do 2 eexists. repeat split; vm_compute; try discriminate; reflexivity. Qed.
Print Assumptions C82_order_refuted.

(** A raised JSError with a JSErrorData as cause, against error data and an unraised copy. *)
Example C82_case :
  let c := errordata_new (Some [66%N]) [69%N] (Some [1%N]) (PStr [2%N]) in
  let e := jserror_new None [69%N] None c in let r := error_do e (Raise 7) in
  equals r (errordata_new (Some []) [69%N] None (to_jserror c)) /\ ~ equals r e /\ ~ equals e (errordata_new None [69%N] None c) /\ equals e (to_jserror (to_errordata r)) /\
  plain_data (errordata_new (Some [66%N]) [69%N] (Some [1%N]) PNone) /\ unraised e.
Proof. cbv zeta. repeat split; try (vm_compute; (reflexivity || discriminate)); try discriminate. exists [69%N], [66%N], [1%N]. reflexivity. Qed.
