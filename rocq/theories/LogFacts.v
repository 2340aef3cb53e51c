(** Lemmas about the object log model. *)
From Coq Require Import List Bool Arith Lia.
From Verif Require Import Base Dict ModelLog SpecLog.
Import ListNotations.
Open Scope nat_scope.

Lemma list_set_length {A} (l : list A) : forall i x, length (list_set l i x) = length l.
Proof. induction l; intros [|i] x; cbn; auto. Qed.
Lemma list_set_nth {A} (l : list A) : forall i x j, i < length l ->
  nth_error (list_set l i x) j = if Nat.eqb j i then Some x else nth_error l j.
Proof.
  induction l; intros [|i] x [|j] H; cbn in *; try lia; auto. apply IHl. lia.
Qed.
Lemma nth_error_snoc {A} (l : list A) x j :
  nth_error (l ++ [x]) j = if Nat.eqb j (length l) then Some x else nth_error l j.
Proof.
  destruct (Nat.eqb_spec j (length l)) as [->|H].
  - rewrite nth_error_app2 by lia. rewrite Nat.sub_diag. auto.
  - destruct (Nat.lt_ge_cases j (length l)).
    + apply nth_error_app1. auto.
    + rewrite nth_error_app2 by lia. destruct (j - length l) eqn:E; [lia|].
      cbn. rewrite (proj2 (nth_error_None l j)) by lia. destruct n; auto.
Qed.

Lemma list_set_snoc {A} (l : list A) x y : list_set (l ++ [x]) (length l) y = l ++ [y].
Proof. induction l; cbn; [auto|rewrite IHl; auto]. Qed.

Section LogFacts.
Context {O : Type} (pyid : O -> nat).
Notation log := (@log O).
Notation ideal := (@ideal O).

Definition latest_key (rec : list O) (k i : nat) : Prop :=
  (exists o', nth_error rec i = Some o' /\ pyid o' = k) /\
  (forall j o', nth_error rec j = Some o' -> pyid o' = k -> j <= i).

Definition abs (l : log) (s : ideal) : Prop :=
  length (log_entries l) = length (recorded s) /\
  (forall i, nth_error (log_entries l) i = stored s i) /\
  (forall k, match dget Nat.eqb k (log_ids l) with
             | Some i => latest_key (recorded s) k i
             | None => forall o', In o' (recorded s) -> pyid o' <> k
             end).

Lemma abs_empty : abs log_empty ideal_empty.
Proof. repeat split; cbn; auto. intros [|i]; auto. Qed.

Lemma latest_key_bound rec k i : latest_key rec k i -> i < length rec.
Proof. intros [[o [H _]] _]. apply nth_error_Some. congruence. Qed.

Lemma abs_ids_snoc (ids : list (nat * nat)) rec o :
  (forall k, match dget Nat.eqb k ids with
             | Some i => latest_key rec k i
             | None => forall o', In o' rec -> pyid o' <> k end) ->
  forall k, match dget Nat.eqb k (dset Nat.eqb (pyid o) (length rec) ids) with
             | Some i => latest_key (rec ++ [o]) k i
             | None => forall o', In o' (rec ++ [o]) -> pyid o' <> k end.
Proof.
  intros H k. rewrite (dget_dset _ Nat.eqb_eq). destruct (Nat.eqb_spec k (pyid o)) as [->|N].
  - split.
    + exists o. split; auto. rewrite nth_error_snoc, Nat.eqb_refl. auto.
    + intros j o' HJ _. assert (j < length (rec ++ [o])) by (apply nth_error_Some; congruence).
      rewrite app_length in *. cbn in *. lia.
  - specialize (H k). destruct (dget Nat.eqb k ids) as [i|] eqn:E.
    + pose proof (latest_key_bound _ _ _ H) as B. destruct H as [[o' [H1 H2]] H3]. split.
      * exists o'. split; auto. rewrite nth_error_app1 by auto. auto.
      * intros j o2 HJ HP. rewrite nth_error_snoc in HJ.
        destruct (Nat.eqb_spec j (length rec)); [|eauto]. injection HJ as <-. congruence.
    + intros o' HI. apply in_app_iff in HI. destruct HI as [HI|[<-|[]]]; auto.
Qed.

Lemma abs_record l s o : abs l s ->
  abs (snd (log_record pyid l o))
    (mkIdeal (recorded s ++ [o]) (upd (stored s) (length (recorded s)) (EObj o))).
Proof.
  intros [H1 [H2 H3]]. unfold log_record. cbn. rewrite H1. repeat split; cbn.
  - rewrite !app_length. cbn. lia.
  - intros i. rewrite nth_error_snoc, H1. unfold upd. rewrite H2. auto.
  - apply abs_ids_snoc. auto.
Qed.

Lemma abs_set_entry l s sid e : abs l s -> sid < length (recorded s) ->
  abs (mkLog (log_ids l) (list_set (log_entries l) sid e)) (mkIdeal (recorded s) (upd (stored s) sid e)).
Proof.
  intros [H1 [H2 H3]] B. repeat split; cbn; auto.
  - rewrite list_set_length. auto.
  - intros i. rewrite list_set_nth by lia. unfold upd. rewrite H2. auto.
Qed.

Lemma open_acyclic_eq (l : log) o :
  log_open_acyclic pyid l o =
    (length (log_entries l),
     mkLog (dset Nat.eqb (pyid o) (length (log_entries l)) (log_ids l)) (log_entries l ++ [EFwd None])).
Proof.
  unfold log_open_acyclic, log_record, log_replace. cbn [log_entries log_ids].
  rewrite app_length. cbn [length].
  destruct (Nat.eqb_spec (S (length (log_entries l))) (length (log_entries l) + 1)); [|lia].
  cbn [negb]. rewrite list_set_snoc. auto.
Qed.

Lemma abs_open l s o : abs l s ->
  abs (snd (log_open_acyclic pyid l o))
    (mkIdeal (recorded s ++ [o]) (upd (stored s) (length (recorded s)) (EFwd None))).
Proof.
  intros [H1 [H2 H3]]. rewrite open_acyclic_eq. cbn. rewrite H1. repeat split; cbn.
  - rewrite !app_length. cbn. lia.
  - intros i. rewrite nth_error_snoc, H1. unfold upd. rewrite H2. auto.
  - apply abs_ids_snoc. auto.
Qed.

Lemma abs_latest l s o i : abs l s ->
  dget Nat.eqb (pyid o) (log_ids l) = Some i -> latest_id pyid s o i.
Proof. intros [_ [_ H]] E. specialize (H (pyid o)). rewrite E in H. exact H. Qed.
Lemma abs_never l s o : abs l s ->
  dget Nat.eqb (pyid o) (log_ids l) = None -> never_recorded pyid s o.
Proof. intros [_ [_ H]] E. specialize (H (pyid o)). rewrite E in H. exact H. Qed.

Lemma ideal_run_app s t1 s1 t2 s2 :
  ideal_run pyid s t1 s1 -> ideal_run pyid s1 t2 s2 -> ideal_run pyid s (t1 ++ t2) s2.
Proof. induction 1; cbn; auto. intros. econstructor; eauto. Qed.
Lemma ideal_run_one s e s1 : ideal_step pyid s e s1 -> ideal_run pyid s [e] s1.
Proof. intros. econstructor; [eauto|constructor]. Qed.

Lemma run_abs p : forall l s r l' t, abs l s -> run pyid p l = (r, l', t) ->
  exists s', ideal_run pyid s t s' /\ abs l' s'.
Proof.
  induction p; intros l s r l' t A R; cbn [run] in R.
  - injection R as <- <- <-. exists s. split; [constructor|auto].
  - destruct (run pyid p1 l) as [[r1 l1] t1] eqn:E1.
    destruct (IHp1 _ _ _ _ _ A E1) as [s1 [R1 A1]].
    destruct r1.
    + destruct (run pyid p2 l1) as [[r2 l2] t2] eqn:E2. injection R as <- <- <-.
      destruct (IHp2 _ _ _ _ _ A1 E2) as [s2 [R2 A2]].
      exists s2. split; auto. eapply ideal_run_app; eauto.
    + injection R as <- <- <-. eauto.
  - injection R as <- <- <-. pose proof (abs_record l s o A) as A1.
    destruct A as [H1 H]. rewrite H1. eexists. split; [apply ideal_run_one; constructor|].
    unfold log_record in A1. cbn in A1. rewrite H1 in A1. auto.
  - unfold log_replace in R. destruct (Nat.eqb_spec (S sid) (length (log_entries l))) as [E|E]; cbn in R;
      injection R as <- <- <-.
    + destruct A as [H1 H]. eexists. split; [apply ideal_run_one; constructor; lia|].
      apply abs_set_entry; [split; auto|lia].
    + destruct A as [H1 H]. eexists. split; [apply ideal_run_one; constructor; lia|]. split; auto.
  - injection R as <- <- <-. exists s. split; auto. apply ideal_run_one.
    unfold log_contains, dmem. destruct (dget _ _ _) eqn:E.
    + eapply is_contains_yes. eapply abs_latest; eauto.
    + eapply is_contains_no. eapply abs_never; eauto.
  - injection R as <- <- <-. exists s. split; auto. apply ideal_run_one.
    unfold log_get_serialized_id. destruct (dget _ _ _) as [i|] eqn:E.
    + pose proof (abs_latest _ _ _ _ A E) as L. destruct A as [H1 [H2 H3]].
      rewrite H2. assert (i < length (log_entries l)) as B.
      { rewrite H1. eapply latest_key_bound. exact L. }
      apply nth_error_Some in B. rewrite H2 in B.
      destruct (stored s i) as [[o'|[o'|]]|] eqn:S; [| | |congruence].
      * apply is_getid_ok; auto. congruence.
      * apply is_getid_ok; auto. congruence.
      * apply is_getid_fwd; auto.
    + apply is_getid_none. eapply abs_never; eauto.
  - injection R as <- <- <-. exists s. split; auto. apply ideal_run_one.
    unfold log_get_object. destruct A as [H1 [H2 H3]].
    destruct (nth_error (log_entries l) sid) eqn:E.
    + constructor. congruence.
    + constructor. apply nth_error_None in E. lia.
  - destruct (log_open_acyclic pyid l o) as [sid l1] eqn:EO.
    pose proof (abs_open l s o A) as A1. rewrite EO in A1. cbn in A1.
    rewrite open_acyclic_eq in EO. injection EO as HS _.
    destruct (run pyid p l1) as [[r1 l2] t1] eqn:E1. injection R as <- <- <-.
    destruct (IHp _ _ _ _ _ A1 E1) as [s2 [R2 A2]].
    destruct A as [H1 _]. subst sid. rewrite H1 in *.
    set (sid := length (recorded s)) in *.
    assert (exists s3, ideal_step pyid s2 (EvLeave o sid) s3 /\ abs (log_set_forward l2 sid o) s3) as [s3 [S3 A3]].
    { unfold log_set_forward. destruct A2 as [B1 [B2 B3]].
      destruct (nth_error (log_entries l2) sid) as [[o'|[o'|]]|] eqn:E.
      - exists s2. split; [apply is_leave_replaced; rewrite <- B2; congruence|repeat split; auto].
      - exists s2. split; [apply is_leave_replaced; rewrite <- B2; congruence|repeat split; auto].
      - eexists. split; [apply is_leave_held; rewrite <- B2; auto|].
        apply abs_set_entry; [repeat split; auto|].
        rewrite <- B1. apply nth_error_Some. congruence.
      - exists s2. split; [apply is_leave_replaced; rewrite <- B2; congruence|repeat split; auto]. }
    exists s3. split; auto. econstructor; [constructor|].
    eapply ideal_run_app; eauto. apply ideal_run_one. auto.
  - injection R as <- <- <-. exists s. split; [constructor|auto].
  - destruct (run pyid p1 l) as [[r1 l1] t1] eqn:E1.
    destruct (IHp1 _ _ _ _ _ A E1) as [s1 [R1 A1]].
    destruct r1.
    + injection R as <- <- <-. eauto.
    + destruct (run pyid p2 l1) as [[r2 l2] t2] eqn:E2. injection R as <- <- <-.
      destruct (IHp2 _ _ _ _ _ A1 E2) as [s2 [R2 A2]].
      exists s2. split; auto. eapply ideal_run_app; eauto.
Qed.

(** Ids given out along a trace. *)
Definition new_ids (t : list (@event O)) : list nat :=
  flat_map (fun e => match e with EvRecord _ i | EvEnter _ i => [i] | _ => [] end) t.

Lemma ideal_run_ids s t s' : ideal_run pyid s t s' ->
  new_ids t = seq (length (recorded s)) (length (new_ids t)) /\
  length (recorded s') = length (recorded s) + length (new_ids t).
Proof.
  induction 1 as [|s e s1 t s2 HS HR IH]; [split; cbn; auto|].
  inversion HS; subst; cbn [recorded] in IH; try exact IH;
  destruct IH as [IH1 IH2]; rewrite app_length in *; cbn [length] in *;
  unfold new_ids in *; cbn [flat_map app length seq] in *; (split; [|lia]);
  rewrite IH1 at 1; rewrite Nat.add_1_r; reflexivity.
Qed.

(** Existing slots other than the last are never changed, and the log never shrinks. *)
Definition extends (n : nat) (l l' : log) : Prop :=
  length (log_entries l) <= length (log_entries l') /\
  forall i, i < n -> nth_error (log_entries l') i = nth_error (log_entries l) i.

Lemma extends_refl n l : extends n l l.
Proof. split; auto. Qed.
Lemma extends_trans n a b c : extends n a b -> extends n b c -> extends n a c.
Proof. intros [H1 H2] [H3 H4]. split; [lia|]. intros i B. rewrite H4, H2; auto. Qed.

Lemma set_forward_other (l : log) sid o i : i <> sid ->
  nth_error (log_entries (log_set_forward l sid o)) i = nth_error (log_entries l) i.
Proof.
  intros N. unfold log_set_forward.
  destruct (nth_error (log_entries l) sid) as [[|[|]]|] eqn:E; auto. cbn.
  rewrite list_set_nth by (apply nth_error_Some; congruence).
  apply Nat.eqb_neq in N. rewrite N. auto.
Qed.
Lemma set_forward_length (l : log) sid o :
  length (log_entries (log_set_forward l sid o)) = length (log_entries l).
Proof.
  unfold log_set_forward.
  destruct (nth_error (log_entries l) sid) as [[|[|]]|] eqn:E; auto. cbn.
  apply list_set_length.
Qed.
Lemma set_forward_ids (l : log) sid o : log_ids (log_set_forward l sid o) = log_ids l.
Proof. unfold log_set_forward. destruct (nth_error _ _) as [[|[|]]|]; auto. Qed.

Lemma run_extends p : forall (l : log) r l' t n, n < length (log_entries l) \/ n = 0 ->
  run pyid p l = (r, l', t) -> extends n l l'.
Proof.
  induction p; intros l r l' t n B R; cbn [run] in R.
  - injection R as <- <- <-. apply extends_refl.
  - destruct (run pyid p1 l) as [[r1 l1] t1] eqn:E1.
    pose proof (IHp1 _ _ _ _ _ B E1) as X1.
    destruct r1.
    + destruct (run pyid p2 l1) as [[r2 l2] t2] eqn:E2. injection R as <- <- <-.
      eapply extends_trans; eauto. eapply IHp2; eauto. destruct X1. lia.
    + injection R as <- <- <-. auto.
  - injection R as <- <- <-. split; cbn; [rewrite app_length; lia|].
    intros i Hi. rewrite nth_error_app1; auto. lia.
  - unfold log_replace in R. destruct (Nat.eqb_spec (S sid) (length (log_entries l))) as [E|E]; cbn in R;
      injection R as <- <- <-; [|apply extends_refl].
    split; cbn; [rewrite list_set_length; auto|]. intros i Hi.
    rewrite list_set_nth by lia. destruct (Nat.eqb_spec i sid); auto. lia.
  - injection R as <- <- <-. apply extends_refl.
  - injection R as <- <- <-. apply extends_refl.
  - injection R as <- <- <-. apply extends_refl.
  - rewrite open_acyclic_eq in R.
    match type of R with context [run pyid p ?l1] => set (lo := l1) in *; destruct (run pyid p lo) as [[r1 l2] t1] eqn:E1 end.
    injection R as <- <- <-.
    assert (length (log_entries lo) = S (length (log_entries l))) as LL
      by (unfold lo; cbn; rewrite app_length; cbn; lia).
    assert (extends n lo l2) as [X1 X2] by (eapply IHp; [|exact E1]; lia).
    split; [rewrite set_forward_length; lia|].
    intros i Hi. rewrite set_forward_other by lia. rewrite X2 by auto.
    unfold lo. cbn. apply nth_error_app1. lia.
  - injection R as <- <- <-. apply extends_refl.
  - destruct (run pyid p1 l) as [[r1 l1] t1] eqn:E1.
    pose proof (IHp1 _ _ _ _ _ B E1) as X1.
    destruct r1.
    + injection R as <- <- <-. auto.
    + destruct (run pyid p2 l1) as [[r2 l2] t2] eqn:E2. injection R as <- <- <-.
      eapply extends_trans; eauto. eapply IHp2; eauto. destruct X1. lia.
Qed.

(** Does the program record an object identical to [o] anywhere? *)
Fixpoint records (o : O) (p : prog) : bool :=
  match p with
  | PRecord o' => Nat.eqb (pyid o') (pyid o)
  | PAcyclic o' b => Nat.eqb (pyid o') (pyid o) || records o b
  | PSeq a b | PTry a b => records o a || records o b
  | _ => false
  end.
(** Does the program try to overwrite slot [sid]? *)
Fixpoint replaces (sid : nat) (p : @prog O) : bool :=
  match p with
  | PReplace i _ => Nat.eqb i sid
  | PAcyclic _ b => replaces sid b
  | PSeq a b | PTry a b => replaces sid a || replaces sid b
  | _ => false
  end.

Lemma run_keeps_id o p : forall (l : log) r l' t, records o p = false ->
  run pyid p l = (r, l', t) -> dget Nat.eqb (pyid o) (log_ids l') = dget Nat.eqb (pyid o) (log_ids l).
Proof.
  induction p; intros l r l' t N R; cbn [run records replaces] in R, N.
  - injection R as <- <- <-. auto.
  - apply orb_false_iff in N as [N1 N2].
    destruct (run pyid p1 l) as [[r1 l1] t1] eqn:E1. apply IHp1 in E1; auto. destruct r1.
    + destruct (run pyid p2 l1) as [[r2 l2] t2] eqn:E2. apply IHp2 in E2; auto.
      injection R as <- <- <-. congruence.
    + injection R as <- <- <-. auto.
  - injection R as <- <- <-. cbn. apply (dget_dset_other _ Nat.eqb_eq).
    apply Nat.eqb_neq in N. auto.
  - unfold log_replace in R. destruct (negb _); injection R as <- <- <-; auto.
  - injection R as <- <- <-. auto.
  - injection R as <- <- <-. auto.
  - injection R as <- <- <-. auto.
  - apply orb_false_iff in N as [N1 N2]. rewrite open_acyclic_eq in R.
    match type of R with context [run pyid p ?l1] => set (lo := l1) in *; destruct (run pyid p lo) as [[r1 l2] t1] eqn:E1 end.
    injection R as <- <- <-. rewrite set_forward_ids. apply IHp in E1; auto. rewrite E1.
    unfold lo. cbn. apply (dget_dset_other _ Nat.eqb_eq). apply Nat.eqb_neq in N1. auto.
  - injection R as <- <- <-. auto.
  - apply orb_false_iff in N as [N1 N2].
    destruct (run pyid p1 l) as [[r1 l1] t1] eqn:E1. apply IHp1 in E1; auto. destruct r1.
    + injection R as <- <- <-. auto.
    + destruct (run pyid p2 l1) as [[r2 l2] t2] eqn:E2. apply IHp2 in E2; auto.
      injection R as <- <- <-. congruence.
Qed.

Lemma run_keeps_slot sid p : forall (l : log) r l' t, replaces sid p = false ->
  sid < length (log_entries l) ->
  run pyid p l = (r, l', t) ->
  nth_error (log_entries l') sid = nth_error (log_entries l) sid /\ sid < length (log_entries l').
Proof.
  induction p; intros l r l' t N B R; cbn [run records replaces] in R, N.
  - injection R as <- <- <-. auto.
  - apply orb_false_iff in N as [N1 N2].
    destruct (run pyid p1 l) as [[r1 l1] t1] eqn:E1. apply IHp1 in E1 as [E1 B1]; auto. destruct r1.
    + destruct (run pyid p2 l1) as [[r2 l2] t2] eqn:E2. apply IHp2 in E2 as [E2 B2]; auto.
      injection R as <- <- <-. split; congruence.
    + injection R as <- <- <-. auto.
  - injection R as <- <- <-. cbn. rewrite app_length. split; [|lia]. apply nth_error_app1. auto.
  - unfold log_replace in R. destruct (Nat.eqb_spec (S sid0) (length (log_entries l))) as [E|E]; cbn in R;
      injection R as <- <- <-; auto. cbn. rewrite list_set_length, list_set_nth by lia. split; auto.
    apply Nat.eqb_neq in N. destruct (Nat.eqb_spec sid sid0); auto. congruence.
  - injection R as <- <- <-. auto.
  - injection R as <- <- <-. auto.
  - injection R as <- <- <-. auto.
  - rewrite open_acyclic_eq in R.
    match type of R with context [run pyid p ?l1] => set (lo := l1) in *; destruct (run pyid p lo) as [[r1 l2] t1] eqn:E1 end.
    injection R as <- <- <-.
    assert (sid < length (log_entries lo)) as B1 by (unfold lo; cbn; rewrite app_length; cbn; lia).
    apply IHp in E1 as [E1 B2]; auto. rewrite set_forward_length. split; auto.
    rewrite set_forward_other by lia. rewrite E1. unfold lo. cbn. apply nth_error_app1. auto.
  - injection R as <- <- <-. auto.
  - apply orb_false_iff in N as [N1 N2].
    destruct (run pyid p1 l) as [[r1 l1] t1] eqn:E1. apply IHp1 in E1 as [E1 B1]; auto. destruct r1.
    + injection R as <- <- <-. auto.
    + destruct (run pyid p2 l1) as [[r2 l2] t2] eqn:E2. apply IHp2 in E2 as [E2 B2]; auto.
      injection R as <- <- <-. split; congruence.
Qed.

(** While the slot of [o] holds an unset forward reference, every lookup of [o]'s id fails. *)
Lemma run_blocked o sid p : forall (l : log) r l' t,
  records o p = false -> replaces sid p = false ->
  dget Nat.eqb (pyid o) (log_ids l) = Some sid ->
  nth_error (log_entries l) sid = Some (EFwd None) ->
  run pyid p l = (r, l', t) ->
  forall o' x, In (EvGetId o' x) t -> pyid o' = pyid o -> x = Err (EForwardRef sid).
Proof.
  induction p; intros l r l' t N1 N2 HI HE R o' x HIn HP; pose proof R as R0; cbn [run records replaces] in R, N1, N2.
  - injection R as <- <- <-. destruct HIn.
  - apply orb_false_iff in N1 as [N1 N1']. apply orb_false_iff in N2 as [N2 N2'].
    assert (sid < length (log_entries l)) as B by (apply nth_error_Some; congruence).
    destruct (run pyid p1 l) as [[r1 l1] t1] eqn:E1.
    pose proof (run_keeps_id o _ _ _ _ _ N1 E1) as K1.
    pose proof (run_keeps_slot _ _ _ _ _ _ N2 B E1) as [K2 _].
    destruct r1.
    + destruct (run pyid p2 l1) as [[r2 l2] t2] eqn:E2. injection R as <- <- <-.
      apply in_app_iff in HIn as [HIn|HIn]; [eapply IHp1; eauto|eapply (IHp2 l1); try eassumption; congruence].
    + injection R as <- <- <-. eapply IHp1; eauto.
  - injection R as <- <- <-. destruct HIn as [H|[]]; discriminate.
  - destruct (log_replace l sid0 (EObj o0)); injection R as <- <- <-; destruct HIn as [H|[]]; discriminate.
  - injection R as <- <- <-. destruct HIn as [H|[]]; discriminate.
  - injection R as <- <- <-. destruct HIn as [H|[]]. injection H as <- <-.
    unfold log_get_serialized_id. rewrite HP, HI, HE. auto.
  - injection R as <- <- <-. destruct HIn as [H|[]]; discriminate.
  - apply orb_false_iff in N1 as [N1 N1']. rewrite open_acyclic_eq in R.
    match type of R with context [run pyid p ?l1] => set (lo := l1) in *; destruct (run pyid p lo) as [[r1 l2] t1] eqn:E1 end.
    injection R as <- <- <-. destruct HIn as [H|HIn]; [discriminate|].
    apply in_app_iff in HIn as [HIn|[H|[]]]; [|discriminate].
    assert (sid < length (log_entries l)) as B by (apply nth_error_Some; congruence).
    eapply IHp; [auto|auto| | |exact E1|exact HIn|auto]; unfold lo; cbn.
    + rewrite (dget_dset_other _ Nat.eqb_eq); auto. apply Nat.eqb_neq in N1. auto.
    + rewrite nth_error_app1; auto.
  - injection R as <- <- <-. destruct HIn.
  - apply orb_false_iff in N1 as [N1 N1']. apply orb_false_iff in N2 as [N2 N2'].
    assert (sid < length (log_entries l)) as B by (apply nth_error_Some; congruence).
    destruct (run pyid p1 l) as [[r1 l1] t1] eqn:E1.
    pose proof (run_keeps_id o _ _ _ _ _ N1 E1) as K1.
    pose proof (run_keeps_slot _ _ _ _ _ _ N2 B E1) as [K2 _].
    destruct r1.
    + injection R as <- <- <-. eapply IHp1; eauto.
    + destruct (run pyid p2 l1) as [[r2 l2] t2] eqn:E2. injection R as <- <- <-.
      apply in_app_iff in HIn as [HIn|HIn]; [eapply IHp1; eauto|eapply (IHp2 l1); try eassumption; congruence].
Qed.

(** Unset forward references in a log. *)
Definition open_slot (l : log) (sid : nat) : Prop := nth_error (log_entries l) sid = Some (EFwd None).

(** A program leaves no slot open that was not open before, and a ForwardReferenceError that
    escapes it is about a slot that was open before. *)
Lemma run_open p : forall (l : log) r l' t, run pyid p l = (r, l', t) ->
  (forall i, open_slot l' i -> open_slot l i) /\
  (forall k, r = Err (EForwardRef k) -> open_slot l k).
Proof.
  induction p; intros l r l' t R; cbn [run] in R.
  - injection R as <- <- <-. split; auto. discriminate.
  - destruct (run pyid p1 l) as [[r1 l1] t1] eqn:E1. apply IHp1 in E1 as [X1 Y1]. destruct r1.
    + destruct (run pyid p2 l1) as [[r2 l2] t2] eqn:E2. apply IHp2 in E2 as [X2 Y2].
      injection R as <- <- <-. split; auto.
    + injection R as <- <- <-. split; auto.
  - injection R as <- <- <-. split; [|discriminate]. unfold open_slot. cbn. intros i H.
    rewrite nth_error_snoc in H. destruct (Nat.eqb _ _); [discriminate|auto].
  - unfold log_replace in R. destruct (Nat.eqb_spec (S sid) (length (log_entries l))) as [E|E]; cbn in R;
      injection R as <- <- <-; (split; [|discriminate]); auto.
    unfold open_slot. cbn. intros i H. rewrite list_set_nth in H by lia.
    destruct (Nat.eqb _ _); [discriminate|auto].
  - injection R as <- <- <-. split; auto. discriminate.
  - injection R as <- <- <-. split; auto. unfold log_get_serialized_id. intros k.
    destruct (dget _ _ _) as [i|]; [|discriminate]. unfold open_slot.
    destruct (nth_error _ _) as [[|[|]]|] eqn:E; cbn; try discriminate.
    intros H. injection H as <-. auto.
  - injection R as <- <- <-. split; auto. unfold log_get_object. destruct (nth_error _ _); discriminate.
  - rewrite open_acyclic_eq in R.
    match type of R with context [run pyid p ?l1] => set (lo := l1) in *; destruct (run pyid p lo) as [[r1 l2] t1] eqn:E1 end.
    injection R as <- <- <-. apply IHp in E1 as [X1 Y1].
    set (sid := length (log_entries l)) in *.
    assert (forall i, open_slot lo i -> i <> sid -> open_slot l i) as OL.
    { unfold open_slot, lo. cbn. intros i H Hi. rewrite nth_error_snoc in H. fold sid in H.
      destruct (Nat.eqb_spec i sid); [congruence|auto]. }
    split.
    + intros i H. destruct (Nat.eq_dec i sid) as [->|Hi].
      * exfalso. unfold open_slot, log_set_forward in H.
        destruct (nth_error (log_entries l2) sid) as [[|[|]]|] eqn:E; try congruence.
        cbn in H. rewrite list_set_nth, Nat.eqb_refl in H by (apply nth_error_Some; congruence).
        discriminate.
      * apply OL; auto. apply X1. unfold open_slot in *. rewrite set_forward_other in H; auto.
    + intros k H. unfold acyclic_exn in H. destruct r1 as [|[]]; try discriminate.
      destruct (Nat.eqb_spec id sid); [discriminate|]. injection H as <-. apply OL; auto.
  - injection R as <- <- <-. split; auto. discriminate.
  - destruct (run pyid p1 l) as [[r1 l1] t1] eqn:E1. apply IHp1 in E1 as [X1 Y1]. destruct r1.
    + injection R as <- <- <-. split; auto.
    + destruct (run pyid p2 l1) as [[r2 l2] t2] eqn:E2. apply IHp2 in E2 as [X2 Y2].
      injection R as <- <- <-. split; auto.
Qed.
End LogFacts.
