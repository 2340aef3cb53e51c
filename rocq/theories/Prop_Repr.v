(** C48: js_repr_settings. *)
From Coq Require Import List Bool Lia Arith.
From Verif Require Import ModelRepr.
Import ListNotations.

Lemma enter_active V g force (st st' : state V) b : enter g force st = Some (b, st') ->
  st_active st' = b_own b /\ b_initial b = st_active st /\ b_force b = force /\ st_warnings st' = st_warnings st /\ exists l, st_all st' = st_all st ++ l.
Proof.
  destruct g as [i|kw]; cbn.
  - intros [= <- <-]. cbn. repeat split; auto. exists []. rewrite app_nil_r. auto.
  - destruct (override kw _) as [s|]; [|discriminate]. intros [= <- <-]. cbn. repeat split; eauto.
Qed.
(** With statements, nested and repeated in any way, with or without force_restore, with given instances or keywords,
    bodies raising or not: afterwards the instance in force before is in force again, its settings unchanged, and
    no warning was given. *)
Theorem C48_nested : forall V (c : code V) st, let st' := snd (exec c st) in
  st_active st' = st_active st /\ st_warnings st' = st_warnings st /\
  forall i, i < length (st_all st) -> settings_of st' i = settings_of st i.
Proof.
  intros V c st. cbn zeta. cut (st_active (snd (exec c st)) = st_active st /\ st_warnings (snd (exec c st)) = st_warnings st /\ exists l, st_all (snd (exec c st)) = st_all st ++ l).
  { intros (A & W & l & E). split; auto. split; auto. intros i L. unfold settings_of. rewrite E, app_nth1; auto. }
  revert st. induction c as [| |a IHa b IHb|a IHa b IHb|g force body IH]; intros st; cbn [exec].
  - repeat split; auto. exists []. rewrite app_nil_r. auto.
  - repeat split; auto. exists []. rewrite app_nil_r. auto.
  - specialize (IHa st). destruct (exec a st) as [x st1]. cbn [snd] in IHa. destruct IHa as (A1 & W1 & l1 & E1).
    destruct x; cbn [snd]; [eauto|]. destruct (IHb st1) as (A2 & W2 & l2 & E2). rewrite A2, W2, E2, E1. split; auto. split; auto. exists (l1 ++ l2). rewrite app_assoc. auto.
  - specialize (IHa st). destruct (exec a st) as [x st1]. cbn [snd] in IHa. destruct IHa as (A1 & W1 & l1 & E1).
    destruct x; cbn [snd]; [|eauto]. destruct (IHb st1) as (A2 & W2 & l2 & E2). rewrite A2, W2, E2, E1. split; auto. split; auto. exists (l1 ++ l2). rewrite app_assoc. auto.
  - destruct (enter g force st) as [[b st1]|] eqn:En.
    + apply enter_active in En as (A & B & _ & W & l & E). specialize (IH st1). destruct (exec body st1) as [x st2]. cbn [snd] in *. destruct IH as (A2 & W2 & l2 & E2).
      unfold leave. rewrite A2, A, Nat.eqb_refl. cbn. rewrite W2, E2, E. repeat split; auto. exists (l ++ l2). rewrite app_assoc. auto.
    + cbn. repeat split; auto. exists []. rewrite app_nil_r. auto.
Qed.
Print Assumptions C48_nested.

(** In a block opened with keywords the settings are those in force before, with the keywords given replaced (the last
    one given for a field counts; a None counts only for indent). An unknown keyword raises and changes nothing. *)
Fixpoint last_given {V} (f : nat) (kw : list (nat * option V)) : option (option V) :=
  match kw with
  | [] => None
  | (k, v) :: kw => match last_given f kw with
                    | Some x => Some x
                    | None => if f =? k then match v with Some _ => Some v | None => if f =? 14 then Some None else None end else None
                    end
  end.
Theorem C48_inside : forall V kw force (st : state V) body,
  (forall b st', enter (Keywords kw) force st = Some (b, st') ->
     Forall (fun p => fst p < 15) kw /\
     forall f, settings_of st' (st_active st') f = match last_given f kw with Some v => v | None => settings_of st (st_active st) f end) /\
  (~ Forall (fun p => fst p < 15) kw -> exec (With (Keywords kw) force body) st = (true, st)).
Proof.
  intros V kw force st body.
  assert (O : forall s, match override kw s with
    | Some s' => Forall (fun p => fst p < 15) kw /\ forall f, s' f = match last_given f kw with Some v => v | None => s f end
    | None => ~ Forall (fun p => fst p < 15) kw end).
  { induction kw as [|[k v] kw IH]; intros s; cbn [override last_given]; [auto|]. unfold known. destruct (Nat.ltb_spec k 15) as [L|L]; cbn [negb]; [|intros F; inversion F; cbn in *; lia].
    match goal with |- context [override kw ?s'] => specialize (IH s'); destruct (override kw s') end; [|intros F; inversion F; auto].
    destruct IH as [F E]. split; [constructor; auto|]. intros f. rewrite E. destruct (last_given f kw); auto. unfold f_indent.
    destruct v as [v|]; [destruct (f =? k); auto|]. destruct (Nat.eqb_spec k 14), (Nat.eqb_spec f k), (Nat.eqb_spec f 14); try lia; auto. }
  specialize (O (settings_of st (st_active st))). cbn. destruct (override kw _) as [s|].
  - split; [|tauto]. intros b st' [= <- <-]. destruct O as [F E]. split; auto. intros f. unfold settings_of at 1. cbn. rewrite nth_middle. apply E.
  - split; [discriminate|auto].
Qed.
Print Assumptions C48_inside.

(** Blocks opened and closed in any order: closing a block restores what was in force when it was opened if the block's
    own instance is in force or restoring is forced; otherwise it changes nothing and warns. *)
Theorem C48_close : forall V (w : world V) i b, nth_error (fst w) i = Some (b, true) ->
  let w' := happen (Close i) w in
  if b_force b || (st_active (snd w) =? b_own b)
  then st_active (snd w') = b_initial b /\ st_warnings (snd w') = st_warnings (snd w)
  else st_active (snd w') = st_active (snd w) /\ st_warnings (snd w') = S (st_warnings (snd w)).
Proof. intros V w i b E. cbn. rewrite E. cbn. unfold leave. rewrite orb_comm. destruct (_ || _); cbn; auto. Qed.
Print Assumptions C48_close.
(** After any history of blocks opened with keywords and without force_restore, and closed in any order: closing a block
    while one opened after it is still open leaves the active settings unchanged and warns. *)
Definition by_keywords {V} (e : event V) : Prop := match e with Open (Keywords _) false | Close _ => True | _ => False end.
Lemma close_nth_nth l i j : nth_error (close_nth i l) j = if j =? i then match nth_error l j with Some (b, _) => Some (b, false) | None => None end else nth_error l j.
Proof.
  revert i j. induction l as [|[b o] l IH]; intros i j.
  - unfold close_nth. rewrite firstn_nil, skipn_nil. destruct (j =? i), j; auto.
  - destruct i as [|i], j as [|j]; cbn; auto. apply (IH i j).
Qed.
Lemma close_nth_len l i : length (close_nth i l) = length l.
Proof. revert i. induction l as [|[b o] l IH]; intros [|i]; auto. cbn. f_equal. apply (IH i). Qed.
Record good {V} (base : nat) (w : world V) : Prop := {
  g_len : length (st_all (snd w)) = base + length (fst w);
  g_block : forall j b o, nth_error (fst w) j = Some (b, o) -> b_own b = base + j /\ b_initial b < base + j /\ b_force b = false;
  g_open : forall j b, nth_error (fst w) j = Some (b, true) -> base + j <= st_active (snd w);
  g_initial : forall j b o i c, nth_error (fst w) j = Some (b, o) -> nth_error (fst w) i = Some (c, true) -> i < j -> base + i <= b_initial b;
  g_active : st_active (snd w) < base + length (fst w) }.
Lemma good_step V base (w : world V) e : good base w -> by_keywords e -> good base (happen e w).
Proof.
  intros G U. destruct e as [[i|kw] [|]|i]; try contradiction; cbn.
  - destruct (override kw _) as [s|]; [|auto]. destruct G as [L B O In A]. destruct w as [l st]. cbn in *.
    assert (N : forall j x, nth_error (l ++ [(mkBlock (st_active st) (length (st_all st)) false, true)]) j = Some x ->
              (j < length l /\ nth_error l j = Some x) \/ (j = length l /\ x = (mkBlock (st_active st) (length (st_all st)) false, true))).
    { intros j x E. destruct (Nat.lt_trichotomy j (length l)) as [J|[J|J]].
      - rewrite nth_error_app1 in E by lia. auto.
      - subst. rewrite nth_error_app2, Nat.sub_diag in E by lia. injection E as <-. auto.
      - assert (X : nth_error (l ++ [(mkBlock (st_active st) (length (st_all st)) false, true)]) j = None) by (apply nth_error_None; rewrite app_length; cbn; lia). congruence. }
    constructor; cbn; rewrite ?app_length; cbn [length]; try lia.
    + intros j b o E. destruct (N _ _ E) as [[J E']|[-> E']]; [eapply B; eauto|]. injection E' as -> ->. cbn. lia.
    + intros j b E. destruct (N _ _ E) as [[J E']|[-> E']]; lia.
    + intros j b o i c E E2 Lt. destruct (N _ _ E) as [[J E']|[-> E']]; destruct (N _ _ E2) as [[J2 E2']|[-> E2']]; try lia; [eapply In; eauto|].
      injection E' as -> ->. cbn. eapply O; eauto.
  - destruct (nth_error (fst w) i) as [[b [|]]|] eqn:E; auto. destruct G as [L B O In A]. destruct w as [l st]. cbn in *. destruct (B _ _ _ E) as (Ow & I & F).
    assert (N : forall j c o, nth_error (close_nth i l) j = Some (c, o) -> (exists o', nth_error l j = Some (c, o')) /\ (o = true -> j <> i /\ nth_error l j = Some (c, true))).
    { intros j c o. rewrite close_nth_nth. destruct (Nat.eqb_spec j i) as [->|Ne].
      - rewrite E. intros [= <- <-]. split; [eauto|discriminate].
      - intros E'. split; [eauto|]. intros ->. auto. }
    assert (Li : i < length l) by (apply nth_error_Some; congruence).
    unfold leave. rewrite F, orb_false_r. constructor; cbn; rewrite ?close_nth_len.
    + destruct (_ =? _); cbn; auto.
    + intros j c o E'. destruct (N _ _ _ E') as [[o' X] _]. eapply B; eauto.
    + intros j c E'. destruct (N _ _ _ E') as [_ X]. destruct (X eq_refl) as [Ne Oj]. destruct (Nat.eqb_spec (st_active st) (b_own b)) as [Eq|_]; cbn; [|eapply O; eauto].
      pose proof (O _ _ Oj). eapply In; eauto. lia.
    + intros j c o k d E1 E2 Lt. destruct (N _ _ _ E1) as [[o' X1] _]. destruct (N _ _ _ E2) as [_ X2]. destruct (X2 eq_refl). eapply In; eauto.
    + destruct (_ =? _); cbn; lia.
Qed.
Lemma good_run V base (es : list (event V)) : forall w, good base w -> Forall by_keywords es -> good base (happenings es w).
Proof. induction es as [|e es IH]; cbn; intros w G F; auto. inversion F; subst. apply IH; auto. apply good_step; auto. Qed.
Theorem C48_out_of_order_partial : forall V (st : state V) es i b j c, st_active st < length (st_all st) -> Forall by_keywords es ->
  let w := happenings es ([], st) in
  nth_error (fst w) i = Some (b, true) -> nth_error (fst w) j = Some (c, true) -> i < j ->
  let w' := happen (Close i) w in
  st_active (snd w') = st_active (snd w) /\ settings_of (snd w') (st_active (snd w')) = settings_of (snd w) (st_active (snd w)) /\
  st_warnings (snd w') = S (st_warnings (snd w)).
Proof.
  intros V st es i b j c A F w Ei Ej L. assert (G : good (length (st_all st)) w).
  { apply good_run; auto. constructor; cbn; auto; try lia; intros [|?]; try discriminate. }
  cbn. rewrite Ei. cbn. unfold leave. destruct (g_block _ _ G _ _ _ Ei) as (Ow & _ & Fo). rewrite Fo, orb_false_r.
  pose proof (g_open _ _ G _ _ Ej). destruct (Nat.eqb_spec (st_active (snd w)) (b_own b)); [lia|]. cbn. auto.
Qed.
Print Assumptions C48_out_of_order_partial.
(** A block given an instance that an outer block also uses is an exception: closing the outer block first does change
    the settings, and no warning is given for it. *)
Theorem C48_shared_instance_refuted : exists (st : state nat) i, st_active st < length (st_all st) /\
  let w := happenings [Open (Instance i) false; Open (Instance i) false] ([], st) in
  let w' := happen (Close 0) w in
  settings_of (snd w') (st_active (snd w')) <> settings_of (snd w) (st_active (snd w)) /\ st_warnings (snd w') = st_warnings (snd w).
Proof.
  exists (mkState [fun _ => None; fun _ => Some 1] 0 0), 1. split; [cbn; auto|]. cbn. split; auto. intros E. apply (f_equal (fun f => f 0)) in E. discriminate.
Qed.
Print Assumptions C48_shared_instance_refuted.
(** Three nested blocks, one raising inside the others; and two blocks closed in the wrong order. *)
Example C48_case : let st := mkState [fun _ => Some 3] 0 0 in
  exec (Try (With (Keywords [(1, Some 5)]) false (With (Keywords [(14, None)]) true (Seq (With (Keywords [(2, None)]) false Skip) Throw))) Skip) st
    = (false, snd (exec (With (Keywords [(1, Some 5)]) false (With (Keywords [(14, None)]) true (Seq (With (Keywords [(2, None)]) false Skip) Throw))) st)) /\
  (let w := happenings [Open (Keywords [(0, Some 9)]) false; Open (Keywords [(1, Some 8)]) false; Close 0] ([], st) in
   st_warnings (snd w) = 1 /\ map snd (fst w) = [false; true] /\ settings_of (snd w) (st_active (snd w)) 1 = Some 8).
Proof. cbn. auto. Qed.
