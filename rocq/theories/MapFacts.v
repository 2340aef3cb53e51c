(** JSMap and JSSet refine their specifications. *)
From Coq Require Import List NArith ZArith Bool Lia ZifyBool ZifyNat ZifyN.
From Verif Require Import Base Dict SpecNumber ModelValue ValueFacts SpecKey KeyFacts SpecMap ModelMap.
Import ListNotations.
Open Scope Z_scope.

Section DictSplit.
Context {K V : Type} (eqb : K -> K -> bool) (eqb_spec : forall a b, eqb a b = true <-> a = b).
Lemma dget_split k (d : list (K * V)) y : dget eqb k d = Some y ->
  exists a b, d = a ++ (k, y) :: b /\ (forall x, dset eqb k x d = a ++ (k, x) :: b) /\ ddel eqb k d = a ++ b.
Proof.
  induction d as [|[k' v'] d IH]; cbn [dget dset ddel]; [discriminate|].
  destruct (eqb k k') eqn:E.
  - intros H. injection H as ->. apply eqb_spec in E as <-. exists [], d. auto.
  - intros H. destruct (IH H) as [a [b [-> [S D]]]]. exists ((k', v') :: a), b.
    split; [reflexivity|]. split; [intros x; rewrite S; reflexivity|]. rewrite D. reflexivity.
Qed.
End DictSplit.

Section Facts.
Variable bytes_of : nat -> option bytes.
Notation svz_of := (same_value_zero bytes_of).
Notation same := (js_same bytes_of).

Lemma svz_ok k s : svz_of k = Ok s -> ~ huge k.
Proof.
  intros H [z [-> L]]. cbn [same_value_zero] in H. unfold float_overflows in H.
  rewrite (proj2 (Z.leb_le _ _) L) in H. discriminate.
Qed.
Lemma svz_err k e : svz_of k = Err e -> e = EOverflow /\ huge k.
Proof. apply svz_error. Qed.
Lemma svz_same k k' s s' : svz_of k = Ok s -> svz_of k' = Ok s' -> (s = s' <-> same k k').
Proof. intros A B. rewrite <- svz_eqb_spec. eapply svz_js_same; eauto. Qed.

(** Both containers: a dict whose entries have the surrogate of a key of theirs. *)
Section Cont.
Context {E : Type} (key_of_entry : E -> val).
Definition cinv (m : list (svz * E)) : Prop :=
  NoDup (dkeys m) /\ forall s x, In (s, x) m -> svz_of (key_of_entry x) = Ok s.
Lemma cinv_nil : cinv [].
Proof. split; [constructor|intros s x []]. Qed.
Lemma cinv_set m s x : cinv m -> svz_of (key_of_entry x) = Ok s -> cinv (dset svz_eqb s x m).
Proof.
  intros [N F] S. split; [apply dset_NoDup; auto; apply svz_eqb_spec|].
  intros t y I. destruct (dget svz_eqb s m) as [z|] eqn:G.
  - destruct (dget_split _ svz_eqb_spec _ _ _ G) as [a [b [-> [DS _]]]]. rewrite DS in I.
    apply in_app_or in I as [I|[I|I]]; [apply F; apply in_or_app; auto|injection I as <- <-; auto|].
    apply F. apply in_or_app. right. right. auto.
  - rewrite dset_fresh in I by auto. apply in_app_or in I as [I|[I|[]]]; auto. injection I as <- <-. auto.
Qed.
Lemma cinv_del m s : cinv m -> cinv (ddel svz_eqb s m).
Proof.
  intros [N F]. split; [apply ddel_NoDup; auto; apply svz_eqb_spec|].
  intros t y I. apply F. destruct (dget svz_eqb s m) as [z|] eqn:G.
  - destruct (dget_split _ svz_eqb_spec _ _ _ G) as [a [b [-> [_ DD]]]]. rewrite DD in I.
    apply in_app_or in I as [I|I]; apply in_or_app; cbn; auto.
  - rewrite ddel_absent in I; auto.
Qed.
(** A lookup finds an entry with a same key, or there is none. *)
Lemma cinv_lookup m k s : cinv m -> svz_of k = Ok s ->
  match dget svz_eqb s m with
  | Some x => exists a b, map snd m = a ++ x :: b /\ same (key_of_entry x) k /\
        (forall y, map snd (dset svz_eqb s y m) = a ++ y :: b) /\ map snd (ddel svz_eqb s m) = a ++ b
  | None => (forall x, In x (map snd m) -> ~ same (key_of_entry x) k) /\
        (forall y, map snd (dset svz_eqb s y m) = map snd m ++ [y])
  end.
Proof.
  intros [N F] S. destruct (dget svz_eqb s m) as [x|] eqn:G.
  - destruct (dget_split _ svz_eqb_spec _ _ _ G) as [a [b [E0 [DS DD]]]].
    exists (map snd a), (map snd b). split; [rewrite E0, map_app; reflexivity|]. split; [|split].
    + apply (svz_same _ _ s s); auto. apply F. rewrite E0. apply in_or_app. cbn. auto.
    + intros y. rewrite DS, map_app. reflexivity.
    + rewrite DD, map_app. reflexivity.
  - split.
    + intros x I SM. apply in_map_iff in I as [[t y] [<- I]]. cbn [snd] in *.
      apply (svz_same _ _ t s (F t y I) S) in SM. subst t.
      apply (dget_None _ svz_eqb_spec) in G. apply G. apply (in_map fst) in I. exact I.
    + intros y. rewrite dset_fresh by auto. rewrite map_app. reflexivity.
Qed.
Lemma cinv_distinct m i j a b : cinv m -> nth_error (map snd m) i = Some a -> nth_error (map snd m) j = Some b -> i <> j ->
  ~ same (key_of_entry a) (key_of_entry b).
Proof.
  intros [N F] A B NE SM. rewrite nth_error_map in A, B.
  destruct (nth_error m i) as [[s x]|] eqn:MI; [|discriminate]. destruct (nth_error m j) as [[t y]|] eqn:MJ; [|discriminate].
  injection A as <-. injection B as <-. cbn [snd] in SM.
  apply (svz_same _ _ s t) in SM; [|apply F; eapply nth_error_In; eauto|apply F; eapply nth_error_In; eauto].
  subst t. apply NE. eapply NoDup_nth_error; eauto.
  - rewrite map_length. apply nth_error_Some. congruence.
  - rewrite !nth_error_map, MI, MJ. reflexivity.
Qed.
Lemma cinv_head m s x r : cinv m -> m = (s, x) :: r -> svz_of (key_of_entry x) = Ok s /\
  dget svz_eqb s m = Some x /\ ddel svz_eqb s m = r.
Proof.
  intros [N F] ->. split; [apply F; cbn; auto|]. cbn [dget ddel]. rewrite (proj2 (svz_eqb_spec s s) eq_refl). auto.
Qed.
End Cont.

(** ** Maps *)
Section Map.
Context {V : Type}.
Notation minv := (cinv (@fst val V)).
Notation abs := (map (@snd svz (val * V))).

Lemma absent_intro (m : jsmap V) k : (forall x, In x (abs m) -> ~ same (fst x) k) -> absent bytes_of (abs m) k.
Proof. intros H k' v' I. exact (H (k', v') I). Qed.

Lemma jm_set_spec m k v : minv m ->
  match jm_set bytes_of m k v with
  | Ok m' => minv m' /\ ~ huge k /\ put_entry bytes_of (abs m) k v (abs m')
  | Err e => e = EOverflow /\ huge k
  end.
Proof.
  intros I. unfold jm_set. destruct (svz_of k) as [s|e] eqn:S; cbn [bind]; [|apply svz_err; auto].
  split; [apply cinv_set; auto|]. split; [eapply svz_ok; eauto|].
  pose proof (cinv_lookup _ m k s I S) as L. destruct (dget svz_eqb s m) as [[k' v']|].
  - destruct L as [a [b [E [SM [DS _]]]]]. rewrite DS. eapply put_replace; eauto.
  - destruct L as [AB DS]. rewrite DS. apply put_append. apply absent_intro. exact AB.
Qed.

Lemma jm_update_spec ps : forall m, minv m ->
  exists r m', jm_update bytes_of m ps = (r, m') /\ minv m' /\
   ((r = Ok tt /\ put_entries bytes_of (abs m) ps (abs m')) \/
    (exists p1 k v p2, ps = p1 ++ (k, v) :: p2 /\ r = Err EOverflow /\ huge k /\ put_entries bytes_of (abs m) p1 (abs m'))).
Proof.
  induction ps as [|[k v] ps IH]; intros m I; cbn [jm_update].
  - exists (Ok tt), m. split; [reflexivity|]. split; [exact I|]. left. split; [reflexivity|constructor].
  - pose proof (jm_set_spec m k v I) as S. destruct (jm_set bytes_of m k v) as [m1|e].
    + destruct S as [I1 [NH P]]. destruct (IH m1 I1) as [r [m2 [E [I2 O]]]]. exists r, m2. split; [exact E|]. split; [exact I2|].
      destruct O as [[-> P2]|[p1 [k' [v' [p2 [-> [-> [H P2]]]]]]]].
      * left. split; [reflexivity|]. econstructor; eauto.
      * right. exists ((k, v) :: p1), k', v', p2. split; [reflexivity|]. split; [reflexivity|]. split; [exact H|]. econstructor; eauto.
    + destruct S as [-> H]. exists (Err EOverflow), m. split; [reflexivity|]. split; [exact I|]. right.
      exists [], k, v, ps. split; [reflexivity|]. split; [reflexivity|]. split; [exact H|]. constructor.
Qed.

Lemma jm_items_of_spec m l : minv m -> incl l m -> jm_items_of bytes_of m (map (fun p => fst (snd p)) l) = Ok (abs l).
Proof.
  intros I. induction l as [|[s [k v]] l IH]; intros INC; cbn [map jm_items_of fst snd]; [reflexivity|].
  unfold jm_get. assert (In (s, (k, v)) m) as IN by (apply INC; cbn; auto).
  pose proof (proj2 I s (k, v) IN) as S. cbn [fst] in S. rewrite S. cbn [bind].
  rewrite (in_dget _ svz_eqb_spec s (k, v) m (proj1 I) IN). cbn [bind snd].
  rewrite IH; [reflexivity|]. intros x X. apply INC. cbn. auto.
Qed.

Lemma jm_op_refines m o r m' : minv m -> jm_op bytes_of m o = (r, m') ->
  minv m' /\ (kspec bytes_of (abs m) o r (abs m') \/ kdeviation bytes_of (abs m) o r (abs m')).
Proof.
  intros I H. destruct o as [k v|k|k|k d|k| | | |k| |k v|ps|]; cbn [jm_op] in H.
  - pose proof (jm_set_spec m k v I) as S. destruct (jm_set bytes_of m k v) as [m1|e]; injection H as <- <-.
    + destruct S as [I1 [NH P]]. split; [exact I1|]. left. constructor; auto.
    + destruct S as [-> HG]. split; [exact I|]. right. eapply kd_huge; eauto. reflexivity.
  - unfold jm_del in H. destruct (svz_of k) as [s|e] eqn:S; cbn [bind] in H.
    + pose proof (cinv_lookup _ m k s I S) as L. unfold dmem in H. destruct (dget svz_eqb s m) as [[k' v']|]; injection H as <- <-.
      * destruct L as [a [b [E [SM [_ DD]]]]]. split; [apply cinv_del; auto|]. left. rewrite DD. eapply ks_del; eauto.
      * destruct L as [AB _]. split; [exact I|]. left. apply ks_del_missing; [eapply svz_ok; eauto|apply absent_intro; auto].
    + injection H as <- <-. apply svz_err in S as [-> HG]. split; [exact I|]. right. eapply kd_huge; eauto. reflexivity.
  - unfold jm_get in H. destruct (svz_of k) as [s|e] eqn:S; cbn [bind] in H.
    + pose proof (cinv_lookup _ m k s I S) as L. destruct (dget svz_eqb s m) as [[k' v']|]; injection H as <- <-; (split; [exact I|]); left.
      * destruct L as [a [b [E [SM _]]]]. eapply ks_get; eauto.
      * destruct L as [AB _]. apply ks_get_missing; [eapply svz_ok; eauto|apply absent_intro; auto].
    + injection H as <- <-. apply svz_err in S as [-> HG]. split; [exact I|]. right. eapply kd_huge; eauto. reflexivity.
  - unfold jm_get_default in H. destruct (svz_of k) as [s|e] eqn:S; cbn [bind] in H.
    + pose proof (cinv_lookup _ m k s I S) as L. destruct (dget svz_eqb s m) as [[k' v']|]; injection H as <- <-; (split; [exact I|]); left.
      * destruct L as [a [b [E [SM _]]]]. eapply ks_getd; eauto.
      * destruct L as [AB _]. apply ks_getd_missing; [eapply svz_ok; eauto|apply absent_intro; auto].
    + injection H as <- <-. apply svz_err in S as [-> HG]. split; [exact I|]. right. eapply kd_huge; eauto. reflexivity.
  - unfold jm_contains, jm_get in H. destruct (svz_of k) as [s|e] eqn:S; cbn [bind] in H.
    + pose proof (cinv_lookup _ m k s I S) as L. destruct (dget svz_eqb s m) as [[k' v']|]; injection H as <- <-; (split; [exact I|]); left.
      * destruct L as [a [b [E [SM _]]]]. eapply ks_contains; eauto.
      * destruct L as [AB _]. apply ks_contains_not; [eapply svz_ok; eauto|apply absent_intro; auto].
    + apply svz_err in S as [-> HG]. injection H as <- <-. split; [exact I|]. right. eapply kd_huge; eauto. reflexivity.
  - injection H as <- <-. split; [exact I|]. left. unfold jm_iter. rewrite <- (map_map snd fst). constructor.
  - unfold jm_items, jm_iter in H. rewrite (jm_items_of_spec m m I (incl_refl m)) in H. injection H as <- <-.
    split; [exact I|]. left. constructor.
  - injection H as <- <-. split; [exact I|]. left. unfold jm_len. rewrite <- (map_length snd). constructor.
  - unfold jm_get, jm_del in H. destruct (svz_of k) as [s|e] eqn:S; cbn [bind] in H.
    + pose proof (cinv_lookup _ m k s I S) as L. unfold dmem in H. destruct (dget svz_eqb s m) as [[k' v']|] eqn:G; injection H as <- <-.
      * destruct L as [a [b [E [SM [_ DD]]]]]. split; [apply cinv_del; auto|]. left. rewrite DD. eapply ks_pop; eauto.
      * destruct L as [AB _]. split; [exact I|]. left. apply ks_pop_missing; [eapply svz_ok; eauto|apply absent_intro; auto].
    + injection H as <- <-. apply svz_err in S as [-> HG]. split; [exact I|]. right. eapply kd_huge; eauto. reflexivity.
  - unfold jm_iter in H. destruct m as [|[s [k v]] m0] eqn:M; cbn [map] in H.
    + injection H as <- <-. split; [exact I|]. left. apply ks_popitem_empty. reflexivity.
    + rewrite <- M in *. destruct (cinv_head _ m s (k, v) m0 I M) as [S [G D]]. cbn [fst snd] in *.
      unfold jm_get, jm_del, dmem in H. rewrite S in H. cbn [bind] in H. rewrite G in H. injection H as <- <-.
      split; [apply cinv_del; auto|]. left. rewrite D, M. apply ks_popitem with (1 := eq_refl).
  - unfold jm_get, jm_set in H. destruct (svz_of k) as [s|e] eqn:S; cbn [bind] in H.
    + pose proof (cinv_lookup _ m k s I S) as L. destruct (dget svz_eqb s m) as [[k' v']|] eqn:G; injection H as <- <-.
      * destruct L as [a [b [E [SM _]]]]. split; [exact I|]. left. eapply ks_setdefault; eauto.
      * destruct L as [AB DS]. split; [apply cinv_set; auto|]. left. rewrite DS.
        apply ks_setdefault_missing; [eapply svz_ok; eauto|apply absent_intro; auto].
    + apply svz_err in S as [-> HG]. injection H as <- <-. split; [exact I|]. right. eapply kd_huge; eauto. reflexivity.
  - destruct (jm_update_spec ps m I) as [r1 [m1 [E [I1 O]]]]. rewrite E in H.
    destruct O as [[-> P]|[p1 [k [v [p2 [-> [-> [HG P]]]]]]]]; injection H as <- <-; (split; [exact I1|]).
    + left. constructor; auto.
    + right. apply kd_update; auto.
  - injection H as <- <-. split; [apply cinv_nil|]. left. constructor.
Qed.

Lemma jm_ops_refines ops : forall m tr m', minv m -> jm_ops bytes_of m ops = (tr, m') ->
  minv m' /\ kspecs bytes_of (abs m) tr (abs m').
Proof.
  induction ops as [|o ops IH]; intros m tr m' I H; cbn [jm_ops] in H.
  - injection H as <- <-. split; [exact I|constructor].
  - destruct (jm_op bytes_of m o) as [r m1] eqn:E1. destruct (jm_ops bytes_of m1 ops) as [tr2 m2] eqn:E2.
    injection H as <- <-. destruct (jm_op_refines m o r m1 I E1) as [I1 S1].
    destruct (IH m1 tr2 m2 I1 E2) as [I2 S2]. split; [exact I2|]. econstructor; eauto.
Qed.
End Map.

(** ** Sets *)
Notation sinv := (cinv (fun k : val => k)).
Notation sabs := (map (@snd svz val)).
Lemma js_add_spec m k : sinv m ->
  match js_add bytes_of m k with
  | Ok m' => sinv m' /\ ~ huge k /\ add_member bytes_of (sabs m) k (sabs m')
  | Err e => e = EOverflow /\ huge k
  end.
Proof.
  intros I. unfold js_add. destruct (svz_of k) as [s|e] eqn:S; cbn [bind]; [|apply svz_err; auto].
  split; [apply cinv_set; auto|]. split; [eapply svz_ok; eauto|].
  pose proof (cinv_lookup _ m k s I S) as L. destruct (dget svz_eqb s m) as [k'|].
  - destruct L as [a [b [E [SM [DS _]]]]]. rewrite DS. eapply add_old; eauto.
  - destruct L as [AB DS]. rewrite DS. apply add_new. exact AB.
Qed.
Lemma js_union_spec ks : forall m, sinv m ->
  exists r m', js_union bytes_of m ks = (r, m') /\ sinv m' /\
   ((r = Ok tt /\ add_members bytes_of (sabs m) ks (sabs m')) \/
    (exists p1 k p2, ks = p1 ++ k :: p2 /\ r = Err EOverflow /\ huge k /\ add_members bytes_of (sabs m) p1 (sabs m'))).
Proof.
  induction ks as [|k ks IH]; intros m I; cbn [js_union].
  - exists (Ok tt), m. split; [reflexivity|]. split; [exact I|]. left. split; [reflexivity|constructor].
  - pose proof (js_add_spec m k I) as S. destruct (js_add bytes_of m k) as [m1|e].
    + destruct S as [I1 [NH P]]. destruct (IH m1 I1) as [r [m2 [E [I2 O]]]]. exists r, m2. split; [exact E|]. split; [exact I2|].
      destruct O as [[-> P2]|[p1 [k' [p2 [-> [-> [H P2]]]]]]].
      * left. split; [reflexivity|]. econstructor; eauto.
      * right. exists (k :: p1), k', p2. split; [reflexivity|]. split; [reflexivity|]. split; [exact H|]. econstructor; eauto.
    + destruct S as [-> H]. exists (Err EOverflow), m. split; [reflexivity|]. split; [exact I|]. right.
      exists [], k, ks. split; [reflexivity|]. split; [reflexivity|]. split; [exact H|]. constructor.
Qed.
Lemma js_op_refines m o r m' : sinv m -> js_op bytes_of m o = (r, m') ->
  sinv m' /\ (sspec bytes_of (sabs m) o r (sabs m') \/ sdeviation bytes_of (sabs m) o r (sabs m')).
Proof.
  intros I H. destruct o as [k|k|k|k| | | | |ks]; cbn [js_op] in H.
  - pose proof (js_add_spec m k I) as S. destruct (js_add bytes_of m k) as [m1|e]; injection H as <- <-.
    + destruct S as [I1 [NH P]]. split; [exact I1|]. left. constructor; auto.
    + destruct S as [-> HG]. split; [exact I|]. right. eapply sd_huge; eauto. reflexivity.
  - unfold js_discard in H. destruct (svz_of k) as [s|e] eqn:S; cbn [bind] in H.
    + pose proof (cinv_lookup _ m k s I S) as L. unfold dmem in H. destruct (dget svz_eqb s m) as [k'|]; injection H as <- <-.
      * destruct L as [a [b [E [SM [_ DD]]]]]. split; [apply cinv_del; auto|]. left. rewrite DD. eapply ss_discard; eauto.
      * destruct L as [AB _]. split; [exact I|]. left. apply ss_discard_absent; [eapply svz_ok; eauto|exact AB].
    + injection H as <- <-. apply svz_err in S as [-> HG]. split; [exact I|]. right. eapply sd_huge; eauto. reflexivity.
  - unfold js_contains, js_discard in H. destruct (svz_of k) as [s|e] eqn:S; cbn [bind] in H.
    + pose proof (cinv_lookup _ m k s I S) as L. unfold dmem in H. destruct (dget svz_eqb s m) as [k'|]; injection H as <- <-.
      * destruct L as [a [b [E [SM [_ DD]]]]]. split; [apply cinv_del; auto|]. left. rewrite DD. eapply ss_remove; eauto.
      * destruct L as [AB _]. split; [exact I|]. left. apply ss_remove_absent; [eapply svz_ok; eauto|exact AB].
    + injection H as <- <-. apply svz_err in S as [-> HG]. split; [exact I|]. right. eapply sd_huge; eauto. reflexivity.
  - unfold js_contains in H. destruct (svz_of k) as [s|e] eqn:S; cbn [bind] in H.
    + pose proof (cinv_lookup _ m k s I S) as L. unfold dmem in H. destruct (dget svz_eqb s m) as [k'|]; injection H as <- <-; (split; [exact I|]); left.
      * destruct L as [a [b [E [SM _]]]]. eapply ss_contains; eauto.
      * destruct L as [AB _]. apply ss_contains_not; [eapply svz_ok; eauto|exact AB].
    + injection H as <- <-. apply svz_err in S as [-> HG]. split; [exact I|]. right. eapply sd_huge; eauto. reflexivity.
  - injection H as <- <-. split; [exact I|]. left. constructor.
  - injection H as <- <-. split; [exact I|]. left. unfold js_len. rewrite <- (map_length snd). constructor.
  - unfold js_iter in H. destruct m as [|[s k] m0] eqn:M; cbn [map snd] in H.
    + injection H as <- <-. split; [exact I|]. left. apply ss_pop_empty. reflexivity.
    + rewrite <- M in *. destruct (cinv_head _ m s k m0 I M) as [S [G D]].
      unfold js_discard, dmem in H. rewrite S in H. cbn [bind] in H. rewrite G in H. injection H as <- <-.
      split; [apply cinv_del; auto|]. left. rewrite D, M. apply ss_pop with (1 := eq_refl).
  - injection H as <- <-. split; [apply cinv_nil|]. left. constructor.
  - destruct (js_union_spec ks m I) as [r1 [m1 [E [I1 O]]]]. rewrite E in H.
    destruct O as [[-> P]|[p1 [k [p2 [-> [-> [HG P]]]]]]]; injection H as <- <-; (split; [exact I1|]).
    + left. constructor; auto.
    + right. apply sd_union; auto.
Qed.
Lemma js_ops_refines ops : forall m tr m', sinv m -> js_ops bytes_of m ops = (tr, m') ->
  sinv m' /\ sspecs bytes_of (sabs m) tr (sabs m').
Proof.
  induction ops as [|o ops IH]; intros m tr m' I H; cbn [js_ops] in H.
  - injection H as <- <-. split; [exact I|constructor].
  - destruct (js_op bytes_of m o) as [r m1] eqn:E1. destruct (js_ops bytes_of m1 ops) as [tr2 m2] eqn:E2.
    injection H as <- <-. destruct (js_op_refines m o r m1 I E1) as [I1 S1].
    destruct (IH m1 tr2 m2 I1 E2) as [I2 S2]. split; [exact I2|]. econstructor; eauto.
Qed.
End Facts.
