(** Facts about the recursion guard of ==. *)
From Coq Require Import List NArith ZArith Bool Lia Arith.
From Verif Require Import Base ModelArray ModelEq.
Import ListNotations.
Open Scope nat_scope.

Lemma key_eqb_spec x y : key_eqb x y = true <-> x = y.
Proof. destruct x as [a b], y as [c d]. unfold key_eqb. cbn. rewrite andb_true_iff, !Nat.eqb_eq. split; [intros []|intros [=]]; subst; auto. Qed.
Lemma kmem_In k s : kmem k s = true <-> In k s.
Proof.
  unfold kmem. rewrite existsb_exists. split; [intros (x & I & E); apply key_eqb_spec in E as ->; auto|]. intros I. exists k. split; auto. apply key_eqb_spec. auto.
Qed.
Lemma kmem_false k s : kmem k s = false <-> ~ In k s.
Proof. rewrite <- kmem_In. destruct (kmem k s); split; auto; try discriminate. intros N. exfalso. apply N. auto. Qed.
Lemma kadd_fresh k s : ~ In k s -> kadd k s = k :: s.
Proof. intros N. unfold kadd. apply kmem_false in N as ->. auto. Qed.
Lemma kadd_In k x s : In x (kadd k s) <-> x = k \/ In x s.
Proof. unfold kadd. destruct (kmem k s) eqn:E; cbn; [|intuition congruence]. split; auto. intros [->|]; auto. apply kmem_In. auto. Qed.
Lemma kdel_In k x s : In x (kdel k s) <-> x <> k /\ In x s.
Proof.
  unfold kdel. rewrite filter_In. split; intros [A B]; split; auto.
  - intros ->. rewrite (proj2 (key_eqb_spec k k) eq_refl) in B. discriminate.
  - destruct (key_eqb k x) eqn:E; auto. apply key_eqb_spec in E. congruence.
Qed.
Lemma kdel_fresh k s : ~ In k s -> kdel k s = s.
Proof.
  induction s as [|x s IH]; cbn; auto. intros N. destruct (key_eqb k x) eqn:E; cbn.
  - apply key_eqb_spec in E. exfalso. apply N. auto.
  - f_equal. apply IH. auto.
Qed.
Lemma kdel_head k s : ~ In k s -> kdel k (k :: s) = s.
Proof. intros N. cbn. rewrite (proj2 (key_eqb_spec k k) eq_refl). cbn. apply kdel_fresh. auto. Qed.

(** The objects below [n] that are not running in thread [t]. *)
Definition free (n t : nat) (s : kset) : nat := length (filter (fun o => negb (kmem (o, t) s)) (seq 0 n)).
Lemma filter_le {A} (f g : A -> bool) l : (forall x, f x = true -> g x = true) -> length (filter f l) <= length (filter g l).
Proof. intros L. induction l as [|x l IH]; cbn; auto. destruct (f x) eqn:E; [rewrite (L x E); cbn; lia|]. destruct (g x); cbn; lia. Qed.
Lemma filter_lt {A} (f g : A -> bool) l x : (forall x, f x = true -> g x = true) -> In x l -> f x = false -> g x = true -> length (filter f l) < length (filter g l).
Proof.
  intros L I F G. induction l as [|y l IH]; [destruct I|]. cbn. destruct I as [->|I].
  - rewrite F, G. cbn. pose proof (filter_le f g l L). lia.
  - specialize (IH I). destruct (f y) eqn:E; [rewrite (L y E); cbn; lia|]. destruct (g y); cbn; lia.
Qed.
Lemma free_cons n t s a b : a < n -> ~ In (a, t) s -> free n t ((b, t) :: (a, t) :: s) < free n t s.
Proof.
  intros L N. unfold free. apply filter_lt with a.
  - intros x. rewrite !negb_true_iff, !kmem_false. cbn. tauto.
  - apply in_seq. lia.
  - apply negb_false_iff, kmem_In. cbn. auto.
  - apply negb_true_iff, kmem_false. auto.
Qed.

Section Gen.
Variable wrapped : nat -> nat -> tree.
Variable subclass : nat -> nat -> bool.
Variables n t : nat.
Variable Inv : kset -> nat -> nat -> Prop.
Variable Post : nat -> nat -> outcome answer -> Prop.
(** What holds of the operator's result. *)
Definition verdict (second : outcome answer -> Prop) (same : bool) (r1 : outcome answer) (r : outcome bool) : Prop :=
  match r1 with
  | Returned Yes => r = Returned true
  | Returned No => r = Returned false
  | Returned NotImpl => exists r2, second r2 /\
      match r2 with
      | Returned Yes => r = Returned true
      | Returned No => r = Returned false
      | Returned NotImpl => r = Returned same
      | Raised e => r = Raised e
      | NoFuel => False
      end
  | Raised e => r = Raised e
  | NoFuel => False
  end.
Definition opost (a b : nat) (r : outcome bool) : Prop :=
  let '(x, y) := if subclass a b then (b, a) else (a, b) in exists r1, Post x y r1 /\ verdict (Post y x) (a =? b) r1 r.
Definition opre (s : kset) (a b : nat) : Prop :=
  let '(x, y) := if subclass a b then (b, a) else (a, b) in Inv s x y /\ (Post x y (Returned NotImpl) -> Inv s y x).
Fixpoint wp (s : kset) (w : tree) (Q : outcome answer -> Prop) : Prop :=
  match w with
  | Done r => Q (Returned r)
  | Raise e => Q (Raised e)
  | Ask c d f => opre s c d /\ forall r, opost c d r ->
      match r with Returned x => wp s (f x) Q | Raised e => Q (Raised e) | NoFuel => True end
  end.
Hypothesis Hin : forall s a b, Inv s a b -> a <> b -> a < n /\ b < n.
Hypothesis Hsame : forall s a, Inv s a a -> Post a a (Returned Yes).
Hypothesis Hrun : forall s a b, Inv s a b -> a <> b -> In (a, t) s \/ In (b, t) s ->
  Post a b (Returned (if kmem (a, t) s && kmem (b, t) s then Yes else No)).
Hypothesis Hbody : forall s a b, Inv s a b -> a <> b -> ~ In (a, t) s -> ~ In (b, t) s -> wp ((b, t) :: (a, t) :: s) (wrapped a b) (Post a b).

Definition settles (u : nat) (s : kset) (a b : nat) (r : outcome answer) : Prop :=
  forall fuel k, u < fuel -> run (decorated wrapped subclass fuel t a b k) s = run (k r) s.
Definition op_settles (u : nat) (s : kset) (a b : nat) (r : outcome bool) : Prop :=
  forall fuel k, u < fuel -> run (operator subclass (decorated wrapped subclass fuel t) a b k) s = run (k r) s.
Lemma op_gen u s : (forall a b, Inv s a b -> exists r, Post a b r /\ r <> NoFuel /\ settles u s a b r) ->
  forall a b, opre s a b -> exists r, opost a b r /\ r <> NoFuel /\ op_settles u s a b r.
Proof.
  intros D a b. unfold opre, opost, op_settles, operator. destruct (if subclass a b then (b, a) else (a, b)) as [x y]. intros [I I2].
  destruct (D x y I) as (r1 & P1 & N1 & S1). destruct r1 as [[| |]|e|]; [| | | |congruence].
  1: exists (Returned true). 2: exists (Returned false). 4: exists (Raised e).
  1,2,4: (split; [eexists; split; [exact P1|reflexivity]|split; [discriminate|intros fuel k L; rewrite (S1 fuel _ L); reflexivity]]).
  destruct (D y x (I2 P1)) as (r2 & P2 & N2 & S2).
  exists (match r2 with Returned Yes => Returned true | Returned No => Returned false | Returned NotImpl => Returned (a =? b) | Raised e => Raised e | NoFuel => NoFuel end).
  split. { eexists. split; [exact P1|]. exists r2. split; auto. destruct r2 as [[| |]| |]; auto; congruence. }
  split. { destruct r2 as [[| |]| |]; congruence. }
  intros fuel k L. rewrite (S1 fuel _ L). rewrite (S2 fuel _ L). destruct r2 as [[| |]| |]; reflexivity.
Qed.
Lemma follow_gen u s : (forall a b, opre s a b -> exists r, opost a b r /\ r <> NoFuel /\ op_settles u s a b r) ->
  forall w (Q : outcome answer -> Prop), wp s w Q ->
  exists r, Q r /\ r <> NoFuel /\ forall fuel k, u < fuel -> run (follow (operator subclass (decorated wrapped subclass fuel t)) w k) s = run (k r) s.
Proof.
  intros D. induction w as [r|e|c d f IH]; intros Q W; cbn [wp] in W.
  - exists (Returned r). repeat split; auto. discriminate.
  - exists (Raised e). repeat split; auto. discriminate.
  - destruct W as [Pre W]. destruct (D c d Pre) as (r & P & N & S1). specialize (W r P). destruct r as [x|e|]; [| |congruence].
    + destruct (IH x Q W) as (r & QR & NR & S2). exists r. split; auto. split; auto. intros fuel k L. cbn [follow]. rewrite (S1 fuel _ L). apply S2. auto.
    + exists (Raised e). split; auto. split; [discriminate|]. intros fuel k L. cbn [follow]. rewrite (S1 fuel _ L). reflexivity.
Qed.
Lemma decorated_gen : forall u s a b, free n t s <= u -> Inv s a b -> exists r, Post a b r /\ r <> NoFuel /\ settles u s a b r.
Proof.
  intros u. induction u as [u IH] using lt_wf_ind. intros s a b F I. destruct (Nat.eq_dec a b) as [<-|N].
  { exists (Returned Yes). split; [eapply Hsame; eauto|]. split; [discriminate|]. intros [|fuel] k L; [lia|]. cbn [decorated]. rewrite Nat.eqb_refl. reflexivity. }
  assert (NB : (a =? b) = false) by (apply Nat.eqb_neq; auto).
  destruct (kmem (a, t) s || kmem (b, t) s) eqn:RUN.
  { eexists. split; [apply (Hrun s a b I N); apply orb_true_iff in RUN as [X|X]; apply kmem_In in X; auto|]. split; [discriminate|].
    intros [|fuel] k L; [lia|]. cbn [decorated]. rewrite NB. cbn [run]. rewrite RUN. reflexivity. }
  pose proof RUN as RUN'. apply orb_false_iff in RUN' as [NA NBm]. apply kmem_false in NA, NBm. destruct (Hin s a b I N) as [La Lb].
  pose proof (free_cons n t s a b La NA) as FL. set (s' := (b, t) :: (a, t) :: s) in *.
  assert (U : 0 < u) by lia. destruct u as [|u]; [lia|].
  destruct (follow_gen u s') with (w := wrapped a b) (Q := Post a b) as (r & P & NF & S1).
  { apply op_gen. intros c d I'. apply IH; auto. lia. }
  { apply Hbody; auto. }
  exists r. split; auto. split; auto. intros [|fuel] k L; [lia|]. cbn [decorated]. rewrite NB. cbn [run]. rewrite RUN. cbn [run].
  assert (NB' : ~ In (b, t) ((a, t) :: s)) by (intros [X|X]; [congruence|auto]).
  rewrite (kadd_fresh (a, t)), (kadd_fresh (b, t)) by auto. fold s'. rewrite (S1 fuel _ ltac:(lia)). cbn [run].
  assert (MA : kmem (a, t) s' = true) by (apply kmem_In; cbn; auto). rewrite MA.
  assert (DA : kdel (a, t) s' = (b, t) :: s).
  { unfold s'. cbn [kdel filter]. destruct (key_eqb (a, t) (b, t)) eqn:E; [apply key_eqb_spec in E; congruence|]. cbn [negb]. f_equal. apply (kdel_head (a, t) s). auto. }
  rewrite DA. assert (MB : kmem (b, t) ((b, t) :: s) = true) by (apply kmem_In; cbn; auto). rewrite MB, kdel_head; auto.
Qed.
Theorem compare_gen s a b : opre s a b -> exists r, opost a b r /\ r <> NoFuel /\
  forall fuel, free n t s < fuel -> run (compare wrapped subclass fuel t a b) s = (r, s).
Proof.
  intros P. destruct (op_gen (free n t s) s) with (a := a) (b := b) as (r & OP & N & S1); auto.
  { intros c d I. apply decorated_gen; auto. }
  exists r. split; auto. split; auto. intros fuel L. unfold compare. rewrite (S1 fuel _ L). reflexivity.
Qed.
End Gen.
Lemma free_le n t s : free n t s <= n.
Proof.
  unfold free. rewrite <- (seq_length n 0) at 2. generalize (seq 0 n) as l. induction l as [|x l IH]; cbn; auto. destruct (negb _); cbn; lia.
Qed.

(** * Threads *)
(** All operations of a program are on keys of thread [t]. *)
Fixpoint local (t : nat) (p : prog) : Prop :=
  match p with
  | Finish _ => True
  | Mem k c => snd k = t /\ forall x, local t (c x)
  | Add k c => snd k = t /\ local t c
  | Remove k c m => snd k = t /\ local t c /\ local t m
  end.
Section Local.
Variable wrapped : nat -> nat -> tree.
Variable subclass : nat -> nat -> bool.
Lemma operator_local call t a b k : (forall a b k, (forall r, local t (k r)) -> local t (call a b k)) -> (forall r, local t (k r)) -> local t (operator subclass call a b k).
Proof.
  intros C K. unfold operator. destruct (subclass a b); (apply C; intros [[| |]| |]; auto; apply C; intros [[| |]| |]; auto).
Qed.
Lemma follow_local op t w : (forall a b k, (forall r, local t (k r)) -> local t (op a b k)) -> forall k, (forall r, local t (k r)) -> local t (follow op w k).
Proof. intros O. induction w as [r|e|c d f IH]; intros k K; cbn; auto. apply O. intros [x|e|]; auto. Qed.
Lemma decorated_local t fuel : forall a b k, (forall r, local t (k r)) -> local t (decorated wrapped subclass fuel t a b k).
Proof.
  induction fuel as [|fuel IH]; intros a b k K; cbn [decorated]; auto. destruct (a =? b); auto. cbn [local fst snd]. split; auto. intros x. split; auto. intros y.
  destruct (x || y); auto. cbn [local]. split; auto. split; auto. apply follow_local.
  - intros c d k' K'. apply operator_local; auto.
  - intros r. cbn [local]. auto 10.
Qed.
Lemma compare_local fuel t a b : local t (compare wrapped subclass fuel t a b).
Proof. apply operator_local; [|cbn; auto]. intros c d k K. apply decorated_local; auto. Qed.
End Local.

(** Two sets with the same keys of thread [t]. *)
Definition agree (t : nat) (s s' : kset) : Prop := forall o, In (o, t) s <-> In (o, t) s'.
Lemma agree_mem t s s' k : agree t s s' -> snd k = t -> kmem k s = kmem k s'.
Proof. destruct k as [o u]. cbn. intros A ->. apply eq_true_iff_eq. rewrite !kmem_In. apply A. Qed.
Lemma step1_agree t p s s' : local t p -> agree t s s' -> fst (step1 p s) = fst (step1 p s') /\ agree t (snd (step1 p s)) (snd (step1 p s')) /\ local t (fst (step1 p s)).
Proof.
  intros L A. destruct p as [r|k c|k c|k c m]; cbn in *.
  - auto.
  - destruct L as [T L]. rewrite (agree_mem t s s' k A T). auto.
  - destruct L as [T L]. repeat split; auto; rewrite !kadd_In; rewrite (A o); auto.
  - destruct L as (T & L & M). rewrite (agree_mem t s s' k A T). destruct (kmem k s'); cbn; auto. split; auto. split; auto. intros o. rewrite !kdel_In, (A o). tauto.
Qed.
Lemma step1_run p s : run (fst (step1 p s)) (snd (step1 p s)) = run p s.
Proof. destruct p as [r|k c|k c|k c m]; cbn; auto. destruct (kmem k s); auto. Qed.
Lemma step1_other t p s o u : local t p -> u <> t -> In (o, u) (snd (step1 p s)) <-> In (o, u) s.
Proof.
  intros L N. destruct p as [r|k c|k c|k c m]; cbn in *; try tauto.
  - destruct L as [T L]. rewrite kadd_In. split; auto. intros [<-|]; auto. cbn in T. congruence.
  - destruct L as [T L]. destruct (kmem k s); cbn; [|tauto]. rewrite kdel_In. split; [tauto|]. intros I. split; auto. intros <-. cbn in T. congruence.
Qed.
(** The number of operations a program does alone. *)
Fixpoint cost (p : prog) (s : kset) : nat :=
  match p with
  | Finish _ => 0
  | Mem k c => S (cost (c (kmem k s)) s)
  | Add k c => S (cost c (kadd k s))
  | Remove k c m => S (if kmem k s then cost c (kdel k s) else cost m s)
  end.
Lemma step1_cost p s : cost (fst (step1 p s)) (snd (step1 p s)) = pred (cost p s).
Proof. destruct p as [r|k c|k c|k c m]; cbn; auto. destruct (kmem k s); auto. Qed.
Lemma cost_zero p s : cost p s = 0 -> exists r, p = Finish r /\ run p s = (r, s).
Proof. destruct p as [r|k c|k c|k c m]; cbn; try discriminate. eauto. Qed.

Lemma replace_nth_get {A} (l : list A) i j x : nth_error (replace_nth i x l) j = if Nat.eqb i j then (match nth_error l j with Some _ => Some x | None => None end) else nth_error l j.
Proof. revert i j. induction l as [|y l IH]; intros [|i] [|j]; cbn; auto. destruct (i =? j); auto. Qed.
Section Threads.
Variable ts : list nat.
Hypothesis Distinct : NoDup ts.
Variable ps : list prog.
Variable s0 : kset.
Hypothesis Own : forall i t p, nth_error ts i = Some t -> nth_error ps i = Some p -> local t p.
Hypothesis Len : length ts = length ps.
Definition count_i (i : nat) (sch : list nat) : nat := count_occ Nat.eq_dec sch i.
(** After a schedule, each thread is where it would be alone after as many operations. *)
Lemma schedule_inv sch : let c := schedule sch (ps, s0) in
  length (fst c) = length ps /\
  (forall i t p q, nth_error ts i = Some t -> nth_error ps i = Some p -> nth_error (fst c) i = Some q ->
     local t q /\ exists s, agree t (snd c) s /\ run q s = run p s0 /\ cost q s = cost p s0 - count_i i sch) /\
  (forall o u, ~ In u ts -> In (o, u) (snd c) <-> In (o, u) s0).
Proof.
  unfold schedule. induction sch as [|i sch IH] using rev_ind; cbn zeta.
  - cbn. split; auto. split; [|tauto]. intros i t p q T P Q. rewrite P in Q. injection Q as <-. split; [eapply Own; eauto|]. exists s0. split; [intros o; tauto|]. split; auto. lia.
  - rewrite fold_left_app. cbn [fold_left]. cbn zeta in IH. set (c := fold_left _ sch _) in *. destruct IH as (L & IH & O). unfold step.
    destruct (nth_error (fst c) i) as [q|] eqn:Q.
    2:{ split; auto. split; auto. intros j t p q T P Qj. destruct (IH j t p q T P Qj) as (Lq & s & A & R & C). split; auto. exists s. split; auto. split; auto.
        rewrite C. unfold count_i. rewrite count_occ_app. cbn. destruct (Nat.eq_dec i j) as [->|]; [congruence|]. lia. }
    assert (Li : i < length (fst c)) by (apply nth_error_Some; congruence).
    destruct (nth_error ts i) as [t|] eqn:T; [|apply nth_error_None in T; lia].
    destruct (nth_error ps i) as [p|] eqn:P; [|apply nth_error_None in P; lia].
    destruct (IH i t p q T P Q) as (Lq & s & A & R & C). destruct (step1_agree t q (snd c) s Lq A) as (E1 & A1 & L1). pose proof (step1_run q s) as RS. pose proof (step1_cost q s) as CS.
    pose proof (fun o u => step1_other t q (snd c) o u Lq) as OT. destruct (step1 q (snd c)) as [q' s1]. cbn [fst snd] in *. split; [|split].
    + clear -L. rewrite <- L. generalize (fst c). intros l. revert i. induction l as [|y l IH]; intros [|i]; cbn; auto.
    + intros j tj pj qj Tj Pj Qj. rewrite replace_nth_get in Qj. unfold count_i. rewrite count_occ_app. cbn [count_occ]. destruct (Nat.eqb_spec i j) as [<-|Ne].
      * rewrite Q in Qj. injection Qj as <-. rewrite T in Tj. injection Tj as <-. rewrite P in Pj. injection Pj as <-. split; auto. exists (snd (step1 q s)). split; auto.
        rewrite E1, RS, CS. split; auto. rewrite C. destruct (Nat.eq_dec i i); [|congruence]. unfold count_i. lia.
      * destruct (IH j tj pj qj Tj Pj Qj) as (Lj & sj & Aj & Rj & Cj). split; auto. exists sj. split; [|split; auto].
        -- intros o. rewrite <- (Aj o). apply OT. intros ->. apply Ne. eapply NoDup_nth_error; eauto; [apply nth_error_Some; congruence|congruence].
        -- rewrite Cj. destruct (Nat.eq_dec i j); [congruence|]. unfold count_i. lia.
    + intros o u N. rewrite <- (O o u N). apply OT. intros ->. apply N. eapply nth_error_In; eauto.
Qed.
End Threads.
