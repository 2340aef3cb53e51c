(** C85: the constructor and update of JSMap. *)
From Coq Require Import List NArith ZArith Bool.
From Verif Require Import Base Dict SpecNumber ModelValue SpecKey SpecMap ModelMap MapFacts ModelMapInit.
Import ListNotations.

(** * Specification: the entries that an argument gives *)
Definition gives {V} (s : source (V := V)) (l : list (val * V)) : Prop :=
  match s with
  | SNone => l = []
  | SMapping items => l = items
  | SKeyed keys get => Forall2 (fun k p => fst p = k /\ get k = Ok (snd p)) keys l
  | SPairs ps => l = ps
  | SOther => False
  end.
(** keyword arguments as entries *)
Definition keywords {V} (kw : list (list N * V)) : list (val * V) := map (fun p => (VStr (fst p), snd p)) kw.

Section Facts.
Context {V : Type}.
Variable bytes_of : nat -> option bytes.
Notation minv := (cinv bytes_of (@fst val V)).
Notation abs := (map (@snd svz (val * V))).

Lemma put_app a b : forall l l1 l2, put_entries bytes_of (V := V) l a l1 -> put_entries bytes_of l1 b l2 -> put_entries bytes_of l (a ++ b) l2.
Proof.
  induction a as [|(k & v) a IH]; intros l l1 l2 A B; inversion A; subst; [exact B|]. cbn [app]. econstructor; [assumption|eassumption|]. eapply IH; eassumption.
Qed.
Lemma update_pairs m ps : minv m -> (forall k v, In (k, v) ps -> ~ huge k) ->
  exists m', updated (jm_update bytes_of m ps) = Ok m' /\ minv m' /\ put_entries bytes_of (abs m) ps (abs m').
Proof.
  intros I T. destruct (jm_update_spec bytes_of ps m I) as (r & m' & E & I' & [(-> & P)|(p1 & k & v & p2 & -> & _ & HU & _)]).
  - exists m'. rewrite E. auto.
  - exfalso. apply (T k v); [apply in_or_app; cbn; auto|exact HU].
Qed.
Lemma keyed_pairs keys get : forall m l, Forall2 (fun k p => fst p = k /\ get k = Ok (snd p)) keys l -> (forall k v, In (k, v) l -> ~ huge k) ->
  update_keyed bytes_of m keys get = updated (jm_update (V := V) bytes_of m l).
Proof.
  induction keys as [|k keys IH]; intros m l F T; inversion F as [|? (k' & v) ? l' (E1 & E2) F']; subst; [reflexivity|]. cbn [fst snd] in *.
  cbn [update_keyed jm_update]. unfold jm_set. destruct (same_value_zero bytes_of k') as [s|e] eqn:ES; cbn [bind].
  - rewrite E2. cbn [bind]. apply IH; [exact F'|]. intros a b IN. apply (T a b). right. exact IN.
  - apply svz_err in ES as (_ & HU). exfalso. exact (T k' v (or_introl eq_refl) HU).
Qed.
Lemma keywords_tame kw k v : In (k, v) (keywords (V := V) kw) -> ~ huge k.
Proof. intros I. apply in_map_iff in I as (p & [= <- <-] & _). intros (z & E & _). discriminate. Qed.
Lemma update_spec m s kw l : minv m -> gives s l -> s <> SNone -> (forall k v, In (k, v) l -> ~ huge k) ->
  exists m', update bytes_of m s kw = Ok m' /\ minv m' /\ put_entries bytes_of (abs m) (l ++ keywords kw) (abs m').
Proof.
  intros I G N T. destruct (update_pairs m l I T) as (m1 & E1 & I1 & P1).
  destruct (update_pairs m1 (keywords kw) I1 (keywords_tame kw)) as (m2 & E2 & I2 & P2).
  exists m2. split; [|split; [exact I2|exact (put_app _ _ _ _ _ P1 P2)]]. unfold update. destruct s as [|items|keys get|ps|]; cbn [gives] in G; subst; try contradiction.
  - rewrite E1. exact E2.
  - rewrite (keyed_pairs keys get m l G T), E1. exact E2.
  - rewrite E1. exact E2.
Qed.
End Facts.

(** JSMap(argument, **kw) has the entries of the argument and then the keywords, each put as an assignment would (C39): a key that is there already
    keeps its place and takes the new value. Missing: keywords named init and self (C85_init_refuted, C85_self_refuted). *)
Theorem C85_constructor_partial : forall V bytes_of (as_source : V -> source) pos kw l,
  match pos with Some s => gives s l | None => l = [] end -> (forall k v, In (k, v) l -> ~ huge k) ->
  (forall n v, In (n, v) kw -> n <> name_init /\ n <> name_self) ->
  exists m, construct bytes_of as_source pos kw = Ok m /\ put_entries bytes_of [] (l ++ keywords kw) (map snd m).
Proof.
  intros V bytes_of as_source pos kw l G T K. unfold construct.
  assert (NS : existsb (named name_self) kw = false).
  { apply not_true_is_false. intros X. apply existsb_exists in X as ((n & v) & I & E). unfold named in E. cbn [fst] in E. destruct (list_eq_dec N.eq_dec n name_self) as [->|]; [|discriminate]. exact (proj2 (K _ _ I) eq_refl). }
  assert (NI : forall p, In p kw -> named name_init p = false).
  { intros (n & v) I. unfold named. cbn [fst]. destruct (list_eq_dec N.eq_dec n name_init) as [->|]; [|reflexivity]. elim (proj1 (K _ _ I) eq_refl). }
  assert (FI : find (named name_init) kw = None).
  { destruct (find (named name_init) kw) as [p|] eqn:E; [|reflexivity]. apply find_some in E as (I & E). rewrite (NI p I) in E. discriminate. }
  assert (KW : filter (fun p => negb (named name_init p)) kw = kw).
  { clear -NI. induction kw as [|p kw IH]; [reflexivity|]. cbn [filter]. rewrite (NI p (or_introl eq_refl)). cbn [negb]. f_equal. apply IH. intros q I. apply NI. right. exact I. }
  rewrite NS, FI, KW. fold (keywords kw).
  set (s := match pos with Some s => s | None => SNone end). assert (GS : gives s l) by (destruct pos; exact G).
  replace (match pos with Some s => Ok s | None => Ok SNone end) with (Ok s) by (destruct pos; reflexivity). cbn [bind].
  assert (HM : exists m, match s with SNone => Ok [] | s => update bytes_of [] s [] end = Ok m /\ cinv bytes_of fst m /\ put_entries bytes_of [] l (map snd m)).
  { destruct s as [|items|keys get|ps|] eqn:ES.
    - cbn [gives] in GS. subst l. exists []. split; [reflexivity|]. split; [apply cinv_nil|constructor].
    - destruct (update_spec bytes_of [] (SMapping items) [] l (cinv_nil _ _) GS ltac:(discriminate) T) as (m & E & I & P). exists m. rewrite app_nil_r in P. auto.
    - destruct (update_spec bytes_of [] (SKeyed keys get) [] l (cinv_nil _ _) GS ltac:(discriminate) T) as (m & E & I & P). exists m. rewrite app_nil_r in P. auto.
    - destruct (update_spec bytes_of [] (SPairs ps) [] l (cinv_nil _ _) GS ltac:(discriminate) T) as (m & E & I & P). exists m. rewrite app_nil_r in P. auto.
    - elim GS. }
  destruct HM as (m & EM & IM & PM). rewrite EM. cbn [bind].
  destruct (update_spec bytes_of m (SMapping (keywords kw)) [] (keywords kw) IM eq_refl ltac:(discriminate) (keywords_tame kw)) as (m2 & E2 & _ & P2).
  exists m2. split; [exact E2|]. rewrite app_nil_r in P2. exact (put_app bytes_of _ _ _ _ _ PM P2).
Qed.
Print Assumptions C85_constructor_partial.
(** update(argument, **kw) of any map made by operations puts the same entries after those that are there, whatever the names of the keywords. *)
Theorem C85_update : forall V bytes_of (m : jsmap V) ops tr s kw l, jm_ops bytes_of [] ops = (tr, m) -> gives s l -> s <> SNone -> (forall k v, In (k, v) l -> ~ huge k) ->
  exists m', update bytes_of m s kw = Ok m' /\ put_entries bytes_of (map snd m) (l ++ keywords kw) (map snd m').
Proof.
  intros V bytes_of m ops tr s kw l M G N T. destruct (jm_ops_refines bytes_of ops [] tr m (cinv_nil _ _) M) as (I & _).
  destruct (update_spec bytes_of m s kw l I G N T) as (m' & E & _ & P). exists m'. auto.
Qed.
Print Assumptions C85_update.
(** JSMap(init=x) has not the entry "init", whatever x: x is taken for the argument; with an argument beside it, it raises TypeError. *)
Theorem C85_init_refuted : forall V bytes_of (as_source : V -> source) x s,
  (forall l, as_source x = SPairs l -> construct bytes_of as_source None [(name_init, x)] = construct bytes_of as_source (Some (SPairs l)) []) /\
  (as_source x = SNone -> construct bytes_of as_source None [(name_init, x)] = Ok []) /\
  (as_source x = SOther -> construct bytes_of as_source None [(name_init, x)] = Err EType) /\
  construct bytes_of as_source (Some s) [(name_init, x)] = Err EType.
Proof.
  intros V bytes_of as_source x s. unfold construct. cbn -[update]. repeat split; intros; try rewrite H; reflexivity.
Qed.
Print Assumptions C85_init_refuted.
(** JSMap(self=x) raises TypeError. *)
Theorem C85_self_refuted : forall V bytes_of (as_source : V -> source) pos x, construct bytes_of as_source pos [(name_self, x)] = Err EType.
Proof. reflexivity. Qed.
Print Assumptions C85_self_refuted.

(** JSMap([(1, 10), ("a", 20), (1.0, 30)], a=40): the keyword replaces the value of "a" *)
Example C85_case : exists m : jsmap Z, construct (fun _ => None) (fun _ => SOther) (Some (SPairs [(VInt 1, 10); (VStr [97%N], 20); (VFloat 0x3FF0000000000000%N, 30)]%Z)) [([97%N], 40%Z)] = Ok m /\
  map snd m = [(VFloat 0x3FF0000000000000%N, 30); (VStr [97%N], 40)]%Z /\ [97%N] <> name_init /\ [97%N] <> name_self /\
  gives (SKeyed [VInt 1] (fun _ => Ok 10%Z)) [(VInt 1, 10%Z)].
Proof. eexists. split; [vm_compute; reflexivity|]. repeat split; try discriminate. constructor; [split; reflexivity|constructor]. Qed.
