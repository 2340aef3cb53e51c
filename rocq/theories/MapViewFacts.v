(** Lemmas for C84. *)
From Coq Require Import List NArith ZArith Bool Lia.
From Verif Require Import Base Dict SpecNumber ModelValue ValueFacts SpecKey KeyFacts SpecMap ModelMap MapFacts ModelHeap ModelEncode ModelSetOps Prop_SetOps ModelMapViews SpecMapViews.
Import ListNotations.
Open Scope Z_scope.

Section Size.
Variable bytes_of : nat -> option bytes.
Notation mem := (member bytes_of).
(** As many keys, all in the other: the same keys *)
Lemma same_size (l : list val) : forall l', distinct_members bytes_of l -> length l = length l' ->
  (forall v, mem l v -> mem l' v) -> forall v, mem l' v -> mem l v.
Proof.
  induction l as [|x l IH]; intros l' D L H v M; [destruct l'; [exact M|discriminate]|]. apply distinct_cons in D as (N & D).
  destruct (H x (mem_in _ (x :: l) x (or_introl eq_refl))) as (z & IZ & SZ). apply in_split in IZ as (l1 & l2 & ->).
  assert (Hl : forall w, mem l w -> mem (l1 ++ l2) w).
  { intros w Mw. assert (MB : mem (l1 ++ z :: l2) w) by (apply H, mem_cons; auto). rewrite mem_app, mem_cons in *. destruct MB as [MB|[MB|MB]]; auto.
    exfalso. apply N. apply (mem_same _ l w x); [|exact Mw]. eapply same_trans; [apply same_sym; exact MB|exact SZ]. }
  rewrite app_length in L. cbn [length] in L. assert (L2 : length l = length (l1 ++ l2)) by (rewrite app_length; lia).
  apply mem_cons. rewrite mem_app, mem_cons in M. destruct M as [M|[M|M]].
  - right. apply (IH _ D L2 Hl). apply mem_app. auto.
  - left. eapply same_trans; [apply same_sym; exact SZ|exact M].
  - right. apply (IH _ D L2 Hl). apply mem_app. auto.
Qed.
End Size.

Section Facts.
Context {V K : Type}.
Variable bytes_of : nat -> option bytes.
Variable keqb : K -> K -> bool.
Variable dict_key : val -> option K.
Hypothesis keqb_eq : forall a b, keqb a b = true <-> a = b.
Notation same := (js_same bytes_of).
Notation mem := (member bytes_of).
Notation minv := (cinv bytes_of (@fst val V)).
Local Notation jmap := (list (svz * (val * V))).
Implicit Types a b m : jmap.

Lemma map_inv m : made_map bytes_of m -> minv m.
Proof. intros (ops & tr & E). exact (proj1 (jm_ops_refines bytes_of ops [] tr m (cinv_nil _ _) E)). Qed.
Lemma iter_fst m : jm_iter m = map fst (map snd m).
Proof. unfold jm_iter. rewrite map_map. reflexivity. Qed.
Lemma has_key_mem m k : has_key bytes_of m k <-> mem (jm_iter m) k.
Proof.
  rewrite iter_fst. split.
  - intros (k' & v & I & E). exists k'. split; [|exact E]. apply in_map_iff. exists (k', v). auto.
  - intros (k' & I & E). apply in_map_iff in I as ((k2 & v) & <- & I). exists k2, v. auto.
Qed.
Lemma iter_tame m k : minv m -> In k (jm_iter m) -> ~ huge k.
Proof.
  intros (_ & T) I. unfold jm_iter in I. apply in_map_iff in I as ((s & k' & v) & <- & I). exact (svz_ok bytes_of _ s (T _ _ I)).
Qed.
Lemma iter_distinct m : minv m -> distinct_members bytes_of (jm_iter m).
Proof.
  intros I i j x y A B N. rewrite iter_fst in A, B. rewrite nth_error_map in A, B.
  destruct (nth_error (map snd m) i) as [p|] eqn:EA; [|discriminate]. destruct (nth_error (map snd m) j) as [q|] eqn:EB; [|discriminate].
  injection A as <-. injection B as <-. exact (cinv_distinct bytes_of fst m i j p q I EA EB N).
Qed.
Lemma get_spec m k : minv m -> ~ huge k ->
  match jm_get bytes_of m k with
  | Ok v => has_item bytes_of m k v
  | Err e => e = EKey /\ ~ has_key bytes_of m k
  end.
Proof.
  intros I T. destruct (tame_key bytes_of k T) as (s & E). unfold jm_get. rewrite E. cbn [bind].
  pose proof (cinv_lookup bytes_of fst m k s I E) as L. destruct (dget svz_eqb s m) as [(k' & v)|].
  - destruct L as (x & y & L & SM & _). exists k'. cbn [snd fst] in *. split; [|exact SM]. rewrite L. apply in_or_app. cbn. auto.
  - split; [reflexivity|]. intros (k' & v & IN & SM). exact (proj1 L (k', v) IN SM).
Qed.
Lemma jm_contains_spec m k : minv m -> ~ huge k -> exists x, jm_contains bytes_of m k = Ok x /\ (x = true <-> mem (jm_iter m) k).
Proof.
  intros I T. pose proof (get_spec m k I T) as G. pose proof (has_key_mem m k) as HK. unfold jm_contains. destruct (jm_get bytes_of m k) as [v|e].
  - exists true. split; [reflexivity|]. split; [|reflexivity]. intros _. apply HK. destruct G as (k' & IN & SM). exists k', v. auto.
  - destruct G as (-> & N). exists false. split; [reflexivity|]. split; [discriminate|]. intros H. apply HK in H. contradiction.
Qed.
Lemma item_unique m k v w : minv m -> has_item bytes_of m k v -> has_item bytes_of m k w -> v = w.
Proof.
  intros I (k1 & I1 & S1) (k2 & I2 & S2). apply In_nth_error in I1 as (i & E1). apply In_nth_error in I2 as (j & E2).
  destruct (Nat.eq_dec i j) as [->|N]; [congruence|]. exfalso. apply (cinv_distinct bytes_of fst m i j _ _ I E1 E2 N). cbn [fst].
  eapply same_trans; [exact S1|]. apply same_sym. exact S2.
Qed.
Lemma all_in_map b l : minv b -> (forall k, In k l -> ~ huge k) ->
  exists x, all_in (jm_contains bytes_of b) l = Ok x /\ (x = true <-> forall v, mem l v -> mem (jm_iter b) v).
Proof.
  intros B. induction l as [|v l IH]; intros T; cbn [all_in].
  - exists true. split; [reflexivity|]. split; [|reflexivity]. intros _ w M. exfalso. exact (mem_nil _ w M).
  - destruct (jm_contains_spec b v B (T v (or_introl eq_refl))) as [x [E X]]. rewrite E. cbn [bind]. destruct x.
    + destruct IH as [x [E1 X1]]; [intros k I; apply T; right; exact I|]. exists x. split; [exact E1|]. rewrite X1. split; intros H w M.
      * apply mem_cons in M as [M|M]; [|auto]. apply (mem_same _ _ v w M). apply X. reflexivity.
      * apply H. apply mem_cons. auto.
    + exists false. split; [reflexivity|]. split; [discriminate|]. intros H. apply X. apply H. apply mem_in. cbn. auto.
Qed.
Lemma none_in_map b l : minv b -> (forall k, In k l -> ~ huge k) ->
  exists x, none_in (jm_contains bytes_of b) l = Ok x /\ (x = true <-> forall v, ~ (mem l v /\ mem (jm_iter b) v)).
Proof.
  intros B. induction l as [|v l IH]; intros T; cbn [none_in].
  - exists true. split; [reflexivity|]. split; [|reflexivity]. intros _ w (M & _). exact (mem_nil _ w M).
  - destruct (jm_contains_spec b v B (T v (or_introl eq_refl))) as [x [E X]]. rewrite E. cbn [bind]. destruct x.
    + exists false. split; [reflexivity|]. split; [discriminate|]. intros H. exfalso. apply (H v). split; [apply mem_in; cbn; auto|apply X; reflexivity].
    + destruct IH as [x [E1 X1]]; [intros k I; apply T; right; exact I|]. exists x. split; [exact E1|]. rewrite X1. split; intros H w (M & M2).
      * apply mem_cons in M as [M|M]; [|exact (H w (conj M M2))]. assert (false = true) by (apply X; apply (mem_same _ _ w v (same_sym _ _ _ M)); exact M2). discriminate.
      * apply (H w). split; [apply mem_cons; auto|exact M2].
Qed.
Lemma keys_le_spec a b : minv a -> minv b ->
  exists x, keys_le bytes_of a b = Ok x /\ (x = true <-> forall v, mem (jm_iter a) v -> mem (jm_iter b) v).
Proof.
  intros A B. unfold keys_le. destruct (jm_len b <? jm_len a) eqn:L; [|apply all_in_map; [exact B|intros k; apply iter_tame, A]].
  exists false. split; [reflexivity|]. split; [discriminate|]. intros H. exfalso. apply subset_length in H; [|apply iter_distinct, A].
  unfold jm_iter in H. rewrite !map_length in H. apply Z.ltb_lt in L. unfold jm_len in L. lia.
Qed.
Lemma len_iter m : jm_len m = Z.of_nat (length (jm_iter m)).
Proof. unfold jm_len, jm_iter. rewrite map_length. reflexivity. Qed.
Lemma select_map m l : minv m -> (forall k, In k l -> ~ huge k) -> exists r, select (jm_contains bytes_of m) l = Ok r /\ where_ (mem (jm_iter m)) l r.
Proof. intros I T. apply select_where. intros v IN. exact (jm_contains_spec m v I (T v IN)). Qed.
Lemma select_not_map m l : minv m -> (forall k, In k l -> ~ huge k) ->
  exists r, select (negated (jm_contains bytes_of m)) l = Ok r /\ where_ (fun v => ~ mem (jm_iter m) v) l r.
Proof. intros I T. apply select_where. intros v IN. apply negated_spec. exact (jm_contains_spec m v I (T v IN)). Qed.

(** * Python sets *)
Lemma agreeing_sub l l' : agreeing bytes_of dict_key l -> incl l' l -> agreeing bytes_of dict_key l'.
Proof. intros (A & B) I. split; [intros x X; apply A, I, X|]. intros x y X Y. apply B; apply I; assumption. Qed.
Lemma pyset_contains_spec l v : agreeing bytes_of dict_key (v :: l) -> exists x, pyset_contains keqb dict_key l v = Ok x /\ (x = true <-> mem l v).
Proof.
  intros (A & B). unfold pyset_contains. destruct (dict_key v) as [k|] eqn:E; [|elim (A v (or_introl eq_refl) E)].
  eexists. split; [reflexivity|]. rewrite existsb_exists. split.
  - intros (w & I & T). exists w. split; [exact I|]. destruct (dict_key w) as [k'|] eqn:E'; [|discriminate]. apply keqb_eq in T. subst k'.
    apply B; [right; exact I|left; reflexivity|congruence].
  - intros (w & I & SM). exists w. split; [exact I|]. apply (B w v (or_intror I) (or_introl eq_refl)) in SM. rewrite SM, E. apply keqb_eq. reflexivity.
Qed.
Lemma pyset_from_spec l : forall acc, agreeing bytes_of dict_key (acc ++ l) -> distinct_members bytes_of acc ->
  exists r, pyset_from keqb dict_key acc l = Ok r /\ distinct_members bytes_of r /\ (forall v, mem r v <-> mem acc v \/ mem l v) /\ incl r (acc ++ l).
Proof.
  induction l as [|v l IH]; intros acc G D; cbn [pyset_from].
  - exists acc. split; [reflexivity|]. split; [exact D|]. split; [|rewrite app_nil_r; apply incl_refl]. intros w. split; [auto|]. intros [M|M]; [exact M|elim (mem_nil _ _ M)].
  - destruct (pyset_contains_spec acc v) as (x & E & X).
    { apply (agreeing_sub _ _ G). intros w [<-|I]; apply in_or_app; [right; left; reflexivity|left; exact I]. }
    rewrite E. cbn [bind]. destruct x.
    + destruct (IH acc) as (r & Er & Dr & Mr & Ir); [apply (agreeing_sub _ _ G); intros w I; apply in_app_or in I as [I|I]; apply in_or_app; cbn; auto|exact D|].
      exists r. split; [exact Er|]. split; [exact Dr|]. split.
      * intros w. rewrite Mr, mem_cons. split; [tauto|]. intros [M|[M|M]]; auto. left. apply (mem_same _ _ v w M). apply X. reflexivity.
      * intros w I. apply Ir, in_app_or in I as [I|I]; apply in_or_app; cbn; auto.
    + destruct (IH (acc ++ [v])) as (r & Er & Dr & Mr & Ir).
      { rewrite <- app_assoc. exact G. }
      { apply distinct_app. split; [exact D|]. split; [apply distinct_cons; split; [apply mem_nil|intros i j p q F _ _; destruct i; discriminate]|].
        intros w I M. apply mem_cons in M as [M|M]; [|exact (mem_nil _ _ M)]. assert (false = true) by (apply X; exists w; split; [exact I|apply same_sym, M]). discriminate. }
      exists r. split; [exact Er|]. split; [exact Dr|]. split.
      * intros w. rewrite Mr, mem_app, !mem_cons. pose proof (mem_nil bytes_of w). tauto.
      * intros w I. apply Ir in I. rewrite <- app_assoc in I. exact I.
Qed.
Lemma pyset_spec l : agreeing bytes_of dict_key l ->
  exists r, pyset keqb dict_key l = Ok r /\ distinct_members bytes_of r /\ (forall v, mem r v <-> mem l v) /\ incl r l.
Proof.
  intros G. destruct (pyset_from_spec l [] G) as (r & E & D & M & I); [intros i j p q F _ _; destruct i; discriminate|].
  exists r. split; [exact E|]. split; [exact D|]. split; [|exact I]. intros v. rewrite M. pose proof (mem_nil bytes_of v). tauto.
Qed.
Lemma where_incl (P : val -> Prop) l r : where_ P l r -> incl r l.
Proof. intros W x I. exact (proj1 (proj1 (where_in P l r x W) I)). Qed.
End Facts.
