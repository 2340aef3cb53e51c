(** The cache of values keeps those used last. *)
From Coq Require Import List NArith ZArith Bool Lia.
From Verif Require Import Base Dict ModelTags ModelPrim SpecPrim ModelLog ModelValue ModelHeap ModelEncode HashFacts EncodeFacts SpecCache.
Import ListNotations.

Local Notation key := (htype * hkey)%type.
Definition without (k : key) (l : list key) : list key := filter (fun x => negb (hash_key_eqb k x)) l.
(** Different uses, newest first *)
Fixpoint uniq (us : list key) : list key := match us with [] => [] | k :: us => k :: without k (uniq us) end.

Lemma eqb_refl (k : key) : hash_key_eqb k k = true. Proof. apply hash_key_eqb_spec. reflexivity. Qed.
Lemma in_without k x l : In x (without k l) <-> In x l /\ x <> k.
Proof.
  unfold without. rewrite filter_In, negb_true_iff. split; intros [A B]; split; auto.
  - intros ->. rewrite eqb_refl in B. discriminate.
  - destruct (hash_key_eqb k x) eqn:E; auto. apply hash_key_eqb_spec in E. congruence.
Qed.
Lemma without_not_in k l : ~ In k l -> without k l = l.
Proof.
  induction l as [|x l IH]; cbn [without filter In]; auto. intros Nk. destruct (hash_key_eqb k x) eqn:E.
  - apply hash_key_eqb_spec in E. subst. tauto.
  - cbn [negb]. f_equal. apply IH. tauto.
Qed.
Lemma without_nodup k l : NoDup l -> NoDup (without k l). Proof. apply NoDup_filter. Qed.
Lemma uniq_nodup us : NoDup (uniq us).
Proof. induction us as [|k us IH]; cbn [uniq]; constructor; [rewrite in_without; tauto|apply without_nodup, IH]. Qed.
Lemma uniq_in us k : In k (uniq us) <-> In k us.
Proof.
  induction us as [|x us IH]; cbn [uniq In]; [tauto|]. rewrite in_without, IH. split; [tauto|].
  intros [->|J]; auto. destruct (hash_key_eqb x k) eqn:E; [apply hash_key_eqb_spec in E; auto|]. right. split; auto. intros ->. rewrite eqb_refl in E. discriminate.
Qed.
Lemma uniq_app later k before : ~ In k later -> exists rest, uniq (later ++ k :: before) = uniq later ++ k :: rest /\ ~ In k rest.
Proof.
  induction later as [|x later IH]; cbn [app uniq]; intros Nk.
  - eexists. split; [reflexivity|]. rewrite in_without. tauto.
  - cbn [In] in Nk. destruct IH as (rest & -> & R); [tauto|]. exists (without x rest). unfold without at 1. rewrite filter_app. cbn [filter].
    destruct (hash_key_eqb x k) eqn:E; [apply hash_key_eqb_spec in E; tauto|]. split; [reflexivity|]. rewrite in_without. tauto.
Qed.
Lemma firstn_mid n (a b : list key) k : ~ In k a -> ~ In k b -> (In k (firstn n (a ++ k :: b)) <-> (length a < n)%nat).
Proof.
  revert n. induction a as [|x a IH]; intros [|n] Na Nb; cbn [app firstn In length] in *; try (split; [tauto|lia]).
  - split; [lia|auto].
  - rewrite IH by tauto. split; [intros [->|L]; [tauto|lia]|intros L; right; lia].
Qed.
Lemma distinct_length us ks : distinct_of us ks -> length ks = length (uniq us).
Proof.
  intros [D I]. apply Nat.le_antisymm; apply NoDup_incl_length; auto using uniq_nodup; intros k J.
  - apply uniq_in, I, J.
  - apply I, uniq_in, J.
Qed.
Lemma first_use k (us : list key) : In k us -> exists later before, us = later ++ k :: before /\ ~ In k later.
Proof.
  induction us as [|x us IH]; intros J; [elim J|].
  destruct (hash_key_eqb k x) eqn:E; [apply hash_key_eqb_spec in E; subst; exists [], us; auto|].
  destruct J as [->|J]; [rewrite eqb_refl in E; discriminate|]. destruct (IH J) as (l & b & -> & Nk). exists (x :: l), b. split; auto. intros [->|Q]; [rewrite eqb_refl in E; discriminate|tauto].
Qed.
Lemma nodup_firstn {A} n : forall l : list A, NoDup l -> NoDup (firstn n l).
Proof.
  induction n as [|n IH]; intros [|x l] D; cbn [firstn]; try constructor; inversion_clear D; auto.
  intros J. apply H. rewrite <- (firstn_skipn n). apply in_or_app. auto.
Qed.
Lemma recent_spec n us k : recent n us k <-> In k (firstn n (uniq us)).
Proof.
  split.
  - intros (later & before & ks & -> & Nk & D & L). rewrite (distinct_length _ _ D) in L. destruct (uniq_app later k before Nk) as (rest & -> & R).
    apply firstn_mid; auto. rewrite uniq_in. exact Nk.
  - intros J. assert (Iu : In k us) by (apply uniq_in; rewrite <- (firstn_skipn n); apply in_or_app; auto).
    destruct (first_use k us Iu) as (later & before & -> & Nk). exists later, before, (uniq later).
    destruct (uniq_app later k before Nk) as (rest & E & R). rewrite E in J. apply firstn_mid in J; [|rewrite uniq_in; exact Nk|exact R].
    split; [reflexivity|]. split; [exact Nk|]. split; [split; [apply uniq_nodup|apply uniq_in]|exact J].
Qed.
Lemma without_first k n : forall u, NoDup u -> In k (firstn (S n) u) -> firstn n (without k u) = without k (firstn (S n) u).
Proof.
  induction n as [|n IH]; intros [|x u] D J; cbn [firstn In] in J; try tauto.
  - destruct J as [->|[]]. cbn [firstn without filter]. rewrite eqb_refl. reflexivity.
  - inversion_clear D as [|? ? Nx D']. rewrite (firstn_cons (S n)). unfold without at 1 2. cbn [filter]. destruct (hash_key_eqb k x) eqn:E; cbn [negb].
    + apply hash_key_eqb_spec in E. subst x. fold (without k u). rewrite (without_not_in k u Nx). fold (without k (firstn (S n) u)).
      rewrite without_not_in; [reflexivity|]. intros Q. apply Nx. rewrite <- (firstn_skipn (S n)). apply in_or_app. auto.
    + rewrite firstn_cons. f_equal. apply IH; auto. destruct J as [->|J]; [rewrite eqb_refl in E; discriminate|exact J].
Qed.
Lemma without_later k n : forall u, ~ In k (firstn n u) -> firstn n (without k u) = firstn n u.
Proof.
  induction n as [|n IH]; intros [|x u] Nk; cbn [firstn In] in Nk; auto. unfold without. cbn [filter].
  destruct (hash_key_eqb k x) eqn:E; [apply hash_key_eqb_spec in E; subst; tauto|]. cbn [negb]. rewrite !firstn_cons. f_equal. apply IH. tauto.
Qed.

(** The keys in the cache, newest first, are the first [n] of the different uses. *)
Definition keys (c : list (key * val)) : list key := rev (map fst c).
Lemma keys_app c k v : keys (c ++ [(k, v)]) = k :: keys c.
Proof. unfold keys. rewrite map_app, rev_app_distr. reflexivity. Qed.
Lemma rev_filter {A} (f : A -> bool) l : rev (filter f l) = filter f (rev l).
Proof.
  induction l as [|x l IH]; cbn [rev filter]; auto. rewrite filter_app. cbn [filter]. destruct (f x); cbn [rev]; rewrite IH, ?app_nil_r; reflexivity.
Qed.
Lemma keys_without k c : keys (cache_without k c) = without k (keys c).
Proof.
  unfold keys, without. rewrite <- rev_filter. f_equal. unfold cache_without. induction c as [|[k' v'] c IH]; cbn [map filter fst]; auto.
  destruct (hash_key_eqb k k'); cbn [negb map fst]; rewrite IH; reflexivity.
Qed.
Lemma keys_length c : length (keys c) = length c.
Proof. unfold keys. rewrite rev_length, map_length. reflexivity. Qed.
Lemma keys_tl c : keys (tl c) = firstn (length c - 1) (keys c).
Proof.
  destruct c as [|p c]; cbn [tl length]; [reflexivity|]. unfold keys. cbn [map rev]. replace (S (length c) - 1)%nat with (length (rev (map fst c)) + 0)%nat.
  - rewrite firstn_app_2. cbn [firstn]. rewrite app_nil_r. reflexivity.
  - rewrite rev_length, map_length. lia.
Qed.
Lemma dget_keys k (c : list (key * val)) : (exists v, dget hash_key_eqb k c = Some v) <-> In k (keys c).
Proof.
  unfold keys. rewrite <- in_rev. induction c as [|[k' v] c IH]; cbn [dget map fst In]; [split; [intros (? & [=])|tauto]|].
  destruct (hash_key_eqb k k') eqn:E.
  - apply hash_key_eqb_spec in E. subst. split; [auto|eauto].
  - rewrite IH. split; [auto|]. intros [->|J]; auto. rewrite eqb_refl in E. discriminate.
Qed.
Lemma hit_keys n k v c us : keys c = firstn n (uniq us) -> In k (keys c) -> keys (cache_hit (Some n) k v c) = firstn n (uniq (k :: us)).
Proof.
  intros E J. cbn [cache_hit uniq]. rewrite keys_app, keys_without, E. rewrite E in J. destruct n as [|n]; [destruct J|].
  rewrite firstn_cons. f_equal. rewrite <- without_first; auto using uniq_nodup.
Qed.
Lemma miss_keys n k v c us : keys c = firstn n (uniq us) -> ~ In k (keys c) -> keys (cache_miss (Some n) k v c) = firstn n (uniq (k :: us)).
Proof.
  intros E J. destruct n as [|n]; [exact E|]. cbn [cache_miss uniq]. rewrite keys_app, firstn_cons. f_equal. rewrite E in J.
  assert (Nk : ~ In k (firstn n (uniq us))).
  { intros Q. apply J. replace n with (Nat.min n (S n)) in Q by lia. rewrite <- firstn_firstn in Q.
    rewrite <- (firstn_skipn n (firstn (S n) (uniq us))). apply in_or_app. auto. }
  rewrite (without_later k n _ Nk).
  assert (F : firstn n (keys c) = firstn n (uniq us)) by (rewrite E, firstn_firstn; f_equal; lia).
  assert (L : (length c <= S n)%nat) by (rewrite <- keys_length, E; apply firstn_le_length).
  destruct (Nat.ltb_spec (length c) (S n)) as [X|X].
  - rewrite <- F. symmetry. apply firstn_all2. rewrite keys_length. lia.
  - rewrite keys_tl, <- F. f_equal. lia.
Qed.

Lemma lookups_snoc H vs v st : lookups H (vs ++ [v]) st = snd (deduplicate H v (lookups H vs st)).
Proof. unfold lookups. rewrite fold_left_app. reflexivity. Qed.
Lemma uses_snoc H vs v : uses_of H (vs ++ [v]) = match hash_key H v with Some k => [k] | None => [] end ++ uses_of H vs.
Proof. unfold uses_of. rewrite flat_map_app, rev_app_distr. cbn [flat_map]. destruct (hash_key H v); reflexivity. Qed.
Lemma dedup_size H v st : es_size (snd (deduplicate H v st)) = es_size st.
Proof. unfold deduplicate. destruct (hash_key H v) as [k|]; auto. destruct (dget hash_key_eqb k (es_seen st)); reflexivity. Qed.
Lemma lookups_size H vs st : es_size (lookups H vs st) = es_size st.
Proof. induction vs as [|v vs IH] using rev_ind; [reflexivity|]. rewrite lookups_snoc, dedup_size. exact IH. Qed.
Lemma lookups_keys n H vs : keys (es_seen (lookups H vs (es_sized (Some n)))) = firstn n (uniq (uses_of H vs)).
Proof.
  induction vs as [|v vs IH] using rev_ind; [destruct n; reflexivity|]. rewrite lookups_snoc, uses_snoc.
  pose proof (lookups_size H vs (es_sized (Some n))) as Sz. unfold deduplicate. destruct (hash_key H v) as [k|]; [|exact IH]. cbn [app].
  pose proof (dget_keys k (es_seen (lookups H vs (es_sized (Some n))))) as D.
  destruct (dget hash_key_eqb k (es_seen (lookups H vs (es_sized (Some n))))) as [v0|]; cbn [snd es_seen]; rewrite Sz; cbn [es_sized es_size].
  - apply hit_keys; [exact IH|]. apply D. eauto.
  - apply miss_keys; [exact IH|]. intros J. apply D in J as (? & [=]).
Qed.
Lemma lookups_all H vs k : In k (keys (es_seen (lookups H vs (es_sized None)))) <-> In k (uses_of H vs).
Proof.
  induction vs as [|v vs IH] using rev_ind; [tauto|]. rewrite lookups_snoc, uses_snoc.
  pose proof (lookups_size H vs (es_sized None)) as Sz. unfold deduplicate. destruct (hash_key H v) as [k0|]; [|exact IH]. cbn [app In].
  pose proof (dget_keys k0 (es_seen (lookups H vs (es_sized None)))) as D.
  destruct (dget hash_key_eqb k0 (es_seen (lookups H vs (es_sized None)))) as [v0|]; cbn [snd es_seen]; rewrite Sz; cbn [es_sized es_size cache_hit cache_miss].
  - rewrite IH. split; auto. intros [<-|J]; auto. apply IH, D. eauto.
  - rewrite keys_app. cbn [In]. rewrite IH. tauto.
Qed.
(** What is in the cache for a key is a value with that key that was looked up. *)
Lemma lookups_values H vs size k v : In (k, v) (es_seen (lookups H vs (es_sized size))) -> In v vs /\ hash_key H v = Some k.
Proof.
  revert k v. induction vs as [|x vs IH] using rev_ind; intros k v; [intros []|]. rewrite lookups_snoc. unfold deduplicate.
  destruct (hash_key H x) as [k0|] eqn:Hx; [|intros J; destruct (IH _ _ J); split; auto; apply in_or_app; auto].
  destruct (dget hash_key_eqb k0 (es_seen (lookups H vs (es_sized size)))) as [v0|] eqn:D; cbn [snd es_seen].
  - intros J. assert (J' : In (k, v) (es_seen (lookups H vs (es_sized size)))).
    { apply dget_In in D. apply hit_In in J as [J|J]; [exact J|]. injection J as -> ->. exact D. }
    destruct (IH _ _ J'). split; auto. apply in_or_app. auto.
  - intros J. apply miss_In in J as [J|J].
    + destruct (IH _ _ J). split; auto. apply in_or_app. auto.
    + injection J as -> ->. split; auto. apply in_or_app. right. left. reflexivity.
Qed.
