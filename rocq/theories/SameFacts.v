(** Lemmas for C70: the writer does not see the identity of objects. *)
From Coq Require Import List NArith ZArith Bool Lia ZifyBool ZifyNat ZifyN.
From Verif Require Import Base Dict ModelTags ModelPrim SpecNumber SpecArray ModelLog ModelArray ArrayFacts3 ModelValue ValueFacts ModelObject ModelMap MapFacts
  ModelBuffer BufferFacts ModelHeap ModelDecode ModelEncode HashFacts SpecEncode EncodeFacts EncodeFacts2 SpecGraph DoubleFacts DoubleFacts2 SpecSame.
Import ListNotations.
Open Scope nat_scope.

(** * Hashes need no more fuel than there are objects *)
Definition is_some' {A} (x : option A) : bool := match x with Some _ => true | None => false end.
Section Fuel.
Variable H : heap.
Lemma hash_mono n : forall v k, hash H n v = Some k -> hash H (S n) v = Some k.
Proof.
  induction n as [|n IH]; intros v k E; [discriminate|]. rewrite hash_S in E |- *.
  destruct v; auto. destruct (nth_error H oid) as [x|]; auto. destruct x; auto.
  - destruct (hash H n v) as [k0|] eqn:E0; [|discriminate]. rewrite (IH _ _ E0). exact E.
  - destruct tuple; auto. revert k E. induction l as [|a l IHl]; cbn [fold_right]; auto. intros k E.
    destruct (hash H n a) as [ka|] eqn:Ea; [|discriminate]. rewrite (IH _ _ Ea).
    destruct (fold_right _ _ l) as [kr|]; [|discriminate]. rewrite (IHl _ eq_refl). exact E.
Qed.
Lemma hash_mono_le n m v k : n <= m -> hash H n v = Some k -> hash H m v = Some k.
Proof. induction 1; auto. intros E. apply hash_mono; auto. Qed.
Lemma defined_step n m : (forall v, is_some' (hash H n v) = is_some' (hash H m v)) -> forall v, is_some' (hash H (S n) v) = is_some' (hash H (S m) v).
Proof.
  intros E v. rewrite !hash_S. destruct v; auto. destruct (nth_error H oid) as [x|]; auto. destruct x; auto.
  - specialize (E v). destruct (hash H n v), (hash H m v); auto.
  - destruct tuple; auto. induction l as [|a l IH]; cbn [fold_right]; auto. specialize (E a).
    destruct (hash H n a), (hash H m a); try discriminate E; auto. destruct (fold_right _ _ l), (fold_right _ _ l); auto.
Qed.
Definition stable n : Prop := forall v, is_some' (hash H (S n) v) = is_some' (hash H n v).
Lemma stable_from n m : stable n -> n <= m -> forall v, is_some' (hash H m v) = is_some' (hash H n v).
Proof.
  intros S0. assert (A : forall k, stable (n + k)).
  { induction k; [rewrite Nat.add_0_r; exact S0|]. replace (n + S k) with (S (n + k)) by lia. intros v. apply defined_step. exact IHk. }
  intros L v. replace m with (n + (m - n)) by lia. generalize (m - n). intros k. induction k; [rewrite Nat.add_0_r; auto|].
  rewrite <- IHk. replace (n + S k) with (S (n + k)) by lia. apply A.
Qed.
Definition hashables n : list nat := filter (fun o => is_some' (hash H n (VRef o))) (seq 0 (length H)).
Lemma filter_le {A} (f g : A -> bool) l : (forall x, f x = true -> g x = true) ->
  length (filter f l) <= length (filter g l) /\ (length (filter f l) = length (filter g l) -> forall x, In x l -> f x = g x).
Proof.
  intros I. induction l as [|a l [IH IH2]]; cbn [filter]; [split; auto; intros _ x []|].
  specialize (I a). destruct (f a) eqn:F.
  - rewrite I by auto. cbn [length]. split; [lia|]. intros E x [<-|X]; [rewrite I; auto|]. apply IH2; auto.
  - destruct (g a) eqn:G; cbn [length]; (split; [lia|]); intros E; [lia|]. intros x [<-|X]; [congruence|]. auto.
Qed.
Lemma filter_len {A} (f : A -> bool) l : length (filter f l) <= length l.
Proof. induction l as [|a l IH]; cbn [filter]; auto. destruct (f a); cbn [length]; lia. Qed.
Lemma grows_or_stable n : 1 <= n -> stable n \/ length (hashables n) < length (hashables (S n)).
Proof.
  intros P. destruct (filter_le (fun o => is_some' (hash H n (VRef o))) (fun o => is_some' (hash H (S n) (VRef o))) (seq 0 (length H))) as [L E].
  { intros o. destruct (hash H n (VRef o)) as [k|] eqn:X; [|discriminate]. rewrite (hash_mono _ _ _ X). auto. }
  fold (hashables n) in L, E. fold (hashables (S n)) in L, E. destruct (Nat.eq_dec (length (hashables n)) (length (hashables (S n)))) as [Q|Q]; [left|right; lia].
  intros v. destruct v; try (destruct n; [lia|]; reflexivity).
  destruct (Nat.ltb_spec oid (length H)) as [B|B].
  - symmetry. apply (E Q). apply in_seq. lia.
  - destruct n; [lia|]. rewrite !hash_S. apply nth_error_None in B. rewrite B. reflexivity.
Qed.
Lemma hash_enough f v k : hash H f v = Some k -> hash H (S (length H)) v = Some k.
Proof.
  intros E. assert (P : exists n, 1 <= n <= S (length H) /\ stable n).
  { assert (A : forall d, d <= length H -> (exists n, 1 <= n <= S d /\ stable n) \/ S d <= length (hashables (S (S d)))).
    { induction d as [|d IH]; intros L.
      - destruct (grows_or_stable 1 (le_n _)); [left; exists 1; auto|right; lia].
      - destruct IH as [(n & B & S0)|IH]; [lia|left; exists n; split; auto; lia|].
        destruct (grows_or_stable (S (S d))); [lia|left; exists (S (S d)); split; auto; lia|right; lia]. }
    destruct (A (length H) (le_n _)) as [X|X]; auto. exfalso.
    pose proof (filter_len (fun o => is_some' (hash H (S (S (length H))) (VRef o))) (seq 0 (length H))) as Y. rewrite seq_length in Y.
    unfold hashables in X. lia. }
  destruct P as (n & B & S0).
  pose proof (hash_mono_le f (Nat.max f (S (length H))) v k ltac:(lia) E) as E'.
  pose proof (stable_from _ (Nat.max f (S (length H))) S0 ltac:(lia) v) as D1.
  pose proof (stable_from _ (S (length H)) S0 ltac:(lia) v) as D2. rewrite E' in D1. rewrite <- D1 in D2. cbn [is_some'] in D2.
  destruct (hash H (S (length H)) v) as [k'|] eqn:E2; [|discriminate].
  pose proof (hash_mono_le (S (length H)) (Nat.max f (S (length H))) v k' ltac:(lia) E2) as E3. congruence.
Qed.
End Fuel.

(** * Corresponding leaves *)
(** Equal, or an integer and the equal double that it is written as. *)
Definition middle (z : Z) : Prop := ((z < - 2 ^ 31 \/ 2 ^ 32 <= z) /\ Z.abs z < 2 ^ 53)%Z.
Definition leaf_ok (leaf : val -> val -> Prop) : Prop :=
  (forall v v', leaf v v' -> v' = v \/ exists z b, v = VInt z /\ v' = VFloat b /\ middle z /\ double_is b z) /\
  (forall v a b, leaf v a -> leaf v b -> a = b) /\
  (forall s, leaf (VStr s) (VStr s)) /\ (forall z, (0 <= z < 2 ^ 32)%Z -> leaf (VInt z) (VInt z)) /\
  (forall v b, leaf v (VFloat b) -> (b < 2 ^ 64)%N).
Definition bounded (leaf : val -> val -> Prop) (v v' : val) : Prop := leaf v v' /\ forall b, v' = VFloat b -> (b < 2 ^ 64)%N.
Lemma eq_leaf : leaf_ok (bounded eq).
Proof.
  unfold bounded. split; [intros v v' [<- _]; auto|]. split; [intros v a b [A _] [B _]; congruence|].
  split; [|split]; [split; [reflexivity|discriminate]..|]. intros v b [_ B]. auto.
Qed.
Lemma image_leaf : leaf_ok (bounded leaf_image).
Proof.
  unfold bounded. split.
  - intros v v' [L _]. inversion L; subst; auto. right. eexists. eexists. split; [reflexivity|]. split; [reflexivity|]. split; auto. split; auto.
  - split; [intros v a b [A _] [B _]; eapply leaf_fun; eauto|]. split; [split; [constructor|discriminate]|]. split; [|intros v b [_ B]; auto].
    intros z B. split; [constructor; lia|discriminate].
Qed.

Section Rel.
Variables H H' : heap.
Variable cfg : ecfg.
Variables root root' : val.
Hypothesis WF : wf_graph H cfg root.
Hypothesis WF' : wf_graph H' cfg root'.
Variable leaf : val -> val -> Prop.
Hypothesis LO : leaf_ok leaf.
Variable R : nat -> nat -> Prop.
Hypothesis ROO : forall o o', R o o' -> exists x y, nth_error H o = Some x /\ nth_error H' o' = Some y /\ same_obj H H' leaf R x y.
Hypothesis RF : forall o a b, R o a -> R o b -> a = b.
Hypothesis RI : forall a b o, R a o -> R b o -> a = b.
Hypothesis RO : forall o o', R o o' -> occurs H root (VRef o) /\ occurs H' root' (VRef o').
Notation sval := (same_val leaf R).

Lemma sval_leaf v v' : sval v v' -> (exists o o', v = VRef o /\ v' = VRef o' /\ R o o') \/
  v' = v /\ leaf v v /\ (forall o, v <> VRef o) \/ (exists z b, v = VInt z /\ v' = VFloat b /\ middle z /\ double_is b z /\ leaf v v').
Proof.
  intros S. assert (A : leaf v v' /\ (forall o, v <> VRef o) \/ exists o o', v = VRef o /\ v' = VRef o' /\ R o o').
  { destruct v, v'; cbn [same_val] in S; try contradiction; try (left; split; [exact S|discriminate]). right. eauto. }
  destruct A as [[A NR]|A]; [right|left; exact A].
  destruct (proj1 LO _ _ A) as [E|(z0 & b0 & E & E' & M & D)]; [left; subst; auto|right; exists z0, b0; auto 6].
Qed.

(** * Hashes *)
Fixpoint hk (a b : hkey) : Prop :=
  match a, b with
  | HId o, HId o' => R o o'
  | HCons k r, HCons k' r' => hk k k' /\ hk r r'
  | HPrim t k, HPrim t' k' => t = t' /\ hk k k'
  | HId _, _ | HCons _ _, _ | HPrim _ _, _ => False
  | _, _ => a = b
  end.
Lemma hk_eq a : forall a' b b', hk a a' -> hk b b' -> (a = b <-> a' = b').
Proof.
  induction a; intros a' b b' A B; destruct a'; cbn [hk] in A; try contradiction; try discriminate A;
    try (injection A; intros; subst; destruct b, b'; cbn [hk] in B; try contradiction; try discriminate B; try (rewrite B); try (split; [intros X; discriminate X|intros X; discriminate X]); tauto).
  all: destruct b, b'; cbn [hk] in B; try contradiction; try discriminate B; try (split; [intros X; discriminate X|intros X; discriminate X]); try tauto.
  - destruct A as [A1 A2], B as [B1 B2]. pose proof (IHa1 _ _ _ A1 B1) as E1. pose proof (IHa2 _ _ _ A2 B2) as E2.
    split; intros X; injection X; intros; f_equal; tauto.
  - destruct A as [A1 A2], B as [B1 B2]. pose proof (IHa _ _ _ A2 B2) as E2. split; intros X; injection X; intros; f_equal; try tauto; congruence.
  - split; intros X; injection X; intros ->; f_equal; eauto.
Qed.
Lemma hk_refl_num n k : hnumber n = Some k -> hk k k.
Proof. intros E. apply hnumber_num in E. destruct k; try contradiction; reflexivity. Qed.
Lemma double_hash b z : double_is b z -> hnumber (ieee b) = hnumber (Finite z 0).
Proof.
  intros (_ & S & _). destruct (ieee b) as [|s|m e]; try contradiction. cbn [same_number] in S. cbn [hnumber]. apply canon_eq in S. rewrite S. reflexivity.
Qed.
Lemma backing_same b b' : R b b' -> backing_of H' b' = backing_of H b.
Proof.
  intros Q. destruct (ROO _ _ Q) as (x & y & Ex & Ey & S). unfold backing_of. rewrite Ex, Ey.
  destruct x, y; cbn [same_obj] in S; try contradiction; subst; reflexivity.
Qed.
Definition opt_hk (a b : option hkey) : Prop := match a, b with Some a, Some b => hk a b | None, None => True | _, _ => False end.
Lemma hash_prim n v : (forall o, v <> VRef o) -> opt_hk (hash H n v) (hash H' n v).
Proof.
  intros N. destruct n; [exact I|]. rewrite !hash_S. destruct v; try reflexivity; try (elim (N oid); reflexivity).
  - destruct (hnumber (Finite z 0)) eqn:E; [eapply hk_refl_num; eauto|exact I].
  - destruct (hnumber (ieee bits)) eqn:E; [eapply hk_refl_num; eauto|exact I].
Qed.
Lemma wf_prim_leaf t v : wf_prim t v -> forall o, v <> VRef o.
Proof. intros W o ->. destruct t; exact W. Qed.
Lemma R_wf o o' x : R o o' -> nth_error H o = Some x -> wf_obj H cfg x.
Proof. intros Q E. destruct (WF _ (proj1 (RO _ _ Q))) as (x' & E' & W). congruence. Qed.
Lemma R_wf' o o' y : R o o' -> nth_error H' o' = Some y -> wf_obj H' cfg y.
Proof. intros Q E. destruct (WF' _ (proj2 (RO _ _ Q))) as (x' & E' & W). congruence. Qed.
Lemma hash_same n : forall v v', sval v v' -> opt_hk (hash H n v) (hash H' n v').
Proof.
  induction n as [|n IH]; intros v v' S; [exact I|].
  destruct (sval_leaf _ _ S) as [(o & o' & -> & -> & Q)|[(-> & L & NR)|(z & b & -> & -> & M & D & _)]].
  - rewrite !hash_S. destruct (ROO _ _ Q) as (x & y & Ex & Ey & SO). rewrite Ex, Ey. destruct x, y; cbn [same_obj] in SO; try contradiction; try exact I;
      try (subst; cbn; auto; fail).
    + destruct SO as [-> ->]. cbn. auto.
    + destruct SO as [-> ->]. pose proof (hash_prim n _ (wf_prim_leaf _ _ (R_wf _ _ _ Q Ex))) as P.
      destruct (hash H n v0), (hash H' n v0); try contradiction; cbn; auto.
    + subst. destruct (jb_readonly b0); cbn; auto.
    + destruct SO as (Qb & T & _ & Mm & _). cbv zeta. rewrite (backing_same _ _ Qb) in *. rewrite Mm, T. destruct (bk_hashable _); [|exact I].
      destruct (item_keys _ _ _); [reflexivity|exact I].
    + destruct SO as (-> & _). exact I.
    + destruct SO as [-> F]. destruct tuple0; [|exact I]. clear Ex Ey.
      induction F as [|a b l l' Sa F IHF]; cbn [fold_right]; [reflexivity|]. pose proof (IH _ _ Sa) as P.
      destruct (hash H n a), (hash H' n b); try contradiction; [|exact I].
      destruct (fold_right _ _ l), (fold_right _ _ l'); try contradiction; [|exact I]. cbn. auto.
  - apply (hash_prim (Datatypes.S n) v NR).
  - rewrite !hash_S, (double_hash _ _ D). destruct (hnumber (Finite z 0)) eqn:E; [eapply hk_refl_num; eauto|exact I].
Qed.
Lemma type_same v v' : sval v v' -> type_of H' v' = type_of H v \/ exists z b, v = VInt z /\ v' = VFloat b /\ middle z /\ double_is b z.
Proof.
  intros S. destruct (sval_leaf _ _ S) as [(o & o' & -> & -> & Q)|[(-> & L & NR)|(z & b & -> & -> & M & D & _)]].
  - left. destruct (ROO _ _ Q) as (x & y & Ex & Ey & SO). cbn [type_of]. rewrite Ex, Ey.
    destruct x, y; cbn [same_obj] in SO; try contradiction; try reflexivity. destruct SO as (_ & -> & _). reflexivity.
  - left. destruct v; try reflexivity. elim (NR oid eq_refl).
  - right. eauto 8.
Qed.
Lemma hash_any (h : heap) n v : S (length h) <= n -> hash h n v = hash h (S (length h)) v.
Proof.
  intros L. destruct (hash h (S (length h)) v) as [k|] eqn:E; [eapply hash_mono_le; eauto|].
  destruct (hash h n v) as [k|] eqn:E'; auto. apply hash_enough in E'. congruence.
Qed.
Definition krel (a b : option (htype * hkey)) : Prop := match a, b with Some a, Some b => hk (snd a) (snd b) | None, None => True | _, _ => False end.
Lemma hash_key_same v v' : sval v v' -> krel (hash_key H v) (hash_key H' v').
Proof.
  intros S. pose proof (hash_same (Nat.max (Datatypes.S (length H)) (Datatypes.S (length H'))) _ _ S) as P. unfold hash_key.
  rewrite hash_any in P by lia. rewrite (hash_any H') in P by lia.
  destruct (hash H _ v), (hash H' _ v'); try contradiction; auto.
Qed.
Lemma hash_key_type h v k : hash_key h v = Some k -> fst k = type_of h v.
Proof. unfold hash_key. destruct (hash h _ v); [|discriminate]. intros [= <-]. reflexivity. Qed.
Lemma hash_key_num h z k : hash_key h (VInt z) = Some k -> Some (snd k) = hnumber (Finite z 0).
Proof. unfold hash_key. rewrite hash_S. destruct (hnumber (Finite z 0)); [|discriminate]. intros [= <-]. reflexivity. Qed.
Lemma hash_key_float h b k : hash_key h (VFloat b) = Some k -> Some (snd k) = hnumber (ieee b).
Proof. unfold hash_key. rewrite hash_S. destruct (hnumber (ieee b)); [|discriminate]. intros [= <-]. reflexivity. Qed.
Lemma int_of_type h v : type_of h v = TInt -> exists z, v = VInt z.
Proof. destruct v; cbn; try discriminate; eauto. destruct (nth_error h oid) as [[]|]; discriminate. Qed.
Lemma float_of_type h v : type_of h v = TFloat -> exists z, v = VFloat z.
Proof. destruct v; cbn; try discriminate; eauto. destruct (nth_error h oid) as [[]|]; discriminate. Qed.
Lemma int_key_inj z z' : hnumber (Finite z 0) = hnumber (Finite z' 0) -> z = z'.
Proof.
  intros E. assert (N : hnumber (Finite z 0) <> None) by (cbn [hnumber]; destruct (canon z 0); discriminate).
  pose proof (hnumber_eq _ _ N E) as Q. cbn [same_number] in Q. unfold same_value in Q. cbn in Q. lia.
Qed.
Lemma pair_key (a b : htype * hkey) : fst a = fst b -> snd a = snd b -> a = b.
Proof. destruct a, b. cbn. intros; subst; reflexivity. Qed.
Lemma leaf_sval v v' : sval v v' -> (forall o, v <> VRef o) -> leaf v v'.
Proof. destruct v, v'; cbn [same_val]; try contradiction; auto. intros _ N. elim (N oid eq_refl). Qed.
(** Equal keys correspond to equal keys. *)
Lemma keys_forth v v' w w' k k' l' : sval v v' -> sval w w' -> hash_key H v = Some k -> hash_key H w = Some k ->
  hash_key H' v' = Some k' -> hash_key H' w' = Some l' -> k' = l'.
Proof.
  intros S T Ev Ew Ev' Ew'.
  pose proof (hash_key_same _ _ S) as P. rewrite Ev, Ev' in P. pose proof (hash_key_same _ _ T) as Q. rewrite Ew, Ew' in Q. cbn [krel] in P, Q.
  pose proof (proj1 (hk_eq _ _ _ _ P Q) eq_refl) as E.
  pose proof (hash_key_type _ _ _ Ev) as T1. pose proof (hash_key_type _ _ _ Ew) as T2.
  pose proof (hash_key_type _ _ _ Ev') as T3. pose proof (hash_key_type _ _ _ Ew') as T4.
  assert (X : forall v v' w w', sval v v' -> sval w w' -> hash_key H v = Some k -> hash_key H w = Some k ->
     forall z b, v = VInt z /\ v' = VFloat b -> w' = v').
  { clear - LO. intros v v' w w' S T Ev Ew z b [-> ->].
    pose proof (hash_key_type _ _ _ Ev) as T1. pose proof (hash_key_type _ _ _ Ew) as T2. rewrite T1 in T2. symmetry in T2.
    apply int_of_type in T2 as [z' ->]. apply hash_key_num in Ev. apply hash_key_num in Ew. rewrite Ev in Ew. apply int_key_inj in Ew. subst z'.
    destruct LO as (_ & LF & _). apply (LF (VInt z)); apply leaf_sval; auto; discriminate. }
  destruct (type_same _ _ S) as [E1|(z & b & -> & -> & _)].
  - destruct (type_same _ _ T) as [E2|(z & b & -> & -> & _)].
    + apply pair_key; auto. congruence.
    + assert (v' = VFloat b) as -> by (eapply X; eauto). congruence.
  - assert (w' = VFloat b) as -> by (eapply X; eauto). congruence.
Qed.
(** Different keys that correspond to equal keys belong to the same double. *)
Lemma keys_back v v' w w' k l k' : sval v v' -> sval w w' -> hash_key H v = Some k -> hash_key H w = Some l ->
  hash_key H' v' = Some k' -> hash_key H' w' = Some k' -> k = l \/ v' = w'.
Proof.
  intros S T Ev Ew Ev' Ew'.
  pose proof (hash_key_same _ _ S) as P. rewrite Ev, Ev' in P. pose proof (hash_key_same _ _ T) as Q. rewrite Ew, Ew' in Q. cbn [krel] in P, Q.
  pose proof (proj2 (hk_eq _ _ _ _ P Q) eq_refl) as E.
  pose proof (hash_key_type _ _ _ Ev) as T1. pose proof (hash_key_type _ _ _ Ew) as T2.
  pose proof (hash_key_type _ _ _ Ev') as T3. pose proof (hash_key_type _ _ _ Ew') as T4.
  assert (X : forall v v' w w', sval v v' -> sval w w' -> hash_key H' v' = Some k' -> hash_key H' w' = Some k' ->
     forall z b, v = VInt z /\ v' = VFloat b /\ middle z /\ double_is b z -> w' = v').
  { clear - LO. intros v v' w w' S T Ev Ew z b (-> & -> & M & D).
    pose proof (hash_key_type _ _ _ Ev) as T1. pose proof (hash_key_type _ _ _ Ew) as T2. rewrite T1 in T2. symmetry in T2.
    apply float_of_type in T2 as [b' ->]. apply hash_key_float in Ev. apply hash_key_float in Ew. rewrite Ev in Ew.
    assert (N : hnumber (ieee b) <> None) by congruence. pose proof (hnumber_eq _ _ N Ew) as Q.
    assert (L : (b' < 2 ^ 64)%N).
    { destruct w; cbn [same_val] in T; try contradiction; eapply LO; exact T. }
    pose proof (double_hash _ _ D) as DH. destruct D as (Lb & Sb & Nz). destruct (ieee_inj b b' Lb L Q) as [->|[[->| ->] _]]; auto; [intros Y; rewrite Y in N; apply N; reflexivity| |elim Nz; reflexivity].
    exfalso. change (hnumber (ieee 0)) with (hnumber (Finite 0 0)) in DH. apply int_key_inj in DH. unfold middle in M. lia. }
  destruct (type_same _ _ S) as [E1|(z & b & A)].
  - destruct (type_same _ _ T) as [E2|(z & b & A)].
    + left. apply pair_key; auto. congruence.
    + right. eapply X; eauto.
  - right. symmetry. eapply X; eauto.
Qed.

(** * States *)
Definition lookup (st : est) (k : htype * hkey) : option val := dget hash_key_eqb k (es_seen st).
Definition seen_rel (st st' : est) : Prop := es_size st = None /\ es_size st' = None /\ forall v v' k k', sval v v' -> hash_key H v = Some k -> hash_key H' v' = Some k' ->
  match lookup st k, lookup st' k' with
  | Some a, Some a' => sval a a'
  | None, None => True
  | None, Some a' => a' = v'
  | Some _, None => False
  end.
Definition entry_rel (a b : entry (O := nat)) : Prop :=
  match a, b with
  | EObj o, EObj o' => R o o'
  | EFwd None, EFwd None => True
  | EFwd (Some o), EFwd (Some o') => R o o'
  | _, _ => False
  end.
Definition log_rel (l l' : log (O := nat)) : Prop :=
  Forall2 (fun p q => R (fst p) (fst q) /\ snd p = snd q) (log_ids l) (log_ids l') /\ Forall2 entry_rel (log_entries l) (log_entries l').
Definition st_rel (st st' : est) : Prop := es_allowed st = es_allowed st' /\ log_rel (es_log st) (es_log st') /\ seen_rel st st'.
Definition res_rel (r r' : result (bytes * est)) : Prop :=
  match r, r' with
  | Ok (x, st), Ok (x', st') => x = x' /\ st_rel st st'
  | Err e, Err e' => e = e'
  | _, _ => False
  end.
Definition rel (w w' : W) : Prop := forall st st', st_rel st st' -> res_rel (w st) (w' st').

Lemma empty_rel : st_rel es_empty es_empty.
Proof. split; [reflexivity|]. split; [split; constructor|]. split; [reflexivity|]. split; [reflexivity|]. intros v v' k k' _ _ _. exact I. Qed.

Lemma dget_rel o o' : R o o' -> forall l l', Forall2 (fun p q : nat * nat => R (fst p) (fst q) /\ snd p = snd q) l l' ->
  dget Nat.eqb o l = dget Nat.eqb o' l'.
Proof.
  intros Q. induction 1 as [|[a i] [b j] l l' [A B] F IH]; [reflexivity|]. cbn [dget fst snd] in *. subst j.
  destruct (Nat.eqb_spec o a) as [->|N], (Nat.eqb_spec o' b) as [->|N']; auto; exfalso; eauto.
Qed.
Lemma dset_rel o o' i : R o o' -> forall l l', Forall2 (fun p q : nat * nat => R (fst p) (fst q) /\ snd p = snd q) l l' ->
  Forall2 (fun p q : nat * nat => R (fst p) (fst q) /\ snd p = snd q) (dset Nat.eqb o i l) (dset Nat.eqb o' i l').
Proof.
  intros Q. induction 1 as [|[a n] [b j] l l' [A B] F IH]; [constructor; auto|]. cbn [dset fst snd] in *. subst j.
  destruct (Nat.eqb_spec o a) as [->|N], (Nat.eqb_spec o' b) as [->|N']; try (constructor; auto; fail); exfalso; eauto.
Qed.
Lemma contains_rel l l' o o' : log_rel l l' -> R o o' -> log_contains pyid l o = log_contains pyid l' o'.
Proof. intros [A _] Q. unfold log_contains, dmem, pyid. rewrite (dget_rel _ _ Q _ _ A). reflexivity. Qed.
Lemma F2_length {A B} (P : A -> B -> Prop) l l' : Forall2 P l l' -> length l = length l'.
Proof. induction 1; cbn; congruence. Qed.
Lemma F2_nth {A B} (P : A -> B -> Prop) l l' n : Forall2 P l l' ->
  match nth_error l n, nth_error l' n with Some a, Some b => P a b | None, None => True | _, _ => False end.
Proof. intros F. revert n. induction F; intros [|n]; cbn; auto. apply IHF. Qed.
Lemma get_id_rel l l' o o' : log_rel l l' -> R o o' -> log_get_serialized_id pyid l o = log_get_serialized_id pyid l' o'.
Proof.
  intros [A B] Q. unfold log_get_serialized_id, pyid. rewrite (dget_rel _ _ Q _ _ A). destruct (dget _ _ _) as [sid|]; auto.
  pose proof (F2_nth _ _ _ sid B) as E. destruct (nth_error _ sid) as [[a|[a|]]|], (nth_error _ sid) as [[b|[b|]]|]; try contradiction; auto.
Qed.
Lemma record_rel_log l l' o o' : log_rel l l' -> R o o' ->
  fst (log_record pyid l o) = fst (log_record pyid l' o') /\ log_rel (snd (log_record pyid l o)) (snd (log_record pyid l' o')).
Proof.
  intros [A B] Q. unfold log_record, pyid. cbn [fst snd]. pose proof (F2_length _ _ _ B) as L. split; auto.
  split; cbn [log_ids log_entries]; [rewrite L; apply dset_rel; auto|]. apply Forall2_app; auto.
Qed.
Lemma list_set_rel {A B} (P : A -> B -> Prop) l l' i a b : Forall2 P l l' -> P a b -> Forall2 P (list_set l i a) (list_set l' i b).
Proof. intros F Q. revert i. induction F; intros [|i]; cbn [list_set]; constructor; auto. Qed.
Lemma open_rel l l' o o' : log_rel l l' -> R o o' ->
  fst (log_open_acyclic pyid l o) = fst (log_open_acyclic pyid l' o') /\ log_rel (snd (log_open_acyclic pyid l o)) (snd (log_open_acyclic pyid l' o')).
Proof.
  intros A Q. unfold log_open_acyclic. destruct (record_rel_log _ _ _ _ A Q) as [E B].
  destruct (log_record pyid l o) as [sid l1], (log_record pyid l' o') as [sid' l1']. cbn [fst snd] in *. subst sid'. split; auto.
  unfold log_replace. destruct B as [B1 B2]. pose proof (F2_length _ _ _ B2) as L. rewrite L. destruct (negb _); [split; auto|].
  split; auto. cbn [log_entries]. apply list_set_rel; auto. exact I.
Qed.
Lemma set_forward_rel l l' sid o o' : log_rel l l' -> R o o' -> log_rel (log_set_forward l sid o) (log_set_forward l' sid o').
Proof.
  intros [A B] Q. unfold log_set_forward. pose proof (F2_nth _ _ _ sid B) as E.
  destruct (nth_error _ sid) as [[a|[a|]]|], (nth_error _ sid) as [[b|[b|]]|]; try contradiction; try (split; auto; fail).
  split; auto. cbn [log_entries]. apply list_set_rel; auto.
Qed.

(** * Writers *)
Lemma rel_seq a a' b b' : rel a a' -> rel b b' -> rel (w_seq a b) (w_seq a' b').
Proof.
  intros A B st st' S. unfold w_seq. specialize (A _ _ S). destruct (a st) as [[x s1]|e], (a' st') as [[x' s1']|e']; try contradiction; [|exact A].
  destruct A as [-> S1]. cbn [bind]. specialize (B _ _ S1). destruct (b s1) as [[y s2]|e], (b' s1') as [[y' s2']|e']; try contradiction; [|exact B].
  destruct B as [-> S2]. split; auto.
Qed.
Lemma rel_nil : rel w_nil w_nil.
Proof. intros st st' S. split; auto. Qed.
Lemma rel_fail e : rel (w_fail e) (w_fail e).
Proof. intros st st' S. reflexivity. Qed.
Lemma rel_raw b : rel (w_raw b) (w_raw b).
Proof. intros st st' S. split; auto. Qed.
Lemma rel_res r : rel (w_res r) (w_res r).
Proof. destruct r; [apply rel_raw|apply rel_fail]. Qed.
Lemma rel_tag t : rel (w_tag t) (w_tag t).
Proof. intros st st' S. unfold w_tag. rewrite <- (proj1 S). destruct (es_allowed st); [destruct (tag_in _ _); [|reflexivity]|]; split; auto. Qed.
Lemma set_allowed_rel st st' a : st_rel st st' -> st_rel (set_allowed st a) (set_allowed st' a).
Proof. intros (A & B & C). split; [reflexivity|]. split; auto. Qed.
Lemma set_log_rel st st' l l' : st_rel st st' -> log_rel l l' -> st_rel (set_log st l) (set_log st' l').
Proof. intros (A & B & C) D. split; [exact A|]. split; auto. Qed.
Lemma rel_constrained s a a' : rel a a' -> rel (constrained s a) (constrained s a').
Proof.
  intros A st st' S. unfold constrained. specialize (A _ _ (set_allowed_rel _ _ (Some s) S)).
  destruct (a _) as [[x s1]|e], (a' _) as [[x' s1']|e']; try contradiction; [|exact A].
  destruct A as [-> S1]. cbn [bind]. split; auto. apply set_allowed_rel; auto.
Qed.
Lemma rel_record o o' : R o o' -> rel (w_record o) (w_record o').
Proof. intros Q st st' S. split; auto. apply set_log_rel; auto. apply record_rel_log; auto. apply S. Qed.
Lemma rel_reference o o' : R o o' -> rel (write_reference o) (write_reference o').
Proof.
  intros Q st st' S. unfold write_reference. rewrite (get_id_rel _ _ _ _ (proj1 (proj2 S)) Q). destruct (log_get_serialized_id _ _ _); [|reflexivity].
  cbn [bind]. revert st st' S. apply rel_seq; [apply rel_tag|apply rel_raw].
Qed.
Lemma rel_acyclic o o' a a' : R o o' -> rel a a' -> rel (w_acyclic o a) (w_acyclic o' a').
Proof.
  intros Q A st st' S. unfold w_acyclic. destruct (open_rel _ _ _ _ (proj1 (proj2 S)) Q) as [E B].
  destruct (log_open_acyclic pyid (es_log st) o) as [sid l], (log_open_acyclic pyid (es_log st') o') as [sid' l']. cbn [fst snd] in *. subst sid'.
  specialize (A _ _ (set_log_rel _ _ _ _ S B)). destruct (a _) as [[x s1]|e], (a' _) as [[x' s1']|e']; try contradiction.
  - destruct A as [-> S1]. cbn [bind acyclic_exn]. split; auto. apply set_log_rel; auto. apply set_forward_rel; auto. apply S1.
  - cbn [res_rel] in A. subst e'. destruct e; cbn; auto. destruct (Nat.eqb _ sid); reflexivity.
Qed.
Lemma rel_values f f' l l' : (forall v v', sval v v' -> rel (f v) (f' v')) -> Forall2 sval l l' -> rel (w_values f l) (w_values f' l').
Proof. intros A. induction 1; cbn [w_values]; [apply rel_nil|apply rel_seq; auto]. Qed.
Lemma rel_items (P Q : val -> val -> Prop) f f' g g' l l' : (forall v v', P v v' -> rel (f v) (f' v')) -> (forall v v', Q v v' -> rel (g v) (g' v')) ->
  Forall2 (fun p q => P (fst p) (fst q) /\ Q (snd p) (snd q)) l l' -> rel (w_items f g l) (w_items f' g' l').
Proof. intros A B. induction 1 as [|[k v] [k' v'] l l' [C D] F IH]; cbn [w_items]; [apply rel_nil|]. apply rel_seq; [auto|apply rel_seq; auto]. Qed.
Lemma count_eq {A B} (P : A -> B -> Prop) l l' : Forall2 P l l' -> count l = count l'.
Proof. intros F. unfold count, lenN. rewrite (F2_length _ _ _ F). reflexivity. Qed.

(** * Steps *)
Lemma lookup_app st k k1 v1 : lookup (mkE (es_log st) (es_allowed st) (es_seen st ++ [(k1, v1)]) None) k =
  match lookup st k with Some a => Some a | None => if hash_key_eqb k k1 then Some v1 else None end.
Proof.
  unfold lookup. cbn [es_seen]. generalize (es_seen st). intros l. induction l as [|[k2 v2] l IH]; [reflexivity|]. cbn [app dget].
  destruct (hash_key_eqb k k2); auto.
Qed.
Lemma dedup_rel v v' st st' : sval v v' -> st_rel st st' ->
  sval (fst (deduplicate H v st)) (fst (deduplicate H' v' st')) /\ st_rel (snd (deduplicate H v st)) (snd (deduplicate H' v' st')).
Proof.
  intros S (A & L & Z1 & Z2 & SE). unfold deduplicate. pose proof (hash_key_same _ _ S) as K.
  destruct (hash_key H v) as [k1|] eqn:E1, (hash_key H' v') as [k1'|] eqn:E1'; try contradiction; [|split; auto; split; auto; split; auto; split; auto].
  pose proof (SE _ _ _ _ S E1 E1') as X. unfold lookup in X.
  destruct (dget hash_key_eqb k1 (es_seen st)) as [a|] eqn:D, (dget hash_key_eqb k1' (es_seen st')) as [a'|] eqn:D'; try contradiction; rewrite Z1, Z2; cbn [fst snd cache_hit cache_miss].
  - split; auto. split; auto. split; [exact L|]. split; auto.
  - subst a'. split; auto. split; [exact A|]. split; [exact L|]. split; [reflexivity|]. split; [reflexivity|].
    intros w w' k k' T Ek Ek'. rewrite lookup_app. pose proof (SE _ _ _ _ T Ek Ek') as Y.
    destruct (lookup st k) as [b|] eqn:B; auto. destruct (hash_key_eqb k k1) eqn:Q; [|exact Y]. apply hash_key_eqb_spec in Q. subst k.
    assert (k' = k1') as -> by (eapply (keys_forth w w' v v'); eauto). unfold lookup. cbn [es_seen]. rewrite D'. exact S.
  - split; auto. split; [exact A|]. split; [exact L|]. split; [reflexivity|]. split; [reflexivity|].
    intros w w' k k' T Ek Ek'. rewrite !lookup_app. pose proof (SE _ _ _ _ T Ek Ek') as Y.
    destruct (lookup st k) as [b|] eqn:B; destruct (lookup st' k') as [b'|] eqn:B'; auto; try contradiction.
    + subst b'. destruct (hash_key_eqb k k1) eqn:Q; auto. apply hash_key_eqb_spec in Q. subst k.
      assert (k' = k1') as -> by (eapply (keys_forth w w' v v'); eauto). unfold lookup in B'. congruence.
    + destruct (hash_key_eqb k k1) eqn:Q.
      * apply hash_key_eqb_spec in Q. subst k. assert (k' = k1') as -> by (eapply (keys_forth w w' v v'); eauto).
        rewrite (proj2 (hash_key_eqb_spec _ _) eq_refl). exact S.
      * destruct (hash_key_eqb k' k1') eqn:Q'; auto. apply hash_key_eqb_spec in Q'. subst k'.
        destruct (keys_back w w' v v' k k1 k1' T S Ek E1 Ek' E1') as [->| <-]; auto. rewrite (proj2 (hash_key_eqb_spec _ _) eq_refl) in Q. discriminate.
Qed.

Lemma rel_with {A B} (r : result A) (r' : result B) f f' (P : A -> B -> Prop) a b : r = Ok a -> r' = Ok b -> P a b ->
  (forall x y, P x y -> rel (f x) (f' y)) -> rel (w_with r f) (w_with r' f').
Proof. intros -> -> Q F. apply F. exact Q. Qed.
Lemma rel_res_then r (w w' : bytes -> W) : (forall p, rel (w p) (w' p)) -> rel (fun st => do p <- r; w p st) (fun st => do p <- r; w' p st).
Proof. intros A st st' S. destruct r as [p|e]; [apply A; exact S|reflexivity]. Qed.
Lemma rel_tagged t p : rel (w_seq (w_tag t) (w_raw p)) (w_seq (w_tag t) (w_raw p)).
Proof. apply rel_seq; [apply rel_tag|apply rel_raw]. Qed.
Lemma rel_utf8 s : rel (write_utf8 s) (write_utf8 s).
Proof. apply rel_res_then. intros. apply rel_tagged. Qed.
Lemma rel_int z : rel (serialize_int z) (serialize_int z).
Proof.
  intros st st' S. unfold serialize_int. pose proof (proj1 S) as A.
  destruct (in_uint32 z); [exact (rel_res_then _ _ _ (rel_tagged kUint32) _ _ S)|].
  destruct (in_int32 z); [exact (rel_res_then _ _ _ (rel_tagged kInt32) _ _ S)|].
  destruct (in_safe_int z); [exact (rel_tagged _ _ _ _ S)|]. rewrite <- A.
  destruct (es_allowed st) as [[|]|]; try exact (rel_res_then _ _ _ (rel_tagged kBigInt) _ _ S).
  destruct (int_str z) as [s|e]; [|reflexivity]. exact (rel_res_then _ _ _ (rel_tagged kOneByteString) _ _ S).
Qed.
Lemma middle_double z b : middle z -> double_is b z -> serialize_int z = write_double b.
Proof.
  intros [M L] D. unfold serialize_int. unfold in_uint32, in_int32, in_safe_int.
  assert (double_of_Z z = b) as <- by (apply (double_unique _ _ z); [apply double_of_Z_spec; auto|exact D]).
  change (2 ^ 31)%Z with 2147483648%Z in M. change (2 ^ 32)%Z with 4294967296%Z in M. change (2 ^ 53)%Z with 9007199254740992%Z in L.
  replace ((0 <=? z) && (z <? 4294967296))%Z with false by lia. replace ((-2147483648 <=? z) && (z <? 2147483648))%Z with false by lia.
  replace ((-9007199254740991 <=? z) && (z <? 9007199254740992))%Z with true by lia. reflexivity.
Qed.
Lemma rel_opt {A} (f : A -> W) x : (forall a, rel (f a) (f a)) -> rel (w_opt f x) (w_opt f x).
Proof. intros F. destruct x; [apply F|apply rel_nil]. Qed.

Variables enc enc' : val -> W.
Hypothesis ENC : forall v v', sval v v' -> rel (enc v) (enc' v').

Lemma rel_key k : leaf k k -> (forall o, k <> VRef o) -> rel (constrained KeyTags (enc k)) (constrained KeyTags (enc' k)).
Proof. intros L N. apply rel_constrained, ENC. destruct k; try exact L. elim (N _ eq_refl). Qed.
Definition okey (p q : val * val) : Prop := (fst q = fst p /\ leaf (fst p) (fst p) /\ (forall o, fst p <> VRef o)) /\ sval (snd p) (snd q).
Lemma rel_props l l' : Forall2 okey l l' -> rel (w_items (fun k => constrained KeyTags (enc k)) enc l) (w_items (fun k => constrained KeyTags (enc' k)) enc' l').
Proof. apply (rel_items (fun k k' => k' = k /\ leaf k k /\ (forall o, k <> VRef o))); [|exact ENC]. intros v v' (-> & A & B). apply rel_key; auto. Qed.
Lemma rel_properties l l' t : Forall2 okey l l' -> rel (write_properties enc l t) (write_properties enc' l' t).
Proof.
  intros F. unfold write_properties. rewrite (count_eq _ _ _ F). apply rel_seq; [apply rel_props; auto|]. apply rel_seq; [apply rel_tag|apply rel_raw].
Qed.
Lemma named_okey (x y : jsobj val) : Forall2 (same_prop leaf R) (named_items x) (named_items y) -> Forall2 okey (named_items x) (named_items y).
Proof.
  unfold named_items. generalize (jo_props y). induction (jo_props x) as [|[k v] l IH]; intros [|[k' v'] l'] F; inversion F as [|? ? ? ? [A B] F']; subst; constructor; auto.
  unfold same_prop in *. cbn [fst snd] in *. split; [|exact B]. split; [cbn [fst]; congruence|]. split; [apply LO|discriminate].
Qed.
Lemma entries_index {T} (l : list (option T)) : forall i p, In p (entries_from i l) -> (i <= fst p < i + Z.of_nat (length l))%Z.
Proof.
  induction l as [|[a|] l IH]; intros i p; cbn [entries_from length In].
  - contradiction.
  - intros [<-|Q]; [cbn; lia|]. specialize (IH _ _ Q). lia.
  - intros Q. specialize (IH _ _ Q). lia.
Qed.
Lemma own_okey (x y : jsobj val) : wf_jsobj x -> Forall2 (same_prop leaf R) (own_items x) (own_items y) -> Forall2 okey (own_items x) (own_items y).
Proof.
  intros (_ & _ & _ & _ & _ & L) F.
  assert (A : Forall (fun p : val * val => leaf (fst p) (fst p) /\ forall o, fst p <> VRef o) (own_items x)).
  { unfold own_items. apply Forall_app. split.
    - apply Forall_forall. intros p Q. apply in_map_iff in Q as ([i v] & <- & Q). cbn [fst]. split; [|discriminate]. apply LO.
      apply entries_index in Q. cbn [fst] in Q. unfold lenN in L. change (2 ^ 32)%N with 4294967296%N in L. change (2 ^ 32)%Z with 4294967296%Z. lia.
    - apply Forall_forall. intros p Q. apply in_map_iff in Q as ([i v] & <- & Q). cbn [fst]. split; [|discriminate]. apply LO. }
  clear L. revert A. induction F as [|p q l l' [B C] F IH]; intros A; constructor; inversion A as [|? ? [D E] A']; subst; auto.
  split; auto.
Qed.
Definition orel (a b : option val) : Prop := match a, b with Some a, Some b => sval a b | None, None => True | _, _ => False end.
Lemma holes_orel (l l' : list (option val)) : Forall (fun e => e <> Some VHole) l -> Forall (fun e => e <> Some VHole) l' ->
  Forall2 sval (map of_elem l) (map of_elem l') -> Forall2 orel l l'.
Proof.
  revert l'. induction l as [|a l IH]; intros [|b l'] A B F; inversion F as [|? ? ? ? S F']; inversion A; inversion B; subst; constructor; auto.
  destruct a as [a|], b as [b|]; cbn [of_elem orel] in *; auto.
  - destruct (sval_leaf _ _ S) as [(o & o' & _ & E & _)|[(E & _)|(z & f & _ & E & _)]]; congruence.
  - destruct (sval_leaf _ _ S) as [(o & o' & E & _)|[(E & _)|(z & f & E & _)]]; congruence.
Qed.
Lemma orel_used l l' : Forall2 orel l l' -> count_used l = count_used l'.
Proof.
  intros F. unfold count_used, ModelArray.zlen. do 1 f_equal. induction F as [|a b l l' S F IH]; [reflexivity|].
  destruct a, b; try contradiction; cbn [filter is_some length]; congruence.
Qed.
Lemma orel_entries l l' : Forall2 orel l l' -> forall i, Forall2 (same_prop leaf R) (map (fun p => (VInt (fst p), snd p)) (entries_from i l)) (map (fun p => (VInt (fst p), snd p)) (entries_from i l')).
Proof.
  induction 1 as [|a b l l' S F IH]; intros i; [constructor|]. destruct a, b; try contradiction; cbn [entries_from map]; auto.
  constructor; auto. split; auto.
Qed.
Lemma rel_array o o' x y : R o o' -> wf_jsobj x -> wf_jsobj y -> same_obj H H' leaf R (OArray x) (OArray y) ->
  rel (serialize_js_array enc o x) (serialize_js_array enc' o' y).
Proof.
  intros Q WX WY [E P]. pose proof WX as (AX & _ & _ & HX & _ & LX). pose proof WY as (AY & _ & _ & HY & _ & LY).
  assert (F : Forall2 orel (aabs (jo_arr x)) (aabs (jo_arr y))) by (apply holes_orel; auto).
  assert (LE : arr_len (jo_arr x) = arr_len (jo_arr y)) by (rewrite !arr_len_eq by auto; unfold ModelArray.zlen; rewrite (F2_length _ _ _ F); auto).
  unfold serialize_js_array, sparse_is_smaller. rewrite !arr_used_eq, (orel_used _ _ F), LE by auto.
  destruct (_ <? _)%Z.
  - apply (rel_with _ _ _ _ (Forall2 okey) (own_items x) (own_items y)); [apply jo_items_spec; auto|apply jo_items_spec; auto| |].
    + apply own_okey; auto. apply Forall2_app; auto. apply orel_entries; auto.
    + intros l l' O. unfold write_sparse. destruct (_ || _)%bool; [apply rel_fail|]. apply rel_seq; [apply rel_record; auto|].
      apply rel_seq; [apply rel_tag|]. apply rel_seq; [apply rel_raw|]. apply rel_seq; [apply rel_properties; auto|apply rel_raw].
  - apply (rel_with _ _ _ _ (fun l l' => l = aabs (jo_arr x) /\ l' = aabs (jo_arr y)) (aabs (jo_arr x)) (aabs (jo_arr y))); [apply arr_iter_eq; auto|apply arr_iter_eq; auto|auto|].
    intros l l' [-> ->]. unfold write_dense. pose proof E as V. unfold elements in V.
    pose proof (named_okey _ _ P) as N. change (jo_properties x) with (named_items x). change (jo_properties y) with (named_items y).
    rewrite (count_eq _ _ _ V), (count_eq _ _ _ N). repeat apply rel_seq; try apply rel_raw; try apply rel_tag.
    + apply rel_record; auto.
    + apply rel_values; auto.
    + destruct (_ =? _)%N; [apply rel_nil|apply rel_fail].
    + apply rel_props; auto.
Qed.

Lemma rel_map o o' l l' : R o o' -> Forall2 (same_pair leaf R) l l' -> rel (write_jsmap enc o l) (write_jsmap enc' o' l').
Proof.
  intros Q F. unfold write_jsmap. rewrite (count_eq _ _ _ F). repeat apply rel_seq; try apply rel_raw; try apply rel_tag; [apply rel_record; auto|].
  apply (rel_items sval sval); auto.
Qed.
Lemma rel_set o o' l l' : R o o' -> Forall2 sval l l' -> rel (write_jsset enc o l) (write_jsset enc' o' l').
Proof.
  intros Q F. unfold write_jsset. rewrite (count_eq _ _ _ F). repeat apply rel_seq; try apply rel_raw; try apply rel_tag; [apply rel_record; auto|].
  apply rel_values; auto.
Qed.
Lemma rel_dense o o' l l' : R o o' -> Forall2 sval l l' -> rel (write_dense enc o (count l) l []) (write_dense enc' o' (count l') l' []).
Proof.
  intros Q F. unfold write_dense. rewrite (count_eq _ _ _ F), N.eqb_refl. cbn [w_items]. repeat apply rel_seq; try apply rel_raw; try apply rel_tag; try apply rel_nil;
    [apply rel_record; auto|]. apply rel_values; auto.
Qed.
Lemma used_all (l : list (option val)) : Forall (fun e => e <> None) l -> count_used l = ModelArray.zlen l.
Proof.
  intros F. unfold count_used, ModelArray.zlen. do 1 f_equal. induction F as [|a l A F IH]; [reflexivity|].
  destruct a; [|congruence]. cbn [filter is_some length]. congruence.
Qed.
Lemma rel_list o o' l y : R o o' -> wf_jsobj y -> Forall2 sval l (elements y) -> named_items y = [] -> ~ In VHole l ->
  rel (write_dense enc o (count l) l []) (serialize_js_array enc' o' y).
Proof.
  intros Q WY F NI NH. pose proof WY as (AY & _ & _ & HY & _ & LY).
  assert (NN : Forall (fun e => e <> None) (aabs (jo_arr y))).
  { clear HY LY. unfold elements in F. revert l F NH. induction (aabs (jo_arr y)) as [|a r IH]; intros l F NH; constructor.
    - intros ->. inversion F as [|v ? l1 ? S F']; subst. destruct (sval_leaf _ _ S) as [(? & ? & _ & E & _)|[(E & _)|(? & ? & _ & E & _)]]; try discriminate E.
      apply NH. left. exact (eq_sym E).
    - inversion F as [|v ? l1 ? S F']; subst. apply (IH l1); auto. intros I. apply NH. right. exact I. }
  unfold serialize_js_array, sparse_is_smaller. rewrite arr_used_eq, arr_len_eq, used_all by auto.
  replace (ModelArray.zlen (aabs (jo_arr y)) * _ <? _)%Z with false by (unfold ModelArray.zlen; destruct (_ <? 2 ^ 14)%Z; lia).
  rewrite arr_iter_eq by auto. cbn [w_with]. change (jo_properties y) with (named_items y). rewrite NI. change (map of_elem (aabs (jo_arr y))) with (elements y).
  replace (Z.to_N (ModelArray.zlen (aabs (jo_arr y)))) with (count (elements y)) by (unfold count, lenN, elements, ModelArray.zlen; rewrite map_length; lia).
  apply rel_dense; auto.
Qed.
Lemma rel_object o o' x y : R o o' -> wf_jsobj x -> wf_jsobj y -> Forall2 (same_prop leaf R) (own_items x) (own_items y) ->
  rel (w_with (jo_items x) (write_js_object enc o)) (w_with (jo_items y) (write_js_object enc' o')).
Proof.
  intros Q WX WY F. apply (rel_with _ _ _ _ (Forall2 okey) (own_items x) (own_items y)); [apply jo_items_spec; auto|apply jo_items_spec; auto|apply own_okey; auto|].
  intros l l' O. unfold write_js_object. apply rel_seq; [apply rel_record; auto|]. apply rel_seq; [apply rel_tag|apply rel_properties; auto].
Qed.
Lemma none_same c c' : sval c c' -> (c = VNone <-> c' = VNone).
Proof. intros S. destruct (sval_leaf _ _ S) as [(o & o' & -> & -> & _)|[(-> & _)|(z & f & -> & -> & _)]]; split; congruence. Qed.
Lemma rel_error o o' n m s c c' : R o o' -> sval c c' -> rel (write_error cfg enc o n m s c) (write_error cfg enc' o' n m s c').
Proof.
  intros Q C. unfold write_error. pose proof (none_same _ _ C) as NS. apply rel_seq; [apply rel_tag|]. apply rel_seq; [apply rel_opt; intros; apply rel_raw|].
  apply rel_seq; [apply rel_opt; intros; apply rel_seq; [apply rel_raw|apply rel_utf8]|].
  apply rel_seq; [apply rel_opt; intros; apply rel_seq; [apply rel_raw|apply rel_utf8]|]. apply rel_seq; [|apply rel_raw].
  assert (B : rel (w_seq (w_varint (etag_byte eCause)) (if f_circular (e_features cfg) then w_seq (w_record o) (enc c) else w_acyclic o (enc c)))
                  (w_seq (w_varint (etag_byte eCause)) (if f_circular (e_features cfg) then w_seq (w_record o') (enc' c') else w_acyclic o' (enc' c')))).
  { apply rel_seq; [apply rel_raw|]. destruct (f_circular _); [apply rel_seq; [apply rel_record; auto|apply ENC; auto]|apply rel_acyclic; auto]. }
  destruct c eqn:Ec; try (destruct c'; try exact B; exfalso; destruct NS as [N1 N2]; discriminate (N2 eq_refl)).
  rewrite (proj1 NS eq_refl). apply rel_nil.
Qed.
Lemma rel_uint32 z : rel (w_uint32 z) (w_uint32 z).
Proof. apply rel_res. Qed.
Lemma rel_buffer o o' b : R o o' -> rel (write_buffer cfg o b) (write_buffer cfg o' b).
Proof.
  intros Q. unfold write_buffer. destruct (_ && _)%bool; [destruct (_ <? _)%Z; [apply rel_fail|]|];
    repeat apply rel_seq; try apply rel_raw; try apply rel_tag; try apply rel_uint32; apply rel_record; auto.
Qed.
Lemma rel_serialize_buffer o o' d : R o o' -> rel (serialize_buffer H cfg o d) (serialize_buffer H' cfg o' d).
Proof.
  intros Q st st' S. unfold serialize_buffer. assert (SV : sval (VRef o) (VRef o')) by exact Q. destruct (dedup_rel _ _ _ _ SV S) as [A B].
  destruct (deduplicate H (VRef o) st) as [v s1], (deduplicate H' (VRef o') st') as [v' s1']. cbn [fst snd] in *.
  destruct v, v'; try contradiction; try reflexivity. apply rel_buffer; auto.
Qed.
Lemma rel_primitive o o' t v : R o o' -> rel (write_primitive o t v) (write_primitive o' t v).
Proof.
  intros Q. unfold write_primitive. apply rel_seq; [apply rel_record; auto|]. apply rel_seq; [apply rel_tag|].
  destruct t; try apply rel_fail; destruct v; try apply rel_fail; try apply rel_nil; try apply rel_res; try apply rel_raw.
Qed.
Lemma rel_view o o' b b' w w' : R o o' -> same_view H H' R b w b' w' -> rel (write_view cfg o (backing_of H b) w) (write_view cfg o' (backing_of H' b') w').
Proof.
  intros Q (RB & T & OF & ME & TR). unfold write_view, view_byte_length. rewrite T, OF, ME, TR, (backing_same _ _ RB).
  destruct (_ && _)%bool; [apply rel_fail|]. repeat apply rel_seq; try apply rel_raw; try apply rel_tag; try apply rel_uint32. apply rel_record; auto.
Qed.

Variables next next' : val -> W.
Hypothesis NEXT : forall v v', sval v v' -> rel (next v) (next' v').
Lemma rel_step_references v v' : sval v v' -> rel (step_references H enc v next) (step_references H' enc' v' next').
Proof.
  intros S st st' ST. unfold step_references. destruct (dedup_rel _ _ _ _ S ST) as [A B].
  destruct (deduplicate H v st) as [u s1], (deduplicate H' v' st') as [u' s1']. cbn [fst snd] in *.
  destruct u, u'; try contradiction; try (apply NEXT; auto; fail).
  rewrite (contains_rel _ _ _ _ (proj1 (proj2 B)) A). destruct (log_contains _ _ _); [apply rel_reference; auto|apply NEXT; auto].
Qed.
Lemma rel_step_node v v' : sval v v' -> rel (step_node H enc v next) (step_node H' enc' v' next').
Proof.
  intros S. unfold step_node. destruct v, v'; try contradiction; try (apply NEXT; exact S).
  destruct (ROO _ _ S) as (x & y & E & E' & SO). rewrite E, E'. destruct x, y; try contradiction; try (apply NEXT; exact S).
  cbn [same_obj] in SO. destruct SO as (RB & T & OF & ME & TR). rewrite T, ME. destruct (node_code _); [|apply NEXT; exact S].
  unfold write_node_view. repeat apply rel_seq; try apply rel_raw; try apply rel_tag; apply rel_uint32.
Qed.
Lemma rel_step_tagwriter v v' : sval v v' -> rel (step_tagwriter H cfg enc v next) (step_tagwriter H' cfg enc' v' next').
Proof.
  intros S. destruct (sval_leaf _ _ S) as [(o & o' & -> & -> & Q)|[(-> & _ & N)|(z & b & -> & -> & M & D & _)]].
  - cbn [step_tagwriter]. destruct (ROO _ _ Q) as (x & y & E & E' & SO). rewrite E, E'. pose proof (R_wf _ _ _ Q E) as WX. pose proof (R_wf' _ _ _ Q E') as WY.
    destruct x, y; try contradiction; cbn [same_obj wf_obj] in *;
      try (apply NEXT; exact S; fail).
    + apply (rel_with _ _ _ _ (Forall2 (same_pair leaf R)) (map snd m) (map snd m0)); [apply jm_items_spec; auto|apply jm_items_spec; auto|exact SO|].
      intros l l' F. apply rel_map; auto.
    + apply rel_set; auto.
    + apply rel_object; auto.
    + apply rel_array; auto.
    + destruct SO as [<- <-]. unfold write_regexp. apply rel_seq; [apply rel_tag|]. apply rel_seq; [apply rel_utf8|apply rel_raw].
    + destruct SO as (<- & <- & <- & C). apply rel_error; auto.
    + destruct SO as [<- <-]. apply rel_primitive; auto.
    + subst. intros st st' ST. unfold write_date. destruct (e_timestamp _ _); [|reflexivity]. revert st st' ST.
      apply rel_seq; [apply rel_record; auto|apply rel_tagged].
    + subst. apply rel_buffer; auto.
    + subst. unfold write_buffer_id. apply rel_seq; [apply rel_record; auto|]. apply rel_seq; [apply rel_tag|apply rel_raw].
    + subst. unfold write_buffer_id. apply rel_seq; [apply rel_record; auto|]. apply rel_seq; [apply rel_tag|apply rel_raw].
    + pose proof SO as (RB & T & _). rewrite T. destruct (_ && _)%bool; [apply NEXT; exact S|]. apply rel_seq; [apply ENC; exact RB|apply rel_view; auto].
    + subst. unfold write_shared_ref. apply rel_seq; [apply rel_record; auto|]. apply rel_seq; [apply rel_tag|apply rel_uint32].
    + rewrite jm_items_spec by auto. apply rel_map; auto.
    + apply rel_map; auto.
    + apply rel_set; auto.
    + apply rel_set; auto.
    + destruct SO as (_ & F & NI & NH). apply rel_list; auto.
    + destruct SO as [_ F]. apply rel_dense; auto.
    + subst. apply rel_serialize_buffer; auto.
    + subst. apply rel_serialize_buffer; auto.
  - destruct v; cbn [step_tagwriter]; try (apply rel_constrained, rel_tag).
    + apply rel_int.
    + apply rel_tagged.
    + apply rel_utf8.
    + elim (N _ eq_refl).
  - cbn [step_tagwriter]. rewrite (middle_double _ _ M D). apply rel_tagged.
Qed.
End Rel.

(** * The whole encoder *)
Section Whole.
Variables H H' : heap.
Variable cfg : ecfg.
Variables root root' : val.
Hypothesis WF : wf_graph H cfg root.
Hypothesis WF' : wf_graph H' cfg root'.

Section Inner.
Variable leaf : val -> val -> Prop.
Hypothesis LO : leaf_ok leaf.
Variable R : nat -> nat -> Prop.
Hypothesis ROO : forall o o', R o o' -> exists x y, nth_error H o = Some x /\ nth_error H' o' = Some y /\ same_obj H H' leaf R x y.
Hypothesis RF : forall o a b, R o a -> R o b -> a = b.
Hypothesis RI : forall a b o, R a o -> R b o -> a = b.
Hypothesis RO : forall o o', R o o' -> occurs H root (VRef o) /\ occurs H' root' (VRef o').
Lemma encode_rel refs node d : forall v v', same_val leaf R v v' ->
  rel H H' leaf R (encode d (steps_of H cfg refs node) v) (encode d (steps_of H' cfg refs node) v').
Proof.
  induction d as [|d IH]; intros v v' S; [apply rel_fail|]. cbn [encode].
  assert (C3 : forall v v', same_val leaf R v v' -> rel H H' leaf R (chain (encode d (steps_of H cfg refs node)) [step_tagwriter H cfg] v)
    (chain (encode d (steps_of H' cfg refs node)) [step_tagwriter H' cfg] v')).
  { intros u u' U. cbn [chain]. eapply rel_step_tagwriter; eauto. intros. apply rel_fail. }
  assert (C2 : forall v v', same_val leaf R v v' -> rel H H' leaf R (chain (encode d (steps_of H cfg refs node)) ((if node then [step_node H] else []) ++ [step_tagwriter H cfg]) v)
    (chain (encode d (steps_of H' cfg refs node)) ((if node then [step_node H'] else []) ++ [step_tagwriter H' cfg]) v')).
  { destruct node; [|exact C3]. intros u u' U. cbn [chain app]. eapply rel_step_node; eauto. }
  unfold steps_of at 2 4. destruct refs; [|apply C2; exact S]. cbn [app chain]. eapply rel_step_references; eauto.
Qed.
End Inner.

Section Restrict.
Variable leaf : val -> val -> Prop.
Variable R : nat -> nat -> Prop.
Definition Rocc (o o' : nat) : Prop := R o o' /\ occurs H root (VRef o) /\ occurs H' root' (VRef o').
Notation sv := (same_val leaf R).
Notation sv' := (same_val (bounded leaf) Rocc).
Lemma sval_occ v v' : occurs H root v -> occurs H' root' v' -> sv v v' -> sv' v v'.
Proof.
  intros O O' S. pose proof (WF' _ O') as W. destruct v, v'; cbn [same_val] in *; try contradiction; try (split; [exact S|intros f F; try discriminate F]).
  all: try (injection F as <-; exact W).
  split; [exact S|]. split; [exact O|exact O'].
Qed.
Lemma list_occ l l' : (forall v, In v l -> occurs H root v) -> (forall v, In v l' -> occurs H' root' v) -> Forall2 sv l l' -> Forall2 sv' l l'.
Proof.
  intros O O' F. induction F as [|v v' l l' S F IH]; constructor; [apply sval_occ; auto; [apply O|apply O']; left; auto|].
  apply IH; intros; [apply O|apply O']; right; auto.
Qed.
Lemma pairs_occ l l' : (forall v, In v (flat l) -> occurs H root v) -> (forall v, In v (flat l') -> occurs H' root' v) ->
  Forall2 (same_pair leaf R) l l' -> Forall2 (same_pair (bounded leaf) Rocc) l l'.
Proof.
  intros O O' F. induction F as [|[k v] [k' v'] l l' [A B] F IH]; constructor.
  - cbn [fst snd] in *. split; apply sval_occ; auto; try (apply O); try (apply O'); cbn; auto.
  - apply IH; intros; [apply O|apply O']; cbn; auto.
Qed.
Lemma props_occ l l' : (forall v, In v (flat l) -> occurs H root v) -> (forall v, In v (flat l') -> occurs H' root' v) ->
  Forall2 (same_prop leaf R) l l' -> Forall2 (same_prop (bounded leaf) Rocc) l l'.
Proof.
  intros O O' F. induction F as [|[k v] [k' v'] l l' [A B] F IH]; constructor.
  - cbn [fst snd] in *. split; auto. apply sval_occ; auto; try (apply O); try (apply O'); cbn; auto.
  - apply IH; intros; [apply O|apply O']; cbn; auto.
Qed.
Hypothesis LN : leaf VNone VNone.
Lemma obj_occ x y : (forall v, In v (children x) -> occurs H root v) -> (forall v, In v (children y) -> occurs H' root' v) ->
  same_obj H H' leaf R x y -> same_obj H H' (bounded leaf) Rocc x y.
Proof.
  intros O O' S. destruct x, y; try contradiction; cbn [same_obj children] in *; auto.
  - apply pairs_occ; auto.
  - apply list_occ; auto.
  - apply props_occ; auto.
  - destruct S as [A B]. split; [apply list_occ; auto; intros; [apply O|apply O']; apply in_or_app; auto|].
    apply props_occ; auto; intros; [apply O|apply O']; apply in_or_app; right; unfold own_items, flat in *; rewrite flat_map_app; apply in_or_app; auto.
  - destruct S as (-> & -> & -> & C). repeat split; auto.
    destruct cause, cause0; cbn [same_val] in C; try contradiction; try (split; [exact C|intros f F; try discriminate F]).
    all: try (injection F as <-; exact (WF' _ (O' _ (or_introl eq_refl)))).
    split; [exact C|]. split; [apply O|apply O']; left; auto.
  - destruct S as (A & B). split; [|exact B]. split; [exact A|]. split; [apply O|apply O']; left; auto.
  - apply pairs_occ; auto.
  - apply pairs_occ; auto.
  - apply list_occ; auto.
  - apply list_occ; auto.
  - destruct S as (A & B & C). split; auto. split; auto. apply list_occ; auto. intros. apply O'. apply in_or_app. auto.
  - destruct S as [A B]. split; auto. apply list_occ; auto.
Qed.
End Restrict.

Theorem same_dumps leaf R : leaf_ok (bounded leaf) -> same_graph H H' leaf R root root' -> forall refs node d,
  dumps_depth d (steps_of H cfg refs node) root = dumps_depth d (steps_of H' cfg refs node) root'.
Proof.
  intros LO (S & ROO & RF & RI) refs node d. unfold dumps_depth.
  assert (E : rel H H' (bounded leaf) (Rocc R) (encode d (steps_of H cfg refs node) root) (encode d (steps_of H' cfg refs node) root')).
  { apply encode_rel; auto.
    - intros o o' (Q & O & O'). destruct (ROO _ _ Q) as (x & y & E & E' & SO). exists x, y. split; auto. split; auto.
      apply obj_occ; auto; intros; eapply occ_child; eauto.
    - intros o a b (A & _) (B & _). eauto.
    - intros o a b (A & _) (B & _). eauto.
    - intros o o' (_ & A). exact A.
    - apply sval_occ; auto; constructor. }
  specialize (E _ _ (empty_rel H H' _ _)). destruct (encode d _ root es_empty) as [[x s]|e], (encode d _ root' es_empty) as [[x' s']|e']; try contradiction; cbn [bind].
  - destruct E as [-> _]. reflexivity.
  - cbn in E. congruence.
Qed.
End Whole.
