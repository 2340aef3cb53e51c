(** Sparse array storage refines lists with holes. *)
From Coq Require Import List ZArith Bool Lia ZifyBool ZifyNat ZifyN Permutation Sorted.
From Verif Require Import Base Dict SpecArray ModelArray ArrayFacts.
Import ListNotations.
Open Scope Z_scope.

Lemma zeqb_spec : forall a b, Z.eqb a b = true <-> a = b.
Proof. apply Z.eqb_eq. Qed.

(** Sorting. *)
Lemma zinsert_in x l y : In y (zinsert x l) <-> y = x \/ In y l.
Proof.
  induction l as [|a l IH]; cbn [zinsert In].
  - split; intros [H|[]]; auto.
  - destruct (x <=? a); cbn [In]; [|rewrite IH]; split; intros; intuition auto.
Qed.
Lemma zsort_in l y : In y (zsort l) <-> In y l.
Proof.
  induction l as [|a l IH]; cbn [zsort fold_right]; [tauto|].
  change (fold_right zinsert [] l) with (zsort l). rewrite zinsert_in, IH. cbn [In].
  split; intros [H|H]; auto.
Qed.
Lemma zinsert_sorted x l : StronglySorted Z.lt l -> ~ In x l -> StronglySorted Z.lt (zinsert x l).
Proof.
  induction 1 as [|a l H IH F]; intros N; cbn [zinsert].
  - repeat constructor.
  - destruct (x <=? a) eqn:E.
    + constructor; [constructor; auto|]. constructor.
      * cbn in N. assert (x <> a) by (intros ->; apply N; auto). lia.
      * eapply Forall_impl; [|exact F]. cbn. intros. lia.
    + constructor.
      * apply IH. intros HI. apply N. cbn; auto.
      * apply Forall_forall. intros y HY. apply zinsert_in in HY as [->|HY]; [lia|].
        rewrite Forall_forall in F. auto.
Qed.
Lemma zsort_sorted l : NoDup l -> StronglySorted Z.lt (zsort l).
Proof.
  induction 1 as [|a l H N IH]; cbn [zsort fold_right]; [constructor|].
  apply zinsert_sorted; auto. change (fold_right zinsert [] l) with (zsort l). rewrite zsort_in. auto.
Qed.

Lemma ssorted_last l d x : StronglySorted Z.lt l -> In x l -> x <= last l d.
Proof.
  induction 1 as [|a l H IH F]; [intros []|]. intros HI.
  destruct l as [|b l]; [destruct HI as [->|[]]; cbn; lia|].
  change (last (a :: b :: l) d) with (last (b :: l) d). destruct HI as [->|HI]; [|auto].
  assert (In (last (b :: l) d) (b :: l)) as LI.
  { clear. revert b. induction l as [|c l IH]; intros b; cbn; auto. right. apply (IH c). }
  rewrite Forall_forall in F. specialize (F _ LI). lia.
Qed.
Lemma last_in l (d : Z) : l <> [] -> In (last l d) l.
Proof.
  intros H. destruct l as [|b l]; [congruence|]. clear H. revert b.
  induction l as [|c l IH]; intros b; cbn; auto. right. apply (IH c).
Qed.
Lemma ssorted_removelast l d x : StronglySorted Z.lt l -> l <> [] ->
  StronglySorted Z.lt (removelast l) /\ (In x (removelast l) <-> In x l /\ x <> last l d).
Proof.
  intros S N. pose proof (app_removelast_last d N) as E. rewrite E in S.
  apply ssorted_app in S as [S1 [S2 S3]]. split; auto. split.
  - intros H. split; [rewrite E; apply in_app_iff; auto|].
    specialize (S3 x (last l d) H (or_introl eq_refl)). lia.
  - intros [H H2]. rewrite E in H. apply in_app_iff in H as [H|[H|[]]]; auto. congruence.
Qed.

Lemma bisect_split l n : StronglySorted Z.lt l ->
  firstn (bisect_left l n) l = filter (fun k => k <? n) l /\
  skipn (bisect_left l n) l = filter (fun k => negb (k <? n)) l.
Proof.
  induction 1 as [|a l H IH F]; [auto|]. cbn [bisect_left filter].
  destruct (a <? n) eqn:E; cbn [firstn skipn negb].
  - destruct IH as [-> ->]. auto.
  - rewrite Forall_forall in F.
    assert (filter (fun k => k <? n) l = []) as ->.
    { destruct (filter _ l) as [|x r] eqn:G; auto. exfalso.
      assert (In x (filter (fun k => k <? n) l)) as HX by (rewrite G; cbn; auto).
      apply filter_In in HX as [HX HL]. specialize (F _ HX). lia. }
    split; auto. f_equal. clear IH H. induction l as [|b l IH]; auto. cbn [filter].
    assert (a < b) by (apply F; cbn; auto).
    replace (b <? n) with false by lia. cbn [negb]. f_equal. apply IH. intros; apply F; cbn; auto.
Qed.
Lemma ssorted_filter f l : StronglySorted Z.lt l -> StronglySorted Z.lt (filter f l).
Proof.
  induction 1 as [|a l H IH F]; cbn [filter]; [constructor|]. destruct (f a); auto.
  constructor; auto. rewrite Forall_forall in *. intros x HX. apply filter_In in HX. apply F. tauto.
Qed.

Section Sparse.
Context {T : Type}.
Notation dget := (dget Z.eqb).
Notation dset := (dset Z.eqb).
Notation ddel := (ddel Z.eqb).

Definition sorted_ok (items : list (Z * T)) (o : option (list Z)) : Prop :=
  match o with
  | None => True
  | Some l => StronglySorted Z.lt l /\ forall x, In x l <-> In x (dkeys items)
  end.

Definition sparse_ok (s : sparse T) : Prop :=
  NoDup (dkeys (s_items s)) /\
  (forall k, In k (dkeys (s_items s)) -> 0 <= k <= s_max s) /\
  -1 <= s_max s < MAX_LEN /\
  sorted_ok (s_items s) (s_sorted s).

(** The list with holes an item dict of a given length stands for. *)
Definition items_abs (items : list (Z * T)) (n : Z) : list (option T) :=
  map (fun k => dget (Z.of_nat k) items) (seq 0 (Z.to_nat n)).
Definition sabs (s : sparse T) : list (option T) := items_abs (s_items s) (sparse_len s).

Lemma items_abs_length items n : length (items_abs items n) = Z.to_nat n.
Proof. unfold items_abs. rewrite map_length, seq_length. auto. Qed.
Lemma items_abs_nth items n k :
  nth_error (items_abs items n) k = if (k <? Z.to_nat n)%nat then Some (dget (Z.of_nat k) items) else None.
Proof.
  destruct (Nat.ltb_spec k (Z.to_nat n)).
  - unfold items_abs. rewrite nth_error_map.
    rewrite (nth_error_nth' _ 0%nat) by (rewrite seq_length; auto).
    rewrite seq_nth by auto. cbn [option_map]. auto.
  - apply nth_error_None. rewrite items_abs_length. lia.
Qed.
Lemma sabs_zlen s : sparse_ok s -> zlen (sabs s) = sparse_len s.
Proof. intros [_ [_ [H _]]]. unfold zlen, sabs. rewrite items_abs_length. unfold sparse_len. lia. Qed.

Lemma sparse_sorted_ok s : sparse_ok s ->
  let '(l, s') := sparse_sorted s in
  StronglySorted Z.lt l /\ (forall x, In x l <-> In x (dkeys (s_items s))) /\
  s' = mkSparse (s_items s) (Some l) (s_max s) /\ sparse_ok s' /\ sabs s' = sabs s.
Proof.
  intros [N [B [M HS]]]. unfold sparse_sorted. destruct (s_sorted s) as [l|] eqn:E.
  - cbn in HS. destruct HS as [S1 S2]. repeat split; auto; try (apply S2); try lia; try (apply B; auto).
    + destruct s. cbn in *. subst. auto.
    + rewrite E. cbn. split; auto.
  - assert (StronglySorted Z.lt (zsort (dkeys (s_items s))) /\
            forall x, In x (zsort (dkeys (s_items s))) <-> In x (dkeys (s_items s))) as [S1 S2].
    { split; [apply zsort_sorted; auto|intros; apply zsort_in]. }
    split; auto. split; auto. split; auto. split; auto.
    repeat split; cbn [s_items s_sorted s_max sorted_ok]; auto; try lia; try (apply B; auto); apply S2.
Qed.

Lemma sparse_norm_cases (s : sparse T) i : sparse_ok s ->
  match position (sabs s) i with
  | Some k => exists j, sparse_norm s i = Ok j /\ 0 <= j < sparse_len s /\ Z.to_nat j = k
  | None => sparse_norm s i = Err EIndex
  end.
Proof.
  intros OK. pose proof (sabs_zlen s OK) as L. unfold sparse_norm.
  destruct (position_cases (sabs s) i) as [[B E]|[[B E]|[[B E]|[B E]]]]; rewrite E; rewrite L in B.
  - exists i. replace (i <? 0) with false by lia. replace (sparse_len s <=? i) with false by lia.
    repeat split; lia.
  - exists (sparse_len s + i). replace (i <? 0) with true by lia.
    replace (sparse_len s + i <? 0) with false by lia. repeat split; lia.
  - destruct OK as [_ [_ [M _]]]. unfold sparse_len in *.
    replace (i <? 0) with false by lia. replace (s_max s + 1 <=? i) with true by lia. auto.
  - replace (i <? 0) with true by (destruct OK as [_ [_ [M _]]]; unfold sparse_len in *; lia).
    replace (sparse_len s + i <? 0) with true by lia. auto.
Qed.

Lemma sparse_get_spec (s : sparse T) i : sparse_ok s ->
  match position (sabs s) i with
  | Some k => exists v, nth_error (sabs s) k = Some v /\ sparse_get s i = Ok v
  | None => sparse_get s i = Err EIndex
  end.
Proof.
  intros OK. pose proof (sparse_norm_cases s i OK) as C. unfold sparse_get.
  destruct (position _ _) as [k|] eqn:P.
  - destruct C as [j [-> [J K]]]. cbn [bind]. exists (dget j (s_items s)). split; auto.
    unfold sabs. rewrite items_abs_nth. replace (k <? Z.to_nat (sparse_len s))%nat with true by lia.
    do 2 f_equal. lia.
  - rewrite C. auto.
Qed.

Lemma nth_error_replaced (l : list (option T)) k v n : (k < length l)%nat ->
  nth_error (firstn k l ++ v :: skipn (S k) l) n = if (n =? k)%nat then Some v else nth_error l n.
Proof.
  intros H. destruct (Nat.eqb_spec n k) as [->|N].
  - rewrite nth_error_app2 by (rewrite firstn_length; lia). rewrite firstn_length.
    replace (k - Nat.min k (length l))%nat with 0%nat by lia. auto.
  - destruct (Nat.lt_ge_cases n k).
    + rewrite nth_error_app1 by (rewrite firstn_length; lia).
      rewrite <- (firstn_skipn k l) at 2. rewrite nth_error_app1; auto. rewrite firstn_length; lia.
    + rewrite nth_error_app2 by (rewrite firstn_length; lia). rewrite firstn_length.
      replace (n - Nat.min k (length l))%nat with (S (n - S k)) by lia. cbn [nth_error].
      rewrite <- (firstn_skipn (S k) l) at 2. rewrite nth_error_app2 by (rewrite firstn_length; lia).
      rewrite firstn_length. f_equal. lia.
Qed.
Lemma nth_error_removed (l : list (option T)) k n : (k < length l)%nat ->
  nth_error (firstn k l ++ skipn (S k) l) n = nth_error l (if (n <? k)%nat then n else S n).
Proof.
  intros H. destruct (Nat.ltb_spec n k).
  - rewrite nth_error_app1 by (rewrite firstn_length; lia).
    rewrite <- (firstn_skipn k l) at 2. rewrite nth_error_app1; auto. rewrite firstn_length; lia.
  - rewrite nth_error_app2 by (rewrite firstn_length; lia). rewrite firstn_length.
    rewrite <- (firstn_skipn (S k) l) at 3. rewrite nth_error_app2 by (rewrite firstn_length; lia).
    rewrite firstn_length. f_equal. lia.
Qed.
Lemma nth_error_inserted (l : list (option T)) k v n : (k <= length l)%nat ->
  nth_error (firstn k l ++ v :: skipn k l) n =
    if (n <? k)%nat then nth_error l n else if (n =? k)%nat then Some v else nth_error l (pred n).
Proof.
  intros H. destruct (Nat.ltb_spec n k).
  - rewrite nth_error_app1 by (rewrite firstn_length; lia).
    rewrite <- (firstn_skipn k l) at 2. rewrite nth_error_app1; auto. rewrite firstn_length; lia.
  - rewrite nth_error_app2 by (rewrite firstn_length; lia). rewrite firstn_length.
    destruct (Nat.eqb_spec n k) as [->|N].
    + replace (k - Nat.min k (length l))%nat with 0%nat by lia. auto.
    + replace (n - Nat.min k (length l))%nat with (S (n - S k)) by lia. cbn [nth_error].
      rewrite <- (firstn_skipn k l) at 2. rewrite nth_error_app2 by (rewrite firstn_length; lia).
      rewrite firstn_length. f_equal. lia.
Qed.

(** Changing one index of the dict changes one index of the list. *)
Lemma items_abs_set items items' n j (v : option T) : 0 <= j < n ->
  (forall k, dget k items' = if k =? j then v else dget k items) ->
  items_abs items' n = firstn (Z.to_nat j) (items_abs items n) ++ v :: skipn (S (Z.to_nat j)) (items_abs items n).
Proof.
  intros B H. apply nth_error_ext'. intros k. rewrite nth_error_replaced by (rewrite items_abs_length; lia).
  rewrite !items_abs_nth, H. destruct (Nat.eqb_spec k (Z.to_nat j)) as [->|N].
  - replace (Z.to_nat j <? Z.to_nat n)%nat with true by lia.
    replace (Z.of_nat (Z.to_nat j) =? j) with true by lia. auto.
  - replace (Z.of_nat k =? j) with false by lia. auto.
Qed.

(** The only way an assignment fails on a valid index: the key cache is missing while at most
    one element is left. *)
Definition may_assert (s : sparse T) : Prop := s_sorted s = None /\ zlen (s_items s) <= 2.

Lemma sparse_set_spec (s : sparse T) i v : sparse_ok s ->
  match position (sabs s) i with
  | Some k => exists r s', sparse_set s i v = (r, s') /\ sparse_ok s' /\
                sabs s' = firstn k (sabs s) ++ v :: skipn (S k) (sabs s) /\
                (r = Ok tt \/ (r = Err EAssert /\ may_assert s)) /\
                s_max s' = s_max s
  | None => sparse_set s i v = (Err EIndex, s)
  end.
Proof.
  intros OK. pose proof (sparse_norm_cases s i OK) as C. unfold sparse_set.
  destruct (position _ _) as [k|] eqn:P; [|rewrite C; auto].
  destruct C as [j [-> [J K]]]. subst k. pose proof OK as [N [B [M HS]]].
  assert (forall items (o : option (list Z)), (forall x, dget x items = if x =? j then v else dget x (s_items s)) ->
     NoDup (dkeys items) -> sorted_ok items o ->
     sparse_ok (mkSparse items o (s_max s)) /\
     sabs (mkSparse items o (s_max s)) = firstn (Z.to_nat j) (sabs s) ++ v :: skipn (S (Z.to_nat j)) (sabs s)) as FIN.
  { intros items o G ND SO. split.
    - repeat split; cbn [s_items s_sorted s_max]; auto; try lia;
        apply (dget_Some_key _ zeqb_spec) in H as [w H]; rewrite G in H;
        destruct (k =? j) eqn:E; try (unfold sparse_len in J; lia);
        assert (In k (dkeys (s_items s))) as HK by (apply (dget_Some_key _ zeqb_spec); eauto);
        specialize (B _ HK); lia.
    - unfold sabs. cbn [s_items sparse_len s_max]. apply items_abs_set; auto. }
  destruct (dmem Z.eqb j (s_items s)) eqn:MEM; destruct v as [v|].
  - eexists. eexists. split; [reflexivity|].
    destruct (FIN (dset j v (s_items s)) (s_sorted s)) as [F1 F2].
    + intros x. apply (dget_dset _ zeqb_spec).
    + apply (dset_NoDup _ zeqb_spec); auto.
    + destruct (s_sorted s) as [l|]; cbn in *; auto. destruct HS as [S1 S2]. split; auto.
      intros x. rewrite (dset_keys _), MEM. auto.
    + split; [exact F1|split; [exact F2|auto]].
  - assert (forall o, sorted_ok (ddel j (s_items s)) o ->
       sparse_ok (mkSparse (ddel j (s_items s)) o (s_max s)) /\
       sabs (mkSparse (ddel j (s_items s)) o (s_max s)) =
         firstn (Z.to_nat j) (sabs s) ++ None :: skipn (S (Z.to_nat j)) (sabs s)) as FIN2.
    { intros o SO. apply FIN; auto.
      - intros x. apply (dget_ddel _ zeqb_spec). auto.
      - apply (ddel_NoDup _ zeqb_spec). auto. }
    pose proof (ddel_length Z.eqb j (s_items s)) as DL. rewrite MEM in DL.
    apply (dmem_iff _ zeqb_spec) in MEM.
    destruct (sorted_assert _ _) eqn:SA; cbn [negb].
    + destruct (s_sorted s) as [l|] eqn:ES.
      * cbn in HS. destruct HS as [S1 S2].
        destruct l as [|a l']; [exfalso; apply S2 in MEM; destruct MEM|].
        set (l := a :: l') in *. destruct (j =? last l 0) eqn:EL.
        -- destruct (ssorted_removelast l 0 0 S1 ltac:(discriminate)) as [SR _].
           destruct (FIN2 (Some (removelast l))) as [F1 F2].
           { split; auto. intros x. rewrite (ddel_keys_in _ zeqb_spec) by auto.
             destruct (ssorted_removelast l 0 x S1 ltac:(discriminate)) as [_ ->]. rewrite S2.
             replace (last l 0) with j by lia. tauto. }
           eexists. eexists. split; [reflexivity|]. split; [exact F1|split; [exact F2|auto]].
        -- destruct (FIN2 None) as [F1 F2]; [exact I|].
           eexists. eexists. split; [reflexivity|]. split; [exact F1|split; [exact F2|auto]].
      * destruct (FIN2 None) as [F1 F2]; [exact I|].
        eexists. eexists. split; [reflexivity|]. split; [exact F1|split; [exact F2|auto]].
    + unfold sorted_assert in SA. destruct (zlen (ddel j (s_items s)) <=? 1) eqn:LE; [|discriminate].
      destruct (s_sorted s) eqn:ES; [discriminate|]. destruct (FIN2 None) as [F1 F2]; [exact I|].
      eexists. eexists. split; [reflexivity|]. split; auto. split; auto. split; auto. right.
      split; auto. split; auto. unfold zlen in *. rewrite DL in LE. lia.
  - assert (forall o, sorted_ok (dset j v (s_items s)) o ->
       sparse_ok (mkSparse (dset j v (s_items s)) o (s_max s)) /\
       sabs (mkSparse (dset j v (s_items s)) o (s_max s)) =
         firstn (Z.to_nat j) (sabs s) ++ Some v :: skipn (S (Z.to_nat j)) (sabs s)) as FIN2.
    { intros o SO. apply FIN; auto.
      - intros x. apply (dget_dset _ zeqb_spec).
      - apply (dset_NoDup _ zeqb_spec). auto. }
    pose proof (dset_length Z.eqb j v (s_items s)) as DL. rewrite MEM in DL.
    destruct (sorted_assert _ _) eqn:SA; cbn [negb].
    + destruct (s_sorted s) as [l|] eqn:ES.
      * cbn in HS. destruct HS as [S1 S2].
        destruct (last l (-1) <? j) eqn:EL.
        -- destruct (FIN2 (Some (l ++ [j]))) as [F1 F2].
           { split.
             - apply ssorted_app. split; auto. split; [repeat constructor|].
               intros x y HX [<-|[]]. pose proof (ssorted_last l (-1) x S1 HX). lia.
             - intros x. rewrite (dset_in_keys _ zeqb_spec), in_app_iff, S2. cbn [In].
               split; [intros [H|[H|[]]]; auto|intros [->|H]; auto]. }
           eexists. eexists. split; [reflexivity|]. split; [exact F1|split; [exact F2|auto]].
        -- destruct (FIN2 None) as [F1 F2]; [exact I|].
           eexists. eexists. split; [reflexivity|]. split; [exact F1|split; [exact F2|auto]].
      * destruct (FIN2 None) as [F1 F2]; [exact I|].
        eexists. eexists. split; [reflexivity|]. split; [exact F1|split; [exact F2|auto]].
    + unfold sorted_assert in SA. destruct (zlen (dset j v (s_items s)) <=? 1) eqn:LE; [|discriminate].
      destruct (s_sorted s) eqn:ES; [discriminate|]. destruct (FIN2 None) as [F1 F2]; [exact I|].
      eexists. eexists. split; [reflexivity|]. split; auto. split; auto. split; auto. right.
      split; auto. split; auto. unfold zlen in *. rewrite DL in LE. lia.
  - eexists. eexists. split; [reflexivity|]. split; auto. split; [|auto].
    unfold sabs. apply items_abs_set; auto. intros x. destruct (Z.eqb_spec x j) as [->|]; auto.
    unfold dmem in MEM. destruct (dget j (s_items s)); [discriminate|auto].
Qed.

(** Renaming keys injectively. *)
Lemma dget_map_key (f : Z -> Z) items k :
  (forall a, In a (dkeys items) -> f a = f k -> a = k) ->
  dget (f k) (map (fun p => (f (fst p), snd p)) items) = (dget k items : option T).
Proof.
  induction items as [|[a w] r IH]; intros H; auto. cbn [map Dict.dget fst snd].
  destruct (Z.eqb_spec k a) as [->|N].
  - rewrite Z.eqb_refl. auto.
  - destruct (Z.eqb_spec (f k) (f a)) as [E|E].
    + exfalso. apply N. symmetry. apply H; auto. cbn; auto.
    + apply IH. intros b HB. apply H. cbn; auto.
Qed.
Lemma rekey_eq (f : Z -> Z) (items : list (Z * T)) :
  NoDup (map f (dkeys items)) -> rekey f items = map (fun p => (f (fst p), snd p)) items.
Proof.
  intros H. unfold rekey. rewrite (dupdate_fresh _ zeqb_spec); auto.
  cbn [map app]. rewrite map_map. cbn [fst]. rewrite map_map in H. auto.
Qed.
Lemma NoDup_map_inj (f : Z -> Z) l : NoDup l ->
  (forall a b, In a l -> In b l -> f a = f b -> a = b) -> NoDup (map f l).
Proof.
  induction 1 as [|x l H N IH]; intros INJ; cbn [map]; constructor.
  - intros HI. apply in_map_iff in HI as [y [E HY]]. apply H.
    rewrite (INJ x y); cbn; auto.
  - apply IH. intros; apply INJ; cbn; auto.
Qed.

Lemma single_sorted (items : list (Z * T)) : NoDup (dkeys items) -> zlen items <= 1 ->
  sorted_ok items (Some (dkeys items)).
Proof.
  intros N H. cbn. split; [|tauto]. destruct items as [|[a w] [|b r]]; cbn [map fst].
  { constructor. } { repeat constructor. }
  rewrite !zlen_cons in H. pose proof (zlen_nonneg r). lia.
Qed.

Lemma sparse_del_spec (s : sparse T) i : sparse_ok s ->
  match position (sabs s) i with
  | Some k => exists s', sparse_del s i = (Ok tt, s') /\ sparse_ok s' /\
                sabs s' = firstn k (sabs s) ++ skipn (S k) (sabs s)
  | None => sparse_del s i = (Err EIndex, s)
  end.
Proof.
  intros OK. pose proof (sparse_norm_cases s i OK) as C. unfold sparse_del.
  destruct (position _ _) as [k|] eqn:P; [|rewrite C; auto].
  destruct C as [j [-> [J K]]]. subst k. pose proof OK as [N [B [M HS]]].
  set (f := fun k => if k <=? j then k else k - 1).
  set (items := ddel j (s_items s)).
  assert (NoDup (dkeys items)) as NI by (apply (ddel_NoDup _ zeqb_spec); auto).
  assert (forall k, In k (dkeys items) <-> In k (dkeys (s_items s)) /\ k <> j) as KI
    by (intros; apply (ddel_keys_in _ zeqb_spec); auto).
  assert (forall a b, In a (dkeys items) -> In b (dkeys items) -> f a = f b -> a = b) as INJ.
  { intros a b HA HB E. apply KI in HA. apply KI in HB. unfold f in E.
    destruct (a <=? j) eqn:E1, (b <=? j) eqn:E2; lia. }
  assert (NoDup (map f (dkeys items))) as NF by (apply NoDup_map_inj; auto).
  rewrite (rekey_eq f items NF). set (items' := map (fun p => (f (fst p), snd p)) items).
  assert (dkeys items' = map f (dkeys items)) as DK by (unfold items'; rewrite !map_map; auto).
  eexists. split; [reflexivity|]. split.
  - repeat split; cbn [s_items s_sorted s_max] in *.
    + rewrite DK. auto.
    + rewrite DK in H. apply in_map_iff in H as [a [<- HA]]. apply KI in HA as [HA HN].
      specialize (B _ HA). unfold f. destruct (a <=? j) eqn:E; lia.
    + rewrite DK in H. apply in_map_iff in H as [a [<- HA]]. apply KI in HA as [HA HN].
      specialize (B _ HA). unfold f, sparse_len in *. destruct (a <=? j) eqn:E; lia.
    + unfold sparse_len in J. lia.
    + lia.
    + destruct (zlen items' <=? 1) eqn:E; [|exact I]. apply single_sorted; [rewrite DK; auto|lia].
  - apply nth_error_ext'. intros n. rewrite nth_error_removed by (unfold sabs; rewrite items_abs_length; lia).
    unfold sabs. cbn [s_items sparse_len s_max]. rewrite !items_abs_nth.
    assert (dget (Z.of_nat n) items' = dget (Z.of_nat (if (n <? Z.to_nat j)%nat then n else S n)) (s_items s)) as G.
    { set (m := Z.of_nat (if (n <? Z.to_nat j)%nat then n else S n)).
      assert (f m = Z.of_nat n) as FM.
      { unfold f, m. destruct (Nat.ltb_spec n (Z.to_nat j)).
        - replace (Z.of_nat n <=? j) with true by lia. auto.
        - replace (Z.of_nat (S n) <=? j) with false by lia. lia. }
      rewrite <- FM. unfold items'. rewrite dget_map_key.
      - unfold items. rewrite (dget_ddel _ zeqb_spec) by auto.
        replace (m =? j) with false; auto. unfold m. destruct (Nat.ltb_spec n (Z.to_nat j)); lia.
      - intros a HA E. apply KI in HA as [HA HN]. rewrite FM in E. unfold f in E. unfold m.
        destruct (a <=? j) eqn:E1, (Nat.ltb_spec n (Z.to_nat j)); lia. }
    rewrite G. unfold sparse_len in *. cbn [s_max].
    replace (s_max s - 1 + 1) with (s_max s) by lia.
    destruct (Nat.ltb_spec n (Z.to_nat j)).
    + replace (n <? Z.to_nat (s_max s))%nat with true by lia.
      replace (n <? Z.to_nat (s_max s + 1))%nat with true by lia. auto.
    + destruct (Nat.ltb_spec n (Z.to_nat (s_max s))).
      * replace (S n <? Z.to_nat (s_max s + 1))%nat with true by lia. auto.
      * replace (S n <? Z.to_nat (s_max s + 1))%nat with false by lia. auto.
Qed.

Lemma sparse_insert_spec (s : sparse T) i v : sparse_ok s ->
  match position (sabs s) i with
  | Some k =>
      if sparse_len s =? MAX_LEN then sparse_insert s i v = (Err EIndex, s)
      else exists s', sparse_insert s i v = (Ok tt, s') /\ sparse_ok s' /\
                sabs s' = firstn k (sabs s) ++ v :: skipn k (sabs s)
  | None => sparse_insert s i v = (Err EIndex, s)
  end.
Proof.
  intros OK. pose proof (sparse_norm_cases s i OK) as C. unfold sparse_insert.
  destruct (position _ _) as [k|] eqn:P; [|rewrite C; auto].
  destruct C as [j [-> [J K]]]. subst k. pose proof OK as [N [B [M HS]]].
  destruct (sparse_len s =? MAX_LEN) eqn:FULL.
  { replace (MAX_LEN <=? sparse_len s) with true by lia. auto. }
  replace (MAX_LEN <=? sparse_len s) with false by (unfold sparse_len in *; lia).
  set (f := fun k => if k <? j then k else k + 1).
  set (items := s_items s).
  assert (forall a b, f a = f b -> a = b) as INJ.
  { intros a b E. unfold f in E. destruct (a <? j) eqn:E1, (b <? j) eqn:E2; lia. }
  assert (NoDup (map f (dkeys items))) as NF by (apply NoDup_map_inj; auto).
  rewrite (rekey_eq f items NF). set (items' := map (fun p => (f (fst p), snd p)) items).
  assert (dkeys items' = map f (dkeys items)) as DK by (unfold items'; rewrite !map_map; auto).
  assert (dget j items' = None) as GJ.
  { apply (dget_None _ zeqb_spec). rewrite DK. intros HI. apply in_map_iff in HI as [a [E _]].
    unfold f in E. destruct (a <? j) eqn:E1; lia. }
  set (final := match v with Some v => dset j v items' | None => items' end).
  assert (NoDup (dkeys final)) as NFin.
  { unfold final. destruct v; [apply (dset_NoDup _ zeqb_spec)|]; rewrite DK; auto. }
  assert (forall x, dget x final = if x =? j then v else dget x items') as GF.
  { intros x. unfold final. destruct v; [apply (dget_dset _ zeqb_spec)|].
    destruct (Z.eqb_spec x j) as [->|]; auto. }
  eexists. split; [reflexivity|]. split.
  - assert (forall k, In k (dkeys final) -> 0 <= k <= s_max s + 1) as KB.
    { intros k HK. apply (dget_Some_key _ zeqb_spec) in HK as [w HK]. rewrite GF in HK.
      destruct (Z.eqb_spec k j) as [->|NE]; [unfold sparse_len in J; lia|].
      assert (In k (dkeys items')) as HI by (apply (dget_Some_key _ zeqb_spec); eauto).
      rewrite DK in HI. apply in_map_iff in HI as [a [<- HA]]. specialize (B _ HA).
      unfold f. destruct (a <? j); lia. }
    repeat split; cbn [s_items s_sorted s_max]; auto; try (unfold sparse_len in *; lia); try (apply KB; assumption).
    destruct (andb _ _) eqn:E; [|exact I]. apply andb_true_iff in E as [_ E].
    apply single_sorted; auto. lia.
  - apply nth_error_ext'. intros n. rewrite nth_error_inserted by (unfold sabs; rewrite items_abs_length; lia).
    unfold sabs. cbn [s_items sparse_len s_max]. rewrite !items_abs_nth, GF. unfold sparse_len in *. cbn [s_max].
    fold items.
    destruct (Nat.ltb_spec n (Z.to_nat j)).
    + replace (Z.of_nat n =? j) with false by lia.
      replace (n <? Z.to_nat (s_max s + 1))%nat with true by lia.
      replace (n <? Z.to_nat (s_max s + 1 + 1))%nat with true by lia.
      rewrite <- (dget_map_key f items (Z.of_nat n)) by (intros; apply INJ; auto).
      replace (f (Z.of_nat n)) with (Z.of_nat n) by (unfold f; replace (Z.of_nat n <? j) with true by lia; auto). auto.
    + destruct (Nat.eqb_spec n (Z.to_nat j)) as [->|NE].
      * replace (Z.of_nat (Z.to_nat j) =? j) with true by lia.
        replace (Z.to_nat j <? Z.to_nat (s_max s + 1 + 1))%nat with true by lia. auto.
      * replace (Z.of_nat n =? j) with false by lia.
        destruct (Nat.ltb_spec (pred n) (Z.to_nat (s_max s + 1))).
        -- replace (n <? Z.to_nat (s_max s + 1 + 1))%nat with true by lia.
           rewrite <- (dget_map_key f items (Z.of_nat (pred n))) by (intros; apply INJ; auto).
           replace (f (Z.of_nat (pred n))) with (Z.of_nat n)
             by (unfold f; replace (Z.of_nat (pred n) <? j) with false by lia; lia). auto.
        -- replace (n <? Z.to_nat (s_max s + 1 + 1))%nat with false by lia. auto.
Qed.

Lemma ssorted_length_keys (items : list (Z * T)) l : NoDup (dkeys items) -> StronglySorted Z.lt l ->
  (forall x, In x l <-> In x (dkeys items)) -> zlen l = zlen items.
Proof.
  intros N S H. unfold zlen. f_equal. rewrite <- (map_length fst items).
  apply Nat.le_antisymm; apply NoDup_incl_length; auto.
  - apply ssorted_NoDup; auto.
  - intros x. apply H.
  - intros x. apply H.
Qed.

Lemma sparse_append_spec (s : sparse T) v : sparse_ok s ->
  match v with
  | None => sparse_append s v = (Ok tt, s)
  | Some _ =>
    if sparse_len s =? MAX_LEN then sparse_append s v = (Err EIndex, s)
    else exists s', sparse_append s v = (Ok tt, s') /\ sparse_ok s' /\ sabs s' = sabs s ++ [v]
  end.
Proof.
  intros OK. destruct v as [v|]; [|reflexivity]. pose proof OK as [N [B [M HS]]].
  unfold sparse_append. destruct (sparse_len s =? MAX_LEN) eqn:FULL.
  { unfold sparse_len in FULL. replace (MAX_LEN <=? s_max s + 1) with true by lia. auto. }
  unfold sparse_len in FULL. replace (MAX_LEN <=? s_max s + 1) with false by lia.
  set (i := s_max s + 1) in *. set (items := dset i v (s_items s)).
  assert (dget i (s_items s) = None) as GI.
  { apply (dget_None _ zeqb_spec). intros HI. specialize (B _ HI). lia. }
  assert (zlen items = zlen (s_items s) + 1) as LI.
  { unfold zlen, items. rewrite dset_length. unfold dmem. rewrite GI. lia. }
  assert (forall o, sorted_ok items o ->
     sparse_ok (mkSparse items o i) /\ sabs (mkSparse items o i) = sabs s ++ [Some v]) as FIN.
  { intros o SO. split.
    - repeat split; cbn [s_items s_sorted s_max]; auto; try lia.
      + apply (dset_NoDup _ zeqb_spec); auto.
      + apply (dset_in_keys _ zeqb_spec) in H as [->|H]; [lia|]. specialize (B _ H). lia.
      + apply (dset_in_keys _ zeqb_spec) in H as [->|H]; [lia|]. specialize (B _ H). lia.
    - apply nth_error_ext'. intros n. unfold sabs. cbn [s_items sparse_len s_max].
      rewrite items_abs_nth. unfold items. rewrite (dget_dset _ zeqb_spec). unfold sparse_len. cbn [s_max].
      destruct (Nat.lt_ge_cases n (Z.to_nat (s_max s + 1))) as [L|L].
      + rewrite nth_error_app1 by (rewrite items_abs_length; auto). rewrite items_abs_nth.
        replace (n <? Z.to_nat (i + 1))%nat with true by lia.
        replace (n <? Z.to_nat (s_max s + 1))%nat with true by lia.
        replace (Z.of_nat n =? i) with false by lia. auto.
      + rewrite nth_error_app2 by (rewrite items_abs_length; auto). rewrite items_abs_length.
        fold i. destruct (Nat.eq_dec n (Z.to_nat i)) as [->|NE].
        * rewrite Nat.sub_diag. replace (Z.to_nat i <? Z.to_nat (i + 1))%nat with true by lia.
          replace (Z.of_nat (Z.to_nat i) =? i) with true by lia. auto.
        * replace (n <? Z.to_nat (i + 1))%nat with false by lia.
          rewrite (proj2 (nth_error_None _ _)); auto. cbn. lia. }
  destruct (s_sorted s) as [l|] eqn:ES.
  - cbn in HS. destruct HS as [S1 S2].
    pose proof (ssorted_length_keys _ _ N S1 S2) as LL.
    replace (zlen l =? zlen items - 1) with true by lia. cbn [negb].
    assert ((zlen l =? 0) || (last l 0 <? i) = true) as ->.
    { destruct l as [|a l']; auto. set (l := a :: l') in *. apply orb_true_iff. right.
      assert (In (last l 0) l) as LI2 by (apply last_in; discriminate).
      apply S2 in LI2. specialize (B _ LI2). lia. }
    cbn [negb]. eexists. split; [reflexivity|]. apply FIN. split.
    + apply ssorted_app. split; auto. split; [repeat constructor|].
      intros x y HX [<-|[]]. apply S2 in HX. specialize (B _ HX). lia.
    + intros x. unfold items. rewrite (dset_in_keys _ zeqb_spec), in_app_iff, S2. cbn [In].
      split; [intros [H|[H|[]]]; auto|intros [->|H]; auto].
  - eexists. split; [reflexivity|]. apply FIN. destruct (zlen items =? 1) eqn:E; [|exact I].
    cbn. split; [repeat constructor|]. intros x. unfold items. rewrite (dset_in_keys _ zeqb_spec).
    destruct (s_items s) as [|p r]; [cbn; intuition|]. rewrite zlen_cons in LI. pose proof (zlen_nonneg r). lia.
Qed.

Lemma ddel_fold (l : list Z) : forall items : list (Z * T), NoDup (dkeys items) ->
  NoDup (dkeys (fold_left (fun d i => ddel i d) l items)) /\
  forall k, dget k (fold_left (fun d i => ddel i d) l items) =
            if in_dec Z.eq_dec k l then None else dget k items.
Proof.
  induction l as [|a l IH]; intros items N; cbn [fold_left].
  - split; auto.
  - destruct (IH (ddel a items)) as [H1 H2]; [apply (ddel_NoDup _ zeqb_spec); auto|]. split; auto.
    intros k. rewrite H2, (dget_ddel _ zeqb_spec) by auto.
    destruct (in_dec Z.eq_dec k l), (in_dec Z.eq_dec k (a :: l)) as [H|H]; auto.
    + exfalso. apply H. cbn; auto.
    + destruct H as [->|H]; [rewrite Z.eqb_refl; auto|contradiction].
    + destruct (Z.eqb_spec k a); auto. exfalso. apply H. cbn; auto.
Qed.
Lemma pick_keys (l : list Z) (items : list (Z * T)) : NoDup l ->
  (forall k, In k l -> In k (dkeys items)) ->
  let picked := flat_map (fun i => match dget i items with Some v => [(i, v)] | None => [] end) l in
  dkeys picked = l /\ forall k, dget k picked = if in_dec Z.eq_dec k l then dget k items else None.
Proof.
  induction l as [|a l IH]; intros N H picked; [unfold picked; cbn; auto|].
  inversion N; subst. destruct (IH H3) as [I1 I2]; [intros; apply H; cbn; auto|].
  assert (In a (dkeys items)) as HA by (apply H; cbn; auto).
  apply (dget_Some_key _ zeqb_spec) in HA as [v GA].
  unfold picked. cbn [flat_map]. rewrite GA. cbn [app map fst]. split; [rewrite I1; auto|].
  intros k. cbn [Dict.dget]. destruct (Z.eqb_spec k a) as [->|NE].
  - destruct (in_dec Z.eq_dec a (a :: l)) as [|X]; auto. exfalso. apply X. cbn; auto.
  - rewrite I2. destruct (in_dec Z.eq_dec k l), (in_dec Z.eq_dec k (a :: l)) as [X|X]; auto.
    + exfalso. apply X. cbn; auto.
    + destruct X; [congruence|contradiction].
Qed.

Lemma sparse_resize_spec (s : sparse T) n : sparse_ok s ->
  if (n <? 0) || (2 ^ 32 - 1 <? n) then sparse_resize s n = (Err EValue, s)
  else exists s', sparse_resize s n = (Ok tt, s') /\ sparse_ok s' /\ s_max s' = n - 1 /\
     is_some (s_sorted s') = true /\
     sabs s' = if n <? zlen (sabs s) then firstn (Z.to_nat n) (sabs s)
               else sabs s ++ repeat None (Z.to_nat n - length (sabs s)).
Proof.
  intros OK. unfold sparse_resize, MAX_LEN.
  destruct ((n <? 0) || (2 ^ 32 - 1 <? n)) eqn:BN; auto. apply orb_false_iff in BN as [B1 B2].
  pose proof (sparse_sorted_ok s OK) as SS. destruct (sparse_sorted s) as [l s1].
  destruct SS as [S1 [S2 [-> [OK1 _]]]]. cbn [s_items s_max s_sorted].
  destruct (bisect_split l n S1) as [F1 F2]. rewrite F1, F2.
  pose proof OK as [N [B [M _]]].
  set (keep := filter (fun k => k <? n) l).
  assert (forall k, In k keep <-> In k (dkeys (s_items s)) /\ k < n) as KK.
  { intros k. unfold keep. rewrite filter_In, S2. split; intros [H1 H2]; split; auto; lia. }
  assert (StronglySorted Z.lt keep) as SK by (apply ssorted_filter; auto).
  match goal with |- context [mkSparse ?it (Some keep) (n - 1)] => set (items' := it) end.
  assert (NoDup (dkeys items') /\ forall k, dget k items' = if k <? n then dget k (s_items s) else None) as [NI GI].
  { unfold items'. destruct (match l with [] => false | _ => _ end).
    - destruct (pick_keys keep (s_items s)) as [P1 P2].
      + apply ssorted_NoDup; auto.
      + intros k HK. apply KK in HK. tauto.
      + rewrite P1. split; [apply ssorted_NoDup; auto|]. intros k. rewrite P2.
        destruct (in_dec Z.eq_dec k keep) as [H|H]; rewrite KK in H.
        * replace (k <? n) with true by lia. auto.
        * destruct (k <? n) eqn:E; auto. symmetry. apply (dget_None _ zeqb_spec). intros HI. apply H. split; auto. lia.
    - destruct (ddel_fold (filter (fun k => negb (k <? n)) l) (s_items s) N) as [D1 D2]. split; auto.
      intros k. rewrite D2. destruct (in_dec Z.eq_dec k _) as [H|H]; rewrite filter_In, S2 in H.
      + destruct (k <? n); auto. destruct H; discriminate.
      + destruct (k <? n) eqn:E; auto. apply (dget_None _ zeqb_spec). intros HI. apply H. auto. }
  assert (forall k, In k (dkeys items') <-> In k keep) as KI.
  { intros k. rewrite KK, <- !(dget_Some_key _ zeqb_spec). rewrite GI. destruct (k <? n) eqn:E.
    - split; [intros H; split; auto; lia|tauto].
    - split; [intros [v H]; discriminate|lia]. }
  eexists. split; [reflexivity|]. split.
  - repeat split; cbn [s_items s_sorted s_max]; auto; try lia.
    + apply KI, KK in H as [H _]. specialize (B _ H). lia.
    + apply KI, KK in H as [_ H]. lia.
    + unfold MAX_LEN. lia.
    + intros H. apply KI. auto.
    + intros H. apply KI. auto.
  - split; auto. split; auto. pose proof (sabs_zlen s OK) as ZL.
    apply nth_error_ext'. intros k. unfold sabs at 1. cbn [s_items s_max sparse_len].
    rewrite items_abs_nth, GI. unfold sparse_len. cbn [s_max]. replace (n - 1 + 1) with n by lia.
    destruct (Nat.ltb_spec k (Z.to_nat n)) as [L|L].
    + replace (Z.of_nat k <? n) with true by lia. destruct (n <? zlen (sabs s)) eqn:E.
      *
        transitivity (nth_error (sabs s) k).
        -- unfold sabs. rewrite items_abs_nth. replace (k <? Z.to_nat (sparse_len s))%nat with true; auto.
           rewrite ZL in E. lia.
        -- rewrite <- (firstn_skipn (Z.to_nat n) (sabs s)) at 1. rewrite nth_error_app1; auto.
           rewrite firstn_length. unfold zlen in E. lia.
      * destruct (Nat.lt_ge_cases k (length (sabs s))) as [L2|L2].
        -- rewrite nth_error_app1 by auto. unfold sabs in L2 |- *. rewrite items_abs_length in L2.
           rewrite items_abs_nth. replace (k <? Z.to_nat (sparse_len s))%nat with true by lia. auto.
        -- rewrite nth_error_app2 by auto.
           assert (dget (Z.of_nat k) (s_items s) = None) as ->.
           { apply (dget_None _ zeqb_spec). intros HI. specialize (B _ HI). unfold zlen, sparse_len in ZL. lia. }
           rewrite (nth_error_nth' _ None) by (rewrite repeat_length; lia). rewrite nth_repeat. auto.
    + symmetry. apply nth_error_None. destruct (n <? zlen (sabs s)) eqn:E.
      * rewrite firstn_length. lia.
      * rewrite app_length, repeat_length. unfold zlen in E. lia.
Qed.

Lemma sparse_indexes_eq s : sparse_ok s ->
  sparse_sorted s = (indexes_from 0 (sabs s), mkSparse (s_items s) (Some (indexes_from 0 (sabs s))) (s_max s)) /\
  sparse_ok (mkSparse (s_items s) (Some (indexes_from 0 (sabs s))) (s_max s)).
Proof.
  intros OK. pose proof (sparse_sorted_ok s OK) as SS. destruct (sparse_sorted s) as [l s1].
  destruct SS as [S1 [S2 [-> [OK1 _]]]].
  assert (l = indexes_from 0 (sabs s)) as <-; [|auto].
  apply ssorted_unique; auto; [apply indexes_from_sorted|].
  intros x. rewrite S2, indexes_occupied, <- (dget_Some_key _ zeqb_spec). unfold occupied, sabs.
  destruct OK as [N [B [M _]]]. split.
  - intros [v G]. assert (In x (dkeys (s_items s))) as HI by (apply (dget_Some_key _ zeqb_spec); eauto).
    specialize (B _ HI). exists v. split; [lia|]. rewrite items_abs_nth. unfold sparse_len.
    replace (Z.to_nat x <? Z.to_nat (s_max s + 1))%nat with true by lia.
    replace (Z.of_nat (Z.to_nat x)) with x by lia. congruence.
  - intros [v [H E]]. rewrite items_abs_nth in E. destruct (_ <? _)%nat; [|discriminate].
    injection E as E. replace (Z.of_nat (Z.to_nat x)) with x in E by lia. eauto.
Qed.

Lemma sparse_used_eq s : sparse_ok s -> zlen (s_items s) = count_used (sabs s).
Proof.
  intros OK. pose proof (sparse_sorted_ok s OK) as SS. destruct (sparse_indexes_eq s OK) as [E _].
  rewrite E in SS. destruct SS as [S1 [S2 _]]. destruct OK as [N _].
  rewrite <- (ssorted_length_keys _ _ N S1 S2). rewrite indexes_from_length. auto.
Qed.
End Sparse.
