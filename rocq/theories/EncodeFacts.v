(** The encoder writes descriptions: whatever encode appends encodes an abstract value that
    describes the Python value. *)
From Coq Require Import List NArith ZArith Bool Lia ZifyBool ZifyNat ZifyN.
From Verif Require Import Base Dict ModelTags ModelPrim SpecPrim PrimFacts PrimFacts2 PrimFacts3 SpecNumber ModelLog LogFacts
  ModelArray SpecArray ArrayFacts3 ModelValue ValueFacts KeyFacts ModelObject SpecObject ObjectFacts ModelMap MapFacts ModelBuffer BufferFacts ModelHeap SpecWire
  ModelDecode ModelEncode HashFacts SpecEncode DoubleFacts.
Import ListNotations.
Open Scope N_scope.

(** * Writers *)
Lemma w_seq_Ok a b st bs st' : w_seq a b st = Ok (bs, st') ->
  exists x st1 y, a st = Ok (x, st1) /\ b st1 = Ok (y, st') /\ bs = x ++ y.
Proof.
  unfold w_seq. intros E. apply bind_Ok in E as [[x s1] [E1 E]]. apply bind_Ok in E as [[y s2] [E2 E]].
  injection E as <- <-. eauto 10.
Qed.
Lemma w_raw_Ok bs st x st' : w_raw bs st = Ok (x, st') -> x = bs /\ st' = st.
Proof. intros [= <- <-]. auto. Qed.
Lemma w_nil_Ok st x st' : w_nil st = Ok (x, st') -> x = [] /\ st' = st.
Proof. intros [= <- <-]. auto. Qed.
Lemma w_varint_Ok n st x st' : w_varint n st = Ok (x, st') -> x = varint_bytes n /\ st' = st.
Proof. intros [= <- <-]. auto. Qed.
Lemma w_res_Ok r st x st' : w_res r st = Ok (x, st') -> r = Ok x /\ st' = st.
Proof. destruct r; [intros [= <- <-]; auto|discriminate]. Qed.
Lemma w_tag_Ok t st x st' : w_tag t st = Ok (x, st') ->
  x = [tag_byte t] /\ st' = st /\ match es_allowed st with None => True | Some s => In t (tags_of s) end.
Proof.
  unfold w_tag. destruct (es_allowed st); [destruct (tag_in t (tags_of _)) eqn:E; [|discriminate]; apply tag_in_In in E|];
    intros [= <- <-]; auto.
Qed.
Lemma w_record_Ok o st x st' : w_record o st = Ok (x, st') ->
  x = [] /\ st' = set_log st (snd (log_record pyid (es_log st) o)).
Proof. intros [= <- <-]. auto. Qed.

Ltac winv :=
  repeat match goal with
  | H : w_seq _ _ _ = Ok _ |- _ => apply w_seq_Ok in H as (? & ? & ? & ? & H & ?)
  | H : w_raw _ _ = Ok _ |- _ => apply w_raw_Ok in H as [? ?]
  | H : w_nil _ = Ok _ |- _ => apply w_nil_Ok in H as [? ?]
  | H : w_varint _ _ = Ok _ |- _ => apply w_varint_Ok in H as [? ?]
  | H : w_res _ _ = Ok _ |- _ => apply w_res_Ok in H as [? ?]
  | H : w_uint32 _ _ = Ok _ |- _ => apply w_res_Ok in H as [? ?]
  | H : w_tag _ _ = Ok _ |- _ => apply w_tag_Ok in H as (? & ? & ?)
  | H : w_record _ _ = Ok _ |- _ => apply w_record_Ok in H as [? ?]
  | H : w_fail _ _ = Ok _ |- _ => discriminate H
  end; subst.

Lemma set_log_id st : set_log st (es_log st) = st.
Proof. destruct st; reflexivity. Qed.

(** * Leaves of the format *)
Lemma wire_i v w bs : wbody v w bs -> wire v w (tag_byte (wtag w) :: bs).
Proof. intros B. change (tag_byte (wtag w) :: bs) with ([tag_byte (wtag w)] ++ bs). constructor; auto. exists 0%nat. reflexivity. Qed.
Lemma tagged_i t : tagged t [tag_byte t].
Proof. exists 0%nat. reflexivity. Qed.
Lemma varint_length n k : n < 128 ^ N.of_nat k -> (0 < k)%nat -> (length (varint_bytes n) <= k)%nat.
Proof.
  revert n. induction k; intros n Hn Hk; [lia|]. rewrite varint_bytes_eq. destruct (N.ltb_spec n 128); [cbn [length]; lia|].
  cbn [length]. destruct k; [change (128 ^ N.of_nat 1) with 128 in Hn; lia|].
  apply le_n_S, IHk; [|lia]. rewrite Nat2N.inj_succ, N.pow_succ_r' in Hn. apply N.div_lt_upper_bound; lia.
Qed.
Lemma varint32_i n : n < 2 ^ 32 -> varint32 n (varint_bytes n).
Proof.
  intros Hn. split; [apply is_varint_bytes|]. split; auto. apply varint_length; [|lia].
  change (128 ^ N.of_nat 5) with 34359738368. change (2 ^ 32) with 4294967296 in Hn. lia.
Qed.
Lemma uint32_wire z bs : uint32_bytes z = Ok bs -> varint32 (Z.to_N z) bs /\ (0 <= z < 2 ^ 32)%Z.
Proof.
  intros E. apply uint32_bytes_eq in E as [E ->]. unfold in_uint32 in E.
  assert (0 <= z < 2 ^ 32)%Z by (change (2 ^ 32)%Z with 4294967296%Z in *; lia).
  split; auto. apply varint32_i. change (2 ^ 32)%Z with 4294967296%Z in *. change (2 ^ 32) with 4294967296. lia.
Qed.
Lemma int32_wire z bs : int32_bytes z = Ok bs ->
  (-2 ^ 31 <= z < 2 ^ 31)%Z /\ varint32 (Z.to_N (if z <? 0 then -2 * z - 1 else 2 * z)%Z) bs.
Proof.
  unfold int32_bytes. destruct (in_int32 z) eqn:E; [|discriminate]. intros [= <-].
  pose proof (zigzag_int32_range z E) as R. unfold in_int32 in E.
  assert (Hz : (-2 ^ 31 <= z < 2 ^ 31)%Z) by (change (2 ^ 31)%Z with 2147483648%Z in *; lia).
  split; auto.
  assert (Q : encode_zigzag z = Z.to_N (if z <? 0 then -2 * z - 1 else 2 * z)%Z).
  { unfold encode_zigzag. destruct (Z.ltb_spec z 0); lia. }
  rewrite <- Q. apply varint32_i; auto.
Qed.

Lemma utf8_wire t s bs : (t = kUtf8String \/ t = kStringObject) -> Forall code_point s -> utf8_payload s = Ok bs -> wstring t s bs.
Proof.
  intros Ht Hs E. unfold utf8_payload in E. apply bind_Ok in E as [e [E1 E]]. injection E as <-.
  pose proof (utf8_encode_spec s Hs e E1) as U. unfold lp.
  destruct Ht as [-> | ->]; [apply ws_utf8|apply ws_obj]; auto; apply is_varint_bytes.
Qed.
Lemma onebyte_wire s bs : onebyte_payload s = Ok bs -> wstring kOneByteString s bs.
Proof.
  intros E. unfold onebyte_payload in E. apply bind_Ok in E as [e [E1 E]]. injection E as <-. unfold lp.
  apply ws_one; [|apply is_varint_bytes]. unfold latin1_encode in E1. destruct (forallb _ s) eqn:F; [|discriminate].
  injection E1 as <-. split; auto. apply Forall_forall. intros c Hc. apply forallb_forall with (x := c) in F; auto. lia.
Qed.
Lemma bigint_wire z bs : bigint_bytes z = Ok bs -> wbigint z bs.
Proof.
  unfold bigint_bytes. cbv zeta. set (k := (bit_length z + 8) / 8). destruct (N.ltb_spec 30 (N.size k)); [discriminate|].
  apply size_le_30 in H. rewrite lor1. intros [= <-].
  apply wb_intro with (f := 2 * k + (if (z <? 0)%Z then 1 else 0)).
  - apply is_varint_bytes.
  - apply le_bytes_ok.
  - unfold lenN. rewrite le_bytes_length, N2Nat.id.
    replace ((2 * k + (if (z <? 0)%Z then 1 else 0)) / 2) with k by (destruct (z <? 0)%Z; lia).
    rewrite N.mod_small; auto.
  - rewrite of_le_le_bytes by (rewrite N2Nat.id; apply bigint_fits).
    replace (N.odd _) with (z <? 0)%Z.
    + destruct (Z.ltb_spec z 0); lia.
    + destruct (z <? 0)%Z; [rewrite N.odd_add, N.odd_mul|rewrite N.add_0_r, N.odd_mul]; reflexivity.
Qed.
Lemma double_wire b : b < 2 ^ 64 -> wdouble b (double_bytes b).
Proof. intros Hb. split; auto. Qed.

(** * The state between two writers *)
Section Facts.
Variable H : heap.
Variable cfg : ecfg.
Variables refs node : bool.
Variable root : val.
Notation feat := (e_features cfg).
Definition rep_of : val -> val -> Prop := if refs then equal_value H root else eq.
Notation occ := (occurs H root).
Notation desc := (describes H cfg refs node rep_of).
Notation wrt := (writes H cfg refs node rep_of).
Notation vals_of := (wvals_of H cfg refs node rep_of).
Notation pairs_of := (wpairs_of H cfg refs node rep_of).

Definition logrel (l : log (O := nat)) (r open : list nat) : Prop :=
  refs = true ->
  length (log_entries l) = length r /\ NoDup r /\ incl open r /\
  (forall o, dget Nat.eqb o (log_ids l) = None <-> ~ In o r) /\
  (forall i o, nth_error r i = Some o -> dget Nat.eqb o (log_ids l) = Some i /\
     exists e, nth_error (log_entries l) i = Some e /\ (e = EFwd None <-> In o open)).
Definition seen_ok (st : est) : Prop :=
  forall k v, In (k, v) (es_seen st) -> hash_key H v = Some k /\ occ v.
Definition st_ok (st : est) (r open : list nat) : Prop :=
  logrel (es_log st) r open /\ seen_ok st /\ es_allowed st = None.

Lemma st_sized size : st_ok (es_sized size) [] [].
Proof.
  split; [|split; [intros k v E; destruct E|reflexivity]]. intros _. cbn. repeat split; try constructor; auto.
  - intros x [].
  - destruct i; discriminate.
  - destruct i; discriminate.
Qed.
Lemma st_empty : st_ok es_empty [] [].
Proof. apply st_sized. Qed.

Lemma snoc_nth (r : list nat) o i x : nth_error (r ++ [o]) i = Some x -> nth_error r i = Some x \/ (i = length r /\ x = o).
Proof. rewrite nth_error_snoc. destruct (Nat.eqb_spec i (length r)); [intros [= <-]; auto|auto]. Qed.
Lemma eqb_spec' : forall a b : nat, Nat.eqb a b = true <-> a = b.
Proof. apply Nat.eqb_eq. Qed.

Lemma logrel_add l r open o e : logrel l r open -> fresh refs o r ->
  logrel (mkLog (dset Nat.eqb o (length (log_entries l)) (log_ids l)) (log_entries l ++ [e])) (r ++ [o])
    (match e with EFwd None => o :: open | _ => open end).
Proof.
  intros L F Hr. destruct (L Hr) as (Ln & Nd & In' & Id & En). specialize (F Hr). cbn [log_ids log_entries].
  rewrite !app_length, Ln. cbn [length]. split; [reflexivity|]. split; [apply NoDup_snoc; auto|].
  assert (Fo : ~ In o open) by (intros C; apply F, In', C).
  split; [|split].
  - assert (incl open (r ++ [o])) by (intros x Hx; apply in_or_app; left; auto).
    destruct e as [|[|]]; auto. intros x [<-|Hx]; auto. apply in_or_app; right; left; reflexivity.
  - intros x. rewrite (dget_dset Nat.eqb eqb_spec'). destruct (Nat.eqb_spec x o).
    + split; [discriminate|]. intros C. elim C. apply in_or_app. right; left; auto.
    + rewrite Id, in_app_iff. cbn [In]. intuition.
  - intros i x Hi. rewrite (dget_dset Nat.eqb eqb_spec'), nth_error_snoc, Ln.
    apply snoc_nth in Hi as [Hi|[-> ->]].
    + destruct (Nat.eqb_spec x o) as [->|Nx]; [elim F; eapply nth_error_In; eauto|].
      destruct (En _ _ Hi) as (E1 & e0 & E2 & E3). split; auto. exists e0.
      destruct (Nat.eqb_spec i (length r)) as [->|]; [rewrite (proj2 (nth_error_None r (length r))) in Hi by lia; discriminate|].
      split; auto. destruct e as [|[|]]; auto. cbn [In]. intuition congruence.
    + rewrite !Nat.eqb_refl. split; auto. exists e. split; auto.
      destruct e as [|[|]]; cbn [In]; intuition (try discriminate; auto).
Qed.
Lemma record_eq l o : snd (log_record pyid l o) = mkLog (dset Nat.eqb o (length (log_entries l)) (log_ids l)) (log_entries l ++ [EObj o]).
Proof. reflexivity. Qed.
Lemma st_record st r open o : st_ok st r open -> fresh refs o r ->
  st_ok (set_log st (snd (log_record pyid (es_log st) o))) (r ++ [o]) open.
Proof.
  intros (L & S' & A) F. split; [|split; auto]. cbn [set_log es_log]. rewrite record_eq. apply (logrel_add _ _ _ _ (EObj o)); auto.
Qed.
(** leaving record_acyclic_reference *)
Lemma logrel_close l r open o i : logrel l r (o :: open) -> ~ (refs = true /\ In o open) -> nth_error r i = Some o ->
  logrel (log_set_forward l i o) r open.
Proof.
  intros L Fo Hi Hr. destruct (L Hr) as (Ln & Nd & In' & Id & En).
  rewrite set_forward_length, set_forward_ids. repeat split; auto; try (intros; apply Id; auto).
  - intros x Hx. apply In'. right; auto.
  - apply (En _ _ H0).
  - destruct (En _ _ H0) as (E1 & e & E2 & E3). destruct (Nat.eq_dec i0 i) as [->|Ni].
    + rewrite Hi in H0. injection H0 as <-. assert (e = EFwd None) as -> by (apply E3; left; auto).
      unfold log_set_forward. rewrite E2. cbn [log_entries].
      rewrite list_set_nth by (apply nth_error_Some; congruence). rewrite Nat.eqb_refl.
      exists (EFwd (Some o)). split; auto. split; [discriminate|]. intros C. elim Fo. auto.
    + rewrite set_forward_other by auto. exists e. split; auto. rewrite E3. cbn [In].
      assert (o0 <> o) by (intros ->; apply Ni; eapply NoDup_nth_error; eauto; [apply nth_error_Some|]; congruence).
      intuition congruence.
Qed.

(** deduplicate *)
Lemma without_idem k c : cache_without k (cache_without k c) = cache_without k c.
Proof. unfold cache_without. induction c as [|p c IH]; [reflexivity|]. cbn [filter]. destruct (negb (hash_key_eqb k (fst p))) eqn:E; auto. cbn [filter]. rewrite E, IH. reflexivity. Qed.
Lemma without_app k a b : cache_without k (a ++ b) = cache_without k a ++ cache_without k b.
Proof. apply filter_app. Qed.
Lemma key_refl k : hash_key_eqb k k = true.
Proof. apply hash_key_eqb_spec. reflexivity. Qed.
Lemma without_self k v : cache_without k [(k, v)] = [].
Proof. unfold cache_without. cbn [filter fst]. rewrite key_refl. reflexivity. Qed.
Lemma dget_app k (a b : list ((htype * hkey) * val)) :
  dget hash_key_eqb k (a ++ b) = match dget hash_key_eqb k a with Some v => Some v | None => dget hash_key_eqb k b end.
Proof. induction a as [|[k0 v0] a IH]; [reflexivity|]. cbn [app dget]. destruct (hash_key_eqb k k0); auto. Qed.
Lemma dget_one k k0 (v : val) : dget hash_key_eqb k [(k0, v)] = if hash_key_eqb k k0 then Some v else None.
Proof. reflexivity. Qed.
Lemma dget_without k k' c : dget hash_key_eqb k' (cache_without k c) = if hash_key_eqb k' k then None else dget hash_key_eqb k' c.
Proof.
  unfold cache_without. induction c as [|[k0 v0] c IH]; [cbn; destruct (hash_key_eqb k' k); reflexivity|]. cbn [filter fst].
  destruct (hash_key_eqb k k0) eqn:E; cbn [negb dget].
  - apply hash_key_eqb_spec in E. subst k0. rewrite IH. destruct (hash_key_eqb k' k) eqn:E'; reflexivity.
  - rewrite IH. destruct (hash_key_eqb k' k) eqn:E'; auto. apply hash_key_eqb_spec in E'. subst k'. rewrite E. reflexivity.
Qed.
Lemma without_absent k (c : list ((htype * hkey) * val)) : dget hash_key_eqb k c = None -> cache_without k c = c.
Proof.
  unfold cache_without. induction c as [|[k0 v0] c IH]; [reflexivity|]. cbn [filter fst dget]. destruct (hash_key_eqb k k0); [discriminate|].
  intros E. cbn [negb]. rewrite IH; auto.
Qed.
Lemma dget_In k (v : val) c : dget hash_key_eqb k c = Some v -> In (k, v) c.
Proof.
  induction c as [|[k0 v0] d IH]; [discriminate|]. cbn [dget In]. destruct (hash_key_eqb k k0) eqn:E; [|auto].
  intros [= ->]. left. apply hash_key_eqb_spec in E. congruence.
Qed.
Lemma without_In k p c : In p (cache_without k c) -> In p c.
Proof. unfold cache_without. rewrite filter_In. tauto. Qed.
Lemma tl_In {A} (x : A) c : In x (tl c) -> In x c.
Proof. destruct c; cbn; auto. Qed.
Lemma absent_tl k (c : list ((htype * hkey) * val)) : dget hash_key_eqb k c = None -> dget hash_key_eqb k (tl c) = None.
Proof. destruct c as [|[k0 v0] c]; auto. cbn [dget tl]. destruct (hash_key_eqb k k0); [discriminate|auto]. Qed.
Lemma hit_In size k (v : val) c p : In p (cache_hit size k v c) -> In p c \/ p = (k, v).
Proof. destruct size; cbn [cache_hit]; auto. rewrite in_app_iff. intros [X|[<-|[]]]; auto. left. eapply without_In; eauto. Qed.
Lemma miss_In size k v c p : In p (cache_miss size k v c) -> In p c \/ p = (k, v).
Proof.
  destruct size as [[|n]|]; cbn [cache_miss]; auto; rewrite in_app_iff.
  - destruct (length c <? S n)%nat; intros [X|[<-|[]]]; auto using tl_In.
  - intros [X|[<-|[]]]; auto.
Qed.
(** After a hit the entry is there; a further look changes nothing. *)
Lemma hit_again size k (v : val) c : dget hash_key_eqb k c = Some v ->
  dget hash_key_eqb k (cache_hit size k v c) = Some v /\ cache_hit size k v (cache_hit size k v c) = cache_hit size k v c.
Proof.
  intros D. destruct size; cbn [cache_hit]; auto. split.
  - rewrite dget_app, dget_without, key_refl, dget_one, key_refl. reflexivity.
  - rewrite without_app, without_idem, without_self, app_nil_r. reflexivity.
Qed.
Lemma miss_again size k v c : dget hash_key_eqb k c = None ->
  (dget hash_key_eqb k (cache_miss size k v c) = Some v /\ cache_hit size k v (cache_miss size k v c) = cache_miss size k v c) \/
  (cache_miss size k v c = c).
Proof.
  intros D. destruct size as [[|n]|]; cbn [cache_miss cache_hit]; [right; reflexivity|left..].
  - assert (E : dget hash_key_eqb k (if (length c <? S n)%nat then c else tl c) = None) by (destruct (_ <? _)%nat; auto using absent_tl).
    rewrite dget_app, E, dget_one, key_refl. split; auto. rewrite without_app, without_self, app_nil_r, without_absent; auto.
  - rewrite dget_app, D, dget_one, key_refl. auto.
Qed.
Lemma dedup_spec v st v0 st' : seen_ok st -> occ v -> deduplicate H v st = (v0, st') ->
  equal_value H root v v0 /\ occ v0 /\ seen_ok st' /\ es_log st' = es_log st /\ es_allowed st' = es_allowed st /\
  deduplicate H v0 st' = (v0, st').
Proof.
  intros S' O E. unfold deduplicate in E. destruct (hash_key H v) as [k|] eqn:Hk.
  - destruct (dget hash_key_eqb k (es_seen st)) as [v1|] eqn:D; injection E as <- <-.
    + destruct (S' _ _ (dget_In _ _ _ D)) as [K O1]. split; [|split; [|split; [|split; [|split]]]]; auto.
      * right. rewrite Hk, K. repeat split; auto; discriminate.
      * intros k' v' X. cbn [es_seen] in X. apply hit_In in X as [X|[= -> ->]]; auto.
      * unfold deduplicate. rewrite K. cbn [es_seen es_size es_log es_allowed]. destruct (hit_again (es_size st) k v1 _ D) as [A B]. rewrite A, B. reflexivity.
    + split; [left; auto|]. split; [auto|]. cbn [es_log es_allowed]. split; [|split; [auto|split; auto]].
      * intros k' v' X. cbn [es_seen] in X. apply miss_In in X as [X|[= -> ->]]; auto.
      * unfold deduplicate. rewrite Hk. cbn [es_seen es_size es_log es_allowed]. destruct (miss_again (es_size st) k v _ D) as [[A B]|A]; [rewrite A, B; reflexivity|].
        rewrite A, D, A. reflexivity.
  - injection E as <- <-. split; [left; auto|]. split; [|split; [|split; [|split]]]; auto. unfold deduplicate; rewrite Hk; reflexivity.
Qed.
Lemma dedup_st v st v0 st' r open : st_ok st r open -> occ v -> deduplicate H v st = (v0, st') -> st_ok st' r open.
Proof.
  intros (L & S' & A) O E. destruct (dedup_spec _ _ _ _ S' O E) as (_ & _ & S1 & El & Ea & _).
  split; [rewrite El; auto|]. split; auto. congruence.
Qed.

(** * Descriptions only add objects *)
Lemma describes_ext :
  (forall open key v r w r', desc open key v r w r' -> exists d, r' = r ++ d) /\
  (forall open key v r w r', wrt open key v r w r' -> exists d, r' = r ++ d) /\
  (forall open l r ws r', vals_of open l r ws r' -> exists d, r' = r ++ d) /\
  (forall open key l r ps r', pairs_of open key l r ps r' -> exists d, r' = r ++ d).
Proof.
  apply describes_mutind; intros;
    repeat match goal with E : exists d, _ |- _ => destruct E as [? ->] end;
    try (exists []; rewrite app_nil_r; reflexivity); try (eexists; rewrite <- ?app_assoc; reflexivity).
Qed.
End Facts.
