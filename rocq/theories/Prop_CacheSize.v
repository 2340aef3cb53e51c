(** C19, C21, C24, C25: the size of the cache of equal values (deduplicate_max_size of DefaultEncodeContext) changes which equal
    values are written once, and nothing else. *)
From Coq Require Import List NArith ZArith Bool Lia.
From Coq Require Import ZifyBool ZifyN ZifyNat.
From Verif Require Import Base Dict ModelTags ModelPrim SpecPrim PrimFacts PrimFacts2 SpecNumber SpecArray ModelLog ModelArray ModelValue SpecKey SpecMap ModelObject ModelMap ModelBuffer BufferFacts ModelHeap
  ModelDecode SpecWire SpecBuild DecodeComplete DecodeSound BuildFacts ModelEncode SpecEncode SpecParts SpecFail KeyFacts HashFacts HashFacts2 EncodeFacts EncodeFacts2 EncodeFacts3 EncodeErr
  SpecGraph RoundTrip RoundTrip2 RoundTrip3 RoundTrip4 RoundTrip5 DoubleFacts2 SpecCache CacheFacts Prop_Decode Prop_Encode Prop_RoundTrip Prop_RoundTrip2.
Import ListNotations.
Open Scope N_scope.

(** The output is a document of the format, whatever the size. *)
Theorem C19_cache_size : forall size H cfg refs node root depth bs, wf_graph H cfg root ->
  encode_sized size depth (steps_of H cfg refs node) root = Ok bs -> exists w, document w bs.
Proof. intros size H cfg refs node root depth bs WF E. apply (sized_describes H cfg refs node root WF) in E as (w & r & _ & D). eauto. Qed.
Print Assumptions C19_cache_size.
(** Writing ends: the depth that is enough without a size is enough with one, and why it raises does not depend on the size
    (an unsupported value or an error that is its own cause). *)
Theorem C24_cache_size : forall size H cfg root depth, wf_graph H cfg root -> (length H + 2 <= depth)%nat ->
  match encode_sized size depth (default_steps H cfg) root with
  | Ok _ => True
  | Err e => e <> EOutOfFuel /\ excuse H cfg true root e
  end.
Proof.
  intros size H cfg root depth WF L. destruct (encode_sized size depth (default_steps H cfg) root) as [bs|e] eqn:E; auto.
  assert (RK : true = false -> forall o x c, occurs H root (VRef o) -> nth_error H o = Some x -> In c (children x) -> (0 < 0)%nat) by discriminate.
  assert (En : enough H true (fun _ => 0%nat) depth root []) by (left; rewrite unrec_nil; lia).
  pose proof (sized_err H cfg true false root WF (fun _ => 0%nat) RK size _ _ En E) as X. split; auto.
  intros ->. exact (excuse_fuel H cfg true root X).
Qed.
Print Assumptions C24_cache_size.
Lemma sized_succeeds size H cfg root : wf_graph H cfg root -> writable H cfg root ->
  exists bs, encode_sized size (length H + 2) (default_steps H cfg) root = Ok bs.
Proof.
  intros WF [F Nc]. pose proof (C24_cache_size size H cfg root _ WF (le_n _)) as X.
  destruct (encode_sized size (length H + 2) (default_steps H cfg) root) as [bs|e]; [eauto|]. exfalso. destruct X as [_ X].
  destruct X as [(u & Ou & Fu)|(_ & -> & Fc & o' & Oo & Cy)]; [eapply F; eauto|]. destruct Nc as [Nc|Nc]; [congruence|]. elim (Nc _ Oo Cy).
Qed.
(** Graphs without equal objects come back exactly (see C21_round_trip_partial for what is missing). *)
Theorem C21_cache_size_partial : forall size H cfg dcfg root, wf_graph H cfg root -> default_constants dcfg ->
  writable H cfg root -> able H cfg dcfg false eq root -> aligned H root -> no_equals H root ->
  exists bs v' h R, encode_sized size (length H + 2) (default_steps H cfg) root = Ok bs /\ loads dcfg bs = Ok (v', h) /\
    carries H h cfg dcfg false eq root v' R /\ one_to_one R /\ covers H root R.
Proof.
  intros size H cfg dcfg root WF DC WR AB AL NE. destruct (sized_succeeds size H cfg root WF WR) as (bs & E).
  destruct (sized_round_trip_eq H cfg dcfg true false root WF DC ltac:(discriminate) size _ bs AB (fun _ => AL) (fun _ => NE) E) as (v' & h & R & L & C & _ & O & _).
  exists bs, v', h, (rel R). split; auto. split; auto. split; auto. split; auto. eapply carries_covers; eauto.
Qed.
Print Assumptions C21_cache_size_partial.
(** When equal values are alike, values are kept, and only equal objects may become one (see C25_values_kept_partial). *)
Theorem C25_cache_size_partial : forall size H cfg dcfg root, wf_graph H cfg root -> default_constants dcfg ->
  writable H cfg root -> able H cfg dcfg false (equal_value H root) root -> aligned H root -> interchangeable H root ->
  exists bs v' h R, encode_sized size (length H + 2) (default_steps H cfg) root = Ok bs /\ loads dcfg bs = Ok (v', h) /\
    carries H h cfg dcfg false eq root v' R /\ covers H root R /\
    (forall o o' j, R o (VRef j) -> R o' (VRef j) -> equal_value H root (VRef o) (VRef o')).
Proof.
  intros size H cfg dcfg root WF DC WR AB AL IC. destruct (sized_succeeds size H cfg root WF WR) as (bs & E).
  destruct (sized_round_trip_equal H cfg dcfg true false root WF DC ltac:(discriminate) size _ bs eq_refl AB AL E) as (v' & h & R & L & C & _ & O & RO).
  exists bs, v', h, (up_to H root (rel R)). split; auto. split; auto.
  assert (C' : carries H h cfg dcfg false eq root v' (up_to H root (rel R))) by (apply dedup_exact; auto).
  split; auto. split; [eapply carries_covers; eauto|]. apply up_to_locs; auto.
Qed.
Print Assumptions C25_cache_size_partial.
(** The hypotheses are those of C25_case. With a cache of one value the equal tuples and bytes are written twice if
    another value is in between; the sizes differ. *)
Example C25_cache_size_case : exists a b c,
  encode_sized None 7 (default_steps twins_heap (ex_ecfg ex_all)) (VRef 0) = Ok a /\
  encode_sized (Some 1%nat) 7 (default_steps twins_heap (ex_ecfg ex_all)) (VRef 0) = Ok b /\
  encode_sized (Some 0%nat) 7 (default_steps twins_heap (ex_ecfg ex_all)) (VRef 0) = Ok c /\ lenN a < lenN b /\ lenN b < lenN c.
Proof. do 3 eexists. split; [vm_compute; reflexivity|]. split; [vm_compute; reflexivity|]. split; [vm_compute; reflexivity|]. vm_compute. auto. Qed.
(** Without a cache 0.0 and -0.0 stay what they are. *)
Example C25_no_cache_case : exists bs h x, encode_sized (Some 0%nat) 3 (default_steps [OSeq false [VFloat 0; VFloat (2 ^ 63)]] (ex_ecfg ex_all)) (VRef 0) = Ok bs /\
  loads ex_cfg bs = Ok (VRef 0, h) /\ nth_error h 0 = Some (OArray x) /\ elements x = [VFloat 0; VFloat (2 ^ 63)].
Proof. do 3 eexists. split; [vm_compute; reflexivity|]. split; [vm_compute; reflexivity|]. split; vm_compute; reflexivity. Qed.

(** With size n the cache holds at most n values, no two of them equal: those used last. A value is replaced exactly if it is among them, by
    a value of the same type and key that was looked up before; without a size, exactly if an equal one was looked up before. *)
Theorem C25_cache_keeps_recent : forall n H vs v k, hash_key H v = Some k ->
  let st := lookups H vs (es_sized (Some n)) in
  (length (es_seen st) <= n)%nat /\ NoDup (map fst (es_seen st)) /\
  (recent n (uses_of H vs) k -> In (fst (deduplicate H v st)) vs /\ hash_key H (fst (deduplicate H v st)) = Some k /\
    exists u, In (k, u) (es_seen st) /\ fst (deduplicate H v st) = u) /\
  (~ recent n (uses_of H vs) k -> fst (deduplicate H v st) = v).
Proof.
  intros n H vs v k Hk st. pose proof (lookups_keys n H vs) as Ks. fold st in Ks.
  split; [rewrite <- keys_length, Ks; apply firstn_le_length|].
  split; [|split].
  - rewrite <- (rev_involutive (map fst (es_seen st))). apply NoDup_rev. fold (keys (es_seen st)). rewrite Ks.
    apply nodup_firstn, uniq_nodup.
  - intros R. apply recent_spec in R. rewrite <- Ks in R. apply dget_keys in R as (u & D).
    unfold deduplicate. rewrite Hk. rewrite D. cbn [fst]. apply dget_In in D. destruct (lookups_values _ _ _ _ _ D) as [I E]. eauto.
  - intros R. rewrite recent_spec, <- Ks, <- dget_keys in R. unfold deduplicate. rewrite Hk.
    destruct (dget hash_key_eqb k (es_seen st)) as [u|]; [elim R; eauto|reflexivity].
Qed.
Print Assumptions C25_cache_keeps_recent.
Theorem C25_cache_keeps_all : forall H vs v k, hash_key H v = Some k ->
  let st := lookups H vs (es_sized None) in
  (In k (uses_of H vs) -> In (fst (deduplicate H v st)) vs /\ hash_key H (fst (deduplicate H v st)) = Some k) /\
  (~ In k (uses_of H vs) -> fst (deduplicate H v st) = v).
Proof.
  intros H vs v k Hk st. pose proof (lookups_all H vs k) as Ks. fold st in Ks. rewrite <- Ks, <- dget_keys. unfold deduplicate. rewrite Hk. split.
  - intros (u & D). rewrite D. cbn [fst]. apply dget_In in D. exact (lookups_values _ _ _ _ _ D).
  - intros R. destruct (dget hash_key_eqb k (es_seen st)) as [u|]; [elim R; eauto|reflexivity].
Qed.
Print Assumptions C25_cache_keeps_all.
(** 1, 2, 1, 3 with two places: 1 and 3 are kept, 2 is not. *)
Example C25_cache_case : let us := uses_of [] [VInt 1; VInt 2; VInt 1; VInt 3] in
  exists k1 k2, hash_key [] (VInt 1) = Some k1 /\ hash_key [] (VInt 2) = Some k2 /\ recent 2 us k1 /\ ~ recent 2 us k2.
Proof.
  do 2 eexists. split; [reflexivity|]. split; [reflexivity|]. rewrite !recent_spec. split.
  - vm_compute. auto.
  - vm_compute. intuition discriminate.
Qed.
