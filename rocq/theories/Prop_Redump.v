(** C69: what loads returns can be given to dumps. *)
From Coq Require Import List NArith ZArith Bool Lia ZifyBool ZifyNat ZifyN.
From Verif Require Import Base Dict ModelTags ModelPrim SpecPrim PrimFacts PrimFacts2 SpecNumber SpecArray ModelArray ModelValue ValueFacts SpecKey SpecMap ModelObject ModelMap MapFacts
  ModelBuffer BufferFacts ModelHeap ModelDecode SpecWire SpecBuild DecodeComplete DecodeSound BuildFacts ModelEncode SpecEncode SpecFail EncodeFacts SpecGraph RoundTrip RedumpFacts
  Prop_Decode Prop_Encode Prop_RoundTrip.
Import ListNotations.
Open Scope N_scope.

(** Python's repr of a float that is not integral is not made of digits only, and has no surrogates. *)
Definition readable_floats (dcfg : ModelDecode.dcfg) : Prop := forall bits m e, ieee bits = Finite m e ->
  (forall z, ~ same_number (ieee bits) (Finite z 0)) -> ~ digits (c_float_repr dcfg bits) /\ Forall scalar (c_float_repr dcfg bits).
(** The datetimes that loads makes have timestamps. *)
Definition dates_back (dcfg : ModelDecode.dcfg) (cfg : ecfg) : Prop := forall b d, b < 2 ^ 64 -> c_date dcfg b = inl d ->
  exists b', b' < 2 ^ 64 /\ e_timestamp cfg d = inl b'.
(** Float16Arrays need a feature. *)
Definition float16_ok (h : heap) (cfg : ecfg) (root : val) : Prop :=
  f_float16 (e_features cfg) = true \/ forall o b w, occurs h root (VRef o) -> nth_error h o = Some (OView b w) -> vw_tag w <> vFloat16.

Lemma readable_names dcfg : readable_floats dcfg -> name_repr (c_float_repr dcfg).
Proof.
  intros R bits m e I F. apply (R bits m e I). intros z Z. apply float_int_spec in Z. congruence.
Qed.
Lemma loads_good dcfg data v h : bytes_ok data -> lenN data < 2 ^ 30 -> default_constants dcfg -> readable_floats dcfg ->
  loads dcfg data = Ok (v, h) -> Forall (good_obj dcfg h) h /\ good_val h v.
Proof.
  intros B L DC RF E. unfold loads in E. apply bind_Ok in E as [[[v' p] h'] [E X]]. injection X as <- <-.
  destruct (loads_sound _ _ _ _ _ B E) as (w & bs & rest & l & -> & _ & (ver & tb & vb & body & _ & _ & _ & W & ->) & M).
  rewrite !lenN_app in L.
  destruct (proj1 (build_good dcfg (readable_names _ RF) DC ver) w body ds_empty v' _ W ltac:(lia) ltac:(split; constructor) M) as ((G & _) & _ & Gv).
  split; [exact G|exact Gv].
Qed.

(** What loads returns for less than a gigabyte of data is a well-formed graph and can be dumped, except that
    the default features do not allow Float16Arrays and errors that are their own cause (see below). *)
Theorem C69_dumps_again_partial : forall dcfg cfg data v h, bytes_ok data -> lenN data < 2 ^ 30 -> default_constants dcfg ->
  readable_floats dcfg -> dates_back dcfg cfg -> loads dcfg data = Ok (v, h) ->
  float16_ok h cfg v -> no_cycle h cfg v ->
  wf_graph h cfg v /\ exists bs, dumps h cfg v = Ok bs.
Proof.
  intros dcfg cfg data v h B L DC RF DT E F16 NC. destruct (loads_good _ _ _ _ B L DC RF E) as [G Gv].
  pose proof (good_wf dcfg h v G Gv cfg DT) as WF. split; [exact WF|].
  destruct (C28_supported_succeeds h cfg v WF) as (bs & _ & _ & D & _); eauto. intros u e. eapply good_fails; eauto.
Qed.
Print Assumptions C69_dumps_again_partial.
(** With every feature enabled nothing else is needed. *)
Theorem C69_dumps_again_features : forall dcfg cfg data v h, bytes_ok data -> lenN data < 2 ^ 30 -> default_constants dcfg ->
  readable_floats dcfg -> dates_back dcfg cfg -> f_float16 (e_features cfg) = true -> f_circular (e_features cfg) = true ->
  loads dcfg data = Ok (v, h) -> exists bs, dumps h cfg v = Ok bs.
Proof.
  intros dcfg cfg data v h B L DC RF DT F C E. eapply C69_dumps_again_partial; eauto; left; auto.
Qed.
Print Assumptions C69_dumps_again_features.

Lemma unwrap_good dcfg h k : Forall (good_obj dcfg h) h -> unwrap h k = k.
Proof.
  intros G. destruct k; cbn; auto. destruct (nth_error h oid) as [x|] eqn:E; auto. apply nth_error_In in E. rewrite Forall_forall in G. apply G in E.
  destruct x; auto. destruct E.
Qed.
Lemma keys_good {E} dcfg h (f : E -> val) m : Forall (good_obj dcfg h) h -> cinv no_bytes f m -> keys_apart h eq (map (fun p => f (snd p)) m).
Proof.
  intros G I. split.
  - intros i j a b a0 b0 Ha Hb NE <- <-. rewrite !(unwrap_good dcfg) by auto.
    rewrite <- (map_map snd f) in Ha, Hb. rewrite nth_error_map in Ha, Hb.
    destruct (nth_error (map snd m) i) as [x|] eqn:X; [|discriminate Ha]. destruct (nth_error (map snd m) j) as [y|] eqn:Y; [|discriminate Hb].
    injection Ha as <-. injection Hb as <-. eapply cinv_distinct; eauto.
  - intros a a0 Ia <-. rewrite (unwrap_good dcfg) by auto. apply in_map_iff in Ia as ([s x] & <- & Ix). eapply svz_ok. eapply I. exact Ix.
Qed.
Lemma able_good dcfg cfg h root : Forall (good_obj dcfg h) h ->
  (forall b d b', b < 2 ^ 64 -> c_date dcfg b = inl d -> e_timestamp cfg d = inl b' -> exists d', c_date dcfg b' = inl d') ->
  f_resizable (e_features cfg) = true -> aligned h root -> able h cfg dcfg false eq root.
Proof.
  intros G DT FR AL o x O E. assert (Gx : good_obj dcfg h x) by (rewrite Forall_forall in G; apply G; eapply nth_error_In; eauto).
  destruct x; cbn [good_obj able_obj] in *; auto; try contradiction.
  - apply (keys_good dcfg h (@fst val val)); auto. apply Gx.
  - pose proof (keys_good dcfg h (fun k : val => k) m G (proj1 Gx)) as K. exact K.
  - destruct Gx as (b & L & C). intros b' T. eauto.
  - destruct Gx as (VO & (y & Ey & By) & R).
    assert (Ob : occurs h root (VRef buffer)) by (eapply occ_child; [exact O|exact E|left; reflexivity]).
    pose proof (AL _ _ Ob Ey) as A. destruct y as [| | | | | | | |bf| | | | | | | | | |]; try discriminate By; try contradiction.
    unfold backing_of in *. rewrite Ey in *. cbn [bk_data] in *. split; [|apply R; discriminate]. exists (jsbuf_view bf). split; auto.
    intros T. left. exists bf. split; auto. unfold keeps_resizable. rewrite FR, andb_true_r. unfold view_tracking in T. destruct (vw_length v); [discriminate T|exact T].
Qed.
(** Dumped with references and loaded again, it is the same graph, for data without regexps, errors without a
    cause, shared and transferred buffers ([aligned], see C23), and without different hashable values that Python
    takes for equal ([no_equals], see C25). *)
Theorem C69_same_again_partial : forall dcfg cfg data v h, bytes_ok data -> lenN data < 2 ^ 30 -> default_constants dcfg ->
  readable_floats dcfg -> dates_back dcfg cfg ->
  (forall b d b', b < 2 ^ 64 -> c_date dcfg b = inl d -> e_timestamp cfg d = inl b' -> exists d', c_date dcfg b' = inl d') ->
  loads dcfg data = Ok (v, h) ->
  f_resizable (e_features cfg) = true -> float16_ok h cfg v -> no_cycle h cfg v -> aligned h v -> no_equals h v ->
  exists bs v' h' R, dumps h cfg v = Ok bs /\ loads dcfg bs = Ok (v', h') /\
    carries h h' cfg dcfg false eq v v' R /\ one_to_one R /\ covers h v R.
Proof.
  intros dcfg cfg data v h B L DC RF DT DT2 E FR F16 NC AL NE. destruct (loads_good _ _ _ _ B L DC RF E) as [G Gv].
  apply C21_round_trip_partial; auto.
  - eapply good_wf; eauto.
  - split; auto. intros u e. eapply good_fails; eauto.
  - apply able_good; auto.
Qed.
Print Assumptions C69_same_again_partial.

(** A Map that holds itself in an array, a view and an error whose cause is that array. *)
Definition again : bytes := [255;15; 59; 83;1;97; 65;2;85;7;94;0;36;0;2; 85;5; 66;4;1;2;3;4; 86;66;1;2;0;
      83;1;98; 114;109;83;1;109;99;94;1;46; 58;6].
Definition again_cfg : dcfg := mkCfg (fun _ => [46]) (fun b => inl b) default_const true.
Example C69_case : exists v h, bytes_ok again /\ lenN again < 2 ^ 30 /\ default_constants again_cfg /\ readable_floats again_cfg /\
  dates_back again_cfg (ex_ecfg ex_all) /\ loads again_cfg again = Ok (v, h) /\ float16_ok h (ex_ecfg ex_all) v /\ no_cycle h (ex_ecfg ex_all) v /\
  aligned h v /\ no_equals h v.
Proof.
  eexists. eexists. split; [repeat constructor|]. split; [reflexivity|]. split; [intros t; reflexivity|].
  split; [intros bits m e _ _; split; [intros X; inversion X as [|? ? Y]; subst; destruct Y; lia|repeat constructor; unfold scalar; lia]|]. split; [intros b d L X; injection X as <-; exists b; auto|].
  split; [vm_compute; reflexivity|]. split; [left; reflexivity|]. split; [left; reflexivity|]. split.
  - intros o x _ Hx. repeat (destruct o as [|o]; [injection Hx as <-; cbn; auto; discriminate|]). destruct o; discriminate Hx.
  - intros a b Oa Ob. apply occurs_in in Oa. apply occurs_in in Ob. vm_compute in Oa, Ob.
    repeat (destruct Oa as [<-|Oa]; [repeat (destruct Ob as [<-|Ob]; [vm_compute; intros N X; try reflexivity; try discriminate X; try (elim N; reflexivity)|]); contradiction|]).
    contradiction.
Qed.

(** * The full statement is false *)
(** With the default features: a Float16Array, and an error that is its own cause. *)
Theorem C69_float16_refuted : exists data v h, bytes_ok data /\ loads ex_cfg data = Ok (v, h) /\ dumps h (ex_ecfg ex_none) v = Err EUnhandledValue.
Proof. exists [255;15;66;2;0;0;86;104;0;2;0]. eexists. eexists. split; [repeat constructor|]. split; [vm_compute; reflexivity|]. vm_compute; reflexivity. Qed.
Print Assumptions C69_float16_refuted.
Theorem C69_cause_refuted : exists data v h, bytes_ok data /\ loads ex_cfg data = Ok (v, h) /\ dumps h (ex_ecfg ex_none) v = Err EIllegalCyclic.
Proof. exists [255;15;114;99;94;0;46]. eexists. eexists. split; [repeat constructor|]. split; [vm_compute; reflexivity|]. vm_compute; reflexivity. Qed.
Print Assumptions C69_cause_refuted.
(** With every feature: an array of a regexp and twice the same object comes back with the regexp twice. *)
Theorem C69_same_again_refuted : exists data v h bs v' h', bytes_ok data /\ loads ex_cfg data = Ok (v, h) /\
  dumps h (ex_ecfg ex_all) v = Ok bs /\ loads ex_cfg bs = Ok (v', h') /\ forall R, ~ carries h h' (ex_ecfg ex_all) ex_cfg false eq v v' R.
Proof.
  exists [255;15;65;3;82;83;1;97;0;111;123;0;94;2;36;0;3]. eexists. eexists. eexists. eexists. eexists.
  split; [repeat constructor|]. split; [vm_compute; reflexivity|]. split; [vm_compute; reflexivity|]. split; [vm_compute; reflexivity|].
  intros R [M C]. apply image_ref in M. destruct (C _ _ M) as (x & Hx & OI). injection Hx as <-.
  destruct OI as (j & y & Ej & Hy & CI). injection Ej as <-. cbn in Hy. injection Hy as <-. destruct CI as [F _]. vm_compute in F.
  inversion F as [|? ? ? ? _ F1]; subst. inversion F1 as [|? ? ? ? _ F2]; subst. inversion F2 as [|? ? ? ? Q _]; subst.
  apply image_ref in Q. destruct (C _ _ Q) as (x & Hx & OI). injection Hx as <-. destruct OI as (j & y & Ej & Hy & CI). injection Ej as <-. cbn in Hy.
  injection Hy as <-. exact CI.
Qed.
Print Assumptions C69_same_again_refuted.
(** A gigabyte: the largest BigInts that are read need one digit byte more to be written. *)
Lemma of_le_full n : of_le (repeat 255 n) + 1 = 256 ^ N.of_nat n.
Proof.
  induction n as [|n IH]; [reflexivity|]. cbn [repeat of_le]. rewrite Nat2N.inj_succ, N.pow_succ_r'. lia.
Qed.
Theorem C69_bigint_refuted : forall cfg dcfg, exists data z, bytes_ok data /\ loads dcfg data = Ok (VInt z, []) /\ dumps [] cfg (VInt z) = Err EValue.
Proof.
  intros cfg dcfg. assert (X : exists n, N.of_nat n = 2 ^ 30 - 1) by (exists (N.to_nat (2 ^ 30 - 1)); apply N2Nat.id). destruct X as [n Ln].
  set (z := Z.of_N (of_le (repeat 255 n))).
  assert (BO : bytes_ok (repeat 255 n)) by (apply Forall_forall; intros b I; apply repeat_spec in I; subst; reflexivity).
  assert (LR : lenN (repeat 255 n) = 2 ^ 30 - 1) by (unfold lenN; rewrite repeat_length; exact Ln).
  set (vb := [254; 255; 255; 255; 7]). assert (V : is_varint vb (2 * (2 ^ 30 - 1))) by (change (2 * (2 ^ 30 - 1)) with (254 - 128 + 128 * (255 - 128 + 128 * (255 - 128 + 128 * (255 - 128 + 128 * 7)))); repeat (apply vi_cont; [lia|]); apply vi_last; lia).
  assert (D : document (WBigInt z) ([255] ++ [15] ++ ([90] ++ vb ++ repeat 255 n))).
  { exists 15, [255], [15], ([90] ++ vb ++ repeat 255 n). split; [lia|]. split; [exists O; reflexivity|]. split; [apply vi_last; lia|]. split; [|reflexivity].
    constructor; [exists O; reflexivity|]. apply wb_bigint. econstructor; [exact V|exact BO|exact LR|reflexivity]. }
  exists ([255] ++ [15] ++ [90] ++ vb ++ repeat 255 n), z. split; [|split].
  - rewrite !bytes_ok_app. repeat split; auto; repeat constructor.
  - unfold loads. rewrite <- (app_nil_r ([255] ++ _)). rewrite (loads_complete dcfg (WBigInt z) _ [] (VInt z) ds_empty D eq_refl); [reflexivity|]. intros [].
  - assert (BG : big z).
    { unfold big, z. rewrite Zabs2N.id. pose proof (of_le_full n) as Q. rewrite Ln in Q. revert Q. generalize (of_le (repeat 255 n)). intros x Q.
      assert (EX : N.succ (8 * (2 ^ 30 - 1) - 1) = 8 * (2 ^ 30 - 1)) by reflexivity.
      change 256 with (2 ^ 8) in Q. rewrite <- N.pow_mul_r, <- EX, N.pow_succ_r' in Q.
      revert Q. assert (P : 0 < 2 ^ (8 * (2 ^ 30 - 1) - 1)) by (apply N.neq_0_lt_0, N.pow_nonzero; discriminate). revert P.
      generalize (2 ^ (8 * (2 ^ 30 - 1) - 1)). clear. intros; lia. }
    assert (BE : bigint_bytes z = Err EValue).
    { destruct (bigint_bytes z) as [bs|e] eqn:Eb; [|apply bigint_rejects in Eb; congruence]. exfalso. apply (N.lt_irrefl (Z.abs_N z)).
      eapply N.lt_le_trans; [apply bigint_accepts; eauto|exact BG]. }
    assert (BZ : (2 ^ 64 < z)%Z).
    { assert (A : 2 ^ 64 < Z.abs_N z). { eapply N.lt_le_trans; [|exact BG]. apply N.pow_lt_mono_r; reflexivity. }
      unfold z in *. rewrite Zabs2N.id in A. clear - A. lia. }
    clear - BE BZ. revert BE BZ. generalize z. clear z. intros z BE BZ.
    assert (T : forall ser nx st, es_allowed st = None -> step_tagwriter [] cfg ser (VInt z) nx st = Err EValue).
    { intros ser nx st Al. unfold step_tagwriter, serialize_int.
      assert (I1 : in_uint32 z = false) by (unfold in_uint32; lia).
      assert (I2 : in_int32 z = false) by (unfold in_int32; lia).
      assert (I3 : in_safe_int z = false) by (unfold in_safe_int; lia).
      rewrite I1, I2, I3, Al. unfold write_bigint. rewrite BE. reflexivity. }
    assert (D : exists st, deduplicate [] (VInt z) es_empty = (VInt z, st) /\ es_allowed st = None).
    { unfold deduplicate. destruct (hash_key [] (VInt z)) as [k|]; eexists; split; reflexivity. }
    destruct D as [st [D A]].
    unfold dumps, dumps_depth, default_steps. cbn [length Nat.add encode chain]. unfold step_references at 1.
    rewrite D, T by exact A. reflexivity.
Qed.
Print Assumptions C69_bigint_refuted.
