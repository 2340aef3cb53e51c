(** C21, C22, C25, C32, C45, C52: decoding what was encoded. *)
From Coq Require Import List NArith ZArith Bool Lia.
From Coq Require Import ZifyBool ZifyN ZifyNat.
From Verif Require Import Base ModelTags ModelPrim SpecPrim PrimFacts PrimFacts2 SpecNumber SpecArray ModelLog ModelArray ModelValue SpecKey SpecMap ModelObject ModelMap ModelBuffer BufferFacts ModelHeap
  ModelDecode SpecWire SpecBuild DecodeComplete DecodeSound BuildFacts ModelEncode SpecEncode SpecParts SpecFail KeyFacts HashFacts EncodeFacts EncodeFacts2 EncodeFacts3
  SpecGraph RoundTrip RoundTrip2 RoundTrip3 RoundTrip4 Prop_Decode Prop_Encode.
Import ListNotations.
Open Scope N_scope.

(** The decoder is used with its default constants. *)
Definition default_constants (dcfg : ModelDecode.dcfg) : Prop := forall t, c_const dcfg t = default_const t.
(** Every value that occurs can be written (see C28, C30). *)
Definition writable (H : heap) (cfg : ecfg) (root : val) : Prop :=
  (forall u e, occurs H root u -> ~ fails H cfg u e) /\ no_cycle H cfg root.
(** [R] gives a decoded value for every object of the graph. *)
Definition covers (H : heap) (root : val) (R : nat -> val -> Prop) : Prop :=
  forall o, occurs H root (VRef o) -> exists u, R o u.

(** * C21 *)
Lemma image_ref R o u : image eq R (VRef o) u -> R o u.
Proof. intros (v0 & <- & M). exact M. Qed.
Lemma image_list R l l' o : Forall2 (image eq R) l l' -> In (VRef o) l -> exists u, R o u.
Proof. induction 1; intros []; [subst; eexists; eapply image_ref; eauto|auto]. Qed.
Lemma image_pairs R l l' o : Forall2 (pair_image eq R) l l' -> In (VRef o) (flat l) -> exists u, R o u.
Proof.
  induction 1 as [|[k v] [k' v'] l l' [A B] F IH]; [intros []|]. cbn [flat flat_map fst snd app] in *. intros [->|[->|Q]]; auto; eexists; eapply image_ref; eauto.
Qed.
Lemma image_props R l l' o : Forall simple_key (map fst l) -> Forall2 (prop_image eq R) l l' -> In (VRef o) (flat l) -> exists u, R o u.
Proof.
  intros S F. revert S. induction F as [|[k v] [k' v'] l l' [A B] F IH]; [intros _ []|]. cbn [flat flat_map fst snd app map] in *. intros S [->|[->|Q]].
  - inversion S; contradiction.
  - eexists; eapply image_ref; eauto.
  - inversion S; subst. auto.
Qed.
Lemma own_keys (x : jsobj val) : Forall simple_key (map fst (own_items x)).
Proof. apply Forall_map, own_simple. Qed.
Lemma own_image R (x : jsobj val) l e o : Forall2 (image eq R) (elements x) e -> Forall2 (prop_image eq R) (named_items x) l ->
  In (VRef o) (elements x ++ flat (own_items x)) -> exists u, R o u.
Proof.
  intros E P Q. apply in_app_iff in Q as [Q|Q]; [eapply image_list; eauto|].
  unfold own_items in Q. rewrite RoundTrip.flat_app in Q. apply in_app_iff in Q as [Q|Q].
  - apply in_flat_map in Q as ([k v] & I & [Q|[Q|[]]]); cbn [fst snd] in Q.
    + apply in_map_iff in I as (p & X & _). congruence.
    + subst v. apply in_map_iff in I as ([i v] & X & I). injection X as <- ->. cbn [snd] in I.
      apply entries_from_in in I as [_ I]. apply nth_error_In in I. eapply image_list; eauto.
      unfold elements. apply in_map_iff. exists (Some (VRef o)). auto.
  - eapply image_props; eauto. apply Forall_map, named_simple.
Qed.
Lemma carries_covers H h cfg dcfg root v' R : carries H h cfg dcfg false eq root v' R -> covers H root R.
Proof.
  intros [M C] o O. remember (VRef o) as v eqn:E. revert o E. induction O as [|p x v O IH Hx Ic]; intros o ->.
  - exists v'. apply image_ref. exact M.
  - destruct (IH p eq_refl) as [u Ru]. destruct (C _ _ Ru) as (y & Hy & OI). assert (y = x) by congruence. subst y. clear Hy.
    unfold object_image in OI. destruct x; cbn [children] in Ic; try contradiction;
      destruct OI as (j & y & -> & E & CI); cbn [cell_image] in CI; destruct y; try contradiction.
    + eapply image_pairs; eauto.
    + eapply image_list; eauto.
    + destruct CI as (CI & _). eapply image_props; eauto. apply own_keys.
    + destruct CI as (A & B & _). eapply own_image; eauto.
    + destruct CI as (_ & _ & _ & A). destruct cause; try contradiction; destruct Ic as [Ic|[]]; try discriminate.
      injection Ic as ->. eexists. eapply image_ref; eauto.
    + destruct CI as (A & _). destruct Ic as [Ic|[]]. injection Ic as <-. eexists. eapply image_ref; eauto.
    + eapply image_pairs; eauto.
    + eapply image_list; eauto.
    + destruct CI as [A _]. eapply image_list; eauto.
Qed.

(** dumps and loads succeed, and some one-to-one relation between the objects of the graph, all of them, and
    decoded values carries the graph over (SpecGraph: equal primitive values, equal property names, elements,
    holes and entries in order, related objects for related objects). Missing from "every value graph":
    - graphs whose reference ids the reader and the writer count differently ([aligned], see C23),
    - graphs with different but equal hashable values ([no_equals], see C25),
    - what [able] excludes, see C22. *)
Theorem C21_round_trip_partial : forall H cfg dcfg root, wf_graph H cfg root -> default_constants dcfg ->
  writable H cfg root -> able H cfg dcfg false eq root -> aligned H root -> no_equals H root ->
  exists bs v' h R, dumps H cfg root = Ok bs /\ loads dcfg bs = Ok (v', h) /\
    carries H h cfg dcfg false eq root v' R /\ one_to_one R /\ covers H root R.
Proof.
  intros H cfg dcfg root WF DC [F Nc] AB AL NE. destruct (C28_supported_succeeds H cfg root WF F Nc) as (bs & w & r & E & _).
  destruct (round_trip_eq H cfg dcfg true false root WF DC ltac:(discriminate) _ bs AB (fun _ => AL) (fun _ => NE) E) as (v' & h & R & L & C & _ & O & _).
  exists bs, v', h, (rel R). split; auto. split; auto. split; auto. split; auto. eapply carries_covers; eauto.
Qed.
Print Assumptions C21_round_trip_partial.

(** The example graph of Prop_Encode: a dict that contains itself through a list, a view, and an error whose
    cause is that list. *)
Lemma occurs_in H root v : occurs H root v -> In v (root :: flat_map children H).
Proof. destruct 1 as [|o x v O Hx I]; [left; auto|]. right. apply in_flat_map. exists x. split; auto. eapply nth_error_In; eauto. Qed.
(** A check that none of a heap's values fails. *)
Definition clean_str (s : list N) : bool := forallb (fun c => (c <? 0xD800) || (0xDFFF <? c)) s.
Definition clean_int (z : Z) : bool := (Z.abs z <? 2 ^ 64)%Z.
Definition clean_val (v : val) : bool := match v with VStr s => clean_str s | VInt z => clean_int z | _ => true end.
Definition clean_obj (x : obj) : bool :=
  match x with
  | OPrim _ v => clean_val v
  | ORegExp s _ => clean_str s
  | OError _ m s _ => match m with Some m => clean_str m | None => true end && match s with Some s => clean_str s | None => true end
  | OBuffer b => (lenN (jb_data b) <? 2 ^ 32) && (jb_max b <? 2 ^ 32)%Z
  | OBytes d | OByteArray d => lenN d <? 2 ^ 32
  | OView _ w => match vw_tag w with vFloat16 => false | _ => true end
  | ODate _ | OOpaque => false
  | _ => true
  end.
Lemma clean_str_ok s : clean_str s = true -> ~ surrogates s.
Proof.
  unfold clean_str, surrogates. rewrite forallb_forall, Exists_exists. intros F (c & I & S). specialize (F c I). lia.
Qed.
Lemma clean_int_ok z : clean_int z = true -> ~ big z.
Proof.
  unfold clean_int, big. intros C B. assert (L : 2 ^ 64 < 2 ^ (8 * (2 ^ 30 - 1) - 1)) by (apply N.pow_lt_mono_r; reflexivity).
  pose proof (N.lt_le_trans _ _ _ L B) as G. clear L B. revert G C. change (2 ^ 64)%Z with (Z.of_N (2 ^ 64)). generalize (2 ^ 64). intros n G C. apply Z.ltb_lt in C. lia.
Qed.
Lemma clean_heap H cfg root : forallb clean_val (root :: flat_map children H) = true -> forallb clean_obj H = true ->
  forall u e, occurs H root u -> ~ fails H cfg u e.
Proof.
  rewrite !forallb_forall. intros V O u e Oc F. apply occurs_in, V in Oc.
  destruct F; try match goal with X : nth_error H _ = Some _ |- _ => apply nth_error_In, O in X; cbn [clean_obj clean_val] in X; try discriminate X end;
    try (eapply clean_str_ok; eauto; fail); try (eapply clean_int_ok; eauto; fail); try lia.
  - apply andb_true_iff in H0 as [A _]. eapply clean_str_ok; eauto.
  - apply andb_true_iff in H0 as [_ A]. eapply clean_str_ok; eauto.
  - unfold long in *. lia.
  - unfold long in *. lia.
  - unfold long in *. lia.
  - rewrite H1 in H0. discriminate.
Qed.
Lemma ex_writable : writable ex_heap (ex_ecfg ex_all) (VRef 0).
Proof. split; [|left; reflexivity]. apply clean_heap; reflexivity. Qed.
Lemma ex_able : able ex_heap (ex_ecfg ex_all) ex_cfg false eq (VRef 0).
Proof.
  intros o x _ Hx. destruct o as [|[|[|[|[|o]]]]]; [injection Hx as <-..|destruct o; discriminate]; try exact I; try reflexivity.
  - cbn [able_obj map fst]. split.
    + intros i j a b a0 b0 Ha Hb NE <- <-. destruct i as [|[|[|i]]], j as [|[|[|j]]]; try lia; cbn in Ha, Hb;
        try (destruct i; discriminate); try (destruct j; discriminate); injection Ha as <-; injection Hb as <-; vm_compute; try discriminate; auto.
    + intros a a0 Ia <- (z & E & B). destruct Ia as [<-|[<-|[<-|[]]]]; cbn in E; try discriminate. injection E as <-.
      assert (L : (5 < 2 ^ 1024 - 2 ^ 970)%Z) by reflexivity. cbn [Z.abs] in B. lia.
  - split; [exists [1;2;3;4]; split; [reflexivity|discriminate]|reflexivity].
Qed.
Lemma ex_no_equals : no_equals ex_heap (VRef 0).
Proof.
  intros a b Oa Ob. apply occurs_in in Oa. apply occurs_in in Ob. revert a b Oa Ob.
  assert (E : forall l, (forall a b, In a l -> In b l -> hash_key ex_heap a <> None -> hash_key ex_heap a = hash_key ex_heap b -> a = b) ->
    forall a b, In a l -> In b l -> hash_key ex_heap a <> None -> hash_key ex_heap a = hash_key ex_heap b -> a = b) by auto.
  apply E. intros a b Ia Ib. cbn [ex_heap flat_map children app flat fst snd In] in Ia, Ib.
  repeat (destruct Ia as [<-|Ia]; [repeat (destruct Ib as [<-|Ib]; [vm_compute; intros N X; try reflexivity; try discriminate X; try (elim N; reflexivity)|]); contradiction|]).
  contradiction.
Qed.
Example C21_case : wf_graph ex_heap (ex_ecfg ex_all) (VRef 0) /\ default_constants ex_cfg /\ writable ex_heap (ex_ecfg ex_all) (VRef 0) /\
  able ex_heap (ex_ecfg ex_all) ex_cfg false eq (VRef 0) /\ aligned ex_heap (VRef 0) /\ no_equals ex_heap (VRef 0).
Proof.
  split; [apply ex_wf|]. split; [intros t; reflexivity|]. split; [apply ex_writable|]. split; [apply ex_able|]. split; [apply C23_case|apply ex_no_equals].
Qed.
(** The full statement is false: when the reader numbers an object that the writer does not, references shift
    and the decoded graph is another graph. *)
Theorem C21_refuted : exists H cfg root bs v' h, wf_graph H cfg root /\ writable H cfg root /\ able H cfg ex_cfg false eq root /\ no_equals H root /\
  dumps H cfg root = Ok bs /\ loads ex_cfg bs = Ok (v', h) /\ forall R, ~ carries H h cfg ex_cfg false eq root v' R.
Proof.
  exists (shift_heap (ORegExp [97] 0)), (ex_ecfg ex_all), (VRef 0). eexists. eexists. eexists. split.
  { apply shift_wf; [|reflexivity]. cbn. split; [repeat constructor; unfold code_point; lia|]. eexists. split; reflexivity. }
  split. { split; [apply clean_heap; reflexivity|]. left. reflexivity. }
  split. { intros o x _ Hx. destruct o as [|[|[|o]]]; cbn in Hx; try (injection Hx as <-; cbn; reflexivity || exact I). destruct o; discriminate. }
  split. { intros a b Oa Ob. apply occurs_in in Oa, Ob. cbn in Oa, Ob.
    repeat (destruct Oa as [<-|Oa]; [repeat (destruct Ob as [<-|Ob]; [vm_compute; intros N X; try reflexivity; try discriminate X; try (elim N; reflexivity)|]); contradiction|]). contradiction. }
  split; [vm_compute; reflexivity|]. split; [vm_compute; reflexivity|].
  intros R [M C]. apply image_ref in M. destruct (C _ _ M) as (x & Hx & OI). injection Hx as <-.
  destruct OI as (j & y & Ej & Hy & CI). injection Ej as <-. cbn in Hy. injection Hy as <-. destruct CI as [F _]. cbn in F.
  inversion F as [|? ? ? ? _ F1]; subst. inversion F1 as [|? ? ? ? _ F2]; subst. inversion F2 as [|? ? ? ? Q _]; subst.
  apply image_ref in Q. destruct (C _ _ Q) as (x & Hx & OI). injection Hx as <-. destruct OI as (j & y & Ej & Hy & CI). injection Ej as <-. cbn in Hy.
  injection Hy as <-. exact CI.
Qed.
Print Assumptions C21_refuted.

(** * C22 *)
(** [carries] along a relation that relates the two roots says that the trees obtained by following the
    references are the same. Missing from "every acyclic value": what [able] excludes, namely Map and Set keys
    that decode to equal keys or are ints too large for float(), sequences of 2^32 elements or more, dates the
    platform cannot represent, views out of range, over shared buffers, or tracking a buffer that is written
    as a fixed-length buffer whose length is no multiple of the item size. *)
Theorem C22_tree_round_trip_partial : forall H cfg dcfg root rank depth, wf_graph H cfg root -> default_constants dcfg ->
  acyclic_graph H root rank -> (rank root < depth)%nat -> (forall u e, occurs H root u -> ~ fails H cfg u e) ->
  able H cfg dcfg false eq root ->
  exists bs v' h R, dumps_depth depth (steps_of H cfg false false) root = Ok bs /\ loads dcfg bs = Ok (v', h) /\
    carries H h cfg dcfg false eq root v' R /\ covers H root R /\ (forall o o' j, R o (VRef j) -> R o' (VRef j) -> o = o').
Proof.
  intros H cfg dcfg root rank depth WF DC AC L F AB. destruct (C28_tree_succeeds H cfg false root rank depth WF AC L F) as (bs & w & r & E & _).
  destruct (round_trip_eq H cfg dcfg false false root WF DC ltac:(discriminate) _ bs AB ltac:(discriminate) ltac:(discriminate) E) as (v' & h & R & Ld & C & A & _ & _).
  exists bs, v', h, (rel R). split; auto. split; auto. split; auto. split; auto. eapply carries_covers; eauto.
Qed.
Print Assumptions C22_tree_round_trip_partial.

(** A list of a regexp, an error with a cause, a shared buffer and twice a dict with a bytes object. *)
Definition tree_heap : heap :=
  [OSeq false [VRef 1; VRef 2; VRef 3; VRef 4; VRef 4];
   ORegExp [97] 1;
   OError [84;121;112;101;69;114;114;111;114] (Some [109]) (Some [115]) (VRef 4);
   OShared 7;
   ODict [(VStr [107], VFloat (2 ^ 63)); (VInt 5, VRef 5)];
   OBytes [1; 2]].
Definition tree_rank (v : val) : nat := match v with VRef o => 10 - o | _ => 0 end.
Ltac six Hx := match type of Hx with nth_error _ ?o = _ => destruct o as [|[|[|[|[|[|o]]]]]]; cbn in Hx; try (injection Hx as <-); [..|destruct o; discriminate] end.
Lemma tree_wf f : wf_graph tree_heap (ex_ecfg f) (VRef 0).
Proof.
  assert (V : forall o, (o < 6)%nat -> wf_val tree_heap (ex_ecfg f) (VRef o)).
  { intros o L. destruct o as [|[|[|[|[|[|o]]]]]]; [..|lia]; (eexists; split; [reflexivity|]); cbn [wf_obj opt_all]; auto.
    - split; [repeat constructor; unfold code_point; lia|]. eexists. split; reflexivity.
    - split; repeat constructor; unfold code_point; lia.
    - reflexivity.
    - repeat constructor. }
  apply wf_graph_all; [apply V; lia|]. repeat constructor; try (apply V; lia); cbn; try (unfold code_point; lia).
Qed.
Example C22_case : wf_graph tree_heap (ex_ecfg ex_none) (VRef 0) /\ default_constants ex_cfg /\ acyclic_graph tree_heap (VRef 0) tree_rank /\
  (tree_rank (VRef 0) < 11)%nat /\ (forall u e, occurs tree_heap (VRef 0) u -> ~ fails tree_heap (ex_ecfg ex_none) u e) /\
  able tree_heap (ex_ecfg ex_none) ex_cfg false eq (VRef 0).
Proof.
  split; [apply tree_wf|]. split; [intros t; reflexivity|]. split; [|split; [cbn; lia|split]].
  - intros o x c _ Hx Ic. six Hx; cbn in Ic; repeat destruct Ic as [<-|Ic]; try contradiction; cbn; lia.
  - apply clean_heap; reflexivity.
  - intros o x _ Hx. six Hx; cbn; auto; try reflexivity. split.
    + intros i j a b a0 b0 Ha Hb NE <- <-. destruct i as [|[|i]], j as [|[|j]]; try lia; cbn in Ha, Hb;
        try (destruct i; discriminate); try (destruct j; discriminate); injection Ha as <-; injection Hb as <-; vm_compute; try discriminate; auto.
    + intros a a0 Ia <- (z & E & B). destruct Ia as [<-|[<-|[]]]; cbn in E; try discriminate. injection E as <-.
      assert (L : (5 < 2 ^ 1024 - 2 ^ 970)%Z) by reflexivity. cbn [Z.abs] in B. lia.
Qed.

(** The full statement is false. A string object and its string are different keys, but decode to one. *)
Definition clean_graph (H : heap) (cfg : ecfg) (root : val) : Prop :=
  wf_graph H cfg root /\ (forall u e, occurs H root u -> ~ fails H cfg u e) /\ exists rank, acyclic_graph H root rank.
Definition down (v : val) : nat := match v with VRef o => 3 - o | _ => 0 end.
Lemma two_clean H cfg : wf_val H cfg (VRef 0) -> Forall (fun x => Forall (wf_val H cfg) (children x)) H ->
  forallb clean_val (flat_map children H) = true -> forallb clean_obj H = true ->
  match H with [x; y] => forallb (fun c => match c with VRef o => Nat.eqb o 1 | _ => true end) (children x) = true /\ children y = []
             | [x] => forallb (fun c => match c with VRef o => false | _ => true end) (children x) = true | _ => False end ->
  clean_graph H cfg (VRef 0).
Proof.
  intros A B C D E. split; [apply wf_graph_all; auto|]. split; [apply clean_heap; auto|]. exists down.
  intros o x c _ Hx Ic. destruct H as [|x0 [|x1 [|]]]; try contradiction.
  - destruct o as [|o]; [injection Hx as <-|destruct o; discriminate]. rewrite forallb_forall in E. specialize (E c Ic). destruct c; try discriminate; cbn; lia.
  - destruct E as [E E1]. destruct o as [|[|o]]; [injection Hx as <-|injection Hx as <-|destruct o; discriminate].
    + rewrite forallb_forall in E. specialize (E c Ic). cbv beta in E. destruct c; cbn [down]; try lia.
    + rewrite E1 in Ic. contradiction.
Qed.
Theorem C22_wrapper_keys_refuted : exists H cfg root bs v' h, clean_graph H cfg root /\
  dumps_depth 5 (steps_of H cfg false false) root = Ok bs /\ loads ex_cfg bs = Ok (v', h) /\ forall R, ~ carries H h cfg ex_cfg false eq root v' R.
Proof.
  exists [ODict [(VRef 1, VInt 1); (VStr [97], VInt 2)]; OPrim kStringObject (VStr [97])], (ex_ecfg ex_none), (VRef 0). eexists. eexists. eexists.
  split. { apply two_clean; try reflexivity; [..|split; reflexivity].
    - eexists. split; [reflexivity|exact I].
    - repeat constructor; cbn; try (unfold code_point; lia). eexists. split; [reflexivity|]. cbn. repeat constructor; unfold code_point; lia. }
  split; [vm_compute; reflexivity|]. split; [vm_compute; reflexivity|].
  intros R [M C]. apply image_ref in M. destruct (C _ _ M) as (x & Hx & OI). injection Hx as <-.
  destruct OI as (j & y & Ej & Hy & CI). injection Ej as <-. cbn in Hy. injection Hy as <-. cbn in CI.
  inversion CI as [|? ? ? ? _ F1]; subst. inversion F1.
Qed.
Print Assumptions C22_wrapper_keys_refuted.
(** A view of a shared buffer loses its window: the writer cannot see the buffer and writes offset and length 0. *)
Theorem C22_shared_view_refuted : exists H cfg root bs h y, clean_graph H cfg root /\
  nth_error H 0 = Some (OView 1 (mkView vUint8 2 (Some 4%Z) false)) /\ root = VRef 0 /\
  dumps_depth 5 (steps_of H cfg false false) root = Ok bs /\ loads ex_cfg bs = Ok (VRef y, h) /\
  exists b, nth_error h y = Some (OView b (mkView vUint8 0 (Some 0%Z) false)).
Proof.
  exists [OView 1 (mkView vUint8 2 (Some 4%Z) false); OShared 7], (ex_ecfg ex_none), (VRef 0). eexists. eexists. eexists.
  split. { apply two_clean; try reflexivity; [..|split; reflexivity].
    - eexists. split; [reflexivity|]. cbn. split; [split; cbn; lia|]. eexists. split; [reflexivity|exact I].
    - repeat constructor; cbn; try lia. eexists. split; [reflexivity|]. cbn. lia. }
  split; [reflexivity|]. split; [reflexivity|]. split; [vm_compute; reflexivity|]. split; [vm_compute; reflexivity|]. eexists. vm_compute. reflexivity.
Qed.
Print Assumptions C22_shared_view_refuted.
(** A length-tracking view of 16-bit items over a bytearray of 3 bytes is written, but cannot be read. *)
Theorem C22_tracking_view_refuted : exists H cfg root bs e, clean_graph H cfg root /\
  dumps_depth 5 (steps_of H cfg false false) root = Ok bs /\ loads ex_cfg bs = Err e.
Proof.
  exists [OView 1 (mkView vUint16 0 None false); OByteArray [1;2;3]], (ex_ecfg ex_none), (VRef 0). eexists. eexists.
  split. { apply two_clean; try reflexivity; [..|split; reflexivity].
    - eexists. split; [reflexivity|]. cbn. split; [split; cbn; [lia|auto]|]. eexists. split; [reflexivity|exact I].
    - repeat constructor; cbn; try lia. eexists. split; [reflexivity|]. cbn. repeat constructor. }
  split; [vm_compute; reflexivity|]. vm_compute. reflexivity.
Qed.
Print Assumptions C22_tracking_view_refuted.
(** An int that float() cannot represent is a legal dict key and is written, but loads raises OverflowError. *)
Theorem C22_huge_key_refuted : exists H cfg root bs, wf_graph H cfg root /\
  dumps_depth 5 (steps_of H cfg false false) root = Ok bs /\ loads ex_cfg bs = Err EOverflow.
Proof.
  exists [ODict [(VInt (2 ^ 1024), VInt 1)]], (ex_ecfg ex_none), (VRef 0). eexists.
  split. { apply wf_graph_all; [eexists; split; [reflexivity|exact I]|]. repeat constructor. }
  split; [vm_compute; reflexivity|]. vm_compute. reflexivity.
Qed.
Print Assumptions C22_huge_key_refuted.
