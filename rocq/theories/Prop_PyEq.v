(** C73: loads(dumps(x)) == x. *)
From Coq Require Import List NArith ZArith Bool Arith Lia.
From Verif Require Import Base Dict ModelTags SpecNumber SpecArray ModelArray ArrayFacts ArrayFacts2 ArrayFacts3 ModelValue ValueFacts KeyFacts SpecKey SpecMap ModelObject ModelMap ModelBuffer BufferFacts ModelHeap
  ModelDecode ModelEncode SpecEncode SpecFail SpecGraph HashFacts EncodeFacts ModelTyped SpecTyped ModelViewEq SpecViewEq Prop_ViewEq
  ModelEq SpecEq ModelMixedEq ModelPyEq SpecPyEq PyEqFacts PyEqFacts2 Prop_Decode Prop_Encode Prop_RoundTrip Prop_RoundTrip2 RoundTrip6 Prop_RoundTrip5.
Import ListNotations.
Open Scope nat_scope.

(** dumps and loads succeed, and Python's == between what loads returned and the value that was dumped, in any thread and
    in both orders, ends and gives True. Values may contain themselves. [beside] puts the dumped and the loaded objects
    in one memory. Missing from "every value": what [comparable] excludes, on which the claim is false (see below), and what
    C25 excludes. *)
Theorem C73_equal_partial : forall narrow cast32 widen float_of py312 H cfg dcfg root t s,
  wf_graph H cfg root -> default_constants dcfg -> writable H cfg root ->
  able H cfg dcfg false (equal_value H root) root -> aligned H root ->
  comparable narrow cast32 widen float_of py312 H cfg dcfg root ->
  (forall o, ~ In (o, t) s) ->
  exists bs v' h, dumps H cfg root = Ok bs /\ loads dcfg bs = Ok (v', h) /\
    equals cast32 widen py312 (beside H h) t (moved (length H) v') root s = (Returned true, s) /\
    equals cast32 widen py312 (beside H h) t root (moved (length H) v') s = (Returned true, s).
Proof.
  intros narrow cast32 widen float_of py312 H cfg dcfg root t s WF DC WR AB AL CM FR.
  destruct (C25_equal_graph_partial H cfg dcfg root WF DC WR AB AL) as (bs & v' & h & R & D & L & CA & ONE).
  exists bs, v', h. split; auto. split; auto. eapply equals_shared; eauto.
Qed.
Print Assumptions C73_equal_partial.
(** The objects that C25 and [aligned] exclude come back equal as well if every object is held in one place ... *)
Theorem C73_unshared_equal_partial : forall narrow cast32 widen float_of py312 H cfg dcfg root t s,
  wf_graph H cfg root -> default_constants dcfg -> writable H cfg root ->
  able H cfg dcfg false eq root -> unshared H root -> no_equals H root ->
  comparable narrow cast32 widen float_of py312 H cfg dcfg root ->
  (forall o, ~ In (o, t) s) ->
  exists bs v' h, dumps H cfg root = Ok bs /\ loads dcfg bs = Ok (v', h) /\
    equals cast32 widen py312 (beside H h) t (moved (length H) v') root s = (Returned true, s) /\
    equals cast32 widen py312 (beside H h) t root (moved (length H) v') s = (Returned true, s).
Proof.
  intros narrow cast32 widen float_of py312 H cfg dcfg root t s WF DC WR AB US NE CM FR.
  destruct (C21_unshared_round_trip_partial H cfg dcfg root WF DC WR AB US NE) as (bs & v' & h & R & D & L & CA & _ & INJ).
  exists bs, v', h. split; auto. split; auto.
  apply (equals_tree narrow cast32 widen float_of py312 H h cfg dcfg root v' eq R) with (above := fun a b => exists n m, at_depth H root n a /\ at_depth H root m b /\ n < m); auto.
  - intros v v0 ->. left. auto.
  - intros a b c (n1 & m1 & A1 & B1 & L1) (n2 & m2 & A2 & B2 & L2). pose proof (depth_unique H root US _ _ _ B1 A2). exists n1, m2. repeat split; auto. lia.
  - intros a (n1 & m1 & A1 & B1 & L1). pose proof (depth_unique H root US _ _ _ A1 B1). lia.
  - intros b p O (x & Hx & I). destruct (depth_exists H root US _ O _ eq_refl) as (k & A). exists k, (S k). repeat split; auto.
    econstructor; eauto. apply parts_children. auto.
Qed.
Print Assumptions C73_unshared_equal_partial.
(** ... or if the value does not contain itself and is written without references. *)
Theorem C73_tree_equal_partial : forall narrow cast32 widen float_of py312 H cfg dcfg root rank depth t s,
  wf_graph H cfg root -> default_constants dcfg -> acyclic_graph H root rank -> rank root < depth -> (forall u e, occurs H root u -> ~ fails H cfg u e) ->
  able H cfg dcfg false eq root ->
  comparable narrow cast32 widen float_of py312 H cfg dcfg root ->
  (forall o, ~ In (o, t) s) ->
  exists bs v' h, dumps_depth depth (steps_of H cfg false false) root = Ok bs /\ loads dcfg bs = Ok (v', h) /\
    equals cast32 widen py312 (beside H h) t (moved (length H) v') root s = (Returned true, s) /\
    equals cast32 widen py312 (beside H h) t root (moved (length H) v') s = (Returned true, s).
Proof.
  intros narrow cast32 widen float_of py312 H cfg dcfg root rank depth t s WF DC AC DP FA AB CM FR.
  destruct (C22_tree_round_trip_partial H cfg dcfg root rank depth WF DC AC DP FA AB) as (bs & v' & h & R & D & L & CA & _ & INJ).
  exists bs, v', h. split; auto. split; auto.
  apply (equals_tree narrow cast32 widen float_of py312 H h cfg dcfg root v' eq R) with (above := fun a b => rank (VRef b) < rank (VRef a)); auto.
  - intros v v0 ->. left. auto.
  - intros a b c L1 L2. lia.
  - intros a L1. lia.
  - intros b p O (x & Hx & I). eapply AC; eauto.
Qed.
Print Assumptions C73_tree_equal_partial.


(** A JSObject with a hole among its elements and itself in them, a dict with a string, a float and a reference as keys, a set with a number that
    comes back as a float, a JSArray, a view of a bytes object, a JSMap with an object as key, and an error whose cause is the JSMap. *)
Definition mixed_heap : heap :=
  [OObject (mkObj (ADense (dense_init [Some (VInt 1); None; Some (VRef 0)])) [([97], VRef 1); ([98], VRef 6)])%N;
   ODict [(VStr [107], VRef 2); (VFloat (2 ^ 62), VRef 3); (VRef 8, VNone)]%N;
   OPySet [VInt 1; VInt (2 ^ 40)];
   OArray (mkObj (ADense (dense_init [Some (VBool true); None])) [([110], VUndef)])%N;
   OView 5 (mkView vUint16 0 (Some 1%Z) false);
   OBytes [1; 2; 3]%N;
   OError [84;121;112;101;69;114;114;111;114]%N (Some [109]%N) None (VRef 7);
   OMap [(SId 3, (VRef 3, VRef 4))];
   OSharedRef 5].
Ltac nine Hx := match type of Hx with nth_error _ ?o = _ => destruct o as [|[|[|[|[|[|[|[|[|o]]]]]]]]]; cbn in Hx; try (injection Hx as <-); [..|destruct o; discriminate] end.
(** Only itself is equal to a value. *)
Definition only (H : heap) (root v : val) : Prop := hash_key H v = None \/ Forall (fun w => w = v \/ hash_key H w <> hash_key H v) (root :: flat_map children H).
Lemma only_equal H root v v0 : only H root v -> equal_value H root v v0 -> v0 = v.
Proof.
  intros A [->|(N & E & O)]; auto. apply occurs_in in O. destruct A as [A|A]; [contradiction|]. rewrite Forall_forall in A. destruct (A _ O); auto. congruence.
Qed.
Lemma apart_only H root l : (forall v, In v l -> only H root v) -> keys_apart H eq l -> keys_apart H (equal_value H root) l.
Proof.
  intros A [K1 K2]. split.
  - intros i j a b a0 b0 Ha Hb NE Ea Eb. rewrite (only_equal H root a a0), (only_equal H root b b0) by (auto; apply A; eapply nth_error_In; eauto).
    exact (K1 i j a b a b Ha Hb NE eq_refl eq_refl).
  - intros a a0 I E. rewrite (only_equal H root a a0) by auto. exact (K2 a a I eq_refl).
Qed.
Ltac onlys := intros v I; cbn [map fst snd In] in I; repeat (destruct I as [<-|I]; [unfold only; (left; vm_compute; reflexivity) || right; cbn [flat_map children mixed_heap app]; repeat (apply Forall_cons; [(left; reflexivity) || (right; vm_compute; discriminate)|]); apply Forall_nil|]); contradiction.
Ltac differ := split;
  [intros i j a b a0 b0 Ha Hb NE <- <-; destruct i as [|[|[|i]]]; cbn in Ha; try (destruct i; discriminate); try discriminate; injection Ha as <-;
   destruct j as [|[|[|j]]]; cbn in Hb; try (destruct j; discriminate); try discriminate; try lia; injection Hb as <-;
   try (intros S; apply num_key_eq in S; vm_compute in S; discriminate S); vm_compute; (discriminate || (intros []))
  |intros a a0 Ia <- (z & E & B); cbn in Ia; repeat (destruct Ia as [<-|Ia]; [try discriminate E; injection E as <-; vm_compute in B; elim B; reflexivity|]); contradiction].
Lemma integers_no_nan narrow cast32 widen float_of py312 k v l : view_ok v -> integer_view v -> shows narrow cast32 widen float_of py312 k v l ->
  forall x, In x l -> ~ is_nan_item x.
Proof.
  intros V IV SH x J N. rewrite (shows_unique _ _ _ _ _ _ _ _ _ SH (block_shows _ _ _ _ _ k v V)) in J. rewrite items_bytes in J by auto. unfold integer_view in IV.
  assert (In x (chunk_items widen (elem_format (vw_tag v)) (snd (view_memory k v)))) as K by (destruct (vw_tag v); try contradiction; exact J).
  unfold chunk_items in K. apply in_map_iff in K as (j & <- & _). destruct (vw_tag v); try contradiction; cbn in N; discriminate.
Qed.
Lemma mixed_wf : wf_graph mixed_heap (ex_ecfg ex_all) (VRef 0).
Proof.
  assert (V : forall o, o < 9 -> wf_val mixed_heap (ex_ecfg ex_all) (VRef o)).
  { intros o L. destruct o as [|[|[|[|[|[|[|[|[|o]]]]]]]]]; [..|lia]; (eexists; split; [reflexivity|]); cbn [wf_obj]; auto.
    - unfold wf_jsobj. split; [apply dense_init_spec|]. split; [repeat constructor; cbn; intuition discriminate|]. split; [repeat constructor; intros fr; vm_compute; reflexivity|].
      split; [repeat constructor; discriminate|]. split; [repeat constructor; discriminate|reflexivity].
    - unfold wf_jsobj. split; [apply dense_init_spec|]. split; [repeat constructor; cbn; intuition discriminate|]. split; [repeat constructor; intros fr; vm_compute; reflexivity|].
      split; [repeat constructor; discriminate|]. split; [repeat constructor; discriminate|reflexivity].
    - split; [split; cbn; lia|eexists; split; [reflexivity|exact I]].
    - repeat constructor.
    - split; repeat constructor; unfold code_point; lia.
    - split; [repeat constructor; cbn; intuition discriminate|]. intros s x [[= <- <-]|[]]; reflexivity.
    - reflexivity. }
  apply wf_graph_all; [apply V; lia|]. repeat constructor; try (apply V; lia); cbn; try (unfold code_point; lia); try lia.
Qed.
Example C73_case : forall narrow cast32 widen float_of py312, let H := mixed_heap in let cfg := ex_ecfg ex_all in let root := VRef 0 in
  wf_graph H cfg root /\ default_constants ex_cfg /\ writable H cfg root /\
  able H cfg ex_cfg false (equal_value H root) root /\ aligned H root /\
  comparable narrow cast32 widen float_of py312 H cfg ex_cfg root /\ (forall o, ~ In (o, 0) (@nil (nat * nat))).
Proof.
  intros narrow cast32 widen float_of py312 H cfg root.
  split; [apply mixed_wf|].
  split; [intros t; reflexivity|]. split; [split; [apply clean_heap; reflexivity|left; reflexivity]|].
  split. { intros o x _ Hx. nine Hx; cbn [able_obj]; auto.
    - apply apart_only; [onlys|]. differ.
    - apply apart_only; [onlys|]. differ.
    - split; [|reflexivity]. eexists. split; [reflexivity|]. discriminate.
    - apply apart_only; [onlys|]. differ. }
  split. { intros o x _ Hx. nine Hx; try exact I. discriminate. }
  split. 2: intros o [].
  split.
  - intros b W. apply within_occurs, occurs_in in W. cbn in W.
    repeat (destruct W as [W|W]; [try discriminate W; injection W as <-; vm_compute; discriminate|]). contradiction.
  - intros o x W Hx. nine Hx; cbn [comparable_obj]; auto.
    + vm_compute. discriminate.
    + split; [|repeat constructor; vm_compute; intuition discriminate]. intros k v Ik. repeat (destruct Ik as [[= <- <-]|Ik]; [vm_compute; discriminate|]). contradiction.
    + split; [|repeat constructor; vm_compute; intuition discriminate]. intros k Ik. repeat (destruct Ik as [<-|Ik]; [vm_compute; discriminate|]). contradiction.
    + intros l SH. eapply integers_no_nan; [| |exact SH]; [split; cbn; lia|exact I].
    + inversion W as [E|o' x' c W' Hx' NV Ic]. nine Hx'; cbn in Ic; repeat (destruct Ic as [Ic|Ic]; [discriminate|]); try contradiction.
      eapply NV. reflexivity.
    + split; [reflexivity|discriminate].
Qed.

(** A JSArray of a regexp, an error without a cause, a shared buffer and a set: not [aligned]. *)
Definition plain_heap : heap :=
  [OArray (mkObj (ADense (dense_init [Some (VRef 1); Some (VRef 2); None; Some (VRef 3); Some (VRef 4)])) []);
   ORegExp [97]%N 1;
   OError [69;114;114;111;114]%N (Some [])%N (Some [115])%N VNone;
   OShared 7;
   OPySet [VStr [97]%N; VNone]].
Definition plain_rank (v : val) : nat := match v with VRef 0 => 2 | VRef _ => 1 | _ => 0 end.
Ltac part5 Hx := match type of Hx with nth_error _ ?o = _ => destruct o as [|[|[|[|[|o]]]]]; cbn in Hx; try (injection Hx as <-); [..|destruct o; discriminate] end.
Example C73_tree_case : forall narrow cast32 widen float_of py312, let H := plain_heap in let cfg := ex_ecfg ex_all in let root := VRef 0 in
  wf_graph H cfg root /\ default_constants ex_cfg /\ writable H cfg root /\ able H cfg ex_cfg false eq root /\ unshared H root /\ no_equals H root /\
  acyclic_graph H root plain_rank /\ ~ aligned H root /\ comparable narrow cast32 widen float_of py312 H cfg ex_cfg root.
Proof.
  intros narrow cast32 widen float_of py312 H cfg root. split.
  { assert (V : forall o, o < 5 -> wf_val plain_heap (ex_ecfg ex_all) (VRef o)).
    { intros o L. destruct o as [|[|[|[|[|o]]]]]; [..|lia]; (eexists; split; [reflexivity|]); cbn [wf_obj opt_all]; auto.
      - unfold wf_jsobj. split; [apply dense_init_spec|]. split; [constructor|]. split; [constructor|].
        split; [repeat constructor; discriminate|]. split; [constructor|reflexivity].
      - split; [repeat constructor; unfold code_point; lia|]. eexists. split; reflexivity.
      - split; repeat constructor; unfold code_point; lia.
      - reflexivity. }
    apply wf_graph_all; [apply V; lia|]. repeat constructor; try (apply V; lia); cbn; try (unfold code_point; lia). }
  split; [intros t; reflexivity|]. split; [split; [apply clean_heap; reflexivity|left; reflexivity]|].
  split. { intros o x _ Hx. part5 Hx; cbn [able_obj]; auto. differ. }
  split.
  { split; [|split].
    - intros o x p _ Hx I. part5 Hx; in_parts I; discriminate.
    - intros o x o' x' p _ Hx _ Hx' I I'. part5 Hx; in_parts I; part5 Hx'; in_parts I'; reflexivity.
    - intros o x _ Hx. part5 Hx; cbn; repeat constructor; cbn; intuition discriminate. }
  split.
  { intros a b Oa Ob. apply occurs_in in Oa, Ob. cbn in Oa, Ob.
    repeat (destruct Oa as [<-|Oa]; [repeat (destruct Ob as [<-|Ob]; [vm_compute; intros N X; try reflexivity; try discriminate X; try (elim N; reflexivity)|]); contradiction|]). contradiction. }
  split. { intros o x c _ Hx I. part5 Hx; cbn in I; repeat (destruct I as [<-|I]; [cbn; lia|]); contradiction. }
  split. { intros A. apply (A 1 (ORegExp [97]%N 1)); [|reflexivity]. econstructor; [apply occ_root|reflexivity|]. left. reflexivity. }
  split.
  - intros b W. apply within_occurs, occurs_in in W. cbn in W. repeat (destruct W as [W|W]; [discriminate W|]). contradiction.
  - intros o x W Hx. part5 Hx; cbn [comparable_obj]; auto; try reflexivity.
    + split; [reflexivity|discriminate].
    + split; [|repeat constructor; vm_compute; intuition discriminate]. intros k Ik. repeat (destruct Ik as [<-|Ik]; [vm_compute; discriminate|]). contradiction.
Qed.

(** * The full statement is false
    [comes_back_different]: a value that C25 carries over compares unequal, in both orders. *)
Definition comes_back_different (H : heap) (cfg : ecfg) (root : val) : Prop :=
  wf_graph H cfg root /\ writable H cfg root /\ able H cfg ex_cfg false (equal_value H root) root /\ aligned H root /\
  exists bs v' h, dumps H cfg root = Ok bs /\ loads ex_cfg bs = Ok (v', h) /\
    forall cast32 widen py312,
      equals cast32 widen py312 (beside H h) 0 (moved (length H) v') root [] = (Returned false, []) /\
      equals cast32 widen py312 (beside H h) 0 root (moved (length H) v') [] = (Returned false, []).
Ltac finish := eexists; eexists; eexists; split; [vm_compute; reflexivity|]; split; [vm_compute; reflexivity|]; intros cast32 widen py312; split; vm_compute; reflexivity.
Ltac one Hx := match type of Hx with nth_error _ ?o = _ => destruct o as [|o]; cbn in Hx; [injection Hx as <-|destruct o; discriminate] end.
(** A list: what comes back is a JSArray, which is only equal to JSArrays. The empty list already. *)
Theorem C73_list_refuted : comes_back_different [OSeq false []] (ex_ecfg ex_all) (VRef 0).
Proof.
  split. { apply wf_graph_all; [eexists; split; [reflexivity|exact I]|]. repeat constructor. }
  split; [split; [apply clean_heap; reflexivity|left; reflexivity]|]. split. { intros o x _ Hx. one Hx. reflexivity. } split. { intros o x _ Hx. one Hx. exact I. }
  finish.
Qed.
Print Assumptions C73_list_refuted.
(** bytes: a JSArrayBuffer *)
Theorem C73_bytes_refuted : comes_back_different [OBytes [1]%N] (ex_ecfg ex_all) (VRef 0).
Proof.
  split. { apply wf_graph_all; [eexists; split; [reflexivity|repeat constructor]|]. repeat constructor. }
  split; [split; [apply clean_heap; reflexivity|left; reflexivity]|]. split. { intros o x _ Hx. one Hx. exact I. } split. { intros o x _ Hx. one Hx. exact I. }
  finish.
Qed.
Print Assumptions C73_bytes_refuted.
(** A wrapper object: the plain value *)
Theorem C73_wrapper_refuted : comes_back_different [OPrim kStringObject (VStr [97])%N] (ex_ecfg ex_all) (VRef 0).
Proof.
  split. { apply wf_graph_all; [eexists; split; [reflexivity|repeat constructor; unfold code_point; lia]|]. repeat constructor; unfold code_point; lia. }
  split; [split; [apply clean_heap; reflexivity|left; reflexivity]|]. split. { intros o x _ Hx. one Hx. exact I. } split. { intros o x _ Hx. one Hx. exact I. }
  finish.
Qed.
Print Assumptions C73_wrapper_refuted.
(** A NaN: not equal to itself in Python either *)
Theorem C73_nan_refuted : comes_back_different [] (ex_ecfg ex_all) (VFloat 0x7FF8000000000000).
Proof.
  split. { apply wf_graph_all; [reflexivity|constructor]. }
  split; [split; [apply clean_heap; reflexivity|left; reflexivity]|]. split. { intros o x _ Hx. destruct o; discriminate. } split. { intros o x _ Hx. destruct o; discriminate. }
  finish.
Qed.
Print Assumptions C73_nan_refuted.
(** {(): None}: the key comes back as a JSArray, which cannot be looked up in the dict. *)
Theorem C73_tuple_key_refuted : comes_back_different [ODict [(VRef 1, VNone)]; OSeq true []] (ex_ecfg ex_all) (VRef 0).
Proof.
  split. { apply wf_graph_all; [eexists; split; [reflexivity|exact I]|]. repeat constructor. eexists; split; [reflexivity|exact I]. }
  split; [split; [apply clean_heap; reflexivity|left; reflexivity]|].
  split. { intros o x _ Hx. destruct o as [|[|o]]; cbn in Hx; try (injection Hx as <-); [| |destruct o; discriminate]; cbn [able_obj]; [|reflexivity].
    split.
    - intros i j a b a0 b0 Ha Hb NE. destruct i as [|[|i]], j as [|[|j]]; try discriminate; lia.
    - intros a a0 [<-|[]] E (z & Q & _). destruct E as [<-|(N & E & _)]; [discriminate|].
      destruct (hash_key_eq _ _ _ N E) as [oid ->]. destruct oid as [|[|oid]]; cbn in Q; try discriminate. destruct oid; discriminate. }
  split. { intros o x _ Hx. destruct o as [|[|o]]; cbn in Hx; try (injection Hx as <-); [| |destruct o; discriminate]; exact I. }
  finish.
Qed.
Print Assumptions C73_tuple_key_refuted.
(** A JSObject that ends in a hole: the hole is not written. *)
Theorem C73_trailing_hole_refuted : comes_back_different [OObject (mkObj (ADense (dense_init [Some VNone; None])) [])] (ex_ecfg ex_all) (VRef 0).
Proof.
  split. { apply wf_graph_all; [eexists; split; [reflexivity|]|repeat constructor]. cbn [wf_obj]. unfold wf_jsobj. split; [apply dense_init_spec|]. split; [constructor|]. split; [constructor|].
        split; [repeat constructor; discriminate|]. split; [constructor|reflexivity]. }
  split; [split; [apply clean_heap; reflexivity|left; reflexivity]|]. split. { intros o x _ Hx. one Hx. exact I. } split. { intros o x _ Hx. one Hx. exact I. }
  finish.
Qed.
Print Assumptions C73_trailing_hole_refuted.
(** An error without a message, whose cause is the string "a": the message comes back as the empty string. *)
Theorem C73_no_message_refuted : comes_back_different [OError [69;114;114;111;114]%N None None (VStr [97]%N)] (ex_ecfg ex_all) (VRef 0).
Proof.
  split. { apply wf_graph_all; [eexists; split; [reflexivity|split; exact I]|]. repeat constructor; unfold code_point; lia. }
  split; [split; [apply clean_heap; reflexivity|left; reflexivity]|]. split. { intros o x _ Hx. one Hx. exact I. } split. { intros o x _ Hx. one Hx. discriminate. }
  finish.
Qed.
Print Assumptions C73_no_message_refuted.
(** An error with a name of its own: it comes back as Error. *)
Theorem C73_name_refuted : comes_back_different [OError [77]%N (Some [])%N None (VStr [97]%N)] (ex_ecfg ex_all) (VRef 0).
Proof.
  split. { apply wf_graph_all; [eexists; split; [reflexivity|split; [constructor|exact I]]|]. repeat constructor; unfold code_point; lia. }
  split; [split; [apply clean_heap; reflexivity|left; reflexivity]|]. split. { intros o x _ Hx. one Hx. exact I. } split. { intros o x _ Hx. one Hx. discriminate. }
  finish.
Qed.
Print Assumptions C73_name_refuted.
(** A resizable buffer written for a V8 without them: a fixed-length one *)
Theorem C73_resizable_refuted : comes_back_different [OBuffer (mkBuf [1]%N 2 true false)] (ex_ecfg (mkFeatures true false true true)) (VRef 0).
Proof.
  split. { apply wf_graph_all; [eexists; split; [reflexivity|]|repeat constructor]. split; [repeat constructor; lia|]. split; [cbn; lia|discriminate]. }
  split; [split; [apply clean_heap; reflexivity|left; reflexivity]|]. split. { intros o x _ Hx. one Hx. exact I. } split. { intros o x _ Hx. one Hx. exact I. }
  finish.
Qed.
Print Assumptions C73_resizable_refuted.
