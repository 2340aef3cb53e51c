(** C52: errors round trip with all their parts. *)
From Coq Require Import List NArith ZArith Bool Lia String Ascii.
From Coq Require Import ZifyBool ZifyN ZifyNat.
From Verif Require Import Base ModelTags ModelPrim SpecPrim SpecNumber ModelValue ValueFacts KeyFacts ModelObject ModelMap ModelBuffer ModelHeap
  ModelDecode SpecWire SpecBuild DecodeComplete DecodeSound ModelEncode SpecEncode SpecParts SpecFail SpecGraph RoundTrip RoundTrip4 BuildCell Prop_Decode Prop_Encode Prop_RoundTrip.
Import ListNotations.
Open Scope N_scope.

(** The code points of an ASCII literal. *)
Fixpoint text (s : string) : list N := match s with EmptyString => [] | String c r => N_of_ascii c :: text r end.
(** The names JavaScript's standard errors have, as the library spells them. *)
Definition standard_names : list (list N) :=
  map text ["EvalError"; "RangeError"; "ReferenceError"; "SyntaxError"; "TypeError"; "UriError"; "Error"]%string.
Definition kept_name (n n' : list N) : Prop := (In n standard_names -> n' = n) /\ (~ In n standard_names -> n' = text "Error").
Lemma kept n : kept_name n (ename_str (for_error_name n)).
Proof.
  unfold kept_name, for_error_name. destruct (find _ all_enames) as [e|] eqn:F.
  - apply find_some in F as [I E]. apply listN_eqb_spec in E as <-. split; auto.
    intros N. exfalso. apply N. destruct e; cbn; auto 10.
  - split; [|reflexivity]. intros I. exfalso. cbn in I. repeat destruct I as [<-|I]; try discriminate; auto.
Qed.

(** Every error of the graph, wherever it is: its image is an error with the same name (or "Error"), message and
    stack, whose cause is the image of its cause. An absent message becomes the empty one. *)
Theorem C52_error_parts_partial : forall H cfg dcfg root, wf_graph H cfg root -> default_constants dcfg ->
  writable H cfg root -> able H cfg dcfg false eq root -> aligned H root -> no_equals H root ->
  exists bs v' h (R : nat -> val -> Prop), dumps H cfg root = Ok bs /\ loads dcfg bs = Ok (v', h) /\ carries H h cfg dcfg false eq root v' R /\
    forall o n m s c, occurs H root (VRef o) -> nth_error H o = Some (OError n m s c) ->
      exists j n' m' c', R o (VRef j) /\ nth_error h j = Some (OError n' m' s c') /\ kept_name n n' /\
        m' = Some (match m with Some m => m | None => [] end) /\
        match c with VRef k => R k c' | _ => leaf_image c c' end.
Proof.
  intros H cfg dcfg root WF DC W AB AL NE. destruct (C21_round_trip_partial H cfg dcfg root WF DC W AB AL NE) as (bs & v' & h & R & E & L & C & O & V).
  exists bs, v', h, R. split; auto. split; auto. split; auto. intros o n m s c Oc Hx. destruct (V _ Oc) as [u Ru]. destruct C as [_ C].
  destruct (C _ _ Ru) as (x & Hx' & OI). rewrite Hx in Hx'. injection Hx' as <-. destruct OI as (j & y & -> & Hj & CI). destruct y; try contradiction.
  destruct CI as (-> & -> & -> & v0 & <- & IC). do 4 eexists. split; [exact Ru|]. split; [exact Hj|]. split; [apply kept|]. auto.
Qed.
Print Assumptions C52_error_parts_partial.

(** The error of the library's example: without a message it comes back with an empty one. *)
Definition quiet : heap := [OError (text "TypeError") None (Some (text "at x")) (VInt 1)].
Theorem C52_message_refuted : exists bs j h n m s c n' m' s' c',
  dumps quiet (ex_ecfg ex_none) (VRef 0) = Ok bs /\ loads ex_cfg bs = Ok (VRef j, h) /\
  nth_error quiet 0 = Some (OError n m s c) /\ nth_error h j = Some (OError n' m' s' c') /\ n' = n /\ s' = s /\ c' = c /\ m' <> m.
Proof.
  do 11 eexists. split; [vm_compute; reflexivity|]. split; [vm_compute; reflexivity|]. split; [reflexivity|]. split; [reflexivity|].
  split; [reflexivity|]. split; [reflexivity|]. split; [reflexivity|]. discriminate.
Qed.
Print Assumptions C52_message_refuted.

(** The document with the stack of every error, at any depth, before its cause. Strings written as String objects
    stay where they are, as they take up a reference id. *)
Fixpoint stacks_first (w : wval) : wval :=
  match w with
  | WMap ps => WMap (stacks_first_pairs ps)
  | WSet vs => WSet (stacks_first_vals vs)
  | WObject ps => WObject (stacks_first_pairs ps)
  | WDense vs ps => WDense (stacks_first_vals vs) (stacks_first_pairs ps)
  | WSparse n ps => WSparse n (stacks_first_pairs ps)
  | WErrorC n m None c (Some (kOneByteString, s)) => WErrorC n m (Some (kOneByteString, s)) (stacks_first c) None
  | WErrorC n m None c (Some (kTwoByteString, s)) => WErrorC n m (Some (kTwoByteString, s)) (stacks_first c) None
  | WErrorC n m None c (Some (kUtf8String, s)) => WErrorC n m (Some (kUtf8String, s)) (stacks_first c) None
  | WErrorC n m k c l => WErrorC n m k (stacks_first c) l
  | _ => w
  end
with stacks_first_vals (vs : wvals) : wvals :=
  match vs with VNil => VNil | VCons w r => VCons (stacks_first w) (stacks_first_vals r) end
with stacks_first_pairs (ps : wpairs) : wpairs :=
  match ps with PNil => PNil | PCons k v r => PCons (stacks_first k) (stacks_first v) (stacks_first_pairs r) end.
Lemma bind_ext {A B} (x y : result A) (k k' : A -> result B) : x = y -> (forall a, k a = k' a) -> bind x k = bind y k'.
Proof. intros <- K. destruct x; cbn; auto. Qed.
Lemma build_stacks_first cfg :
  (forall w st, build cfg (stacks_first w) st = build cfg w st) /\
  (forall vs, (forall acc st, build_members cfg (stacks_first_vals vs) acc st = build_members cfg vs acc st) /\
              (forall i acc st, build_elems cfg (stacks_first_vals vs) i acc st = build_elems cfg vs i acc st)) /\
  (forall ps acc st, build_pairs cfg (stacks_first_pairs ps) acc st = build_pairs cfg ps acc st).
Proof.
  apply wval_mutind; try reflexivity.
  - intros ps IH st. change (stacks_first (WMap ps)) with (WMap (stacks_first_pairs ps)). rewrite !build_map. destruct (alloc_rec _ st). rewrite IH. reflexivity.
  - intros vs [IH _] st. change (stacks_first (WSet vs)) with (WSet (stacks_first_vals vs)). rewrite !build_set. destruct (alloc_rec _ st). rewrite IH. reflexivity.
  - intros ps IH st. change (stacks_first (WObject ps)) with (WObject (stacks_first_pairs ps)). rewrite !build_object. destruct (alloc_rec _ st). rewrite IH. reflexivity.
  - intros vs [_ IH] ps IH' st. change (stacks_first (WDense vs ps)) with (WDense (stacks_first_vals vs) (stacks_first_pairs ps)). rewrite !build_dense. destruct (alloc_rec _ st). rewrite IH.
    apply bind_ext; auto. intros [o s]. rewrite IH'. reflexivity.
  - intros len ps IH st. change (stacks_first (WSparse len ps)) with (WSparse len (stacks_first_pairs ps)). rewrite !build_sparse. destruct (alloc_rec _ st).
    apply bind_ext; auto. intros o. rewrite IH. reflexivity.
  - intros n m k c IH l st.
    assert (G : build cfg (WErrorC n m k (stacks_first c) l) st = build cfg (WErrorC n m k c l) st).
    { rewrite !build_errorc. destruct (build_field m st) as [m' s1]. destruct (build_field k s1) as [k' s2]. destruct (alloc_rec _ s2). rewrite IH. reflexivity. }
    destruct k as [k|]; [exact G|]. destruct l as [[enc s]|]; [|exact G].
    destruct enc; try exact G; (cbn [stacks_first]; rewrite build_late_stack; [exact G|discriminate]).
  - split; reflexivity.
  - intros w IH r [IH1 IH2]. split; intros; cbn [stacks_first_vals].
    + rewrite !build_members_cons. rewrite IH. apply bind_ext; auto. intros [v s]. apply bind_ext; auto.
    + rewrite !build_elems_cons. rewrite IH. apply bind_ext; auto. intros [v s]. apply bind_ext; auto.
  - intros k IHk v IHv r IHr acc st. cbn [stacks_first_pairs]. rewrite !build_pairs_cons. rewrite IHk. apply bind_ext; auto. intros [kv s]. rewrite IHv. apply bind_ext; auto.
    intros [vv s']. apply bind_ext; auto.
Qed.
(** Two documents that differ only in where the stacks are decode to the same value: the same objects at the same
    places. *)
Theorem C52_stack_order : forall cfg w1 w2 bs1 bs2 v st, document w1 bs1 -> document w2 bs2 -> stacks_first w1 = stacks_first w2 ->
  build cfg w1 ds_empty = Ok (v, st) -> loads cfg bs1 = Ok (v, ds_heap st) /\ loads cfg bs2 = Ok (v, ds_heap st).
Proof.
  intros cfg w1 w2 bs1 bs2 v [h l] D1 D2 E B.
  assert (B2 : build cfg w2 ds_empty = Ok (v, mkD h l)).
  { rewrite <- (proj1 (build_stacks_first cfg)). rewrite <- E. rewrite (proj1 (build_stacks_first cfg)). exact B. }
  split; [apply (C18_layout_irrelevant cfg w1 bs1 bs1 v h l); auto|apply (C18_layout_irrelevant cfg w2 bs2 bs2 v h l); auto].
Qed.
Print Assumptions C52_stack_order.
(** An error with a cyclic cause, the stack "s" before and after the cause. *)
Example C52_case :
  let e1 := WErrorC (Some eTypeError) None (Some (kOneByteString, [115])) (WRef 0 None) None in
  let e2 := WErrorC (Some eTypeError) None None (WRef 0 None) (Some (kOneByteString, [115])) in
  stacks_first e2 = e1 /\ build ex_cfg e1 ds_empty = Ok (VRef 0, mkD [OError (text "TypeError") (Some []) (Some [115]) (VRef 0)] [VRef 0]) /\
  loads ex_cfg [255; 15; 114; 84; 115; 34; 1; 115; 99; 94; 0; 46] = Ok (VRef 0, [OError (text "TypeError") (Some []) (Some [115]) (VRef 0)]) /\
  loads ex_cfg [255; 15; 114; 84; 99; 94; 0; 115; 34; 1; 115; 46] = Ok (VRef 0, [OError (text "TypeError") (Some []) (Some [115]) (VRef 0)]).
Proof. cbv zeta. repeat split; vm_compute; reflexivity. Qed.
