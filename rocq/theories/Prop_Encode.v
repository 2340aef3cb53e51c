(** C19, C20, C23, C24, C26-C30: encoding.
    [steps_of H cfg refs node] are the library's encode steps: with or without object references,
    with or without Node's views; [dumps] uses the default ones, with references. *)
From Coq Require Import List NArith ZArith Bool Lia.
From Coq Require Import ZifyBool ZifyN ZifyNat.
From Verif Require Import Base ModelTags ModelPrim SpecPrim PrimFacts PrimFacts2 SpecNumber ModelLog ModelArray ModelValue ModelObject ModelMap ModelBuffer ModelHeap
  ModelDecode SpecWire SpecBuild DecodeComplete BuildFacts ModelEncode SpecEncode SpecParts SpecFail KeyFacts EncodeFacts EncodeFacts2 EncodeFacts3 EncodeErr HashFacts2
  EncodeCover EncodeKeys BufferFacts Prop_Decode.
Import ListNotations.
Open Scope N_scope.

(** * A graph for the examples *)
Lemma wf_graph_all H cfg root : wf_val H cfg root -> Forall (fun x => Forall (wf_val H cfg) (children x)) H -> wf_graph H cfg root.
Proof.
  intros R A v O. induction O as [|o x c O IH Hx Ic]; auto.
  rewrite Forall_forall in A. apply nth_error_In in Hx. specialize (A x Hx). rewrite Forall_forall in A. auto.
Qed.
Definition ex_none : features := mkFeatures false false false false.
Definition ex_all : features := mkFeatures true true true true.
Definition ex_ecfg (f : features) : ecfg := mkEcfg f (fun d => inl d).
(** {"a": [7, <the dict>], 5: <view of 2 of 4 bytes>, "b": error with the list as its cause} *)
Definition ex_heap : heap :=
  [ODict [(VStr [97], VRef 1); (VInt 5, VRef 2); (VStr [98], VRef 4)];
   OSeq false [VInt 7; VRef 0];
   OView 3 (mkView vUint8 1 (Some 2%Z) false);
   OBuffer (mkBuf [1; 2; 3; 4] 4 false false);
   OError [69;114;114;111;114] (Some [109]) None (VRef 1)].
Lemma ex_wf f : wf_graph ex_heap (ex_ecfg f) (VRef 0).
Proof.
  assert (V : forall o, (o < 5)%nat -> wf_val ex_heap (ex_ecfg f) (VRef o)).
  { intros o L. destruct o as [|[|[|[|[|o]]]]]; [..|lia]; (eexists; split; [reflexivity|]; cbn); auto.
    - split; [split; cbn; lia|eexists; split; [reflexivity|exact I]].
    - repeat split; try lia. repeat constructor; lia.
    - split; repeat constructor; unfold code_point; lia. }
  apply wf_graph_all; [apply V; lia|]. repeat constructor; try (apply V; lia); cbn; try lia.
Qed.
Example ex_dumps : dumps ex_heap (ex_ecfg ex_none) (VRef 0) =
  Ok [255;15; 59; 83;1;97; 65;2;85;7;94;0;36;0;2; 85;5; 66;4;1;2;3;4; 86;66;1;2;0;
      83;1;98; 114;109;83;1;109;99;94;1;46; 58;6].
Proof. vm_compute. reflexivity. Qed.

(** * C19 *)

(** The output is the header of version 15 followed by one value of the grammar and nothing else.
    The grammar (SpecWire) has the end tags, the counts, the kinds of keys and the place of views. *)
Theorem C19_output_grammatical : forall H cfg refs node root depth bs, wf_graph H cfg root ->
  dumps_depth depth (steps_of H cfg refs node) root = Ok bs ->
  exists w body, bs = [255; 15] ++ body /\ wire 15 w body.
Proof.
  intros H cfg refs node root depth bs WF E. apply (dumps_writes H cfg refs node root WF) in E as (w & r & body & _ & -> & Wi).
  exists w, body. auto.
Qed.
Print Assumptions C19_output_grammatical.
Theorem C19_dumps_document : forall H cfg root bs, wf_graph H cfg root -> dumps H cfg root = Ok bs -> exists w, document w bs.
Proof. intros H cfg root bs WF E. apply (dumps_describes H cfg true false root WF) in E as (w & r & _ & D). exists w. auto. Qed.
Print Assumptions C19_dumps_document.
Example C19_case : wf_graph ex_heap (ex_ecfg ex_none) (VRef 0) /\ exists bs, dumps ex_heap (ex_ecfg ex_none) (VRef 0) = Ok bs.
Proof. split; [apply ex_wf|]. eexists. exact ex_dumps. Qed.

(** * C20 *)

(** The output encodes a value [w] that describes the graph; [r] lists the objects recorded, in order and
    without repetition. In a description ([writes], rule [wr_ref]) a reference to an object has the
    position of that object among those recorded before. [wids] counts the ids given out and is None if
    some reference is not smaller than the number of ids before it. *)
Theorem C20_references_backward : forall H cfg root bs, wf_graph H cfg root -> dumps H cfg root = Ok bs ->
  exists w r, describes H cfg true false (equal_value H root) [] false root [] w r /\ document w bs /\
    wids w 0 = Some (lenN r) /\ NoDup r.
Proof.
  intros H cfg root bs WF E. apply (dumps_describes H cfg true false root WF) in E as (w & r & D & Dc).
  exists w, r. split; [exact D|]. split; auto. split; [apply (proj1 (describes_wids H cfg true false root) _ _ _ _ _ _ D)|].
  apply (proj1 (describes_NoDup H cfg true false root WF eq_refl) _ _ _ _ _ _ D); constructor.
Qed.
Print Assumptions C20_references_backward.
(** A reference in a description is to an object recorded before. *)
Theorem C20_reference_identifies : forall H cfg node rep open key v r w r', describes H cfg true node rep open key v r w r' ->
  forall id, w = WRef id None -> exists o, rep v (VRef o) /\ nth_error r (N.to_nat id) = Some o /\ id < lenN r.
Proof.
  intros H cfg node rep open key v r w r' D id ->. inversion D as [? ? ? v0 ? ? ? Rp Wr]; subst. inversion Wr; subst.
  - match goal with X : nth_error ?r0 ?i = Some ?p |- _ => exists p; rewrite Nat2N.id; split; auto; split; auto; unfold lenN;
      assert (L : nth_error r0 i <> None) by congruence; apply nth_error_Some in L end. lia.
  - match goal with X : int_wire _ _ _ |- _ => inversion X end.
  - match goal with X : prim_wire _ _ _ |- _ => inversion X end.
  - match goal with X : attach _ _ _ |- _ => inversion X end.
Qed.
Print Assumptions C20_reference_identifies.

(** * C23 *)

(** If no regexp, causeless error, or shared or transferred buffer occurs, the reader gives out as many ids
    as the writer, for the whole value and for every part of it. Missing: those kinds, see below. *)
Theorem C23_ids_agree_partial : forall H cfg refs node root depth bs, wf_graph H cfg root -> aligned H root ->
  dumps_depth depth (steps_of H cfg refs node) root = Ok bs ->
  exists w n, document w bs /\ wids w 0 = Some n /\ ids w 0 = Some n.
Proof.
  intros H cfg refs node root depth bs WF A E. apply (dumps_describes H cfg refs node root WF) in E as (w & r & D & Dc).
  exists w, (lenN r). split; auto. split; [apply (proj1 (describes_wids H cfg refs node root) _ _ _ _ _ _ D)|].
  apply (proj1 (describes_ids H cfg refs node root A) _ _ _ _ _ _ D). constructor.
Qed.
Print Assumptions C23_ids_agree_partial.
(** A part at any place: with as many objects recorded before as the reader has. *)
Theorem C23_parts_agree_partial : forall H cfg refs node root open key v r w r', wf_graph H cfg root -> aligned H root -> occurs H root v ->
  describes H cfg refs node (rep_of H refs root) open key v r w r' -> ids w (lenN r) = Some (lenN r') /\ wids w (lenN r) = Some (lenN r').
Proof.
  intros H cfg refs node root open key v r w r' WF A O D. split.
  - apply (proj1 (describes_ids H cfg refs node root A) _ _ _ _ _ _ D). auto.
  - apply (proj1 (describes_wids H cfg refs node root) _ _ _ _ _ _ D).
Qed.
Print Assumptions C23_parts_agree_partial.
Example C23_case : aligned ex_heap (VRef 0) /\ wf_graph ex_heap (ex_ecfg ex_none) (VRef 0).
Proof.
  split; [|apply ex_wf]. intros o x _ Hx. do 5 (destruct o as [|o]; [injection Hx as <-; first [exact I|discriminate]|]). destruct o; discriminate.
Qed.

(** [x, [], the same list] with x a regexp, an error without a cause or a shared buffer. *)
Definition shift_heap (x : obj) : heap := [OSeq false [VRef 1; VRef 2; VRef 2]; x; OSeq false []].
Lemma shift_wf x f : wf_obj (shift_heap x) (ex_ecfg f) x -> children x = [] -> wf_graph (shift_heap x) (ex_ecfg f) (VRef 0).
Proof.
  intros W C. assert (V : forall o, (o < 3)%nat -> wf_val (shift_heap x) (ex_ecfg f) (VRef o)).
  { intros o L. destruct o as [|[|[|o]]]; [..|lia]; (eexists; split; [reflexivity|]); auto; exact I. }
  apply wf_graph_all; [apply V; lia|]. unfold shift_heap at 2. repeat constructor; try (apply V; lia). rewrite C. constructor.
Qed.
(** dumps writes the second occurrence of the empty list as a reference to id 1, which the reader has given
    to the regexp or the error: it comes back in its place. *)
Theorem C23_regexp_refuted : exists H cfg root bs h, wf_graph H cfg root /\ dumps H cfg root = Ok bs /\
  loads ex_cfg bs = Ok (VRef 0, h) /\
  exists x, nth_error h 0 = Some (OArray x) /\ elements x = [VRef 1; VRef 2; VRef 1] /\
    nth_error h 1 = Some (ORegExp [97] 0) /\ nth_error H 0 = Some (OSeq false [VRef 1; VRef 2; VRef 2]).
Proof.
  exists (shift_heap (ORegExp [97] 0)), (ex_ecfg ex_none), (VRef 0). eexists. eexists. split.
  - apply shift_wf; [|reflexivity]. cbn. split; [repeat constructor; unfold code_point; lia|]. eexists. split; reflexivity.
  - split; [vm_compute; reflexivity|]. split; [vm_compute; reflexivity|]. eexists. split; [vm_compute; reflexivity|]. split; [vm_compute; reflexivity|]. split; vm_compute; reflexivity.
Qed.
Print Assumptions C23_regexp_refuted.
Theorem C23_error_refuted : exists H cfg root bs h, wf_graph H cfg root /\ dumps H cfg root = Ok bs /\
  loads ex_cfg bs = Ok (VRef 0, h) /\
  exists x n m s, nth_error h 0 = Some (OArray x) /\ elements x = [VRef 1; VRef 2; VRef 1] /\
    nth_error h 1 = Some (OError n m s VNone) /\ nth_error H 0 = Some (OSeq false [VRef 1; VRef 2; VRef 2]).
Proof.
  exists (shift_heap (OError [69;114;114;111;114] None None VNone)), (ex_ecfg ex_none), (VRef 0). eexists. eexists. split.
  - apply shift_wf; [|reflexivity]. cbn. auto.
  - split; [vm_compute; reflexivity|]. split; [vm_compute; reflexivity|]. do 4 eexists. split; [vm_compute; reflexivity|]. split; [vm_compute; reflexivity|]. split; vm_compute; reflexivity.
Qed.
Print Assumptions C23_error_refuted.
(** With a shared buffer the id is one the reader has not given out: loads fails. *)
Theorem C23_shared_refuted : exists H cfg root bs e, wf_graph H cfg root /\ dumps H cfg root = Ok bs /\ loads ex_cfg bs = Err e.
Proof.
  exists (shift_heap (OShared 3)), (ex_ecfg ex_none), (VRef 0). eexists. eexists. split.
  - apply shift_wf; [|reflexivity]. cbn. lia.
  - split; [vm_compute; reflexivity|]. vm_compute. reflexivity.
Qed.
Print Assumptions C23_shared_refuted.

(** * C24 *)

(** There is one outcome, and every evaluation that allows two levels of encode_object more than there are
    objects reaches it. *)
Theorem C24_dumps_terminates : forall H cfg root, wf_graph H cfg root -> exists res, res <> Err EOutOfFuel /\ dumps H cfg root = res /\
  forall depth, (length H + 2 <= depth)%nat -> dumps_depth depth (default_steps H cfg) root = res.
Proof.
  intros H cfg root WF. exists (dumps H cfg root).
  assert (RK : true = false -> forall o x c, occurs H root (VRef o) -> nth_error H o = Some x -> In c (children x) -> (0 < 0)%nat) by discriminate.
  assert (En : enough H true (fun _ => 0%nat) (length H + 2) root []) by (left; rewrite unrec_nil; lia).
  split; [|split; auto].
  - intros E. apply (excuse_fuel H cfg true root), (dumps_err H cfg true false root WF (fun _ => 0%nat) RK _ _ En E).
  - intros depth L. apply (dumps_stable H cfg true false root WF (fun _ => 0%nat) RK _ _ En L).
Qed.
Print Assumptions C24_dumps_terminates.
(** Without references the recursion ends when the graph has no cycle. *)
Definition acyclic_graph (H : heap) (root : val) (rank : val -> nat) : Prop :=
  forall o x c, occurs H root (VRef o) -> nth_error H o = Some x -> In c (children x) -> (rank c < rank (VRef o))%nat.
Theorem C24_tree_terminates : forall H cfg node root rank, wf_graph H cfg root -> acyclic_graph H root rank ->
  forall depth, (rank root < depth)%nat -> dumps_depth depth (steps_of H cfg false node) root <> Err EOutOfFuel.
Proof.
  intros H cfg node root rank WF RK depth L E.
  apply (excuse_fuel H cfg false root), (dumps_err H cfg false node root WF rank (fun _ => RK) depth _); auto.
Qed.
Print Assumptions C24_tree_terminates.
Example C24_case : exists bs, dumps ex_heap (ex_ecfg ex_none) (VRef 0) = Ok bs /\ occurs ex_heap (VRef 1) (VRef 1) /\
  dumps_depth 40 (steps_of ex_heap (ex_ecfg ex_none) false false) (VRef 0) = Err EOutOfFuel.
Proof. eexists. split; [exact ex_dumps|]. split; [constructor|vm_compute; reflexivity]. Qed.

(** * C26 *)

(** Integers up to 32 bits and those outside of the safe range come back as they were, the others as a
    double with the same value. *)
Theorem C26_int_round_trip : forall H cfg dcfg z bs, dumps H cfg (VInt z) = Ok bs ->
  exists v, loads dcfg bs = Ok (v, []) /\
    ((- 2 ^ 31 <= z < 2 ^ 32)%Z \/ (2 ^ 53 <= Z.abs z)%Z -> v = VInt z) /\
    (~ (- 2 ^ 31 <= z < 2 ^ 32)%Z -> (Z.abs z < 2 ^ 53)%Z -> exists b, v = VFloat b /\ double_is b z).
Proof.
  intros H cfg dcfg z bs E. assert (WF : wf_graph H cfg (VInt z)).
  { intros v O. enough (v = VInt z) as -> by exact I. induction O as [|o x c O IH Hx Ic]; [auto|discriminate IH]. }
  apply (dumps_describes H cfg true false _ WF) in E as (w & r & D & Dc).
  inversion D as [? ? ? v0 ? ? ? Rp Wr]; subst. apply rep_prim in Rp; [subst v0|exact I]. inversion Wr; subst.
  assert (B : exists v, build dcfg w ds_empty = Ok (v, ds_empty) /\
    ((- 2 ^ 31 <= z < 2 ^ 32)%Z \/ (2 ^ 53 <= Z.abs z)%Z -> v = VInt z) /\
    (~ (- 2 ^ 31 <= z < 2 ^ 32)%Z -> (Z.abs z < 2 ^ 53)%Z -> exists b, v = VFloat b /\ double_is b z)).
  { match goal with X : int_wire _ _ _ |- _ => inversion X; subst end; try discriminate.
    - exists (VInt z). split; [cbn [build]; rewrite Z2N.id by lia; reflexivity|]. split; auto. intros; lia.
    - exists (VInt z). split; [reflexivity|]. split; auto. intros; lia.
    - exists (VFloat b). split; [reflexivity|]. split; [intros; lia|]. eauto.
    - exists (VInt z). split; [reflexivity|]. split; auto. intros; lia. }
  destruct B as (v & B & P). exists v. split; auto. unfold loads. rewrite <- (app_nil_r bs).
  rewrite (loads_complete dcfg w bs [] v ds_empty); auto.
  intros _. discriminate.
Qed.
Print Assumptions C26_int_round_trip.
(** Every int whose BigInt form has at most 2^30-1 bytes is accepted. *)
Theorem C26_int_accepted : forall H cfg z, Z.abs_N z < 2 ^ (8 * (2 ^ 30 - 1) - 1) -> exists bs, dumps H cfg (VInt z) = Ok bs.
Proof.
  intros H cfg z L. destruct (dumps H cfg (VInt z)) as [bs|e] eqn:E; [eauto|]. exfalso.
  assert (O : forall v, occurs H (VInt z) v -> v = VInt z).
  { intros v O. induction O as [|o x c O IH Hx Ic]; [auto|discriminate IH]. }
  assert (WF : wf_graph H cfg (VInt z)) by (intros v Ov; apply O in Ov as ->; exact I).
  assert (RK : true = false -> forall o x c, occurs H (VInt z) (VRef o) -> nth_error H o = Some x -> In c (children x) -> (0 < 0)%nat) by discriminate.
  apply (dumps_err H cfg true false _ WF (fun _ => 0%nat) RK) in E; [|left; rewrite unrec_nil; lia].
  destruct E as [(u & Ou & F)|(_ & _ & _ & o & Oo & _)]; [|apply O in Oo; discriminate].
  apply O in Ou as ->. inversion F; subst. unfold big in *. apply N.lt_nge in L. auto.
Qed.
Print Assumptions C26_int_accepted.
(** As the key of a property: a 32-bit integer, a double, or outside of the safe range the decimal string. *)
Theorem C26_int_key : forall H cfg refs node depth z bs st,
  encode depth (steps_of H cfg refs node) (VInt z) (set_allowed es_empty (Some KeyTags)) = Ok (bs, st) ->
  ((2 ^ 53 <= Z.abs z)%Z -> exists s, znumeral s z /\ wire 15 (WStr kOneByteString s) bs) /\
  ((0 <= z < 2 ^ 32)%Z -> wire 15 (WUint32 (Z.to_N z)) bs) /\
  ((- 2 ^ 31 <= z < 0)%Z -> wire 15 (WInt32 z) bs) /\
  (~ (- 2 ^ 31 <= z < 2 ^ 32)%Z -> (Z.abs z < 2 ^ 53)%Z -> exists b, double_is b z /\ wire 15 (WDouble b) bs).
Proof.
  intros H cfg refs node depth z bs st E. assert (WF : wf_graph H cfg (VInt z)).
  { intros v O. enough (v = VInt z) as -> by exact I. induction O as [|o x c O IH Hx Ic]; [auto|discriminate IH]. }
  destruct (proj2 (encode_ok H cfg refs node _ WF depth) (VInt z) es_empty [] [] bs st I (occ_root _ _) (st_empty _ _ _) E) as (w & D & Wi & _).
  inversion D as [? ? ? v0 ? ? ? Rp Wr]; subst. apply rep_prim in Rp; [subst v0|exact I]. inversion Wr; subst.
  match goal with X : int_wire _ _ _ |- _ => inversion X; subst end; try discriminate; repeat split; intros; try lia; eauto.
Qed.
Print Assumptions C26_int_key.
Example C26_cases :
  (exists bs, dumps [] (ex_ecfg ex_none) (VInt (- 2 ^ 31 - 1)) = Ok bs /\ loads ex_cfg bs = Ok (VFloat 13970166044105375744, [])) /\
  (exists bs, dumps [] (ex_ecfg ex_none) (VInt (2 ^ 70)) = Ok bs /\ loads ex_cfg bs = Ok (VInt (2 ^ 70), [])) /\
  encode 3 (default_steps [] (ex_ecfg ex_none)) (VInt (- 2 ^ 53)) (set_allowed es_empty (Some KeyTags)) =
    Ok ([34; 17; 45; 57; 48; 48; 55; 49; 57; 57; 50; 53; 52; 55; 52; 48; 57; 57; 50], mkE log_empty (Some KeyTags) [((TInt, HNum (-1) 53), VInt (- 2 ^ 53))] None).
Proof.
  split; [|split; [|vm_compute; reflexivity]]; (eexists; split; [vm_compute; reflexivity|]; vm_compute; reflexivity).
Qed.

(** * C27 *)

(** write_js_object given any items whose keys are not constants: when it succeeds, what it wrote is an
    object of the grammar, whose keys are numbers and strings. Missing: keys that are constants, see below. *)
Theorem C27_keys_partial : forall H cfg refs node depth o items bs st,
  nth_error H o = Some (ODict items) -> wf_graph H cfg (VRef o) -> Forall (fun p => ~ constant (fst p)) items ->
  write_js_object (encode depth (steps_of H cfg refs node)) o items es_empty = Ok (bs, st) ->
  exists ps, pcount ps = lenN items /\ keys_ok ps /\ wire 15 (WObject ps) bs.
Proof.
  intros H cfg refs node depth o items bs st Ho WF N E.
  destruct (object_keys H cfg refs node (VRef o) WF depth o items bs st N) as (ps & C & Wi); auto.
  - apply Forall_forall. intros c Ic. apply (occ_child _ _ o (ODict items)); [constructor|auto|exact Ic].
  - exists ps. split; auto. split; auto. inversion Wi as [? tb b T B]; subst. inversion B; subst. auto.
Qed.
Print Assumptions C27_keys_partial.
(** A key that is an object with an encoding, other than a wrapped number or string: an encode error, in
    every state of the stream in which the cause of no error is being written. *)
Theorem C27_object_key_raises : forall H cfg refs node root depth o x st r, wf_graph H cfg root -> occurs H root (VRef o) ->
  nth_error H o = Some x -> plain_object cfg x -> st_ok H refs root st r [] ->
  encode (S (S depth)) (steps_of H cfg refs node) (VRef o) (set_allowed st (Some KeyTags)) = Err EEncode.
Proof. intros H cfg refs node root depth o x st r WF O Hx P So. apply (encode_rejects H cfg refs node root WF depth o x st r); auto. Qed.
Print Assumptions C27_object_key_raises.
Example C27_case : st_ok ex_heap true (VRef 0) es_empty [] [] /\ plain_object (ex_ecfg ex_none) (OSeq false [VInt 7; VRef 0]) /\
  encode 5 (default_steps ex_heap (ex_ecfg ex_none)) (VRef 2) (set_allowed es_empty (Some KeyTags)) = Err EEncode /\
  exists bs st, write_js_object (encode 5 (default_steps ex_heap (ex_ecfg ex_none))) 9 [(VFloat 0, VRef 0); (VStr [97], VNone)] es_empty = Ok (bs, st).
Proof.
  split; [apply st_empty|]. split; [exact I|]. split; [vm_compute; reflexivity|]. eexists. eexists. vm_compute. reflexivity.
Qed.
(** write_constant replaces the constraint on keys by its own: {true: null} is written, and no value of the
    grammar has this encoding; loads rejects it. *)
Theorem C27_constant_key_refuted : exists bs st e,
  write_js_object (encode 3 (default_steps [] (ex_ecfg ex_none))) 0 [(VBool true, VNone)] es_empty = Ok (bs, st) /\
  loads ex_cfg ([255; 15] ++ bs) = Err e /\ bs = [111; 84; 48; 123; 1].
Proof. eexists. eexists. eexists. split; [vm_compute; reflexivity|]. split; [vm_compute; reflexivity|]. vm_compute. reflexivity. Qed.
Print Assumptions C27_constant_key_refuted.

(** * C28 *)

(** Output means that every value that occurs is supported. Missing: Float16Arrays that only tuples hold, when a
    view of another type has the same contents, see below. *)
Theorem C28_output_supported_partial : forall H cfg refs node root depth bs o, wf_graph H cfg root ->
  dumps_depth depth (steps_of H cfg refs node) root = Ok bs -> occurs H root (VRef o) -> refs = false \/ ~ hidden_view H root o ->
  ~ unsupported H cfg o.
Proof.
  intros H cfg refs node root depth bs o WF E O N U. apply (dumps_writes H cfg refs node root WF) in E as (w & r & body & D & _).
  destruct (describes_supported H cfg refs node root WF _ _ _ _ _ D O U) as (R & A). destruct N as [N|N]; [congruence|]. apply N. exact A.
Qed.
Print Assumptions C28_output_supported_partial.
Definition no_cycle (H : heap) (cfg : ecfg) (root : val) : Prop :=
  f_circular (e_features cfg) = true \/ forall o, occurs H root (VRef o) -> ~ cyclic_error H o.
(** When nothing else can fail, the exception is UnhandledValue. Missing: as before. *)
Theorem C28_unsupported_raises_partial : forall H cfg root o, wf_graph H cfg root -> occurs H root (VRef o) -> unsupported H cfg o ->
  ~ hidden_view H root o ->
  (forall u e, occurs H root u -> fails H cfg u e -> e = EUnhandledValue) -> no_cycle H cfg root ->
  dumps H cfg root = Err EUnhandledValue.
Proof.
  intros H cfg root o WF O U Nh F Nc. destruct (dumps H cfg root) as [bs|e] eqn:E.
  - elim (C28_output_supported_partial H cfg true false root _ bs o WF E O (or_intror Nh) U).
  - f_equal. assert (RK : true = false -> forall o x c, occurs H root (VRef o) -> nth_error H o = Some x -> In c (children x) -> (0 < 0)%nat) by discriminate.
    apply (dumps_err H cfg true false root WF (fun _ => 0%nat) RK) in E; [|left; rewrite unrec_nil; lia].
    destruct E as [(u & Ou & Fu)|(_ & -> & Fc & o' & Oo & Cy)]; [eauto|]. destruct Nc as [Nc|Nc]; [congruence|]. elim (Nc _ Oo Cy).
Qed.
Print Assumptions C28_unsupported_raises_partial.
(** When nothing can fail, there is output; it describes the whole graph. *)
Theorem C28_supported_succeeds : forall H cfg root, wf_graph H cfg root ->
  (forall u e, occurs H root u -> ~ fails H cfg u e) -> no_cycle H cfg root ->
  exists bs w r, dumps H cfg root = Ok bs /\ document w bs /\ describes H cfg true false (equal_value H root) [] false root [] w r.
Proof.
  intros H cfg root WF F Nc. destruct (dumps H cfg root) as [bs|e] eqn:E.
  - apply (dumps_describes H cfg true false root WF) in E as (w & r & D & Dc). exists bs, w, r. auto.
  - exfalso. assert (RK : true = false -> forall o x c, occurs H root (VRef o) -> nth_error H o = Some x -> In c (children x) -> (0 < 0)%nat) by discriminate.
    apply (dumps_err H cfg true false root WF (fun _ => 0%nat) RK) in E; [|left; rewrite unrec_nil; lia].
    destruct E as [(u & Ou & Fu)|(_ & -> & Fc & o' & Oo & Cy)]; [eapply F; eauto|]. destruct Nc as [Nc|Nc]; [congruence|]. elim (Nc _ Oo Cy).
Qed.
Print Assumptions C28_supported_succeeds.
Theorem C28_tree_succeeds : forall H cfg node root rank depth, wf_graph H cfg root -> acyclic_graph H root rank -> (rank root < depth)%nat ->
  (forall u e, occurs H root u -> ~ fails H cfg u e) ->
  exists bs w r, dumps_depth depth (steps_of H cfg false node) root = Ok bs /\ document w bs /\ describes H cfg false node eq [] false root [] w r.
Proof.
  intros H cfg node root rank depth WF RK L F. destruct (dumps_depth depth (steps_of H cfg false node) root) as [bs|e] eqn:E.
  - apply (dumps_describes H cfg false node root WF) in E as (w & r & D & Dc). exists bs, w, r. auto.
  - exfalso. apply (dumps_err H cfg false node root WF rank (fun _ => RK)) in E; auto.
    destruct E as [(u & Ou & Fu)|(X & _)]; [eapply F; eauto|discriminate].
Qed.
Print Assumptions C28_tree_succeeds.
(** Every exception has one of these causes. *)
Theorem C28_failures_explained : forall H cfg root e, wf_graph H cfg root -> dumps H cfg root = Err e ->
  (exists u, occurs H root u /\ fails H cfg u e) \/
  (e = EIllegalCyclic /\ f_circular (e_features cfg) = false /\ exists o, occurs H root (VRef o) /\ cyclic_error H o).
Proof.
  intros H cfg root e WF E.
  assert (RK : true = false -> forall o x c, occurs H root (VRef o) -> nth_error H o = Some x -> In c (children x) -> (0 < 0)%nat) by discriminate.
  apply (dumps_err H cfg true false root WF (fun _ => 0%nat) RK) in E; [|left; rewrite unrec_nil; lia].
  destruct E as [A|(_ & A)]; [left|right]; auto.
Qed.
Print Assumptions C28_failures_explained.
(** [1, (opaque,)] *)
Example C28_case : let H := [OSeq false [VInt 1; VRef 1]; OSeq true [VRef 2]; OOpaque] in
  wf_graph H (ex_ecfg ex_none) (VRef 0) /\ occurs H (VRef 0) (VRef 2) /\ unsupported H (ex_ecfg ex_none) 2 /\ ~ hidden_view H (VRef 0) 2 /\
  dumps H (ex_ecfg ex_none) (VRef 0) = Err EUnhandledValue.
Proof.
  cbv zeta. split; [|split; [|split; [left; reflexivity|split; [|vm_compute; reflexivity]]]].
  - apply wf_graph_all; repeat constructor; eexists; split; try reflexivity; exact I.
  - eapply (occ_child _ _ 1); [eapply (occ_child _ _ 0); [constructor|reflexivity|right; left; reflexivity]|reflexivity|left; reflexivity].
  - intros (_ & _ & b & v & p & b' & v' & A & _). discriminate A.
Qed.
(** [(JSUint16Array(b"\0\0"),), (JSFloat16Array(b"\0\0"),)]: the tuples are equal for Python, so the second is
    written as the first, and the Float16Array in it raises nothing although it is not supported. *)
Theorem C28_hidden_view_refuted : exists H cfg root o bs, wf_graph H cfg root /\ occurs H root (VRef o) /\ unsupported H cfg o /\ dumps H cfg root = Ok bs.
Proof.
  exists [OSeq false [VRef 1; VRef 2]; OSeq true [VRef 3]; OSeq true [VRef 4]; OView 5 (mkView vUint16 0 None false); OView 5 (mkView vFloat16 0 None false);
          OBuffer (mkBuf [0; 0] 2 false true)], (ex_ecfg ex_none), (VRef 0), 4%nat.
  eexists. split; [|split; [|split; [right; eexists; eexists; split; [reflexivity|split; reflexivity]|vm_compute; reflexivity]]].
  - apply wf_graph_all; [eexists; split; [reflexivity|exact I]|].
    assert (V : forall t, view_ok (mkView t 0 None false)) by (intros t; split; [vm_compute; discriminate|exact I]).
    repeat (apply Forall_cons; [|]); cbn [children]; repeat (apply Forall_cons || apply Forall_nil); (eexists; split; [reflexivity|]); cbn [wf_obj]; auto.
    1,2: split; [apply V|]; eexists; split; [reflexivity|exact I].
    all: split; [repeat constructor|split; [vm_compute; discriminate|reflexivity]].
  - eapply (occ_child _ _ 2); [eapply (occ_child _ _ 0); [constructor|reflexivity|right; left; reflexivity]|reflexivity|left; reflexivity].
Qed.
Print Assumptions C28_hidden_view_refuted.

(** * C29 *)

(** No resizable buffer without ResizableArrayBuffers and no Float16Array without Float16Array, anywhere in
    the output. Missing: flags of views of resizable buffers, and regexps with the v flag, see below. *)
Theorem C29_features_partial : forall H cfg refs node root depth bs, wf_graph H cfg root ->
  dumps_depth depth (steps_of H cfg refs node) root = Ok bs ->
  exists w, document w bs /\ forall x, part w x ->
    (f_resizable (e_features cfg) = false -> ~ resizable_buffer x) /\
    (f_float16 (e_features cfg) = false -> ~ float16_view x).
Proof.
  intros H cfg refs node root depth bs WF E. apply (dumps_describes H cfg refs node root WF) in E as (w & r & D & Dc).
  exists w. split; auto. apply (proj1 (describes_gated H cfg refs node root) _ _ _ _ _ _ D).
Qed.
Print Assumptions C29_features_partial.
(** A view of a bytearray is written with the flag of a view of a resizable buffer, after a buffer that is
    not resizable, by an encoder without any feature. *)
Theorem C29_resizable_view_refuted : exists H root bs w, wf_graph H (ex_ecfg ex_none) root /\
  dumps H (ex_ecfg ex_none) root = Ok bs /\ document w bs /\ resizable_view w /\ ~ resizable_buffer w.
Proof.
  exists [OView 1 (mkView vUint8 0 (Some 1%Z) false); OByteArray [7]], (VRef 0). eexists.
  exists (WBuf (BufPlain [7]) (Some (mkWView vUint8 0 1 2))).
  assert (WF : wf_graph [OView 1 (mkView vUint8 0 (Some 1%Z) false); OByteArray [7]] (ex_ecfg ex_none) (VRef 0)).
  { apply wf_graph_all.
    - eexists. split; [reflexivity|]. cbn. split; [split; cbn; lia|]. eexists. split; [reflexivity|exact I].
    - repeat constructor. eexists. split; [reflexivity|]. repeat constructor; lia. }
  split; [exact WF|]. split; [vm_compute; reflexivity|]. split; [|split; [discriminate|intros []]].
  exists 15, [255], [15], [66; 1; 7; 86; 66; 0; 1; 2]. split; [lia|]. split; [exists O; reflexivity|].
  split; [apply (is_varint_bytes 15)|]. split; [|reflexivity].
  apply (w_intro 15 (WBuf (BufPlain [7]) (Some (mkWView vUint8 0 1 2))) [66] [1; 7; 86; 66; 0; 1; 2]); [exists O; reflexivity|].
  apply (wb_buf 15 (BufPlain [7]) (Some (mkWView vUint8 0 1 2)) [1; 7] [86; 66; 0; 1; 2]).
  - apply (wbb_plain [7] [1]); [|repeat constructor; lia]. split; [apply (is_varint_bytes 1)|]. split; [cbn [length]; lia|reflexivity].
  - apply (wv_some 15 vUint8 0 1 2 [66] [0] [1] [2]); try lia.
    + apply (is_varint_bytes 66).
    + split; [apply (is_varint_bytes 0)|]. split; [cbn [length]; lia|reflexivity].
    + split; [apply (is_varint_bytes 1)|]. split; [cbn [length]; lia|reflexivity].
    + intros _. apply (is_varint_bytes 2).
Qed.
Print Assumptions C29_resizable_view_refuted.
(** A regexp with the v flag is written by an encoder without any feature. *)
Theorem C29_regexp_refuted : exists H root bs w, wf_graph H (ex_ecfg ex_none) root /\
  dumps H (ex_ecfg ex_none) root = Ok bs /\ document w bs /\ unicode_sets w.
Proof.
  exists [ORegExp [97] 256], (VRef 0). eexists. exists (WRegExp kUtf8String [97] 256).
  split; [apply wf_graph_all; repeat constructor|].
  - eexists. split; [reflexivity|]. split; [repeat constructor; unfold code_point; lia|]. eexists. split; reflexivity.
  - split; [vm_compute; reflexivity|]. split; [|reflexivity].
    exists 15, [255], [15], [82; 83; 1; 97; 128; 2]. split; [lia|]. split; [exists O; reflexivity|].
    split; [apply (is_varint_bytes 15)|]. split; [|reflexivity].
    apply (w_intro 15 (WRegExp kUtf8String [97] 256) [82] [83; 1; 97; 128; 2]); [exists O; reflexivity|].
    apply (wb_regexp 15 kUtf8String [97] 256 [83] [1; 97] [128; 2]).
    + exists O. reflexivity.
    + apply utf8_wire; [left; reflexivity|repeat constructor; reflexivity|reflexivity].
    + apply (is_varint_bytes 256).
Qed.
Print Assumptions C29_regexp_refuted.

(** * C30 *)

(** The error is raised only if an error is reachable from its own cause and the feature is off. *)
Theorem C30_raised_only_for_cycles : forall H cfg root, wf_graph H cfg root -> dumps H cfg root = Err EIllegalCyclic ->
  f_circular (e_features cfg) = false /\ exists o, occurs H root (VRef o) /\ cyclic_error H o.
Proof.
  intros H cfg root WF E. apply C28_failures_explained in E as [(u & _ & F)|(_ & A)]; auto. exfalso. inversion F.
  match goal with X : date_err ?e = _ |- _ => destruct e; discriminate end.
Qed.
Print Assumptions C30_raised_only_for_cycles.
(** An error that is reachable from its own cause makes dumps fail, with this error if nothing else can
    fail, when the cycle is entered through errors only: in particular when the root is the error, or when
    the cycle consists of errors. Missing: cycles that dumps may enter through a container, see below. *)
Theorem C30_cycle_raises_partial : forall H cfg root o, wf_graph H cfg root -> f_circular (e_features cfg) = false ->
  occurs H root (VRef o) -> cyclic_error H o -> entered_by_errors H root o ->
  (forall bs, dumps H cfg root <> Ok bs) /\
  ((forall u e, occurs H root u -> ~ fails H cfg u e) -> dumps H cfg root = Err EIllegalCyclic).
Proof.
  intros H cfg root o WF Fc O Cy En.
  assert (N : forall bs, dumps H cfg root <> Ok bs).
  { intros bs E. apply (dumps_writes H cfg true false root WF) in E as (w & r & body & D & _).
    eapply (cycle_undescribed H cfg true false root WF o O Cy eq_refl Fc En); eauto. }
  split; auto. intros F. destruct (dumps H cfg root) as [bs|e] eqn:E; [elim (N bs); auto|].
  apply C28_failures_explained in E as [(u & Ou & Fu)|(-> & _)]; auto. elim (F _ _ Ou Fu).
Qed.
Print Assumptions C30_cycle_raises_partial.
(** The root itself. *)
Theorem C30_root_raises : forall H cfg o, wf_graph H cfg (VRef o) -> f_circular (e_features cfg) = false -> cyclic_error H o ->
  (forall u e, occurs H (VRef o) u -> ~ fails H cfg u e) -> dumps H cfg (VRef o) = Err EIllegalCyclic.
Proof.
  intros H cfg o WF Fc Cy F. apply (C30_cycle_raises_partial H cfg (VRef o) o); auto; [constructor|].
  intros p Sp [E|(q & x & Oq & Hx & Ip & Nq)].
  - injection E as <-. destruct Cy as (n & m & s & c & Ho & _). eauto.
  - elim Nq. split; auto. apply (occurs_trans _ _ (VRef p)); [|exact (proj2 Sp)]. eapply occ_child; [constructor|exact Hx|exact Ip].
Qed.
Print Assumptions C30_root_raises.
(** With the feature it is never raised, and in the output a reference is allowed everywhere. *)
Theorem C30_enabled_never_raises : forall H cfg root, wf_graph H cfg root -> f_circular (e_features cfg) = true ->
  dumps H cfg root <> Err EIllegalCyclic.
Proof. intros H cfg root WF Fc E. apply C30_raised_only_for_cycles in E as [X _]; auto. congruence. Qed.
Print Assumptions C30_enabled_never_raises.
(** an error whose cause is a list holding it *)
Definition cause_heap : heap := [OError [69] None None (VRef 1); OSeq false [VRef 0]].
Lemma cause_wf f o : (o < 2)%nat -> wf_graph cause_heap (ex_ecfg f) (VRef o).
Proof.
  intros L. assert (V : forall o, (o < 2)%nat -> wf_val cause_heap (ex_ecfg f) (VRef o)).
  { intros p Lp. destruct p as [|[|p]]; [..|lia]; (eexists; split; [reflexivity|]); cbn; auto. }
  apply wf_graph_all; [auto|]. repeat constructor; apply V; lia.
Qed.
Lemma cause_cyclic : cyclic_error cause_heap 0.
Proof.
  exists [69], None, None, (VRef 1). split; [reflexivity|]. split; [discriminate|]. eapply (occ_child _ _ 1); [constructor|reflexivity|left; reflexivity].
Qed.
Example C30_case : wf_graph cause_heap (ex_ecfg ex_none) (VRef 0) /\ cyclic_error cause_heap 0 /\
  dumps cause_heap (ex_ecfg ex_none) (VRef 0) = Err EIllegalCyclic /\
  exists bs h, dumps cause_heap (ex_ecfg ex_all) (VRef 0) = Ok bs /\ loads ex_cfg bs = Ok (VRef 0, h) /\
    exists x, nth_error h 1 = Some (OArray x) /\ elements x = [VRef 0] /\ nth_error h 0 = Some (OError [69;114;114;111;114] (Some []) None (VRef 1)).
Proof.
  split; [apply cause_wf; lia|]. split; [exact cause_cyclic|]. split; [vm_compute; reflexivity|]. eexists. eexists.
  split; [vm_compute; reflexivity|]. split; [vm_compute; reflexivity|]. eexists. split; [vm_compute; reflexivity|]. split; vm_compute; reflexivity.
Qed.
(** Entered through the list, the same cycle is written: the list is recorded before the error, so the cause
    is a reference to it. *)
Theorem C30_container_refuted : exists H cfg root o bs, wf_graph H cfg root /\ f_circular (e_features cfg) = false /\
  occurs H root (VRef o) /\ cyclic_error H o /\ dumps H cfg root = Ok bs.
Proof.
  exists cause_heap, (ex_ecfg ex_none), (VRef 1), 0%nat. eexists. split; [apply cause_wf; lia|]. split; [reflexivity|].
  split; [eapply (occ_child _ _ 1); [constructor|reflexivity|left; reflexivity]|]. split; [exact cause_cyclic|]. vm_compute. reflexivity.
Qed.
Print Assumptions C30_container_refuted.
