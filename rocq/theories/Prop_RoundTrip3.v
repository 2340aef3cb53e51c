(** C32, C45, C52: arrays, Node.js views and errors. *)
From Coq Require Import List NArith ZArith Bool Lia.
From Coq Require Import ZifyBool ZifyN ZifyNat.
From Verif Require Import Base ModelTags ModelPrim SpecPrim PrimFacts PrimFacts2 PrimFacts3 SpecNumber SpecArray ModelLog ModelArray ModelValue SpecKey SpecMap ModelObject ModelMap ModelBuffer BufferFacts ModelHeap
  ModelDecode SpecWire SpecBuild DecodeComplete DecodeSound BuildFacts ModelEncode SpecEncode SpecParts SpecFail DoubleFacts KeyFacts HashFacts EncodeFacts EncodeFacts2 EncodeFacts3 EncodeErr ArrayFacts
  ArrayFacts3 SpecGraph RoundTrip RoundTrip2 RoundTrip3 RoundTrip4 DoubleFacts2 BuildCell EncodeCong Prop_Decode Prop_Encode Prop_RoundTrip.
Import ListNotations.
Open Scope N_scope.

(** * C32 *)
(** Leaves have encodings. *)
Definition leaf (v : val) : Prop := forall o, v <> VRef o.
Lemma tag_i t : tagged t [tag_byte t].
Proof. exists 0%nat. reflexivity. Qed.
Lemma leaf_wire H cfg refs node open v r : leaf v -> wf_val H cfg v -> (forall e, ~ fails H cfg v e) ->
  exists w a, describes H cfg refs node eq open false v r w r /\ wire 15 w a.
Proof.
  intros L W F. assert (T : forall w b, writes H cfg refs node eq open false v r w r -> wbody 15 w b -> exists w a, describes H cfg refs node eq open false v r w r /\ wire 15 w a).
  { intros w b Wr B. exists w, ([tag_byte (wtag w)] ++ b). split; [econstructor; eauto|]. constructor; auto. apply tag_i. }
  destruct v.
  - eapply T; [constructor|]. apply wb_const. cbn. tauto.
  - eapply T; [constructor|]. apply wb_const. cbn. tauto.
  - eapply T; [constructor|]. apply wb_const. cbn. tauto.
  - eapply T; [constructor|]. apply wb_const. destruct b; cbn; tauto.
  - destruct (Z.le_gt_cases 0 z) as [P|P]; [destruct (Z.lt_ge_cases z (2 ^ 32)) as [Q|Q]|destruct (Z.le_gt_cases (- 2 ^ 31) z) as [Q|Q]].
    + eapply T; [constructor; apply iw_uint32; lia|]. constructor. apply varint32_i. lia.
    + destruct (Z.lt_ge_cases z (2 ^ 53)) as [Q'|Q'].
      * eapply T; [constructor; apply iw_double; [lia|lia|apply double_of_Z_spec; lia]|]. constructor. apply double_wire. apply double_of_Z_spec. lia.
      * destruct (bigint_bytes z) as [bs|e] eqn:E; [|exfalso; apply bigint_bytes_err in E as [-> B]; eapply F; constructor; eauto].
        eapply T; [constructor; apply iw_bigint; auto; lia|]. constructor. apply bigint_wire. eauto.
    + eapply T; [constructor; apply iw_int32; lia|]. constructor; [lia|]. apply varint32_i. destruct (z <? 0)%Z; lia.
    + destruct (Z.lt_ge_cases (- 2 ^ 53) z) as [Q'|Q'].
      * eapply T; [constructor; apply iw_double; [lia|lia|apply double_of_Z_spec; lia]|]. constructor. apply double_wire. apply double_of_Z_spec. lia.
      * destruct (bigint_bytes z) as [bs|e] eqn:E; [|exfalso; apply bigint_bytes_err in E as [-> B]; eapply F; constructor; eauto].
        eapply T; [constructor; apply iw_bigint; auto; lia|]. constructor. apply bigint_wire. eauto.
  - eapply T; [constructor|]. constructor. apply double_wire. exact W.
  - destruct (utf8_encode s) as [bs|e] eqn:E; [|exfalso; apply utf8_encode_err in E as [-> B]; eapply F; constructor; eauto].
    apply utf8_encode_spec in E; auto. eapply T; [constructor|]. constructor. eapply ws_utf8; eauto. apply is_varint_bytes.
  - elim (L oid). auto.
Qed.
Lemma leaves_wire H cfg refs node open r l : Forall leaf l -> Forall (wf_val H cfg) l -> (forall v e, In v l -> ~ fails H cfg v e) ->
  exists ws a, wvals_of H cfg refs node eq open l r ws r /\ wseq 15 ws a.
Proof.
  induction l as [|v l IH]; intros L W F; [exists VNil, []; split; constructor|]. inversion L; inversion W; subst.
  destruct (leaf_wire H cfg refs node open v r) as (w & a & D & E); auto. { intros e. apply F. left. auto. }
  destruct IH as (ws & b & D' & E'); auto. { intros u e I. apply F. right. auto. }
  exists (VCons w ws), (a ++ b). split; econstructor; eauto.
Qed.
Definition prop_key (k : val) : Prop := match k with VStr _ => True | VInt z => (0 <= z < 2 ^ 32)%Z | _ => False end.
Lemma props_wire H cfg refs node open r l : Forall leaf (flat l) -> Forall (wf_val H cfg) (flat l) -> (forall v e, In v (flat l) -> ~ fails H cfg v e) ->
  Forall (fun p => prop_key (fst p)) l ->
  exists ps a, wpairs_of H cfg refs node eq open true l r ps r /\ wprs 15 ps a /\ keys_ok ps.
Proof.
  induction l as [|[k v] l IH]; intros L W F K; [exists PNil, []; repeat split; constructor|]. cbn [flat flat_map fst snd app] in *.
  inversion K as [|? ? K1 K2]; subst. inversion L as [|? ? L1 L']; subst. inversion L' as [|? ? L2 L3]; subst. inversion W as [|? ? W1 W']; subst. inversion W' as [|? ? W2 W3]; subst.
  destruct (leaf_wire H cfg refs node open k r L1 W1) as (wk & a & D & E). { intros e. apply F. left. auto. }
  destruct (leaf_wire H cfg refs node open v r L2 W2) as (wv & b & D2 & E2). { intros e. apply F. right. left. auto. }
  destruct IH as (ps & c & D3 & E3 & K3); auto. { intros u e I. apply F. right. right. auto. }
  assert (KK : describes H cfg refs node eq open true k r wk r /\ is_key wk).
  { cbn [fst] in K1. destruct k; cbn [prop_key] in K1; try contradiction; inversion D as [? ? ? v0 ? ? ? Q Wr]; subst; inversion Wr; subst; try match goal with X : int_wire _ _ _ |- _ => inversion X; subst; try lia end;
      (split; [econstructor; [reflexivity|]|exact I]); constructor; auto. constructor; auto. }
  destruct KK as [Dk Ik]. exists (PCons wk wv ps), (a ++ b ++ c). split; [|split; [constructor; auto|split; auto]]. econstructor; eauto.
Qed.

(** Every array of values without identity (that can be written) has both encodings, and all documents that
    describe it, dense or sparse, decode to the same elements (JSHole for holes) and extra properties: those of
    the array, with integers beyond 32 bits as equal doubles. *)
Lemma own_prop_keys (x : jsobj val) : lenN (aabs (jo_arr x)) < 2 ^ 32 -> Forall (fun p => prop_key (fst p)) (own_items x).
Proof.
  intros L. unfold own_items. apply Forall_app. split.
  - apply Forall_map, Forall_forall. intros [i v] I. cbn [fst prop_key]. apply entries_from_in in I as [P I]. pose proof (proj1 (nth_error_Some _ _) ltac:(rewrite I; discriminate)) as I'.
    unfold lenN in L. lia.
  - apply Forall_map, Forall_forall. intros p _. exact I.
Qed.
Lemma leaf_total v : leaf v -> exists v', leaf_image v v'.
Proof.
  intros L. destruct v; try (eexists; constructor; fail).
  - destruct (Z.le_gt_cases (2 ^ 53) (Z.abs z)); [eexists; apply li_int; lia|].
    destruct (Z.lt_ge_cases z (- 2 ^ 31)); [eexists; apply li_double; [lia|lia|apply double_of_Z_spec; lia]|].
    destruct (Z.lt_ge_cases z (2 ^ 32)); [eexists; apply li_int; lia|]. eexists; apply li_double; [lia|lia|apply double_of_Z_spec; lia].
  - elim (L oid). auto.
Qed.
Lemma image_leaf R v v' : leaf v -> image eq R v v' -> leaf_image v v'.
Proof. intros L (v0 & <- & M). destruct v; auto. elim (L oid). auto. Qed.
Definition same_name (a b : val * val) : Prop := fst a = fst b /\ leaf_image (snd a) (snd b).
Lemma Forall2_fun {A B} (P : A -> B -> Prop) : (forall a b c, P a b -> P a c -> b = c) -> forall l m n, Forall2 P l m -> Forall2 P l n -> m = n.
Proof. intros F l m n X. revert n. induction X; intros n Y; inversion Y; subst; auto. f_equal; eauto. Qed.
Lemma Forall2_total {A B} (P : A -> B -> Prop) l : (forall a, In a l -> exists b, P a b) -> exists m, Forall2 P l m.
Proof.
  induction l as [|a l IH]; intros F; [exists []; constructor|]. destruct (F a ltac:(left; auto)) as [b Pb]. destruct IH as [m Fm]. { intros c I. apply F. right. auto. }
  exists (b :: m). constructor; auto.
Qed.
Theorem C32_both_encodings : forall H cfg dcfg refs o x, wf_graph H cfg (VRef o) -> default_constants dcfg ->
  nth_error H o = Some (OArray x) -> Forall leaf (children (OArray x)) -> (forall u e, occurs H (VRef o) u -> ~ fails H cfg u e) ->
  (exists vs ps r bs, describes H cfg refs false eq [] false (VRef o) [] (WDense vs ps) r /\ document (WDense vs ps) bs) /\
  (exists ps r bs, describes H cfg refs false eq [] false (VRef o) [] (WSparse (lenN (elements x)) ps) r /\ document (WSparse (lenN (elements x)) ps) bs) /\
  exists els props, Forall2 leaf_image (elements x) els /\ Forall2 same_name (named_items x) props /\
    forall w r bs, describes H cfg refs false eq [] false (VRef o) [] w r -> document w bs ->
      exists j h y, loads dcfg bs = Ok (VRef j, h) /\ nth_error h j = Some (OArray y) /\ elements y = els /\ named_items y = props.
Proof.
  intros H cfg dcfg refs o x WF DC Hx LF NF.
  assert (OC : forall v, In v (children (OArray x)) -> occurs H (VRef o) v) by (intros v I; eapply occ_child; eauto; constructor).
  assert (WC : Forall (wf_val H cfg) (children (OArray x))) by (apply Forall_forall; auto).
  assert (FC : forall v e, In v (children (OArray x)) -> ~ fails H cfg v e) by auto.
  cbn [children] in LF, WC, FC. apply Forall_app in LF as [L1 L2]. apply Forall_app in WC as [W1 W2].
  assert (L3 : Forall leaf (flat (named_items x))). { unfold own_items in L2. rewrite RoundTrip.flat_app in L2. apply Forall_app in L2. tauto. }
  assert (W3 : Forall (wf_val H cfg) (flat (named_items x))). { unfold own_items in W2. rewrite RoundTrip.flat_app in W2. apply Forall_app in W2. tauto. }
  assert (LL : lenN (aabs (jo_arr x)) < 2 ^ 32).
  { destruct (WF _ (occ_root _ _)) as (x' & Hx' & B). rewrite Hx in Hx'. injection Hx' as <-. apply B. }
  pose proof (own_prop_keys x LL) as K2.
  assert (K3 : Forall (fun p => prop_key (fst p)) (named_items x)). { unfold own_items in K2. apply Forall_app in K2. tauto. }
  assert (FR : fresh refs o []) by (intros _ []).
  assert (LE : lenN (elements x) = lenN (aabs (jo_arr x))) by (unfold lenN, elements; rewrite map_length; reflexivity).
  assert (DOC : forall w a, wbody 15 w a -> exists bs, document w bs).
  { intros w a B. exists ([tag_byte kVersion] ++ varint_bytes 15 ++ [tag_byte (wtag w)] ++ a). exists 15, [tag_byte kVersion], (varint_bytes 15), ([tag_byte (wtag w)] ++ a).
    split; [lia|]. split; [apply tag_i|]. split; [apply is_varint_bytes|]. split; auto. constructor; auto. apply tag_i. }
  split; [|split].
  - destruct (leaves_wire H cfg refs false [] ([] ++ [o]) (elements x)) as (vs & a & D & E); auto. { intros v e I. apply FC, in_app_iff. auto. }
    destruct (props_wire H cfg refs false [] ([] ++ [o]) (named_items x)) as (ps & b & D' & E' & K); auto.
    { intros v e I. apply FC, in_app_iff. right. unfold own_items. rewrite RoundTrip.flat_app. apply in_app_iff. auto. }
    destruct (DOC (WDense vs ps) (varint_bytes (vcount vs) ++ a ++ b ++ [tag_byte kEndDenseJSArray] ++ varint_bytes (pcount ps) ++ varint_bytes (vcount vs))) as [bs Dc].
    { constructor; auto using is_varint_bytes, tag_i. }
    exists vs, ps, ([] ++ [o]), bs. split; auto. econstructor; [reflexivity|]. eapply wr_dense; eauto.
  - destruct (props_wire H cfg refs false [] ([] ++ [o]) (own_items x)) as (ps & b & D' & E' & K); auto. { intros v e I. apply FC, in_app_iff. auto. }
    destruct (DOC (WSparse (lenN (elements x)) ps) (varint_bytes (lenN (elements x)) ++ b ++ [tag_byte kEndSparseJSArray] ++ varint_bytes (pcount ps) ++ varint_bytes (lenN (elements x)))) as [bs Dc].
    { constructor; auto using is_varint_bytes, tag_i. }
    exists ps, ([] ++ [o]), bs. split; auto. econstructor; [reflexivity|]. rewrite LE. eapply wr_sparse; eauto.
  - destruct (Forall2_total leaf_image (elements x)) as [els EL]. { intros a I. apply leaf_total. rewrite Forall_forall in L1. auto. }
    destruct (Forall2_total same_name (named_items x)) as [props PR].
    { intros [k v] I. rewrite Forall_forall in L3. destruct (leaf_total v) as [v' Lv]. { apply L3. apply in_flat_map. exists (k, v). cbn. auto. }
      exists (k, v'). split; auto. }
    exists els, props. split; auto. split; auto. intros w r bs D Dc.
    assert (ONLY : forall p y, occurs H (VRef o) (VRef p) -> nth_error H p = Some y -> y = OArray x).
    { intros p y O Hy. assert (p = o).
      { clear -O Hx L1 L2. remember (VRef p) as v eqn:E. revert p E. induction O as [|q z v O IH Hz I]; intros p E; [congruence|].
        specialize (IH q eq_refl). subst q v. rewrite Hx in Hz. injection Hz as <-. cbn [children] in I. exfalso.
        assert (L : leaf (VRef p)). { apply in_app_iff in I as [I|I]; [rewrite Forall_forall in L1|rewrite Forall_forall in L2]; auto. }
        apply (L p). auto. }
      congruence. }
    destruct (loads_described H cfg dcfg refs false (VRef o) WF DC ltac:(discriminate) eq) with (w := w) (r := r) (bs := bs) as (v' & h & R & L & C & _); auto.
    { intros p y O Hy. rewrite (ONLY _ _ O Hy). exact I. }
    { intros _ p y O Hy. rewrite (ONLY _ _ O Hy). exact I. }
    { congruence. } { apply eq_buf. }
    destruct C as [M C]. apply image_ref in M. destruct (C _ _ M) as (x' & Hx' & OI). rewrite Hx in Hx'. injection Hx' as <-.
    destruct OI as (j & y & -> & Hy & CI). destruct y; try contradiction. destruct CI as (F1 & F2 & _). exists j, h, o0. split; auto. split; auto. split.
    + eapply (Forall2_fun leaf_image); eauto using leaf_fun. clear -F1 L1. induction F1; inversion L1; subst; constructor; auto. eapply image_leaf; eauto.
    + eapply (Forall2_fun same_name); eauto.
      { intros [a1 a2] [b1 b2] [c1 c2] [A1 A2] [B1 B2]. cbn in *. f_equal; [congruence|eauto using leaf_fun]. }
      clear -F2 L3. revert L3. induction F2 as [|[k v] [k' v'] l l' [A B] F IH]; intros L3; constructor.
      * cbn [flat flat_map fst snd app] in *. inversion L3 as [|? ? _ L']; subst. inversion L'; subst. split; auto. eapply image_leaf; eauto.
      * apply IH. cbn [flat flat_map fst snd app] in L3. inversion L3 as [|? ? _ L']; subst. inversion L'; auto.
Qed.
Print Assumptions C32_both_encodings.

(** With elements of any kind: whichever encoding is used, the decoded array has the length, the holes and the
    property names of the array, and its elements and property values stand for those of the array. Missing:
    arrays in graphs that do not survive for other reasons (C21, C22). *)
Definition hole_at (x : jsobj val) (i : nat) : Prop := nth_error (elements x) i = Some VHole.
Lemma Forall2_nth {A B} (P : A -> B -> Prop) l m i : Forall2 P l m ->
  match nth_error l i, nth_error m i with Some a, Some b => P a b | None, None => True | _, _ => False end.
Proof. intros F. revert i. induction F as [|a b l m P1 F IH]; intros [|i]; cbn [nth_error]; auto. apply IH. Qed.
Theorem C32_any_elements_partial : forall H cfg dcfg refs node root o x w r bs, wf_graph H cfg root -> default_constants dcfg -> (node = true -> c_host dcfg = true) ->
  able H cfg dcfg node eq root -> (refs = true -> aligned H root) ->
  root = VRef o -> nth_error H o = Some (OArray x) -> describes H cfg refs node eq [] false root [] w r -> document w bs ->
  exists j h y R, loads dcfg bs = Ok (VRef j, h) /\ nth_error h j = Some (OArray y) /\
    length (elements y) = length (elements x) /\ (forall i, hole_at y i <-> hole_at x i) /\
    map fst (named_items y) = map fst (named_items x) /\
    carries H h cfg dcfg node eq root (VRef j) R.
Proof.
  intros H cfg dcfg refs node root o x w r bs WF DC DH AB AL -> Hx D Dc.
  destruct (loads_described H cfg dcfg refs node (VRef o) WF DC DH eq) with (w := w) (r := r) (bs := bs) as (v' & h & R & L & C & _ & _ & OC); auto.
  { congruence. } { apply eq_buf. }
  pose proof C as [M CC]. apply image_ref in M. destruct (CC _ _ M) as (x' & Hx' & OI). rewrite Hx in Hx'. injection Hx' as <-.
  destruct OI as (j & y & -> & Hy & CI). destruct y; try contradiction. destruct CI as (F1 & F2 & _). exists j, h, o0, (rel R).
  split; auto. split; auto. split; [symmetry; eapply Forall2_len; eauto|]. split; [|split; auto].
  - intros i. unfold hole_at. pose proof (Forall2_nth _ _ _ i F1) as N. destruct (nth_error (elements x) i) as [a|], (nth_error (elements o0) i) as [b|]; try contradiction; [|split; discriminate].
    destruct N as (a0 & <- & N). split; intros [= ->].
    + destruct a; try (inversion N; fail); auto. destruct (CC _ _ N) as (z & Hz & OI). unfold object_image in OI. destruct z; try (destruct OI as (? & ? & ? & _); discriminate).
      pose proof (WF _ (OC _ _ N)) as (z & Hz' & W). rewrite Hz in Hz'. injection Hz' as <-. inversion OI; subst; cbn in W; match goal with T : stag |- _ => destruct T; contradiction end.
    + inversion N. auto.
  - clear -F2. induction F2 as [|a b l m [A _] F IH]; cbn; auto. f_equal; auto.
Qed.
Print Assumptions C32_any_elements_partial.
(** [1, <hole>, 2^40] with a property "a". *)
Definition arr_ex : jsobj val := mkObj (ADense (dense_init [Some (VInt 1); None; Some (VInt (2 ^ 40))])) [([97], VStr [98])].
Example C32_case : wf_graph [OArray arr_ex] (ex_ecfg ex_none) (VRef 0) /\ default_constants ex_cfg /\ Forall leaf (children (OArray arr_ex)) /\
  (forall u e, occurs [OArray arr_ex] (VRef 0) u -> ~ fails [OArray arr_ex] (ex_ecfg ex_none) u e) /\
  elements arr_ex = [VInt 1; VHole; VInt (2 ^ 40)].
Proof.
  split. { apply wf_graph_all; [|repeat constructor; unfold code_point; lia]. eexists. split; [reflexivity|]. cbn [wf_obj]. unfold wf_jsobj.
    split; [apply dense_init_spec|]. split; [repeat constructor; intros []|]. split; [repeat constructor; intros fr; vm_compute; reflexivity|].
    split; [repeat constructor; discriminate|]. split; [repeat constructor; discriminate|reflexivity]. }
  split; [intros t; reflexivity|]. split; [repeat constructor; discriminate|]. split; [apply clean_heap; reflexivity|reflexivity].
Qed.

(** * C45 *)
(** A view encoded with the Node.js step decodes to a view of the same kind, starting at 0, of a new buffer that
    holds exactly the visible bytes; all of them are visible through the view. [depth] is any bound on the
    recursion that allows for every object. *)
Theorem C45_view_round_trip : forall H cfg dcfg o b v code, wf_graph H cfg (VRef o) -> default_constants dcfg -> c_host dcfg = true ->
  nth_error H o = Some (OView b v) -> node_code (vw_tag v) = Some code -> (forall u e, occurs H (VRef o) u -> ~ fails H cfg u e) ->
  forall depth, (length H + 2 <= depth)%nat ->
  exists bs j h k v', dumps_depth depth (steps_of H cfg true true) (VRef o) = Ok bs /\ loads dcfg bs = Ok (VRef j, h) /\
    nth_error h j = Some (OView k v') /\ vw_tag v' = vw_tag v /\ vw_offset v' = 0%Z /\
    let visible := snd (view_memory (backing_of H b) v) in
    nth_error h k = Some (OBuffer (mkBuf visible (zlen visible) false false)) /\ view_memory (backing_of h k) v' = (true, visible).
Proof.
  intros H cfg dcfg o b v code WF DC DH Hx NC NF depth Ld.
  assert (BL : exists y, nth_error H b = Some y /\ buffer_like y). { destruct (WF _ (occ_root _ _)) as (x' & Hx' & W). rewrite Hx in Hx'. injection Hx' as <-. apply W. }
  destruct BL as (y & Hy & By).
  assert (ONLY : forall u, occurs H (VRef o) u -> u = VRef o \/ u = VRef b).
  { intros u O. induction O as [|p x c O IH Hp I]; auto. destruct IH as [E|E]; injection E as ->.
    - rewrite Hx in Hp. injection Hp as <-. destruct I as [<-|[]]. auto.
    - rewrite Hy in Hp. injection Hp as <-. destruct y; contradiction. }
  destruct (dumps_depth depth (steps_of H cfg true true) (VRef o)) as [bs|e] eqn:E.
  2:{ exfalso. assert (RK : true = false -> forall o' x c, occurs H (VRef o) (VRef o') -> nth_error H o' = Some x -> In c (children x) -> (0 < 0)%nat) by discriminate.
    apply (dumps_err H cfg true true (VRef o) WF (fun _ => 0%nat) RK) in E; [|left; rewrite unrec_nil; lia].
    destruct E as [(u & Ou & Fu)|(_ & -> & Fc & o' & Oo & Cy)]; [eapply NF; eauto|].
    destruct Cy as (n & m & s & c & Ho & _). destruct (ONLY _ Oo) as [X|X]; injection X as ->; [congruence|]. rewrite Hy in Ho. injection Ho as ->. exact By. }
  destruct (dumps_describes H cfg true true (VRef o) WF depth bs E) as (w & r & D & Dc).
  assert (D' : describes H cfg false true eq [] false (VRef o) [] (WHost code (snd (view_memory (backing_of H b) v))) []).
  { econstructor; [reflexivity|]. eapply wr_node; eauto. discriminate. }
  assert (w = WHost code (snd (view_memory (backing_of H b) v))).
  { inversion D as [? ? ? v0 ? ? ? Q Wr]; subst. assert (V0 : v0 = VRef o).
    { destruct Q as [<-|(N & K & O0)]; auto. destruct (ONLY _ O0) as [->| ->]; auto. exfalso.
      pose proof (hash_key_buffer H b o y ltac:(congruence) (eq_sym K) Hy) as Q. destruct y; try contradiction; try congruence. destruct Q as (? & Q & _). congruence. }
    subst v0. inversion Wr; subst; try congruence.
    - destruct sid; discriminate.
    - match goal with X : true = false \/ _ |- _ => destruct X; congruence end. }
  subst w. destruct (loads_described H cfg dcfg false true (VRef o) WF DC (fun _ => DH) eq) with (w := WHost code (snd (view_memory (backing_of H b) v))) (r := @nil nat) (bs := bs)
    as (v' & h & R & L & C & _); auto.
  { intros p x O Hp. destruct (ONLY _ O) as [X|X]; injection X as ->.
    - rewrite Hx in Hp. injection Hp as <-. cbn. rewrite NC. exact I.
    - rewrite Hy in Hp. injection Hp as <-. destruct y; try contradiction; exact I. }
  { discriminate. } { congruence. } { apply eq_buf. }
  destruct C as [M C]. apply image_ref in M. destruct (C _ _ M) as (x & Hx' & OI). rewrite Hx in Hx'. injection Hx' as <-.
  destruct OI as (j & z & -> & Hj & CI). destruct z; try contradiction. cbn [cell_image] in CI. rewrite NC in CI. destruct CI as (T & Of & (bf & Hb & ->) & VM).
  match type of Hj with _ = Some (OView ?k ?v') => exists bs, j, h, k, v' end. repeat split; auto.
Qed.
Print Assumptions C45_view_round_trip.

(** Float16Array is the only kind Node does not know. *)
Theorem C45_known_kinds : forall t, node_code t = None <-> t = vFloat16.
Proof. intros t. destruct t; split; (discriminate || reflexivity). Qed.
Print Assumptions C45_known_kinds.
(** When no view of the graph is of a known kind, the Node.js step changes nothing: same bytes, same error. *)
Theorem C45_unknown_kind_same_output : forall H cfg refs depth root,
  (forall o b v, nth_error H o = Some (OView b v) -> vw_tag v = vFloat16) ->
  dumps_depth depth (steps_of H cfg refs true) root = dumps_depth depth (steps_of H cfg refs false) root.
Proof.
  intros H cfg refs depth root K. assert (E : weq (encode depth (steps_of H cfg refs true) root) (encode depth (steps_of H cfg refs false) root)).
  { apply encode_node. intros o b w Hx. apply C45_known_kinds. eapply K; eauto. }
  unfold dumps_depth. rewrite E. reflexivity.
Qed.
Print Assumptions C45_unknown_kind_same_output.
(** The whole graph around the views is carried over too: [carries] asks of each view of a known kind that it is
    an own copy of the visible bytes, and of each other view that it is the same window of the image of its buffer. *)
Theorem C45_graph_partial : forall H cfg dcfg refs root depth bs, wf_graph H cfg root -> default_constants dcfg -> c_host dcfg = true ->
  able H cfg dcfg true eq root -> (refs = true -> aligned H root) -> (refs = true -> no_equals H root) ->
  dumps_depth depth (steps_of H cfg refs true) root = Ok bs ->
  exists v' h R, loads dcfg bs = Ok (v', h) /\ carries H h cfg dcfg true eq root v' R.
Proof.
  intros H cfg dcfg refs root depth bs WF DC DH AB AL NE E.
  destruct (round_trip_eq H cfg dcfg refs true root WF DC (fun _ => DH) depth bs AB AL NE E) as (v' & h & R & L & C & _ & _ & _).
  exists v', h, (rel R). auto.
Qed.
Print Assumptions C45_graph_partial.
Definition node_heap : heap := [OView 1 (mkView vUint16 1 (Some 1%Z) false); OBuffer (mkBuf [1; 2; 3; 4] 4 false false)].
Example C45_case : wf_graph node_heap (ex_ecfg ex_none) (VRef 0) /\ node_code vUint16 = Some 4 /\
  (forall u e, occurs node_heap (VRef 0) u -> ~ fails node_heap (ex_ecfg ex_none) u e) /\ c_host ex_cfg = true /\
  dumps_depth 4 (steps_of node_heap (ex_ecfg ex_none) true true) (VRef 0) = Ok [255; 15; 92; 4; 2; 3; 4].
Proof.
  split. { apply wf_graph_all. - eexists. split; [reflexivity|]. cbn [wf_obj]. split; [repeat split; cbn; lia|]. eexists. split; [reflexivity|]. exact I.
    - constructor; [|repeat constructor]. constructor; [|constructor]. eexists. split; [reflexivity|]. cbn. repeat split; auto; try lia. repeat constructor; lia. }
  split; [reflexivity|]. split; [apply clean_heap; reflexivity|]. split; reflexivity.
Qed.
