(** Keys of properties given to the low-level writers: what is written is a number or a string. *)
From Coq Require Import List NArith ZArith Bool Lia ZifyBool ZifyN ZifyNat.
From Verif Require Import Base Dict ModelTags ModelPrim SpecPrim PrimFacts ModelLog ModelArray ArrayFacts3 ModelValue ModelObject ModelMap ModelBuffer ModelHeap ModelDecode SpecWire
  ModelEncode SpecEncode SpecFail KeyFacts DoubleFacts HashFacts HashFacts2 EncodeFacts EncodeFacts2 EncodeFacts3 EncodeErr.
Import ListNotations.
Open Scope N_scope.

Lemma key_tag t st x : es_allowed st = Some KeyTags -> w_tag t st = Ok x -> In t JS_OBJECT_KEY_TAGS.
Proof.
  unfold w_tag. intros ->. cbn [tags_of]. destruct (tag_in t JS_OBJECT_KEY_TAGS) eqn:E; [|discriminate]. intros _.
  destruct t; try discriminate E; cbn; auto 10.
Qed.
Lemma key_tag_seq t w st x : es_allowed st = Some KeyTags -> w_seq (w_tag t) w st = Ok x -> In t JS_OBJECT_KEY_TAGS.
Proof. intros A E. destruct x as [y s']. apply w_seq_Ok in E as (a & s1 & b & E & _). eapply key_tag; eauto. Qed.
Lemma key_record_seq o t w st x : es_allowed st = Some KeyTags -> w_seq (w_record o) (w_seq (w_tag t) w) st = Ok x -> In t JS_OBJECT_KEY_TAGS.
Proof. intros A E. destruct x as [y s']. apply w_seq_Ok in E as (a & s1 & b & E1 & E & _). apply w_record_Ok in E1 as [-> ->]. eapply key_tag_seq; [|exact E]. exact A. Qed.

Section Keys.
Variable H : heap.
Variable cfg : ecfg.
Variables refs node : bool.
Variable root : val.
Hypothesis WF : wf_graph H cfg root.
Notation feat := (e_features cfg).
Notation rep := (rep_of H refs root).
Notation occ := (occurs H root).
Notation desc := (describes H cfg refs node rep).
Notation wrt := (writes H cfg refs node rep).
Notation pairs_of := (wpairs_of H cfg refs node rep).
Notation st_ok := (st_ok H refs root).
Notation steps := (steps_of H cfg refs node).

(** a wrapper object of a string or a number *)
Definition key_wrapper (o : nat) : Prop :=
  exists t x, nth_error H o = Some (OPrim t x) /\ (t = kStringObject \/ t = kNumberObject).
Definition key_kind (k : val) : Prop :=
  match k with VInt _ | VFloat _ | VStr _ => True | VRef o => key_wrapper o | _ => False end.
Definition key_ok (enc : val -> W) : Prop :=
  forall k st r open bs st', occ k -> ~ constant k -> st_ok st r open ->
    enc k (set_allowed st (Some KeyTags)) = Ok (bs, st') ->
    key_kind k /\ exists w r', desc open true k r w r' /\ wire 15 w bs /\ is_key w /\ st_ok (set_allowed st' None) r' open.

Ltac no_key E := exfalso; first [apply key_tag_seq in E|apply key_record_seq in E|apply key_tag in E]; [|reflexivity];
  cbn in E; intuition discriminate.

Lemma tagwriter_keys enc next k st r open bs st' : key_ok enc -> occ k -> ~ constant k -> st_ok st r open ->
  (forall o, k = VRef o -> fresh refs o r) -> (forall st x, next k st <> Ok x) ->
  step_tagwriter H cfg enc k next (set_allowed st (Some KeyTags)) = Ok (bs, st') ->
  key_kind k /\ exists w r', wrt open true k r w r' /\ wire 15 w bs /\ is_key w /\ st_ok (set_allowed st' None) r' open.
Proof.
  intros KO O Nc So Fr Nx E. pose proof (WF k O) as Wk.
  destruct k as [| | |b|z|b|s|o]; try (elim Nc; exact I).
  1,3: match type of O with occurs _ _ ?k => assert (Sk : simple_key k) by exact I end; destruct (tagwriter_key H cfg refs node root WF enc next _ st r open bs st' Sk O So E) as (w & A & B & C & D); split; [exact I|]; exists w, r; auto.
  - cbn [step_tagwriter] in E. unfold write_double in E. winv. split; [exact I|]. exists (WDouble b), r.
    split; [constructor|]. split; [to_body; constructor; apply double_wire; exact Wk|]. split; [exact I|].
    destruct So as (L & S' & A). split; auto.
  - specialize (Fr o eq_refl). destruct Wk as (x & Hx & Wx). cbn [step_tagwriter] in E. rewrite Hx in E.
    destruct x as [m|m|x|x|s f|n m s c|t x|d|b|id|id|b w|id|l|l|t l|d|d|]; cbn [wf_obj] in Wx.
    + rewrite jm_items_spec in E by auto. cbn [w_with] in E. no_key E.
    + no_key E.
    + rewrite jo_items_spec in E by auto. cbn [w_with] in E. no_key E.
    + pose proof (proj1 Wx) as Ha. unfold serialize_js_array in E. destruct (sparse_is_smaller (jo_arr x)).
      * rewrite jo_items_spec in E by auto. cbn [w_with] in E. unfold write_sparse in E. destruct (_ || _)%bool in E; [discriminate E|]. no_key E.
      * rewrite arr_iter_eq in E by auto. cbn [w_with] in E. no_key E.
    + no_key E.
    + no_key E.
    + assert (Kt : In t JS_OBJECT_KEY_TAGS) by (eapply key_record_seq; [|exact E]; reflexivity).
      unfold write_primitive in E. winv.
      assert (T : t = kStringObject \/ t = kNumberObject).
      { destruct t; cbn in Kt; try (intuition discriminate); destruct x; contradiction. }
      split; [exists t, x; auto|].
      assert (Rec : forall st1, es_log st1 = snd (log_record pyid (es_log st) o) -> es_seen st1 = es_seen st -> st_ok (set_allowed st1 None) (r ++ [o]) open).
      { intros st1 El Es. pose proof (st_record _ _ _ _ _ _ _ So Fr) as R. destruct R as (R1 & R2 & R3).
        split; [cbn [es_log set_allowed]; rewrite El; exact R1|]. split; [|reflexivity]. intros k v. cbn [es_seen set_allowed]. rewrite Es. apply R2. }
      destruct T as [-> | ->]; cbn [wf_prim] in Wx.
      * destruct x; try contradiction. winv.
        exists (WStr kStringObject s), (r ++ [o]). split; [eapply wr_prim; eauto; constructor|]. split; [to_body; constructor; apply utf8_wire; auto|].
        split; [exact I|]. apply Rec; reflexivity.
      * destruct x; try contradiction; winv.
        -- exists (WNumObj (double_of_Z z)), (r ++ [o]). split; [eapply wr_prim; eauto; constructor; apply double_of_Z_spec; auto|].
           split; [to_body; constructor; apply double_wire; apply double_of_Z_spec; auto|]. split; [exact I|]. apply Rec; reflexivity.
        -- exists (WNumObj bits), (r ++ [o]). split; [eapply wr_prim; eauto; constructor|].
           split; [to_body; constructor; apply double_wire; auto|]. split; [exact I|]. apply Rec; reflexivity.
    + unfold write_date in E. destruct (e_timestamp cfg d); [|discriminate]. no_key E.
    + unfold write_buffer in E. destruct (_ && _); [destruct (_ <? _)%Z; [discriminate|]|]; no_key E.
    + no_key E.
    + no_key E.
    + destruct (_ && _); [elim (Nx _ _ E)|]. apply w_seq_Ok in E as (a & s1 & c & E1 & _).
      assert (Ob : occ (VRef b)) by (apply (occ_child_obj H root o _ _ O Hx); left; auto).
      assert (Kb : key_wrapper b) by (apply (KO (VRef b) _ _ _ _ _ Ob (fun X => X) So E1)). destruct Kb as (t0 & x0 & Hy & _).
      destruct Wx as [_ (y & Hb & By)]. rewrite Hb in Hy. injection Hy as ->. contradiction.
    + no_key E.
    + no_key E.
    + no_key E.
    + no_key E.
    + unfold serialize_buffer in E; destruct (deduplicate H (VRef o) _) as [v0 s0] eqn:Ed;
      assert (A0 : es_allowed s0 = Some KeyTags)
        by (destruct (dedup_spec H root (VRef o) (set_allowed st (Some KeyTags)) v0 s0 (proj1 (proj2 So)) O Ed) as (_ & _ & _ & _ & -> & _); reflexivity);
      destruct v0 as [| | | | | | |o0]; try discriminate; unfold write_buffer in E; cbn [jb_resizable andb] in E;
      apply key_record_seq in E; auto; cbn in E; intuition discriminate.
    + unfold serialize_buffer in E; destruct (deduplicate H (VRef o) _) as [v0 s0] eqn:Ed;
      assert (A0 : es_allowed s0 = Some KeyTags)
        by (destruct (dedup_spec H root (VRef o) (set_allowed st (Some KeyTags)) v0 s0 (proj1 (proj2 So)) O Ed) as (_ & _ & _ & _ & -> & _); reflexivity);
      destruct v0 as [| | | | | | |o0]; try discriminate; unfold write_buffer in E; cbn [jb_resizable andb] in E;
      apply key_record_seq in E; auto; cbn in E; intuition discriminate.
    + elim (Nx _ _ E).
Qed.

Lemma tail_keys enc k st r open bs st' : key_ok enc -> occ k -> ~ constant k -> st_ok st r open ->
  (forall o, k = VRef o -> fresh refs o r) ->
  chain enc ((if node then [step_node H] else []) ++ [step_tagwriter H cfg]) k (set_allowed st (Some KeyTags)) = Ok (bs, st') ->
  key_kind k /\ exists w r', wrt open true k r w r' /\ wire 15 w bs /\ is_key w /\ st_ok (set_allowed st' None) r' open.
Proof.
  intros KO O Nc So Fr E.
  assert (E' : step_tagwriter H cfg enc k (chain enc []) (set_allowed st (Some KeyTags)) = Ok (bs, st')).
  { destruct node; cbn [app chain] in E; auto. unfold step_node in E. destruct k as [| | | | | | |o]; auto.
    destruct (nth_error H o) as [x|]; auto. destruct x; auto. destruct (node_code _); auto. no_key E. }
  eapply tagwriter_keys; eauto. intros; apply unhandled_fails.
Qed.

Lemma chain_keys enc : key_ok enc -> key_ok (chain enc steps).
Proof.
  intros KO k st r open bs st' O Nc So E. assert (Hr : refs = true \/ refs = false) by (destruct refs; auto). unfold steps_of in E.
  destruct Hr as [Hr|Hr]; rewrite Hr in E; cbn [app chain] in E.
  - unfold step_references in E. destruct (deduplicate H k (set_allowed st (Some KeyTags))) as [v0 s0] eqn:Ed.
    assert (Sn : seen_ok H root (set_allowed st (Some KeyTags))) by (apply So).
    destruct (dedup_spec H root _ _ _ _ Sn O Ed) as (Ev & Ov & S0 & El & Ea & D0).
    assert (Rp : rep k v0) by (unfold rep_of; rewrite Hr; exact Ev).
    assert (Hk : heq H k v0).
    { destruct Ev as [->|(A & B & _)]; [left; auto|]. right. exists (S (length H)). unfold hash_key in A, B.
      destruct (hash H (S (length H)) k) as [h|]; [|congruence]. destruct (hash H (S (length H)) v0) as [h0|]; [|congruence].
      injection B as _ <-. eauto. }
    assert (Nc0 : ~ constant v0 /\ (key_kind v0 -> key_kind k)).
    { destruct Ev as [->|(A & B & _)]; auto. pose proof (hash_key_eq H k v0 A B) as X.
      destruct k as [| | |b|z|b|s|o]; try (elim Nc; exact I).
      - subst v0. auto.
      - destruct X as (b0 & -> & _). split; [intros []|intros _; exact I].
      - subst v0. auto.
      - apply heq_sym, heq_ref in Hk as Hv. destruct Hv as [o' ->]. split; [intros []|]. intros (t & x & Hx & T).
        apply heq_obj in Hk as [->|(y & y' & Hy & Hy' & Ob)]; [exists t, x; auto|].
        rewrite Hx in Hy. injection Hy as <-. destruct Ob as (v' & -> & _). exists t, v'. auto. }
    destruct Nc0 as [Nc0 Kk]. cbn [es_log es_allowed set_allowed] in El, Ea.
    assert (So0 : EncodeFacts.st_ok H refs root (set_allowed s0 None) r open).
    { destruct So as (L & _ & _). split; [cbn [es_log set_allowed]; rewrite El; auto|]. split; auto. }
    assert (Es : s0 = set_allowed (set_allowed s0 None) (Some KeyTags)) by (destruct s0; cbn in *; subst; reflexivity).
    assert (T : (forall o, v0 = VRef o -> fresh refs o r) ->
        chain enc ((if node then [step_node H] else []) ++ [step_tagwriter H cfg]) v0 s0 = Ok (bs, st') ->
        key_kind k /\ exists w r', desc open true k r w r' /\ wire 15 w bs /\ is_key w /\ st_ok (set_allowed st' None) r' open).
    { intros Fr Et. rewrite Es in Et. destruct (tail_keys enc v0 _ r open bs st' KO Ov Nc0 So0 Fr Et) as (K0 & w & r' & Wr & Wi & Ik & So').
      split; auto. exists w, r'. split; auto. econstructor; eauto. }
    destruct v0 as [| | | | | | |o]; try (apply T; auto; intros; discriminate).
    destruct (log_contains pyid (es_log s0) o) eqn:Lc.
    + exfalso. unfold write_reference in E. apply bind_Ok in E as [sid [_ E]]. apply key_tag_seq in E; auto. cbn in E. intuition discriminate.
    + apply T; auto. intros o' [= <-] _. destruct So0 as (L0 & _). destruct (L0 Hr) as (_ & _ & _ & Id & _).
      apply Id. cbn [es_log set_allowed]. unfold log_contains, dmem, pyid in Lc. destruct (dget Nat.eqb o (log_ids (es_log s0))); auto; discriminate.
  - destruct (tail_keys enc k st r open bs st' KO O Nc So) as (Kk & w & r' & Wr & Wi & Ik & So'); auto.
    + intros o _ C. congruence.
    + split; auto. exists w, r'. split; auto. econstructor; [unfold rep_of; rewrite Hr; auto|exact Wr].
Qed.
Lemma encode_keys depth : key_ok (encode depth steps).
Proof. induction depth; [intros k st r open bs st' _ _ _ E; discriminate|]. apply chain_keys in IHdepth. exact IHdepth. Qed.

(** the loop over properties with any keys *)
Lemma props_keys depth l : forall st r open bs st', Forall (fun p => ~ constant (fst p)) l -> Forall occ (flat l) -> st_ok st r open ->
  w_items (fun k => constrained KeyTags (encode depth steps k)) (encode depth steps) l st = Ok (bs, st') ->
  exists ps, wprs 15 ps bs /\ keys_ok ps /\ pcount ps = lenN l.
Proof.
  induction l as [|[k v] l IH]; intros st r open bs st' Ns Oc So E; cbn [w_items] in E.
  - winv. exists PNil. split; [constructor|]. split; [exact I|reflexivity].
  - inversion Ns as [|? ? N1 N2]; subst. cbn [flat flat_map fst snd app] in Oc, N1. inversion Oc as [|? ? Ok_ Ov']; subst. inversion Ov' as [|? ? Ov Ol]; subst.
    apply w_seq_Ok in E as (x & s1 & y & E1 & E & ->). unfold constrained in E1. apply bind_Ok in E1 as [[x1 s2] [E1 X]]. injection X as <- <-.
    destruct (encode_keys depth k st r open x1 s2 Ok_ N1 So E1) as (_ & w1 & r1 & D1 & W1 & K1 & So1).
    apply w_seq_Ok in E as (x2 & s3 & y2 & E2 & E & ->).
    destruct (proj1 (encode_ok H cfg refs node root WF depth) v _ r1 open x2 s3 Ov So1 E2) as (w2 & r2 & D2 & W2 & So2).
    destruct (IH s3 r2 open y2 st' N2 Ol So2 E) as (ps & Wp & Kp & Cp).
    exists (PCons w1 w2 ps). split; [constructor; auto|]. split; [split; auto|]. cbn [pcount]. rewrite Cp. unfold lenN. cbn [length]. lia.
Qed.
Theorem object_keys depth o items bs st : Forall (fun p => ~ constant (fst p)) items -> Forall occ (flat items) ->
  write_js_object (encode depth steps) o items es_empty = Ok (bs, st) -> exists ps, pcount ps = lenN items /\ wire 15 (WObject ps) bs.
Proof.
  intros N O E. unfold write_js_object, write_properties in E. winv.
  match goal with X : w_items _ _ _ _ = _ |- _ => apply (props_keys depth items _ [o] []) in X as (ps & Wp & Kp & Cp); auto end.
  - exists ps. split; auto. to_body. apply wb_object; auto using tagged_i. rewrite Cp. apply is_varint_bytes.
  - apply (st_record H refs root es_empty [] []); [apply st_empty|]. intros _ [].
Qed.

(** any other object is rejected at its first tag *)
Notation plain_object := (plain_object cfg).
Lemma tag_rejected t w s0 : es_allowed s0 = Some KeyTags -> ~ In t JS_OBJECT_KEY_TAGS -> w_seq (w_tag t) w s0 = Err EEncode.
Proof. intros A N. unfold w_seq, w_tag. rewrite A. destruct t; try reflexivity; elim N; cbn; auto 10. Qed.
Lemma record_rejected o t w s0 : es_allowed s0 = Some KeyTags -> ~ In t JS_OBJECT_KEY_TAGS -> w_seq (w_record o) (w_seq (w_tag t) w) s0 = Err EEncode.
Proof. intros A N. unfold w_seq at 1, w_record. cbn [bind]. rewrite tag_rejected; auto. Qed.
Ltac rejected := first [apply tag_rejected|apply record_rejected]; [auto|cbn; intuition discriminate].
Lemma tagwriter_rejects enc next o x s0 : nth_error H o = Some x -> wf_obj H cfg x -> plain_object x -> es_allowed s0 = Some KeyTags ->
  (forall b w, x = OView b w -> enc (VRef b) s0 = Err EEncode) ->
  (forall s1 v1, deduplicate H (VRef o) s0 = (v1, s1) -> (exists o1, v1 = VRef o1) /\ es_allowed s1 = Some KeyTags) ->
  step_tagwriter H cfg enc (VRef o) next s0 = Err EEncode.
Proof.
  intros Hx Wx Px A Vw Dd. cbn [step_tagwriter]. rewrite Hx.
  destruct x as [m|m|x|x|s f|n m s c|t x|d|b|id|id|b w|id|l|l|t l|d|d|]; cbn [wf_obj] in Wx; try (rejected; fail).
  - rewrite jm_items_spec by auto. rejected.
  - rewrite jo_items_spec by auto. rejected.
  - unfold serialize_js_array. destruct (sparse_is_smaller (jo_arr x)).
    + rewrite jo_items_spec by auto. cbn [w_with]. unfold write_sparse. destruct (_ || _)%bool eqn:B; [|rejected].
      destruct Wx as (Ha & _ & _ & _ & _ & Ln). rewrite arr_len_eq in B by auto. unfold ModelTags.MAX_ARRAY_LENGTH in B. unfold lenN, ModelArray.zlen in *. lia.
    + rewrite arr_iter_eq by (apply Wx). rejected.
  - cbn in Px. unfold write_primitive. destruct t; try contradiction; try rejected; try (elim (proj1 Px); reflexivity); elim (proj2 Px); reflexivity.
  - destruct Px as [b E]. unfold write_date. rewrite E. rejected.
  - unfold write_buffer. destruct Wx as (Wb & Wl & _). destruct (_ && _); [|rejected]. destruct (Z.ltb_spec (jb_max b) (zlen (jsbuf_view b))); [|rejected].
    unfold jsbuf_view in *. rewrite firstn_all2 in *; [lia|]. unfold zlen in *. lia.
  - assert (F : vtag_beq (vw_tag w) vFloat16 && negb (f_float16 feat) = false).
    { destruct Px as [P|P]; [|rewrite P; destruct (vtag_beq _ _); reflexivity]. destruct (vw_tag w); try reflexivity. congruence. }
    rewrite F. unfold w_seq at 1. rewrite (Vw _ _ eq_refl). reflexivity.
  - unfold serialize_buffer. destruct (deduplicate H (VRef o) s0) as [v1 s1] eqn:E. destruct (Dd _ _ eq_refl) as [[o1 ->] A1].
    unfold write_buffer. cbn [jb_resizable andb]. rejected.
  - unfold serialize_buffer. destruct (deduplicate H (VRef o) s0) as [v1 s1] eqn:E. destruct (Dd _ _ eq_refl) as [[o1 ->] A1].
    unfold write_buffer. cbn [jb_resizable andb]. rejected.
  - contradiction.
Qed.
Definition rejects (d : nat) (enc : val -> W) : Prop :=
  forall o x st r, occ (VRef o) -> nth_error H o = Some x -> plain_object x -> st_ok st r [] -> (d = 0%nat -> buffer_like x) ->
    enc (VRef o) (set_allowed st (Some KeyTags)) = Err EEncode.
Lemma dedup_ref o st v1 s1 : occ (VRef o) -> seen_ok H root st -> deduplicate H (VRef o) st = (v1, s1) ->
  exists o1, v1 = VRef o1 /\ (heq H (VRef o) (VRef o1) /\ type_of H (VRef o) = type_of H (VRef o1)) /\ occ (VRef o1) /\ seen_ok H root s1 /\ es_log s1 = es_log st /\ es_allowed s1 = es_allowed st /\
    deduplicate H v1 s1 = (v1, s1).
Proof.
  intros O Sn E. destruct (dedup_spec H root _ _ _ _ Sn O E) as (Ev & Ov & S1 & El & Ea & D1).
  assert (X : exists o1, v1 = VRef o1 /\ heq H (VRef o) (VRef o1) /\ type_of H (VRef o) = type_of H (VRef o1)).
  { destruct Ev as [<-|(A & B & _)]; [exists o; split; [|split]; auto; apply heq_refl|]. pose proof (hash_key_eq H _ _ A B) as [o1 ->]. exists o1. split; auto.
    unfold hash_key in A, B.
    destruct (hash H (S (length H)) (VRef o)) as [h|] eqn:E1; [|congruence]. destruct (hash H (S (length H)) (VRef o1)) as [h0|] eqn:E2; [|congruence].
    injection B as T <-. split; auto. right. exists (S (length H)), h. auto. }
  destruct X as (o1 & -> & Hq). exists o1. auto 10.
Qed.
Lemma heq_plain o o1 x x1 : heq H (VRef o) (VRef o1) /\ type_of H (VRef o) = type_of H (VRef o1) -> nth_error H o = Some x -> nth_error H o1 = Some x1 ->
  plain_object x -> plain_object x1 /\ (buffer_like x -> buffer_like x1).
Proof.
  intros [E T] Hx Hx1 P. cbn [type_of] in T. rewrite Hx, Hx1 in T. apply heq_obj in E as [<-|(y & y1 & Hy & Hy1 & Ob)]; [rewrite Hx in Hx1; injection Hx1 as <-; auto|].
  rewrite Hx in Hy. injection Hy as <-. rewrite Hx1 in Hy1. injection Hy1 as <-.
  destruct x; cbn in Ob; try contradiction; try (subst x1; auto; fail); decompose [ex and] Ob; subst; cbn in *; auto; try contradiction.
  split; auto. destruct P as [P|P]; [left; congruence|auto].
Qed.
Lemma tail_rejects enc o x st r : (forall b w, x = OView b w -> rejects 0 enc) -> occ (VRef o) -> nth_error H o = Some x -> plain_object x -> st_ok (set_allowed st None) r [] ->
  es_allowed st = Some KeyTags ->
  chain enc ((if node then [step_node H] else []) ++ [step_tagwriter H cfg]) (VRef o) st = Err EEncode.
Proof.
  intros R O Hx Px So A.
  assert (T : step_tagwriter H cfg enc (VRef o) (chain enc []) st = Err EEncode).
  { apply (tagwriter_rejects enc _ o x); auto.
    - apply (wf_occ H cfg root WF _ _ O Hx).
    - intros b w ->. assert (Ob : occ (VRef b)) by (apply (occ_child_obj H root o _ _ O Hx); left; auto).
      destruct (wf_occ H cfg root WF _ _ O Hx) as (_ & y & Hy & By).
      assert (Es : st = set_allowed (set_allowed st None) (Some KeyTags)) by (destruct st; cbn in *; subst; reflexivity).
      rewrite Es. apply (R _ _ eq_refl b y _ r); auto. destruct y; try contradiction; exact I.
    - intros s1 v1 E. destruct (dedup_ref o st v1 s1 O (proj1 (proj2 So)) E) as (o1 & -> & _ & _ & _ & _ & Ea & _). split; eauto. congruence. }
  destruct node; cbn [app chain]; auto. unfold step_node. rewrite Hx. destruct x; auto. destruct (node_code _); auto.
  unfold write_node_view. rejected.
Qed.
Lemma chain_rejects d enc : d = 0%nat \/ rejects 0 enc -> rejects d (chain enc steps).
Proof.
  intros R o x st r O Hx Px So Bx. assert (Hr : refs = true \/ refs = false) by (destruct refs; auto). unfold steps_of.
  destruct Hr as [Hr|Hr]; rewrite Hr; cbn [app chain].
  - unfold step_references. destruct (deduplicate H (VRef o) (set_allowed st (Some KeyTags))) as [v0 s0] eqn:Ed.
    assert (Sn : seen_ok H root (set_allowed st (Some KeyTags))) by (apply So).
    destruct (dedup_ref o _ v0 s0 O Sn Ed) as (o1 & -> & Hq & O1 & S1 & El & Ea & D1). cbn [es_log es_allowed set_allowed] in El, Ea.
    assert (So0 : st_ok (set_allowed s0 None) r []).
    { destruct So as (L & _ & _). split; [cbn [es_log set_allowed]; rewrite El; auto|]. split; auto. }
    destruct (log_contains pyid (es_log s0) o1) eqn:Lc.
    + unfold write_reference. assert (Es : exists sid, log_get_serialized_id pyid (es_log s0) o1 = Ok sid).
      { destruct So0 as (L0 & _). destruct (L0 Hr) as (_ & _ & _ & Id & En). cbn [es_log set_allowed] in *.
        unfold log_get_serialized_id, log_contains, dmem, pyid in *. destruct (dget Nat.eqb o1 _) as [i|] eqn:Di; [|discriminate].
        assert (Io : In o1 r). { destruct (in_dec Nat.eq_dec o1 r) as [|N]; auto. apply Id in N. congruence. }
        apply In_nth_error in Io as [j Hj]. destruct (En _ _ Hj) as (Dj & e & Ee & Eo). rewrite Di in Dj. injection Dj as ->. rewrite Ee.
        destruct e as [|[|]]; eauto. elim (proj1 Eo eq_refl). }
      destruct Es as [sid ->]. cbn [bind]. rejected.
    + destruct (WF _ O1) as (x1 & Hx1 & _). destruct (heq_plain _ _ _ _ Hq Hx Hx1 Px) as [P1 B1].
      apply (tail_rejects enc o1 x1 s0 r); auto. intros b w ->. destruct R as [R|R]; auto. elim (B1 (Bx R)).
  - apply (tail_rejects enc o x _ r); auto; [|destruct So as (L & S' & A); split; auto]. intros b w ->. destruct R as [R|R]; auto. elim (Bx R).
Qed.
Theorem encode_rejects d o x st r : occ (VRef o) -> nth_error H o = Some x -> plain_object x -> st_ok st r [] ->
  encode (S (S d)) steps (VRef o) (set_allowed st (Some KeyTags)) = Err EEncode.
Proof.
  intros O Hx Px So. apply (chain_rejects 1 (encode (S d) steps)) with (x := x) (r := r); auto; [|discriminate].
  right. apply (chain_rejects 0 (encode d steps)). auto.
Qed.
End Keys.
