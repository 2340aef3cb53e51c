(** The invariant that relates the objects encoded to the objects decoded so far. *)
From Coq Require Import List NArith ZArith Bool Lia ZifyBool ZifyNat ZifyN Sorting.Sorted.
From Verif Require Import Base Dict ModelTags ModelPrim SpecPrim PrimFacts SpecNumber SpecArray ModelLog ModelArray ArrayFacts ArrayFacts2 ArrayFacts3 ModelValue ValueFacts KeyFacts SpecKey SpecMap
  ModelObject ModelMap MapFacts ModelBuffer SpecBuffer BufferFacts ModelHeap ModelDecode SpecWire SpecBuild BuildFacts DecodeSound ModelEncode SpecEncode SpecFail HashFacts
  EncodeFacts EncodeFacts2 SpecGraph ArrayBuild BuildPut RoundTrip.
Import ListNotations.
Open Scope N_scope.

(** * Views of equal memory *)
Lemma window_again K K' v d ro : view_ok v -> bk_data K = Some d -> bk_data K' = Some d -> view_in_range K v = true ->
  (view_tracking K v = true -> bk_resizable K' = true \/ (zlen d mod isize (vw_tag v) = 0)%Z) ->
  exists v', view_from_bytes (vw_tag v) K' (view_byte_offset K v) (if view_tracking K v then None else Some (view_byte_length K v)) ro = Ok v' /\
    vw_tag v' = vw_tag v /\ view_byte_offset K' v' = view_byte_offset K v /\ view_memory K' v' = view_memory K v /\
    (vw_length v' = None <-> view_tracking K v = true) /\ view_ok v'.
Proof.
  intros VO D D' IR TR. destruct (view_memory K v) as [b m] eqn:VM.
  assert (b = true) by (unfold view_in_range in IR; rewrite VM in IR; exact IR). subst b.
  destruct (view_memory_spec K v true m VO VM) as (F & _ & PO & ZL). specialize (proj1 F eq_refl) as F1. clear F.
  specialize (PO eq_refl). specialize (ZL eq_refl). unfold data_of in *. rewrite D in *.
  pose proof (view_memory_items K v true m VO VM) as MI. pose proof (isize_pos (vw_tag v)) as SP.
  assert (BO : view_byte_offset K v = (vw_offset v * isize (vw_tag v))%Z) by (unfold view_byte_offset; rewrite IR; auto).
  assert (BL : view_byte_length K v = zlen m) by (unfold view_byte_length; rewrite VM; auto).
  rewrite BO, BL. set (s := isize (vw_tag v)) in *. destruct VO as [VO1 VO2].
  assert (OM : ((vw_offset v * s) mod s = 0)%Z) by (apply Z.mod_mul; lia).
  assert (off_le : (vw_offset v * s <= zlen d)%Z).
  { unfold fits in F1. destruct (vw_length v); [nia|lia]. }
  assert (C : creatable (vw_tag v) (zlen d) (bk_resizable K') (vw_offset v * s) (if view_tracking K v then None else Some (zlen m))).
  { unfold creatable. fold s. split; [nia|]. split; auto. destruct (view_tracking K v) eqn:T.
    - split; [unfold fits; lia|]. auto.
    - split; [|split; auto; apply zlen_nonneg]. rewrite ZL. unfold fits in *. destruct (vw_length v); [exact F1|].
      pose proof (Z.mul_div_le (zlen d - vw_offset v * s) s SP). nia. }
  destruct (from_bytes_creatable _ _ _ _ ro d D' C) as [v' E]. exists v'. split; auto.
  destruct (from_bytes_ok _ _ _ _ _ _ _ D' E) as (_ & VO' & Tg & Of & Ln). split; auto. fold s in Of, Ln.
  assert (OffE : vw_offset v' = vw_offset v) by (apply (Z.mul_reg_r _ _ s); lia).
  assert (ME : view_memory K' v' = (true, m)).
  { rewrite <- VM. unfold view_memory. rewrite D, D'. unfold view_span. rewrite Tg, OffE. fold s.
    unfold view_tracking in Ln. destruct (vw_length v) as [l|] eqn:VL.
    - rewrite ZL in Ln. rewrite Z.div_mul in Ln by lia. rewrite Ln. reflexivity.
    - destruct (bk_resizable K) eqn:BR; rewrite Ln; auto. rewrite ZL. rewrite Z.div_mul by lia.
      assert (Q : (zlen d <? vw_offset v * s + (zlen d - vw_offset v * s) / s * s)%Z = false).
      { apply Z.ltb_ge. pose proof (Z.mul_div_le (zlen d - vw_offset v * s) s SP). nia. }
      rewrite Q. rewrite Z.max_r by lia. reflexivity. }
  split; [|split; [|split]]; auto.
  - unfold view_byte_offset, view_in_range. rewrite ME. cbn [fst]. rewrite Tg, OffE. reflexivity.
  - rewrite Ln. unfold view_tracking in *. destruct (vw_length v); [split; discriminate|]. destruct (bk_resizable K); split; auto; discriminate.
Qed.
Lemma whole_view t d ro : (zlen d mod isize t = 0)%Z ->
  view_memory (BkBuffer (mkBuf d (zlen d) false false)) (mkView t 0 None ro) = (true, d).
Proof.
  intros M. unfold view_memory. cbn [bk_data]. rewrite jsbuf_view_all by (cbn; lia). cbn [jb_data].
  unfold view_span. cbn [vw_offset vw_tag vw_length]. rewrite Z.mul_0_l, Z.sub_0_r.
  pose proof (zlen_nonneg d). pose proof (isize_pos t). rewrite Z.max_r by lia.
  assert (E : (zlen d / isize t * isize t = zlen d)%Z) by (pose proof (Z.div_mod (zlen d) (isize t)); lia).
  rewrite E. f_equal; [lia|]. unfold slice. cbn [Z.to_nat skipn]. unfold zlen. rewrite Nat2Z.id. apply firstn_all.
Qed.
Lemma node_formats t c : node_code t = Some c -> node_format c = Some t.
Proof. destruct t; cbn; intros E; try discriminate; injection E as <-; reflexivity. Qed.

Section Inv.
Variable H : heap.
Variable cfg : ecfg.
Variable dcfg : ModelDecode.dcfg.
Variables refs node : bool.
Variable root : val.
Variable rep : val -> val -> Prop.
Notation occ := (occurs H root).

Notation img R := (image rep (rel R)).
Definition not_prim (x : obj) : Prop := match x with OPrim _ _ => False | _ => True end.
Record inv (R : list (nat * val)) (st : dstate) (r P : list nat) : Prop := {
  i_log : refs = true -> length r = length (ds_log st) /\ incl (combine r (ds_log st)) R;
  i_dom : refs = true -> node = false -> map fst R = r;
  i_nd : NoDup (locs R);
  i_lt : forall j, In j (locs R) \/ In j P -> (j < length (ds_heap st))%nat;
  i_all : forall o u, In (o, u) R -> exists x, occ (VRef o) /\ nth_error H o = Some x /\
    ((exists j, u = VRef j /\ In j P /\ ~ buffer_like x /\ not_prim x) \/
     ((forall j, u = VRef j -> ~ In j P) /\
      forall h', agree P (ds_heap st) h' -> object_image H h' cfg dcfg node rep (rel R) x u)) }.

Lemma incl_rel R R' : incl R R' -> forall o u, rel R o u -> rel R' o u.
Proof. intros I o u. apply I. Qed.
Lemma combine_snoc {A B} (l : list A) (m : list B) a b : length l = length m -> combine (l ++ [a]) (m ++ [b]) = combine l m ++ [(a, b)].
Proof. revert m. induction l; intros [|y m] L; cbn in *; try lia; auto. rewrite IHl by lia. auto. Qed.
Lemma incl_snoc R (p : nat * val) : incl R (R ++ [p]).
Proof. apply incl_appl, incl_refl. Qed.
Lemma NoDup_add (l : list nat) j : NoDup l -> ~ In j l -> NoDup (l ++ [j]).
Proof.
  induction l as [|x l IH]; intros N I; cbn; [constructor; auto; constructor|]. inversion N; subst. constructor.
  - rewrite in_app_iff. cbn. intros [A|[A|[]]]; [auto|]. subst. apply I. left. auto.
  - apply IH; auto. intros A. apply I. right. auto.
Qed.

(** A finished object. *)
Lemma inv_add R st r P o x u st' r' : inv R st r P -> occ (VRef o) -> nth_error H o = Some x ->
  (exists ext, ds_heap st' = ds_heap st ++ ext) ->
  (refs = true -> (ds_log st' = ds_log st ++ [u] /\ r' = r ++ [o]) \/ (ds_log st' = ds_log st /\ r' = r /\ node = true)) ->
  (forall j, u = VRef j -> (length (ds_heap st) <= j < length (ds_heap st'))%nat) ->
  (forall h', agree P (ds_heap st') h' -> object_image H h' cfg dcfg node rep (rel (R ++ [(o, u)])) x u) ->
  inv (R ++ [(o, u)]) st' r' P.
Proof.
  intros I O Hx [ext HE] HL HU HI. destruct I as [IL ID IN IT IA]. split.
  - intros Rt. destruct (IL Rt) as [L IC]. destruct (HL Rt) as [[-> ->]|(-> & -> & _)].
    + split; [rewrite !app_length; cbn; lia|]. rewrite combine_snoc by auto. apply incl_app; [apply incl_appl; auto|apply incl_appr, incl_refl].
    + split; auto. apply incl_appl. auto.
  - intros Rt Nd. rewrite map_app. cbn [map fst]. rewrite (ID Rt Nd). destruct (HL Rt) as [[_ ->]|(_ & _ & Q)]; [auto|congruence].
  - rewrite locs_app. unfold locs at 2. cbn [flat_map snd]. rewrite app_nil_r. destruct u; cbn [loc]; rewrite ?app_nil_r; auto.
    apply NoDup_add; auto. intros Q. specialize (IT _ (or_introl Q)). specialize (HU _ eq_refl). lia.
  - intros j Q. rewrite locs_app in Q. unfold locs at 2 in Q. cbn [flat_map snd] in Q. rewrite app_nil_r, in_app_iff in Q.
    assert (Hle : (length (ds_heap st) <= length (ds_heap st'))%nat) by (rewrite HE, app_length; lia).
    destruct Q as [[Q|Q]|Q].
    + specialize (IT j (or_introl Q)). lia.
    + destruct u; cbn [loc] in Q; try contradiction. destruct Q as [<-|[]]. apply (HU _ eq_refl).
    + specialize (IT j (or_intror Q)). lia.
  - intros p w Q. apply in_app_iff in Q as [Q|[Q|[]]].
    + destruct (IA p w Q) as (y & Oy & Hy & [C|[C1 C2]]); exists y; split; auto; split; auto. right. split; auto.
      intros h' A. eapply object_image_mono; [apply incl_rel, incl_snoc|]. apply C2. intros j L NP. rewrite A; auto.
      * rewrite HE. rewrite nth_error_app1 by auto. auto.
      * rewrite HE, app_length. lia.
    + injection Q as <- <-. exists x. split; auto. split; auto. right. split; auto.
      intros j -> IP. specialize (IT j (or_intror IP)). specialize (HU j eq_refl). lia.
Qed.
(** A container that is still being filled. *)
Lemma inv_pending R st r P o x c : inv R st r P -> occ (VRef o) -> nth_error H o = Some x -> ~ buffer_like x -> not_prim x ->
  let i := length (ds_heap st) in
  let st' := mkD (ds_heap st ++ [c]) (ds_log st ++ [VRef i]) in
  inv (R ++ [(o, VRef i)]) st' (r ++ [o]) (i :: P) /\ ~ In i P.
Proof.
  intros I O Hx NB NP i st'. destruct I as [IL ID IN IT IA].
  assert (NiP : ~ In i P) by (intros Q; specialize (IT i (or_intror Q)); unfold i in IT; lia). split; auto. split.
  - intros Rt. destruct (IL Rt) as [L IC]. cbn [ds_log st'].
    split; [rewrite !app_length; cbn; lia|]. rewrite combine_snoc by auto. apply incl_app; [apply incl_appl; auto|apply incl_appr, incl_refl].
  - intros Rt Nd. rewrite map_app. cbn [map fst]. rewrite (ID Rt Nd). auto.
  - rewrite locs_app. unfold locs at 2. cbn [flat_map snd loc app]. apply NoDup_add; auto. intros Q. specialize (IT _ (or_introl Q)). unfold i in IT. lia.
  - intros j Q. rewrite locs_app in Q. unfold locs at 2 in Q. cbn [flat_map snd loc app] in Q. rewrite in_app_iff in Q.
    cbn [ds_heap st']. rewrite app_length. cbn [length].
    destruct Q as [[Q|[Q|[]]]|[Q|Q]]; [specialize (IT j (or_introl Q))|..|specialize (IT j (or_intror Q))]; unfold i in *; lia.
  - intros p w Q. apply in_app_iff in Q as [Q|[Q|[]]].
    + destruct (IA p w Q) as (y & Oy & Hy & [(j & C1 & C2 & C3)|[C1 C2]]); exists y; split; auto; split; auto.
      * left. exists j. split; auto. split; auto. right. auto.
      * right. split.
        { intros j -> [E|E]; [|eapply C1; eauto]. apply in_locs in Q. specialize (IT j (or_introl Q)). unfold i in E. lia. }
        intros h' A. eapply object_image_mono; [apply incl_rel, incl_snoc|]. apply C2. intros j L NjP. rewrite A.
        -- cbn [ds_heap st']. rewrite nth_error_app1 by auto. auto.
        -- cbn [ds_heap st']. rewrite app_length. lia.
        -- intros [E|E]; [unfold i in E; lia|auto].
    + injection Q as <- <-. exists x. split; auto. split; auto. left. exists i. split; auto. split; [left; auto|auto].
Qed.
Lemma heap_set_length h i c : length (heap_set h i c) = length h.
Proof. revert i. induction h; intros [|i]; cbn; auto. Qed.
Lemma inv_finish R st r P o x i c : inv R st r (i :: P) -> ~ In i P -> In (o, VRef i) R -> nth_error H o = Some x ->
  (forall h, cell_image H h cfg dcfg node rep (rel R) x c) -> not_prim x -> inv R (store i c st) r P.
Proof.
  intros I NP IR Hx HC NPr. destruct I as [IL ID IN IT IA].
  assert (Li : (i < length (ds_heap st))%nat) by (apply IT; right; left; auto). split; auto.
  - intros j Q. cbn [store ds_heap]. rewrite heap_set_length. apply IT. destruct Q; auto. right. right. auto.
  - intros p w Q. destruct (IA p w Q) as (y & Oy & Hy & [(j & C1 & C2 & C3 & C4)|[C1 C2]]); exists y; split; auto; split; auto.
    + destruct C2 as [<-|C2]; [|left; exists j; auto]. subst w. assert (p = o) by (eapply locs_inj; eauto). subst p.
      assert (y = x) by congruence. subst y. right. split; [intros j [= <-]; auto|].
      intros h' A. assert (E : nth_error h' i = Some c).
      { rewrite A; auto; cbn [store ds_heap]; [apply heap_set_same|rewrite heap_set_length]; auto. }
      unfold object_image. destruct x; try contradiction; exists i, c; auto.
    + right. split; [intros j -> E; eapply C1; eauto; right; auto|]. intros h' A. apply C2. intros j L NjP. rewrite A.
      * cbn [store ds_heap]. apply heap_set_other. intros ->. apply NjP. left. auto.
      * cbn [store ds_heap]. rewrite heap_set_length. auto.
      * intros E. apply NjP. right. auto.
Qed.

(** * What the invariant says about decoded values *)
Hypothesis WF : wf_graph H cfg root.
Hypothesis RepHole : forall v, rep v VHole -> v = VHole.
Lemma inv_shape R st r P o u : inv R st r P -> In (o, u) R ->
  exists x, occ (VRef o) /\ nth_error H o = Some x /\ match x with OPrim t p => unwrapped t p u | _ => exists j, u = VRef j end.
Proof.
  intros I Q. destruct (i_all _ _ _ _ I o u Q) as (x & O & Hx & C). exists x. split; auto. split; auto.
  destruct C as [(j & -> & _ & _ & NP)|[_ C]].
  - destruct x; try contradiction; eauto.
  - specialize (C _ (agree_refl _ _)). unfold object_image in C. destruct x; auto; destruct C as (j & y & -> & _); eauto.
Qed.
Lemma wf_at o x : occ (VRef o) -> nth_error H o = Some x -> wf_obj H cfg x.
Proof. intros O Hx. destruct (WF _ O) as (y & Hy & W). congruence. Qed.
Lemma solid_image R st r P v v' : inv R st r P -> img R v v' -> v <> VHole -> v' <> VHole.
Proof.
  intros I (v0 & E & M) NH ->. destruct v0.
  8:{ destruct (inv_shape _ _ _ _ _ _ I M) as (x & O & Hx & S). destruct x; try (destruct S; discriminate).
      pose proof (wf_at _ _ O Hx) as W. cbn [wf_obj] in W. inversion S; subst. destruct tag; cbn in W; contradiction. }
  all: inversion M; subst; try discriminate. auto.
Qed.
Lemma double_same b z : double_is b z -> js_same no_bytes (VInt z) (VFloat b).
Proof. intros (_ & D & _). unfold js_same. cbn [number_of]. apply same_number_sym. exact D. Qed.
Definition ref_free (v : val) : Prop := match v with VRef _ => False | _ => True end.
Lemma key_image R st r P v v' : inv R st r P -> img R v v' ->
  exists v0, rep v v0 /\
   ((exists o j, unwrap H v0 = VRef o /\ v' = VRef j /\ In (o, VRef j) R) \/
    (js_same no_bytes (unwrap H v0) v' /\ ref_free v' /\ ref_free (unwrap H v0) /\ forall z, v' = VInt z -> unwrap H v0 = VInt z)).
Proof.
  intros I (v0 & E & M). exists v0. split; auto. destruct v0.
  8:{ destruct (inv_shape _ _ _ _ _ _ I M) as (x & O & Hx & S). cbn [unwrap]. rewrite Hx. destruct x.
      7:{ right. pose proof (wf_at _ _ O Hx) as W. cbn [wf_obj] in W. inversion S; subst.
          - split; [apply js_same_refl|]. split; [|split; auto]; destruct tag, v'; cbn in *; auto.
          - split; [|split; [exact Logic.I|split; [exact Logic.I|discriminate]]]. apply double_same. auto. }
      all: left; destruct S as [j ->]; eauto. }
  all: right; cbn [unwrap]; inversion M; subst; (split; [try apply js_same_refl|split; [exact Logic.I|split; [exact Logic.I|intros ? Q; try discriminate Q; auto]]]).
  apply double_same. auto.
Qed.
Lemma Forall2_nth {A B} (P : A -> B -> Prop) l m i b : Forall2 P l m -> nth_error m i = Some b -> exists a, nth_error l i = Some a /\ P a b.
Proof. intros F. revert i. induction F; intros [|i] E; try discriminate; cbn in *; eauto. injection E as <-. eauto. Qed.
Lemma images_apart R st r P ks ks' : inv R st r P -> Forall2 (img R) ks ks' -> keys_apart H rep ks -> apart ks'.
Proof.
  intros I F [A1 A2]. split.
  - intros i j a' b' Ea Eb NE S. destruct (Forall2_nth _ _ _ _ _ F Ea) as (a & Na & Ia). destruct (Forall2_nth _ _ _ _ _ F Eb) as (b & Nb & Ib).
    destruct (key_image _ _ _ _ _ _ I Ia) as (a0 & Ra & Ka). destruct (key_image _ _ _ _ _ _ I Ib) as (b0 & Rb & Kb).
    apply (A1 i j a b a0 b0); auto. destruct Ka as [(o & k & Ua & -> & Ma)|(Sa & Fa & Fa0 & _)], Kb as [(o' & k' & Ub & -> & Mb)|(Sb & Fb & Fb0 & _)].
    + cbn in S. destruct S as [->|(? & Q & _)]; [|discriminate]. rewrite Ua, Ub. left. eapply locs_inj; eauto. apply (i_nd _ _ _ _ I).
    + exfalso. unfold js_same in S. cbn [number_of] in S. destruct (number_of b'); auto. destruct b'; try discriminate. contradiction.
    + exfalso. unfold js_same in S. cbn [number_of] in S. destruct (number_of a'); auto. destruct a'; try discriminate. contradiction.
    + eapply js_same_trans; [exact Sa|]. eapply js_same_trans; [exact S|]. apply js_same_sym. exact Sb.
  - intros a' Ia' (z & -> & Hz). apply In_nth_error in Ia' as [i Ea]. destruct (Forall2_nth _ _ _ _ _ F Ea) as (a & Na & Ia).
    destruct (key_image _ _ _ _ _ _ I Ia) as (a0 & Ra & [(o & k & _ & Q & _)|(_ & _ & _ & Q)]); [discriminate|].
    apply (A2 a a0); auto; [eapply nth_error_In; eauto|]. exists z. split; auto.
Qed.
End Inv.
