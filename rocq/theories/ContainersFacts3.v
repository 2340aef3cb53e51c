(** loads with other container types: what it returns in the terms of SpecContainers, and the default types. *)
From Coq Require Import List Arith NArith ZArith Bool Lia ZifyBool ZifyNat ZifyN.
From Verif Require Import Base Dict ModelTags ModelPrim ModelValue ModelObject ModelMap ModelBuffer ModelHeap ModelDecode ModelEncode SpecContents ModelContainers SpecContainers
  ContainersFacts ContainersFacts2.
Import ListNotations.
Open Scope nat_scope.

(** * The objects *)
Section Cells.
Variable T : types.
Variable cfg : dcfg.
Hypothesis Repr : repr_by_value cfg.
Variable h : heap.
Hypothesis Good : Forall (good_cell h) h.
Lemma crel_in_place x x' : crel T cfg h x x' -> in_place_of T cfg h x x'.
Proof.
  destruct x; cbn [crel in_place_of]; auto; try (intros [_ ->]; auto).
  - destruct (t_map T); auto. intros (ps & F & E & ->). eexists. split; [reflexivity|]. eapply map_as_dict; eauto.
  - destruct (t_object T); auto. intros (ps & F & E & ->). eexists. split; [reflexivity|]. eapply object_as_properties; eauto. left. auto.
  - destruct (t_array T); auto. intros (ps & F & E & ->). eexists. split; [reflexivity|]. eapply object_as_properties; eauto. right. auto.
Qed.
Lemma crel_possible x x' : crel T cfg h x x' -> ~ impossible T h x.
Proof.
  destruct x; cbn [crel impossible]; auto.
  - intros C (Et & k & v & J & U). rewrite Et in C. destruct C as (ps & F & E & _). cbn [empty_of] in E.
    apply in_map_iff in J as ([s kv] & Ekv & J). cbn in Ekv. subst kv. destruct (map_from cfg _ _ E _ _ _ J) as [J' _]. rewrite Forall_forall in F.
    destruct (F _ J') as [V Ha]. cbn in *. apply (unhashable_spec h Good) in U; [congruence|auto].
  - intros [E _]. congruence.
Qed.
Lemma unusable_impossible x : unusable T h x -> impossible T h x.
Proof.
  destruct x; cbn [unusable impossible]; auto. intros (Et & o & v & J & V & Ha). split; auto. exists (VRef o), v. split.
  - apply in_map_iff. exists (SId o, (VRef o, v)). auto.
  - apply (unhashable_spec h Good); auto.
Qed.
End Cells.

(** * The default types *)
Section Default.
Variable cfg : dcfg.
Variable data : bytes.
Variable version : N.
Notation D := default_types.
Definition same_rec (r r' : reader) : Prop := forall t p st, r t p st = r' t p st.
Definition no_dict (x : obj) : Prop := match x with ODict _ => False | _ => True end.
Lemma tput_put h x k v : no_dict x -> tput cfg h x k v = put cfg x k v.
Proof. destruct x; cbn; tauto. Qed.
Lemma put_no_dict x k v y : put cfg x k v = Ok y -> no_dict y.
Proof. intros E. apply put_kind in E. destruct x, y; cbn in *; tauto. Qed.
Definition keyed (key_ok' : val -> bool) (x : obj) : Prop := forall k, key_ok' k = key_ok x k.
Lemma key_ok_kind x k v y : put cfg x k v = Ok y -> forall w, key_ok y w = key_ok x w.
Proof. intros E w. apply put_kind in E. destruct x, y; cbn in *; tauto. Qed.
Lemma tdec_value_same r r' p st : same_rec r r' -> dec_value data r p st = dec_value data r' p st.
Proof. intros S0. unfold dec_value. destruct (read_tag data p) as [[t q]|]; cbn [bind]; auto. Qed.
Lemma tdec_string_same r r' p st : same_rec r r' -> dec_string data r p st = dec_string data r' p st.
Proof. intros S0. unfold dec_string. destruct (read_tag data p) as [[t q]|]; cbn [bind]; auto. rewrite S0. auto. Qed.
Lemma tdec_field_same r r' f e p st : same_rec r r' -> dec_field data r f e p st = dec_field data r' f e p st.
Proof. intros S0. unfold dec_field. rewrite (tdec_string_same r r') by auto. auto. Qed.
Lemma tdec_pairs_same r r' ik kok e : same_rec r r' -> forall fuel p acc n st, no_dict acc -> keyed kok acc ->
  tdec_pairs cfg data r ik kok e fuel p acc n st = dec_pairs cfg data r' ik e fuel p acc n st.
Proof.
  intros S0. induction fuel as [|fuel IH]; intros p acc n st Nd Kd; cbn [tdec_pairs dec_pairs]; auto.
  destruct (read_tag data p) as [[t q]|]; cbn [bind]; auto. destruct (stag_eqb t e); auto. destruct (ik t); auto. rewrite S0.
  destruct (r' t q st) as [[[k q1] st1]|]; cbn [bind]; auto. rewrite Kd. destruct (negb (key_ok acc k)); auto.
  rewrite (tdec_value_same r r') by auto. destruct (dec_value data r' q1 st1) as [[[v q2] st2]|]; cbn [bind]; auto. rewrite tput_put by auto.
  destruct (put cfg acc k v) as [acc'|] eqn:Ep; cbn [bind]; auto. apply IH.
  - eapply put_no_dict; eauto.
  - intros w. rewrite Kd. symmetry. eapply key_ok_kind; eauto.
Qed.
Lemma tdec_elems_same r r' : same_rec r r' -> forall fuel count i p acc st, no_dict acc ->
  tdec_elems cfg data r fuel count i p acc st = dec_elems cfg data r' fuel count i p acc st.
Proof.
  intros S0. induction fuel as [|fuel IH]; intros count i p acc st Nd; cbn [tdec_elems dec_elems]; auto. destruct (i =? count)%N; auto.
  rewrite (tdec_value_same r r') by auto. destruct (dec_value data r' p st) as [[[v q2] st2]|]; cbn [bind]; auto. rewrite tput_put by auto.
  destruct (put cfg acc _ v) as [acc'|] eqn:Ep; cbn [bind]; auto. apply IH. eapply put_no_dict; eauto.
Qed.
Lemma elems_kind r : forall fuel count i p acc st acc' q st', dec_elems cfg data r fuel count i p acc st = Ok (acc', q, st') ->
  forall kok, no_dict acc -> keyed kok acc -> no_dict acc' /\ keyed kok acc'.
Proof.
  induction fuel as [|fuel IH]; intros count i p acc st acc' q st' E kok Nd Kd; cbn [dec_elems] in E; destruct (i =? count)%N; try discriminate; try (injection E as <- _ _; auto; fail).
  destruct (dec_value data r p st) as [[[v q2] st2]|]; cbn [bind] in E; [|discriminate].
  destruct (put cfg acc _ v) as [acc1|] eqn:Ep; cbn [bind] in E; [|discriminate]. eapply IH; eauto.
  - eapply put_no_dict; eauto.
  - intros w. rewrite Kd. symmetry. eapply key_ok_kind; eauto.
Qed.
Lemma tdec_members_same r r' : same_rec r r' -> forall fuel p acc n st, dec_members data r fuel p acc n st = dec_members data r' fuel p acc n st.
Proof.
  intros S0. induction fuel as [|fuel IH]; intros p acc n st; cbn [dec_members]; auto.
  destruct (read_tag data p) as [[t q]|]; cbn [bind]; auto. destruct (stag_eqb t _); auto. rewrite S0.
  destruct (r' t q st) as [[[k q1] st1]|]; cbn [bind]; auto. destruct (put_member acc k) as [acc'|] eqn:Ep; cbn [bind]; auto.
Qed.
Lemma tdec_error_same r r' : same_rec r r' -> forall p st, tdec_error D data r p st = dec_error data r' p st.
Proof.
  intros S0 p st. unfold tdec_error, dec_error. destruct (read_error_tag data p) as [[e q]|]; cbn [bind]; auto.
  destruct (if ename_beq (for_error_tag e) nError then Ok (e, q) else read_error_tag data q) as [[e1 q1]|]; cbn [bind]; auto.
  rewrite (tdec_field_same r r') by auto. destruct (dec_field data r' eMessage e1 q1 st) as [[[[m e2] q2] st2]|]; cbn [bind]; auto.
  rewrite (tdec_field_same r r') by auto. destruct (dec_field data r' eStack e2 q2 st2) as [[[[s e3] q3] st3]|]; cbn [bind]; auto.
  cbn [t_error default_types]. destruct (alloc_rec _ st3) as [i st4]. rewrite (tdec_value_same r r') by auto.
  destruct (if etag_beq e3 eCause then _ else _) as [[[[c e4] q4] st5]|]; cbn [bind]; auto. destruct s; auto.
  rewrite (tdec_field_same r r') by auto. auto.
Qed.
Lemma tdec_same : forall fuel, same_rec (tdec D cfg data version fuel) (dec cfg data version fuel).
Proof.
  induction fuel as [|f IH]; intros t p st; [reflexivity|].
  assert (Ko : keyed property_key (OObject jo_empty)) by (intros k; reflexivity). assert (Ka : keyed property_key (OArray jo_empty)) by (intros k; reflexivity).
  destruct t; try reflexivity; cbn [tdec dec].
  all: cbv zeta; try (unfold dec_regexp; rewrite (tdec_string_same _ _ _ _ IH); reflexivity); try (apply tdec_error_same; exact IH).
  all: unfold tdec_object, dec_object, tdec_map, dec_map, tdec_dense, dec_dense, tdec_sparse, dec_sparse, tdec_set, dec_set; cbn [t_set default_types];
    unfold new_map, new_object, new_array; cbn [t_map t_object t_array default_types].
  all: destruct (alloc_rec _ st) as [i st1].
  all: try (rewrite (tdec_pairs_same _ _ _ _ _ IH) by (try exact Logic.I; try exact Ko; try (intros k; reflexivity)); reflexivity).
  all: try (rewrite (tdec_members_same _ _ IH); reflexivity).
  - destruct (read_varint data p 0) as [[len q]|]; cbn [bind]; auto. rewrite tput_put by exact Logic.I.
    destruct (if (0 <? len)%N then _ else _) as [acc|] eqn:Ea; cbn [bind]; auto.
    assert (Q : no_dict acc /\ keyed property_key acc).
    { destruct (0 <? len)%N; [|injection Ea as <-; split; [exact Logic.I|exact Ka]]. split; [eapply put_no_dict; eauto|].
      intros w. rewrite Ka. symmetry. eapply key_ok_kind; eauto. }
    destruct Q. rewrite (tdec_pairs_same _ _ _ _ _ IH) by auto. reflexivity.
  - destruct (read_varint data p 0) as [[count q]|]; cbn [bind]; auto. rewrite (tdec_elems_same _ _ IH) by exact Logic.I.
    destruct (dec_elems _ _ _ _ _ _ _ _ _) as [[[acc q1] st2]|] eqn:Ea; cbn [bind]; auto.
    destruct (elems_kind _ _ _ _ _ _ _ _ _ _ Ea property_key Logic.I Ka) as [Nd Kd]. rewrite (tdec_pairs_same _ _ _ _ _ IH) by auto. reflexivity.
Qed.
End Default.
Lemma loads_default cfg data : loads_types default_types cfg data = loads cfg data.
Proof.
  unfold loads_types, loads_types_at, loads, loads_at, loads_depth. destruct (read_header data 0) as [[version p]|]; cbn [bind]; auto.
  rewrite (tdec_value_same _ _ _ _ _ (tdec_same cfg data version (S (length data)))). reflexivity.
Qed.
